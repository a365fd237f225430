(** Lemmas for C36, C37, C39. *)
From Coq Require Import Ascii String List Bool Arith Lia Permutation.
From Verif Require Import Str_Model Str_Proofs Data_Model Data_Spec.
Import ListNotations.
Open Scope list_scope.

(** ** Dictionaries *)
Lemma get_set {A} (m : list (str * A)) k v k' : get (set m k v) k' = if seqb k' k then Some v else get m k'.
Proof.
  induction m as [|[a w] m IH]; cbn [set get]; auto. destruct (seqb k a) eqn:E; cbn [get].
  - apply seqb_eq in E. subst a. destruct (seqb k' k); auto.
  - rewrite IH. destruct (seqb k' a) eqn:E2; auto. destruct (seqb k' k) eqn:E3; auto. apply seqb_eq in E2, E3. subst. rewrite seqb_refl in E. discriminate.
Qed.
Lemma get_set_same {A} (m : list (str * A)) k v : get (set m k v) k = Some v.
Proof. now rewrite get_set, seqb_refl. Qed.
Lemma get_set_other {A} (m : list (str * A)) k v k' : k' <> k -> get (set m k v) k' = get m k'.
Proof. intros N. rewrite get_set. destruct (seqb k' k) eqn:E; auto. apply seqb_eq in E. congruence. Qed.
Lemma get_del {A} (m : list (str * A)) k k' : get (del m k) k' = if seqb k' k then None else get m k'.
Proof.
  unfold del. induction m as [|[a w] m IH]; cbn [filter get fst]; [destruct (seqb k' k); auto|].
  destruct (seqb a k) eqn:E; cbn [negb].
  - rewrite IH. apply seqb_eq in E. subst a. destruct (seqb k' k); auto.
  - cbn [get]. rewrite IH. destruct (seqb k' a) eqn:E2; auto. apply seqb_eq in E2. subst a. now rewrite E.
Qed.
Lemma get_In {A} (m : list (str * A)) k v : get m k = Some v -> In (k, v) m.
Proof. induction m as [|[a w] m IH]; cbn [get]; [discriminate|]. destruct (seqb k a) eqn:E; [|now right; auto]. apply seqb_eq in E. intros X. injection X as ->. subst. now left. Qed.
Lemma get_key {A} (m : list (str * A)) k : In k (map fst m) <-> get m k <> None.
Proof.
  induction m as [|[a w] m IH]; cbn [map fst get In]; [intuition|]. destruct (seqb k a) eqn:E.
  - apply seqb_eq in E. subst. split; [discriminate|auto].
  - rewrite <- IH. split; [intros [->|H]; auto; rewrite seqb_refl in E; discriminate|auto].
Qed.
Definition keys_nodup {A} (m : list (str * A)) := NoDup (map fst m).
Lemma set_keys {A} (m : list (str * A)) k v x : In x (map fst (set m k v)) <-> x = k \/ In x (map fst m).
Proof. rewrite !get_key, get_set. destruct (seqb x k) eqn:E; [apply seqb_eq in E; intuition congruence|]. split; auto. intros [->|H]; auto. rewrite seqb_refl in E. discriminate. Qed.
Lemma set_nodup {A} (m : list (str * A)) k v : keys_nodup m -> keys_nodup (set m k v).
Proof.
  unfold keys_nodup. induction m as [|[a w] m IH]; cbn [set map fst]; intros N; [repeat constructor; auto|]. inversion N; subst.
  destruct (seqb k a) eqn:E; cbn [map fst]; constructor; auto. rewrite set_keys. intros [->|H]; auto. rewrite seqb_refl in E. discriminate.
Qed.
Lemma del_nodup {A} (m : list (str * A)) k : keys_nodup m -> keys_nodup (del m k).
Proof.
  unfold keys_nodup, del. induction m as [|[a w] m IH]; cbn [filter map fst]; intros N; auto. inversion N; subst. destruct (negb (seqb a k)); auto. cbn [map fst]. constructor; auto.
  intros H. apply H1. apply in_map_iff in H. destruct H as ([x y] & <- & H). apply filter_In in H. destruct H as [H _]. apply (in_map fst) in H. exact H.
Qed.

(** ** Selecting an override *)
Fixpoint sel (ov : list str) (active : list (str * str)) (m : option str) : option str :=
  match ov with
  | [] => m
  | o :: ov' => match get active o with Some t => sel ov' (del active o) (Some t) | None => sel ov' active m end
  end.
Definition simple (a : list (str * str)) := Forall (fun e => ~ In colon (fst e)) a.
Lemma simple_del a o : simple a -> simple (del a o).
Proof. unfold simple, del. rewrite !Forall_forall. intros H x X. apply filter_In in X. apply H, X. Qed.
Lemma endswith_colon o a : ~ In colon a -> endswith (colon :: o) a = false.
Proof. intros N. destruct (endswith (colon :: o) a) eqn:E; auto. apply endswith_iff in E. destruct E as [t ->]. exfalso. apply N, in_or_app. right. now left. Qed.
Lemma try_all_none o snap active m b : Forall (fun a => ~ In colon a) snap -> get active o = None -> try_all o snap active m b = (active, m, b).
Proof.
  intros F G. induction snap as [|a snap IH]; cbn [try_all]; auto. inversion F; subst. rewrite endswith_colon by auto.
  destruct (seqb a o) eqn:E; auto. apply seqb_eq in E. subst a. rewrite G. auto.
Qed.
Lemma try_all_some o snap active m b t : Forall (fun a => ~ In colon a) snap -> In o snap -> get active o = Some t ->
  try_all o snap active m b = (del active o, Some t, b).
Proof.
  intros F I G. induction snap as [|a snap IH]; cbn [try_all]; [contradiction|]. inversion F; subst. rewrite endswith_colon by auto.
  destruct (seqb a o) eqn:E.
  - apply seqb_eq in E. subst a. rewrite G. apply try_all_none; auto. rewrite get_del, seqb_refl. auto.
  - apply IH; auto. destruct I as [->|I]; auto. rewrite seqb_refl in E. discriminate.
Qed.
Lemma try_overrides_sel ov : forall active m, simple active ->
  exists act', try_overrides ov active m false = (act', sel ov active m, false).
Proof.
  induction ov as [|o ov IH]; cbn [try_overrides sel]; intros active m S; [eauto|].
  assert (F : Forall (fun a => ~ In colon a) (map fst active)) by (apply Forall_map; exact S).
  destruct (get active o) as [t|] eqn:G.
  - rewrite (try_all_some o _ active m false t); auto; [apply IH, simple_del, S|]. apply get_key. congruence.
  - rewrite try_all_none by auto. auto.
Qed.
Lemma sel_none ov : forall active m, (forall o, In o ov -> get active o = None) -> sel ov active m = m.
Proof. induction ov as [|o ov IH]; cbn [sel]; intros active m H; auto. rewrite (H o) by now left. apply IH. intros; apply H; now right. Qed.
Lemma sel_selected ov : forall active m o, selected ov (fun o => get active o <> None) o -> sel ov active m = get active o.
Proof.
  induction ov as [|x ov IH]; intros active m o (b & a & E & H & N & L); [destruct b; discriminate|].
  cbn [sel]. destruct b as [|y b]; cbn in E; injection E as -> E.
  - subst a. destruct (get active o) as [t|] eqn:G; [|congruence]. apply sel_none. intros o' I. rewrite get_del.
    destruct (seqb o' o) eqn:Q; auto. destruct (get active o') eqn:G'; auto. destruct (L o' I) as [[]|X]; [congruence|]. subst. rewrite seqb_refl in Q. discriminate.
  - assert (NE : o <> y) by (intros ->; apply N; now left). destruct (get active y) as [t|] eqn:G.
    + rewrite (IH (del active y) (Some t) o); [now rewrite get_del; apply seqb_neq in NE; rewrite NE|].
      exists b, a. split; auto. split; [rewrite get_del; apply seqb_neq in NE; now rewrite NE|]. split; [intros I; apply N; now right|].
      intros o' I Ho. rewrite get_del in Ho. destruct (seqb o' y) eqn:Q; [congruence|]. apply seqb_neq in Q. destruct (L o' I Ho) as [[->|X]|X]; auto. congruence.
    + apply IH. exists b, a. repeat split; auto; [intros I; apply N; now right|]. intros o' I Ho. destruct (L o' I Ho) as [[->|X]|X]; auto. congruence.
Qed.
Lemma selected_or ov (has : str -> bool) : (exists o, selected ov (fun o => has o = true) o) \/ (forall o, In o ov -> has o = false).
Proof.
  assert (G : forall seen, (exists b a o, ov = b ++ o :: a /\ has o = true /\ ~ In o b /\ ~ In o seen /\ forall o', In o' a -> has o' = true -> In o' seen \/ In o' b \/ o' = o)
     \/ forall o, In o ov -> has o = true -> In o seen).
  { induction ov as [|x ov IH]; intros seen; [right; intros o []|].
    destruct (IH (x :: seen)) as [(b & a & o & -> & H & N & NS & L)|H].
    - left. exists (x :: b), a, o. cbn. split; auto. split; auto. split; [intros [->|I]; auto; apply NS; now left|]. split; [intros I; apply NS; now right|].
      intros o' I Ho. destruct (L o' I Ho) as [[->|J]|[J|J]]; auto.
    - destruct (has x) eqn:Hx.
      + destruct (in_dec str_eq_dec x seen) as [I|NI].
        * right. intros o [->|J] Ho; auto. destruct (H o J Ho) as [->|K]; auto.
        * left. exists [], ov, x. cbn. repeat split; auto. intros o' J Ho. destruct (H o' J Ho) as [->|K]; auto.
      + right. intros o [->|J] Ho; [congruence|]. destruct (H o J Ho) as [->|K]; auto. congruence. }
  destruct (G []) as [(b & a & o & E & H & N & _ & L)|H].
  - left. exists o, b, a. repeat split; auto. intros o' I Ho. destruct (L o' I Ho) as [[]|J]; auto.
  - right. intros o I. destruct (has o) eqn:Q; auto. destruct (H o I Q).
Qed.
Lemma select_simple ov l : simple (active_of ov l) -> select ov l = sel ov (active_of ov l) None.
Proof.
  intros S. unfold select. cbn [select_loop]. destruct (try_overrides_sel ov (active_of ov l) None S) as [act' ->]. reflexivity.
Qed.
Lemma holds_simple ov o : ~ In colon o -> holds ov o = mem_str o ov.
Proof. intros N. unfold holds. rewrite split_on_single by now apply no_char_In. cbn. apply andb_true_r. Qed.

(** ** Operations in names *)
Lemma startswith_app_colon w n rest : ~ In colon w -> startswith w (n ++ colon :: rest) = true -> startswith w n = true.
Proof.
  revert n. induction w as [|x w IH]; intros n N H; auto. cbn [startswith] in *. destruct n as [|y n]; cbn [app] in H.
  - apply andb_true_iff in H. destruct H as [H _]. apply aeqb_eq in H. subst x. exfalso. apply N. now left.
  - apply andb_true_iff in H. destruct H as [H1 H2]. rewrite H1. cbn. apply IH; auto. intros I. apply N. now right.
Qed.
Lemma kw_shape k : exists w, kw_text k = colon :: w /\ ~ In colon w.
Proof. destruct k; (eexists; split; [reflexivity|]); cbn; intuition discriminate. Qed.
Lemma kw_here_starts k s x : kw_here k s = Some x -> startswith (kw_text k) s = true.
Proof. unfold kw_here. destruct (startswith (kw_text k) s); congruence. Qed.
Lemma plain_kw n k a b : plain n -> n <> a ++ kw_text k ++ b.
Proof. intros P. destruct (P a b) as (X & Y & Z). destruct k; assumption. Qed.
Lemma kw_here_none k s : startswith (kw_text k) s = false -> kw_here k s = None.
Proof. unfold kw_here. now intros ->. Qed.
Lemma find_kw_step pre s : (forall k, startswith (kw_text k) s = false) ->
  find_kw pre s = match s with [] => None | c :: s' => find_kw (c :: pre) s' end.
Proof. intros H. destruct s; cbn [find_kw]; rewrite !kw_here_none by apply H; reflexivity. Qed.
Lemma find_kw_plain : forall s pre, plain (rev pre ++ s) -> find_kw pre s = None.
Proof.
  induction s as [|c s IH]; intros pre P; rewrite find_kw_step.
  - reflexivity.
  - intros []; reflexivity.
  - apply IH. cbn [rev]. rewrite <- app_assoc. exact P.
  - intros k. destruct (startswith (kw_text k) (c :: s)) eqn:E; auto. apply startswith_iff in E. destruct E as [t E]. exfalso. apply (plain_kw _ k (rev pre) t P). now rewrite <- E.
Qed.
Definition cond_text (c : option str) : str := match c with None => [] | Some o => colon :: o end.
Lemma skipn_app_len {A} (a b : list A) : skipn (length a) (a ++ b) = b.
Proof. induction a; cbn; auto. Qed.
Lemma kw_here_at k c : lower_case c -> kw_here k (kw_text k ++ cond_text c) = Some c.
Proof.
  intros L. unfold kw_here. replace (startswith (kw_text k) (kw_text k ++ cond_text c)) with true by (symmetry; apply startswith_iff; eauto).
  rewrite skipn_app_len. destruct c as [o|]; cbn [cond_text]; auto.
  replace (forallb (fun x => negb (is_upper x)) o) with true; auto. symmetry. apply forallb_forall. cbn in L. rewrite Forall_forall in L. intros x X. now rewrite (L x X).
Qed.
Lemma kw_here_other k k' t : k <> k' -> kw_here k' (kw_text k ++ t) = None.
Proof. intros N. apply kw_here_none. destruct k, k'; try congruence; reflexivity. Qed.
Lemma find_kw_here k c pre : lower_case c -> find_kw pre (kw_text k ++ cond_text c) = Some (rev pre, k, c).
Proof.
  intros L. destruct (kw_text k ++ cond_text c) eqn:E; [destruct k; discriminate|]. cbn [find_kw]. rewrite <- E.
  destruct k; rewrite ?(kw_here_other KPrepend), ?(kw_here_other KRemove), ?kw_here_at by (auto; discriminate); reflexivity.
Qed.
Lemma find_kw_op k c : lower_case c -> forall n pre, plain (rev pre ++ n) ->
  find_kw pre (n ++ kw_text k ++ cond_text c) = Some (rev pre ++ n, k, c).
Proof.
  intros L. induction n as [|x n IH]; intros pre P; [cbn [app]; rewrite app_nil_r; now apply find_kw_here|].
  rewrite find_kw_step.
  - cbn [app]. rewrite IH; cbn [rev]; rewrite <- app_assoc; auto.
  - intros k'. destruct (startswith (kw_text k') ((x :: n) ++ kw_text k ++ cond_text c)) eqn:E; auto.
    destruct (kw_shape k) as (w & Ew & _), (kw_shape k') as (w' & Ew' & Nw').
    rewrite Ew, Ew' in E. cbn [app startswith] in E. apply andb_true_iff in E. destruct E as [E1 E2]. apply startswith_app_colon in E2; auto.
    apply startswith_iff in E2. destruct E2 as [t E2]. apply aeqb_eq in E1. exfalso. apply (plain_kw _ k' (rev pre) t P). rewrite Ew', E2, <- E1. cbn. reflexivity.
Qed.

(** ** Entries after parsing *)
Definition entry_of (st : store) (n : str) : entry := match find_var st n with Some e => e | None => no_entry end.
Lemma find_change st n f m : find_var (change st n f) m = if seqb m n then Some (f (entry_of st n)) else find_var st m.
Proof. unfold find_var, change. cbn [find_in s_own s_behind]. rewrite get_set. destruct (seqb m n); reflexivity. Qed.
Lemma entry_change st n f m : entry_of (change st n f) m = if seqb m n then f (entry_of st n) else entry_of st m.
Proof. unfold entry_of at 1. rewrite find_change. destruct (seqb m n); reflexivity. Qed.
Lemma entry_over st od m : entry_of (over st od) m = entry_of st m.
Proof. reflexivity. Qed.
Definition kw_of (c : call) : option (keyword * str * option str * str) :=
  match c with
  | Append n o v => Some (KAppend, n, o, v) | Prepend n o v => Some (KPrepend, n, o, v) | Remove n o v => Some (KRemove, n, o, v)
  | _ => None end.
Lemma set_var_op k n c v b ov st : plain n -> lower_case c ->
  set_var b ov st (n ++ kw_text k ++ cond_text c) v =
  over (change st n (with_op k (v, c))) (register_cuts (operation_cuts n) (s_over st) n).
Proof. intros P L. unfold set_var. rewrite (find_kw_op k c L n []) by exact P. reflexivity. Qed.
Lemma op_name_eq n k c : op_name n (kw_text k) c = n ++ kw_text k ++ cond_text c.
Proof. unfold op_name. destruct c; reflexivity. Qed.
Lemma parse_line_op ov st c k n o v : well_formed c -> kw_of c = Some (k, n, o, v) ->
  parse_line ov st c = over (change st n (with_op k (v, o))) (register_cuts (operation_cuts n) (s_over st) n).
Proof.
  intros W E. destruct c; cbn in E; try discriminate; injection E as <- <- <- <-; destruct W as [P L]; cbn [parse_line].
  - change (s_ ":append") with (kw_text KAppend). rewrite op_name_eq. now apply set_var_op.
  - change (s_ ":prepend") with (kw_text KPrepend). rewrite op_name_eq. now apply set_var_op.
  - change (s_ ":remove") with (kw_text KRemove). rewrite op_name_eq. now apply set_var_op.
Qed.
Lemma parse_line_set ov st n v : plain n ->
  parse_line ov st (Set_ n v) = change (over st (register (s_over st) n)) n (with_content v).
Proof. intros P. cbn [parse_line]. unfold set_var. rewrite (find_kw_plain n []) by exact P. reflexivity. Qed.

Lemma parse_snoc ov h c : parse ov (h ++ [c]) = parse_line ov (parse ov h) c.
Proof. unfold parse. rewrite fold_left_app. reflexivity. Qed.
Lemma latest_snoc l x : latest (l ++ [x]) = Some x.
Proof. unfold latest. rewrite rev_app_distr. reflexivity. Qed.
Definition ops (k : keyword) (h : list call) (n : str) : list (str * option str) :=
  flat_map (fun c => match kw_of c with
                     | Some (k', m, o, v) => if match k, k' with KAppend, KAppend | KPrepend, KPrepend | KRemove, KRemove => seqb m n | _, _ => false end then [(v, o)] else []
                     | None => [] end) h.
Definition e_op (k : keyword) (e : entry) := match k with KAppend => e_append e | KPrepend => e_prepend e | KRemove => e_remove e end.
Lemma parse_entry ov h : Forall well_formed h -> forall n,
  e_content (entry_of (parse ov h) n) = latest (sets h n) /\
  e_default (entry_of (parse ov h) n) = latest (defaults h n) /\
  forall k, e_op k (entry_of (parse ov h) n) = ops k h n.
Proof.
  induction h as [|c h IH] using rev_ind; intros W n; [cbn; repeat split; intros []; reflexivity|].
  apply Forall_app in W. destruct W as [W Wc]. inversion Wc as [|? ? Wc1 _]; subst. specialize (IH W n). destruct IH as (I1 & I2 & I3).
  rewrite parse_snoc. unfold sets, defaults, ops in *. rewrite !flat_map_app. cbn [flat_map]. rewrite !app_nil_r.
  destruct (kw_of c) as [[[[k m] o] v]|] eqn:E.
  - rewrite (parse_line_op ov _ c k m o v Wc1 E), entry_over, entry_change.
    assert (X1 : match c with Set_ m0 v0 => if seqb m0 n then [v0] else [] | _ => [] end = []) by (destruct c; auto; discriminate).
    assert (X2 : match c with Default m0 v0 => if seqb m0 n then [v0] else [] | _ => [] end = []) by (destruct c; auto; discriminate).
    rewrite X1, X2, !app_nil_r. destruct (seqb n m) eqn:Q.
    + apply seqb_eq in Q. subst m. split; [rewrite <- I1; destruct k; reflexivity|]. split; [rewrite <- I2; destruct k; reflexivity|].
      intros k'. rewrite flat_map_app. cbn [flat_map]. rewrite E, app_nil_r, <- I3. destruct k, k'; rewrite ?seqb_refl, ?app_nil_r; reflexivity.
    + repeat split; auto. intros k'. rewrite flat_map_app. cbn [flat_map]. rewrite E, app_nil_r. assert (Q' : seqb m n = false) by (apply seqb_neq; apply seqb_neq in Q; congruence).
      rewrite Q'. destruct k', k; rewrite app_nil_r; apply I3.
  - destruct c as [m v|m v| | |]; try discriminate.
    + rewrite parse_line_set by exact Wc1. rewrite entry_change, !entry_over, app_nil_r. destruct (seqb n m) eqn:Q.
      * apply seqb_eq in Q. subst m. rewrite seqb_refl, latest_snoc. cbn [with_content e_content e_default]. repeat split; auto.
        intros k'. rewrite flat_map_app. cbn [flat_map kw_of]. rewrite !app_nil_r, <- I3. destruct k'; reflexivity.
      * assert (Q' : seqb m n = false) by (apply seqb_neq; apply seqb_neq in Q; congruence). rewrite Q', app_nil_r. repeat split; auto.
        intros k'. rewrite flat_map_app. cbn [flat_map kw_of]. rewrite !app_nil_r. apply I3.
    + cbn [parse_line]. unfold set_default. rewrite entry_over, entry_change, app_nil_r. destruct (seqb n m) eqn:Q.
      * apply seqb_eq in Q. subst m. rewrite seqb_refl, latest_snoc. cbn [with_default e_content e_default]. repeat split; auto.
        intros k'. rewrite flat_map_app. cbn [flat_map kw_of]. rewrite !app_nil_r, <- I3. destruct k'; reflexivity.
      * assert (Q' : seqb m n = false) by (apply seqb_neq; apply seqb_neq in Q; congruence). rewrite Q', app_nil_r. repeat split; auto.
        intros k'. rewrite flat_map_app. cbn [flat_map kw_of]. rewrite !app_nil_r. apply I3.
Qed.

(** ** Registered overrides after parsing *)
Definition regs (od : list (str * list (str * str))) (a : str) : list (str * str) := match get od a with Some l => l | None => [] end.
Lemma pair_eqb_eq a b : pair_eqb a b = true <-> a = b.
Proof.
  destruct a as [a1 a2], b as [b1 b2]. unfold pair_eqb. cbn [fst snd]. rewrite andb_true_iff, !seqb_eq. split; [intros [-> ->]; auto|]. intros X. inversion X. auto.
Qed.
Lemma regs_register cs : forall od var a p, In p (regs (register_cuts cs od var) a) <-> In p (regs od a) \/ (fst p = var /\ In (a, snd p) cs).
Proof.
  unfold register_cuts. induction cs as [|[s o] cs IH]; cbn [fold_left]; intros od var a p; [cbn; intuition|].
  rewrite IH. clear IH. cbn [fst snd].
  assert (X : In p (regs (if existsb (pair_eqb (var, o)) (match get od s with Some l => l | None => [] end)
                          then set od s (match get od s with Some l => l | None => [] end)
                          else set od s ((match get od s with Some l => l | None => [] end) ++ [(var, o)])) a) <->
              In p (regs od a) \/ (a = s /\ p = (var, o))).
  { destruct (existsb (pair_eqb (var, o)) _) eqn:E; unfold regs; rewrite get_set; destruct (seqb a s) eqn:Q.
    - apply seqb_eq in Q. subst a. split; auto. intros [H|[_ ->]]; auto. apply existsb_exists in E. destruct E as (x & I & E). apply pair_eqb_eq in E. now subst x.
    - apply seqb_neq in Q. intuition congruence.
    - apply seqb_eq in Q. subst a. rewrite in_app_iff. cbn. intuition congruence.
    - apply seqb_neq in Q. intuition congruence. }
  rewrite X. cbn [In]. destruct p as [r o']. cbn [fst snd]. split.
  - intros [[H|[-> H]]|[-> H]]; auto. inversion H; subst. auto.
  - intros [H|[-> [H|H]]]; auto. inversion H; subst. auto.
Qed.
Definition ccuts (c : call) : list (str * str) :=
  if is_operation c then operation_cuts (name_of c) else override_cuts (name_of c).
Lemma parse_regs ov h : Forall well_formed h -> forall a r o,
  In (r, o) (regs (s_over (parse ov h)) a) <-> exists c, In c h /\ name_of c = r /\ In (a, o) (ccuts c).
Proof.
  induction h as [|c h IH] using rev_ind; intros W a r o; [split; [intros []|intros (c & [] & _)]|].
  apply Forall_app in W. destruct W as [W Wc]. inversion Wc as [|? ? Wc1 _]; subst. specialize (IH W a r o). rewrite parse_snoc.
  assert (X : In (r, o) (regs (s_over (parse_line ov (parse ov h) c)) a) <-> In (r, o) (regs (s_over (parse ov h)) a) \/ (r = name_of c /\ In (a, o) (ccuts c))).
  { destruct (kw_of c) as [[[[k m] q] v]|] eqn:E.
    - rewrite (parse_line_op ov _ c k m q v Wc1 E). cbn [over s_over]. rewrite regs_register. cbn [fst snd].
      destruct c; cbn in E; try discriminate; injection E as <- <- <- <-; reflexivity.
    - destruct c as [m v|m v| | |]; try discriminate.
      + rewrite parse_line_set by exact Wc1. unfold change. cbn [over s_over]. unfold register. rewrite regs_register. reflexivity.
      + cbn [parse_line]. unfold set_default, change. cbn [over s_over]. unfold register. rewrite regs_register. reflexivity. }
  rewrite X, IH. split.
  - intros [(c0 & I & H)|[-> H]]; [exists c0; split; auto; apply in_or_app; auto|exists c; repeat split; auto; apply in_or_app; right; now left].
  - intros (c0 & I & <- & H). apply in_app_iff in I. destruct I as [I|[<-|[]]]; [left; eauto|right; auto].
Qed.
Lemma cuts_In parts : forall pre a o, In (a, o) (cuts pre parts) -> join [colon] (pre :: parts) = a ++ colon :: o.
Proof.
  induction parts as [|p ps IH]; cbn [cuts]; intros pre a o H; [contradiction|]. apply in_app_iff in H. destruct H as [H|[H|[]]].
  - apply IH in H. rewrite <- H, join_cons by discriminate. destruct ps; cbn [join]; rewrite <- ?app_assoc; reflexivity.
  - injection H as <- <-. rewrite join_cons by discriminate. reflexivity.
Qed.
Lemma take_usable_In l : forall p, In p (take_usable l) -> In p l /\ usable (snd p) = true.
Proof.
  induction l as [|[s o] l IH]; cbn [take_usable]; intros p H; [contradiction|]. destruct (usable o) eqn:U; [|contradiction].
  destruct H as [<-|H]; [split; [now left|auto]|]. destruct (match l with ([], _) :: _ => true | _ => false end); [contradiction|]. apply IH in H. split; [now right; apply H|apply H].
Qed.
Lemma override_cuts_shape n a o : In (a, o) (override_cuts n) -> n = a ++ colon :: o /\ usable o = true.
Proof.
  unfold override_cuts. destruct (split_on_spec colon n) as (_ & N & J). destruct (split_on colon n) as [|p ps]; [congruence|].
  intros H. apply take_usable_In in H. destruct H as [H U]. apply cuts_In in H. rewrite J in H. auto.
Qed.
Lemma override_cuts_simple a o : override_name o -> In (a, o) (override_cuts (a ++ colon :: o)).
Proof.
  intros [U N]. unfold override_cuts.
  destruct (split_on_spec colon a) as (Fa & Na & Ja).
  assert (E : split_on colon (a ++ colon :: o) = split_on colon a ++ [o]).
  { rewrite <- Ja at 1. clear U. revert Fa Na. generalize (split_on colon a). intros l. induction l as [|x l IH]; intros F Ne; [congruence|].
    inversion F; subst. destruct l as [|y l].
    - cbn [join app]. rewrite split_on_cons by auto. now rewrite split_on_single by now apply no_char_In.
    - rewrite join_cons by discriminate. rewrite <- !app_assoc. cbn [app]. rewrite split_on_cons by auto. f_equal. apply IH; auto. discriminate. }
  rewrite E. destruct (split_on colon a) as [|p ps] eqn:Sa; [congruence|]. cbn [app].
  assert (C : forall ps pre, exists t, cuts pre (ps ++ [o]) = (join [colon] (pre :: ps), o) :: t).
  { clear. induction ps as [|q ps IH]; intros pre; [cbn; eauto|]. cbn [app cuts]. destruct (IH (pre ++ colon :: q)) as [t ->]. eexists. cbn [app].
    replace (join [colon] (pre :: q :: ps)) with (join [colon] ((pre ++ colon :: q) :: ps)); [reflexivity|]. destruct ps; cbn [join app]; rewrite <- ?app_assoc; reflexivity. }
  destruct (C ps p) as [t ->]. rewrite Ja. cbn [take_usable].
  assert (Uo : usable o = true). { destruct o; cbn in *; [destruct U|]. apply orb_true_iff. exact U. }
  rewrite Uo. now left.
Qed.
Lemma usable_name o : usable o = true -> ~ In colon o -> override_name o.
Proof. intros U N. split; auto. destruct o; cbn in *; [discriminate|]. now apply orb_true_iff. Qed.
Lemma existsb_colon n : existsb (aeqb colon) n = true <-> In colon n.
Proof. rewrite existsb_exists. split; [intros (x & I & E); apply aeqb_eq in E; now subst|]. intros I. exists colon. split; auto. Qed.
Lemma ccuts_shape c a o : In (a, o) (ccuts c) ->
  (name_of c = a ++ colon :: o /\ usable o = true) \/ (is_operation c = true /\ name_of c = o /\ ~ In colon o /\ a = removelast o).
Proof.
  unfold ccuts, operation_cuts. destruct (is_operation c) eqn:I.
  - destruct (existsb (aeqb colon) (name_of c)) eqn:E; [intros H; left; now apply override_cuts_shape|].
    destruct (usable (name_of c)); [|intros []]. intros [H|[]]. injection H as <- <-. right. repeat split; auto. intros X. apply existsb_colon in X. congruence.
  - intros H. left. now apply override_cuts_shape.
Qed.
Lemma ccuts_simple c a o : override_name o -> name_of c = a ++ colon :: o -> In (a, o) (ccuts c).
Proof.
  intros O E. unfold ccuts, operation_cuts. rewrite E.
  assert (X : existsb (aeqb colon) (a ++ colon :: o) = true) by (apply existsb_colon, in_or_app; right; now left). rewrite X.
  destruct (is_operation c); now apply override_cuts_simple.
Qed.

(** ** Values after parsing *)
Lemma latest_In l x : latest l = Some x -> In x l.
Proof. unfold latest. intros H. rewrite <- (rev_involutive l). destruct (rev l); [discriminate|]. injection H as ->. apply in_rev. rewrite rev_involutive. now left. Qed.
Lemma latest_none l : latest l = None -> l = [].
Proof. unfold latest. intros H. rewrite <- (rev_involutive l). destruct (rev l); [reflexivity|discriminate]. Qed.
Lemma active_keys ov l o : get (active_of ov l) o <> None -> holds ov o = true /\ exists r, In (r, o) l.
Proof.
  unfold active_of. assert (G : forall act, (get act o <> None -> holds ov o = true /\ exists r, In (r, o) l) ->
    get (fold_left (fun act e => if holds ov (snd e) then set act (snd e) (fst e) else act) l act) o <> None -> holds ov o = true /\ exists r, In (r, o) l).
  2:{ intros H. apply (G [] ); auto. cbn. congruence. }
  assert (GG : forall l' act, incl l' l -> (get act o <> None -> holds ov o = true /\ exists r, In (r, o) l) ->
    get (fold_left (fun act e => if holds ov (snd e) then set act (snd e) (fst e) else act) l' act) o <> None -> holds ov o = true /\ exists r, In (r, o) l).
  { induction l' as [|[r o'] l' IH]; cbn [fold_left fst snd]; intros act I Hact H; auto. revert H. apply IH; [intros x X; apply I; now right|].
    destruct (holds ov o') eqn:E; auto. rewrite get_set. destruct (seqb o o') eqn:Q; auto. apply seqb_eq in Q. subst o'. intros _. split; auto. exists r. apply I. now left. }
  intros act. apply GG. apply incl_refl.
Qed.
Lemma active_value ov l o r : get (active_of ov l) o = Some r -> In (r, o) l.
Proof.
  unfold active_of.
  assert (GG : forall l' act, incl l' l -> (get act o = Some r -> In (r, o) l) ->
    get (fold_left (fun act e => if holds ov (snd e) then set act (snd e) (fst e) else act) l' act) o = Some r -> In (r, o) l).
  { induction l' as [|[r' o'] l' IH]; cbn [fold_left fst snd]; intros act I Hact H; auto. revert H. apply IH; [intros x X; apply I; now right|].
    destruct (holds ov o') eqn:E; auto. rewrite get_set. destruct (seqb o o') eqn:Q; auto. apply seqb_eq in Q. subst o'. intros X. injection X as ->. apply I. now left. }
  apply GG; [apply incl_refl|discriminate].
Qed.
Lemma active_present ov l o r : holds ov o = true -> In (r, o) l -> get (active_of ov l) o <> None.
Proof.
  unfold active_of. intros Ho.
  assert (K : forall (l' act : list (str * str)), get act o <> None -> get (fold_left (fun act e => if holds ov (snd e) then set act (snd e) (fst e) else act) l' act) o <> None).
  { induction l' as [|[r' o'] l' IH]; cbn [fold_left fst snd]; intros act H; auto. apply IH. destruct (holds ov o'); auto. rewrite get_set. destruct (seqb o o'); auto. discriminate. }
  generalize (@nil (str * str)). induction l as [|[r' o'] l IH]; cbn [fold_left fst snd In]; intros act I; [contradiction|]. destruct I as [E|I]; [|apply IH, I].
  injection E as -> ->. rewrite Ho. apply K. rewrite get_set_same. discriminate.
Qed.
Lemma active_simple_keys ov l : (forall o, get (active_of ov l) o <> None -> ~ In colon o) -> simple (active_of ov l).
Proof.
  intros H. apply Forall_forall. intros [o r] I. cbn. apply H. apply get_key. apply (in_map fst) in I. exact I.
Qed.

Lemma selected_ext ov (P Q : str -> Prop) o : (forall x, In x ov -> (P x <-> Q x)) -> selected ov P o -> selected ov Q o.
Proof.
  intros X (b & a & -> & H & N & L). exists b, a. repeat split; auto.
  - apply X; auto. apply in_or_app. right. now left.
  - intros o' I Ho. apply L; auto. apply X; auto. apply in_or_app. right. now right.
Qed.

Definition opt (v : option str) : str := match v with Some x => x | None => [] end.
Lemma fold_f l : forall v, fold_left (fun v r => match v with None => Some r | Some x => Some (x ++ r) end) l v =
  match l with [] => v | _ => Some (opt v ++ concat l) end.
Proof.
  induction l as [|r l IH]; intros v; auto. cbn [fold_left]. rewrite IH. destruct l; destruct v; cbn [opt concat app]; rewrite ?app_nil_r, <- ?app_assoc; reflexivity.
Qed.
Lemma fold_g l : forall v, fold_left (fun v r => match v with None => Some r | Some x => Some (r ++ x) end) l v =
  match l with [] => v | _ => Some (concat (rev l) ++ opt v) end.
Proof.
  induction l as [|r l IH]; intros v; auto. cbn [fold_left]. rewrite IH. cbn [rev]. destruct l as [|r' l]; destruct v; cbn [opt rev app concat]; rewrite ?app_nil_r; auto;
  rewrite !concat_app; cbn [concat]; rewrite ?app_nil_r, <- ?app_assoc; reflexivity.
Qed.
Lemma around_eq pre app_ v : fold_left (fun v r => match v with None => Some r | Some x => Some (r ++ x) end) pre
   (fold_left (fun v r => match v with None => Some r | Some x => Some (x ++ r) end) app_ v) = around pre app_ v.
Proof.
  rewrite fold_f, fold_g. unfold around. destruct pre as [|p pre], app_ as [|a app_], v as [v|]; cbn [opt concat rev app]; rewrite ?app_nil_r; reflexivity.
Qed.
Lemma cond_met ov c : cond_holds ov c = met ov c.
Proof. destruct c as [[|x o]|]; reflexivity. Qed.
Lemma conds_flat ov k h n : conds ov (ops k h n) =
  flat_map (fun c => match kw_of c with Some (k', m, o, v) => if match k, k' with KAppend, KAppend | KPrepend, KPrepend | KRemove, KRemove => seqb m n | _, _ => false end && met ov o then [v] else [] | None => [] end) h.
Proof.
  unfold conds, ops. induction h as [|c h IH]; cbn [flat_map]; auto. rewrite filter_app, map_app, IH. f_equal.
  destruct (kw_of c) as [[[[k' m] o] v]|]; auto. destruct (match k, k' with KAppend, KAppend | KPrepend, KPrepend | KRemove, KRemove => seqb m n | _, _ => false end); auto.
  cbn [filter snd andb]. rewrite cond_met. destruct (met ov o); reflexivity.
Qed.
Lemma conds_appends ov h n : conds ov (ops KAppend h n) = appends ov h n.
Proof. rewrite conds_flat. apply flat_map_ext. intros []; reflexivity. Qed.
Lemma conds_prepends ov h n : conds ov (ops KPrepend h n) = prepends ov h n.
Proof. rewrite conds_flat. apply flat_map_ext. intros []; reflexivity. Qed.
Lemma add_ops_entry ov st n v : add_ops ov (find_var st n) v = around (conds ov (e_prepend (entry_of st n))) (conds ov (e_append (entry_of st n))) v.
Proof. unfold add_ops, entry_of. destruct (find_var st n); [apply around_eq|destruct v; cbn; rewrite ?app_nil_r; reflexivity]. Qed.
Lemma own_entry st n : own_value (find_var st n) = match e_content (entry_of st n) with Some v => Some v | None => e_default (entry_of st n) end.
Proof. unfold own_value, entry_of. destruct (find_var st n); reflexivity. Qed.
Lemma parse_own ov h n : Forall well_formed h -> own_value (find_var (parse ov h) n) = assigned h n.
Proof. intros W. rewrite own_entry. destruct (parse_entry ov h W n) as (-> & -> & _). reflexivity. Qed.
Lemma parse_add ov h n v : Forall well_formed h -> add_ops ov (find_var (parse ov h) n) v = around (prepends ov h n) (appends ov h n) v.
Proof.
  intros W. rewrite add_ops_entry. destruct (parse_entry ov h W n) as (_ & _ & H). pose proof (H KAppend) as HA. pose proof (H KPrepend) as HP. cbn [e_op] in HA, HP.
  now rewrite HA, HP, conds_appends, conds_prepends.
Qed.
Lemma before_none rec st ov n : (match get (s_over st) n with Some l => select ov l = None | None => True end) ->
  before_expansion rec st ov n = Ok (add_ops ov (find_var st n) (own_value (find_var st n)), []).
Proof. unfold before_expansion. destruct (get (s_over st) n) as [l|]; [intros ->|intros _]; reflexivity. Qed.
Lemma select_empty ov l : (forall r o, In (r, o) l -> holds ov o = true -> False) -> select ov l = None.
Proof.
  intros H. rewrite select_simple.
  - apply sel_none. intros o _. destruct (get (active_of ov l) o) eqn:G; auto. exfalso. destruct (active_keys ov l o) as [Ho [r I]]; [congruence|]. eauto.
  - apply active_simple_keys. intros o G. destruct (active_keys ov l o G) as [Ho [r I]]. exfalso. eauto.
Qed.
Lemma get_val_fst depth rounds st ov e n r : get_val depth rounds st ov e n = Ok r ->
  exists d vr, depth = S d /\ before_expansion (get_val d rounds st ov false) st ov n = Ok vr /\ fst r = fst vr.
Proof.
  destruct depth as [|d]; cbn [get_val]; [discriminate|]. destruct (before_expansion _ st ov n) as [vr| |] eqn:B; cbn [bind]; try discriminate. intros H. exists d, vr. split; [reflexivity|]. split; [exact B|]. clear B.
  unfold finish in H. destruct (fst vr) as [v|] eqn:E.
  - destruct (expand _ _ _ v) as [x| |]; cbn [bind] in H; try discriminate.
    destruct (match (if e then x else v) with [] => false | _ => true end).
    + destruct (expand_removes _ _); cbn [bind] in H; try discriminate. inversion H; subst; auto.
    + inversion H; subst; auto.
  - inversion H; subst; auto.
Qed.
Lemma removelast_colon o : ~ In colon o -> ~ In colon (removelast o).
Proof. intros N I. apply N. clear N. induction o as [|x o IH]; cbn [removelast] in I; auto. destruct o; [contradiction|]. destruct I as [->|I]; [now left|right; auto]. Qed.
Lemma regs_get st n l : get (s_over st) n = Some l -> regs (s_over st) n = l.
Proof. unfold regs. now intros ->. Qed.

Section History.
Variables (ov : list str) (h : list call) (a : str).
Hypothesis W : Forall well_formed h.
Hypothesis SO : single_overrides ov h a.
Let st := parse ov h.
Lemma regs_a r o : In (r, o) (regs (s_over st) a) -> holds ov o = true -> r = a ++ colon :: o /\ override_name o /\ mentioned h r.
Proof.
  intros I H. apply (parse_regs ov h W) in I. destruct I as (c & Ic & <- & X). destruct SO as [S1 S2]. apply ccuts_shape in X. destruct X as [[E U]|(O & E & N & _)].
  - assert (N : ~ In colon o) by (apply S1; exists c; auto). split; [exact E|]. split; [now apply usable_name|exists c; auto].
  - exfalso. rewrite holds_simple in H by auto. apply mem_str_In in H. apply (S2 c Ic O). now rewrite E.
Qed.
Lemma regs_variant o : variant h a o -> In (a ++ colon :: o, o) (regs (s_over st) a).
Proof. intros [O (c & I & E)]. apply (parse_regs ov h W). exists c. repeat split; auto. now apply ccuts_simple. Qed.
Lemma active_variant o : In o ov -> (get (active_of ov (regs (s_over st) a)) o <> None <-> variant h a o).
Proof.
  intros I. split.
  - intros G. destruct (active_keys _ _ _ G) as [Ho [r Ir]]. destruct (regs_a _ _ Ir Ho) as (-> & O & M). split; auto.
  - intros V. apply (active_present _ _ _ (a ++ colon :: o)); [|now apply regs_variant]. rewrite holds_simple by apply V. now apply mem_str_In.
Qed.
Lemma active_a_simple : simple (active_of ov (regs (s_over st) a)).
Proof. apply active_simple_keys. intros o G. destruct (active_keys _ _ _ G) as [Ho [r Ir]]. destruct (regs_a _ _ Ir Ho) as (_ & O & _). apply O. Qed.
Lemma select_a_none : (forall o, In o ov -> ~ variant h a o) -> select ov (regs (s_over st) a) = None.
Proof.
  intros H. rewrite select_simple by apply active_a_simple. apply sel_none. intros o I. destruct (get _ o) eqn:G; auto. exfalso. apply (H o I), active_variant; auto. congruence.
Qed.
Lemma select_a_some o : selected ov (variant h a) o -> select ov (regs (s_over st) a) = Some (a ++ colon :: o).
Proof.
  intros H. rewrite select_simple by apply active_a_simple.
  assert (H' : selected ov (fun o => get (active_of ov (regs (s_over st) a)) o <> None) o) by (revert H; apply selected_ext; intros x X; symmetry; now apply active_variant).
  rewrite (sel_selected ov _ None o H'). destruct H' as (b & q & _ & G & _). destruct (get _ o) as [r|] eqn:E; [|congruence].
  f_equal. destruct (active_keys ov (regs (s_over st) a) o) as [Ho _]; [congruence|]. apply active_value in E. apply regs_a in E; tauto.
Qed.
Lemma variant_before rec o : ~ In colon o -> before_expansion rec st ov (a ++ colon :: o) = Ok (text ov h (a ++ colon :: o), []).
Proof.
  intros N. rewrite before_none.
  - unfold st. rewrite parse_own, parse_add by auto. reflexivity.
  - destruct (get (s_over st) (a ++ colon :: o)) as [l|] eqn:G; auto. apply select_empty. intros r o' I Ho. rewrite <- (regs_get _ _ _ G) in I.
    apply (parse_regs ov h W) in I. destruct I as (c & Ic & <- & X). apply ccuts_shape in X. destruct X as [[E U]|(O & E & N' & R)].
    + destruct SO as [S1 _]. apply (S1 (o ++ colon :: o')); [|apply in_or_app; right; now left]. exists c. split; auto. rewrite E, <- app_assoc. reflexivity.
    + apply (removelast_colon o' N'). rewrite <- R. apply in_or_app. right. now left.
Qed.
Lemma history_selected depth rounds r o : get_raw depth rounds st ov a = Ok r -> selected ov (variant h a) o ->
  r = around (prepends ov h a) (appends ov h a) (match text ov h (a ++ colon :: o) with Some v => Some v | None => assigned h a end).
Proof.
  intros G Hs. pose proof (select_a_some o Hs) as E. unfold get_raw, before_expansion in G. unfold regs in E.
  destruct (get (s_over st) a) as [l|]; [|rewrite select_empty in E; [discriminate|intros ? ? []]]. rewrite E in G.
  destruct (get_val depth rounds st ov false (a ++ colon :: o)) as [x| |] eqn:V; cbn [bind] in G; try discriminate.
  apply get_val_fst in V. destruct V as (d & vr & _ & B & F). rewrite variant_before in B by (destruct Hs as (? & ? & _ & [[_ N] _] & _); exact N).
  injection B as <-. cbn [fst] in *. injection G as <-. unfold st. rewrite parse_add, parse_own by auto. rewrite F. reflexivity.
Qed.
Lemma history_plain depth rounds : (forall o, In o ov -> ~ variant h a o) -> get_raw depth rounds st ov a = Ok (text ov h a).
Proof.
  intros H. unfold get_raw. rewrite before_none.
  - cbn [bind fst]. unfold st. now rewrite parse_own, parse_add by auto.
  - pose proof (select_a_none H) as E. unfold regs in E. destruct (get (s_over st) a); auto.
Qed.
End History.

(** ** Removing words *)
Lemma split_ws_nospace w : Forall (fun c => is_space c = false) w -> split_ws w = match w with [] => [] | _ => [w] end.
Proof. intros F. destruct w; auto. apply split_ws_single. split; auto. discriminate. Qed.
Lemma ws_split_concat s : forall cur, concat (ws_split cur s) = rev cur ++ s.
Proof.
  induction s as [|c s IH]; intros cur; cbn [ws_split]; [cbn; now rewrite ?app_nil_r|]. destruct (is_space c); cbn [concat]; rewrite IH; cbn [rev app]; auto. now rewrite <- app_assoc.
Qed.
Section Removing.
Variable R : str -> bool.
Hypothesis Rspace : forall c, is_space c = true -> R [c] = false.
Hypothesis Rnil : R [] = false.
Lemma removed_words s : forall cur, Forall (fun c => is_space c = false) cur ->
  split_ws (concat (filter (fun t => negb (R t)) (ws_split cur s))) = filter (fun t => negb (R t)) (split_ws (rev cur ++ s)).
Proof.
  induction s as [|c s IH]; intros cur F; cbn [ws_split].
  - rewrite app_nil_r. rewrite (split_ws_nospace (rev cur)) by now apply Forall_rev. cbn [filter]. destruct (R (rev cur)) eqn:E; cbn [negb].
    + destruct (rev cur) eqn:Q; [rewrite Rnil in E; discriminate|]. cbn [filter]. rewrite E. reflexivity.
    + cbn [concat]. rewrite app_nil_r. rewrite split_ws_nospace by now apply Forall_rev. destruct (rev cur) eqn:Q; auto. cbn [filter]. now rewrite E.
  - destruct (is_space c) eqn:S.
    + rewrite split_ws_app, filter_app by auto. cbn [filter]. rewrite (Rspace c S). cbn [negb]. rewrite (split_ws_nospace (rev cur)) by now apply Forall_rev.
      specialize (IH [] (Forall_nil _)). cbn [rev app] in IH. rewrite <- IH. destruct (R (rev cur)) eqn:E; cbn [negb concat].
      * cbn [app]. rewrite split_ws_space by auto. destruct (rev cur) eqn:Q; [rewrite Rnil in E; discriminate|]. cbn [filter]. rewrite E. reflexivity.
      * cbn [app]. rewrite split_ws_app by auto. f_equal. rewrite split_ws_nospace by now apply Forall_rev. destruct (rev cur) eqn:Q; auto. cbn [filter]. now rewrite E.
    + rewrite IH by (constructor; auto). cbn [rev]. rewrite <- app_assoc. reflexivity.
Qed.
Lemma removed_spaces s : forall cur, Forall (fun c => is_space c = false) cur ->
  filter is_space (concat (filter (fun t => negb (R t)) (ws_split cur s))) = filter is_space s.
Proof.
  assert (NS : forall w, Forall (fun c => is_space c = false) w -> filter is_space w = []).
  { induction 1 as [|x l H _ IH]; cbn; auto. now rewrite H. }
  induction s as [|c s IH]; intros cur F; cbn [ws_split].
  - cbn [filter]. destruct (R (rev cur)); cbn; auto. rewrite app_nil_r. apply NS. now apply Forall_rev.
  - destruct (is_space c) eqn:S.
    + cbn [filter]. rewrite (Rspace c S), S. cbn [negb concat]. destruct (negb (R (rev cur))); cbn [concat]; rewrite ?filter_app; cbn [app filter]; rewrite ?S, IH by constructor; auto.
      rewrite NS by now apply Forall_rev. reflexivity.
    + rewrite IH by (constructor; auto). cbn [filter]. now rewrite S.
Qed.
End Removing.
Lemma apply_removes_spec rs v : Forall (fun r => Forall word (snd r)) rs ->
  split_ws (fst (apply_removes rs v)) = filter (fun w => negb (mem_str w (concat (map snd rs)))) (split_ws v) /\
  filter is_space (fst (apply_removes rs v)) = filter is_space v.
Proof.
  intros F. set (R := fun t => existsb (fun r => mem_str t (snd r)) rs).
  assert (RW : forall t, R t = true -> word t).
  { intros t H. apply existsb_exists in H. destruct H as (r & I & M). rewrite Forall_forall in F. specialize (F r I). rewrite Forall_forall in F. apply F. now apply mem_str_In. }
  assert (R1 : forall c, is_space c = true -> R [c] = false).
  { intros c S. destruct (R [c]) eqn:E; auto. apply RW in E. destruct E as [_ X]. inversion X; subst. congruence. }
  assert (R2 : R [] = false) by (destruct (R []) eqn:E; auto; apply RW in E; destruct E; congruence).
  unfold apply_removes. cbn [fst]. split.
  - change (fun t => negb (existsb (fun r => mem_str t (snd r)) rs)) with (fun t => negb (R t)).
    rewrite (removed_words R R1 R2 v []) by constructor. cbn [rev app]. apply filter_ext. intros w. f_equal.
    apply eq_true_iff_eq. unfold R. rewrite existsb_exists, mem_str_In, in_concat. split.
    + intros (r & I & M). exists (snd r). split; [now apply in_map|]. now apply mem_str_In.
    + intros (l & I & M). apply in_map_iff in I. destruct I as (r & <- & I). exists r. split; auto. now apply mem_str_In.
  - apply (removed_spaces R R1 v []). constructor.
Qed.
Lemma expand_removes_spec ex l : forall rs, expand_removes ex l = Ok rs ->
  Forall (fun r => Forall word (snd r)) rs /\ (forall w, In w (concat (map snd rs)) <-> exists r x, In r l /\ ex r = Ok x /\ In w (split_ws x)).
Proof.
  induction l as [|r l IH]; cbn [expand_removes]; intros rs H.
  - injection H as <-. split; [constructor|]. intros w. cbn. split; [intros []|intros (? & ? & [] & _)].
  - destruct (ex r) as [x| |] eqn:E; cbn [bind] in H; try discriminate. destruct (expand_removes ex l) as [rs'| |]; cbn [bind] in H; try discriminate.
    injection H as <-. destruct (IH rs' eq_refl) as [F X]. split; [constructor; auto; apply split_ws_words|]. intros w. cbn [map snd concat]. rewrite in_app_iff, X. split.
    + intros [I|(r' & x' & I & E' & J)]; [exists r, x; split; [now left|auto]|exists r', x'; split; [now right|auto]].
    + intros (r' & x' & [<-|I] & E' & J); [left; congruence|right; eauto].
Qed.
Lemma apply_removes_nil v : apply_removes [] v = (v, []).
Proof.
  unfold apply_removes. cbn [existsb filter map negb]. f_equal.
  transitivity (concat (ws_split [] v)); [|apply (ws_split_concat v [])]. f_equal. induction (ws_split [] v); cbn; congruence.
Qed.
Lemma get_var_finish depth rounds st ov n x : get_var (S depth) rounds st ov n = Ok (Some x) ->
  exists v rm e, before_expansion (get_val depth rounds st ov false) st ov n = Ok (Some v, rm) /\
    expand rounds (get_var depth rounds st ov) (Some n) v = Ok e /\
    exists R, split_ws x = filter (fun w => negb (mem_str w R)) (split_ws e) /\ filter is_space x = filter is_space e /\
      (e <> [] -> forall w, In w R <-> exists r t, In r (rm ++ conds ov (e_remove (entry_of st n))) /\ expand rounds (get_var depth rounds st ov) None r = Ok t /\ In w (split_ws t)).
Proof.
  unfold get_var at 1. cbn [get_val]. fold (get_var depth rounds st ov).
  destruct (before_expansion _ st ov n) as [[v rm]| |]; cbn [bind]; try discriminate. unfold finish. cbn [fst snd]. destruct v as [v|]; [|discriminate].
  change (fun k => bind (get_val depth rounds st ov true k) (fun r => Ok (option_map fst (snd r)))) with (get_var depth rounds st ov).
  destruct (expand rounds (get_var depth rounds st ov) (Some n) v) as [e| |] eqn:E; cbn [bind]; try discriminate.
  assert (ER : (match find_var st n with Some en => conds ov (e_remove en) | None => [] end) = conds ov (e_remove (entry_of st n))) by (unfold entry_of; destruct (find_var st n); reflexivity).
  rewrite ER. destruct e as [|c e].
  - cbn [bind snd option_map fst]. intros H. injection H as <-. exists v, rm, []. repeat split; auto. exists []. repeat split; auto; congruence.
  - destruct (expand_removes _ _) as [rs| |] eqn:X; cbn [bind]; try discriminate. cbn [snd option_map]. intros H. injection H as <-.
    exists v, rm, (c :: e). split; auto. split; auto. apply expand_removes_spec in X. destruct X as [F X]. destruct (apply_removes_spec rs (c :: e) F) as [A B].
    exists (concat (map snd rs)). split; [exact A|]. split; [exact B|]. intros _ w. apply X.
Qed.

(** ** Expansion *)
Definition to_seg (p : piece) : seg := match p with Char c => Lit c | Reference k => Ref k end.
Lemma name_char_spec c : name_char c = true <-> is_alpha c = true \/ is_digit c = true \/ In c (s_ "-_+./~:").
Proof.
  unfold name_char. rewrite !orb_true_iff, existsb_exists. split.
  - intros [[H|H]|(x & I & E)]; auto. apply aeqb_eq in E. subst x. auto.
  - intros [H|[H|H]]; auto. right. exists c. split; auto. now apply aeqb_eq.
Qed.
Lemma span_name k t : Forall (fun c => name_char c = true) k -> span name_char (k ++ "}"%char :: t) = (k, "}"%char :: t).
Proof. induction 1 as [|c k H _ IH]; [reflexivity|]. cbn [app span]. rewrite H, IH. reflexivity. Qed.
Lemma ref_at_ref k t : k <> [] -> Forall (fun c => name_char c = true) k -> ref_at (s_ "${" ++ k ++ s_ "}" ++ t) = Some k.
Proof.
  intros N F. cbn [s_ app ref_at list_ascii_of_string]. change (k ++ s_ "}" ++ t) with (k ++ "}"%char :: t). unfold ref_at. cbn. rewrite span_name by auto. destruct k; [congruence|]. reflexivity.
Qed.
Lemma ref_at_char c t : c <> "$"%char -> ref_at (c :: t) = None.
Proof. intros N. cbn [ref_at]. destruct t; auto. assert (E : aeqb c "$"%char = false) by now apply aeqb_neq. rewrite E. reflexivity. Qed.
Lemma segs_skip u : forall t, segs (length u) (u ++ t) = segs 0 t.
Proof. induction u as [|c u IH]; intros t; auto. cbn [length app segs]. apply IH. Qed.
Lemma tidy_names k : tidy_piece (Reference k) -> k <> [] /\ Forall (fun c => name_char c = true) k.
Proof. intros [N F]. split; auto. eapply Forall_impl; [|exact F]. intros c H. now apply name_char_spec. Qed.
Lemma segs_tidy p : Forall tidy_piece p -> segs 0 (concat (map piece_text p)) = map to_seg p.
Proof.
  induction 1 as [|x p Hx _ IH]; auto. cbn [map concat]. destruct x as [c|k].
  - cbn [piece_text app segs to_seg]. rewrite ref_at_char by exact Hx. now rewrite IH.
  - destruct (tidy_names k Hx) as [N F]. cbn [piece_text to_seg].
    assert (E : (s_ "${" ++ k ++ s_ "}") ++ concat (map piece_text p) = s_ "${" ++ k ++ s_ "}" ++ concat (map piece_text p)) by now rewrite <- !app_assoc.
    rewrite E. pose proof (ref_at_ref k (concat (map piece_text p)) N F) as RA.
    change (s_ "${" ++ k ++ s_ "}" ++ concat (map piece_text p)) with ("$"%char :: ("{"%char :: k ++ "}"%char :: concat (map piece_text p))) in *.
    cbn [segs]. rewrite RA. f_equal. rewrite <- IH.
    pose proof (segs_skip ("{"%char :: k ++ ["}"%char]) (concat (map piece_text p))) as K. rewrite <- K.
    assert (L : length k + 2 = length ("{"%char :: k ++ ["}"%char])) by (cbn [length]; rewrite app_length; cbn; lia). rewrite L. f_equal.
    cbn [app]. rewrite <- app_assoc. reflexivity.
Qed.
Lemma to_seg_inj p : forall q, map to_seg p = map to_seg q -> p = q.
Proof.
  induction p as [|x p IH]; intros [|y q] E; try discriminate; auto. cbn [map] in E. injection E as E1 E2. f_equal; auto. destruct x, y; cbn in E1; congruence.
Qed.
Lemma tidy_unique v p q : tidy v p -> tidy v q -> p = q.
Proof. intros [F E] [G E']. apply to_seg_inj. rewrite <- (segs_tidy p F), <- (segs_tidy q G), <- E, <- E'. reflexivity. Qed.
Lemma tidy_app a b p q : tidy a p -> tidy b q -> tidy (a ++ b) (p ++ q).
Proof. intros [F ->] [G ->]. split; [now apply Forall_app|]. now rewrite map_app, concat_app. Qed.
Lemma no_dollar v p : tidy v p -> contains_sub (s_ "${") v = false -> forall k, ~ In (Reference k) p.
Proof.
  intros [F ->] H k I. apply in_split in I. destruct I as (a & b & ->). rewrite map_app, concat_app in H. cbn [map concat piece_text] in H.
  assert (X : contains_sub (s_ "${") (concat (map piece_text a) ++ (s_ "${" ++ k ++ s_ "}") ++ concat (map piece_text b)) = true).
  { apply contains_sub_iff. exists (concat (map piece_text a)), (k ++ s_ "}" ++ concat (map piece_text b)). now rewrite <- !app_assoc. }
  congruence.
Qed.
Definition refs (p : list piece) (k : str) := In (Reference k) p.

Section Expansion.
Variables (ov : list str) (h : list call).
Hypothesis PF : plain_files h.
Let st := parse ov h.
Let value := text ov h.
Hypothesis TV : forall k v, value k = Some v -> exists p, tidy v p.

Lemma plain_wf : Forall well_formed h.
Proof. eapply Forall_impl; [|exact PF]. intros c H; apply H. Qed.
Lemma plain_regs k : regs (s_over st) k = [].
Proof.
  destruct (regs (s_over st) k) as [|[r o] l] eqn:E; auto. exfalso.
  assert (I : In (r, o) (regs (s_over st) k)) by (rewrite E; now left). apply (parse_regs ov h plain_wf) in I. destruct I as (c & Ic & <- & X).
  pose proof PF as PF'. unfold plain_files in PF'. rewrite Forall_forall in PF'. destruct (PF' c Ic) as (_ & NC & S).
  unfold ccuts, operation_cuts in X.
  assert (OC : override_cuts (name_of c) = []) by (unfold override_cuts; rewrite split_on_single by (now apply no_char_In); reflexivity).
  assert (EX : existsb (aeqb colon) (name_of c) = false) by (destruct (existsb _ _) eqn:Q; auto; apply existsb_colon in Q; contradiction).
  rewrite OC, EX in X. destruct (is_operation c) eqn:O; [|contradiction].
  assert (U : usable (name_of c) = false).
  { destruct c; cbn [is_operation] in O; try discriminate; cbn [name_of] in *; try contradiction; destruct n; auto; unfold usable; destruct S as [-> ->]; reflexivity. }
  rewrite U in X. contradiction.
Qed.
Lemma plain_before rec k : before_expansion rec st ov k = Ok (value k, []).
Proof.
  rewrite before_none.
  - unfold st. now rewrite parse_own, parse_add by apply plain_wf.
  - destruct (get (s_over st) k) as [l|] eqn:G; auto. apply regs_get in G. rewrite plain_regs in G. subst l. apply select_empty. intros ? ? [].
Qed.
Lemma plain_removes k : e_remove (entry_of st k) = [].
Proof.
  destruct (parse_entry ov h plain_wf k) as (_ & _ & H). specialize (H KRemove). cbn [e_op] in H. unfold st. rewrite H. unfold ops.
  pose proof PF as PF'. unfold plain_files in PF'. clear -PF'. induction PF' as [|c l H _ IH]; auto. cbn [flat_map]. rewrite IH, app_nil_r.
  destruct c; auto. destruct H as (_ & _ & []).
Qed.
Lemma plain_get d rounds k : get_var (S d) rounds st ov k =
  match value k with None => Ok None | Some v => bind (expand rounds (get_var d rounds st ov) (Some k) v) (fun x => Ok (Some x)) end.
Proof.
  unfold get_var at 1. cbn [get_val]. rewrite plain_before. cbn [bind]. unfold finish. cbn [fst snd].
  destruct (value k) as [v|]; [|reflexivity].
  change (fun k => bind (get_val d rounds st ov true k) (fun r => Ok (option_map fst (snd r)))) with (get_var d rounds st ov).
  destruct (expand rounds (get_var d rounds st ov) (Some k) v) as [e| |]; cbn [bind]; auto.
  assert (ER : (match find_var st k with Some en => conds ov (e_remove en) | None => [] end) = []).
  { transitivity (conds ov (e_remove (entry_of st k))); [unfold entry_of; destruct (find_var st k); reflexivity|]. now rewrite plain_removes. }
  rewrite ER. destruct e; [reflexivity|]. cbn [app expand_removes bind]. rewrite apply_removes_nil. reflexivity.
Qed.
(** Texts that expansion leaves alone. *)
Definition settled (x : str) := exists q, tidy x q /\ forall k, refs q k -> value k = None.
Lemma settled_app a b : settled a -> settled b -> settled (a ++ b).
Proof. intros (p & Tp & Hp) (q & Tq & Hq). exists (p ++ q). split; [now apply tidy_app|]. intros k I. apply in_app_iff in I. destruct I; auto. Qed.
Lemma expands_settled p x : Forall tidy_piece p -> expands value p x -> settled x.
Proof.
  intros F H. induction H as [|c l r _ IH|k l r E _ IH|k v p x l r E T _ IH1 _ IH2].
  - exists []. split; [split; [constructor|reflexivity]|intros ? []].
  - inversion F; subst. apply (settled_app [c] r); auto. exists [Char c]. split; [split; [constructor; auto|reflexivity]|]. intros k [X|[]]; discriminate.
  - inversion F; subst. apply settled_app; auto. exists [Reference k]. split; [split; [constructor; auto|cbn; now rewrite app_nil_r]|]. intros k' [X|[]]. injection X as <-. exact E.
  - inversion F; subst. apply settled_app; auto. apply IH1, T.
Qed.
Lemma subst_settled d rounds name q : Forall tidy_piece q -> (forall k, refs q k -> value k = None) ->
  (forall n, name = Some n -> value n <> None) ->
  subst (get_var (S d) rounds st ov) name (map to_seg q) = Ok (concat (map piece_text q)).
Proof.
  intros F U N. induction q as [|x q IH]; auto. inversion F; subst. cbn [map subst concat]. destruct x as [c|k]; cbn [to_seg].
  - rewrite IH; auto. intros k I. apply U. now right.
  - assert (V : value k = None) by (apply U; now left).
    assert (X : match name with Some n => seqb n k | None => false end = false).
    { destruct name as [n|]; auto. apply seqb_neq. intros ->. apply (N k eq_refl V). }
    rewrite X, plain_get, V. cbn [bind]. rewrite IH; auto. intros k' I. apply U. now right.
Qed.
Lemma subst_zero rounds name q x : subst (get_var 0 rounds st ov) name (map to_seg q) = Ok x -> x = concat (map piece_text q).
Proof.
  revert x. induction q as [|y q IH]; intros x H; [now injection H as <-|]. cbn [map concat] in *. destruct y as [c|k]; cbn [to_seg subst] in H.
  - destruct (subst _ _ _) as [r| |]; cbn [bind] in H; try discriminate. injection H as <-. now rewrite (IH r eq_refl).
  - destruct (match name with Some n => seqb n k | None => false end); discriminate.
Qed.
Lemma expand_settled d rounds n name x y : settled x -> (forall m, name = Some m -> value m <> None) ->
  expand n (get_var d rounds st ov) name x = Ok y -> y = x.
Proof.
  intros (q & [F E] & U) N. destruct n as [|n]; cbn [expand]; destruct (contains_sub (s_ "${") x); try congruence.
  assert (SE : segs 0 x = map to_seg q) by (rewrite E; now apply segs_tidy). rewrite SE.
  destruct (subst _ _ _) as [x'| |] eqn:SB; cbn [bind]; try discriminate.
  assert (X : x' = x). { destruct d as [|d]; [apply subst_zero in SB; congruence|]. rewrite subst_settled in SB by auto. congruence. }
  subst x'. rewrite seqb_refl. congruence.
Qed.
Lemma expand_settled_ok d rounds n name x : settled x -> (forall m, name = Some m -> value m <> None) ->
  expand (S n) (get_var (S d) rounds st ov) name x = Ok x.
Proof.
  intros (q & [F E] & U) N. cbn [expand]. destruct (contains_sub (s_ "${") x); auto.
  assert (SE : segs 0 x = map to_seg q) by (rewrite E; now apply segs_tidy). rewrite SE, subst_settled by auto. cbn [bind]. rewrite <- E, seqb_refl. reflexivity.
Qed.
Lemma chars_expands p : (forall k, ~ refs p k) -> expands value p (concat (map piece_text p)).
Proof.
  induction p as [|x p IH]; intros H; [constructor|]. destruct x as [c|k]; [|exfalso; apply (H k); now left]. cbn. constructor. apply IH. intros k I. apply (H k). now right.
Qed.

(** Soundness *)
Lemma subst_sound d rounds name p : (forall k x, get_var d rounds st ov k = Ok (Some x) -> exists v q, value k = Some v /\ tidy v q /\ expands value q x) ->
  (forall k, get_var d rounds st ov k = Ok None -> value k = None) ->
  forall x, subst (get_var d rounds st ov) name (map to_seg p) = Ok x -> expands value p x.
Proof.
  intros HS HN. induction p as [|y p IH]; intros x H; [injection H as <-; constructor|]. cbn [map] in H. destruct y as [c|k]; cbn [to_seg subst] in H.
  - destruct (subst _ _ _) as [r| |]; cbn [bind] in H; try discriminate. injection H as <-. constructor. auto.
  - destruct (match name with Some n => seqb n k | None => false end); [discriminate|]. destruct (get_var d rounds st ov k) as [[t|]| |] eqn:G; cbn [bind] in H; try discriminate.
    + destruct (subst _ _ _) as [r| |]; cbn [bind] in H; try discriminate. injection H as <-. destruct (HS k t G) as (v & q & E & T & X). eapply x_set; eauto.
    + destruct (subst _ _ _) as [r| |]; cbn [bind] in H; try discriminate. injection H as <-. apply x_unset; auto.
Qed.
Lemma get_none d rounds k : get_var d rounds st ov k = Ok None -> value k = None.
Proof. destruct d; [discriminate|]. rewrite plain_get. destruct (value k); auto. destruct (expand _ _ _ _); discriminate. Qed.
Lemma get_sound rounds d : forall k x, get_var d rounds st ov k = Ok (Some x) -> exists v p, value k = Some v /\ tidy v p /\ expands value p x.
Proof.
  induction d as [|d IH]; intros k x H; [discriminate|]. rewrite plain_get in H. destruct (value k) as [v|] eqn:V; [|discriminate].
  destruct (TV k v V) as [p Tp]. exists v, p. split; auto. split; auto.
  destruct (expand rounds (get_var d rounds st ov) (Some k) v) as [e| |] eqn:E; cbn [bind] in H; try discriminate. injection H as <-.
  destruct Tp as [F Ev]. assert (SE : segs 0 v = map to_seg p) by (rewrite Ev; now apply segs_tidy).
  destruct rounds as [|n]; cbn [expand] in E; destruct (contains_sub (s_ "${") v) eqn:C; try discriminate.
  1, 3: injection E as <-; rewrite Ev; apply chars_expands; apply (no_dollar v p); [split; auto|auto].
  rewrite SE in E. destruct (subst _ _ _) as [s'| |] eqn:SB; cbn [bind] in E; try discriminate.
  pose proof (subst_sound d (S n) (Some k) p IH (get_none d (S n)) s' SB) as X.
  destruct (seqb s' v) eqn:Q; [apply seqb_eq in Q; injection E as <-; now subst s'|].
  apply expand_settled in E; [now subst|now apply (expands_settled p)|]. intros m Em. injection Em as <-. congruence.
Qed.

(** No endless loop *)
Lemma subst_noloop d rounds name p : (forall k, get_var d rounds st ov k <> Loops) -> subst (get_var d rounds st ov) name (map to_seg p) <> Loops.
Proof.
  intros H. induction p as [|y p IH]; [discriminate|]. cbn [map]. destruct y as [c|k]; cbn [to_seg subst].
  - destruct (subst _ _ _); cbn [bind]; congruence.
  - destruct (match name with Some n => seqb n k | None => false end); [discriminate|]. specialize (H k). destruct (get_var d rounds st ov k); cbn [bind]; try congruence. destruct (subst _ _ _); cbn [bind]; congruence.
Qed.
Lemma get_noloop rounds d : forall k, get_var d (S (S rounds)) st ov k <> Loops.
Proof.
  induction d as [|d IH]; intros k; [discriminate|]. rewrite plain_get. destruct (value k) as [v|] eqn:V; [|discriminate].
  destruct (TV k v V) as [p [F Ev]]. assert (SE : segs 0 v = map to_seg p) by (rewrite Ev; now apply segs_tidy).
  remember (S rounds) as n. cbn [expand]. destruct (contains_sub (s_ "${") v); [|discriminate]. rewrite SE.
  pose proof (subst_noloop d (S n) (Some k) p IH) as NL. destruct (subst _ _ _) as [s'| |] eqn:SB; cbn [bind]; try congruence.
  destruct (seqb s' v); [discriminate|]. pose proof (subst_sound d (S n) (Some k) p (get_sound (S n) d) (get_none d (S n)) s' SB) as X.
  destruct (expands_settled p s' F X) as (q & [Fq Eq] & U). rewrite Heqn at 1. cbn [expand]. destruct (contains_sub (s_ "${") s'); [|discriminate].
  assert (SE' : segs 0 s' = map to_seg q) by (rewrite Eq at 1; now apply segs_tidy). rewrite SE'.
  pose proof (subst_noloop d (S n) (Some k) q IH) as NL'. destruct (subst (get_var d (S n) st ov) (Some k) (map to_seg q)) as [s2| |] eqn:SB2; cbn [bind]; try congruence.
  assert (E2 : s2 = s').
  { destruct d as [|d]; [apply subst_zero in SB2; congruence|]. rewrite subst_settled in SB2; auto; [congruence|]. intros m Em. injection Em as <-. congruence. }
  subst s2. rewrite seqb_refl. discriminate.
Qed.

(** Completeness *)
Lemma uses_tidy j k v p : value k = Some v -> tidy v p -> (uses value j k <-> refs p j).
Proof.
  intros E T. split; [|intros I; exists v, p; auto]. intros (v' & p' & E' & T' & I). rewrite E in E'. injection E' as <-. now rewrite (tidy_unique v p p' T T').
Qed.
Lemma expands_acc p x : expands value p x -> forall k, refs p k -> Acc (uses value) k.
Proof.
  induction 1 as [|c l r _ IH|k l r E _ IH|k v p x l r E T _ IH1 _ IH2]; intros k' I.
  - destruct I.
  - destruct I as [I|I]; [discriminate|auto].
  - destruct I as [I|I]; [|auto]. injection I as <-. constructor. intros j (v & p & E' & _). congruence.
  - destruct I as [I|I]; [|auto]. injection I as <-. constructor. intros j U. apply IH1. now apply (uses_tidy j k v p E T).
Qed.
Lemma acc_irrefl k : Acc (uses value) k -> ~ uses value k k.
Proof. induction 1 as [k _ IH]. intros U. exact (IH k U U). Qed.
Lemma expands_complete n p x : expands value p x ->
  exists D, forall d, D <= d -> forall name, (forall m, name = Some m -> ~ refs p m) -> subst (get_var d (S (S n)) st ov) name (map to_seg p) = Ok x.
Proof.
  induction 1 as [|c l r _ IH|k l r E _ IH|k v p x l r E T X IH1 _ IH2].
  - exists 0. reflexivity.
  - destruct IH as [D IH]. exists D. intros d L name N. cbn [map to_seg subst]. rewrite IH; auto. intros m Em I. apply (N m Em). now right.
  - destruct IH as [D IH]. exists (S D). intros d L name N. destruct d as [|d]; [lia|]. cbn [map to_seg subst].
    assert (Q : match name with Some m => seqb m k | None => false end = false).
    { destruct name as [m|]; auto. apply seqb_neq. intros ->. apply (N k eq_refl). now left. }
    rewrite Q, plain_get, E. cbn [bind]. rewrite IH; [reflexivity|lia|]. intros m Em I. apply (N m Em). now right.
  - destruct IH1 as [D1 IH1], IH2 as [D2 IH2]. exists (S (S (max D1 D2))). intros d L name N. destruct d as [|d]; [lia|]. cbn [map to_seg subst].
    assert (Q : match name with Some m => seqb m k | None => false end = false).
    { destruct name as [m|]; auto. apply seqb_neq. intros ->. apply (N k eq_refl). now left. }
    assert (NK : ~ refs p k).
    { intros I. assert (A : Acc (uses value) k) by (eapply expands_acc; [exact X|exact I]). apply (acc_irrefl k A). now apply (uses_tidy k k v p E T). }
    assert (G : get_var (S d) (S (S n)) st ov k = Ok (Some x)).
    { rewrite plain_get, E. destruct T as [F Ev]. assert (SE : segs 0 v = map to_seg p) by (rewrite Ev; now apply segs_tidy).
      assert (SB : subst (get_var d (S (S n)) st ov) (Some k) (map to_seg p) = Ok x) by (apply IH1; [lia|]; intros m Em; injection Em as <-; exact NK).
      assert (EX : expand (S (S n)) (get_var d (S (S n)) st ov) (Some k) v = Ok x).
      2:{ rewrite EX. reflexivity. }
      remember (get_var d (S (S n)) st ov) as gv. remember (S n) as m0. cbn [expand]. destruct (contains_sub (s_ "${") v) eqn:C.
      - rewrite SE, SB. cbn [bind]. destruct (seqb x v) eqn:QQ; [apply seqb_eq in QQ; congruence|]. subst gv m0. destruct d as [|d]; [lia|].
        apply expand_settled_ok; [now apply (expands_settled p)|]. intros m Em. injection Em as <-. congruence.
      - assert (NR : forall j, ~ refs p j) by (apply (no_dollar v p); [split; auto|auto]).
        assert (Y : subst gv (Some k) (map to_seg p) = Ok (concat (map piece_text p))).
        { clear -NR. induction p as [|y p IH]; auto. destruct y as [c|j]; [|exfalso; apply (NR j); now left]. cbn [map to_seg subst]. rewrite IH; auto. intros j I. apply (NR j). now right. }
        congruence. }
    rewrite Q, G. cbn [bind]. rewrite IH2; [reflexivity|lia|]. intros m Em I. apply (N m Em). now right.
Qed.
Lemma get_complete n k v p x : value k = Some v -> tidy v p -> expands value p x ->
  exists D, forall d, D <= d -> get_var d (S (S n)) st ov k = Ok (Some x).
Proof.
  intros E T X. assert (X' : expands value [Reference k] (x ++ [])) by (eapply x_set; eauto; constructor). rewrite app_nil_r in X'.
  destruct (expands_complete n _ _ X') as [D H]. exists D. intros d L. specialize (H d L None). cbn [map to_seg subst] in H.
  destruct (get_var d (S (S n)) st ov k) as [[t|]| |] eqn:G; cbn [bind] in H; try (specialize (H ltac:(discriminate)); discriminate).
  - rewrite app_nil_r in H. specialize (H ltac:(discriminate)). congruence.
  - apply get_none in G. congruence.
Qed.

(** Circular texts *)
Lemma needs_acc k j : needs value k j -> Acc (uses value) k -> Acc (uses value) j.
Proof. induction 1 as [|i j _ IH U]; auto. intros A. destruct (IH A) as [B]. auto. Qed.
Lemma needs_trans i j k : needs value i j -> needs value j k -> needs value i k.
Proof. intros A B. induction B as [|a b _ IH U]; auto. eapply n_more; eauto. Qed.
Lemma needs_first k j : needs value k j -> k = j \/ exists i, uses value i k /\ needs value i j.
Proof.
  induction 1 as [|a b H IH U]; [now left|]. right. destruct IH as [->|(i & Ui & Ni)]; [exists b; split; auto; constructor|exists i; split; auto; eapply n_more; eauto].
Qed.
Lemma acc_not_circular k : Acc (uses value) k -> ~ circular value k.
Proof.
  induction 1 as [k _ IH]. intros (j & U & N). apply (IH j U). destruct (needs_first j k N) as [->|(i & Ui & Ni)]; [exists k; split; auto|].
  exists i. split; auto. eapply n_more; eauto.
Qed.
Lemma circular_err n k j : needs value k j -> circular value j -> forall d, get_var d (S (S n)) st ov k = Err.
Proof.
  intros N C d. destruct (get_var d (S (S n)) st ov k) as [[x|]| |] eqn:G; auto; exfalso.
  - apply get_sound in G. destruct G as (v & p & E & T & X).
    assert (A : Acc (uses value) k) by (constructor; intros i U; apply (expands_acc p x X); now apply (uses_tidy i k v p E T)).
    apply (acc_not_circular j); auto. apply (needs_acc k j); auto.
  - apply get_none in G. destruct (needs_first k j N) as [->|(i & (v & p & E & _) & _)]; [|congruence]. destruct C as (i & (v & p & E & _) & _). congruence.
  - apply get_noloop in G. exact G.
Qed.
Lemma value_named k v : value k = Some v -> In k (map name_of h).
Proof.
  unfold value. intros H. destruct (in_dec str_eq_dec k (map name_of h)) as [I|NI]; auto. exfalso.
  assert (Q : forall c, In c h -> seqb (name_of c) k = false) by (intros c I; apply seqb_neq; intros <-; apply NI, in_map, I).
  assert (FM : forall f : call -> list str, (forall c, In c h -> f c = []) -> flat_map f h = []).
  { intros f Hf. clear -Hf. induction h as [|c l IH]; auto. cbn [flat_map]. rewrite (Hf c) by now left. apply IH. intros; apply Hf; now right. }
  assert (E1 : sets h k = []) by (apply FM; intros c I; specialize (Q c I); destruct c; auto; cbn in Q; now rewrite Q).
  assert (E2 : defaults h k = []) by (apply FM; intros c I; specialize (Q c I); destruct c; auto; cbn in Q; now rewrite Q).
  assert (E3 : appends ov h k = []) by (apply FM; intros c I; specialize (Q c I); destruct c; auto; cbn in Q; now rewrite Q).
  assert (E4 : prepends ov h k = []) by (apply FM; intros c I; specialize (Q c I); destruct c; auto; cbn in Q; now rewrite Q).
  unfold text, assigned in H. rewrite E1, E2, E3, E4 in H. discriminate.
Qed.
Lemma acyclic_acc k : (forall j, needs value k j -> ~ circular value j) -> Acc (uses value) k.
Proof.
  intros NC. set (names := map name_of h).
  assert (G : forall m path j, length names < m + length path -> NoDup path -> incl path names -> (forall i, In i path -> exists u, uses value u i /\ needs value u j) -> needs value k j -> Acc (uses value) j).
  { induction m as [|m IH]; intros path j L ND I P N.
    - exfalso. pose proof (NoDup_incl_length ND I). lia.
    - constructor. intros u (v & p & E & T & R). assert (U : uses value u j) by (exists v, p; auto).
      apply (IH (j :: path)).
      + cbn [length]. lia.
      + constructor; auto. intros Ij. apply (NC j N). exact (P j Ij).
      + intros i [<-|Ii]; auto. now apply (value_named j v).
      + intros i [<-|Ii]; [exists u; split; [auto|constructor]|]. destruct (P i Ii) as (w & Uw & Nw). exists w. split; auto. eapply n_more; eauto.
      + eapply n_more; eauto. }
  apply (G (S (length names)) [] k); [cbn; lia|constructor|intros ? []|intros ? []|constructor].
Qed.
Lemma acc_expands k : Acc (uses value) k -> forall v p, value k = Some v -> tidy v p -> exists x, expands value p x.
Proof.
  induction 1 as [k _ IH]. intros v p E T.
  assert (G : forall q, incl q p -> exists x, expands value q x).
  { induction q as [|y q IHq]; intros I; [exists []; constructor|]. destruct IHq as [r Hr]; [intros z Z; apply I; now right|]. destruct y as [c|j].
    - exists (c :: r). now constructor.
    - destruct (value j) as [w|] eqn:Ej; [|eexists; apply x_unset; eauto]. destruct (TV j w Ej) as [pw Tw].
      destruct (IH j) with (v := w) (p := pw) as [x X]; auto; [exists v, p; split; [auto|split; [auto|apply I; now left]]|]. exists (x ++ r). eapply x_set; eauto. }
  apply G. apply incl_refl.
Qed.
End Expansion.

(** ** Setting a variable at run time *)
Definition no_ops (e : entry) := e_append e = [] /\ e_prepend e = [] /\ e_remove e = [].
Definition dels (ov : list str) (l : list (str * str)) (st : store) : store :=
  fold_left (fun s e => if holds ov (snd e) then del_var s (fst e) else s) l st.
Lemma find_del_var st n m : find_var (del_var st n) m = if seqb m n then Some no_entry else find_var st m.
Proof. unfold find_var, del_var. cbn [find_in s_own s_behind]. rewrite get_set. destruct (seqb m n); reflexivity. Qed.
Lemma dels_spec ov l : forall st m,
  find_var (dels ov l st) m = if existsb (fun e => holds ov (snd e) && seqb m (fst e)) l then Some no_entry else find_var st m.
Proof.
  induction l as [|[r o] l IH]; intros st m; auto.
  change (dels ov ((r, o) :: l) st) with (dels ov l (if holds ov o then del_var st r else st)). rewrite IH. cbn [existsb fst snd].
  destruct (existsb _ l); [now rewrite orb_true_r|]. rewrite orb_false_r. destruct (holds ov o); auto. cbn [andb]. now rewrite find_del_var.
Qed.
Lemma register_get cs : forall od var n, ~ In n (map fst cs) -> get (register_cuts cs od var) n = get od n.
Proof.
  unfold register_cuts. induction cs as [|[s o] cs IH]; intros od var n N; auto. cbn [fold_left fst snd]. rewrite IH by (intros I; apply N; now right).
  assert (NE : n <> s) by (intros ->; apply N; now left). destruct (existsb _ _); rewrite get_set_other; auto.
Qed.
Lemma own_cut n : ~ In n (map fst (override_cuts n)).
Proof.
  intros I. apply in_map_iff in I. destruct I as ([a o] & E & I). cbn in E. subst a. apply override_cuts_shape in I. destruct I as [E _].
  apply (f_equal (@length ascii)) in E. rewrite app_length in E. cbn in E. lia.
Qed.
Lemma set_var_run ov st n v : plain n -> exists st0 od,
  set_var false ov st n v = change (over st0 od) n (with_content v) /\ get od n = None /\ no_ops (entry_of st0 n) /\
  forall m, m <> n -> find_var st0 m = if existsb (fun e => holds ov (snd e) && seqb m (fst e)) (regs (s_over st) n) then Some no_entry else find_var st m.
Proof.
  intros P. unfold set_var. rewrite (find_kw_plain n []) by exact P. cbn [negb].
  set (st1 := change st n without_ops). assert (S1 : s_over st1 = s_over st) by reflexivity. rewrite S1. destruct (get (s_over st) n) as [l|] eqn:G.
  - fold (dels ov l st1). exists (over (dels ov l st1) (del (s_over (dels ov l st1)) n)). eexists. split; [reflexivity|]. split; [|split].
    + unfold register. rewrite register_get by apply own_cut. cbn [over s_over]. now rewrite get_del, seqb_refl.
    + rewrite entry_over. unfold entry_of. rewrite dels_spec. destruct (existsb _ l); [repeat split|]. unfold st1. rewrite find_change, seqb_refl. repeat split.
    + intros m N. unfold find_var at 1. cbn [over s_own s_behind]. fold (find_var (dels ov l st1) m). rewrite dels_spec. unfold regs. rewrite G.
      destruct (existsb _ l); auto. unfold st1. rewrite find_change. apply seqb_neq in N. now rewrite N.
  - exists st1. eexists. split; [reflexivity|]. split; [|split].
    + unfold register. rewrite register_get by apply own_cut. now rewrite S1.
    + unfold entry_of, st1. rewrite find_change, seqb_refl. repeat split.
    + intros m N. unfold st1. rewrite find_change. apply seqb_neq in N. rewrite N. unfold regs. now rewrite G.
Qed.
Lemma set_var_value ov st n v ov' depth rounds : plain n -> get_raw depth rounds (set_var false ov st n v) ov' n = Ok (Some v).
Proof.
  intros P. destruct (set_var_run ov st n v P) as (st0 & od & -> & G & (A & B & _) & _). unfold get_raw. rewrite before_none.
  - cbn [bind fst]. rewrite add_ops_entry, own_entry, entry_change, seqb_refl, entry_over. cbn [with_content e_content e_append e_prepend]. rewrite A, B. cbn. now rewrite app_nil_r.
  - cbn [change s_over over]. now rewrite G.
Qed.

(** ** Expansion that never ends *)
Definition dollars (n : nat) : str := repeat "$"%char n.
Definition braces (n : nat) : str := repeat "}"%char n.
Definition state_t (a b : nat) : str := dollars a ++ s_ "${T}" ++ braces b.
Definition state_s (a b : nat) : str := dollars a ++ s_ "${S}" ++ braces b.
Lemma segs_dollars a : forall rest, (forall c t, rest = c :: t -> c = "$"%char) -> rest <> [] ->
  segs 0 (dollars a ++ rest) = repeat (Lit "$"%char) a ++ segs 0 rest.
Proof.
  induction a as [|a IH]; intros rest H N; auto. cbn [dollars repeat app]. fold (dollars a).
  assert (R : ref_at ("$"%char :: dollars a ++ rest) = None).
  { destruct a as [|a]; cbn [dollars repeat app ref_at]; [|reflexivity]. destruct rest as [|c t]; [congruence|]. rewrite (H c t eq_refl). reflexivity. }
  cbn [segs]. rewrite R. now rewrite IH.
Qed.
Lemma segs_braces b : segs 0 (braces b) = repeat (Lit "}"%char) b.
Proof. induction b as [|b IH]; auto. cbn [braces repeat]. fold (braces b). cbn [segs]. rewrite ref_at_char by discriminate. now rewrite IH. Qed.
Lemma segs_t a b : segs 0 (state_t a b) = repeat (Lit "$"%char) a ++ Ref (s_ "T") :: repeat (Lit "}"%char) b.
Proof. unfold state_t. rewrite segs_dollars; [|intros c t E; injection E as <- _; reflexivity|discriminate]. f_equal. cbn. now rewrite segs_braces. Qed.
Lemma segs_s a b : segs 0 (state_s a b) = repeat (Lit "$"%char) a ++ Ref (s_ "S") :: repeat (Lit "}"%char) b.
Proof. unfold state_s. rewrite segs_dollars; [|intros c t E; injection E as <- _; reflexivity|discriminate]. f_equal. cbn. now rewrite segs_braces. Qed.
Lemma subst_lits getv name c a l x : subst getv name l = Ok x -> subst getv name (repeat (Lit c) a ++ l) = Ok (repeat c a ++ x).
Proof. intros H. induction a as [|a IH]; auto. cbn [repeat app subst]. rewrite IH. reflexivity. Qed.
Lemma subst_lits_end getv name c b : subst getv name (repeat (Lit c) b) = Ok (repeat c b).
Proof. induction b as [|b IH]; auto. cbn [repeat subst]. rewrite IH. reflexivity. Qed.
Lemma contains_t a b : contains_sub (s_ "${") (state_t a b) = true.
Proof. apply contains_sub_iff. exists (dollars a), (s_ "T}" ++ braces b). reflexivity. Qed.
Lemma contains_s a b : contains_sub (s_ "${") (state_s a b) = true.
Proof. apply contains_sub_iff. exists (dollars a), (s_ "S}" ++ braces b). reflexivity. Qed.
Lemma repeat_cons_app {A} (x : A) n l : repeat x n ++ x :: l = x :: repeat x n ++ l.
Proof. induction n; cbn; congruence. Qed.
Lemma loops_forever getv name : name <> Some (s_ "T") -> name <> Some (s_ "S") ->
  getv (s_ "T") = Ok (Some (s_ "{S}}}")) -> getv (s_ "S") = Ok (Some (s_ "$$$${T")) ->
  forall n, (forall a b, expand n getv name (state_t (S a) b) = Loops) /\ (forall a b, expand n getv name (state_s a (S b)) = Loops).
Proof.
  intros N1 N2 GT GS. induction n as [|n [IH1 IH2]].
  - split; intros a b; unfold expand; [rewrite contains_t|rewrite contains_s]; reflexivity.
  - split; intros a b; cbn [expand]; [rewrite contains_t, segs_t|rewrite contains_s, segs_s].
    + rewrite (subst_lits getv name "$"%char (S a) _ (s_ "{S}}}" ++ braces b)).
      2:{ cbn [subst]. assert (Q : match name with Some m => seqb m (s_ "T") | None => false end = false) by (destruct name as [m|]; auto; apply seqb_neq; congruence).
          rewrite Q, GT. cbn [bind]. rewrite subst_lits_end. reflexivity. }
      cbn [bind]. assert (E : repeat "$"%char (S a) ++ s_ "{S}}}" ++ braces b = state_s a (S (S b))).
      { unfold state_s, dollars. change (s_ "${S}" ++ braces (S (S b))) with ("$"%char :: s_ "{S}}}" ++ braces b). now rewrite repeat_cons_app. }
      rewrite E. destruct (seqb _ _) eqn:Q; [exfalso|apply IH2].
      apply seqb_eq in Q. apply (f_equal (fun s => segs 0 s)) in Q. rewrite segs_t, segs_s in Q.
      apply (f_equal (fun l => existsb (fun x => match x with Ref k => seqb k (s_ "T") | _ => false end) l)) in Q. rewrite !existsb_app in Q.
      assert (K : forall c m, existsb (fun x => match x with Ref k => seqb k (s_ "T") | _ => false end) (repeat (Lit c) m) = false) by (intros c m; induction m; auto).
      cbn [existsb] in Q. rewrite !K in Q. discriminate.
    + rewrite (subst_lits getv name "$"%char a _ (s_ "$$$${T" ++ braces (S b))).
      2:{ cbn [subst]. assert (Q : match name with Some m => seqb m (s_ "S") | None => false end = false) by (destruct name as [m|]; auto; apply seqb_neq; congruence).
          rewrite Q, GS. cbn [bind]. rewrite subst_lits_end. reflexivity. }
      cbn [bind]. assert (E : repeat "$"%char a ++ s_ "$$$${T" ++ braces (S b) = state_t (S (S (S a))) b).
      { unfold state_t, dollars. change (s_ "$$$${T" ++ braces (S b)) with ("$"%char :: "$"%char :: "$"%char :: s_ "${T}" ++ braces b). now rewrite !repeat_cons_app. }
      rewrite E. destruct (seqb _ _) eqn:Q; [exfalso|apply IH1].
      apply seqb_eq in Q. apply (f_equal (fun s => segs 0 s)) in Q. rewrite segs_t, segs_s in Q.
      apply (f_equal (fun l => existsb (fun x => match x with Ref k => seqb k (s_ "T") | _ => false end) l)) in Q. rewrite !existsb_app in Q.
      assert (K : forall c m, existsb (fun x => match x with Ref k => seqb k (s_ "T") | _ => false end) (repeat (Lit c) m) = false) by (intros c m; induction m; auto).
      cbn [existsb] in Q. rewrite !K in Q. discriminate.
Qed.
