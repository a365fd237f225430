(** Lemmas for C40. *)
From Coq Require Import Ascii String List Bool Arith Lia Permutation.
From Verif Require Import Str_Model Str_Proofs Data_Model Data_Proofs Imgtypes_Model Deps_Model Deps_Spec.
Import ListNotations.
Open Scope list_scope.

Definition nospace (w : str) := Forall (fun c => is_space c = false) w.
Lemma strip_nospace w : nospace w -> strip w = w.
Proof.
  intros F. unfold strip. destruct w as [|c w]; auto. inversion F; subst. rewrite lstrip_nospace by auto.
  destruct (exists_last (l := c :: w)) as (a & d & E); [discriminate|]. rewrite E. apply rstrip_snoc. rewrite E in F. apply Forall_app in F. destruct F as [_ F]. now inversion F.
Qed.
Lemma op_nospace o : In o operators -> nospace o /\ o <> [].
Proof. unfold operators. cbn [In]. intuition (subst; try discriminate; repeat constructor). Qed.
Lemma op_no_paren o : In o operators -> startswith (s_ "(") o = false.
Proof. unfold operators. cbn [In]. intuition (subst; reflexivity). Qed.
Lemma cut_op_alone o : In o operators -> cut_op o = Some (o, []).
Proof. unfold operators. cbn [In]. intuition (subst; reflexivity). Qed.
Lemma cut_op_with o v : In o operators -> no_op_start v -> v <> [] -> cut_op (o ++ v) = Some (o, v).
Proof.
  intros H N NE. destruct v as [|c v]; [congruence|]. cbn [no_op_start] in N.
  assert (N1 : aeqb "<"%char c = false /\ aeqb ">"%char c = false /\ aeqb "="%char c = false).
  { repeat split; apply aeqb_neq; intros <-; apply N; cbn; tauto. }
  destruct N1 as (N1 & N2 & N3). unfold operators in H. cbn [In] in H. unfold cut_op, two_char, one_char.
  repeat (destruct H as [<-|H]; [cbn [existsb s_ list_ascii_of_string app startswith]; rewrite ?N1, ?N2, ?N3; reflexivity|]). contradiction.
Qed.
Lemma endswith_paren v : endswith (s_ ")") (v ++ s_ ")") = true.
Proof. apply endswith_iff. now exists v. Qed.
Lemma removelast_paren v : removelast (v ++ s_ ")") = v.
Proof. change (s_ ")") with [")"%char]. apply removelast_last. Qed.

(** ** One item *)
Definition idle (p : pst) := p_incmp p = false /\ p_inv p = false.
Definition vers (r : list (str * list str)) (n : str) : list str := match get r n with Some l => l | None => [] end.
Definition add_item (r : list (str * list str)) (i : item) : list (str * list str) :=
  set r (fst i) (vers r (fst i) ++ match snd i with None => [] | Some c => [constraint_text c] end).
Lemma set_get_same {A} (m : list (str * A)) k v : get m k = Some v -> set m k v = m.
Proof.
  induction m as [|[a w] m IH]; cbn [get set]; [discriminate|]. destruct (seqb k a) eqn:E; [intros X; now injection X as ->|]. intros X. now rewrite IH.
Qed.
Lemma set_set {A} (m : list (str * A)) k v w : set (set m k v) k w = set m k w.
Proof.
  induction m as [|[a u] m IH]; cbn [set]; [now rewrite seqb_refl|]. destruct (seqb k a) eqn:E; cbn [set]; rewrite E; auto. now rewrite IH.
Qed.
Lemma step_name p n : idle p -> good_name n -> word_step p n = Some (new_dep p n).
Proof.
  intros [I V] (W & _ & S). unfold word_step. rewrite S. cbn [andb]. rewrite I. cbn [orb p_incmp p_inv]. rewrite V.
  destruct p; cbn in *. subst. reflexivity.
Qed.
Lemma new_dep_r p n : p_r (new_dep p n) = add_item (p_r p) (n, None).
Proof.
  unfold new_dep, add_item, vers. cbn [p_r fst snd]. rewrite app_nil_r. destruct (get (p_r p) n) as [[|x l]|] eqn:G; auto. now rewrite set_get_same.
Qed.
(** The state between the operator and the version. *)
Definition opened (p : pst) (n o : str) (q : pst) : Prop :=
  p_r q = p_r p /\ p_dep q = Some n /\ p_cmp q = o /\ p_ver q = [] /\ p_incmp q = false /\ p_inv q = true.
Lemma close_step p n o q v : opened p n o q -> good_version v -> exists q', in_version q (v ++ s_ ")") = Some q' /\ idle q' /\
  p_r q' = set (p_r p) n (vers (p_r p) n ++ [constraint_text (o, v)]).
Proof.
  intros (R & D & C & V & I & N) (W & _). unfold in_version. rewrite endswith_paren, removelast_paren, V, D, C, R. cbn [seqb negb andb app].
  destruct v as [|c v]; [destruct W; congruence|]. eexists. split; [reflexivity|]. split; [split; auto|]. reflexivity.
Qed.
Lemma open_glued p n o rest : p_dep p = Some n -> p_ver p = [] -> idle p -> In o operators -> nospace rest -> (rest = [] \/ cut_op (o ++ rest) = Some (o, rest)) ->
  exists q, opened p n o q /\ word_step p (s_ "(" ++ o ++ rest) = match rest with [] => Some q | _ => in_version q rest end.
Proof.
  intros D V [I N] O NS X. assert (CO : cut_op (o ++ rest) = Some (o, rest)) by (destruct X as [->|X]; auto; rewrite app_nil_r; now apply cut_op_alone).
  destruct (op_nospace o O) as [No Ne]. assert (NR : nospace (o ++ rest)) by (now apply Forall_app).
  eexists. split; cycle 1.
  - unfold word_step. assert (S : startswith (s_ "(") (s_ "(" ++ o ++ rest) = true) by (apply startswith_iff; eauto). rewrite S.
    change (skipn 1 (s_ "(" ++ o ++ rest)) with (o ++ rest). rewrite strip_nospace by auto. cbn [andb].
    assert (E : seqb (o ++ rest) [] = false) by (apply seqb_neq; destruct o; [congruence|discriminate]). rewrite E. cbn [p_incmp]. rewrite orb_true_r, CO. reflexivity.
  - repeat split; auto.
Qed.
Lemma open_apart p n o : p_dep p = Some n -> p_ver p = [] -> idle p -> In o operators ->
  exists q1 q, word_step p (s_ "(") = Some q1 /\ word_step q1 o = Some q /\ opened p n o q.
Proof.
  intros D V [I N] O. eexists. eexists. split; [reflexivity|]. split.
  - unfold word_step. rewrite op_no_paren by auto. cbn [andb p_incmp orb]. rewrite orb_true_r. cbn [orb]. rewrite cut_op_alone by auto. reflexivity.
  - repeat split; auto.
Qed.
Lemma version_word q v : p_incmp q = false -> p_inv q = true -> startswith (s_ "(") v = false -> word_step q v = in_version q v.
Proof. intros I N S. unfold word_step. rewrite S. cbn [andb orb p_incmp p_inv]. rewrite I, orb_false_r. cbn [p_inv]. rewrite N. destruct q; cbn in *. subst. reflexivity. Qed.
Lemma startswith_paren_app v t : v <> [] -> startswith (s_ "(") v = false -> startswith (s_ "(") (v ++ t) = false.
Proof. destruct v as [|c v]; [congruence|]. auto. Qed.
Lemma item_steps i ws : spelled i ws -> good_item i -> forall p, idle p -> exists q, words_steps p ws = Some q /\ idle q /\ p_r q = add_item (p_r p) i.
Proof.
  intros S [GN GC] p Ip.
  assert (FIN : forall n o v, add_item (p_r p) (n, Some (o, v)) = set (p_r (new_dep p n)) n (vers (p_r (new_dep p n)) n ++ [constraint_text (o, v)])).
  { intros n o v. rewrite new_dep_r. unfold add_item, vers. cbn [fst snd]. rewrite get_set_same, set_set, app_nil_r. reflexivity. }
  assert (DI : forall n, idle (new_dep p n)) by (intros n; destruct Ip; split; auto).
  destruct S as [n|n o v|n o v EV|n o v|n o v NO]; cbn [fst snd] in *; cbn [words_steps]; rewrite step_name by auto.
  - exists (new_dep p n). split; auto. split; auto. apply new_dep_r.
  - destruct GC as [O V]. destruct (open_glued (new_dep p n) n o [] eq_refl eq_refl (DI n) O ltac:(constructor) (or_introl eq_refl)) as (q & OQ & E).
    rewrite app_nil_r in E. rewrite E. destruct (close_step _ _ _ _ _ OQ V) as (q' & C & I' & R). destruct OQ as (_ & _ & _ & _ & I1 & I2).
    rewrite version_word, C; auto; [|apply startswith_paren_app; [apply V|apply V]]. exists q'. split; auto. split; auto. now rewrite FIN.
  - destruct GC as [O V]. destruct (open_apart (new_dep p n) n o eq_refl eq_refl (DI n) O) as (q1 & q & E1 & E2 & OQ). rewrite E1, E2.
    destruct OQ as (R & D & C & Vq & I1 & I2). rewrite version_word by (auto; apply V). unfold in_version at 1. rewrite EV, D, C, Vq, R. cbn [andb app].
    destruct V as [[Ne _] _]. destruct v as [|c v]; [congruence|]. eexists. split; [|split; [|]].
    + rewrite version_word by (auto; reflexivity). reflexivity.
    + split; auto.
    + cbn [p_r]. now rewrite FIN.
  - destruct GC as [O V]. destruct (open_apart (new_dep p n) n o eq_refl eq_refl (DI n) O) as (q1 & q & E1 & E2 & OQ). rewrite E1, E2.
    destruct (close_step _ _ _ _ _ OQ V) as (q' & C & I' & R). destruct OQ as (_ & _ & _ & _ & I1 & I2).
    rewrite version_word, C; auto; [|apply startswith_paren_app; [apply V|apply V]]. exists q'. split; auto. split; auto. now rewrite FIN.
  - destruct GC as [O V]. assert (NV : no_op_start (v ++ s_ ")")) by (destruct V as [[Ne _] _]; destruct v; [congruence|auto]).
    assert (NE : v ++ s_ ")" <> []) by (destruct v; discriminate).
    assert (NS : nospace (v ++ s_ ")")) by (apply Forall_app; split; [apply V|repeat constructor]).
    destruct (open_glued (new_dep p n) n o (v ++ s_ ")") eq_refl eq_refl (DI n) O NS (or_intror (cut_op_with o _ O NV NE))) as (q & OQ & E).
    rewrite E. destruct (close_step _ _ _ _ _ OQ V) as (q' & C & I' & R).
    assert (M : match v ++ s_ ")" with [] => Some q | _ :: _ => in_version q (v ++ s_ ")") end = in_version q (v ++ s_ ")")) by (destruct (v ++ s_ ")"); [congruence|auto]).
    rewrite M, C. exists q'. split; auto. split; auto. now rewrite FIN.
Qed.
Lemma words_app l1 : forall p l2, words_steps p (l1 ++ l2) = match words_steps p l1 with None => None | Some q => words_steps q l2 end.
Proof. induction l1 as [|i l1 IH]; intros p l2; auto. cbn [app words_steps]. destruct (word_step p i); auto. Qed.
Lemma items_steps items wss : Forall2 spelled items wss -> Forall good_item items -> forall p, idle p ->
  exists q, words_steps p (concat wss) = Some q /\ idle q /\ p_r q = fold_left add_item items (p_r p).
Proof.
  induction 1 as [|i ws items wss S _ IH]; intros G p Ip; [exists p; auto|]. inversion G; subst. cbn [concat fold_left]. rewrite words_app.
  destruct (item_steps i ws S H1 p Ip) as (q & -> & Iq & R). destruct (IH H2 q Iq) as (q' & E & Iq' & R'). exists q'. rewrite R' , R. auto.
Qed.

(** ** The result *)
Lemma add_item_get r i n : vers (add_item r i) n = vers r n ++ (if seqb (fst i) n then match snd i with None => [] | Some c => [constraint_text c] end else []).
Proof.
  unfold add_item, vers. rewrite get_set. destruct (seqb n (fst i)) eqn:E.
  - apply seqb_eq in E. subst n. now rewrite seqb_refl.
  - assert (E' : seqb (fst i) n = false) by (apply seqb_neq; apply seqb_neq in E; congruence). now rewrite E', app_nil_r.
Qed.
Lemma items_get items : forall r n, vers (fold_left add_item items r) n = vers r n ++ constraints items n.
Proof.
  induction items as [|i items IH]; intros r n; cbn [fold_left]; [now rewrite app_nil_r|]. rewrite IH, add_item_get, <- app_assoc. reflexivity.
Qed.
Lemma set_keys_list {A} (m : list (str * A)) k v : map fst (set m k v) = if in_dec str_eq_dec k (map fst m) then map fst m else map fst m ++ [k].
Proof.
  induction m as [|[a w] m IH]; cbn [set map fst]; [reflexivity|]. destruct (seqb k a) eqn:E.
  - apply seqb_eq in E. subst a. cbn [map fst]. destruct (in_dec str_eq_dec k (k :: map fst m)) as [I|NI]; auto. exfalso. apply NI. now left.
  - apply seqb_neq in E. cbn [map fst]. rewrite IH. destruct (in_dec str_eq_dec k (map fst m)) as [I|NI], (in_dec str_eq_dec k (a :: map fst m)) as [I'|NI']; auto.
    + exfalso. apply NI'. now right.
    + exfalso. destruct I' as [->|I']; contradiction.
Qed.
Lemma items_keys items : map fst (fold_left add_item items []) = first_mentions items.
Proof.
  unfold first_mentions. induction items as [|i items IH] using rev_ind; auto. rewrite fold_left_app, map_app, rev_app_distr. cbn [fold_left map rev app nodup].
  unfold add_item at 1. rewrite set_keys_list, IH.
  assert (X : In (fst i) (rev (nodup str_eq_dec (rev (map fst items)))) <-> In (fst i) (rev (map fst items))) by (rewrite <- in_rev, nodup_In; reflexivity).
  match goal with |- (if ?a then _ else _) = rev (if ?b then _ else _) => destruct a as [I|NI], b as [J|NJ] end; auto; exfalso.
  - exact (NJ (proj1 X I)).
  - exact (NI (proj2 X J)).
Qed.
Lemma nodup_mentions items : NoDup (first_mentions items).
Proof. unfold first_mentions. apply NoDup_rev. apply NoDup_nodup. Qed.
Lemma mentions_In items n : In n (first_mentions items) <-> In n (map fst items).
Proof. unfold first_mentions. rewrite <- in_rev, nodup_In, <- in_rev. reflexivity. Qed.
Lemma assoc_ext {A} : forall (m m' : list (str * A)), map fst m = map fst m' -> NoDup (map fst m) -> (forall k, get m k = get m' k) -> m = m'.
Proof.
  induction m as [|[a v] m IH]; intros [|[b w] m'] K N G; try discriminate; auto. cbn [map fst] in *. injection K as -> K. inversion N; subst.
  f_equal.
  - specialize (G b). cbn [get] in G. rewrite seqb_refl in G. congruence.
  - apply IH; auto. intros k. specialize (G k). cbn [get] in G. destruct (seqb k b) eqn:E; auto. apply seqb_eq in E. subst k.
    destruct (get m b) eqn:G1; [exfalso; apply H1, get_key; congruence|]. destruct (get m' b) eqn:G2; auto. exfalso. apply H1. rewrite K. apply get_key. congruence.
Qed.
Lemma get_vers {A} (m : list (str * list A)) n : In n (map fst m) -> get m n = Some (match get m n with Some l => l | None => [] end).
Proof. intros I. apply get_key in I. destruct (get m n); congruence. Qed.

(** ** Printing *)
Definition items_of (deps : list (str * list (str * str))) : list item :=
  flat_map (fun d => match snd d with [] => [(fst d, None)] | cs => map (fun c => (fst d, Some c)) cs end) deps.
Definition item_text (i : item) : str := match snd i with None => fst i | Some c => fst i ++ s_ " (" ++ constraint_text c ++ s_ ")" end.
Definition usual_words (i : item) : list str := match snd i with None => [fst i] | Some (o, v) => [fst i; s_ "(" ++ o; v ++ s_ ")"] end.
Lemma usual_spelled i : spelled i (usual_words i).
Proof. destruct i as [n [[o v]|]]; constructor. Qed.
Lemma word_app a b : nospace a -> word b -> word (a ++ b).
Proof. intros A [N B]. split; [destruct a; [auto|discriminate]|now apply Forall_app]. Qed.
Lemma item_words i : good_item i -> split_ws (item_text i) = usual_words i.
Proof.
  destruct i as [n [[o v]|]]; intros [(Wn & _) G]; cbn [fst snd] in *; [|now apply split_ws_single].
  destruct G as [O (Wv & _)]. destruct (op_nospace o O) as [No Ne]. unfold item_text, usual_words, constraint_text. cbn [fst snd].
  replace (n ++ s_ " (" ++ (o ++ s_ " " ++ v) ++ s_ ")") with (n ++ " "%char :: ((s_ "(" ++ o) ++ " "%char :: (v ++ s_ ")"))) by (cbn; rewrite <- !app_assoc; reflexivity).
  rewrite split_ws_word, split_ws_word, split_ws_single; auto.
  - split; [destruct v; discriminate|apply Forall_app; split; [apply Wv|repeat constructor]].
  - split; [discriminate|]. apply Forall_app. split; [repeat constructor|exact No].
Qed.
Lemma no_comma s : ~ In ","%char s -> replace_char ","%char [] s = s.
Proof.
  unfold replace_char. induction s as [|c s IH]; intros N; auto. cbn [flat_map]. assert (E : aeqb c ","%char = false) by (apply aeqb_neq; intros ->; apply N; now left).
  rewrite E. cbn [app]. f_equal. apply IH. intros I. apply N. now right.
Qed.
Lemma item_no_comma i : good_item i -> ~ In ","%char (item_text i).
Proof.
  destruct i as [n [[o v]|]]; intros [(_ & Nn & _) G]; cbn [fst snd] in *; auto. destruct G as [O (_ & Nv & _)]. unfold item_text, constraint_text. cbn [fst snd].
  assert (No : ~ In ","%char o) by (unfold operators in O; cbn [In] in O; intuition (subst; cbn in *; intuition discriminate)).
  rewrite !in_app_iff. cbn [In s_ list_ascii_of_string]. intuition discriminate.
Qed.
Lemma replace_char_app c t a b : replace_char c t (a ++ b) = replace_char c t a ++ replace_char c t b.
Proof. apply flat_map_app. Qed.
Lemma join_words comma items : Forall good_item items ->
  split_ws (replace_char ","%char [] (join (if comma : bool then s_ ", " else s_ " ") (map item_text items))) = concat (map usual_words items).
Proof.
  intros G. induction G as [|i items Gi G IH]; [destruct comma; reflexivity|]. cbn [map concat]. destruct items as [|j items].
  - cbn [map join concat]. rewrite no_comma by now apply item_no_comma. rewrite item_words, app_nil_r by auto. reflexivity.
  - cbn [map] in *. rewrite join_cons by discriminate. rewrite !replace_char_app. rewrite (no_comma (item_text i)) by now apply item_no_comma.
    assert (E2 : replace_char ","%char [] (if comma then s_ ", " else s_ " ") = [" "%char]) by (destruct comma; reflexivity).
    rewrite E2. cbn [app]. rewrite split_ws_app by reflexivity. now rewrite item_words, IH.
Qed.

(** ** Order *)
Lemma str_leb_lt a : forall b, str_lt a b -> str_leb a b = true /\ str_leb b a = false.
Proof.
  induction a as [|c a IH]; intros b H; inversion H as [|? d ? t L|? ? t L]; subst; cbn [str_leb]; auto.
  - assert (E : aeqb c d = false) by (apply aeqb_neq; intros ->; lia). assert (E' : aeqb d c = false) by (apply aeqb_neq; intros ->; lia). rewrite E, E'.
    split; [apply Nat.leb_le|apply Nat.leb_gt]; lia.
  - destruct (IH t L). assert (E : aeqb c c = true) by now apply aeqb_eq. now rewrite E.
Qed.
Lemma str_trichotomy a : forall b, str_lt a b \/ a = b \/ str_lt b a.
Proof.
  induction a as [|c a IH]; intros [|d b]; auto; [left; constructor|right; right; constructor|].
  destruct (Nat.lt_trichotomy (nat_of_ascii c) (nat_of_ascii d)) as [L|[E|L]].
  - left. now apply lt_head.
  - assert (c = d) by (rewrite <- (ascii_nat_embedding c), <- (ascii_nat_embedding d); congruence). subst d.
    destruct (IH b) as [L|[->|L]]; auto; [left; now apply lt_tail|right; right; now apply lt_tail].
  - right. right. now apply lt_head.
Qed.
Lemma str_lt_trans a : forall b c, str_lt a b -> str_lt b c -> str_lt a c.
Proof.
  induction a as [|x a IH]; intros b c A B; inversion A; subst; inversion B; subst; try (constructor; fail); try (apply lt_head; lia).
  apply lt_tail. eauto.
Qed.
Lemma insert_key_perm e l : Permutation (insert_key e l) (e :: l).
Proof. induction l as [|x l IH]; cbn [insert_key]; auto. destruct (str_leb (fst e) (fst x)); auto. rewrite IH. constructor. Qed.
Lemma sort_keys_perm l : Permutation (sort_keys l) l.
Proof. induction l as [|e l IH]; cbn; auto. rewrite insert_key_perm. now constructor. Qed.
Definition sorted_from (l : list (str * list str)) : Prop := ForallOrdPairs (fun x y => str_lt (fst x) (fst y)) l.
Lemma insert_key_sorted e l : sorted_from l -> ~ In (fst e) (map fst l) -> sorted_from (insert_key e l).
Proof.
  unfold sorted_from. induction l as [|x l IH]; intros S N; cbn [insert_key]; [repeat constructor|]. inversion S as [|? ? F S']; subst.
  assert (NE : fst e <> fst x) by (intros E; apply N; left; auto).
  destruct (str_leb (fst e) (fst x)) eqn:L.
  - constructor; auto. assert (Lt : str_lt (fst e) (fst x)). { destruct (str_trichotomy (fst e) (fst x)) as [H|[H|H]]; auto; [congruence|]. apply str_leb_lt in H. destruct H. congruence. }
    constructor; auto. rewrite Forall_forall in *. intros y Y. eapply str_lt_trans; eauto.
  - constructor; [|apply IH; auto; intros I; apply N; now right].
    assert (Lt : str_lt (fst x) (fst e)). { destruct (str_trichotomy (fst e) (fst x)) as [H|[H|H]]; auto; [|congruence]. apply str_leb_lt in H. destruct H. congruence. }
    apply (Permutation_Forall (Permutation_sym (insert_key_perm e l))). constructor; auto.
Qed.
Lemma sort_keys_sorted l : NoDup (map fst l) -> sorted_from (sort_keys l).
Proof.
  induction l as [|e l IH]; intros N; [constructor|]. cbn [map] in N. inversion N; subst. cbn. apply insert_key_sorted; auto.
  intros I. apply H1. revert I. apply Permutation_in. apply Permutation_map. apply sort_keys_perm.
Qed.
Lemma sort_keys_id l : sorted_from l -> sort_keys l = l.
Proof.
  induction 1 as [|e l F S IH]; auto. change (sort_keys (e :: l)) with (insert_key e (sort_keys l)). rewrite IH. destruct l as [|x l]; auto. cbn [insert_key]. inversion F; subst. destruct (str_leb_lt _ _ H1) as [-> _]. reflexivity.
Qed.
Lemma sorted_ascending l : sorted_from l <-> ascending (map fst l).
Proof.
  split.
  - intros S a x b y c E. revert a E. induction S as [|e l F S IH]; intros a E; [destruct a; discriminate|]. cbn [map] in E. destruct a as [|z a]; cbn [app] in E; injection E as E1 E2.
    + subst x. rewrite Forall_forall in F. assert (I : In y (map fst l)) by (rewrite E2; apply in_or_app; right; now left). apply in_map_iff in I. destruct I as (u & <- & I). now apply F.
    + eapply IH; eauto.
  - induction l as [|e l IH]; intros A; [constructor|]. constructor.
    + apply Forall_forall. intros x X. apply (in_map fst) in X. apply in_split in X. destruct X as (b & c & X). apply (A [] (fst e) b (fst x) c). cbn. now rewrite X.
    + apply IH. intros a x b y c E. apply (A (fst e :: a) x b y c). cbn. now rewrite E.
Qed.

(** ** Names only *)
Lemma explode_item i ws rest : spelled i ws -> good_item i ->
  explode_words false (ws ++ rest) = fst i :: explode_words false rest.
Proof.
  intros S [(_ & _ & P) G]. destruct S as [n|n o v|n o v EV|n o v|n o v NO]; cbn [fst snd] in *; cbn [app explode_words]; rewrite P; cbn [orb andb]; f_equal; auto.
  - destruct G as [O V]. assert (S : startswith (s_ "(") (s_ "(" ++ o) = true) by (apply startswith_iff; eauto). rewrite S. cbn [orb].
    assert (E : endswith (s_ ")") (s_ "(" ++ o) = false) by (clear -O; unfold operators in O; cbn [In] in O; intuition (subst; reflexivity)). rewrite E. cbn [andb].
    cbn [orb]. rewrite endswith_paren. reflexivity.
  - destruct G as [O V]. cbn [orb]. change (startswith (s_ "(") (s_ "(")) with true. change (endswith (s_ ")") (s_ "(")) with false. cbn [orb andb].
    assert (E : endswith (s_ ")") o = false) by (clear -O; unfold operators in O; cbn [In] in O; intuition (subst; reflexivity)). rewrite E, EV. cbn [andb]. reflexivity.
  - destruct G as [O V]. change (startswith (s_ "(") (s_ "(")) with true. change (endswith (s_ ")") (s_ "(")) with false. cbn [orb andb].
    assert (E : endswith (s_ ")") o = false) by (clear -O; unfold operators in O; cbn [In] in O; intuition (subst; reflexivity)). rewrite E. cbn [andb]. rewrite endswith_paren. reflexivity.
  - destruct G as [O V]. assert (S : startswith (s_ "(") (s_ "(" ++ o ++ v ++ s_ ")") = true) by (apply startswith_iff; eauto). rewrite S. cbn [orb].
    assert (E : endswith (s_ ")") (s_ "(" ++ o ++ v ++ s_ ")") = true) by (rewrite !app_assoc; apply endswith_paren). rewrite E. reflexivity.
Qed.

(** ** Dictionaries as items *)
Lemma deps_items deps : Forall (fun d => good_name (fst d) /\ Forall (fun c => exists o v, c = constraint_text (o, v) /\ In o operators /\ good_version v) (snd d)) deps ->
  exists items, join_items deps = map item_text items /\ Forall good_item items /\
    (forall r, NoDup (map fst r ++ map fst deps) -> fold_left add_item items r = r ++ deps).
Proof.
  induction 1 as [|[n cs] deps [Gn Gc] _ (items & E & G & F)]; [exists []; repeat split; auto; intros r _; now rewrite app_nil_r|]. cbn [fst snd] in *.
  assert (C : exists l, map constraint_text l = cs /\ Forall (fun c => In (fst c) operators /\ good_version (snd c)) l).
  { clear -Gc. induction Gc as [|c cs (o & v & -> & O & V) _ (l & <- & L)]; [exists []; auto|]. exists ((o, v) :: l). auto. }
  destruct C as (l & <- & L).
  exists (match l with [] => [(n, None)] | _ => map (fun c => (n, Some c)) l end ++ items). split; [|split].
  - rewrite map_app. cbn [join_items flat_map fst snd]. f_equal; [|exact E]. destruct l as [|c l]; auto. cbn [map]. f_equal. rewrite !map_map. apply map_ext. auto.
  - apply Forall_app. split; auto. destruct l as [|c l]; [repeat constructor; apply Gn|].
    rewrite Forall_map. eapply Forall_impl; [|exact L]. intros [o v] ?. split; auto.
  - intros r ND. cbn [map fst] in ND. rewrite fold_left_app.
    assert (X : fold_left add_item (match l with [] => [(n, None)] | _ => map (fun c => (n, Some c)) l end) r = r ++ [(n, map constraint_text l)]).
    { assert (NI : ~ In n (map fst r)) by (apply NoDup_remove_2 in ND; intros I; apply ND; apply in_or_app; now left).
      assert (S0 : forall v, set r n v = r ++ [(n, v)]).
      { clear -NI. induction r as [|[a w] r IH]; intros v; auto. cbn [set]. destruct (seqb n a) eqn:Q; [apply seqb_eq in Q; subst; exfalso; apply NI; now left|]. cbn [app]. f_equal. apply IH. intros I; apply NI; now right. }
      assert (G0 : get r n = None) by (destruct (get r n) eqn:Q; auto; exfalso; apply NI, get_key; congruence).
      destruct l as [|c l].
      - cbn [fold_left map]. unfold add_item, vers. cbn [fst snd]. now rewrite G0, S0.
      - cbn [map fold_left]. unfold add_item at 2. unfold vers. cbn [fst snd]. rewrite G0. clear L Gc S0 ND. cbn [app].
        change (constraint_text c :: map constraint_text l) with ([constraint_text c] ++ map constraint_text l). generalize [constraint_text c]. induction l as [|d l IH]; intros u.
        + cbn [map fold_left]. rewrite app_nil_r. clear -NI. induction r as [|[a w] r IH]; auto. cbn [set app]. destruct (seqb n a) eqn:Q; [apply seqb_eq in Q; subst; exfalso; apply NI; now left|]. f_equal. apply IH. intros I; apply NI; now right.
        + cbn [map fold_left]. unfold add_item at 2. unfold vers. cbn [fst snd]. rewrite get_set_same, set_set, IH, <- app_assoc. reflexivity. }
    etransitivity; [apply (f_equal (fold_left add_item items) X)|]. rewrite F; [now rewrite <- app_assoc|]. rewrite map_app. cbn [map fst]. now rewrite <- app_assoc.
Qed.
Lemma printed_steps comma items : Forall good_item items ->
  exists q, words_steps p_start (split_ws (replace_char ","%char [] (join (if comma : bool then s_ ", " else s_ " ") (map item_text items)))) = Some q /\ p_r q = fold_left add_item items [].
Proof.
  intros G. rewrite join_words by auto. destruct (items_steps items (map usual_words items)) with (p := p_start) as (q & E & _ & R); auto; [|split; auto|exists q; auto].
  clear G. induction items; constructor; auto. apply usual_spelled.
Qed.
