(** Lemmas about the recipe cache. *)
From Coq Require Import String Ascii List Bool Arith Lia.
From Verif Require Import Str_Model Str_Proofs Pcache_Model Pcache_Spec.
Import ListNotations.
Open Scope list_scope.

Lemma no_colon_char s : no_colon s -> no_char colon s.
Proof. intros H. now apply no_char_In. Qed.
Lemma startswith_no_colon p s : In colon p -> no_colon s -> startswith p s = false.
Proof.
  intros I N. destruct (startswith p s) eqn:E; auto. apply startswith_iff in E. destruct E as (t & ->). destruct N. apply in_or_app. now left.
Qed.
Lemma split_end (a fn : str) : no_colon fn -> split_on colon (a ++ colon :: fn) = split_on colon a ++ [fn].
Proof.
  intros N. destruct (split_on_spec colon a) as (A & B & E).
  assert (G : forall l, l <> [] -> Forall (no_char colon) l -> split_on colon (join [colon] l ++ colon :: fn) = l ++ [fn]).
  { intros l L F. rewrite <- (split_on_join colon (l ++ [fn])).
    - f_equal. clear F. induction l as [|x l IH]; [congruence|]. destruct l as [|y l]; [reflexivity|].
      rewrite (join_cons [colon] x (y :: l)) by discriminate. change ((x :: y :: l) ++ [fn]) with (x :: (y :: l) ++ [fn]). rewrite (join_cons [colon] x ((y :: l) ++ [fn])) by (cbn; discriminate). rewrite <- IH by discriminate. now rewrite <- !app_assoc.
    - destruct l; discriminate.
    - apply Forall_app. split; auto. constructor; auto. now apply no_colon_char. }
  match goal with H : join [colon] (split_on colon a) = a |- _ => rewrite <- H at 1 end. apply G; auto.
Qed.

(** *** Names *)
Lemma count_two mc r : Nat.leb 2 (count_colon (s_ "mc:" ++ mc ++ s_ ":" ++ r)) = true.
Proof.
  apply Nat.leb_le. unfold count_colon. rewrite !count_occ_app. change (count_occ ascii_dec (s_ "mc:") colon) with 1. change (count_occ ascii_dec (s_ ":") colon) with 1. lia.
Qed.
Lemma mc_parts mc r : no_colon mc -> nth 1 (split_on colon (s_ "mc:" ++ mc ++ s_ ":" ++ r)) [] = mc /\
  join [colon] (skipn 2 (split_on colon (s_ "mc:" ++ mc ++ s_ ":" ++ r))) = r.
Proof.
  intros N. change (s_ "mc:" ++ mc ++ s_ ":" ++ r) with (s_ "mc" ++ colon :: (mc ++ colon :: r)).
  rewrite split_on_cons by (apply no_char_In; cbn; intuition discriminate). rewrite split_on_cons by now apply no_colon_char. cbn [nth skipn].
  split; auto. apply (split_on_spec colon r).
Qed.
Lemma virtual_parts cls fn : no_colon fn -> last (split_on colon (s_ "virtual:" ++ cls ++ s_ ":" ++ fn)) [] = fn /\
  join [colon] (removelast (tl (split_on colon (s_ "virtual:" ++ cls ++ s_ ":" ++ fn)))) = cls.
Proof.
  intros N. change (s_ "virtual:" ++ cls ++ s_ ":" ++ fn) with (s_ "virtual" ++ colon :: (cls ++ colon :: fn)).
  rewrite split_on_cons by (apply no_char_In; cbn; intuition discriminate). rewrite (split_end cls fn N). cbn [tl].
  destruct (split_on_spec colon cls) as (A & B & E). split.
  - change (s_ "virtual" :: split_on colon cls ++ [fn]) with ((s_ "virtual" :: split_on colon cls) ++ [fn]). apply last_last.
  - rewrite removelast_last. exact E.
Qed.
Lemma real_plain fn cls : no_colon fn -> virtualfn2realfn (realfn2virtual fn cls []) = (fn, cls, []).
Proof.
  intros N. unfold realfn2virtual, virtualfn2realfn. destruct cls as [|c cls].
  - rewrite (startswith_no_colon (s_ "mc:") fn) by (cbn; auto). cbn [andb]. rewrite (startswith_no_colon (s_ "virtual:") fn) by (cbn; auto 10). reflexivity.
  - set (v := s_ "virtual:" ++ (c :: cls) ++ s_ ":" ++ fn). assert (M : startswith (s_ "mc:") v = false) by reflexivity. rewrite M. cbn [andb].
    assert (V : startswith (s_ "virtual:") v = true) by reflexivity. rewrite V. unfold v. destruct (virtual_parts (c :: cls) fn N) as [-> ->]. reflexivity.
Qed.
Lemma real_virtual fn cls mc : no_colon fn -> no_colon mc -> virtualfn2realfn (realfn2virtual fn cls mc) = (fn, cls, mc).
Proof.
  intros N M. destruct mc as [|m mc]; [now apply real_plain|]. assert (P := real_plain fn cls N). unfold realfn2virtual in *.
  set (v := match cls with [] => fn | _ => s_ "virtual:" ++ cls ++ s_ ":" ++ fn end) in *. unfold virtualfn2realfn at 1. rewrite startswith_app, count_two. cbn [andb].
  destruct (mc_parts (m :: mc) v M) as [-> ->]. unfold virtualfn2realfn in P.
  assert (X : startswith (s_ "mc:") v = false). { unfold v. destruct cls; [|reflexivity]. apply startswith_no_colon; cbn; auto. }
  rewrite X in P. cbn [andb] in P. destruct (startswith (s_ "virtual:") v); injection P as -> ->; reflexivity.
Qed.
Lemma variant_plain fn v : plain_variant v -> variant2virtual fn v = realfn2virtual fn v [].
Proof.
  intros [A B]. unfold variant2virtual, realfn2virtual. destruct v as [|c v]; [congruence|].
  destruct (startswith (s_ "mc:") (c :: v)) eqn:E; [|reflexivity]. apply startswith_iff in E. destruct E as (t & E). now destruct (B t).
Qed.
Lemma variant_inj fn fn' v v' : no_colon fn -> no_colon fn' -> (v = [] \/ plain_variant v) -> (v' = [] \/ plain_variant v') ->
  variant2virtual fn v = variant2virtual fn' v' -> fn = fn' /\ v = v'.
Proof.
  intros N N' V V' E.
  assert (X : forall f u, u = [] \/ plain_variant u -> variant2virtual f u = realfn2virtual f u []).
  { intros f u [-> | U]; [reflexivity|now apply variant_plain]. }
  rewrite !X in E by auto. apply (f_equal virtualfn2realfn) in E. rewrite !real_plain in E by auto. now injection E as -> ->.
Qed.

(** *** Dictionaries *)
Section Dict.
Variable A : Type.
Implicit Types d : dict A.
Lemma get_put k k' v d : get k' (put k v d) = if seqb k k' then Some v else get k' d.
Proof.
  induction d as [|[x u] d IH]; cbn [put get].
  - reflexivity.
  - destruct (seqb x k) eqn:E; cbn [get].
    + apply seqb_eq in E. subst. now destruct (seqb k k').
    + rewrite IH. destruct (seqb x k') eqn:F; auto. apply seqb_eq in F. subst. rewrite seqb_sym in E. now rewrite E.
Qed.
Lemma get_rem k k' d : NoDup (map fst d) -> get k' (rem k d) = if seqb k k' then None else get k' d.
Proof.
  induction d as [|[x u] d IH]; intros N; cbn [rem get]; [now destruct (seqb k k')|]. inversion N as [|? ? NI N']; subst.
  destruct (seqb x k) eqn:E; cbn [get].
  - apply seqb_eq in E. subst. destruct (seqb k k') eqn:F; auto. apply seqb_eq in F. subst. clear -NI. induction d as [|[y v] d IH]; auto. cbn in *. destruct (seqb y k') eqn:G; [apply seqb_eq in G; subst; tauto|apply IH; tauto].
  - rewrite IH by auto. destruct (seqb k k') eqn:F; auto. apply seqb_eq in F. subst. now rewrite E.
Qed.
Lemma put_keys k v d x : In x (map fst (put k v d)) <-> x = k \/ In x (map fst d).
Proof.
  induction d as [|[y u] d IH]; cbn [put map fst In]; [intuition|]. destruct (seqb y k) eqn:E; cbn [map fst In].
  - apply seqb_eq in E. subst. intuition.
  - rewrite IH. intuition.
Qed.
Lemma put_nodup k v d : NoDup (map fst d) -> NoDup (map fst (put k v d)).
Proof.
  induction d as [|[y u] d IH]; intros N; cbn [put map fst]; [constructor; auto|]. inversion N as [|? ? NI N']; subst. destruct (seqb y k) eqn:E; cbn [map fst]; constructor; auto.
  intros I. apply put_keys in I. destruct I as [-> | I]; auto. now rewrite seqb_refl in E.
Qed.
Lemma rem_keys k d x : In x (map fst (rem k d)) -> In x (map fst d).
Proof. induction d as [|[y u] d IH]; cbn [rem map fst In]; auto. destruct (seqb y k); cbn [map fst In]; intuition. Qed.
Lemma rem_nodup k d : NoDup (map fst d) -> NoDup (map fst (rem k d)).
Proof.
  induction d as [|[y u] d IH]; intros N; cbn [rem map fst]; auto. inversion N as [|? ? NI N']; subst. destruct (seqb y k); auto. cbn [map fst]. constructor; auto. intros I. apply NI. now apply rem_keys in I.
Qed.
Lemma get_In k v d : get k d = Some v -> In (k, v) d.
Proof. induction d as [|[y u] d IH]; cbn [get]; [discriminate|]. destruct (seqb y k) eqn:E; [apply seqb_eq in E; subst; intros [= ->]; now left|right; auto]. Qed.
Lemma In_get k v d : NoDup (map fst d) -> In (k, v) d -> get k d = Some v.
Proof.
  induction d as [|[y u] d IH]; intros N; [intros []|]. inversion N as [|? ? NI N']; subst. cbn [get]. intros [[= -> ->]|I]; [now rewrite seqb_refl|].
  destruct (seqb y k) eqn:E; auto. apply seqb_eq in E. subst. destruct NI. apply in_map_iff. now exists (k, v).
Qed.
Lemma get_none k d : get k d = None <-> ~ In k (map fst d).
Proof.
  induction d as [|[y u] d IH]; cbn [get map fst In]; [intuition|]. destruct (seqb y k) eqn:E.
  - apply seqb_eq in E. subst. split; [discriminate|tauto].
  - rewrite IH. apply seqb_neq in E. tauto.
Qed.
Lemma put_same k v d : get k d = Some v -> put k v d = d.
Proof.
  induction d as [|[y u] d IH]; cbn [get put]; [discriminate|]. destruct (seqb y k) eqn:E; [now intros [= ->]|]. intros H. now rewrite IH.
Qed.
Lemma put_new (k : str) (v : A) (d : dict A) : get k d = None -> put k v d = d ++ [(k, v)].
Proof. induction d as [|[y u] d IH]; cbn [get put app]; auto. destruct (seqb y k) eqn:E; [discriminate|]. intros H. now rewrite IH. Qed.
Lemma put_app_mid (k : str) (v u : A) (a b : dict A) : ~ In k (map fst a) -> put k v (a ++ (k, u) :: b) = a ++ (k, v) :: b.
Proof.
  induction a as [|[y t] a IH]; cbn [app put map fst In]; intros N; [now rewrite seqb_refl|]. destruct (seqb y k) eqn:E; [apply seqb_eq in E; tauto|]. rewrite IH by tauto. reflexivity.
Qed.
Lemma get_app_mid (k : str) (u : A) (a b : dict A) : ~ In k (map fst a) -> get k (a ++ (k, u) :: b) = Some u.
Proof.
  induction a as [|[y t] a IH]; cbn [app get map fst In]; intros N; [now rewrite seqb_refl|]. destruct (seqb y k) eqn:E; [apply seqb_eq in E; tauto|]. apply IH. tauto.
Qed.
End Dict.
Lemma all_some_map {A B} (f : A -> option B) (g : A -> B) l : (forall x, In x l -> f x = Some (g x)) -> all_some (map f l) = Some (map g l).
Proof. induction l as [|x l IH]; intros H; cbn [map all_some]; auto. rewrite (H x (or_introl eq_refl)), IH by (intros y Y; apply H; now right). reflexivity. Qed.
Lemma all_some_In {A} (l : list (option A)) r x : all_some l = Some r -> (In x r <-> In (Some x) l).
Proof.
  revert r. induction l as [|[y|] l IH]; intros r; cbn [all_some]; [intros [= <-]; cbn; tauto| |discriminate].
  destruct (all_some l) as [s|]; cbn [option_map]; [|discriminate]. intros [= <-]. cbn [In]. rewrite (IH s eq_refl). split; (intros [H|H]; [left; congruence|now right]).
Qed.
Lemma list_eqb_eq a b : list_eqb a b = true <-> a = b.
Proof.
  revert b. induction a as [|x a IH]; intros [|y b]; cbn [list_eqb]; try (split; congruence). rewrite andb_true_iff, seqb_eq, IH. split; [intros [-> ->]; auto|intros [= -> ->]; auto].
Qed.

(** *** What a session knows *)
Section Facts.
Variables C P Q : Type.
Variable parse_recipe : world C -> str -> list str -> option (list (str * store P Q) * store P Q).
Notation entries := (entries P Q).
Notation parse := (parse C P Q parse_recipe).
Notation session := (session C P Q parse_recipe).

Lemma existsb_no {A} (f : A -> bool) l : existsb f l = false <-> forall x, In x l -> f x = false.
Proof.
  split.
  - intros H x I. destruct (f x) eqn:E; auto. rewrite <- H. symmetry. apply existsb_exists. eauto.
  - intros H. destruct (existsb f l) eqn:E; auto. apply existsb_exists in E. destruct E as (x & I & E). now rewrite (H x I) in E.
Qed.
Lemma depends_changed_false w l : depends_changed C w l = false <-> forall f t, In (f, t) l -> mtime w f = t.
Proof.
  unfold depends_changed. rewrite existsb_no. split.
  - intros H f t I. specialize (H _ I). cbn [fst snd] in H. apply negb_false_iff in H. now apply Nat.eqb_eq.
  - intros H [f t] I. cbn [fst snd]. apply negb_false_iff, Nat.eqb_eq. auto.
Qed.
Definition checks_ok (w : world C) (l : list str) : Prop := forall fl fs f word, In fl l -> file_list fl = Some fs -> In (f, word) fs ->
  (word = s_ "True" -> exists_ w f = true) /\ (word = s_ "False" -> exists_ w f = false).
Lemma checks_changed_spec w l b : checks_changed C w l = Some b -> (b = false <-> checks_ok w l).
Proof.
  unfold checks_changed. destruct (all_some (map file_list l)) as [r|] eqn:E; [|discriminate]. intros [= <-]. rewrite existsb_no.
  assert (R : forall fs, In fs r <-> exists fl, In fl l /\ file_list fl = Some fs).
  { intros fs. rewrite (all_some_In _ _ fs E), in_map_iff. split; intros (fl & X & Y); eauto. }
  split.
  - intros H fl fs f word I F J. assert (X : In (f, word) (concat r)) by (apply in_concat; exists fs; split; auto; apply R; eauto). specialize (H _ X). cbn [fst snd] in H. apply orb_false_iff in H. destruct H as [H1 H2]. split; intros ->.
    + rewrite seqb_refl in H1. now apply negb_false_iff in H1.
    + now rewrite seqb_refl in H2.
  - intros H [f word] I. cbn [fst snd]. apply in_concat in I. destruct I as (fs & I & J). apply R in I. destruct I as (fl & I & F). destruct (H fl fs f word I F J) as [H1 H2]. apply orb_false_iff. split.
    + change (seqb word (s_ "True") && negb (exists_ w f) = false). destruct (seqb word (s_ "True")) eqn:S; auto. apply seqb_eq in S. rewrite (H1 S). reflexivity.
    + change (seqb word (s_ "False") && exists_ w f = false). destruct (seqb word (s_ "False")) eqn:S; auto. apply seqb_eq in S. rewrite (H2 S). reflexivity.
Qed.
Lemma checks_changed_some w l : (forall fl, In fl l -> file_list fl <> None) -> exists b, checks_changed C w l = Some b.
Proof.
  intros H. unfold checks_changed. destruct (all_some (map file_list l)) eqn:E; eauto. exfalso. clear w. induction l as [|x l IH]; [discriminate|]. cbn [map all_some] in E.
  destruct (file_list x) eqn:F; [|now apply (H x (or_introl eq_refl))]. destruct (all_some (map file_list l)) eqn:G; [discriminate|]. apply IH; auto. intros y Y. apply H. now right.
Qed.
Lemma complete_spec n fn vs (dc : entries) : complete P Q n fn vs dc = true <-> forall v, In v vs -> exists a, get (variant2virtual fn v) dc = Some a /\ length a = n.
Proof.
  unfold complete. rewrite forallb_forall. split; intros H v I; specialize (H v I).
  - destruct (get (variant2virtual fn v) dc) as [a|]; [|discriminate]. apply Nat.eqb_eq in H. eauto.
  - destruct H as (a & -> & L). now apply Nat.eqb_eq.
Qed.

Lemma filter_not_self (fn : str) l : ~ In fn (filter (fun k => negb (seqb k fn)) l).
Proof. intros I. apply filter_In in I. destruct I as [_ I]. now rewrite seqb_refl in I. Qed.
Lemma valid_update_absent n w fn appends (c : cache P Q) : get fn (depends_cache P Q c) = None ->
  valid_update C P Q n w fn appends c = Some (false, {| depends_cache := depends_cache P Q c; clean := clean P Q c; checked := fn :: checked P Q c |}).
Proof. intros H. unfold valid_update. cbn [depends_cache]. now rewrite H. Qed.
Lemma valid_update_spec n w fn appends (c : cache P Q) i rest : get fn (depends_cache P Q c) = Some (Core P Q i :: rest) ->
  (forall fl, In fl (c_checks P i) -> file_list fl <> None) ->
  exists b c', valid_update C P Q n w fn appends c = Some (b, c') /\
    (b = true <-> unchanged C P w fn appends i /\ forall v, In v (c_variants P i) -> exists a, get (variant2virtual fn v) (depends_cache P Q c) = Some a /\ length a = n) /\
    (unchanged C P w fn appends i -> depends_cache P Q c' = depends_cache P Q c) /\
    (~ unchanged C P w fn appends i -> depends_cache P Q c' = rem fn (depends_cache P Q c)) /\
    (b = true -> In fn (clean P Q c')) /\ (b = false -> ~ In fn (clean P Q c')) /\
    (forall k, In k (clean P Q c') -> k = fn \/ In k (map (variant2virtual fn) (c_variants P i)) \/ In k (clean P Q c)) /\
    checked P Q c' = fn :: checked P Q c.
Proof.
  intros G W. unfold valid_update. cbn [depends_cache]. rewrite G. cbv zeta.
  set (c1 := {| depends_cache := depends_cache P Q c; clean := clean P Q c; checked := fn :: checked P Q c |}).
  assert (OUT : ~ unchanged C P w fn appends i -> exists b c', Some (false, remove P Q fn c1) = Some (b, c') /\
    (b = true <-> unchanged C P w fn appends i /\ forall v, In v (c_variants P i) -> exists a, get (variant2virtual fn v) (depends_cache P Q c) = Some a /\ length a = n) /\
    (unchanged C P w fn appends i -> depends_cache P Q c' = depends_cache P Q c) /\
    (~ unchanged C P w fn appends i -> depends_cache P Q c' = rem fn (depends_cache P Q c)) /\
    (b = true -> In fn (clean P Q c')) /\ (b = false -> ~ In fn (clean P Q c')) /\
    (forall k, In k (clean P Q c') -> k = fn \/ In k (map (variant2virtual fn) (c_variants P i)) \/ In k (clean P Q c)) /\
    checked P Q c' = fn :: checked P Q c).
  { intros U. exists false, (remove P Q fn c1). split; [reflexivity|]. split; [split; [discriminate|tauto]|]. split; [tauto|]. split; [auto|]. split; [discriminate|]. split; [intros _; apply filter_not_self|]. split; [|reflexivity].
    intros k I. unfold remove in I. cbn [clean] in I. apply filter_In in I. tauto. }
  destruct (Nat.eqb (mtime w fn) 0) eqn:E0. { apply OUT. intros (X & _). apply Nat.eqb_eq in E0. auto. }
  destruct (Nat.eqb (mtime w fn) (c_time P i)) eqn:E1; cbn [negb]. 2:{ apply OUT. intros (_ & X & _). apply Nat.eqb_eq in X. congruence. }
  destruct (depends_changed C w (c_depends P i)) eqn:E2. { apply OUT. intros (_ & _ & X & _). apply depends_changed_false in X. congruence. }
  destruct (checks_changed_some w (c_checks P i) W) as (b & E3). rewrite E3. apply checks_changed_spec in E3. destruct b.
  { apply OUT. intros (_ & _ & _ & X & _). apply E3 in X. discriminate. }
  destruct (list_eqb appends (c_appends P i)) eqn:E4; cbn [negb]. 2:{ apply OUT. intros (_ & _ & _ & _ & X). apply list_eqb_eq in X. congruence. }
  assert (U : unchanged C P w fn appends i).
  { apply Nat.eqb_neq in E0. apply Nat.eqb_eq in E1. apply list_eqb_eq in E4. pose proof (proj1 (depends_changed_false _ _) E2). pose proof (proj1 E3 eq_refl). repeat split; auto; now apply (H0 fl fs f word). }
  destruct (complete P Q n fn (c_variants P i) (depends_cache P Q c)) eqn:E5; eexists; eexists; (split; [reflexivity|]); cbn [depends_cache clean checked].
  - pose proof (proj1 (complete_spec _ _ _ _) E5) as E6. split; [tauto|]. split; [auto|]. split; [tauto|]. split; [intros _; now left|]. split; [discriminate|]. split; [|reflexivity].
    intros k [I|I]; auto. apply in_app_or in I. tauto.
  - split; [split; [discriminate|]|]. { intros [_ X]. apply (proj2 (complete_spec _ _ _ _)) in X. congruence. }
    split; [auto|]. split; [tauto|]. split; [discriminate|]. split; [|split; [|reflexivity]].
    + intros _ I. apply filter_In in I. destruct I as [_ I]. cbn [mem_str existsb] in I. now rewrite seqb_refl in I.
    + intros k I. apply filter_In in I. tauto.
Qed.

Variable x : bool.
Hypothesis NF : notes_files C P Q parse_recipe.
Hypothesis RO : reads_only_noted C P Q parse_recipe.
Hypothesis NV : names_variants C P Q parse_recipe.
Hypothesis CT : caches_together C P Q parse_recipe.

Definition form (a : list (info P Q)) : Prop := if x then exists c q, a = [Core P Q c; Extra P Q q] else exists c, a = [Core P Q c].
Definition width : nat := if x then 2 else 1.
(** The entry of a recipe and those of its variants are what one parse gave *)
Definition from_parse (ws : list (world C)) (dc : entries) (fn : str) : Prop :=
  exists w a infos, In w ws /\ parse x w fn a = Some infos /\ forall k v, In (k, v) infos -> get k dc = Some v.
Definition inv (ws : list (world C)) (dc : entries) : Prop :=
  NoDup (map fst dc) /\ (forall k a, In (k, a) dc -> form a) /\ forall fn a, no_colon fn -> get fn dc = Some a -> from_parse ws dc fn.

(** *** The names of the entries of a recipe *)
Definition key_of (fn k : str) : Prop := exists v, (v = [] \/ plain_variant v) /\ k = variant2virtual fn v.
Lemma key_apart fn fn' k : no_colon fn -> no_colon fn' -> key_of fn k -> key_of fn' k -> fn = fn'.
Proof. intros N N' (v & V & ->) (v' & V' & E). now apply (variant_inj fn fn' v v'). Qed.
Lemma key_self fn : key_of fn fn.
Proof. exists []. split; [now left|reflexivity]. Qed.
Lemma parse_keys w fn a infos : parse x w fn a = Some infos -> forall k, In k (map fst infos) -> key_of fn k.
Proof.
  unfold Pcache_Model.parse. destruct (parse_recipe w fn a) as [[vs d]|] eqn:E; [|discriminate]. intros [= <-] k I. destruct (NV w fn a vs d E) as [_ PV].
  rewrite map_app, map_map in I. apply in_app_or in I. destruct I as [I|[<-|[]]]; [|apply key_self]. cbn [fst] in I. apply in_map_iff in I. destruct I as (v & <- & V).
  exists (fst v). split; [right; apply PV; now apply in_map|reflexivity].
Qed.
Lemma parse_nodup w fn a infos : no_colon fn -> parse x w fn a = Some infos -> NoDup (map fst infos).
Proof.
  intros NC. unfold Pcache_Model.parse. destruct (parse_recipe w fn a) as [[vs d]|] eqn:E; [|discriminate]. intros [= <-]. destruct (NV w fn a vs d E) as [ND PV].
  rewrite map_app, map_map. cbn [map fst]. apply NoDup_rev in ND. rewrite <- map_rev in ND.
  assert (X : forall l, NoDup (map fst l) -> (forall v, In v (map fst l) -> plain_variant v) -> NoDup (map (fun v : str * store P Q => variant2virtual fn (fst v)) l ++ [fn])).
  { clear -NC. induction l as [|v l IH]; intros ND PV; cbn [map app]; [repeat constructor; auto|]. inversion ND as [|? ? NI ND']; subst. constructor; [|apply IH; auto; intros u U; apply PV; now right].
    intros I. apply in_app_or in I. destruct I as [I|[I|[]]].
    - apply in_map_iff in I. destruct I as (u & EQ & U). apply variant_inj in EQ; auto; [|right; apply PV; right; now apply in_map|right; apply PV; now left]. destruct EQ as [_ EQ]. apply NI. rewrite <- EQ. now apply in_map.
    - assert (EQ : variant2virtual fn [] = variant2virtual fn (fst v)) by exact I. apply variant_inj in EQ; auto; [|right; apply PV; now left]. destruct EQ as [_ EQ]. destruct (PV (fst v)) as [NE _]; [now left|]. congruence. }
  apply X; auto. rewrite map_rev in ND. apply NoDup_rev in ND. now rewrite rev_involutive in ND.
Qed.
Lemma parse_form w fn a infos k v : parse x w fn a = Some infos -> In (k, v) infos -> form v.
Proof.
  unfold Pcache_Model.parse. destruct (parse_recipe w fn a) as [[vs d]|]; [|discriminate]. intros [= <-] I.
  assert (G : forall vr dp s, form (make_info C P Q x w fn a vr dp s)) by (intros; unfold form, make_info; destruct x; eauto).
  apply in_app_or in I. destruct I as [I|[[= <- <-]|[]]]; auto. apply in_map_iff in I. destruct I as (u & [= <- <-] & _). auto.
Qed.
(** The last entry is that of the recipe *)
Lemma parse_base w fn a infos : parse x w fn a = Some infos -> exists vs d,
  parse_recipe w fn a = Some (vs, d) /\ In (fn, make_info C P Q x w fn a (map fst vs) (all_depends P Q vs d) d) infos.
Proof.
  unfold Pcache_Model.parse. destruct (parse_recipe w fn a) as [[vs d]|]; [|discriminate]. intros [= <-]. exists vs, d. split; auto. apply in_or_app. right. now left.
Qed.

(** *** Is an entry up to date? *)
Lemma fresh_entry ws dc w fn a arr : inv ws dc -> (forall w0, In w0 ws -> honest C w w0) -> no_colon fn -> get fn dc = Some arr ->
  exists i rest infos0 w0 a0, arr = Core P Q i :: rest /\ parse x w0 fn a0 = Some infos0 /\ (forall k v, In (k, v) infos0 -> get k dc = Some v) /\
  (forall fl, In fl (c_checks P i) -> file_list fl <> None) /\
  (forall v, In v (c_variants P i) -> exists b, get (variant2virtual fn v) dc = Some b /\ length b = width) /\
  (unchanged C P w fn a i -> parse x w fn a = Some infos0).
Proof.
  intros (ND & FM & FP) HO NC G. destruct (FP fn arr NC G) as (w0 & a0 & infos0 & W0 & PA & LK). destruct (parse_base _ _ _ _ PA) as (vs & d & PR & I).
  assert (E := LK _ _ I). rewrite G in E. injection E as ->. unfold make_info at 1. do 5 eexists. split; [reflexivity|]. split; [exact PA|]. split; [exact LK|]. cbn [c_checks c_variants].
  destruct (NF _ _ _ _ _ PR) as (T0 & TD & TC). split; [|split].
  - intros fl F. destruct (TC fl F) as (fs & -> & _). discriminate.
  - intros v V. assert (X : exists b, In (variant2virtual fn v, b) infos0).
    { unfold Pcache_Model.parse in PA. rewrite PR in PA. injection PA as <-. apply in_app_or in V. destruct V as [V|[<-|[]]].
      - apply in_map_iff in V. destruct V as (u & <- & U). eexists. apply in_or_app. left. apply in_map_iff. exists u. split; [reflexivity|exact U].
      - eexists. apply in_or_app. right. left. reflexivity. }
    destruct X as (b & B). exists b. split; [now apply LK|]. assert (FB := parse_form _ _ _ _ _ _ PA B). unfold form, width in *. destruct x; [destruct FB as (? & ? & ->)|destruct FB as (? & ->)]; reflexivity.
  - intros (M0 & M1 & DP & CK & AP). cbn [c_time c_depends c_checks c_appends] in *. subst a0. specialize (HO w0 W0).
    assert (PR' : parse_recipe w fn a = Some (vs, d)).
    { apply (RO w0 w fn a vs d PR).
      - now apply HO.
      - intros f t D. apply HO. rewrite (DP f t D). now apply TD.
      - intros fl fs f word F FL J. destruct (TC fl F) as (fs' & FL' & X). rewrite FL in FL'. injection FL' as <-. specialize (X f word J). destruct (CK fl fs f word F FL J) as [C1 C2]. destruct (exists_ w0 f); auto. }
    unfold Pcache_Model.parse in *. rewrite PR in PA. rewrite PR'. injection PA as <-. unfold make_info. now rewrite M1.
Qed.

Lemma rem_In {A} k (d : dict A) p : In p (rem k d) -> In p d.
Proof. induction d as [|[y u] d IH]; cbn [rem In]; auto. destruct (seqb y k); cbn [In]; intuition. Qed.
Lemma inv_rem ws dc fn : no_colon fn -> inv ws dc -> inv ws (rem fn dc).
Proof.
  intros NC (ND & FM & FP). split; [now apply rem_nodup|]. split; [intros k a I; apply (FM k a); now apply rem_In in I|].
  intros fn' a NC' G. rewrite get_rem in G by auto. destruct (seqb fn fn') eqn:E; [discriminate|]. apply seqb_neq in E.
  destruct (FP fn' a NC' G) as (w & a0 & infos & W & PA & LK). exists w, a0, infos. split; auto. split; auto. intros k v I. rewrite get_rem by auto.
  destruct (seqb fn k) eqn:F; [|auto]. apply seqb_eq in F. subst k. destruct E. apply (key_apart fn fn' fn); auto; [apply key_self|]. apply (parse_keys _ _ _ _ PA). apply in_map_iff. now exists (fn, v).
Qed.
Lemma sort_out_ok ws w : (forall w0, In w0 ws -> honest C w w0) -> forall recipes c, inv ws (depends_cache P Q c) -> proper recipes ->
  (forall fn, In fn (map fst recipes) -> ~ In fn (checked P Q c) /\ ~ In fn (clean P Q c)) ->
  exists cached toparse c', sort_out C P Q width w recipes c = Some (cached, toparse, c') /\ inv ws (depends_cache P Q c') /\
    (forall fn a, In (fn, a) recipes -> In (fn, a) cached \/ In (fn, a) toparse) /\
    (forall fn a, In (fn, a) cached -> In (fn, a) recipes /\ exists infos, parse x w fn a = Some infos /\ forall k v, In (k, v) infos -> get k (depends_cache P Q c') = Some v) /\
    (forall fn a, In (fn, a) toparse -> In (fn, a) recipes /\ get fn (depends_cache P Q c') = None) /\
    NoDup (map fst toparse) /\
    (forall k, ~ In k (map fst recipes) -> get k (depends_cache P Q c') = get k (depends_cache P Q c)).
Proof.
  intros HO. induction recipes as [|[fn a] r IH]; intros c IV [ND NCL] FR; cbn [sort_out].
  - exists [], [], c. split; [reflexivity|]. split; auto. split; [auto|]. split; [intros ? ? []|]. split; [intros ? ? []|]. split; [constructor|auto].
  - cbn [map fst] in ND. inversion ND as [|? ? NI ND']; subst. assert (NC : no_colon fn) by (apply (NCL fn a); now left).
    destruct (FR fn (or_introl eq_refl)) as [F1 F2].
    assert (ST : exists b c1, cache_valid C P Q width w fn a c = Some (b, c1) /\ inv ws (depends_cache P Q c1) /\
      (b = true -> depends_cache P Q c1 = depends_cache P Q c /\ exists infos, parse x w fn a = Some infos /\ forall k v, In (k, v) infos -> get k (depends_cache P Q c1) = Some v) /\
      (b = false -> get fn (depends_cache P Q c1) = None) /\
      (forall k, k <> fn -> get k (depends_cache P Q c1) = get k (depends_cache P Q c)) /\
      (forall k, In k (clean P Q c1) -> key_of fn k \/ In k (clean P Q c)) /\ checked P Q c1 = fn :: checked P Q c).
    { unfold cache_valid. apply mem_str_false in F1. rewrite F1. destruct (get fn (depends_cache P Q c)) as [arr|] eqn:G.
      - destruct (fresh_entry ws _ w fn a arr IV HO NC G) as (i & rest & infos & w0 & a0 & -> & PA & LK & WF & CV & FRS).
        destruct (valid_update_spec width w fn a c i rest G WF) as (b & c1 & VU & BT & U1 & U2 & T1 & T2 & CL & CH). rewrite VU. exists b, c1.
        assert (MB : mem_str fn (clean P Q c1) = b). { destruct b; [apply mem_str_In; auto|apply mem_str_false; auto]. }
        rewrite MB. split; [reflexivity|]. destruct IV as (IN & IF & IP). assert (IV := conj IN (conj IF IP) : inv ws (depends_cache P Q c)).
        assert (KEYS : forall k, In k (clean P Q c1) -> key_of fn k \/ In k (clean P Q c)).
        { intros k K. destruct (CL k K) as [-> | [K' | K']]; auto; left; [apply key_self|]. apply in_map_iff in K'. destruct K' as (v & <- & V). exists v. split; auto.
          destruct (parse_base _ _ _ _ PA) as (vs & d & PR & I). assert (E := LK _ _ I). rewrite G in E. injection E as E _. subst i. cbn [c_variants] in V. apply in_app_or in V. destruct V as [V|[<-|[]]]; auto. right. now apply (NV _ _ _ _ _ PR). }
        destruct b.
        + assert (U : unchanged C P w fn a i) by tauto. rewrite (U1 U). split; auto. split; [intros _; split; auto; exists infos; auto|]. split; [discriminate|]. auto.
        + assert (U : ~ unchanged C P w fn a i) by (intros U; assert (X : false = true) by tauto; discriminate). rewrite (U2 U). split; [now apply inv_rem|]. split; [discriminate|]. split; [intros _; now rewrite get_rem, seqb_refl by auto|].
          split; [intros k K; rewrite get_rem by auto; destruct (seqb fn k) eqn:S; auto; apply seqb_eq in S; congruence|]. auto.
      - rewrite valid_update_absent by auto. eexists. eexists. split; [reflexivity|]. cbn [depends_cache clean checked]. split; auto.
        assert (MF : mem_str fn (clean P Q c) = false) by now apply mem_str_false. rewrite MF. split; [discriminate|]. split; [auto|]. split; [auto|]. split; [auto|reflexivity]. }
    destruct ST as (b & c1 & CV & IV1 & BT & BF & OTH & CL & CH). rewrite CV.
    destruct (IH c1 IV1) as (cached & toparse & c' & SO & IV' & COV & CA & TP & NT & UN).
    { split; auto. intros fn' a' I. apply (NCL fn' a'). now right. }
    { intros fn' I. destruct (FR fn' (or_intror I)) as [G1 G2]. rewrite CH. split; [intros [->|X]; auto|]. intros X. destruct (CL fn' X) as [K|K]; auto.
      apply in_map_iff in I. destruct I as ([f0 a'] & <- & I). cbn [fst] in *. assert (fn = f0) by (apply (key_apart fn f0 f0); auto; [apply (NCL f0 a'); now right|apply key_self]). subst f0. apply NI. apply in_map_iff. now exists (fn, a'). }
    rewrite SO. assert (HD : forall k, key_of fn k -> ~ In k (map fst r)).
    { intros k K I. apply in_map_iff in I. destruct I as ([f0 a'] & <- & I). cbn [fst] in *. assert (fn = f0) by (apply (key_apart fn f0 f0); auto; [apply (NCL f0 a'); now right|apply key_self]). subst f0. apply NI. apply in_map_iff. now exists (fn, a'). }
    assert (UN' : forall k, ~ In k (map fst ((fn, a) :: r)) -> get k (depends_cache P Q c') = get k (depends_cache P Q c)).
    { intros k K. cbn [map fst In] in K. rewrite UN by tauto. apply OTH. intros ->. tauto. }
    destruct b; eexists; eexists; exists c'; (split; [reflexivity|]); (split; [auto|]).
    + destruct (BT eq_refl) as (E & infos & PA & LK). split; [intros f0 a0 [[= <- <-]|I]; [left; now left|destruct (COV f0 a0 I); auto; left; now right]|].
      split; [|split; [intros f0 a0 I; destruct (TP f0 a0 I); split; auto; now right|split; auto]].
      intros f0 a0 [[= <- <-]|I]; [|destruct (CA f0 a0 I); split; auto; now right]. split; [now left|]. exists infos. split; auto. intros k v I. rewrite UN; [now apply LK|]. apply HD. apply (parse_keys _ _ _ _ PA). apply in_map_iff. now exists (k, v).
    + split; [intros f0 a0 [[= <- <-]|I]; [right; now left|destruct (COV f0 a0 I); auto; right; now right]|]. split; [intros f0 a0 I; destruct (CA f0 a0 I); split; auto; now right|].
      split; [|split; auto].
      * intros f0 a0 [[= <- <-]|I]; [|destruct (TP f0 a0 I); split; auto; now right]. split; [now left|]. rewrite UN; [now apply BF|]. apply HD, key_self.
      * cbn [map fst]. constructor; auto. intros I. apply NI. apply in_map_iff in I. destruct I as ([f0 a0] & <- & I). cbn [fst]. apply in_map_iff. exists (f0, a0). split; auto. now apply TP.
Qed.

(** *** What comes from the cache *)
Lemma all_some_pairs fn (dc : entries) : forall names infos, map fst infos = map (variant2virtual fn) names -> (forall k v, In (k, v) infos -> get k dc = Some v) ->
  all_some (map (fun v => option_map (pair (variant2virtual fn v)) (get (variant2virtual fn v) dc)) names) = Some infos.
Proof.
  induction names as [|v names IH]; intros [|[k a] infos]; cbn [map fst]; try discriminate; auto. intros [= -> E] LK. cbn [all_some]. rewrite (LK _ _ (or_introl eq_refl)). cbn [option_map]. rewrite (IH infos); auto. intros k' v' I. apply LK. now right.
Qed.
Lemma load_cached_ok w fn a infos dc : parse x w fn a = Some infos -> (forall k v, In (k, v) infos -> get k dc = Some v) -> load_cached P Q fn dc = Some infos.
Proof.
  intros PA LK. destruct (parse_base _ _ _ _ PA) as (vs & d & PR & I). unfold load_cached. rewrite (LK _ _ I). unfold make_info. cbn [c_variants]. apply all_some_pairs; auto.
  unfold Pcache_Model.parse in PA. rewrite PR in PA. injection PA as <-. rewrite !map_app, !map_map. reflexivity.
Qed.
Lemma add_same infos (dc : entries) : (forall k v, In (k, v) infos -> get k dc = Some v) -> fold_left (add_info P Q) infos dc = dc.
Proof.
  induction infos as [|[k v] infos IH]; intros LK; cbn [fold_left]; auto. assert (E : add_info P Q dc (k, v) = dc).
  { unfold add_info. cbn [fst snd]. destruct (cachable P Q v); auto. apply put_same. apply LK. now left. }
  rewrite E. apply IH. intros k' v' I. apply LK. now right.
Qed.
Lemma from_cache_ok w dc : forall l, (forall fn a, In (fn, a) l -> exists infos, parse x w fn a = Some infos /\ forall k v, In (k, v) infos -> get k dc = Some v) ->
  exists known, from_cache P Q l dc = Some (known, dc) /\
    (forall p, In p known -> exists fn a infos, In (fn, a) l /\ parse x w fn a = Some infos /\ In p infos) /\
    (forall fn a infos, In (fn, a) l -> parse x w fn a = Some infos -> incl infos known).
Proof.
  induction l as [|[fn a] l IH]; intros H; cbn [from_cache].
  - exists []. split; auto. split; [intros ? []|intros ? ? ? []].
  - destruct (H fn a (or_introl eq_refl)) as (infos & PA & LK). rewrite (load_cached_ok w fn a infos dc PA LK), (add_same infos dc LK).
    destruct IH as (known & -> & K1 & K2); [intros fn' a' I; apply H; now right|]. exists (infos ++ known). split; auto. split.
    + intros p I. apply in_app_or in I. destruct I as [I|I]; [exists fn, a, infos; split; [now left|auto]|]. destruct (K1 p I) as (fn' & a' & i' & X & Y & Z). exists fn', a', i'. split; [now right|auto].
    + intros fn' a' i' [[= <- <-]|I] PA' p J; apply in_or_app; [left; congruence|right; now apply (K2 fn' a' i')].
Qed.

(** *** What is parsed *)
Lemma add_infos_ok : forall infos (dc : entries), NoDup (map fst dc) -> NoDup (map fst infos) -> let dc' := fold_left (add_info P Q) infos dc in
  NoDup (map fst dc') /\ (forall k v, In (k, v) infos -> cachable P Q v = true -> get k dc' = Some v) /\
  (forall k, (forall v, In (k, v) infos -> cachable P Q v = false) -> get k dc' = get k dc) /\ (forall p, In p dc' -> In p dc \/ In p infos).
Proof.
  induction infos as [|[k v] infos IH]; intros dc N1 N2; cbn [fold_left]; cbv zeta.
  - split; auto. split; [intros ? ? []|]. split; auto.
  - cbn [map fst] in N2. inversion N2 as [|? ? NI N2']; subst. set (dc1 := add_info P Q dc (k, v)).
    assert (N3 : NoDup (map fst dc1)) by (unfold dc1, add_info; cbn [fst snd]; destruct (cachable P Q v); auto; now apply put_nodup).
    destruct (IH dc1 N3 N2') as (A & B & D & E). cbv zeta in *. split; auto. split; [|split].
    + intros k' v' [[= <- <-]|I] CA; [|auto]. rewrite D.
      * unfold dc1, add_info. cbn [fst snd]. now rewrite CA, get_put, seqb_refl.
      * intros u U. exfalso. apply NI. apply in_map_iff. now exists (k, u).
    + intros k' H. rewrite D by (intros u U; apply H; now right). unfold dc1, add_info. cbn [fst snd]. destruct (cachable P Q v) eqn:CA; auto. rewrite get_put. destruct (seqb k k') eqn:S; auto. apply seqb_eq in S. subst. rewrite (H v (or_introl eq_refl)) in CA. discriminate.
    + intros p I. destruct (E p I) as [J|J]; [|right; now right]. unfold dc1, add_info in J. cbn [fst snd] in J. destruct (cachable P Q v); auto.
      assert (PI : In p dc \/ p = (k, v)). { clear -J. induction dc as [|[y u] dc IH]; cbn [put In] in *; [destruct J as [<-|[]]; auto|]. destruct (seqb y k) eqn:S; cbn [In] in *.
        - apply seqb_eq in S. subst. destruct J as [<-|J]; auto.
        - destruct J as [J|J]; auto. destruct (IH J); auto. }
      destruct PI as [PI | ->]; auto. right. now left.
Qed.
Lemma inv_add ws w dc fn a infos : In w ws -> inv ws dc -> no_colon fn -> get fn dc = None -> parse x w fn a = Some infos -> inv ws (fold_left (add_info P Q) infos dc).
Proof.
  intros W (ND & FM & FP) NC G PA. destruct (add_infos_ok infos dc ND (parse_nodup _ _ _ _ NC PA)) as (A & B & D & E). cbv zeta in *. split; auto. split.
  - intros k v I. destruct (E _ I) as [J|J]; [now apply (FM k v)|now apply (parse_form _ _ _ _ _ _ PA J)].
  - intros fn' a' NC' G'. destruct (str_eq_dec fn' fn) as [-> | NE].
    + exists w, a, infos. split; auto. split; auto. destruct (parse_base _ _ _ _ PA) as (vs & d & PR & I).
      assert (CA : cachable P Q (make_info C P Q x w fn a (map fst vs) (all_depends P Q vs d) d) = true).
      { destruct (cachable P Q (make_info C P Q x w fn a (map fst vs) (all_depends P Q vs d) d)) eqn:CA; auto. rewrite D in G'; [congruence|]. intros v V. assert (v = make_info C P Q x w fn a (map fst vs) (all_depends P Q vs d) d) as ->; auto.
        assert (N := parse_nodup _ _ _ _ NC PA). apply (In_get _ _ _ _ N) in V. apply (In_get _ _ _ _ N) in I. congruence. }
      cbn [cachable make_info c_nocache] in CA. apply negb_true_iff in CA. intros k v V. apply B; auto. unfold Pcache_Model.parse in PA. rewrite PR in PA. injection PA as <-.
      apply in_app_or in V. destruct V as [V|[[= <- <-]|[]]]; [|unfold cachable, make_info; cbn [c_nocache]; now rewrite CA]. apply in_map_iff in V. destruct V as ([n s] & [= <- <-] & V). cbn [fst snd] in *. unfold cachable, make_info. cbn [c_nocache]. now rewrite (CT _ _ _ _ _ PR CA n s V).
    + assert (UN : forall k, key_of fn' k -> get k (fold_left (add_info P Q) infos dc) = get k dc).
      { intros k K. apply D. intros v V. exfalso. apply NE. apply (key_apart fn' fn k); auto. apply (parse_keys _ _ _ _ PA). apply in_map_iff. now exists (k, v). }
      rewrite (UN fn' (key_self fn')) in G'. destruct (FP fn' a' NC' G') as (w0 & a0 & i0 & W0 & PA0 & LK0). exists w0, a0, i0. split; auto. split; auto. intros k v V. rewrite UN; auto. apply (parse_keys _ _ _ _ PA0). apply in_map_iff. now exists (k, v).
Qed.
Lemma from_files_ok ws w : In w ws -> forall l dc, inv ws dc -> NoDup (map fst l) -> (forall fn a, In (fn, a) l -> no_colon fn /\ get fn dc = None) ->
  let r := from_files C P Q parse_recipe x w l dc in inv ws (snd r) /\
    (forall p, In p (fst r) -> exists fn a infos, In (fn, a) l /\ parse x w fn a = Some infos /\ In p infos) /\
    ((forall fn a, In (fn, a) l -> parse x w fn a <> None) -> forall fn a infos, In (fn, a) l -> parse x w fn a = Some infos -> incl infos (fst r)).
Proof.
  intros W. induction l as [|[fn a] l IH]; intros dc IV ND H; cbv zeta; cbn [from_files].
  - split; auto. split; [intros ? []|intros _ ? ? ? []].
  - destruct (Pcache_Model.parse C P Q parse_recipe x w fn a) as [infos|] eqn:PA.
    2:{ cbn [fst snd]. split; auto. split; [intros ? []|]. intros X. now destruct (X fn a (or_introl eq_refl)). }
    destruct (H fn a (or_introl eq_refl)) as [NC G]. assert (IV1 := inv_add ws w dc fn a infos W IV NC G PA). cbn [map fst] in ND. inversion ND as [|? ? NI ND']; subst.
    specialize (IH (fold_left (add_info P Q) infos dc) IV1 ND'). cbv zeta in IH. destruct (from_files C P Q parse_recipe x w l (fold_left (add_info P Q) infos dc)) as [known dc'] eqn:FF. cbn [fst snd] in *.
    destruct IH as (A & B & D).
    { intros fn' a' I. destruct (H fn' a' (or_intror I)) as [NC' G']. split; auto. destruct IV as (IN & _). destruct (add_infos_ok infos dc IN (parse_nodup _ _ _ _ NC PA)) as (_ & _ & U & _). rewrite U; auto.
      intros v V. exfalso. assert (fn' = fn). { apply (key_apart fn' fn fn'); auto; [apply key_self|]. apply (parse_keys _ _ _ _ PA). apply in_map_iff. now exists (fn', v). } subst fn'. apply NI. apply in_map_iff. now exists (fn, a'). }
    split; auto. split.
    + intros p I. apply in_app_or in I. destruct I as [I|I]; [exists fn, a, infos; split; [now left|auto]|]. destruct (B p I) as (f & a' & i' & X & Y & Z). exists f, a', i'. split; [now right|auto].
    + intros X f a' i' [[= <- <-]|I] PA' p J; apply in_or_app; [left; congruence|right]. apply (D (fun f' a'' I' => X f' a'' (or_intror I')) f a' i' I PA' p J).
Qed.

(** *** The files of the cache *)
Notation both := (fun p : str * (core P * Q) => (fst p, [Core P Q (fst (snd p)); Extra P Q (snd (snd p))])).
Notation one := (fun p : str * core P => (fst p, [Core P Q (snd p)])).
Lemma fold_cores : forall (l : list (str * core P)) (acc : entries), NoDup (map fst acc ++ map fst l) ->
  fold_left (fun dc p => append_to P Q dc (fst p) (Core P Q (snd p))) l acc = acc ++ map one l.
Proof.
  induction l as [|[k c] l IH]; intros acc N; cbn [fold_left map fst snd]; [now rewrite app_nil_r|].
  assert (G : get k acc = None). { apply get_none. intros I. cbn [map fst] in N. apply NoDup_remove_2 in N. apply N. apply in_or_app. now left. }
  unfold append_to at 2. rewrite G, put_new by auto. rewrite IH; [now rewrite <- app_assoc|]. rewrite map_app. cbn [map fst] in *. now rewrite <- app_assoc.
Qed.
Lemma fold_extras : forall (l : list (str * (core P * Q))) (done : entries), NoDup (map fst done ++ map fst l) ->
  fold_left (fun dc p => append_to P Q dc (fst p) (Extra P Q (snd p))) (map (fun p => (fst p, snd (snd p))) l) (done ++ map one (map (fun p => (fst p, fst (snd p))) l)) = done ++ map both l.
Proof.
  induction l as [|[k [c q]] l IH]; intros done N; cbn [fold_left map fst snd]; auto.
  assert (NI : ~ In k (map fst done)). { intros I. cbn [map fst] in N. apply NoDup_remove_2 in N. apply N. apply in_or_app. now left. }
  unfold append_to at 2. rewrite get_app_mid, put_app_mid by auto. change ((k, [Core P Q c] ++ [Extra P Q q]) :: map one (map (fun p => (fst p, fst (snd p))) l)) with ([(k, [Core P Q c; Extra P Q q])] ++ map one (map (fun p => (fst p, fst (snd p))) l)).
  rewrite app_assoc, IH; [now rewrite <- app_assoc|]. rewrite map_app. cbn [map fst] in *. now rewrite <- app_assoc.
Qed.
Lemma load_sync dc d : NoDup (map fst dc) -> (forall k a, In (k, a) dc -> form a) -> load P Q x (sync P Q x dc d) = dc.
Proof.
  intros N F. unfold load, sync. cbn [core_file extra_file]. unfold form in F. destruct x.
  - assert (X : exists l, dc = map both l).
    { clear N. induction dc as [|[k a] dc IH]; [exists []; auto|]. destruct (F k a (or_introl eq_refl)) as (c & q & ->). destruct IH as (l & ->); [intros k' a' I; apply (F k' a'); now right|]. exists ((k, (c, q)) :: l). reflexivity. }
    destruct X as (l & ->). assert (E1 : cores P Q (map both l) = map (fun p => (fst p, fst (snd p))) l). { clear. induction l as [|[k [c q]] l IH]; auto. cbn. now rewrite <- IH. }
    assert (E2 : extras P Q (map both l) = map (fun p => (fst p, snd (snd p))) l). { clear. induction l as [|[k [c q]] l IH]; auto. cbn. now rewrite <- IH. }
    rewrite E1, E2. assert (K : map fst (map both l) = map fst l) by (rewrite map_map; reflexivity). rewrite K in N.
    rewrite fold_cores by (cbn [app map]; rewrite map_map; exact N). apply (fold_extras l []). exact N.
  - assert (X : exists l, dc = map one l).
    { clear N. induction dc as [|[k a] dc IH]; [exists []; auto|]. destruct (F k a (or_introl eq_refl)) as (c & ->). destruct IH as (l & ->); [intros k' a' I; apply (F k' a'); now right|]. exists ((k, c) :: l). reflexivity. }
    destruct X as (l & ->). assert (E1 : cores P Q (map one l) = l). { clear. induction l as [|[k c] l IH]; auto. cbn. f_equal. exact IH. }
    rewrite E1. cbn [fold_left]. assert (K : map fst (map one l) = map fst l) by (rewrite map_map; reflexivity). rewrite K in N. now rewrite fold_cores.
Qed.

Lemma inv_more ws w dc : inv ws dc -> inv (w :: ws) dc.
Proof.
  intros (A & B & D). split; auto. split; auto. intros fn a NC G. destruct (D fn a NC G) as (w0 & a0 & i & W & X). exists w0, a0, i. split; [now right|auto].
Qed.
Lemma inv_empty ws : inv ws [].
Proof. split; [constructor|]. split; [intros ? ? []|]. discriminate. Qed.

Lemma session_ok ws d w recipes order : inv ws (load P Q x d) -> (forall w0, In w0 ws -> honest C w w0) -> proper recipes -> delivers order ->
  exists known d' dc, session x w recipes order d = Some (known, d', dc) /\ inv (w :: ws) (load P Q x d') /\
    (forall p, In p known -> exists fn a infos, In (fn, a) recipes /\ parse x w fn a = Some infos /\ In p infos) /\
    ((forall l, incl l (order l)) -> (forall fn a, In (fn, a) recipes -> parse x w fn a <> None) -> forall fn a infos, In (fn, a) recipes -> parse x w fn a = Some infos -> incl infos known).
Proof.
  intros IV HO PR DE. unfold Pcache_Model.session. change (if x then 2 else 1) with width.
  destruct (sort_out_ok ws w HO recipes {| depends_cache := load P Q x d; clean := []; checked := [] |} IV PR) as (cached & toparse & c & -> & IV1 & COV & CA & TP & NT & _).
  { intros fn _. split; intros []. }
  destruct (from_cache_ok w (depends_cache P Q c) cached) as (known & -> & K1 & K2). { intros fn a I. apply (CA fn a I). }
  destruct (DE toparse NT) as [OD OI].
  assert (FF := from_files_ok (w :: ws) w (or_introl eq_refl) (order toparse) (depends_cache P Q c) (inv_more ws w _ IV1) OD). cbv zeta in FF.
  destruct FF as (IV2 & F1 & F2). { intros fn a I. apply OI in I. destruct (TP fn a I) as [I' G]. split; auto. now apply (proj2 PR fn a). }
  destruct (from_files C P Q parse_recipe x w (order toparse) (depends_cache P Q c)) as [parsed dc] eqn:E. cbn [fst snd] in *.
  eexists. eexists. exists dc. split; [reflexivity|]. split; [|split].
  - destruct (existsb _ parsed); [|apply inv_more; exact IV]. destruct IV2 as (N & FM & X). rewrite load_sync by auto. split; auto.
  - intros p I. apply in_app_or in I. destruct I as [I|I].
    + destruct (K1 p I) as (fn & a & i & X & Y). exists fn, a, i. split; auto. now apply CA.
    + destruct (F1 p I) as (fn & a & i & X & Y). exists fn, a, i. split; auto. apply OI in X. now apply TP.
  - intros ALL OK fn a infos I PA p J. apply in_or_app. destruct (COV fn a I) as [X|X]; [left; now apply (K2 fn a infos)|right]. refine (F2 _ fn a infos (ALL toparse _ X) PA p J).
    intros f a' I'. apply OI in I'. apply OK. now apply TP.
Qed.
Lemma history_inv ws d : history C P Q parse_recipe x ws d -> inv ws (load P Q x d).
Proof.
  induction 1 as [|ws d w recipes order known d' dc H IH HO PR DE SE].
  - unfold load. cbn [core_file]. apply inv_empty.
  - destruct (session_ok ws d w recipes order IH HO PR DE) as (k & d2 & dc2 & E & IV & _). rewrite SE in E. now injection E as _ <- _.
Qed.
End Facts.

(** *** Lists of files *)
Definition base_ok (base : str) : Prop := base = [] \/ exists c t, base = c :: t /\ is_space c = true.
Lemma startswith_over p a base : Forall (fun c => is_space c = false) p -> base_ok base -> startswith p (a ++ base) = true -> startswith p a = true.
Proof.
  revert a. induction p as [|x p IH]; intros a F B H; [reflexivity|]. inversion F as [|? ? FX F']; subst. destruct a as [|y a].
  - cbn [app] in H. destruct B as [->|(c & t & -> & S)]; [discriminate|]. cbn [startswith] in H. apply andb_true_iff in H. destruct H as [H _]. apply aeqb_eq in H. congruence.
  - cbn [app startswith] in *. apply andb_true_iff in H. destruct H as [H1 H2]. rewrite H1. cbn. auto.
Qed.
Definition ends (m a : str) : Prop := exists b, a = b ++ m.
Definition uncut (g : str) : Prop := (forall c t, g = c :: t -> is_space c = false) /\
  forall a c b, g = a ++ c :: b -> ends (s_ ":True") a \/ ends (s_ ":False") a -> is_space c = false.
Lemma after_mark_ends a base : base_ok base -> after_mark (rev a ++ base) = true -> ends (s_ ":True") a \/ ends (s_ ":False") a.
Proof.
  intros B H. unfold after_mark in H. apply orb_true_iff in H.
  assert (X : forall m, Forall (fun c => is_space c = false) (rev m) -> startswith (rev m) (rev a ++ base) = true -> ends m a).
  { intros m F S. apply startswith_over in S; auto. apply startswith_iff in S. destruct S as (t & E). exists (rev t). rewrite <- (rev_involutive a), E, rev_app_distr, rev_involutive. reflexivity. }
  destruct H as [H|H]; [left|right]; (apply X; [repeat constructor|exact H]).
Qed.
Lemma uncut_item g base rest : uncut g -> base_ok base -> forall b a cur cut, g = a ++ b -> (cut = true -> a = []) ->
  split_marks (rev a ++ base) cur cut (b ++ rest) = split_marks (rev g ++ base) (rev b ++ cur) (match b with [] => cut | _ => false end) rest.
Proof.
  intros [U1 U2] B. induction b as [|c b IH]; intros a cur cut E K.
  - rewrite app_nil_r in E. subst. reflexivity.
  - cbn [app split_marks]. assert (S : is_space c && (cut || after_mark (rev a ++ base)) = false).
    { destruct (is_space c) eqn:SP; auto. cbn [andb]. apply orb_false_iff. split.
      - destruct cut; auto. rewrite (K eq_refl) in E. cbn [app] in E. rewrite (U1 _ _ E) in SP. discriminate.
      - destruct (after_mark (rev a ++ base)) eqn:M; auto. apply after_mark_ends in M; auto. rewrite (U2 _ _ _ E M) in SP. discriminate. }
    rewrite S. specialize (IH (a ++ [c]) (c :: cur) false). rewrite rev_app_distr in IH. cbn [rev app] in IH. rewrite IH; [|rewrite <- app_assoc; exact E|discriminate].
    assert (X : rev (c :: b) ++ cur = rev b ++ c :: cur) by (cbn [rev]; now rewrite <- app_assoc). rewrite X. now destruct b.
Qed.
Lemma listed_uncut f b : list_name f -> uncut (listed (f, b)).
Proof.
  intros [L1 L2]. unfold listed. cbn [fst snd]. set (m := if b then s_ ":True" else s_ ":False").
  assert (M : forall a c t, m = a ++ c :: t -> is_space c = false /\ ~ ends (s_ ":True") a /\ ~ ends (s_ ":False") a).
  { intros a c t E. assert (LA : length m = length a + S (length t)) by (rewrite E, app_length; reflexivity).
    assert (SP : Forall (fun c => is_space c = false) m) by (unfold m; destruct b; repeat constructor). split; [|split].
    - rewrite E in SP. apply Forall_app in SP. destruct SP as [_ SP]. now inversion SP.
    - intros (u & ->). unfold m in *. destruct b.
      + rewrite !app_length in LA. cbn in LA. lia.
      + destruct u as [|x u]; [discriminate|]. injection E as _ E. destruct u as [|x' u]; [discriminate|]. rewrite !app_length in LA. cbn in LA. lia.
    - intros (u & ->). unfold m in *. rewrite !app_length in LA. destruct b; cbn in LA; lia. }
  assert (M0 : exists c t, m = c :: t /\ is_space c = false) by (unfold m; destruct b; eexists; eexists; split; reflexivity).
  split.
  - intros c t E. destruct f as [|x f]; [|injection E as -> E; eapply L1; reflexivity]. destruct M0 as (c0 & t0 & E0 & S0). change (m = c :: t) in E. rewrite E0 in E. injection E as <- _. exact S0.
  - intros a c t E EN.
    assert (CASE : (exists u, f = a ++ c :: u) \/ exists u, m = u ++ c :: t /\ a = f ++ u).
    { clear -E. revert f E. induction a as [|x a IH]; intros [|y f] E; cbn [app] in E.
      - right. exists []. auto.
      - injection E as -> E. left. now exists f.
      - right. exists (x :: a). auto.
      - injection E as -> E. destruct (IH f E) as [(u & ->)|(u & A & ->)]; [left; now exists u|right; now exists u]. }
    destruct CASE as [(u & Ef)|(u & Em & ->)].
    + destruct EN as [(v & ->)|(v & ->)]; apply (L2 v c u); [left|right]; rewrite Ef, <- app_assoc; reflexivity.
    + now destruct (M u c t Em).
Qed.
Lemma listed_ends f b : ends (s_ ":True") (listed (f, b)) \/ ends (s_ ":False") (listed (f, b)).
Proof. unfold listed. cbn [fst snd]. destruct b; [left|right]; now exists f. Qed.
Lemma ends_mark g base : ends (s_ ":True") g \/ ends (s_ ":False") g -> after_mark (rev g ++ base) = true.
Proof.
  intros H. unfold after_mark. apply orb_true_iff. destruct H as [(b & ->)|(b & ->)]; [left|right]; rewrite rev_app_distr, <- app_assoc; apply startswith_app.
Qed.
Lemma split_marks_join : forall l base cut, l <> [] -> Forall (fun p => list_name (fst p)) l -> base_ok base ->
  split_marks base [] cut (join (s_ " ") (map listed l)) = map listed l.
Proof.
  induction l as [|[f b] l IH]; intros base cut NE F B; [congruence|]. inversion F as [|? ? F1 F2]; subst. cbn [fst] in F1. clear NE.
  assert (NEG : exists c t, listed (f, b) = c :: t) by (unfold listed; cbn [fst snd]; destruct f, b; eexists; eexists; reflexivity).
  assert (ST : forall rest, split_marks base [] cut (listed (f, b) ++ rest) = split_marks (rev (listed (f, b)) ++ base) (rev (listed (f, b))) false rest).
  { intros rest. pose proof (uncut_item (listed (f, b)) base rest (listed_uncut f b F1) B (listed (f, b)) [] [] cut eq_refl (fun _ => eq_refl)) as U. cbn [rev app] in U. rewrite U, app_nil_r. destruct NEG as (c & t & ->). reflexivity. }
  destruct l as [|q l].
  - cbn [map join]. rewrite <- (app_nil_r (listed (f, b))) at 1. rewrite ST. cbn [split_marks]. now rewrite rev_involutive.
  - cbn [map]. rewrite join_cons by discriminate. rewrite ST. change (s_ " " ++ join (s_ " ") (listed q :: map listed l)) with (" "%char :: join (s_ " ") (map listed (q :: l))). cbn [split_marks].
    rewrite (ends_mark _ _ (listed_ends f b)). change (is_space " "%char) with true. cbn [andb orb]. rewrite rev_involutive. f_equal. apply IH; auto; [discriminate|]. right. eexists. eexists. split; reflexivity.
Qed.
Lemma rsplit1_listed f b : rsplit1 (listed (f, b)) = Some (f, if b then s_ "True" else s_ "False").
Proof.
  unfold rsplit1, listed. cbn [fst snd]. assert (X : forall m, no_char colon m -> rsplit1 (f ++ colon :: m) = Some (f, m)).
  { intros m M. unfold rsplit1. rewrite rev_app_distr. cbn [rev]. rewrite <- app_assoc. cbn [app]. rewrite cut_at_some; [now rewrite !rev_involutive|]. apply no_char_In. intros I. apply in_rev in I. apply no_char_In in M. auto. }
  unfold rsplit1 in X. destruct b; [apply (X (s_ "True"))|apply (X (s_ "False"))]; apply no_char_In; cbn; intuition discriminate.
Qed.
Lemma list_text_strip (l : list (str * bool)) : Forall (fun p => list_name (fst p)) l -> strip (list_text l) = list_text l.
Proof.
  intros F. unfold strip, list_text. destruct l as [|[f b] l]; [reflexivity|].
  assert (L : lstrip (join (s_ " ") (map listed ((f, b) :: l))) = join (s_ " ") (map listed ((f, b) :: l))).
  { inversion F as [|? ? F1 F2]; subst. destruct (listed_uncut f b F1) as [U _]. assert (NEG : exists c t, listed (f, b) = c :: t) by (unfold listed; cbn [fst snd]; destruct f, b; eexists; eexists; reflexivity).
    destruct NEG as (c & t & E). cbn [map]. assert (J : exists r, join (s_ " ") (listed (f, b) :: map listed l) = c :: r).
    { destruct (map listed l); cbn [join]; rewrite E; eexists; reflexivity. }
    destruct J as (r & ->). apply lstrip_nospace. apply (U c t E). }
  rewrite L. assert (R : forall l, l <> [] -> exists c t, join (s_ " ") (map listed l) = t ++ [c] /\ is_space c = false).
  { clear. induction l as [|[f b] l IH]; intros NE; [congruence|]. destruct l as [|q l].
    - cbn [map join]. unfold listed. cbn [fst snd]. exists "e"%char. destruct b; [exists (f ++ s_ ":Tru")|exists (f ++ s_ ":Fals")]; (split; [rewrite <- app_assoc; reflexivity|reflexivity]).
    - cbn [map]. rewrite join_cons by discriminate. destruct IH as (c & t & E & S); [discriminate|]. cbn [map] in E. rewrite E. exists c, (listed (f, b) ++ s_ " " ++ t). split; auto. now rewrite <- !app_assoc. }
  destruct (R ((f, b) :: l)) as (c & t & E & S); [discriminate|]. rewrite E. now apply rstrip_snoc.
Qed.
Lemma list_round (l : list (str * bool)) : Forall (fun p => list_name (fst p)) l -> file_list (list_text l) = Some (map (fun p : str * bool => (fst p, if snd p then s_ "True" else s_ "False")) l).
Proof.
  intros F. unfold file_list. rewrite list_text_strip by auto. destruct l as [|q l]; [reflexivity|]. set (l' := q :: l) in *.
  assert (NE : list_text l' <> []).
  { unfold list_text, l'. destruct q as [f b]. cbn [map]. destruct (map listed l); cbn [join]; unfold listed; cbn [fst snd]; destruct f, b; discriminate. }
  destruct (list_text l') as [|c t] eqn:E; [congruence|]. rewrite <- E. unfold list_text. rewrite split_marks_join; auto; [|discriminate|now left].
  assert (FL : filter (fun f : str => match f with [] => false | _ => true end) (map listed l') = map listed l').
  { clear. induction l' as [|[f b] r IH]; auto. cbn [map filter]. unfold listed at 1. cbn [fst snd]. destruct f, b; cbn [app s_ list_ascii_of_string]; now rewrite IH. }
  match goal with |- context [filter ?f ?l] => replace (filter f l) with (map listed l') by (symmetry; exact FL) end. rewrite map_map. apply all_some_map. intros [f b] _. apply rsplit1_listed.
Qed.
