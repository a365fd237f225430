(** Lemmas about the launch of processes. *)
From Coq Require Import Ascii String List Bool Arith Lia Permutation.
From Verif Require Import Str_Model Launch_Model Launch_Spec.
Import ListNotations.
Open Scope list_scope.

Lemma starts_app a b : starts (a ++ b) = starts a ++ starts b.
Proof. induction a as [|[i|i] a IH]; cbn; [reflexivity|now rewrite IH|exact IH]. Qed.
Lemma ends_app a b : ends (a ++ b) = ends a ++ ends b.
Proof. induction a as [|[i|i] a IH]; cbn; [reflexivity|exact IH|now rewrite IH]. Qed.
Lemma values_app out a b : values out (a ++ b) = values out a ++ values out b.
Proof. induction a as [|i a IH]; cbn; [reflexivity|]. destruct (out i) as [e|[|c r]|]; cbn; now rewrite IH. Qed.
Lemma exceptions_app out a b : exceptions out (a ++ b) = exceptions out a ++ exceptions out b.
Proof. induction a as [|i a IH]; cbn; [reflexivity|]. destruct (out i) as [e|[|c r]|]; cbn; now rewrite IH. Qed.
Lemma values_perm out a b : Permutation a b -> Permutation (values out a) (values out b).
Proof.
  induction 1 as [|x a b P IH|x y a|a b c P IH P' IH']; cbn; auto.
  - destruct (out x) as [e|[|h r]|]; auto.
  - destruct (out x) as [e|[|h r]|], (out y) as [e'|[|h' r']|]; auto. apply perm_swap.
  - now transitivity (values out b).
Qed.
Lemma exceptions_in out l e : In e (exceptions out l) <-> exists i, In i l /\ out i = Raised e.
Proof.
  induction l as [|x l IH]; cbn; [split; [intros []|intros (i & [] & _)]|]. destruct (out x) as [e'|r|] eqn:O; cbn; rewrite IH; split.
  - intros [->|(i & I & E)]; eauto.
  - intros (i & [->|I] & E); [left; congruence|right; eauto].
  - intros (i & I & E); eauto.
  - intros (i & [->|I] & E); [congruence|eauto].
  - intros (i & I & E); eauto.
  - intros (i & [->|I] & E); [congruence|eauto].
Qed.
(** No start after an exception *)
Definition ordered (out : str -> outcome) (t : list event) : Prop := forall a i b, t = a ++ Start i :: b -> exceptions out (ends a) = [].
(** As many as allowed, at any time *)
Definition bounded (max : nat) (t : list event) : Prop := forall a b, t = a ++ b -> length (starts a) <= max + length (ends a).
(** [wait]: processes not yet visited in this turn *)
Record good (max : nat) (out : str -> outcome) (l wait : list str) (s : state) : Prop := Good {
  g_items : Permutation l (items s ++ starts (trace s));
  g_all : Permutation (starts (trace s)) (launched s ++ wait ++ ends (trace s));
  g_res : results s = values out (ends (trace s));
  g_err : errors s = exceptions out (ends (trace s));
  g_max : length (launched s ++ wait) <= max;
  g_order : ordered out (trace s);
  g_bound : bounded max (trace s) }.
Lemma snoc_cut {A} (t : list A) x a y b : t ++ [x] = a ++ y :: b -> (b = [] /\ t = a /\ x = y) \/ exists b', b = b' ++ [x] /\ t = a ++ y :: b'.
Proof.
  intro E. destruct b as [|z b _] using rev_ind; [left; apply app_inj_tail in E; tauto|]. right. exists b. rewrite app_comm_cons, app_assoc in E. apply app_inj_tail in E. destruct E as [-> ->]. auto.
Qed.
Lemma snoc_prefix {A} (t : list A) x a b : t ++ [x] = a ++ b -> a = t ++ [x] \/ exists b', t = a ++ b'.
Proof.
  intro E. destruct b as [|z b _] using rev_ind; [left; now rewrite app_nil_r in E|]. right. exists b. rewrite app_assoc in E. apply app_inj_tail in E. tauto.
Qed.
Lemma good_keep max out l q wait s : good max out l (q :: wait) s -> good max out l wait (keep q s).
Proof.
  intros [A B C D E F G]. constructor; cbn [keep items launched errors results trace]; auto.
  - rewrite <- app_assoc. exact B.
  - rewrite <- app_assoc. exact E.
Qed.
Lemma good_finish max out l q wait s : good max out l (q :: wait) s -> good max out l wait (finish out q s).
Proof.
  intros [A B C D E F G]. constructor; cbn [finish items launched errors results trace].
  - rewrite starts_app. cbn. now rewrite app_nil_r.
  - rewrite starts_app, ends_app. cbn. rewrite app_nil_r. rewrite B. apply Permutation_app_head. cbn. rewrite app_assoc. apply Permutation_cons_append.
  - rewrite ends_app, values_app, C. cbn. unfold res_of. destruct (out q) as [e|[|c r]|]; reflexivity.
  - rewrite ends_app, exceptions_app, D. cbn. unfold err_of. destruct (out q) as [e|[|c r]|]; reflexivity.
  - rewrite app_length in *. cbn in E. lia.
  - intros a i b Q. apply snoc_cut in Q. destruct Q as [(_ & _ & Q)|(b' & _ & Q)]; [discriminate|]. now apply (F a i b').
  - intros a b Q. apply snoc_prefix in Q. destruct Q as [->|(b' & Q)]; [|now apply (G a b')]. rewrite starts_app, ends_app, !app_length. cbn. specialize (G (trace s) [] (eq_sym (app_nil_r _))). lia.
Qed.
Lemma good_visit max out l : forall wait alive s, good max out l wait s -> good max out l [] (visit out alive wait s).
Proof.
  assert (H : forall n wait, length wait <= n -> forall alive s, good max out l wait s -> good max out l [] (visit out alive wait s)); [|intros; eapply H; eauto].
  induction n as [|n IH]; intros wait L alive s G; (destruct wait as [|q wait]; [destruct alive; exact G|]); cbn [length] in L; [lia|]. cbn [visit]. destruct alive as [|[|] alive].
  - apply IH; [lia|now apply good_keep].
  - apply IH; [lia|now apply good_keep].
  - destruct wait as [|x wait]; [now apply good_finish|]. cbn [length] in L. apply IH; [lia|]. apply good_keep. now apply good_finish.
Qed.
Lemma good_start max out l s : good max out l [] s -> good max out l [] (start max s).
Proof.
  intros GG. unfold start. destruct (negb (nonempty (errors s)) && nonempty (items s) && Nat.ltb (length (launched s)) max) eqn:T; [|exact GG]. destruct GG as [A B C D E F G].
  apply andb_true_iff in T. destruct T as [T T3]. apply andb_true_iff in T. destruct T as [T1 T2]. apply Nat.ltb_lt in T3.
  assert (NE : errors s = []) by (destruct (errors s); [reflexivity|discriminate]). assert (NI : items s <> []) by (destruct (items s); [discriminate|congruence]).
  pose proof (app_removelast_last [] NI) as Q. set (i := last (items s) []) in *. constructor; cbn [items launched errors results trace].
  - rewrite starts_app. cbn. rewrite A, Q at 1. rewrite <- app_assoc. apply Permutation_app_head. cbn. apply Permutation_cons_append.
  - rewrite starts_app, ends_app. cbn. rewrite app_nil_r, B. cbn. rewrite <- !app_assoc. apply Permutation_app_head. apply Permutation_sym, Permutation_cons_append.
  - rewrite ends_app. cbn. now rewrite app_nil_r.
  - rewrite ends_app. cbn. now rewrite app_nil_r.
  - rewrite app_nil_r, app_length. cbn. lia.
  - intros a j b P. apply snoc_cut in P. destruct P as [(_ & <- & _)|(b' & _ & P)]; [congruence|now apply (F a j b')].
  - intros a b P. apply snoc_prefix in P. destruct P as [->|(b' & P)]; [|now apply (G a b')]. rewrite starts_app, ends_app, !app_length. cbn.
    apply Permutation_length in B. rewrite !app_length in B. cbn in B. lia.
Qed.
Lemma good_turn max out l alive s : good max out l [] s -> good max out l [] (turn max out alive s).
Proof.
  intro G. apply (good_start max out l s) in G. unfold turn. set (s1 := start max s) in *. clearbody s1. apply good_visit. destruct G as [A B C D E F G]. constructor; cbn [items launched errors results trace]; auto.
  rewrite app_nil_r in E. exact E.
Qed.
Lemma good_turns max out l sched : forall s, good max out l [] s -> good max out l [] (turns max out sched s).
Proof. induction sched as [|alive sched IH]; intros s G; cbn [turns]; [exact G|]. destruct (busy s); [|exact G]. apply IH. now apply good_turn. Qed.
Lemma good_after max out l sched : good max out l [] (after max out l sched).
Proof.
  apply good_turns. constructor; cbn; auto; try lia; try reflexivity.
  - now rewrite app_nil_r.
  - intros a i b E. destruct a; discriminate.
  - intros a b E. symmetry in E. apply app_eq_nil in E. destruct E as [-> ->]. cbn. lia.
Qed.
(** ** Progress *)
Lemma turns_app max out a b : forall s, turns max out (a ++ b) s = turns max out b (turns max out a s).
Proof.
  induction a as [|x a IH]; intro s; cbn [app turns]; [reflexivity|]. destruct (busy s) eqn:E; [apply IH|]. destruct b as [|y b]; cbn [turns]; [reflexivity|now rewrite E].
Qed.
Definition weight (s : state) : nat := length (items s) + length (launched s).
Lemma visit_items out : forall wait alive s, items (visit out alive wait s) = items s /\ length (launched (visit out alive wait s)) <= length (launched s) + length wait.
Proof.
  assert (H : forall n wait, length wait <= n -> forall alive s, items (visit out alive wait s) = items s /\ length (launched (visit out alive wait s)) <= length (launched s) + length wait); [|intros; eapply H; eauto].
  induction n as [|n IH]; intros wait L alive s; (destruct wait as [|q wait]; [destruct alive; cbn; auto with arith|]); cbn [length] in L; [lia|]. cbn [visit length]. destruct alive as [|[|] alive].
  - destruct (IH wait ltac:(lia) [] (keep q s)) as [A B]. cbn [keep items launched] in *. rewrite app_length in B. cbn in B. split; [exact A|lia].
  - destruct (IH wait ltac:(lia) alive (keep q s)) as [A B]. cbn [keep items launched] in *. rewrite app_length in B. cbn in B. split; [exact A|lia].
  - destruct wait as [|x wait]; [cbn; split; [reflexivity|lia]|]. cbn [length] in L. destruct (IH wait ltac:(lia) alive (keep x (finish out q s))) as [A B]. cbn [keep finish items launched length] in *. rewrite app_length in B. cbn in B. split; [exact A|lia].
Qed.
(** The first process has ended: one less *)
Lemma visit_first out q wait alive s : length (launched (visit out (false :: alive) (q :: wait) s)) <= length (launched s) + length wait.
Proof.
  cbn [visit]. destruct wait as [|x wait]; [cbn; lia|]. destruct (visit_items out wait alive (keep x (finish out q s))) as [_ B]. cbn [keep finish launched] in B. rewrite app_length in B. cbn [length] in *. lia.
Qed.
Lemma turn_less max out alive s : 0 < max -> busy s = true -> weight (turn max out (false :: alive) s) < weight s.
Proof.
  intros M B. unfold turn. assert (W : length (items (start max s)) + length (launched (start max s)) = weight s /\ launched (start max s) <> []).
  { unfold start, busy, weight in *. destruct (errors s) as [|e es]; cbn [nonempty negb andb] in *.
    - destruct (items s) as [|i l] eqn:I; cbn [nonempty andb] in *.
      + destruct (launched s) eqn:L; [discriminate|]. rewrite ?I, ?L. split; [reflexivity|discriminate].
      + destruct (Nat.ltb_spec (length (launched s)) max).
        * cbn [items launched]. rewrite app_length. split; [|intro X; apply app_eq_nil in X; destruct X; discriminate]. assert (Q : i :: l <> []) by discriminate. pose proof (app_removelast_last [] Q) as P. apply (f_equal (@length _)) in P. rewrite app_length in P. cbn [length] in *. unfold str in *. lia.
        * rewrite ?I. split; [reflexivity|]. intro X. rewrite X in H. cbn in H. lia.
    - rewrite andb_false_r in B. cbn in B. split; [reflexivity|]. destruct (launched s); discriminate. }
  destruct W as [W NL]. rewrite <- W. unfold weight. clear W. set (s1 := start max s) in *. clearbody s1. destruct (launched s1) as [|q wait] eqn:L; [congruence|].
  destruct (visit_items out (q :: wait) (false :: alive) (State (items s1) [] (errors s1) (results s1) (trace s1))) as [-> _]. pose proof (visit_first out q wait alive (State (items s1) [] (errors s1) (results s1) (trace s1))) as V. cbn [items launched length] in *. lia.
Qed.
Lemma turns_finish max out sched : 0 < max -> (forall alive, In alive sched -> exists r, alive = false :: r) -> forall s, weight s <= length sched -> busy (turns max out sched s) = false.
Proof.
  intro M. induction sched as [|a sched IH]; intros H s W; cbn [turns].
  - unfold weight, busy in *. cbn in W. destruct (items s), (launched s); cbn in *; first [lia|reflexivity].
  - destruct (busy s) eqn:B; [|exact B]. destruct (H a (or_introl eq_refl)) as [r ->]. apply IH; [intros x X; apply H; now right|]. pose proof (turn_less max out r s M B). cbn [length] in W. lia.
Qed.
