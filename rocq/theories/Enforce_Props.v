(** C191: BB_SETSCENE_ENFORCE. *)
From Coq Require Import Ascii String List Bool.
From Verif Require Import Str_Model Str_Proofs Layerconf_Model Enforce_Model Enforce_Spec Enforce_Proofs.
Import ListNotations.
Open Scope list_scope.

(** C191: without BB_SETSCENE_ENFORCE = "1" every task may run, and a failed setscene task does not end the build. *)
Theorem enforce_off : forall enforce ignore targets covered stamped noexec pn task, enforce <> Some (s_ "1") ->
  unexpected covered stamped noexec pn task (ignore_tasks enforce ignore targets) = false /\ give_up pn task (ignore_tasks enforce ignore targets) = false.
Proof.
  intros enforce ignore targets c s n pn task E. assert (I : ignore_tasks enforce ignore targets = None).
  { unfold ignore_tasks. destruct enforce as [v|]; [|reflexivity]. destruct (seqb v (s_ "1")) eqn:Q; [apply seqb_eq in Q; congruence|reflexivity]. }
  rewrite I. unfold unexpected. destruct c, s, n; auto.
Qed.
(** C191: with it, a task about to run is an error exactly if it does not come from the cache, has no stamp, does something, and is
    not on the list. *)
Theorem enforce_unexpected : forall ignore targets covered stamped noexec pn task,
  unexpected covered stamped noexec pn task (ignore_tasks (Some (s_ "1")) (Some ignore) targets) = true <->
  covered = false /\ stamped = false /\ noexec = false /\ ~ listed targets ignore pn task.
Proof.
  intros ignore targets c s n pn task. unfold unexpected. rewrite <- check_iff. destruct c; [intuition discriminate|]. destruct s; [intuition discriminate|]. destruct n; [intuition discriminate|].
  destruct (check_ignore _ _ _); cbn; intuition congruence.
Qed.
(** C191: the failure of the setscene variant of a task ends the build exactly if the task is not on the list. *)
Theorem enforce_give_up : forall ignore targets pn task,
  give_up pn task (ignore_tasks (Some (s_ "1")) (Some ignore) targets) = true <-> ~ listed targets ignore pn task.
Proof.
  intros ignore targets pn task. rewrite <- check_iff. unfold give_up. destruct (ignore_tasks _ _ _) as [l|] eqn:E; [|discriminate]. destruct (check_ignore _ _ _); cbn; intuition congruence.
Qed.
(** C191: an empty list, or none, lists nothing. *)
Theorem enforce_nothing : forall targets pn task,
  unexpected false false false pn task (ignore_tasks (Some (s_ "1")) None targets) = true /\ ~ listed targets [] pn task.
Proof. intros targets pn task. split; [reflexivity|]. intros (item & pat & [] & _). Qed.
(** C191: "%:do_x" alone lists do_x of the recipes asked for by their name, and nothing else. *)
Theorem enforce_targets : forall targets t pn task, plain t -> t <> [] -> (forall c, In c t -> is_space c = false) -> plain pn -> (forall tg, In tg targets -> plain (t_name tg)) ->
  (listed targets (s_ "%:" ++ t) pn task <-> task = t /\ exists tg, In tg targets /\ t_name tg = pn).
Proof.
  intros targets t pn task PT NT WT PP PG. assert (SW : split_ws (s_ "%:" ++ t) = [s_ "%:" ++ t]).
  { apply split_ws_single; split; [discriminate|]. apply Forall_forall. intros c C. cbn in C. destruct C as [<-|[<-|C]]; [reflexivity|reflexivity|auto]. }
  assert (NC : ~ In ":"%char t) by (intro I; apply PT in I; tauto).
  unfold listed. rewrite SW. split.
  - intros (item & pat & [<-|[]] & S & M). destruct S as [[N _]|(t' & rest & tg & I & E & NT' & R & ->)]; [destruct N; eauto|].
    assert (Q : t' = t). { apply app_inv_head in E. rewrite <- (app_nil_r t) in E. rewrite <- (second_spec t' rest NT' R), <- (second_spec t [] NC (or_introl eq_refl)). now rewrite E. } subst t'.
    apply matches_plain in M.
    + assert (CU : cut_at ":"%char (pn ++ ":"%char :: task) = cut_at ":"%char (t_name tg ++ ":"%char :: t)) by (f_equal; exact M). rewrite !cut_at_some in CU; [|apply no_char_In; intro X; apply (PG tg I) in X; tauto|apply no_char_In; intro X; apply PP in X; tauto]. injection CU as -> ->. split; [reflexivity|eauto].
    + intros c C. apply in_app_or in C. destruct C as [C|C]; [apply (PG tg I) in C; tauto|]. apply in_app_or in C. destruct C as [[<-|[]]|C]; [split; discriminate|apply PT in C; tauto].
  - intros [-> (tg & I & <-)]. exists (s_ "%:" ++ t), (t_name tg ++ s_ ":" ++ t). split; [now left|]. split; [right; exists t, [], tg; rewrite app_nil_r; split; [exact I|]; split; [reflexivity|]; split; [exact NC|]; split; [now left|reflexivity]|]. apply matches_plain; [|reflexivity].
    intros c C. apply in_app_or in C. destruct C as [C|C]; [apply (PG tg I) in C; tauto|]. apply in_app_or in C. destruct C as [[<-|[]]|C]; [split; discriminate|apply PT in C; tauto].
Qed.
(** C191 is violated in one place: a target asked for by what it provides (virtual/kernel) rather than by the name of its recipe is not
    listed by "%:", which compares the name asked for with the name of the recipe. *)
Theorem enforce_provides_refuted : ~ (forall targets t tg, plain t -> t <> [] -> In tg targets -> plain (t_pn tg) -> plain (t_name tg) ->
  (forall c, In c t -> is_space c = false) -> listed targets (s_ "%:" ++ t) (t_pn tg) t).
Proof.
  intro H. set (tg := Target (s_ "virtual/kernel") (s_ "linux-mainline")). assert (P : forall c, In c (s_ "do_build") -> is_space c = false) by (intros c C; repeat (destruct C as [<-|C]; [reflexivity|]); destruct C).
  assert (PL : forall s, existsb (fun c => aeqb c "*"%char || aeqb c "?"%char || aeqb c ":"%char) s = false -> plain s).
  { intros s E c C. assert (X : aeqb c "*"%char || aeqb c "?"%char || aeqb c ":"%char = false). { destruct (_ || _) eqn:Q; [|reflexivity]. assert (existsb (fun c => aeqb c "*"%char || aeqb c "?"%char || aeqb c ":"%char) s = true) by (apply existsb_exists; eauto). congruence. }
    apply orb_false_iff in X. destruct X as [X X3]. apply orb_false_iff in X. destruct X as [X1 X2]. apply aeqb_neq in X1, X2, X3. auto. }
  specialize (H [tg] (s_ "do_build") tg (PL (s_ "do_build") eq_refl) ltac:(discriminate) (or_introl eq_refl) (PL (s_ "linux-mainline") eq_refl) (PL (s_ "virtual/kernel") eq_refl) P). apply check_iff in H. discriminate H.
Qed.

(** ** The hypotheses are met *)
Example enforce_example : listed [Target (s_ "hello") (s_ "hello")] (s_ "%:do_build *:do_roo?fs") (s_ "hello") (s_ "do_build") /\
  listed [Target (s_ "hello") (s_ "hello")] (s_ "%:do_build *:do_roo?fs") (s_ "isar-image") (s_ "do_rootfs") /\
  ~ listed [Target (s_ "hello") (s_ "hello")] (s_ "%:do_build *:do_roo?fs") (s_ "libhello") (s_ "do_build") /\
  unexpected false false false (s_ "libhello") (s_ "do_build") (ignore_tasks (Some (s_ "1")) (Some (s_ "%:do_build")) [Target (s_ "hello") (s_ "hello")]) = true.
Proof. rewrite <- !check_iff. repeat split; try (vm_compute; reflexivity). vm_compute. discriminate. Qed.

Print Assumptions enforce_off.
Print Assumptions enforce_unexpected.
Print Assumptions enforce_give_up.
Print Assumptions enforce_nothing.
Print Assumptions enforce_targets.
Print Assumptions enforce_provides_refuted.
