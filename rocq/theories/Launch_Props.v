(** C192: a function called for many items, each in its own process. *)
From Coq Require Import Ascii String List Bool Arith Lia Permutation.
From Verif Require Import Str_Model Launch_Model Launch_Spec Launch_Proofs.
Import ListNotations.
Open Scope list_scope.

(** C192: whatever the order in which the processes end, if the call returns, then no item raised an exception and the answer
    holds the results (that are not empty) of all the items, each once. *)
Theorem launch_results : forall max out l sched r, launch max out l sched = Results r ->
  Permutation r (values out l) /\ (forall i e, In i l -> out i <> Raised e) /\ Permutation l (starts (trace (after max out l sched))).
Proof.
  intros max out l sched r. unfold launch. destruct (good_after max out l sched) as [A B C D _ _ _]. set (s := after max out l sched) in *. clearbody s. destruct (busy s) eqn:BU; [discriminate|]. destruct (errors s) as [|e es] eqn:E; [|discriminate]. intro H. injection H as <-.
  unfold busy in BU. apply orb_false_iff in BU. destruct BU as [B1 B2]. rewrite E, andb_true_r in B1. assert (I0 : items s = []) by (destruct (items s); [reflexivity|discriminate]). assert (L0 : launched s = []) by (destruct (launched s); [reflexivity|discriminate]).
  rewrite I0 in A. rewrite L0 in B. cbn [app] in A, B. assert (P : Permutation l (ends (trace s))) by (now transitivity (starts (trace s))). split; [|split; [|exact A]].
  - rewrite C. apply values_perm. now symmetry.
  - intros i x I O. assert (X : In x (exceptions out (ends (trace s)))) by (apply exceptions_in; exists i; split; [apply (Permutation_in _ P); exact I|exact O]). rewrite <- D in X. destruct X.
Qed.
(** C192: if it ends with an error, the error names exactly the exceptions of what was started, of which there is one at least. *)
Theorem launch_fatal : forall max out l sched es, launch max out l sched = Fatal es ->
  es <> [] /\ (forall e, In e es <-> exists i, In i (starts (trace (after max out l sched))) /\ out i = Raised e).
Proof.
  intros max out l sched r. unfold launch. destruct (good_after max out l sched) as [A B C D _ _ _]. set (s := after max out l sched) in *. clearbody s. destruct (busy s) eqn:BU; [discriminate|]. destruct (errors s) as [|x es] eqn:E; [discriminate|]. intro H. injection H as <-. split; [discriminate|].
  unfold busy in BU. apply orb_false_iff in BU. destruct BU as [_ B2]. assert (L0 : launched s = []) by (destruct (launched s); [reflexivity|discriminate]). rewrite L0 in B. cbn [app] in B.
  intro e. rewrite D, exceptions_in. split; intros (i & I & O); exists i; (split; [|exact O]); [apply (Permutation_in _ (Permutation_sym B)); exact I|apply (Permutation_in _ B); exact I].
Qed.
(** C192: at no time are more processes running than allowed. *)
Theorem launch_bound : forall max out l sched a b, trace (after max out l sched) = a ++ b -> length (starts a) <= max + length (ends a).
Proof. intros max out l sched a b E. destruct (good_after max out l sched) as [_ _ _ _ _ _ G]. exact (G a b E). Qed.
(** C192: nothing is started that was not asked for, or more often than asked for; what ends has been started; and when the call
    ends every process has ended. *)
Theorem launch_once : forall max out l sched, let t := trace (after max out l sched) in
  (exists rest, Permutation l (rest ++ starts t)) /\ (exists open_, Permutation (starts t) (open_ ++ ends t) /\ (launch max out l sched <> Running -> open_ = [])).
Proof.
  intros max out l sched. cbv zeta. unfold launch. destruct (good_after max out l sched) as [A B _ _ _ _ _]. set (s := after max out l sched) in *. clearbody s. split; [exists (items s); exact A|]. exists (launched s). split; [exact B|].
  destruct (busy s) eqn:BU; [congruence|]. intros _. unfold busy in BU. apply orb_false_iff in BU. destruct BU as [_ B2]. destruct (launched s); [reflexivity|discriminate].
Qed.
(** C192: once an exception has been seen nothing more is started. *)
Theorem launch_stops : forall max out l sched a i b, trace (after max out l sched) = a ++ Start i :: b -> forall j e, In j (ends a) -> out j <> Raised e.
Proof.
  intros max out l sched a i b E j e J O. destruct (good_after max out l sched) as [_ _ _ _ _ G _]. assert (X : In e (exceptions out (ends a))) by (apply exceptions_in; eauto). rewrite (G a i b E) in X. destruct X.
Qed.
(** C192: if at least one process is allowed, the call ends: from any point, after as many turns as there are items, if in each turn the
    process that was started first is found to have ended. *)
Theorem launch_ends : forall max out l sched more, 0 < max -> (forall alive, In alive more -> exists r, alive = false :: r) -> length l <= length more ->
  launch max out l (sched ++ more) <> Running.
Proof.
  intros max out l sched more M F L. unfold launch, after. rewrite turns_app. destruct (good_after max out l sched) as [A B _ _ _ _ _]. unfold after in *. set (s := turns max out sched _) in *. clearbody s.
  rewrite (turns_finish max out more M F s). { destruct (errors _); discriminate. }
  apply Permutation_length in A, B. rewrite !app_length in A, B. unfold weight. cbn in B. unfold str in *. lia.
Qed.
(** C192 is violated in two places.  A process that is killed, and says nothing, passes for one without a result: the call returns. *)
Theorem launch_killed_refuted : ~ (forall max out l sched r, launch max out l sched = Results r -> forall i, In i l -> exists v, out i = Returned v).
Proof.
  intro H. destruct (H 1 (fun _ => Silent) [s_ "a"] [[false]] [] eq_refl (s_ "a") (or_introl eq_refl)) as [v E]. discriminate.
Qed.
(** And with BB_NUMBER_THREADS = "0" nothing is ever started, and the call never ends. *)
Theorem launch_zero_refuted : forall out l sched, l <> [] -> launch 0 out l sched = Running.
Proof.
  intros out l sched N. unfold launch, after. assert (T : forall s, items s = l -> launched s = [] -> errors s = [] -> busy (turns 0 out sched s) = true); [|now rewrite T].
  induction sched as [|a sched IH]; intros s I L E; cbn [turns].
  - unfold busy. rewrite I, L, E. destruct l; [congruence|reflexivity].
  - assert (B : busy s = true) by (unfold busy; rewrite I, L, E; destruct l; [congruence|reflexivity]). rewrite B. unfold turn. assert (S : start 0 s = s) by (unfold start; rewrite andb_false_r; reflexivity). rewrite S, L. cbn [visit]. apply IH; auto.
Qed.

(** ** The hypotheses are met *)
Definition ex_out (i : str) : outcome := if seqb i (s_ "bad") then Raised (s_ "oops") else if seqb i (s_ "none") then Returned [] else Returned (i ++ s_ "!").
Example launch_example : launch 2 ex_out [s_ "a"; s_ "none"; s_ "b"; s_ "c"] [[]; [true; true]; [false]; [true; false]; [false; false]; [false]; [false]] = Results [s_ "c!"; s_ "b!"; s_ "a!"].
Proof. vm_compute. reflexivity. Qed.
Example launch_fatal_example : launch 2 ex_out [s_ "a"; s_ "b"; s_ "bad"; s_ "c"] [[]; [true; false]; [false]; [false]] = Fatal [s_ "oops"] /\
  trace (after 2 ex_out [s_ "a"; s_ "b"; s_ "bad"; s_ "c"] [[]; [true; false]; [false]; [false]]) = [Start (s_ "c"); Start (s_ "bad"); End (s_ "bad"); End (s_ "c")].
Proof. vm_compute. auto. Qed.

Print Assumptions launch_results.
Print Assumptions launch_fatal.
Print Assumptions launch_bound.
Print Assumptions launch_once.
Print Assumptions launch_stops.
Print Assumptions launch_ends.
Print Assumptions launch_killed_refuted.
Print Assumptions launch_zero_refuted.
