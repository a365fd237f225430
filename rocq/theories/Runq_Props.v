(** C24, C25, C26: the task execution engine, for every task graph, scheduler
    priority, answer of the outside world and order of worker reports. *)
From Coq Require Import List Bool ZArith Arith Lia.
From Verif Require Import Runq_Model Runq_Spec Runq_Proofs.
Import ListNotations.
Open Scope list_scope.

(** ** Facts about histories *)
Lemma ok_log_app c post h : ok_log c (post ++ h) -> ok_log c h.
Proof. induction post; cbn; tauto. Qed.

(** ** C24 *)
(** When a task is taken up, everything it depends on is finished already. *)
Theorem dependencies_first : forall c o es t e post pre,
  (0 <= threads c)%Z ->
  log (run c o es) = post ++ e :: pre -> takes_up t e ->
  forall d, In d (depends c t) -> finished pre d.
Proof.
  intros c o es t e post pre T E U d Hd. destruct (run_Good c o es T) as (I & _). destruct I.
  rewrite E in i_log. apply ok_log_app in i_log. cbn in i_log. destruct i_log as (_ & H & _). now apply (H t U).
Qed.
(** ... and so is everything they depend on, and so on. *)
Theorem dependencies_first_transitively : forall c o es t e post pre d,
  (0 <= threads c)%Z ->
  log (run c o es) = post ++ e :: pre -> takes_up t e -> needs c t d -> finished pre d.
Proof.
  intros c o es t e post pre d T E U N. revert e post pre E U.
  induction N as [t d H|t d x H N IH]; intros e post pre E U.
  - eapply dependencies_first; eauto.
  - assert (F : finished pre d) by (eapply dependencies_first; eauto).
    destruct (run_Good c o es T) as (I & _). destruct I.
    assert (O : ok_log c (e :: pre)) by (rewrite E in i_log; eapply ok_log_app; eauto). cbn in O. destruct O as (O & _ & _).
    assert (X : exists e', In e' pre /\ takes_up d e').
    { destruct F as [F|[F|[b F]]].
      - apply in_split in F. destruct F as (l1 & l2 & F). subst pre. apply ok_log_app in O. cbn in O.
        destruct O as (_ & _ & O). destruct (O d eq_refl) as [O1 _]. exists (Started d). split; [|left; auto].
        apply in_or_app. right; right; auto.
      - exists (Noexec d). split; auto. right; left; auto.
      - exists (Skipped d b). split; auto. right; right; eauto. }
    destruct X as (e' & X & Y). apply in_split in X. destruct X as (l1 & l2 & X). subst pre.
    assert (K : finished l2 x).
    { apply (IH e' (post ++ e :: l1) l2); auto. rewrite E, <- app_assoc. reflexivity. }
    change (l1 ++ e' :: l2) with (l1 ++ [e'] ++ l2). do 2 apply finished_mono. exact K.
Qed.
(** "Finished" is not an empty word: a task is reported successful only after it was
    started, and considered restored only if the cache delivered it or a setscene
    task that stands for it. *)
Theorem success_was_started : forall c o es t post pre,
  (0 <= threads c)%Z -> log (run c o es) = post ++ Succeeded t :: pre -> In (Started t) pre /\ ~ In (Succeeded t) pre.
Proof.
  intros c o es t post pre T E. destruct (run_Good c o es T) as (I & _). destruct I.
  rewrite E in i_log. apply ok_log_app in i_log. cbn in i_log. destruct i_log as (_ & _ & H). now apply H.
Qed.
Theorem restored_is_covered : forall c o es t,
  (0 <= threads c)%Z -> In (Skipped t true) (log (run c o es)) ->
  exists q, (q = t \/ In t (coveredby c q)) /\ restored (log (run c o es)) q.
Proof. intros c o es t T. destruct (run_Good c o es T) as (I & _). destruct I. apply i_skip. Qed.

(** ** C25 *)
(** Nothing that needs a failed task is ever taken up. *)
Theorem failure_blocks_dependents : forall c o es f t e,
  (0 <= threads c)%Z -> allowed c = None ->
  In (TaskFailed f) (log (run c o es)) -> needs c t f -> In e (log (run c o es)) -> ~ takes_up t e.
Proof.
  intros c o es f t e T AL F N He U. destruct (run_Good c o es T) as (I & _ & J). specialize (J AL).
  destruct I, J. destruct (a_failed f F) as (_ & NF & _). apply NF.
  assert (R : In t (running (run c o es))) by eauto. clear He U F NF. revert R.
  induction N as [t f H|t d f H N IH]; intros R.
  - exact (i_run t R f H).
  - apply IH. apply i_comp. exact (i_run t R d H).
Qed.
(** Without --continue nothing at all is taken up after a failure. *)
Theorem halt_starts_nothing : forall c o es post f pre e,
  halt c = true -> log (run c o es) = post ++ TaskFailed f :: pre -> In e post ->
  (forall t, ~ takes_up t e) /\ (forall t, e <> SceneStarted t).
Proof.
  intros c o es post f pre e H E He. destruct (run_HL c o es H) as [_ Q].
  specialize (Q post f pre E). rewrite Forall_forall in Q. specialize (Q e He). unfold ending, launches in Q.
  split; intros t X; apply Q; [left|right]; eauto.
Qed.
(** A build that is reported complete did everything. *)
Theorem complete_means_finished : forall c o es t,
  (0 <= threads c)%Z -> allowed c = None -> sceneonly c = false -> no_interrupt es ->
  rst (run c o es) = Complete -> In t (tasks c) -> finished (log (run c o es)) t.
Proof.
  intros c o es t T AL SO NI R Ht. destruct (run_CL c o es AL SO NI) as [_ H].
  destruct (run_Good c o es T) as (I & _). destruct I. auto.
Qed.
(** With --continue, the engine stops only when everything is finished but the
    failed tasks and those that need them.  What is missing: task names limited by
    number_threads (false of them: [number_threads_starves_refuted]), and the
    hypothesis that the setscene phase was concluded ([sqdone]). *)
Theorem continue_completes_partial : forall c o es o' t,
  sound_graph c -> (1 <= threads c)%Z -> allowed c = None -> sceneonly c = false -> (forall n, tlimit c n = None) ->
  rst (run c o es) = Running ->
  (rst (run c o (es ++ [Execute o'])) = Failed \/ rst (run c o (es ++ [Execute o'])) = Complete) ->
  sqdone (run c o (es ++ [Execute o'])) = true ->
  In t (tasks c) ->
  let h := log (run c o (es ++ [Execute o'])) in
  finished h t \/ In (TaskFailed t) h \/ exists f, needs c t f /\ In (TaskFailed f) h.
Proof.
  intros c o es o' t SG T AL SO TL R RR SD Ht.
  assert (G : Good c (run c o (es ++ [Execute o']))) by (apply run_Good; lia).
  assert (G0 : Good c (run c o es)) by (apply run_Good; lia).
  pose proof (run_SD c o es SG) as SD0.
  unfold run in *. rewrite fold_left_app in *. cbn [fold_left] in *. cbn [step] in *. rewrite R in *.
  destruct (execute_settled c o' _ AL TL T SG SO G0 SD0 R RR SD t Ht) as [X|[X|X]]; auto.
  left. destruct G as (I & _). destruct I. auto.
Qed.

(** ** C26 *)
(** No task is taken up twice. *)
Theorem taken_up_once : forall c o es t e e' post pre,
  (0 <= threads c)%Z -> log (run c o es) = post ++ e :: pre -> takes_up t e -> In e' pre -> ~ takes_up t e'.
Proof.
  intros c o es t e e' post pre T E U He. destruct (run_Good c o es T) as (I & _). destruct I.
  rewrite E in i_log. apply ok_log_app in i_log. cbn in i_log. destruct i_log as (_ & H & _). now apply (H t U).
Qed.
(** At no time are there more processes than BB_NUMBER_THREADS. *)
Theorem thread_limit : forall c o es,
  (0 <= threads c)%Z -> allowed c = None -> (0 <= processes (log (run c o es)) <= threads c)%Z.
Proof.
  intros c o es T AL. destruct (run_Good c o es T) as (_ & _ & J). destruct (J AL).
  rewrite a_proc. lia.
Qed.
(** At no time are there more tasks of a name executing than its number_threads flag says. *)
Theorem name_limit : forall c o es n k l,
  (0 <= threads c)%Z -> tlimit c n = Some k -> (1 <= k)%Z ->
  NoDup l -> (forall t, In t l -> tname c t = n /\ executing (log (run c o es)) t) ->
  (Z.of_nat (length l) <= k)%Z.
Proof.
  intros c o es n k l T L K ND H. destruct (run_Good c o es T) as (I & _).
  pose proof (i_names c _ I n k L K) as X.
  enough (length l <= held c (run c o es) n) by lia.
  unfold held. apply NoDup_incl_length; auto. intros t Ht. destruct (H t Ht) as (N & S & NS & NF).
  apply filter_In. rewrite diff_In. split; [|now apply Nat.eqb_eq].
  destruct I. split; [eapply i_up; [exact S|left; auto]|]. intros C. apply i_done in C.
  destruct C as [C|C]; [contradiction|].
  assert (exists e, In e (log (run c o es)) /\ takes_up t e /\ e <> Started t).
  { destruct C as [C|[b C]]; [exists (Noexec t)|exists (Skipped t b)]; split; auto; split; try discriminate; unfold takes_up; eauto. }
  destruct H0 as (e & E1 & E2 & E3).
  assert (Q : forall a b pre post, log (run c o es) = post ++ a :: pre -> In b pre -> takes_up t a -> takes_up t b -> False).
  { intros a b pre post E In1 Ua Ub. exact (taken_up_once c o es t a b post pre T E Ua In1 Ub). }
  apply in_split in S. destruct S as (l1 & l2 & S).
  assert (U : takes_up t (Started t)) by (left; auto).
  rewrite S in E1. apply in_app_or in E1. destruct E1 as [E1|[E1|E1]]; [|congruence|].
  - apply in_split in E1. destruct E1 as (m1 & m2 & E1). subst l1.
    apply (Q e (Started t) (m2 ++ Started t :: l2) m1); auto.
    + rewrite S, <- app_assoc. reflexivity.
    + apply in_or_app. right; left; auto.
  - apply (Q (Started t) e l2 l1); auto.
Qed.

(** ** Concrete cases *)
Definition quiet_world : oracle :=
  mkOracle false (fun _ => false) (fun _ => false) (fun _ => false) (fun _ => true) (fun _ => true) false (fun t => t) (fun _ => None).
(** 3 needs 1 and 2, which need 0; 4 is on its own.  Every task has a setscene
    variant except 3, the target, in [scened]. *)
Definition diamond (t : nat) : list nat := match t with 1 => [0] | 2 => [0] | 3 => [1; 2] | _ => [] end.
Definition plain (h : bool) : cfg :=
  mkCfg [0;1;2;3;4] diamond [] [3;4] (fun _ => false) 2%Z [0;1;2;3;4] (fun t => t) (fun _ => None)
        (fun t => t) (fun t => 100 + t) h None false false false (fun _ => []) (fun _ => []) (fun _ => []) (fun _ => []) (fun _ => []).
Definition ex := Execute quiet_world.
Definition fin t := WorkerDone t true quiet_world.
Definition bad t := WorkerDone t false quiet_world.
Example diamond_sound : forall h, sound_graph (plain h).
Proof.
  intros h. split.
  - intros t d H1 H2. cbn in *. repeat (destruct H1 as [<-|H1]; [cbn in H2; repeat (destruct H2 as [<-|H2]; auto 10); contradiction|]). contradiction.
  - exists (fun t => t). intros t d H1 H2. cbn in *. repeat (destruct H1 as [<-|H1]; [cbn in H2; repeat (destruct H2 as [<-|H2]; auto 10); contradiction|]). contradiction.
Qed.
(** a build that succeeds *)
Example plain_success :
  let s := run (plain true) quiet_world [ex; ex; ex; fin 4; fin 0; ex; ex; fin 2; ex; fin 1; ex; fin 3; ex; ex] in
  rst s = Complete /\
  log s = [Succeeded 3; Started 3; Succeeded 1; Succeeded 2; Started 2; Started 1; Succeeded 0; Succeeded 4; Started 4; Started 0].
Proof. vm_compute. auto. Qed.
(** 1 fails: with --continue 2 and 4 are still built, 3 is not, and the build fails *)
Example plain_continue :
  let es := [ex; ex; fin 0; ex; ex; bad 1; ex; fin 2; fin 4] in
  rst (run (plain false) quiet_world es) = Running /\
  let s := run (plain false) quiet_world (es ++ [ex]) in
  rst s = Failed /\ sqdone s = true /\
  log s = [Succeeded 4; Succeeded 2; Started 2; TaskFailed 1; Started 1; Succeeded 0; Started 4; Started 0].
Proof. vm_compute. repeat split. Qed.
(** the same without --continue: 2 is not started any more *)
Example plain_halt :
  let s := run (plain true) quiet_world [ex; ex; fin 0; ex; ex; bad 1; ex; ex; fin 4; ex; ex] in
  rst s = Failed /\ log s = [Succeeded 4; TaskFailed 1; Started 1; Succeeded 0; Started 4; Started 0].
Proof. vm_compute. repeat split. Qed.
(** Tasks 0 and 1 can be restored from the cache, 1 stands for 0; 2 needs 1, 3 needs 2.
    1 is delivered, 0 is then not needed, 2 and 3 run. *)
Definition chain (t : nat) : list nat := match t with 1 => [0] | 2 => [1] | 3 => [2] | _ => [] end.
Definition scened : cfg :=
  mkCfg [0;1;2;3] chain [0;1] [3] (fun _ => false) 2%Z [0;1;2;3] (fun t => t) (fun _ => None)
        (fun t => t) (fun t => 100 + t) false None false false false
        (fun t => match t with 1 => [0] | _ => [] end) (fun t => match t with 1 => [0] | _ => [] end)
        (fun t => match t with 0 => [1] | _ => [] end) (fun _ => []) (fun _ => []).
Example scened_restores :
  let s := run scened quiet_world [ex; fin 1; ex; ex; ex; ex; fin 2; ex; fin 3; ex] in
  rst s = Complete /\
  log s = [Succeeded 3; Started 3; Succeeded 2; Started 2; Skipped 1 true; Skipped 0 true; SceneSkip 0; SceneOk 1; SceneStarted 1].
Proof. vm_compute. repeat split. Qed.

(** ** Findings *)
(** C25 fails with number_threads: the engine counts a failed task as still running
    ([runq_running - runq_complete], runqueue.py 252), so with --continue an
    unrelated task of the same limited name is never run. *)
Definition limited : cfg :=
  mkCfg [0;1] (fun _ => []) [] [0;1] (fun _ => false) 2%Z [0;1] (fun _ => 7) (fun n => if Nat.eqb n 7 then Some 1%Z else None)
        (fun t => t) (fun t => 100 + t) false None false false false (fun _ => []) (fun _ => []) (fun _ => []) (fun _ => []) (fun _ => []).
Theorem number_threads_starves_refuted :
  ~ (forall c o es t, sound_graph c -> (1 <= threads c)%Z -> allowed c = None -> sceneonly c = false -> halt c = false ->
       scene c = [] -> no_interrupt es -> (forall n k, tlimit c n = Some k -> (1 <= k)%Z) ->
       rst (run c o es) = Failed -> In t (tasks c) ->
       let h := log (run c o es) in
       finished h t \/ In (TaskFailed t) h \/ exists f, needs c t f /\ In (TaskFailed f) h).
Proof.
  intros H.
  assert (L : log (run limited quiet_world [ex; bad 0; ex]) = [TaskFailed 0; Started 0]) by (vm_compute; reflexivity).
  assert (R : rst (run limited quiet_world [ex; bad 0; ex]) = Failed) by (vm_compute; reflexivity).
  specialize (H limited quiet_world [ex; bad 0; ex] 1). cbn zeta in H. rewrite L, R in H. clear L R.
  destruct H as [H|[H|(f & H & _)]]; auto.
  - split; [intros t d _ []|]. exists (fun _ => 0). intros t d _ [].
  - cbn. lia.
  - intros [H|[H|[H|[]]]]; discriminate.
  - intros n k. cbn. destruct (Nat.eqb n 7); [|discriminate]. intros E; injection E as <-. lia.
  - cbn. auto.
  - destruct H as [[H|[H|[]]]|[[H|[H|[]]]|[b [H|[H|[]]]]]]; discriminate.
  - destruct H as [H|[H|[]]]; discriminate.
  - inversion H as [? ? X|? ? ? X]; destruct X.
Qed.

(** C26 fails in setscene enforce mode (BB_SETSCENE_ENFORCE with a list of tasks to
    ignore): a refused task is "failed" without having been active (runqueue.py
    2318-2321 calls task_fail), so the count of active tasks drops below the truth.
    Task 1 is refused while 2 runs; then three tasks run with two threads. *)
Definition enforced : cfg :=
  mkCfg [1;2;3;4;5] (fun t => match t with 3 | 4 | 5 => [2] | _ => [] end) [] [1;3;4;5] (fun _ => false) 2%Z [2;3;4;5;1]
        (fun t => t) (fun _ => None) (fun t => t) (fun t => 100 + t) false (Some (fun t => negb (Nat.eqb t 1)))
        false false false (fun _ => []) (fun _ => []) (fun _ => []) (fun _ => []) (fun _ => []).
Theorem enforce_exceeds_threads_refuted :
  ~ (forall c o es l, (1 <= threads c)%Z -> NoDup l -> (forall t, In t l -> executing (log (run c o es)) t) ->
       (Z.of_nat (length l) <= threads c)%Z).
Proof.
  intros H.
  assert (L : log (run enforced quiet_world [ex; ex; fin 2; ex; ex; ex]) =
              [Started 5; Started 4; Started 3; Succeeded 2; TaskFailed 1; Started 2]) by (vm_compute; reflexivity).
  specialize (H enforced quiet_world [ex; ex; fin 2; ex; ex; ex] [3;4;5]). rewrite L in H. clear L.
  enough (3 <= 2)%Z by lia. apply H.
  - cbn. lia.
  - repeat constructor; cbn; intuition discriminate.
  - intros t Ht. unfold executing. cbn in *. intuition (try discriminate; try congruence; subst; auto 10).
Qed.
(** In the same mode with --continue the engine takes the refused task up again on
    every call: the build never ends, whatever the number of calls. *)
Definition stuck : cfg :=
  mkCfg [0] (fun _ => []) [] [0] (fun _ => false) 1%Z [0] (fun t => t) (fun _ => None) (fun t => t) (fun t => 100 + t)
        false (Some (fun _ => false)) false false false (fun _ => []) (fun _ => []) (fun _ => []) (fun _ => []) (fun _ => []).
Definition stuck_at (f : list nat) (a : Z) (l : list ev) : st :=
  mkSt [0] [0] [] [] [] f a [] [] [] [] [] [] [] [0] [] [0] [] false true [] [] [] [] (fun t => t) [] [] [] [] [] Running l.
Lemma stuck_again f a l : (a <= 0)%Z -> step stuck ex (stuck_at f a l) = stuck_at (f ++ [0]) (a - 1) (TaskFailed 0 :: l).
Proof.
  intros A. unfold step, ex. cbn [rst stuck_at]. unfold execute. cbn [sqdone stuck_at negb andb].
  unfold after_scene, update_holdoff. cbn [needupd stuck_at negb sqlive is_nil sqdone andb].
  unfold normal_part. cbn [sceneonly stuck]. unfold sched_next.
  assert (CS : can_start stuck (stuck_at f a l) = true).
  { unfold can_start. cbn. apply Z.ltb_lt. lia. }
  rewrite CS. unfold next_buildable. cbn [o_pressure quiet_world]. rewrite andb_false_r.
  reflexivity.
Qed.
Theorem enforce_never_ends_refuted :
  exists c o, sound_graph c /\ halt c = false /\
    forall n, rst (run c o (repeat ex n)) = Running /\ n <= S (length (log (run c o (repeat ex n)))).
Proof.
  exists stuck, quiet_world. split; [|split; [reflexivity|]].
  - split; [intros t d _ []|]. exists (fun _ => 0). intros t d _ [].
  - assert (I : step stuck ex (init stuck quiet_world) = stuck_at [0] (-1) [TaskFailed 0]) by (vm_compute; reflexivity).
    assert (K : forall n f a l, (a <= 0)%Z -> exists f' a' l',
              fold_left (fun s e => step stuck e s) (repeat ex n) (stuck_at f a l) = stuck_at f' a' l' /\ length l' = n + length l).
    { induction n as [|n IH]; intros f a l A; cbn [repeat fold_left]; [exists f, a, l; auto|].
      rewrite stuck_again by exact A. destruct (IH (f ++ [0]) (a - 1)%Z (TaskFailed 0 :: l)) as (f' & a' & l' & E & L); [lia|].
      exists f', a', l'. split; auto. rewrite L. cbn. lia. }
    assert (I0 : rst (init stuck quiet_world) = Running) by (vm_compute; reflexivity).
    intros n. unfold run. revert I I0. generalize (init stuck quiet_world). intros i0 I I0.
    destruct n as [|n]; [split; [exact I0|lia]|]. cbn [repeat fold_left]. rewrite I.
    destruct (K n [0] (-1)%Z [TaskFailed 0]) as (f' & a' & l' & E & L); [lia|]. rewrite E. cbn [rst log stuck_at].
    split; auto. rewrite L. cbn. lia.
Qed.

Print Assumptions dependencies_first.
Print Assumptions dependencies_first_transitively.
Print Assumptions success_was_started.
Print Assumptions restored_is_covered.
Print Assumptions failure_blocks_dependents.
Print Assumptions halt_starts_nothing.
Print Assumptions complete_means_finished.
Print Assumptions continue_completes_partial.
Print Assumptions taken_up_once.
Print Assumptions thread_limit.
Print Assumptions name_limit.
Print Assumptions number_threads_starves_refuted.
Print Assumptions enforce_exceeds_threads_refuted.
Print Assumptions enforce_never_ends_refuted.
