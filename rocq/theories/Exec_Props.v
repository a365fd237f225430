(** Execution of tasks: functions, events, stamps and lock files. *)
From Coq Require Import Ascii String List Bool Arith Lia.
From Verif Require Import Str_Model Str_Proofs Exec_Model Exec_Spec Exec_Proofs.
Import ListNotations.
Open Scope list_scope.

(** *** C158: a task and what is told about it *)

(** The functions run are the prefuncs, the task and the postfuncs, in this order, up to the
    first that raises an exception. *)
Theorem exec_order : forall flags verbose logged t faults r tr, run_task flags verbose logged t faults = (r, tr) ->
  exists k, ran tr = map (fun f => (f, None)) (firstn k (parts flags t)) \/
            exists f e, ran tr = map (fun f => (f, None)) (firstn k (parts flags t)) ++ [(f, Some e)] /\ nth_error (parts flags t) k = Some f.
Proof.
  intros flags verbose logged t faults r tr H. destruct (task_cases flags verbose logged t faults r tr H) as [(_ & o & -> & _)|[(_ & _ & -> & _)|(_ & _ & C)]].
  - exists 0. left. reflexivity.
  - exists 0. left. reflexivity.
  - destruct C as [(e & -> & _)|[(k & x & e0 & rest & e & NK & CA & _ & _ & C)|(l & o & -> & C)]].
    + exists 0. left. reflexivity.
    + assert (RT : ran tr = ran (well (firstn k (body flags t ++ [CloseLog])) ++ (x, Some e0) :: rest)).
      { destruct C as [(_ & -> & _)|(_ & o & ->)]; [reflexivity|]. cbn [app ran]. rewrite ran_app. apply app_nil_r. }
      rewrite RT. rewrite <- (runs_all flags t). destruct (ran_stop _ k x e0 rest NK CA) as [(n & ->)|(n & f & -> & NF)]; exists n; [left; reflexivity|right; exists f, e0; split; [reflexivity|exact NF]].
    + exists (length (parts flags t)). left. rewrite firstn_all. cbn [ran]. rewrite ran_app, ran_well, runs_all. assert (Z : ran l = []) by (destruct C as [[-> _]|[(_ & _ & [[-> _]|[-> _]])|(_ & -> & _)]]; reflexivity). rewrite Z. apply app_nil_r.
Qed.

(** The exit code is 0 exactly if the task exists, there is a place for its logs and nothing
    raised an exception.  Then all its functions were run, TaskStarted and TaskSucceeded were
    fired, and a stamp was made unless the task wants none. *)
Theorem exec_success : forall flags verbose logged t faults r tr, run_task flags verbose logged t faults = (r, tr) ->
  (exit_code r = 0 <-> t_valid t = true /\ t_temp t = true /\ all_well tr) /\
  (exit_code r = 0 -> map fst (ran tr) = parts flags t /\ fired tr = [Started; Succeeded] /\ (In Stamp (map fst tr) <-> t_nostamp t = false /\ t_selfstamp t = false)).
Proof.
  intros flags verbose logged t faults r tr H. destruct (task_cases flags verbose logged t faults r tr H) as [(V & o & -> & X)|[(V & T & -> & X)|(V & T & C)]].
  - rewrite X. split; [split; [discriminate|intros (Z & _); congruence]|discriminate].
  - rewrite X. split; [split; [discriminate|intros (_ & Z & _); congruence]|discriminate].
  - destruct C as [(e & -> & X)|[(k & x & e0 & rest & e & NK & CA & _ & X & C)|(l & o & -> & C)]].
    + rewrite X. split; [split; [discriminate|intros (_ & _ & Z); inversion Z; discriminate]|discriminate].
    + rewrite X. split; [split; [discriminate|]|discriminate]. intros (_ & _ & Z). exfalso. destruct C as [(_ & -> & _)|(_ & o & ->)].
      * revert Z. apply (not_well_stop ((Setup, None) :: well _)).
      * apply Forall_app in Z. destruct Z as [Z _]. revert Z. apply (not_well_stop ((Setup, None) :: well _)).
    + assert (WB : forall l, all_well ((Setup, None) :: well (body flags t ++ [CloseLog]) ++ l) <-> all_well l).
      { intro l0. split; [intro Z; apply Forall_inv_tail in Z; apply Forall_app in Z; exact (proj2 Z)|]. intro Z. constructor; [reflexivity|]. apply Forall_app. split; [apply all_well_well|exact Z]. }
      assert (NB : ~ In Stamp (map fst (well (body flags t ++ [CloseLog])))) by apply no_stamp_well.
      assert (RA : forall l, ran l = [] -> map fst (ran ((Setup, None) :: well (body flags t ++ [CloseLog]) ++ l)) = parts flags t) by (intros l0 Z; cbn [ran]; rewrite ran_app, ran_well, runs_all, Z, app_nil_r; apply fst_none).
      assert (FI : forall l, fired ((Setup, None) :: well (body flags t ++ [CloseLog]) ++ l) = Started :: fired l) by (intro l0; cbn [fired]; rewrite fired_app, fired_well, fires_all; reflexivity).
      rewrite WB. destruct C as [[-> X]|[(N1 & N2 & [[-> ->]|[-> X]])|(NS & -> & ->)]].
      * rewrite X. split; [split; [discriminate|intros (_ & _ & Z); inversion Z; discriminate]|discriminate].
      * split; [split; [intros _; split; [exact V|split; [exact T|repeat constructor]]|reflexivity]|]. intros _. split; [apply RA; reflexivity|]. split; [apply FI|]. split; [intros _; split; assumption|]. intros _. cbn [map fst]. rewrite map_app. right. apply in_or_app. right. right. left. reflexivity.
      * rewrite X. split; [split; [discriminate|intros (_ & _ & Z); inversion Z as [|? ? _ Z1]; inversion Z1; discriminate]|discriminate].
      * split; [split; [intros _; split; [exact V|split; [exact T|repeat constructor]]|reflexivity]|]. intros _. split; [apply RA; reflexivity|]. split; [apply FI|]. cbn [map fst]. rewrite map_app. split.
        -- intros [Z|Z]; [discriminate Z|]. apply in_app_iff in Z. destruct Z as [Z|[Z|[]]]; [exfalso; exact (NB Z)|discriminate Z].
        -- intros [A B]. rewrite A, B in NS. discriminate NS.
Qed.

(** A stamp is made last, after everything else went well. *)
Theorem exec_stamp : forall flags verbose logged t faults r tr, run_task flags verbose logged t faults = (r, tr) -> In Stamp (map fst tr) ->
  exists tr0 o, tr = tr0 ++ [(Stamp, o)] /\ all_well tr0 /\ map fst (ran tr0) = parts flags t /\ fired tr0 = [Started; Succeeded] /\ t_nostamp t = false /\ t_selfstamp t = false.
Proof.
  intros flags verbose logged t faults r tr H IS. destruct (task_cases flags verbose logged t faults r tr H) as [(V & o & -> & X)|[(V & T & -> & X)|(V & T & C)]].
  - destruct IS as [Z|[]]. discriminate Z.
  - destruct IS.
  - destruct C as [(e & -> & X)|[(k & x & e0 & rest & e & NK & CA & _ & X & C)|(l & o & -> & C)]].
    + destruct IS as [Z|[]]. discriminate Z.
    + exfalso. destruct C as [(_ & -> & _)|(_ & o & ->)]; [exact (calm_stamp flags t k x e0 rest NK CA IS)|]. rewrite map_app in IS. apply in_app_iff in IS. destruct IS as [Z|[Z|[]]]; [exact (calm_stamp flags t k x e0 rest NK CA Z)|discriminate Z].
    + assert (NB : ~ In Stamp (map fst (well (body flags t ++ [CloseLog])))) by apply no_stamp_well.
      assert (G : forall o', t_nostamp t = false -> t_selfstamp t = false -> exists tr0 o0, (Setup, None) :: well (body flags t ++ [CloseLog]) ++ [(Fire Succeeded, None); (Stamp, o')] = tr0 ++ [(Stamp, o0)] /\ all_well tr0 /\ map fst (ran tr0) = parts flags t /\ fired tr0 = [Started; Succeeded] /\ t_nostamp t = false /\ t_selfstamp t = false).
      { intros o' N1 N2. exists ((Setup, None) :: well (body flags t ++ [CloseLog]) ++ [(Fire Succeeded, None)]), o'. split; [cbn [app]; rewrite <- app_assoc; reflexivity|]. split; [constructor; [reflexivity|apply Forall_app; split; [apply all_well_well|repeat constructor]]|]. cbn [ran fired]. rewrite ran_app, ran_well, runs_all, fired_app, fired_well, fires_all. cbn [ran fired]. rewrite app_nil_r, fst_none. repeat (split; [first [reflexivity|assumption]|]). exact N2. }
      destruct C as [[-> _]|[(N1 & N2 & [[-> _]|[-> _]])|(_ & -> & _)]]; [exfalso|exact (G None N1 N2)|exact (G (Some o) N1 N2)|exfalso]; cbn [map fst] in IS; rewrite map_app in IS; destruct IS as [Z|IS]; try discriminate Z; apply in_app_iff in IS; destruct IS as [Z|[Z|[]]]; try discriminate Z; exact (NB Z).
Qed.

(** The events: TaskInvalid for what is no task; otherwise, if the preparations go well and
    nobody kills it, TaskStarted and exactly one of TaskSucceeded, TaskFailed and
    TaskFailedSilent (with the flag quieterrors), TaskSucceeded exactly if all functions were
    run and nothing before it raised an exception. *)
Theorem exec_events : forall flags verbose logged t faults r tr, run_task flags verbose logged t faults = (r, tr) -> t_temp t = true ->
  if t_valid t then
    (exists e, tr = [(Setup, Some e)]) \/ (r = Raise Killed /\ fired tr = [Started]) \/
    (exists tr0 o rest, tr = (Setup, None) :: tr0 ++ (Fire Succeeded, o) :: rest /\ all_well tr0 /\ map fst (ran tr0) = parts flags t /\ fired tr = [Started; Succeeded]) \/
    (exists tr0 o b, tr = tr0 ++ [(Fire (if t_quiet t then FailedSilent else Failed b), o)] /\ ~ all_well tr0 /\ fired tr0 = [Started] /\ exit_code r = 1)
  else fired tr = [Invalid] /\ ran tr = [] /\ exit_code r = 1.
Proof.
  intros flags verbose logged t faults r tr H TE. destruct (task_cases flags verbose logged t faults r tr H) as [(V & o & -> & X)|[(V & T & -> & X)|(V & T & C)]]; [rewrite V; repeat split; exact X|congruence|]. rewrite V.
  destruct C as [(e & -> & X)|[(k & x & e0 & rest & e & NK & CA & _ & X & C)|(l & o & -> & C)]].
  - left. exists e. reflexivity.
  - destruct C as [(K & -> & ->)|(_ & o & ->)].
    + right. left. destruct e; try discriminate K. split; [reflexivity|]. exact (fired_stop flags t k x e0 rest NK CA).
    + right. right. right. exists ((Setup, None) :: well (firstn k (body flags t ++ [CloseLog])) ++ (x, Some e0) :: rest), o, (logged || verbose || is_handled e). split; [reflexivity|]. split; [apply (not_well_stop ((Setup, None) :: well _))|]. split; [exact (fired_stop flags t k x e0 rest NK CA)|exact X].
  - right. right. left. assert (G : exists o0 rest, l = (Fire Succeeded, o0) :: rest /\ fired rest = []) by (destruct C as [[-> _]|[(_ & _ & [[-> _]|[-> _]])|(_ & -> & _)]]; eexists; eexists; (split; [reflexivity|reflexivity])).
    destruct G as (o0 & rest & -> & FR). exists (well (body flags t ++ [CloseLog])), o0, rest. split; [reflexivity|]. split; [apply all_well_well|]. split; [rewrite ran_well, runs_all; apply fst_none|]. cbn [fired]. rewrite fired_app, fired_well, fires_all. cbn [fired app]. rewrite FR. reflexivity.
Qed.

(** *** C159: a function *)

(** It is run only after its cleandirs were emptied, its directories made and its lock files
    taken, in this order, in the last of its directories; whatever it raises, its lock files
    are released. *)
Theorem func_order : forall flags name faults r s, exec_func flags name (mkSt [] faults) = (r, s) ->
  let f := flags name in
  let before := flat_map (fun d => [Remove d; Mkdir d]) (fl_cleandirs f) ++ map Mkdir (fl_dirs f) ++ [Prepare name] ++ map Acquire (fl_locks f) in
  let cwd := match rev (fl_dirs f) with d :: _ => Some d | [] => None end in
  (ran (log s) = [] \/ exists o after, log s = map (fun i => (i, None)) before ++ (Run name cwd, o) :: after /\
     (all_well after -> after = map (fun l => (Release l, None)) (fl_locks f)) /\ exists k, map fst after = firstn k (map Release (fl_locks f))) /\
  (r = None -> all_well (log s) /\ (has_body f = true -> ran (log s) = [(name, None)])) /\ (all_well (log s) -> r = None).
Proof.
  intros flags name faults r s H f before cwd. assert (CW : cwd = last_dir (fl_dirs f)).
  { unfold cwd, last_dir. destruct (fl_dirs f) as [|d l] eqn:E; [reflexivity|]. rewrite <- E. assert (NE : fl_dirs f <> []) by congruence. rewrite (app_removelast_last [] NE) at 1. rewrite rev_app_distr. reflexivity. }
  rewrite CW. clear CW cwd. destruct (follows_func flags name (mkSt [] faults)) as (r' & s' & tr & E & LG & R). rewrite H in E. injection E as <- <-. cbn [log app] in LG. unfold script in R. fold f in R. destruct (has_body f) eqn:HB.
  2: { assert (NR : runs (flat_map (fun d => [Remove d; Mkdir d]) (fl_cleandirs f) ++ map Mkdir (fl_dirs f) ++ []) = []) by (pose proof (runs_script flags name) as Z; unfold script in Z; fold f in Z; rewrite HB in Z; exact Z).
       assert (RN : ran (log s) = []).
       { rewrite LG. destruct r as [e|]; [|rewrite R, ran_well, NR; reflexivity]. destruct R as (k & x & e0 & rest & NK & -> & C & _). destruct (ran_stop _ k x e0 rest NK C) as [(n & ->)|(n & g & _ & Z)]; [rewrite NR, firstn_nil; reflexivity|]. rewrite NR in Z. destruct n; discriminate Z. }
       split; [left; exact RN|]. split; [intros ->; rewrite LG, R; split; [apply all_well_well|discriminate]|]. rewrite LG. intro W. destruct r as [e|]; [|reflexivity]. exfalso. destruct R as (k & x & e0 & rest & _ & -> & _ & _). exact (not_well_stop _ _ _ _ W). }
  destruct (func_tail flags name faults r s HB H) as [RN|(o & after & LO & WA & PR)].
  - split; [left; exact RN|]. split.
    + intros ->. exfalso. rewrite LG, R, ran_well in RN. rewrite !runs_app in RN. apply map_eq_nil in RN. apply app_eq_nil in RN. destruct RN as [_ RN]. apply app_eq_nil in RN. destruct RN as [_ RN]. cbn [runs app] in RN. apply app_eq_nil in RN. destruct RN as [_ RN]. discriminate RN.
    + rewrite LG. intro W. destruct r as [e|]; [|reflexivity]. exfalso. destruct R as (k & x & e0 & rest & _ & -> & _ & _). exact (not_well_stop _ _ _ _ W).
  - split; [right; exists o, after; split; [exact LO|split; [exact WA|exact PR]]|]. split.
    + intros ->. rewrite LG, R. split; [apply all_well_well|]. intros _. rewrite ran_well. pose proof (runs_script flags name) as Z. unfold script in Z. fold f in Z. rewrite HB in Z. rewrite Z. reflexivity.
    + rewrite LG. intro W. destruct r as [e|]; [|reflexivity]. exfalso. destruct R as (k & x & e0 & rest & _ & -> & _ & _). exact (not_well_stop _ _ _ _ W).
Qed.

(** *** C160: lock files of tasks *)
(** Two tasks that run at the same time have no lock file in common. *)
Theorem locks_exclusive : forall l ts i j a b f, lock_reach l ts -> nth_error ts i = Some (a, Running) -> nth_error ts j = Some (b, Running) -> In f a -> In f b -> i = j.
Proof. intros l ts i j a b f R A B IA IB. exact (proj1 (reach_inv l ts R) i j (a, Running) (b, Running) f A B IA IB). Qed.
(** If every list of lock files follows one common order, and names no file twice, there is
    no deadlock: when nothing can go on, all tasks are done. *)
Theorem locks_finish : forall rank l ts, (forall files, In files l -> ordered rank files) -> lock_reach l ts -> (forall i, lock_step ts i = None) -> all_done ts.
Proof.
  intros rank l ts O R ST. apply (stuck_done rank ts); [|exact ST]. intros t I. apply O. rewrite <- (proj2 (proj2 (reach_inv l ts R))). apply in_map. exact I.
Qed.
(** Every task does one step per lock file and two more; so every schedule ends. *)
Theorem locks_end : forall l is ts, steps (lock_start l) is = Some ts -> length is <= list_sum (map (fun files => length files + 2) l).
Proof.
  intros l is ts H. destruct (steps_reach l is _ ts (reach_start l) H) as [_ LE]. assert (E : left (lock_start l) = list_sum (map (fun files => length files + 2) l)).
  { unfold left, lock_start. rewrite map_map. f_equal. apply map_ext. intro x. cbn. lia. }
  lia.
Qed.

(** *** A case *)
Definition demo_flags (f : str) : func :=
  if seqb f (s_ "do_build") then mkFunc [s_ "/w/build"] [s_ "/w"; s_ "/w/build"] [s_ "/l/a"; s_ "/l/b"] true
  else if seqb f (s_ "pre") then mkFunc [] [] [] true else if seqb f (s_ "post") then mkFunc [] [s_ "/p"] [] true else mkFunc [] [] [] false.
Definition demo_task : task := mkTask (s_ "do_build") true true [s_ "pre"] [s_ "post"] false false false.
Example demo_exec_well : let '(r, tr) := run_task demo_flags false false demo_task [] in r = Ret 0 /\ map fst (ran tr) = [s_ "pre"; s_ "do_build"; s_ "post"] /\ fired tr = [Started; Succeeded] /\ In Stamp (map fst tr) /\ length tr = 20.
Proof. vm_compute. repeat split. do 19 right. left. reflexivity. Qed.
Example demo_exec_failed : let '(r, tr) := run_task demo_flags false false demo_task (repeat None 11 ++ [Some Handled]) in r = Ret 1 /\ ran tr = [(s_ "pre", None); (s_ "do_build", Some Handled)] /\ fired tr = [Started; Failed true] /\
  skipn 12 tr = [(Release (s_ "/l/a"), None); (Release (s_ "/l/b"), None); (CloseLog, None); (Fire (Failed true), None)].
Proof. vm_compute. repeat split. Qed.
Example demo_exec_killed : let '(r, tr) := run_task demo_flags false false demo_task (repeat None 11 ++ [Some Killed]) in r = Raise Killed /\ fired tr = [Started].
Proof. vm_compute. repeat split. Qed.
Definition demo_rank (f : str) : nat := length f.
Example demo_locks : (forall files, In files [[s_ "a"; s_ "bb"]; [s_ "a"; s_ "ccc"]; []] -> ordered demo_rank files) /\
  exists ts, steps (lock_start [[s_ "a"; s_ "bb"]; [s_ "a"; s_ "ccc"]; []]) [0; 2; 0; 2; 0; 0; 1; 1; 1; 1] = Some ts /\ all_done ts.
Proof.
  split.
  - intros files [<-|[<-|[<-|[]]]] i j a b L A B; destruct i as [|[|i]], j as [|[|j]]; cbn in A, B; try lia; try discriminate; try (injection A as <-; injection B as <-; vm_compute; lia); try (destruct i; discriminate); try (destruct j; discriminate).
  - eexists. split; [vm_compute; reflexivity|]. repeat constructor.
Qed.

(** *** What does not hold *)
(** A task whose preparations fail (no log file, an invalid nice level) is to be reported by
    TaskFailed.  The event is built with too few arguments: no event is fired, and exec_task,
    which is there to catch exceptions, raises one. *)
Theorem exec_early_refuted : exists flags t faults, t_valid t = true /\ t_temp t = true /\ t_quiet t = false /\ let '(r, tr) := run_task flags false false t faults in r = Raise Error /\ fired tr = [] /\ tr = [(Setup, Some Handled)].
Proof. exists demo_flags, demo_task, [Some Handled]. vm_compute. repeat split. Qed.
(** A task can be reported as succeeded and fail: the stamp is written after the event. *)
Theorem exec_late_refuted : exists flags t faults, let '(r, tr) := run_task flags false false t faults in fired tr = [Started; Succeeded] /\ exit_code r = 1.
Proof. exists demo_flags, demo_task, (repeat None 19 ++ [Some Error]). vm_compute. split; reflexivity. Qed.
(** A prefunc that does not exist does not make the task fail. *)
Theorem exec_missing_refuted : exists flags t f, In f (t_pre t) /\ has_body (flags f) = false /\ let '(r, tr) := run_task flags false false t [] in exit_code r = 0 /\ ~ In f (map fst (ran tr)).
Proof.
  exists demo_flags, (mkTask (s_ "do_build") true true [s_ "prefunc_mispelled"] [] false false false), (s_ "prefunc_mispelled"). split; [left; reflexivity|]. split; [reflexivity|]. vm_compute. split; [reflexivity|]. intros [H|[]]. discriminate H.
Qed.
(** Two tasks that list two lock files in different order can wait for each other for ever;
    a task that lists a file twice waits for itself. *)
Theorem locks_cycle_refuted : exists l ts, lock_reach l ts /\ (forall i, lock_step ts i = None) /\ ~ all_done ts.
Proof.
  exists [[s_ "a"; s_ "b"]; [s_ "b"; s_ "a"]]. exists [([s_ "a"; s_ "b"], Waiting 1); ([s_ "b"; s_ "a"], Waiting 1)]. split; [apply (reach_step _ [([s_ "a"; s_ "b"], Waiting 1); ([s_ "b"; s_ "a"], Waiting 0)] 1); [apply (reach_step _ _ 0 _ (reach_start _))|]; vm_compute; reflexivity|]. split.
  - intros [|[|i]]; [vm_compute; reflexivity|vm_compute; reflexivity|]. unfold lock_step. cbn. destruct i; reflexivity.
  - intro H. inversion H. discriminate.
Qed.
Theorem locks_twice_refuted : exists files ts, lock_reach [files] ts /\ (forall i, lock_step ts i = None) /\ ~ all_done ts.
Proof.
  exists [s_ "a"; s_ "a"]. exists [([s_ "a"; s_ "a"], Waiting 1)]. split; [apply (reach_step _ _ 0 _ (reach_start _)); vm_compute; reflexivity|]. split.
  - intros [|i]; [vm_compute; reflexivity|]. unfold lock_step. cbn. destruct i; reflexivity.
  - intro H. inversion H. discriminate.
Qed.
Print Assumptions exec_order.
Print Assumptions exec_success.
Print Assumptions exec_stamp.
Print Assumptions exec_events.
Print Assumptions func_order.
Print Assumptions locks_exclusive.
Print Assumptions locks_finish.
Print Assumptions locks_end.
