(** Model of the task execution engine of bitbake/lib/bb/runqueue.py: the
    classes RunQueueScheduler (next_buildable_task) and RunQueueExecute, and
    the functions build_scenequeue_data (the part about unskippable tasks) and
    update_scenequeue_data.

    A task id is a number; a Python set is a list without repetition.  The task
    graph, the collapsed setscene graph and the configuration are arbitrary
    parameters ([cfg]).  Everything the engine asks the outside world during
    one call is an arbitrary answer ([oracle]): stamp files on disk, pressure
    and load, which cached objects are valid, what the metadata's depvalidate
    hook says, which task hashes changed.  Worker processes report in any order.

    Not modelled: events fired to the UI, log output, the stamp cache, hash
    values, the data sent to a worker, a fakeroot worker that cannot be
    spawned, dry runs. *)
From Coq Require Import List Bool ZArith Arith.
Import ListNotations.
Open Scope list_scope.

(** Python sets as lists *)
Definition mem (x : nat) (l : list nat) : bool := existsb (Nat.eqb x) l.
Definition add (x : nat) (l : list nat) : list nat := if mem x l then l else x :: l.
Definition del (x : nat) (l : list nat) : list nat := filter (fun y => negb (Nat.eqb x y)) l.
Definition union (a b : list nat) : list nat := fold_left (fun acc x => add x acc) b a.
Definition diff (a b : list nat) : list nat := filter (fun x => negb (mem x b)) a.
Definition inter (a b : list nat) : list nat := filter (fun x => mem x b) a.
Definition subset (a b : list nat) : bool := forallb (fun x => mem x b) a.
Definition is_nil {A} (l : list A) : bool := match l with [] => true | _ => false end.
(** dictionaries *)
Definition dget (k : nat) (l : list (nat * nat)) : option nat :=
  match find (fun p => Nat.eqb (fst p) k) l with Some p => Some (snd p) | None => None end.
Definition ddel (k : nat) (l : list (nat * nat)) : list (nat * nat) :=
  filter (fun p => negb (Nat.eqb (fst p) k)) l.
Definition dset (k v : nat) (l : list (nat * nat)) : list (nat * nat) :=
  match dget k l with
  | Some _ => map (fun p => if Nat.eqb (fst p) k then (k, v) else p) l
  | None => l ++ [(k, v)]
  end.
(** stamp in self.build_stamps.values() *)
Definition stamp_busy (x : nat) (l : list (nat * nat)) : bool := existsb (fun p => Nat.eqb (snd p) x) l.

(** runqueue.py 127-134 *)
Inductive rqstate := Running | CleanUp | Failed | Complete.

(** What an observer of the build sees happen to a task. *)
Inductive ev :=
  | Started (t : nat)                 (* handed to a worker: sceneless task *)
  | Noexec (t : nat)                  (* task without code: done at once *)
  | Skipped (t : nat) (covered : bool)(* restored from cache (true) or stamp current (false) *)
  | Succeeded (t : nat)               (* the worker reported exit code 0 *)
  | TaskFailed (t : nat)              (* the worker reported another exit code, or the task was refused *)
  | SceneStarted (t : nat)
  | SceneOk (t : nat)                 (* restored from the cache *)
  | SceneFailed (t : nat)
  | SceneSkip (t : nat).              (* considered restored without running its setscene variant *)

Record cfg := mkCfg {
  tasks : list nat;             (* runtaskentries *)
  depends : nat -> list nat;    (* runtaskentries[t].depends *)
  scene : list nat;             (* runq_setscene_tids, in sorted order *)
  targets : list nat;           (* target_tids *)
  noexec : nat -> bool;         (* taskname in taskdep['noexec'] *)
  threads : Z;                  (* BB_NUMBER_THREADS *)
  prio : list nat;              (* scheduler prio_map *)
  tname : nat -> nat;           (* taskname_from_tid *)
  tlimit : nat -> option Z;     (* the number_threads flag of a task name *)
  stampf : nat -> nat;          (* stamp file of a task *)
  stampq : nat -> nat;          (* stamp file of its setscene variant *)
  halt : bool;                  (* taskData.halt, i.e. no --continue *)
  allowed : option (nat -> bool); (* setscene_ignore_tasks: the tasks it lets through *)
  force : bool; skipscene : bool; sceneonly : bool;
  coveredby : nat -> list nat;  (* sq_covered_tasks *)
  sqdeps : nat -> list nat;     (* sq_deps *)
  sqrev : nat -> list nat;      (* sq_revdeps *)
  harddeps : nat -> list nat;   (* sq_harddeps *)
  hardrev : nat -> list nat     (* sq_harddeps_rev *)
}.

Record oracle := mkOracle {
  o_pressure : bool;            (* exceeds_max_pressure *)
  o_stamp : nat -> bool;        (* check_stamp_task(t, taskname) *)
  o_stamprec : nat -> bool;     (* check_stamp_task(t, taskname, recurse=True) *)
  o_scstamp : nat -> bool;      (* check_stamp_task(t, taskname_setscene) *)
  o_valid : nat -> bool;        (* validate_hashes *)
  o_depvalid : nat -> bool;     (* check_dependencies *)
  o_hashq : bool;               (* updated_taskhash_queue is not empty *)
  o_newstamp : nat -> nat;      (* stamp of a setscene task after rehashing *)
  o_defer : nat -> option nat   (* the task with the same pending hash, if another *)
}.

(** runqueue.py 1827-1903: the attributes of RunQueueExecute *)
Record st := mkSt {
  buildable : list nat; (* runq_buildable *)
  sbuild : list nat; (* RunQueueScheduler.buildable *)
  running : list nat; (* runq_running *)
  complete : list nat; (* runq_complete *)
  tasksrun : list nat; (* runq_tasksrun *)
  failed : list nat; (* failed_tids *)
  active : Z; (* stats.active *)
  live : list nat; (* ghost: tasks handed to a worker and not reported back *)
  sqb : list nat; (* sq_buildable *)
  sqr : list nat; (* sq_running *)
  sqlive : list nat; (* sq_live *)
  sccov : list nat; (* scenequeue_covered *)
  scnot : list nat; (* scenequeue_notcovered *)
  notneeded : list nat; (* scenequeue_notneeded *)
  tsdone : list nat; (* tasks_scenequeue_done *)
  tcov : list nat; (* tasks_covered *)
  tnot : list nat; (* tasks_notcovered *)
  holdoff : list nat; (* holdoff_tasks *)
  needupd : bool; (* holdoff_need_update *)
  sqdone : bool; (* sqdone *)
  deferred : list (nat * nat); (* sq_deferred *)
  needhard : list nat; (* sq_needed_harddeps *)
  harddef : list nat; (* sq_harddep_deferred *)
  bstamps : list (nat * nat); (* build_stamps *)
  sqstamp : nat -> nat; (* sqdata.stamps *)
  outright : list nat; (* sqdata.outrightfail *)
  sqvalid : list nat; (* sqdata.valid *)
  sqnoexec : list nat; (* sqdata.noexec *)
  stamped : list nat; (* sqdata.stamppresent *)
  pending : list nat; (* pending_migrations *)
  rst : rqstate; (* rq.state *)
  log : list ev (* ghost: what happened, latest first *)
}.
Definition set_buildable (x : list nat) (s : st) : st := mkSt x (sbuild s) (running s) (complete s) (tasksrun s) (failed s) (active s) (live s) (sqb s) (sqr s) (sqlive s) (sccov s) (scnot s) (notneeded s) (tsdone s) (tcov s) (tnot s) (holdoff s) (needupd s) (sqdone s) (deferred s) (needhard s) (harddef s) (bstamps s) (sqstamp s) (outright s) (sqvalid s) (sqnoexec s) (stamped s) (pending s) (rst s) (log s).
Definition set_sbuild (x : list nat) (s : st) : st := mkSt (buildable s) x (running s) (complete s) (tasksrun s) (failed s) (active s) (live s) (sqb s) (sqr s) (sqlive s) (sccov s) (scnot s) (notneeded s) (tsdone s) (tcov s) (tnot s) (holdoff s) (needupd s) (sqdone s) (deferred s) (needhard s) (harddef s) (bstamps s) (sqstamp s) (outright s) (sqvalid s) (sqnoexec s) (stamped s) (pending s) (rst s) (log s).
Definition set_running (x : list nat) (s : st) : st := mkSt (buildable s) (sbuild s) x (complete s) (tasksrun s) (failed s) (active s) (live s) (sqb s) (sqr s) (sqlive s) (sccov s) (scnot s) (notneeded s) (tsdone s) (tcov s) (tnot s) (holdoff s) (needupd s) (sqdone s) (deferred s) (needhard s) (harddef s) (bstamps s) (sqstamp s) (outright s) (sqvalid s) (sqnoexec s) (stamped s) (pending s) (rst s) (log s).
Definition set_complete (x : list nat) (s : st) : st := mkSt (buildable s) (sbuild s) (running s) x (tasksrun s) (failed s) (active s) (live s) (sqb s) (sqr s) (sqlive s) (sccov s) (scnot s) (notneeded s) (tsdone s) (tcov s) (tnot s) (holdoff s) (needupd s) (sqdone s) (deferred s) (needhard s) (harddef s) (bstamps s) (sqstamp s) (outright s) (sqvalid s) (sqnoexec s) (stamped s) (pending s) (rst s) (log s).
Definition set_tasksrun (x : list nat) (s : st) : st := mkSt (buildable s) (sbuild s) (running s) (complete s) x (failed s) (active s) (live s) (sqb s) (sqr s) (sqlive s) (sccov s) (scnot s) (notneeded s) (tsdone s) (tcov s) (tnot s) (holdoff s) (needupd s) (sqdone s) (deferred s) (needhard s) (harddef s) (bstamps s) (sqstamp s) (outright s) (sqvalid s) (sqnoexec s) (stamped s) (pending s) (rst s) (log s).
Definition set_failed (x : list nat) (s : st) : st := mkSt (buildable s) (sbuild s) (running s) (complete s) (tasksrun s) x (active s) (live s) (sqb s) (sqr s) (sqlive s) (sccov s) (scnot s) (notneeded s) (tsdone s) (tcov s) (tnot s) (holdoff s) (needupd s) (sqdone s) (deferred s) (needhard s) (harddef s) (bstamps s) (sqstamp s) (outright s) (sqvalid s) (sqnoexec s) (stamped s) (pending s) (rst s) (log s).
Definition set_active (x : Z) (s : st) : st := mkSt (buildable s) (sbuild s) (running s) (complete s) (tasksrun s) (failed s) x (live s) (sqb s) (sqr s) (sqlive s) (sccov s) (scnot s) (notneeded s) (tsdone s) (tcov s) (tnot s) (holdoff s) (needupd s) (sqdone s) (deferred s) (needhard s) (harddef s) (bstamps s) (sqstamp s) (outright s) (sqvalid s) (sqnoexec s) (stamped s) (pending s) (rst s) (log s).
Definition set_live (x : list nat) (s : st) : st := mkSt (buildable s) (sbuild s) (running s) (complete s) (tasksrun s) (failed s) (active s) x (sqb s) (sqr s) (sqlive s) (sccov s) (scnot s) (notneeded s) (tsdone s) (tcov s) (tnot s) (holdoff s) (needupd s) (sqdone s) (deferred s) (needhard s) (harddef s) (bstamps s) (sqstamp s) (outright s) (sqvalid s) (sqnoexec s) (stamped s) (pending s) (rst s) (log s).
Definition set_sqb (x : list nat) (s : st) : st := mkSt (buildable s) (sbuild s) (running s) (complete s) (tasksrun s) (failed s) (active s) (live s) x (sqr s) (sqlive s) (sccov s) (scnot s) (notneeded s) (tsdone s) (tcov s) (tnot s) (holdoff s) (needupd s) (sqdone s) (deferred s) (needhard s) (harddef s) (bstamps s) (sqstamp s) (outright s) (sqvalid s) (sqnoexec s) (stamped s) (pending s) (rst s) (log s).
Definition set_sqr (x : list nat) (s : st) : st := mkSt (buildable s) (sbuild s) (running s) (complete s) (tasksrun s) (failed s) (active s) (live s) (sqb s) x (sqlive s) (sccov s) (scnot s) (notneeded s) (tsdone s) (tcov s) (tnot s) (holdoff s) (needupd s) (sqdone s) (deferred s) (needhard s) (harddef s) (bstamps s) (sqstamp s) (outright s) (sqvalid s) (sqnoexec s) (stamped s) (pending s) (rst s) (log s).
Definition set_sqlive (x : list nat) (s : st) : st := mkSt (buildable s) (sbuild s) (running s) (complete s) (tasksrun s) (failed s) (active s) (live s) (sqb s) (sqr s) x (sccov s) (scnot s) (notneeded s) (tsdone s) (tcov s) (tnot s) (holdoff s) (needupd s) (sqdone s) (deferred s) (needhard s) (harddef s) (bstamps s) (sqstamp s) (outright s) (sqvalid s) (sqnoexec s) (stamped s) (pending s) (rst s) (log s).
Definition set_sccov (x : list nat) (s : st) : st := mkSt (buildable s) (sbuild s) (running s) (complete s) (tasksrun s) (failed s) (active s) (live s) (sqb s) (sqr s) (sqlive s) x (scnot s) (notneeded s) (tsdone s) (tcov s) (tnot s) (holdoff s) (needupd s) (sqdone s) (deferred s) (needhard s) (harddef s) (bstamps s) (sqstamp s) (outright s) (sqvalid s) (sqnoexec s) (stamped s) (pending s) (rst s) (log s).
Definition set_scnot (x : list nat) (s : st) : st := mkSt (buildable s) (sbuild s) (running s) (complete s) (tasksrun s) (failed s) (active s) (live s) (sqb s) (sqr s) (sqlive s) (sccov s) x (notneeded s) (tsdone s) (tcov s) (tnot s) (holdoff s) (needupd s) (sqdone s) (deferred s) (needhard s) (harddef s) (bstamps s) (sqstamp s) (outright s) (sqvalid s) (sqnoexec s) (stamped s) (pending s) (rst s) (log s).
Definition set_notneeded (x : list nat) (s : st) : st := mkSt (buildable s) (sbuild s) (running s) (complete s) (tasksrun s) (failed s) (active s) (live s) (sqb s) (sqr s) (sqlive s) (sccov s) (scnot s) x (tsdone s) (tcov s) (tnot s) (holdoff s) (needupd s) (sqdone s) (deferred s) (needhard s) (harddef s) (bstamps s) (sqstamp s) (outright s) (sqvalid s) (sqnoexec s) (stamped s) (pending s) (rst s) (log s).
Definition set_tsdone (x : list nat) (s : st) : st := mkSt (buildable s) (sbuild s) (running s) (complete s) (tasksrun s) (failed s) (active s) (live s) (sqb s) (sqr s) (sqlive s) (sccov s) (scnot s) (notneeded s) x (tcov s) (tnot s) (holdoff s) (needupd s) (sqdone s) (deferred s) (needhard s) (harddef s) (bstamps s) (sqstamp s) (outright s) (sqvalid s) (sqnoexec s) (stamped s) (pending s) (rst s) (log s).
Definition set_tcov (x : list nat) (s : st) : st := mkSt (buildable s) (sbuild s) (running s) (complete s) (tasksrun s) (failed s) (active s) (live s) (sqb s) (sqr s) (sqlive s) (sccov s) (scnot s) (notneeded s) (tsdone s) x (tnot s) (holdoff s) (needupd s) (sqdone s) (deferred s) (needhard s) (harddef s) (bstamps s) (sqstamp s) (outright s) (sqvalid s) (sqnoexec s) (stamped s) (pending s) (rst s) (log s).
Definition set_tnot (x : list nat) (s : st) : st := mkSt (buildable s) (sbuild s) (running s) (complete s) (tasksrun s) (failed s) (active s) (live s) (sqb s) (sqr s) (sqlive s) (sccov s) (scnot s) (notneeded s) (tsdone s) (tcov s) x (holdoff s) (needupd s) (sqdone s) (deferred s) (needhard s) (harddef s) (bstamps s) (sqstamp s) (outright s) (sqvalid s) (sqnoexec s) (stamped s) (pending s) (rst s) (log s).
Definition set_holdoff (x : list nat) (s : st) : st := mkSt (buildable s) (sbuild s) (running s) (complete s) (tasksrun s) (failed s) (active s) (live s) (sqb s) (sqr s) (sqlive s) (sccov s) (scnot s) (notneeded s) (tsdone s) (tcov s) (tnot s) x (needupd s) (sqdone s) (deferred s) (needhard s) (harddef s) (bstamps s) (sqstamp s) (outright s) (sqvalid s) (sqnoexec s) (stamped s) (pending s) (rst s) (log s).
Definition set_needupd (x : bool) (s : st) : st := mkSt (buildable s) (sbuild s) (running s) (complete s) (tasksrun s) (failed s) (active s) (live s) (sqb s) (sqr s) (sqlive s) (sccov s) (scnot s) (notneeded s) (tsdone s) (tcov s) (tnot s) (holdoff s) x (sqdone s) (deferred s) (needhard s) (harddef s) (bstamps s) (sqstamp s) (outright s) (sqvalid s) (sqnoexec s) (stamped s) (pending s) (rst s) (log s).
Definition set_sqdone (x : bool) (s : st) : st := mkSt (buildable s) (sbuild s) (running s) (complete s) (tasksrun s) (failed s) (active s) (live s) (sqb s) (sqr s) (sqlive s) (sccov s) (scnot s) (notneeded s) (tsdone s) (tcov s) (tnot s) (holdoff s) (needupd s) x (deferred s) (needhard s) (harddef s) (bstamps s) (sqstamp s) (outright s) (sqvalid s) (sqnoexec s) (stamped s) (pending s) (rst s) (log s).
Definition set_deferred (x : list (nat * nat)) (s : st) : st := mkSt (buildable s) (sbuild s) (running s) (complete s) (tasksrun s) (failed s) (active s) (live s) (sqb s) (sqr s) (sqlive s) (sccov s) (scnot s) (notneeded s) (tsdone s) (tcov s) (tnot s) (holdoff s) (needupd s) (sqdone s) x (needhard s) (harddef s) (bstamps s) (sqstamp s) (outright s) (sqvalid s) (sqnoexec s) (stamped s) (pending s) (rst s) (log s).
Definition set_needhard (x : list nat) (s : st) : st := mkSt (buildable s) (sbuild s) (running s) (complete s) (tasksrun s) (failed s) (active s) (live s) (sqb s) (sqr s) (sqlive s) (sccov s) (scnot s) (notneeded s) (tsdone s) (tcov s) (tnot s) (holdoff s) (needupd s) (sqdone s) (deferred s) x (harddef s) (bstamps s) (sqstamp s) (outright s) (sqvalid s) (sqnoexec s) (stamped s) (pending s) (rst s) (log s).
Definition set_harddef (x : list nat) (s : st) : st := mkSt (buildable s) (sbuild s) (running s) (complete s) (tasksrun s) (failed s) (active s) (live s) (sqb s) (sqr s) (sqlive s) (sccov s) (scnot s) (notneeded s) (tsdone s) (tcov s) (tnot s) (holdoff s) (needupd s) (sqdone s) (deferred s) (needhard s) x (bstamps s) (sqstamp s) (outright s) (sqvalid s) (sqnoexec s) (stamped s) (pending s) (rst s) (log s).
Definition set_bstamps (x : list (nat * nat)) (s : st) : st := mkSt (buildable s) (sbuild s) (running s) (complete s) (tasksrun s) (failed s) (active s) (live s) (sqb s) (sqr s) (sqlive s) (sccov s) (scnot s) (notneeded s) (tsdone s) (tcov s) (tnot s) (holdoff s) (needupd s) (sqdone s) (deferred s) (needhard s) (harddef s) x (sqstamp s) (outright s) (sqvalid s) (sqnoexec s) (stamped s) (pending s) (rst s) (log s).
Definition set_sqstamp (x : nat -> nat) (s : st) : st := mkSt (buildable s) (sbuild s) (running s) (complete s) (tasksrun s) (failed s) (active s) (live s) (sqb s) (sqr s) (sqlive s) (sccov s) (scnot s) (notneeded s) (tsdone s) (tcov s) (tnot s) (holdoff s) (needupd s) (sqdone s) (deferred s) (needhard s) (harddef s) (bstamps s) x (outright s) (sqvalid s) (sqnoexec s) (stamped s) (pending s) (rst s) (log s).
Definition set_outright (x : list nat) (s : st) : st := mkSt (buildable s) (sbuild s) (running s) (complete s) (tasksrun s) (failed s) (active s) (live s) (sqb s) (sqr s) (sqlive s) (sccov s) (scnot s) (notneeded s) (tsdone s) (tcov s) (tnot s) (holdoff s) (needupd s) (sqdone s) (deferred s) (needhard s) (harddef s) (bstamps s) (sqstamp s) x (sqvalid s) (sqnoexec s) (stamped s) (pending s) (rst s) (log s).
Definition set_sqvalid (x : list nat) (s : st) : st := mkSt (buildable s) (sbuild s) (running s) (complete s) (tasksrun s) (failed s) (active s) (live s) (sqb s) (sqr s) (sqlive s) (sccov s) (scnot s) (notneeded s) (tsdone s) (tcov s) (tnot s) (holdoff s) (needupd s) (sqdone s) (deferred s) (needhard s) (harddef s) (bstamps s) (sqstamp s) (outright s) x (sqnoexec s) (stamped s) (pending s) (rst s) (log s).
Definition set_sqnoexec (x : list nat) (s : st) : st := mkSt (buildable s) (sbuild s) (running s) (complete s) (tasksrun s) (failed s) (active s) (live s) (sqb s) (sqr s) (sqlive s) (sccov s) (scnot s) (notneeded s) (tsdone s) (tcov s) (tnot s) (holdoff s) (needupd s) (sqdone s) (deferred s) (needhard s) (harddef s) (bstamps s) (sqstamp s) (outright s) (sqvalid s) x (stamped s) (pending s) (rst s) (log s).
Definition set_stamped (x : list nat) (s : st) : st := mkSt (buildable s) (sbuild s) (running s) (complete s) (tasksrun s) (failed s) (active s) (live s) (sqb s) (sqr s) (sqlive s) (sccov s) (scnot s) (notneeded s) (tsdone s) (tcov s) (tnot s) (holdoff s) (needupd s) (sqdone s) (deferred s) (needhard s) (harddef s) (bstamps s) (sqstamp s) (outright s) (sqvalid s) (sqnoexec s) x (pending s) (rst s) (log s).
Definition set_pending (x : list nat) (s : st) : st := mkSt (buildable s) (sbuild s) (running s) (complete s) (tasksrun s) (failed s) (active s) (live s) (sqb s) (sqr s) (sqlive s) (sccov s) (scnot s) (notneeded s) (tsdone s) (tcov s) (tnot s) (holdoff s) (needupd s) (sqdone s) (deferred s) (needhard s) (harddef s) (bstamps s) (sqstamp s) (outright s) (sqvalid s) (sqnoexec s) (stamped s) x (rst s) (log s).
Definition set_rst (x : rqstate) (s : st) : st := mkSt (buildable s) (sbuild s) (running s) (complete s) (tasksrun s) (failed s) (active s) (live s) (sqb s) (sqr s) (sqlive s) (sccov s) (scnot s) (notneeded s) (tsdone s) (tcov s) (tnot s) (holdoff s) (needupd s) (sqdone s) (deferred s) (needhard s) (harddef s) (bstamps s) (sqstamp s) (outright s) (sqvalid s) (sqnoexec s) (stamped s) (pending s) x (log s).
Definition set_log (x : list ev) (s : st) : st := mkSt (buildable s) (sbuild s) (running s) (complete s) (tasksrun s) (failed s) (active s) (live s) (sqb s) (sqr s) (sqlive s) (sccov s) (scnot s) (notneeded s) (tsdone s) (tcov s) (tnot s) (holdoff s) (needupd s) (sqdone s) (deferred s) (needhard s) (harddef s) (bstamps s) (sqstamp s) (outright s) (sqvalid s) (sqnoexec s) (stamped s) (pending s) (rst s) x.

Section Engine.
Variable c : cfg.

(** runtaskentries[t].revdeps *)
Definition revdeps (t : nat) : list nat := filter (fun r => mem t (depends c r)) (tasks c).

Definition emit (e : ev) (s : st) : st := set_log (e :: log s) s.

(** 2041-2043 *)
Definition setbuildable (t : nat) (s : st) : st :=
  set_sbuild (add t (sbuild s)) (set_buildable (add t (buildable s)) s).

(** 2015-2018 *)
Definition can_start (s : st) : bool := Z.ltb (active s + Z.of_nat (length (sqlive s))) (threads c).

Definition processed (s : st) (t : nat) : bool := mem t (sccov s) || mem t (scnot s).

(** 3053-3072, for the outcome "noexec or stamppresent" *)
Definition scene_stamps (o : oracle) (t : nat) : bool := noexec c t || o_scstamp o t || o_stamprec o t.

(** 2719-2732: tasks below [next] that the setscene code is done with; [fuel]
    bounds the rounds of the while loop, each of which reaches new tasks *)
Definition mark_round (next done : list nat) : list nat * list nat :=
  fold_left (fun '(done, new) t =>
    let done := add t done in
    (done, fold_left (fun new d =>
       if mem d (scene c) || mem d done then new
       else if subset (revdeps d) done then add d new else new) (depends c t) new))
    next (done, []).
Fixpoint mark_done (fuel : nat) (next done : list nat) : list nat :=
  match fuel with
  | O => done
  | S f => match next with
           | [] => done
           | _ => let '(done', new) := mark_round next done in mark_done f new done'
           end
  end.

(** 2714-2742, the part of scenequeue_updatecounters after the hard dependencies *)
Definition counters_tail (t : nat) (s : st) : st :=
  let s := set_sqb (fold_left (fun b d => if forallb (processed s) (sqrev c d) then add d b else b)
                      (sqdeps c t) (sqb s)) s in
  let s := set_tsdone (mark_done (S (length (tasks c))) [t] (tsdone s)) s in
  let s := if is_nil (harddeps c t) then s
           else set_harddef (filter (fun d => negb (forallb (processed s) (hardrev c d))) (harddef s)) s in
  set_needupd true s.

(** 2774-2778 sq_task_failoutright with 2702-2713 of scenequeue_updatecounters
    (fail=True).  [fuel] bounds the recursion along hard dependencies; a task is
    marked as not covered before the recursion, so the depth is at most the
    number of setscene tasks. *)
Fixpoint failoutright (fuel : nat) (o : oracle) (t : nat) (s : st) : st :=
  let s := set_scnot (add t (scnot s)) (set_sqb (add t (sqb s)) (set_sqr (add t (sqr s)) s)) in
  match fuel with
  | O => s
  | S f =>
    let s := fold_left (fun s d =>
               if processed s d then s else if scene_stamps o d then s else failoutright f o d s)
               (harddeps c t) s in
    counters_tail t s
  end.
Definition sq_fuel : nat := S (length (scene c)).

(** 2744-2752 *)
Definition sq_completeoutright (t : nat) (s : st) : st := counters_tail t (set_sccov (add t (sccov s)) s).

(** 2780-2783 *)
Definition sq_skip (t : nat) (s : st) : st :=
  sq_completeoutright t (emit (SceneSkip t) (set_sqb (add t (sqb s)) (set_sqr (add t (sqr s)) s))).

(** 2768-2772 sq_task_fail and 2754-2762 sq_check_taskfail *)
Definition sq_fail (o : oracle) (t : nat) (s : st) : st :=
  let s := emit (SceneFailed t) (set_scnot (add t (scnot s)) s) in
  let s := fold_left (fun s d =>
             if processed s d then s else if scene_stamps o d then s else failoutright sq_fuel o d s)
             (harddeps c t) s in
  let s := counters_tail t s in
  match allowed c with
  | Some ok => if ok t then s else set_rst CleanUp s
  | None => s
  end.

(** 2764-2766 *)
Definition sq_complete (t : nat) (s : st) : st := sq_completeoutright t (emit (SceneOk t) s).

(** 3074-3118 *)
Definition update_scene_data (o : oracle) (tids : list nat) (s : st) : st :=
  let '(s, tocheck) := fold_left (fun '(s, tocheck) t =>
      let s := set_outright (del t (outright s)) (set_sqvalid (del t (sqvalid s)) (set_stamped (del t (stamped s)) s)) in
      if noexec c t then (sq_skip t (set_sqnoexec (add t (sqnoexec s)) s), tocheck)
      else if o_scstamp o t || o_stamprec o t then (sq_skip t (set_stamped (add t (stamped s)) s), tocheck)
      else (s, t :: tocheck)) tids (s, []) in
  let s := set_sqvalid (union (sqvalid s) (filter (o_valid o) tocheck)) s in
  fold_left (fun s t =>
    if mem t (stamped s) || mem t (sqvalid s) || mem t (sqnoexec s) || processed s t
       || (match dget t (deferred s) with Some _ => true | None => false end)
    then s else set_outright (add t (outright s)) s) tids s.

(** 2066-2078: after [t] completed, let the next setscene task deferred on it run
    (only setscene tasks are ever deferred, and [scene] is in sorted order) *)
Definition undefer (o : oracle) (t : nat) (s : st) : st :=
  snd (fold_left (fun '(found, s) d =>
         match dget d (deferred s) with
         | Some b =>
           if Nat.eqb b t then
             match found with
             | None => (Some d, update_scene_data o [d] (set_deferred (ddel d (deferred s)) s))
             | Some f => (found, set_deferred (dset d f (deferred s)) s)
             end
           else (found, s)
         | None => (found, s)
         end) (scene c) (None, s)).

(** 2045-2078 *)
Definition completeoutright (o : oracle) (t : nat) (s : st) : st :=
  let s := set_complete (add t (complete s)) s in
  let s := fold_left (fun s r =>
             if mem r (running s) then s
             else if mem r (buildable s) then s
             else if subset (depends c r) (complete s) then setbuildable r s else s)
             (revdeps t) s in
  undefer o t s.

(** 2080-2084 task_complete, with RunQueueStats.taskCompleted (112-114) *)
Definition task_complete (o : oracle) (t : nat) (s : st) : st :=
  let s := set_active (active s - 1)%Z s in
  let s := completeoutright o t s in
  set_tasksrun (add t (tasksrun s)) s.

(** 2086-2112 task_fail, with RunQueueStats.taskFailed (108-110) *)
Definition task_fail (t : nat) (s : st) : st :=
  let s := emit (TaskFailed t) (set_failed (failed s ++ [t]) (set_active (active s - 1)%Z s)) in
  if halt c then set_rst CleanUp s else s.

(** 2114-2120; taskSkipped and taskCompleted (112-118) cancel out in active *)
Definition task_skip (o : oracle) (t : nat) (covered : bool) (s : st) : st :=
  let s := emit (Skipped t covered) (set_running (add t (running s)) s) in
  completeoutright o t (setbuildable t s).

(** 1936-1955 runqueue_process_waitpid *)
Definition waitpid (o : oracle) (t : nat) (ok : bool) (s : st) : st :=
  let s := set_bstamps (ddel t (bstamps s)) s in
  if mem t (sqlive s) then
    let s := if ok then sq_complete t s else sq_fail o t s in
    set_sqlive (del t (sqlive s)) s
  else
    let s := set_live (del t (live s)) s in
    if ok then task_complete o t (emit (Succeeded t) s) else task_fail t s.

(** 2875-2878 *)
Definition cantskip : list nat := inter (diff (targets c) (scene c)) (tasks c).
(** 2940-2960: closed downwards, but not through setscene tasks; one round per
    iteration of the while loop, which adds at least one task *)
Definition unskippable_round (u : list nat) : list nat :=
  fold_left (fun acc t => if mem t (scene c) then acc else union acc (depends c t)) u u.
Fixpoint iterate (n : nat) (f : list nat -> list nat) (u : list nat) : list nat :=
  match n with O => u | S m => iterate m f (f u) end.
Definition unskippable : list nat :=
  iterate (length (tasks c)) unskippable_round
    (union (filter (fun t => is_nil (revdeps t)) (tasks c)) cantskip).

(** 2478-2483 and 2485-2489 *)
Definition notcovered_of (s : st) : list nat :=
  inter (union (fold_left (fun acc t => union acc (coveredby c t)) (scnot s) (union (scnot s) cantskip))
                (diff unskippable (scene c))) (tsdone s).
Definition covered_of (s : st) : list nat :=
  inter (diff (fold_left (fun acc t => union acc (coveredby c t)) (sccov s) (sccov s)) (notcovered_of s)) (tsdone s).
(** 2500-2509 *)
Definition holdoff_of (s : st) : list nat :=
  let h := filter (fun t => negb (processed s t)) (scene c) in
  fold_left (fun acc t => fold_left (fun acc d => if mem d (complete s) then acc else add d acc) (coveredby c t) acc) h h.

(** 2473-2511 update_holdofftasks *)
Definition update_holdoff (s : st) : st :=
  if negb (needupd s) then s else
  let nc := notcovered_of s in
  let cv := covered_of s in
  let s := fold_left (fun s t => if subset (depends c t) (complete s) then setbuildable t s else s) (union nc cv) s in
  let s := set_tnot nc (set_tcov cv s) in
  set_needupd false (set_holdoff (holdoff_of s) s).

(** 2122-2164 summarise_scenequeue_errors *)
Definition scene_errors (o : oracle) (s : st) : bool :=
  negb (is_nil (deferred s)) || o_hashq o || negb (is_nil (holdoff s))
  || negb (forallb (fun t => processed s t && mem t (sqb s) && mem t (sqr s)) (scene c))
  || negb (forallb (fun t => (mem t (tcov s) || mem t (tnot s)) && mem t (tsdone s)
                             && (negb (is_nil (depends c t)) || mem t (buildable s))) (tasks c)).

(** position in prio_map (275-279); a task that is not in the map sorts last
    (in the code: KeyError; the "speed" and "completion" maps hold every task) *)
Fixpoint index (t : nat) (l : list nat) : nat :=
  match l with [] => O | x :: l' => if Nat.eqb x t then O else S (index t l') end.
(** 252-264: running tasks of the same name *)
Definition too_many (s : st) (t : nat) : bool :=
  match tlimit c (tname c t) with
  | None => false
  | Some n =>
    let k := length (filter (fun r => Nat.eqb (tname c r) (tname c t)) (diff (running s) (complete s))) in
    negb (Nat.eqb k 0) && Z.leb n (Z.of_nat k)
  end.
(** 235-294 next_buildable_task; the branch for a single candidate (266-273)
    gives what the general loop gives *)
Definition candidates (s : st) : list nat :=
  filter (fun t => mem t (tcov s) || mem t (tnot s)) (diff (sbuild s) (holdoff s)).
Definition next_buildable (o : oracle) (s : st) : option nat :=
  if negb (Z.eqb (active s) 0) && o_pressure o then None else
  fold_left (fun best t =>
    match best with
    | Some b => if Nat.ltb (index t (prio c)) (index b (prio c))
                then (if too_many s t || stamp_busy (stampf c t) (bstamps s) then best else Some t)
                else best
    | None => if too_many s t || stamp_busy (stampf c t) (bstamps s) then None else Some t
    end) (candidates s) None.
(** 296-301 next, and 240 *)
Definition sched_next (o : oracle) (s : st) : option nat * st :=
  if can_start s then
    let s := set_sbuild (diff (sbuild s) (running s)) s in (next_buildable o s, s)
  else (None, s).

(** 2180-2228: choice of the next setscene task.  [Return]: execute returned. *)
Inductive scan_result := Return (s : st) | Go (t : option nat) (s : st).
Fixpoint scan (o : oracle) (l : list nat) (s : st) : scan_result :=
  match l with
  | [] => Go None s
  | t :: l' =>
    if mem t (sqb s) && negb (mem t (sqr s)) && negb (stamp_busy (sqstamp s t) (bstamps s)) && negb (mem t (harddef s)) then
      if negb (mem t unskippable) && negb (is_nil (sqrev c t)) && negb (mem t (needhard s))
         && subset (sqrev c t) (sccov s) && o_depvalid o t && negb (mem t (targets c)) then
        let s := sq_skip t s in
        Return (set_deferred (ddel t (deferred s)) (set_notneeded (add t (notneeded s)) s))
      else if negb (forallb (processed s) (hardrev c t)) then
        let new := filter (fun d => negb (mem d (needhard s))) (hardrev c t) in
        let s := set_sqb (union (sqb s) new) (set_needhard (union (needhard s) new) s) in
        let s := set_harddef (add t (harddef s)) s in
        if is_nil new then scan o l' s else Return s
      else
        (* 2208-2211: the loop over covered running tasks has no effect *)
        match dget t (deferred s) with
        | Some b =>
          if negb (mem b (complete s)) then scan o l' s
          else
            let s := set_deferred (ddel t (deferred s)) s in
            if negb (o_valid o t) then Return (failoutright sq_fuel o t s)
            else if mem t (outright s) then Return (failoutright sq_fuel o t s)
            else Go (Some t) s
        | None =>
          if mem t (outright s) then Return (failoutright sq_fuel o t s) else Go (Some t) s
        end
    else scan o l' s
  end.

(** 2229-2287: try to start the setscene task; [None]: fall through *)
Definition scene_start (o : oracle) (t : nat) (s : st) : st * bool :=
  if o_stamprec o t then (failoutright sq_fuel o t s, true)
  else if force c && mem t (targets c) then (failoutright sq_fuel o t s, true)
  else if o_scstamp o t then (sq_skip t s, true)
  else if skipscene c then (failoutright sq_fuel o t s, true)
  else
    let s := set_bstamps (dset t (stampq c t) (bstamps s)) s in
    let s := emit (SceneStarted t) (set_sqlive (add t (sqlive s)) (set_sqr (add t (sqr s)) s)) in
    (s, can_start s).

(** 2824-2849 check_setscene_ignore_tasks *)
Definition refused (o : oracle) (t : nat) (s : st) : bool :=
  match allowed c with
  | None => false
  | Some ok => negb (mem t (tcov s)) && negb (o_stamp o t) && negb (noexec c t) && negb (ok t)
  end.

(** 2387-2425: nothing could be started *)
Definition wind_down (o : oracle) (s : st) : st :=
  if Z.ltb 0 (active s) || negb (is_nil (sqlive s)) then s
  else match deferred s with
  | _ :: rest => set_deferred rest s
  | [] =>
    if negb (is_nil (failed s)) then set_rst Failed s
    else if scene_errors o s
            || negb (forallb (fun t => mem t (buildable s) && mem t (running s) && mem t (complete s)) (tasks c))
    then set_rst Failed s
    else set_rst Complete s
  end.

(** 2310-2386: start, skip or finish the task the scheduler chose *)
Definition run_task (o : oracle) (t : nat) (s : st) : st :=
  if refused o t s then task_fail t s
  else if mem t (tcov s) then task_skip o t true s
  else if o_stamp o t then
    let s := task_skip o t false s in set_tasksrun (add t (tasksrun s)) s
  else if noexec c t then
    task_complete o t (emit (Noexec t) (set_active (active s + 1)%Z (set_running (add t (running s)) s)))
  else
    let s := set_bstamps (dset t (stampf c t) (bstamps s)) s in
    let s := emit (Started t) (set_live (add t (live s)) (set_running (add t (running s)) (set_active (active s + 1)%Z s))) in
    if can_start s then s else wind_down o s.

(** 2308-2316 and on *)
Definition normal_part (o : oracle) (s : st) : st :=
  if sceneonly c then wind_down o s
  else match sched_next o s with
       | (Some t, s) => run_task o t s
       | (None, s) => wind_down o s
       end.

(** 2289-2307 *)
Definition after_scene (o : oracle) (s : st) : st :=
  let s := update_holdoff s in
  if is_nil (sqlive s) && negb (sqdone s) && is_nil (deferred s) && negb (o_hashq o) && is_nil (holdoff s) then
    if scene_errors o s then set_rst Failed s
    else if sceneonly c then set_rst Complete s
    else
      let s := set_sqdone true s in
      if is_nil (tasks c) then set_rst Complete s else normal_part o s
  else normal_part o s.

(** 2166-2425 execute, without the read_workers and migration calls, which are
    events of their own below *)
Definition execute (o : oracle) (s : st) : st :=
  if negb (sqdone s) && can_start s then
    match scan o (scene c) s with
    | Return s => s
    | Go None s => after_scene o s
    | Go (Some t) s =>
      match scene_start o t s with
      | (s, true) => s
      | (s, false) => after_scene o s
      end
    end
  else after_scene o s.

(** 2601-2652: one pending migration.  [inl]: go on, [inr]: the build is halted *)
Definition migrate_one (o : oracle) (t : nat) (s : st) : (st * bool) + st :=
  if mem t (running s) || mem t (sqlive s) then inl (set_pending (del t (pending s)) s, false)
  else if existsb (fun d => mem d (running s) && negb (mem d (complete s))) (coveredby c t) then inl (s, false)
  else
    let s := set_pending (del t (pending s)) s in
    let s := set_tsdone (del t (tsdone s)) s in
    if existsb (fun d => mem d (complete s) && negb (mem d (tasksrun s))) (coveredby c t)
    then inr (set_rst CleanUp (set_failed (failed s ++ [t]) s))
    else
      let s := set_tsdone (filter (fun d => negb (mem d (coveredby c t) && negb (mem d (complete s))
                                                  && negb (mem d unskippable))) (tsdone s)) s in
      let s := set_sqr (del t (sqr s)) (set_sqb (del t (sqb s)) s) in
      let s := set_outright (del t (outright s)) s in
      let s := set_scnot (del t (scnot s)) (set_sccov (del t (sccov s)) s) in
      let s := set_notneeded (del t (notneeded s)) s in
      let s := set_sqstamp (fun x => if Nat.eqb x t then o_newstamp o t else sqstamp s x) s in
      let s := set_bstamps (ddel t (bstamps s)) s in
      inl (s, true).
Fixpoint migrate_loop (o : oracle) (l : list nat) (s : st) (upd : list nat) : (st * list nat) + st :=
  match l with
  | [] => inl (s, upd)
  | t :: l' =>
    match migrate_one o t s with
    | inr s => inr s
    | inl (s, true) => migrate_loop o l' s (upd ++ [t])
    | inl (s, false) => migrate_loop o l' s upd
    end
  end.
(** 2654-2700 *)
Definition migrate_tail (o : oracle) (anychange : bool) (upd : list nat) (s : st) : st :=
  let '(s, upd2) := fold_left (fun '(s, acc) t =>
      let hf := existsb (fun d => mem d (scnot s)) (hardrev c t) in
      let s := if negb hf && forallb (processed s) (sqrev c t) then set_sqb (add t (sqb s)) s else s in
      let s := if is_nil (sqrev c t) then set_sqb (add t (sqb s)) s else s in
      (s, acc ++ [(t, hf)])) upd (s, []) in
  let s := if is_nil upd2 then s
           else
             let s := set_sqdone false s in
             let s := fold_left (fun s t => match o_defer o t with
                                            | Some b => set_deferred (dset t b (deferred s)) s
                                            | None => s end) (map fst upd2) s in
             update_scene_data o (map fst upd2) s in
  let s := fold_left (fun s '(t, hf) => if (hf : bool) then failoutright sq_fuel o t s else s) upd2 s in
  if anychange || negb (is_nil upd2) then
    set_needupd true (set_harddef [] (set_needhard [] s))
  else s.
(** 2513-2700 process_possible_migrations, for the set [changed] of tasks whose
    hash changed (2515-2592 computes it from the hash server's answers) *)
Definition migrations (o : oracle) (changed : list nat) (s : st) : st :=
  let s := set_pending (union (pending s) (filter (fun t => mem t (scene c)) changed)) s in
  match migrate_loop o (pending s) s [] with
  | inr s => s
  | inl (s, upd) => migrate_tail o (negb (is_nil changed)) upd s
  end.

(** 1972-1987 finish *)
Definition finish (s : st) : st :=
  let s := set_rst CleanUp s in
  if Z.ltb 0 (active s + Z.of_nat (length (sqlive s))) then s
  else if negb (is_nil (failed s)) then set_rst Failed s else set_rst Complete s.

(** 1827-1918 __init__, 2940-2962 and 2983-3028 of build_scenequeue_data, 1590-1600
    of _execute_runqueue *)
Definition blank : st :=
  mkSt [] [] [] [] [] [] 0%Z [] [] [] [] [] [] [] [] [] [] [] true false [] [] []
       [] (stampf c) [] [] [] [] [] Running [].
Definition init (o : oracle) : st :=
  let s := fold_left (fun s t => if is_nil (depends c t) then setbuildable t s else s) (diff unskippable (scene c)) blank in
  let s := set_tsdone (diff unskippable (scene c)) s in
  let s := set_sqb (filter (fun t => is_nil (sqrev c t)) (scene c)) s in
  let s := set_deferred (flat_map (fun t => match o_defer o t with Some b => [(t, b)] | None => [] end) (scene c)) s in
  let s := update_scene_data o (scene c) s in
  if is_nil (scene c) then
    let s := fold_left (fun s t => if is_nil (depends c t) then setbuildable t s else s) (tasks c) s in
    set_sqdone true (set_tnot (tasks c) s)
  else s.

(** What can happen next: a worker process ends, the engine is called, task
    hashes changed, the user asks to finish. *)
Inductive event :=
  | WorkerDone (t : nat) (ok : bool) (o : oracle)
  | Execute (o : oracle)
  | Migrate (changed : list nat) (o : oracle)
  | Interrupt.

(** 1602-1606 of _execute_runqueue, 1956 finish_runqueue, 3254-3303 (the reports
    of workers about tasks they were given) *)
Definition step (e : event) (s : st) : st :=
  match e with
  | WorkerDone t ok o =>
    if mem t (sqlive s) || mem t (live s) then
      match rst s with Running | CleanUp => waitpid o t ok s | _ => s end
    else s
  | Execute o => match rst s with Running => execute o s | CleanUp => finish s | _ => s end
  | Migrate ch o => match rst s with Running => migrations o ch s | _ => s end
  | Interrupt => match rst s with Running | CleanUp => finish s | _ => s end
  end.
Definition run (o : oracle) (es : list event) : st := fold_left (fun s e => step e s) es (init o).
End Engine.
