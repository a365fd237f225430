(** Model of the execution of a task in a worker: bitbake/lib/bb/build.py exec_func
    (185-268), _exec_task (593-764), exec_task (766-793), bitbake/lib/bb/utils.py
    fileslocked (437-450), and the exit code of the worker's child
    (bitbake/bin/bitbake-worker 311-326). *)
From Coq Require Import Ascii String List Bool Arith.
From Verif Require Import Str_Model.
Import ListNotations.
Open Scope list_scope.

(** bb.BBHandledException, any other Exception, SystemExit, and what is neither (a
    KeyboardInterrupt) *)
Inductive exn := Handled | Error | Exit | Killed.
(** build.py 61-117 *)
Inductive event := Invalid | Started | Succeeded | Failed (errprinted : bool) | FailedSilent.
(** What is done; every one of these can raise an exception *)
Inductive item :=
| Remove (dir : str) (* bb.utils.remove *)
| Mkdir (dir : str) (* bb.utils.mkdirhier *)
| Prepare (func : str) (* the run file and the link to it, 228-252 *)
| Acquire (file : str) | Release (file : str) (* bb.utils.lockfile, unlockfile *)
| Run (func : str) (cwd : option str) (* exec_func_python or exec_func_shell *)
| Setup (* nice levels, log files and file descriptors, 611-702 *)
| CloseLog (* 714-736 *)
| Fire (e : event) (* with the event handlers *)
| Stamp. (* make_stamp *)
(** What was done, and what is to be raised by the next actions; [] raises nothing more *)
Record st := mkSt { log : list (item * option exn); oracle : list (option exn) }.
Definition prog := st -> option exn * st.
Definition act (i : item) : prog := fun s => let r := hd None (oracle s) in (r, mkSt (log s ++ [(i, r)]) (tl (oracle s))).
Definition skip : prog := fun s => (None, s).
Definition throw (e : exn) : prog := fun s => (Some e, s).
Definition seq (p q : prog) : prog := fun s => match p s with (None, s) => q s | (Some e, s) => (Some e, s) end.
Fixpoint each (l : list prog) : prog := match l with [] => skip | p :: l => seq p (each l) end.
(** try: p finally: q *)
Definition finally (p q : prog) : prog := fun s => let '(r, s) := p s in match q s with (None, s) => (r, s) | (Some e, s) => (Some e, s) end.

(** The flags of a function, expanded and split into words.  [fl_dirs]: None if not set *)
Record func := mkFunc { fl_cleandirs : list str; fl_dirs : list str; fl_locks : list str; has_body : bool }.
Definition last_dir (l : list str) : option str := match l with [] => None | _ => Some (last l []) end.
(** 437-450 *)
Definition fileslocked (files : list str) (p : prog) : prog := seq (each (map (fun f => act (Acquire f)) files)) (finally p (each (map (fun f => act (Release f)) files))).
(** 185-262; the way back to the old working directory is left out *)
Definition exec_func (flags : str -> func) (name : str) : prog :=
  let f := flags name in
  seq (each (map (fun d => seq (act (Remove d)) (act (Mkdir d))) (fl_cleandirs f)))
 (seq (each (map (fun d => act (Mkdir d)) (fl_dirs f)))
 (if has_body f then seq (act (Prepare name)) (fileslocked (fl_locks f) (act (Run name (last_dir (fl_dirs f))))) else skip)).

(** A task: its flags task, prefuncs, postfuncs, nostamp, selfstamp and quieterrors, and
    whether T is set *)
Record task := mkTask { t_name : str; t_valid : bool; t_temp : bool; t_pre : list str; t_post : list str; t_nostamp : bool; t_selfstamp : bool; t_quiet : bool }.
Inductive outcome := Ret (n : nat) | Raise (e : exn).
Definition caught (e : exn) : bool := match e with Killed => false | _ => true end. (* (Exception, SystemExit) *)
Definition is_exception (e : exn) : bool := match e with Handled | Error => true | _ => false end.
Definition is_handled (e : exn) : bool := match e with Handled => true | _ => false end.
Definition then_ret (p : prog) (n : nat) (s : st) : outcome * st := match p s with (None, s) => (Ret n, s) | (Some e, s) => (Raise e, s) end.
(** 593-764.  [verbose]: verboseStdoutLogging; [logged]: an error was logged meanwhile *)
Definition exec_task_inner (flags : str -> func) (verbose logged : bool) (t : task) (s : st) : outcome * st :=
  if negb (t_valid t) then then_ret (act (Fire Invalid)) 1 s
  else if negb (t_temp t) then (Raise Handled, s) (* bb.fatal *)
  else
    match act Setup s with
    | (Some e, s) => (Raise e, s)
    | (None, s) =>
        match finally (seq (act (Fire Started)) (seq (each (map (exec_func flags) (t_pre t))) (seq (exec_func flags (t_name t)) (each (map (exec_func flags) (t_post t)))))) (act CloseLog) s with
        | (Some e, s) =>
            if caught e then
              if t_quiet t then then_ret (act (Fire FailedSilent)) 1 s
              else then_ret (act (Fire (Failed (logged || verbose || is_handled e)))) 1 s
            else (Raise e, s)
        | (None, s) =>
            then_ret (seq (act (Fire Succeeded)) (if negb (t_nostamp t) && negb (t_selfstamp t) then act Stamp else skip)) 0 s
        end
    end.
(** 766-793.  TaskFailed(task, None, d, True) misses an argument: True.getVar raises
    AttributeError *)
Definition exec_task (flags : str -> func) (verbose logged : bool) (t : task) (s : st) : outcome * st :=
  match exec_task_inner flags verbose logged t s with
  | (Raise e, s) => if is_exception e then (if t_quiet t then (Ret 1, s) else (Raise Error, s)) else (Raise e, s)
  | r => r
  end.
(** bitbake-worker 311-326: any exception is the exit code 1.  (Not a dry run, no fakeroot.) *)
Definition exit_code (r : outcome) : nat := match r with Ret n => n | Raise _ => 1 end.
Definition run_task (flags : str -> func) (verbose logged : bool) (t : task) (faults : list (option exn)) : outcome * list (item * option exn) :=
  let '(r, s) := exec_task flags verbose logged t (mkSt [] faults) in (r, log s).

(** ** Tasks that wait for each other's lock files *)
(** Every task takes the files of its flag one after the other (fileslocked, with the
    blocking flock of bb.utils.lockfile), runs, and gives them all back.  One task of each
    number; [Waiting k]: k files are taken. *)
Inductive phase := Waiting (k : nat) | Running | Done.
Definition tasks := list (list str * phase).
Definition holds_locks (t : list str * phase) : list str := match snd t with Waiting k => firstn k (fst t) | Running => fst t | Done => [] end.
Definition taken (ts : tasks) (f : str) : bool := existsb (fun t => mem_str f (holds_locks t)) ts.
Definition set_phase (ts : tasks) (i : nat) (p : phase) : tasks := firstn i ts ++ match skipn i ts with (l, _) :: r => (l, p) :: r | [] => [] end.
(** the step of task [i], if it can do one *)
Definition lock_step (ts : tasks) (i : nat) : option tasks :=
  match nth_error ts i with
  | Some (files, Waiting k) =>
      match nth_error files k with
      | Some f => if taken ts f then None else Some (set_phase ts i (Waiting (S k)))
      | None => Some (set_phase ts i Running)
      end
  | Some (files, Running) => Some (set_phase ts i Done)
  | _ => None
  end.
Definition lock_start (l : list (list str)) : tasks := map (fun files => (files, Waiting 0)) l.
Inductive lock_reach (l : list (list str)) : tasks -> Prop :=
| reach_start : lock_reach l (lock_start l)
| reach_step ts i ts' : lock_reach l ts -> lock_step ts i = Some ts' -> lock_reach l ts'.
