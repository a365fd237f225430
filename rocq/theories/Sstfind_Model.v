(** Model of the search for shared-state objects: sstate_checkhashes of
    meta/classes-global/sstate.bbclass, the thread pool of meta/lib/oe/utils.py it
    runs on, and the names under which objects are stored and looked for. *)
From Coq Require Import Ascii String List Bool Arith.
From Verif Require Import Str_Model Sstname_Model.
Import ListNotations.
Open Scope list_scope.

(** What the names of a recipe's objects are made of.  [r_native]: 150, the recipe
    inherits native, cross or crosssdk *)
Record recipe := mkRecipe { r_native : bool; r_pn : str; r_host : str; r_pv : str; r_pr : str; r_arch : str; r_version : str }.
(** 36 SSTATE_PKGSPEC *)
Definition r_pkgspec (r : recipe) : str := pkgspec (r_pn r) (r_host r) (r_pv r) (r_pr r) (r_arch r) (r_version r).
(** 37 SSTATE_SWSPEC *)
Definition r_swspec (r : recipe) : str := swspec (r_pn r) (r_pv r) (r_pr r) (r_version r).
(** 80 and 152 BB_HASHFILENAME *)
Definition hashfilename (r : recipe) : str := (if r_native r then s_ "True" else s_ "False") ++ s_ " " ++ r_pkgspec r ++ s_ " " ++ r_swspec r.

Definition prefixed (p : str) (r : result) : result := match r with Name n => Name (p ++ n) | x => x end.
(** 36-41, 151, 192-195, 661 and 360-362: SSTATE_PKGNAME while the task without its
    "do_" is packed (sstate_package) and installed (sstate_installpkg).  [lsb]:
    NATIVELSBSTRING *)
Definition stored_name (lsb : str) (r : recipe) (hash : option str) (task : str) : result :=
  if seqb task (s_ "populate_lic") then generate_sstatefn (r_swspec r) hash (Some task) false
  else prefixed (if r_native r then lsb ++ s_ "/" else []) (generate_sstatefn (r_pkgspec r) hash (Some task) false).

(** bitbake runqueue.py 38-39 taskname_from_tid, without its first three characters (936) *)
Definition short_task (tid : str) : option str :=
  match rev (split_on ":" tid) with
  | t :: _ :: _ => Some (skipn 3 t)
  | _ => None  (* IndexError *)
  end.
(** 938 *)
Definition unpacked_task (t : str) : bool := mem_str t [s_ "fetch"; s_ "unpack"; s_ "patch"; s_ "populate_lic"; s_ "preconfigure"].
(** 927-942 getpathcomponents: None is an IndexError *)
Definition path_components (lsb hashfn tid : str) : option (str * str * str) :=
  match split_on " " hashfn, short_task tid with
  | native :: spec :: rest, Some t =>
      let extra := if seqb native (s_ "True") then lsb ++ s_ "/" else [] in
      if unpacked_task t then
        match rest with
        | [] => None
        | [] :: _ => Some (spec, extra, t)
        | sw :: _ => Some (sw, [], t)
        end
      else Some (spec, extra, t)
  | _, _ => None
  end.
(** 944-946 getsstatefile.  The expansion of references in the name (950, 1013) is
    left out: the names are expanded already. *)
Definition looked_for (lsb hashfn : str) (hash : option str) (tid : str) (siginfo : bool) : result :=
  match path_components lsb hashfn tid with
  | Some (spec, extra, t) => prefixed extra (generate_sstatefn spec hash (Some t) siginfo)
  | None => Raise
  end.

(** The argument sq_data (runqueue.py validate_hashes): [s_tasks] the keys of sq_data['hash'] *)
Record sqdata := mkSq { s_tasks : list str; s_hashfn : str -> str; s_unihash : str -> option str }.
Definition file_of (lsb : str) (sq : sqdata) (siginfo : bool) (tid : str) : option str :=
  match looked_for lsb (s_hashfn sq tid) (s_unihash sq tid) tid siginfo with Name n => Some n | _ => None end.
(** 948-957: the local directory; [exists_] os.path.exists.  None: an exception *)
Fixpoint local_scan (lsb dir : str) (sq : sqdata) (siginfo : bool) (exists_ : str -> bool) (ts : list str) (found missed : list str) : option (list str * list str) :=
  match ts with
  | [] => Some (found, missed)
  | t :: ts' =>
      match file_of lsb sq siginfo t with
      | None => None
      | Some f => if exists_ (dir ++ s_ "/" ++ f) then local_scan lsb dir sq siginfo exists_ ts' (t :: found) missed
                  else local_scan lsb dir sq siginfo exists_ ts' found (t :: missed)
      end
  end.

(** What fetcher.checkstatus() of a file gives (995-1006) *)
Inductive outcome := Present | FetchError | OtherError.
(** A worker of the pool, oe/utils.py 496-516, running checkstatus 986-1009:
    waiting for work; checking a file; between found.add and missed.remove; gone *)
Inductive worker := Waiting | Checking (tid file : str) | Adding (tid : str) | Gone.
Record pool := mkPool { p_queue : list (str * str); p_workers : list worker; p_found : list str; p_missed : list str }.
Definition set_remove (x : str) (l : list str) : list str := filter (fun y => negb (seqb x y)) l.
Fixpoint set_nth {A} (n : nat) (x : A) (l : list A) : list A :=
  match l, n with
  | [], _ => []
  | _ :: l', O => x :: l'
  | y :: l', S n' => y :: set_nth n' x l'
  end.
(** One step of worker [i].  Steps of one worker are atomic, those of several are
    interleaved.  A KeyError of missed.remove is caught (1005). *)
Definition pool_step (check : str -> outcome) (p : pool) (i : nat) : pool :=
  match nth_error (p_workers p) i with
  | None | Some Gone => p
  | Some Waiting =>
      match p_queue p with
      | (t, f) :: q => mkPool q (set_nth i (Checking t f) (p_workers p)) (p_found p) (p_missed p)
      | [] => mkPool [] (set_nth i Gone (p_workers p)) (p_found p) (p_missed p)
      end
  | Some (Checking t f) =>
      match check f with
      | Present => mkPool (p_queue p) (set_nth i (Adding t) (p_workers p)) (t :: p_found p) (p_missed p)
      | _ => mkPool (p_queue p) (set_nth i Waiting (p_workers p)) (p_found p) (p_missed p)
      end
  | Some (Adding t) => mkPool (p_queue p) (set_nth i Waiting (p_workers p)) (p_found p) (set_remove t (p_missed p))
  end.
Definition run_pool (check : str -> outcome) (schedule : list nat) (p : pool) : pool := fold_left (pool_step check) schedule p.
(** oe/utils.py 536-540 wait_completion returns: all work is done and the workers are gone *)
Definition completed (p : pool) : bool :=
  match p_queue p with [] => forallb (fun w => match w with Gone => true | _ => false end) (p_workers p) | _ => false end.
(** 1017-1034: the pool; [threads] BB_NUMBER_THREADS *)
Definition start_pool (files : list (str * str)) (threads : nat) (found missed : list str) : pool :=
  mkPool files (repeat Waiting (min threads (length files))) found missed.

Inductive checked := Result (found missed : list str) | Raised | Waits.
Fixpoint all_some {A} (l : list (option A)) : option (list A) :=
  match l with
  | [] => Some []
  | None :: _ => None
  | Some x :: l' => match all_some l' with Some r => Some (x :: r) | None => None end
  end.
(** 920-1067.  [mirror]: SSTATE_MIRRORS and what they hold; [order]: the order in
    which the set of missed tasks is walked (1012); [schedule]: the steps of the workers. *)
Definition checkhashes (lsb dir : str) (sq : sqdata) (siginfo : bool) (exists_ : str -> bool) (mirror : option (str -> outcome))
    (threads : nat) (order : list str -> list str) (schedule : list nat) : checked :=
  match local_scan lsb dir sq siginfo exists_ (s_tasks sq) [] [] with
  | None => Raised
  | Some (found, missed) =>
      match mirror with
      | None => Result found missed
      | Some check =>
          match all_some (map (fun t => match file_of lsb sq siginfo t with Some f => Some (t, f) | None => None end) (order missed)) with
          | None => Raised
          | Some files =>
              let p := run_pool check schedule (start_pool files threads found missed) in
              if completed p then Result (p_found p) (p_missed p) else Waits
          end
      end
  end.
