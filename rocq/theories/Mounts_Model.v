(** meta/classes-recipe/rootfs.bbclass 138-222 (mounts), 434-464, 606-645 (tasks) and
    meta/classes-global/isar-events.bbclass.  Definitions only. *)
From Coq Require Import Ascii String List Bool Arith.
From Verif Require Import Str_Model Posix_Model.
Import ListNotations.
Open Scope list_scope.

(** ** The kernel's mount table (external), last mount first *)
(** [q] is a path strictly below [p]; paths are absolute, without trailing slash *)
Definition below (p q : str) : bool := startswith (p ++ [slash]) q.
Section Table.
  Variable A : Type.
  Variable target : A -> str.
  (** mountpoint -q p: a later mount on a directory above hides earlier ones *)
  Fixpoint visible (p : str) (t : list A) : bool :=
    match t with
    | [] => false
    | m :: t' => if seqb (target m) p then true else if below (target m) p then false else visible p t'
    end.
  (** umount p removes the last mount on p; None: not a mount point, hidden, or busy
      because something is mounted below it *)
  Fixpoint umount (p : str) (t : list A) : option (list A) :=
    match t with
    | [] => None
    | m :: t' => if seqb (target m) p then Some t'
                 else if below (target m) p || below p (target m) then None
                 else option_map (cons m) (umount p t')
    end.
End Table.
Arguments visible {A} target p t.
Arguments umount {A} target p t.
Notation table := (list str).
Definition self (p : str) : str := p.

(** ** rootfs_do_mounts, rootfs_do_umounts *)
(** The scripts as instructions.  [Unless p ms]: mountpoint -q p || ( mount.. && mount.. );
    [Always p]: mount; [Check b]: a command that mounts nothing and may fail (mkdir,
    mount --make-rslave); [UmountIf p]: if mountpoint -q p; then umount p; fi *)
Inductive instr := Unless (p : str) (ms : list str) | Always (p : str) | Check (b : bool) | UmountIf (p : str).
Definition dev : str := s_ "/dev".
Definition shm : str := s_ "/dev/shm".
Definition pts : str := s_ "/dev/pts".
Definition proc : str := s_ "/proc".
Definition sys : str := s_ "/sys".
Definition firmware : str := s_ "/sys/firmware".
Definition isar_apt : str := s_ "/isar-apt".
Definition isar_work : str := s_ "/isar-work".
Definition base_apt : str := s_ "/base-apt".
(** What the scripts depend on: ROOTFSDIR, whether sys/firmware exists there, whether
    isar-apt has been filled by copying, ISAR_USE_CACHED_BASE_REPO, and which mount
    commands and other commands succeed *)
Record config := mkConfig { root : str; has_firmware : bool; apt_copied : bool; cached_base : bool; ok : str -> bool; slave_ok : bool; mkdir_ok : str -> bool }.
(** rootfs.bbclass 138-182.  The test of line 167 quotes '$ROOTFSDIR' and is always true *)
Definition do_mounts (c : config) : list instr :=
  let r := root c in
  [Unless (r ++ dev) [r ++ dev; r ++ shm; r ++ pts];
   Unless (r ++ proc) [r ++ proc];
   Unless (r ++ sys) [r ++ sys];
   Check (slave_ok c)] ++
  (if has_firmware c then [Always (r ++ firmware)] else []) ++
  (if apt_copied c then [] else [Check (mkdir_ok c isar_apt); Unless (r ++ isar_apt) [r ++ isar_apt]]) ++
  [Check (mkdir_ok c isar_work); Unless (r ++ isar_work) [r ++ isar_work]] ++
  (if cached_base c then [Check (mkdir_ok c base_apt); Unless (r ++ base_apt) [r ++ base_apt]] else []).
(** 184-222; the removal of the emptied directories is not modelled *)
Definition umount_order : list str := [isar_apt; base_apt; isar_work; pts; shm; dev; proc; firmware; sys].
Definition do_umounts (c : config) : list instr := map (fun p => UmountIf (root c ++ p)) umount_order.

(** ** Execution.  Other tasks may change the table before every step: [env n] is what
    they do before step n.  The state is the table and the number of steps so far *)
Notation state := (list str * nat)%type.
Section Run.
  Variable env : nat -> table -> table.
  Definition tick (s : state) : state := (env (snd s) (fst s), S (snd s)).
  Definition mount1 (ok : str -> bool) (p : str) (s : state) : state * bool :=
    let s := tick s in if ok p then ((p :: fst s, snd s), true) else (s, false).
  Definition umount1 (p : str) (s : state) : state * bool :=
    let s := tick s in
    match umount self p (fst s) with Some t => ((t, snd s), true) | None => (s, false) end.
  (** set -e and && : stop at the first failure *)
  Fixpoint seq_all {A} (f : A -> state -> state * bool) (l : list A) (s : state) : state * bool :=
    match l with
    | [] => (s, true)
    | a :: l' => let r := f a s in if snd r then seq_all f l' (fst r) else r
    end.
  Definition instr1 (ok : str -> bool) (i : instr) (s : state) : state * bool :=
    match i with
    | Unless p ms => let s := tick s in if visible self p (fst s) then (s, true) else seq_all (mount1 ok) ms s
    | Always p => mount1 ok p s
    | Check b => (tick s, b)
    | UmountIf p => let s := tick s in if visible self p (fst s) then umount1 p s else (s, true)
    end.
  Definition script (c : config) (l : list instr) (s : state) : state * bool := seq_all (instr1 (ok c)) l s.
  (** bb.build.exec_func of a command: it leaves the mounts as they are and may fail, or
      it calls rootfs_do_umounts first (meta/classes-recipe/sdk.bbclass 81-83) *)
  Inductive command := Plain (b : bool) | Unmounting (b : bool).
  Definition command1 (c : config) (x : command) (s : state) : state * bool :=
    match x with
    | Plain b => (tick s, b)
    | Unmounting b => let r := script c (do_umounts c) s in if snd r then (fst r, b) else r
    end.
  Definition commands (c : config) (l : list command) (s : state) : state * bool := seq_all (command1 c) l s.
  (** try: r finally: rootfs_do_umounts *)
  Definition finally (c : config) (r : state * bool) : state * bool :=
    let u := script c (do_umounts c) (fst r) in (fst u, snd r && snd u).
  Definition then_ (r : state * bool) (f : state -> state * bool) : state * bool :=
    if snd r then f (fst r) else r.
  (** rootfs.bbclass 434-464 without lock and progress: [pre] are rootfs_prepare and the
      configure commands *)
  Definition rootfs_install (c : config) (pre cmds : list command) (s : state) : state * bool :=
    finally c (then_ (commands c pre s) (fun s => then_ (script c (do_mounts c) s) (commands c cmds))).
  (** 606-627; [qemu]: rootfs_do_qemu succeeds *)
  Definition rootfs_postprocess (c : config) (qemu : bool) (cmds : list command) (s : state) : state * bool :=
    then_ (script c (do_mounts c) s) (fun s => then_ (command1 c (Plain qemu) s) (fun s =>
      match cmds with
      | [] => (s, true)
      | _ => finally c (commands c cmds s)
      end)).
  (** 635-646 *)
  Definition generate_initramfs (c : config) (qemu : bool) (cmd : command) (s : state) : state * bool :=
    then_ (script c (do_mounts c) s) (fun s => then_ (command1 c (Plain qemu) s) (fun s =>
      finally c (commands c [cmd] s))).
End Run.
(** No other task *)
Definition alone (n : nat) (t : table) : table := t.

(** ** The isar-apt lock, rootfs.bbclass 448-461: per command, whether its flag contains
    acquire-before, release-after, and whether it succeeds *)
Definition locked_command := (bool * bool * bool)%type.
(** Whether the lock was held while each executed command ran, and whether all went well.
    Releasing a lock that is not held is an exception; acquiring again drops the old lock *)
Fixpoint run_locked (held : bool) (l : list locked_command) : list bool * bool :=
  match l with
  | [] => ([], true)
  | (acquire, release, ok) :: l' =>
      let h := held || acquire in
      if ok then
        if release then
          if h then let r := run_locked false l' in (h :: fst r, snd r) else ([h], false)
        else let r := run_locked h l' in (h :: fst r, snd r)
      else ([h], false)
  end.

(** ** isar-events.bbclass *)
(** A line of /proc/mounts: device, target, type and options *)
Record mount_line := mkLine { device : str; mtarget : str; options : str }.
Definition line_text (e : mount_line) : str := device e ++ s_ " " ++ mtarget e ++ s_ " " ++ options e.
(** 67-85, the umount case: [lines] is the snapshot, last mount first; the errors are the
    targets that could not be unmounted.  The target is taken from the shell unchanged:
    escaped blanks are not modelled *)
Fixpoint cleanup_loop (base : str) (lines t : list mount_line) : list mount_line * list str :=
  match lines with
  | [] => (t, [])
  | e :: r =>
      if contains_sub base (line_text e) then
        match umount mtarget (mtarget e) t with
        | Some t' => cleanup_loop base r t'
        | None => let x := cleanup_loop base r t in (fst x, mtarget e :: snd x)
        end
      else cleanup_loop base r t
  end.
(** 47-85: [mc] is BB_CURRENT_MC; the result is the table, the warnings and the errors *)
Definition build_completed (tmpdir mc : str) (fail_on_cleanup : bool) (t : list mount_line) : list mount_line * list str * list str :=
  match tmpdir with
  | [] => (t, [], [])
  | _ =>
      if seqb mc (s_ "default") then
        let base := tmpdir ++ s_ "/work/" in
        let found := map mtarget (filter (fun e => contains_sub base (line_text e)) t) in
        if fail_on_cleanup then (t, [], found)
        else let x := cleanup_loop base t t in (fst x, found, snd x)
      else (t, [], [])
  end.

(** 13-45: once stamps.  A key is the file name TEMP/once.TASK; the glob of line 14 is
    taken to match every key *)
Inductive build_event := BuildStarted | TaskStarted (k : str) | TaskFailed (k : str) | TaskSucceeded (k : str).
Inductive report := Multiple (k : str) | NoStamp (k : str).
Definition once_step (stamps : list str) (e : build_event) : list str * list report :=
  match e with
  | BuildStarted => ([], [])
  | TaskStarted k => if mem_str k stamps then (stamps, [Multiple k]) else (k :: stamps, [])
  | TaskFailed k => if mem_str k stamps then (filter (fun x => negb (seqb x k)) stamps, []) else (stamps, [NoStamp k])
  | TaskSucceeded _ => (stamps, [])
  end.
Fixpoint once_run (stamps : list str) (l : list build_event) : list str * list report :=
  match l with
  | [] => (stamps, [])
  | e :: l' => let r := once_step stamps e in let x := once_run (fst r) l' in (fst x, snd r ++ snd x)
  end.
