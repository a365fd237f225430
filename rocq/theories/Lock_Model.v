(** Model of bitbake/lib/bb/utils.py lockfile (452-516) and unlockfile (518-530):
    any number of processes using one lock file, one system call at a time.

    Modelled: open with creation, flock (blocking or not, exclusive or shared),
    os.path.exists, os.stat, the conversion of a shared lock, unlink, release,
    close, and a crash of a process before any of its system calls.  Inode numbers
    are reused once no name and no open file refers to the inode.

    Simplifications: the directory exists and is writable (472-477 end the process
    otherwise); the lock file is opened, removed and created by nobody else; all
    processes use the same name; fstat of an open file does not fail. *)
From Coq Require Import List Bool Arith.
Import ListNotations.
Open Scope list_scope.

Inductive mode := Shared | Exclusive.

(** Where a process is, with the inode its lock file object refers to. *)
Inductive place :=
  | Idle
  | Opening                    (* in lockfile, before open: 492 *)
  | Opened (i : nat)           (* before flock: 494 *)
  | Locked (i : nat)           (* before os.path.exists: 496 *)
  | Exists (i : nat)           (* before os.stat: 497 *)
  | Holding (i : nat)          (* lockfile returned: 499 *)
  | Converting (i : nat)       (* in unlockfile, before flock LOCK_EX|LOCK_NB: 525 *)
  | Gap (i : nat)              (* within that system call, the old lock given up *)
  | Unlinking (i : nat)        (* before unlink: 526 *)
  | Unlocking (i : nat).       (* before flock LOCK_UN: 529 *)

Record proc := mkProc {
  at_ : place;
  held : option mode;          (* the kernel's lock on the open file *)
  wants : mode;                (* the argument shared *)
  retry : bool;                (* the argument retry *)
  nonblock : bool              (* LOCK_NB: not retry and not block (481) *)
}.
Record state := mkState { count : nat; disk : option nat; pr : nat -> proc }.

Definition inode_of (p : proc) : option nat :=
  match at_ p with
  | Idle | Opening => None
  | Opened i | Locked i | Exists i | Holding i | Converting i | Gap i | Unlinking i | Unlocking i => Some i
  end.
Definition put (s : state) (p : nat) (x : proc) : state :=
  mkState (count s) (disk s) (fun q => if Nat.eqb q p then x else pr s q).
Definition set_disk (d : option nat) (s : state) : state := mkState (count s) d (pr s).
Definition move (pl : place) (h : option mode) (p : proc) : proc := mkProc pl h (wants p) (retry p) (nonblock p).

Definition same_inode (a : option nat) (i : nat) : bool := match a with Some j => Nat.eqb j i | None => false end.
(** flock(2): may process [p] lock inode [i] in mode [m]? *)
Definition compatible (s : state) (p i : nat) (m : mode) : bool :=
  forallb (fun q => Nat.eqb q p || negb (same_inode (inode_of (pr s q)) i)
                    || match held (pr s q), m with
                       | None, _ => true
                       | Some Shared, Shared => true
                       | _, _ => false
                       end) (seq 0 (count s)).
Definition unused (s : state) (i : nat) : bool :=
  negb (same_inode (disk s) i) && forallb (fun q => negb (same_inode (inode_of (pr s q)) i)) (seq 0 (count s)).

Inductive event :=
  | Call (p : nat) (shared retry block : bool)
  | Open (p fresh : nat)       (* [fresh]: the inode a new file gets *)
  | Flock (p : nat)            (* the call returns successfully *)
  | FlockFails (p : nat)       (* EWOULDBLOCK, EINTR *)
  | CheckExists (p : nat)
  | Stat (p : nat)
  | Release (p : nat)
  | Convert (p : nat)          (* the conversion succeeds, or gives up the old lock first *)
  | ConvertFails (p : nat)
  | Regain (p : nat)
  | Unlink (p : nat)
  | Unlock (p : nat)
  | Crash (p : nat).
Definition who (e : event) : nat :=
  match e with
  | Call p _ _ _ => p | Open p _ => p | Flock p => p | FlockFails p => p | CheckExists p => p | Stat p => p | Release p => p
  | Convert p => p | ConvertFails p => p | Regain p => p | Unlink p => p | Unlock p => p | Crash p => p
  end.

(** the lock file object is closed, and the loop starts again (515) or not *)
Definition again (p : proc) : proc := move (if retry p then Opening else Idle) None p.
Definition idle : proc := mkProc Idle None Exclusive true false.

(** [atomic]: whether flock converts a shared lock into an exclusive one in one
    step; flock(2) says it does not ("the existing lock is first removed, and then
    a new lock is established").  [None]: the event cannot happen now. *)
Definition step (atomic : bool) (s : state) (e : event) : option state :=
  if negb (Nat.ltb (who e) (count s)) then None else
  let p := who e in
  let x := pr s p in
  match e, at_ x with
  | Call _ sh rt bl, Idle =>
    Some (put s p (mkProc Opening None (if sh then Shared else Exclusive) rt (negb rt && negb bl)))
  | Open _ fresh, Opening =>
    match disk s with
    | Some i => Some (put s p (move (Opened i) None x))
    | None => if unused s fresh then Some (put (set_disk (Some fresh) s) p (move (Opened fresh) None x)) else None
    end
  | Flock _, Opened i =>
    if compatible s p i (wants x) then Some (put s p (move (Locked i) (Some (wants x)) x)) else None
  | FlockFails _, Opened i => Some (put s p (again x))
  | CheckExists _, Locked i =>
    match disk s with
    | Some _ => Some (put s p (move (Exists i) (held x) x))
    | None => Some (put s p (again x))
    end
  | Stat _, Exists i =>
    match disk s with
    | Some j => if Nat.eqb i j then Some (put s p (move (Holding i) (held x) x)) else Some (put s p (again x))
    | None => Some (put s p (again x))
    end
  | Release _, Holding i => Some (put s p (move (Converting i) (held x) x))
  | Convert _, Converting i =>
    match held x with
    | Some Shared =>
      if atomic then
        if compatible s p i Exclusive then Some (put s p (move (Unlinking i) (Some Exclusive) x)) else None
      else Some (put s p (move (Gap i) None x))
    | _ => Some (put s p (move (Unlinking i) (held x) x))   (* already exclusive: nothing to do *)
    end
  | Regain _, Gap i =>
    if compatible s p i Exclusive then Some (put s p (move (Unlinking i) (Some Exclusive) x)) else None
  | ConvertFails _, Converting i => Some (put s p (move (Unlocking i) (held x) x))
  | ConvertFails _, Gap i => Some (put s p (move (Unlocking i) None x))
  | Unlink _, Unlinking i => Some (put (set_disk None s) p (move (Unlocking i) (held x) x))
  | Unlock _, Unlocking i => Some (put s p (move Idle None x))
  | Crash _, _ => Some (put s p idle)
  | _, _ => None
  end.
Fixpoint run (atomic : bool) (s : state) (es : list event) : option state :=
  match es with
  | [] => Some s
  | e :: es' => match step atomic s e with Some s' => run atomic s' es' | None => None end
  end.
(** [n] processes; the lock file may be there already *)
Definition init (n : nat) (d : option nat) : state := mkState n d (fun _ => idle).
