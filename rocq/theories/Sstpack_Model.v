(** Model of the creation of shared-state archives: the shell function
    sstate_create_package of meta/classes-global/sstate.bbclass 833-876, run by any
    number of processes at once for the same archive. *)
From Coq Require Import Ascii String List Bool Arith.
From Verif Require Import Str_Model.
Import ListNotations.
Open Scope list_scope.

(** The contents of a file, block by block *)
Definition content := list nat.
(** What ${SSTATE_PKG} names: nothing, a file, or a symbolic link to a file of a
    mirror or to nothing *)
Inductive entry := Absent | File (c : content) | Link (target : option content).
(** [ -e ]: follows links *)
Definition exists_ (e : entry) : bool := match e with File _ | Link (Some _) => true | _ => false end.
(** [ -h ] *)
Definition is_link (e : entry) : bool := match e with Link _ => true | _ => false end.

(** Where a process is; the lines are those of sstate.bbclass *)
Inductive place :=
| Begin        (* 835 *)
| Making       (* 840-841 *)
| Packing      (* 851-861: tar writes *)
| Chmod        (* 862 *)
| Test1        (* 864, -h *)
| Test2        (* 864, ! -e *)
| Test3        (* 868 *)
| Force        (* 867 *)
| Linking      (* 871 *)
| Touching     (* 873 *)
| Removing     (* 875 *)
| Done | Failed | Killed.
(** The temporary file: 841; None: there is none *)
Record proc := mkProc { p_place : place; p_temp : option content }.
Record world := mkWorld { w_pkg : entry; w_procs : nat -> proc }.
Definition upd (f : nat -> proc) (i : nat) (p : proc) : nat -> proc := fun j => if Nat.eqb j i then p else f j.

(** How a command ends *)
Inductive ending := Success | Failure.
(** Something happens: a process takes its next step, a process is killed, or somebody
    else (a mirror, a clean-up) changes what the name stands for *)
Inductive event := Step (i : nat) (e : ending) | Kill (i : nat) | Other (e : entry).

(** One command of a process that packs [data].  A failing command ends the function
    (set -e), except where the code says "|| true". *)
Definition advance (data : content) (pkg : entry) (p : proc) (e : ending) : entry * proc :=
  let goto l := (pkg, mkProc l (p_temp p)) in
  match p_place p with
  | Begin => goto (if exists_ pkg then Done else Making)
  | Making => match e with Success => (pkg, mkProc Packing (Some [])) | Failure => goto Failed end
  | Packing =>
      match e, p_temp p with
      | Success, Some c => match nth_error data (length c) with Some b => (pkg, mkProc Packing (Some (c ++ [b]))) | None => goto Chmod end
      | _, _ => goto Failed
      end
  | Chmod => match e with Success => goto Test1 | Failure => goto Failed end
  | Test1 => goto (if is_link pkg then Test2 else Test3)
  | Test2 => goto (if exists_ pkg then Test3 else Force)
  | Test3 => goto (if exists_ pkg then Touching else Linking)
  (* ln -f: the new name replaces the old one *)
  | Force => match e, p_temp p with Success, Some c => (File c, mkProc Removing (p_temp p)) | _, _ => goto Removing end
  (* ln: refused if the name exists, also as a dangling link *)
  | Linking => match e, p_temp p, pkg with Success, Some c, Absent => (File c, mkProc Removing (p_temp p)) | _, _, _ => goto Removing end
  | Touching => goto Removing
  | Removing => match e with Success => (pkg, mkProc Done None) | Failure => goto Failed end
  | Done | Failed | Killed => goto (p_place p)
  end.
(** [data i]: what process [i] packs *)
Definition happen (data : nat -> content) (w : world) (ev : event) : world :=
  match ev with
  | Step i e => let (pkg, p) := advance (data i) (w_pkg w) (w_procs w i) e in mkWorld pkg (upd (w_procs w) i p)
  | Kill i => mkWorld (w_pkg w) (upd (w_procs w) i (mkProc Killed (p_temp (w_procs w i))))
  | Other e => mkWorld e (w_procs w)
  end.
Definition run (data : nat -> content) (evs : list event) (w : world) : world := fold_left (happen data) evs w.
Definition start (pkg : entry) : world := mkWorld pkg (fun _ => mkProc Begin None).
(** 841 mktemp: the name of a temporary file; mktemp replaces the Xs by letters and digits *)
Definition temp_name (pkg x : str) : str := pkg ++ s_ "." ++ x.
