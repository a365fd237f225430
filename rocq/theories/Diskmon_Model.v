(** The monitor of disk space: bitbake/lib/bb/monitordisk.py.  Definitions only.  Not modelled: the device of a path, making its
    directory, messages other than warnings, the event with the usage; realpath is given as a function. *)
From Coq Require Import Ascii String List Bool ZArith.
From Verif Require Import Str_Model Data_Model.
Import ListNotations.
Open Scope list_scope.

(** 15-32 convertGMK on a word (without blanks); None also stands for what is not a number *)
Definition convert (s : str) : option Z :=
  let (ds, unit) := span is_digit s in
  match ds with
  | d :: _ =>
      if aeqb d "0"%char then None
      else let n := Z.of_N (dec_val ds) in
           match unit with
           | [] => Some n
           | [u] => if aeqb u "g"%char || aeqb u "G"%char then Some (n * 1024 ^ 3)%Z
                    else if aeqb u "m"%char || aeqb u "M"%char then Some (n * 1024 ^ 2)%Z
                    else if aeqb u "k"%char || aeqb u "K"%char then Some (n * 1024)%Z
                    else None
           | _ => None
           end
  | [] => None
  end.
Inductive action := Halt | Stoptasks | Warn.
(** 80-88 *)
Definition action_of (s : str) : option action :=
  if seqb s (s_ "ABORT") || seqb s (s_ "HALT") then Some Halt
  else if seqb s (s_ "STOPTASKS") then Some Stoptasks
  else if seqb s (s_ "WARN") then Some Warn
  else None.
(** 97-118: a limit; None: invalid, Some None: not given *)
Definition limit (s : str) : option (option Z) :=
  match s with
  | [] => Some None
  | _ => match convert s with Some n => Some (Some n) | None => None end
  end.
Definition comma : ascii := ","%char.
(** One word of BB_DISKMON_DIRS: path, action, space, inodes *)
Record entry := Entry { e_path : str; e_action : action; e_space : option Z; e_inode : option Z }.
(** 72-121; None: an error *)
Definition parse_entry (real : str -> str) (w : str) : option entry :=
  match cut_at comma w with
  | (_, None) => None
  | (a, Some w) =>
      match cut_at comma w with
      | (_, None) => None
      | (p, Some w) =>
          let (s, i) := cut_at comma w in
          match action_of a with
          | None => None
          | Some act =>
              match limit s, limit (match i with Some i => i | None => [] end) with
              | Some None, Some None => None
              | Some sp, Some ino => Some (Entry (real p) act sp ino)
              | _, _ => None
              end
          end
      end
  end.
Definition action_eqb (a b : action) : bool := match a, b with Halt, Halt | Stoptasks, Stoptasks | Warn, Warn => true | _, _ => false end.
Definition same_key (a b : entry) : bool := seqb (e_path a) (e_path b) && action_eqb (e_action a) (e_action b).
(** 127: devDict[(path, action)] = ... *)
Fixpoint watch (l : list entry) (e : entry) : list entry :=
  match l with
  | [] => [e]
  | x :: l => if same_key x e then e :: l else x :: watch l e
  end.
(** 62-129 getDiskData *)
Fixpoint disk_data (real : str -> str) (ws : list str) (l : list entry) : option (list entry) :=
  match ws with
  | [] => Some l
  | w :: ws => match parse_entry real w with Some e => disk_data real ws (watch l e) | None => None end
  end.

(** os.statvfs of a path: f_bavail * f_frsize, f_favail, f_files *)
Record sample := Sample { free_space : Z; free_inode : Z; files : Z }.
(** The state of one entry: minSpace, minInode, preFreeS, preFreeI, checked *)
Record monitor := Monitor { m_action : action; m_space : option Z; m_inode : option Z; m_pre_s : Z; m_pre_i : Z; m_checked : bool }.
(** 172-188 *)
Definition fresh (e : entry) : monitor := Monitor (e_action e) (e_space e) (e_inode e) 0 0 false.
Inductive event := WarnSpace | WarnInode | Finish (now : bool).
(** 218-227, 250-259 *)
Definition act (m : monitor) : list event * monitor :=
  match m_action m with
  | Warn => ([], m)
  | a => if m_checked m then ([], m)
         else ([Finish (match a with Halt => true | _ => false end)], Monitor (m_action m) (m_space m) (m_inode m) (m_pre_s m) (m_pre_i m) true)
  end.
(** 211-216, 244-248: whether there is a warning *)
Definition warns (pre now interval : Z) (checked : bool) : bool := Z.eqb pre 0 || (Z.ltb interval (pre - now) && negb checked).
Definition below (min : option Z) (now : Z) : bool := match min with Some n => negb (Z.eqb n 0) && Z.ltb now n | None => false end.
(** 210-227 *)
Definition check_space (interval : Z) (s : sample) (m : monitor) : list event * monitor :=
  if below (m_space m) (free_space s) then
    let w := warns (m_pre_s m) (free_space s) interval (m_checked m) in
    let m := if w then Monitor (m_action m) (m_space m) (m_inode m) (free_space s) (m_pre_i m) (m_checked m) else m in
    let (es, m) := act m in ((if w then [WarnSpace] else []) ++ es, m)
  else ([], m).
(** 230-259 *)
Definition check_inode (interval : Z) (s : sample) (m : monitor) : list event * monitor :=
  if below (m_inode m) (free_inode s) then
    if Z.eqb (files s) 0 || Z.eqb (free_inode s) (-1) then ([], Monitor (m_action m) (m_space m) None (m_pre_s m) (m_pre_i m) (m_checked m))
    else
      let w := warns (m_pre_i m) (free_inode s) interval (m_checked m) in
      let m := if w then Monitor (m_action m) (m_space m) (m_inode m) (m_pre_s m) (free_inode s) (m_checked m) else m in
      let (es, m) := act m in ((if w then [WarnInode] else []) ++ es, m)
  else ([], m).
(** 192-259, the turn of one entry *)
Definition check (si ii : Z) (m : monitor) (s : sample) : list event * monitor :=
  let (e1, m) := check_space si s m in
  let (e2, m) := check_inode ii s m in (e1 ++ e2, m).
(** One check after the other: what each does *)
Fixpoint checks (si ii : Z) (m : monitor) (l : list sample) : list (list event) :=
  match l with
  | [] => []
  | s :: l => let (es, m) := check si ii m s in es :: checks si ii m l
  end.
