(** meta/classes-global/base.bbclass 134-197 (root_cleandirs) and
    meta/classes-global/template.bbclass 9-58.  Definitions only. *)
From Coq Require Import Ascii String List Bool.
From Verif Require Import Str_Model Posix_Model.
Import ListNotations.
Open Scope list_scope.

(** base.bbclass 166-179, 194: the entries of root_cleandirs (the words of the
    flag, each expanded) without TMPDIR; None: bb.fatal *)
Definition check_entries (tmpdir : str) (entries : list str) : option (list str) :=
  let t := normpath tmpdir in
  let es := map normpath entries in
  if forallb (startswith t) es then Some (map (fun i => skipn (length t) i) es) else None.
(** 183, 188, 196: dirlist, the blank separated text put before the task *)
Definition dirlist (dirs : list str) : str := join (s_ " ") dirs.
(** The shell's splitting of an unquoted variable.  Globs and quotes in it are not modelled. *)
Definition ifs (c : ascii) : bool := aeqb c " "%char || aeqb c "009"%char || aeqb c nl.
Fixpoint shell_words_aux (cur : str) (s : str) : list str :=
  match s with
  | [] => match cur with [] => [] | _ => [rev cur] end
  | c :: s' => if ifs c then match cur with [] => shell_words_aux [] s' | _ => rev cur :: shell_words_aux [] s' end
               else shell_words_aux (c :: cur) s'
  end.
Definition shell_words (s : str) : list str := shell_words_aux [] s.
(** 140: a line of /proc/mounts matched by grep "^i\(/\|$\)"; characters special in a
    regular expression are taken literally here *)
Definition mounted (i mount : str) : bool :=
  startswith i mount && match skipn (length i) mount with [] => true | c :: _ => is_slash c end.
(** 139-146: the directories removed as root; None: die *)
Definition root_cleandirs (tmpdir : str) (mounts : list str) (text : str) : option (list str) :=
  let is_ := shell_words text in
  if existsb (fun i => existsb (mounted i) mounts) is_ then None
  else Some (map (fun i => tmpdir ++ i) is_).
(** The whole: None when parsing or the task fails *)
Definition clean_as_root (tmpdir : str) (mounts entries : list str) : option (list str) :=
  match check_entries tmpdir entries with
  | None => None
  | Some dirs => root_cleandirs tmpdir mounts (dirlist dirs)
  end.

(** ** template.bbclass *)
(** os.path.splitext(p)[0] *)
Definition last_dot (b : str) : option str :=   (* the part before the last dot *)
  match rev (split_on "."%char b) with
  | [] | [_] => None
  | _ :: r => Some (join (s_ ".") (rev r))
  end.
Definition splitext0 (p : str) : str :=
  match last_dot (basename p) with
  | Some x => if forallb (fun c => aeqb c "."%char) x then p else head_part p ++ x
  | None => p
  end.
(** 33-46: input and output file; None: bb.fatal *)
Definition template_paths (workdir file : str) : option (str * str) :=
  let w := normpath workdir in
  let f := normpath file in
  let f := if isabs f then f else normpath (pjoin w f) in
  if startswith w f then Some (f, if endswith (s_ ".tmpl") f then splitext0 f else f ++ s_ ".out") else None.
