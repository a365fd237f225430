(** The environment and the configuration of a package build: meta/classes-recipe/dpkg.bbclass 18-74 and
    meta/classes-recipe/sbuild.bbclass 74-122.  Definitions only. *)
From Coq Require Import String Ascii List Bool Arith.
From Verif Require Import Str_Model.
Import ListNotations.
Open Scope list_scope.

(** * Patterns *)
(** A basic regular expression at the start of a line: a dot stands for any character.  The characters * [ \ ^ $ are not
    modelled as special; the theorems ask for texts without them. *)
Fixpoint rmatch (p s : str) : bool :=
  match p, s with
  | [], _ => true
  | x :: p', y :: s' => (aeqb x "."%char || aeqb x y) && rmatch p' s'
  | _ :: _, [] => false
  end.
Fixpoint rcontains (p s : str) : bool :=
  rmatch p s || match s with [] => false | _ :: s' => rcontains p s' end.

(** * What is exported: dpkg.bbclass *)
Definition env : Type := list (str * str).
(** env(1), 28 and 47: one line for each variable, more for a value with newlines *)
Definition env_lines (e : env) : list str := flat_map (fun kv => split_on nl (fst kv ++ s_ "=" ++ snd kv)) e.
(** read -r, 47: blanks at both ends are dropped *)
Definition blank (c : ascii) : bool := aeqb c " "%char || aeqb c "009"%char.
Fixpoint ltrim (s : str) : str := match s with c :: s' => if blank c then ltrim s' else s | [] => [] end.
Definition trim (s : str) : str := rev (ltrim (rev (ltrim s))).
(** 48-53: skipped lines.  A backslash, which echo may interpret, and globs are not modelled. *)
Definition skipped (ref : list str) (line : str) : bool :=
  existsb (rmatch line) ref ||
  startswith (s_ "HOME=") line || startswith (s_ "PWD=") line || startswith (s_ "SOURCE_DATE_EPOCH=") line.
(** 55-57: what sbuild_export is called with; cut prints the whole line when there is no delimiter, and $var is split *)
Definition export_of (line : str) : option (str * str) :=
  let var := fst (cut_at "="%char line) in
  let value := match snd (cut_at "="%char line) with Some v => v | None => line end in
  match split_ws var ++ [value] with [] => None | a :: rest => Some (a, join (s_ " ") rest) end.
(** 47-74; the warnings are not modelled *)
Definition exports (ref e : env) : env :=
  flat_map (fun l => let l := trim l in
    if skipped (env_lines ref) l then [] else match export_of l with Some x => [x] | None => [] end) (env_lines e).
(** expand_sbuild_pt_additions, 18-24.  The shell's reading of the value between double quotes is not modelled. *)
Definition pt_additions (names : str) (getvar : str -> option str) : env :=
  flat_map (fun n => match getvar n with Some v => [(n, v)] | None => [] end) (split_ws names).

(** * The configuration file, as lines: sbuild.bbclass *)
Definition env_head : str := s_ "$build_environment =".
Definition flt_head : str := s_ "$environment_filter =".
Definition env_line (k v : str) : str := s_ "'" ++ k ++ s_ "' => '" ++ v ++ s_ "',".
Definition flt_line (f : str) : str := s_ "'^" ++ f ++ s_ "$',".
(** One run of sed: lines that [del] selects are deleted, and [text] is put after each line that starts with [head] *)
Definition sed_pass (del : str -> bool) (head text : str) (ls : list str) : list str :=
  flat_map (fun l => if del l then [] else if startswith head l then [l; text] else [l]) ls.
(** sbuild_export, 88-101: the file is given to sed twice, and so is edited twice.  The name is taken literally in the
    pattern, and a backslash in the value is not modelled. *)
Definition sbuild_export (k v : str) (ls : list str) : list str :=
  let ls := if existsb (startswith env_head) ls then ls else ls ++ [env_head ++ s_ " {"; s_ "};"] in
  let pass := sed_pass (startswith (s_ "'" ++ k ++ s_ "' =>")) env_head (env_line k v) in
  pass (pass ls).
(** sbuild_add_env_filter, 74-86 *)
Definition add_filter (f : str) (ls : list str) : list str :=
  let ls := if existsb (startswith flt_head) ls then ls else ls ++ [flt_head ++ s_ " ["; s_ "];"] in
  sed_pass (contains_sub (s_ "'^" ++ f ++ s_ "$")) flt_head (flt_line f) ls.
(** What a build does to the file, after removing it (45) *)
Inductive op := Export (k v : str) | Filter (f : str) | Echo (line : str).
Definition do_op (ls : list str) (o : op) : list str :=
  match o with Export k v => sbuild_export k v ls | Filter f => add_filter f ls | Echo l => ls ++ [l] end.
Definition do_ops (os : list op) : list str := fold_left do_op os [].
(** dpkg.bbclass 45-108 together; [tail] is what 107 and 108 append *)
Definition filters : list str := map s_ ["PATH"; "http_proxy"; "HTTP_PROXY"; "https_proxy"; "HTTPS_PROXY"; "ftp_proxy"; "FTP_PROXY"; "no_proxy"; "NO_PROXY"]%string.
Definition config (ref e : env) (names : str) (getvar : str -> option str) (tail : list str) : list str :=
  do_ops (map (fun x => Export (fst x) (snd x)) (exports ref e) ++ map Filter filters ++
          map (fun x => Export (fst x) (snd x)) (pt_additions names getvar) ++ map Echo tail).

(** * fstab: insert_mounts and remove_mounts, 103-122 *)
Definition mount_line (mp : str) : str :=
  let after := match snd (cut_at ":"%char mp) with Some b => b | None => mp end in
  fst (cut_at ":"%char mp) ++ s_ " " ++ after ++ s_ " none rw,bind,private 0 0".
Definition insert_mount (fstab : list str) (mp : str) : list str :=
  if mem_str (mount_line mp) fstab then fstab else fstab ++ [mount_line mp].
Definition insert_mounts (mps : list str) (fstab : list str) : list str := fold_left insert_mount mps fstab.
Definition remove_mounts (mps : list str) (fstab : list str) : list str :=
  fold_left (fun fs mp => filter (fun l => negb (rcontains (mount_line mp) l)) fs) mps fstab.
