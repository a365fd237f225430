(** What the claims on commands of root file systems mean. *)
From Coq Require Import Ascii String List Bool Arith.
From Verif Require Import Str_Model.
Import ListNotations.
Open Scope list_scope.

(** The arguments of rootfs_cmd before "--". *)
Inductive item := Bind (source target : str) | Chdir (d : str) | Root (r : str).
Definition written (i : item) : list str := match i with Bind x y => [s_ "--bind"; x; y] | Chdir d => [s_ "--chdir"; d] | Root r => [r] end.
Definition usage (items : list item) (cmd : list str) : list str := flat_map written items ++ s_ "--" :: cmd.
Definition roots (items : list item) : list str := flat_map (fun i => match i with Root r => [r] | _ => [] end) items.
Definition binds (items : list item) : list str := flat_map (fun i => match i with Bind x y => [s_ "--bind"; x; y] | _ => [] end) items.
Definition chdirs (items : list item) : list str := flat_map (fun i => match i with Chdir d => [s_ "--chdir"; d] | _ => [] end) items.
Definition plain (r : str) : Prop := forall t, r <> "-"%char :: t.
(** A word of the shell. *)
Definition one_word (w : str) : Prop := w <> [] /\ forall c, In c w -> is_space c = false.
Definition item_words (i : item) : Prop := match i with Bind x y => one_word x /\ one_word y | Chdir d => one_word d | Root r => one_word r end.

(** A line of apt-get --print-uris: 'dir/name_version_arch.deb' and the name of the file,
    its size and checksum. *)
Record uri := mkUri { u_dir : str; u_name : str; u_version : str; u_arch : str; u_rest : str }.
Definition line (u : uri) : str := s_ "'" ++ u_dir u ++ s_ "/" ++ u_name u ++ s_ "_" ++ u_version u ++ s_ "_" ++ u_arch u ++ s_ ".deb'" ++ u_rest u.
Definition none_of (cs : list ascii) (s : str) : Prop := forall c, In c cs -> ~ In c s.
Definition apt_line (u : uri) : Prop :=
  none_of ["_"; "/"; "'"]%char (u_name u) /\ none_of ["_"; "/"; "'"]%char (u_version u) /\ none_of ["_"; "/"; "'"]%char (u_arch u) /\ none_of ["'"%char] (u_rest u).

Definition begins (p s : str) : Prop := exists t, s = p ++ t.
