(** Stanzas of a Packages file, source packages and package caches. *)
From Coq Require Import String Ascii List Bool Arith.
From Verif Require Import Str_Model Str_Proofs Debcache_Model.
Import ListNotations.
Open Scope list_scope.

(** A binary package: its name and version, the source it names, if any, and the version it
    gives for it, if any *)
Record package := mkPackage { p_name : str; p_version : str; p_source : option (str * option str) }.
(** Its source package *)
Definition source_name (p : package) : str := match p_source p with Some (s, _) => s | None => p_name p end.
Definition source_version (p : package) : str := match p_source p with Some (_, Some v) => v | _ => p_version p end.
Definition package_ok (p : package) : Prop :=
  word (p_name p) /\ word (p_version p) /\
  match p_source p with
  | Some (s, Some v) => word s /\ word v
  | Some (s, None) => word s
  | None => True
  end.
(** The lines of its stanza: Package first, Size behind Version and Source, in any order, with any
    other lines between and behind *)
Inductive line_of (p : package) : str -> Prop :=
| line_version : line_of p (join (s_ " ") [s_ "Version:"; p_version p])
| line_source s : p_source p = Some (s, None) -> line_of p (join (s_ " ") [s_ "Source:"; s])
| line_source_version s v : p_source p = Some (s, Some v) -> line_of p (join (s_ " ") [s_ "Source:"; s; s_ "(" ++ v ++ s_ ")"]).
Definition other_line (l : str) : Prop :=
  startswith (s_ "Package:") l = false /\ startswith (s_ "Version:") l = false /\
  startswith (s_ "Source:") l = false /\ startswith (s_ "Size:") l = false.
Definition stanza (p : package) (ls : list str) : Prop :=
  exists (mid : list str) (size : str) (rest : list str),
    ls = join (s_ " ") [s_ "Package:"; p_name p] :: mid ++ (s_ "Size:" ++ size) :: rest /\
    (forall l, In l mid -> line_of p l \/ other_line l) /\
    In (join (s_ " ") [s_ "Version:"; p_version p]) mid /\
    (forall s, p_source p = Some (s, None) -> In (join (s_ " ") [s_ "Source:"; s]) mid) /\
    (forall s v, p_source p = Some (s, Some v) -> In (join (s_ " ") [s_ "Source:"; s; s_ "(" ++ v ++ s_ ")"]) mid) /\
    (forall l, In l rest -> other_line l).

(** A downloaded package is one of isar's own: same file name and content *)
Definition own_package (isar : list (str * str)) (n c : str) : Prop :=
  exists d, In (d ++ "/"%char :: n, c) isar.
(** File names as they are in a pool: no path contains the name of another package, and one name
    stands for one file *)
Definition clear_names (isar : list (str * str)) (n : str) : Prop :=
  forall path c, In (path, c) isar -> contains_sub n path = true ->
    (exists d, path = d ++ "/"%char :: n) /\ forall path' c', In (path', c') isar -> contains_sub n path' = true -> c' = c.
(** A file that holds a package, by its name: .deb in any case *)
Definition package_file (n : str) : Prop :=
  exists base a b c, n = base ++ ["."%char; a; b; c] /\ In a (s_ "dD") /\ In b (s_ "eE") /\ In c (s_ "bB").
