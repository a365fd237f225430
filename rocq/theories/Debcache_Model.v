(** meta/classes-recipe/deb-dl-dir.bbclass: lists of source packages and the cache of downloaded
    packages.  Definitions only. *)
From Coq Require Import String Ascii List Bool Arith.
From Verif Require Import Str_Model Posix_Model Imgtypes_Model.
Import ListNotations.
Open Scope list_scope.

(** ** debsrc_source_version_filter, 8-28 *)
(** awk's $1, $2, ...; missing fields are empty *)
Definition field (n : nat) (line : str) : str := nth (n - 1) (split_ws line) [].
(** substr($3, 2, length($3)-2) *)
Definition inner (w : str) : str := firstn (length w - 2) (skipn 1 w).
Definition starts_paren (w : str) : bool := startswith (s_ "(") w.
(** The variables s and v and the lines printed so far, last first *)
Definition awk_step (st : str * str * list str) (line : str) : str * str * list str :=
  let '(s, v, out) := st in
  if startswith (s_ "Package:") line then (field 2 line, [], out)
  else if startswith (s_ "Version:") line then (s, match v with [] => field 2 line | _ => v end, out)
  else if startswith (s_ "Source:") line then (field 2 line, if starts_paren (field 3 line) then inner (field 3 line) else v, out)
  else if startswith (s_ "Size:") line then (s, v, (s ++ s_ " " ++ v) :: out)
  else st.
(** sort -u: in the order of the C locale *)
Definition source_filter (lines : list str) : list str :=
  sorted_set (snd (fold_left awk_step lines (([], [], []) : str * str * list str))).

(** comm -12 on two sorted files, 65 *)
Fixpoint comm12 (a : list str) : list str -> list str :=
  fix inner_comm (b : list str) : list str :=
    match a, b with
    | x :: a', y :: b' => if seqb x y then x :: comm12 a' b' else if str_leb x y then comm12 a' b else inner_comm b'
    | _, _ => []
    end.

(** ** debsrc_download, 65-92 *)
(** ${version#*:} *)
Definition strip_epoch (v : str) : str := match cut_at ":"%char v with (_, Some r) => r | (x, None) => x end.
Definition dsc_name (src version : str) : str := src ++ s_ "_" ++ strip_epoch version ++ s_ ".dsc".
(** read src version: a line of the lists holds two words *)
Definition read_pair (line : str) : str * str := (nth 0 (split_ws line) [], nth 1 (split_ws line) []).
(** DEBSRCDIR/distro: files given by directory and name *)
Notation tree := (list (str * str)).
Definition has_file (t : tree) (d n : str) : bool := existsb (fun e => seqb (fst e) d && seqb (snd e) n) t.
Section Download.
  (** apt-get source: the names of the files it puts in the directory; None: it fails *)
  Variable apt : str -> str -> option (list str).
  (** The tree, the sources reported as missing and those asked for, last first *)
  Definition fetch_step (st : tree * list (str * str) * list (str * str)) (p : str * str) : tree * list (str * str) * list (str * str) :=
    let '(t, missing, asked) := st in
    let (src, version) := p in
    if has_file t src (dsc_name src version) then st
    else match apt src version with
         | Some files => (map (fun n => (src, n)) files ++ t, missing, p :: asked)
         | None => (t, p :: missing, p :: asked)
         end.
  Definition fetch_all (ps : list (str * str)) (t : tree) : tree * list (str * str) * list (str * str) :=
    fold_left fetch_step ps (t, [], []).
  (** None: "No packages were found in apt cache", 51-54 *)
  Definition debsrc_download (known wanted : list str) (t : tree) : option (tree * list (str * str) * list (str * str)) :=
    match source_filter known with
    | [] => None
    | avail => Some (fetch_all (map read_pair (comm12 (source_filter wanted) avail)) t)
    end.
End Download.

(** ** deb_dl_dir_export, deb_dl_dir_import, 114-174 *)
(** A directory of files: name to content *)
Definition dir := str -> option str.
Definition dir_put (d : dir) (n c : str) : dir := fun x => if seqb x n then Some c else d x.
(** -iname '*\.deb' *)
Definition is_deb (n : str) : bool := endswith (s_ ".deb") (lower n).
(** grep -F -m 1 NAME on the paths of the packages in isar-apt: the first that contains the name *)
Fixpoint grep_first (n : str) (paths : list (str * str)) : option str :=
  match paths with
  | [] => None
  | (path, c) :: r => if contains_sub n path then Some c else grep_first n r
  end.
(** One file of /var/cache/apt/archives.  ln and cp -n have the same effect, as there is no such
    file yet *)
Definition export_step (isar : list (str * str)) (pc : dir) (e : str * str) : dir :=
  let (n, c) := e in
  match pc n with
  | Some _ => pc
  | None => match grep_first n isar with
            | Some c' => if seqb c' c then pc else dir_put pc n c
            | None => dir_put pc n c
            end
  end.
(** [archives]: the files in the order in which find lists them *)
Definition export (isar : list (str * str)) (archives : list (str * str)) (pc : dir) : dir :=
  fold_left (export_step isar) (filter (fun e => is_deb (fst e)) archives) pc.
(** One file of the cache.  ln -Pf replaces an existing file; if linking is not possible, cp -n
    leaves it *)
Definition import_step (links : bool) (a : dir) (e : str * str) : dir :=
  let (n, c) := e in
  if links then dir_put a n c else match a n with Some _ => a | None => dir_put a n c end.
Definition import (links : bool) (cache : list (str * str)) (a : dir) : dir :=
  fold_left (import_step links) (filter (fun e => is_deb (fst e)) cache) a.
