(** meta/lib/oe/path.py: path resolution below a root, and the rewriting of
    absolute symbolic links into relative ones.  Definitions only. *)
From Coq Require Import Ascii String List Bool Arith.
From Verif Require Import Str_Model Posix_Model.
Import ListNotations.
Open Scope list_scope.

(** The file system as the code sees it: os.readlink (None: not a symbolic
    link, os.path.islink false) and os.path.isdir.  Simplification: it does not
    change while a path is resolved. *)
Record fs := { readlink : str -> option str; isdir : str -> bool }.

Inductive perr := EInval | ELoop | ENoent | EAssert.
Inductive res (A : Type) := Ok (a : A) | Err (e : perr).
Arguments Ok {A}. Arguments Err {A}.

(** path.py 188-189 __is_path_below *)
Definition is_path_below (file root : str) : bool := startswith root (file ++ [slash]).

(** path.py 191-213 __realpath_rel; [rp] is __realpath with the loop count
    applied, [have] is have_dir *)
Fixpoint realpath_rel (rp : str -> res (str * bool)) (root : str) (assume : bool)
    (start : str) (have : bool) (ds : list str) : res str :=
  match ds with
  | [] => Ok start
  | d :: ds' =>
      if negb have && negb assume then Err ENoent
      else if seqb d dotdot then
             let start' := if length root <=? length start then dirname start else start in
             if is_path_below start' root then realpath_rel rp root assume start' have ds' else Err EAssert
           else match rp (pjoin start d) with
                | Err e => Err e
                | Ok (start', have') =>
                    if is_path_below start' root then realpath_rel rp root assume start' have' ds' else Err EAssert
                end
  end.

(** path.py 215-236 __realpath; the recursion is on loop_cnt, which the loop
    decreases before every recursive call and every further round *)
Fixpoint realpath1 (f : fs) (root : str) (assume : bool) (cnt : nat) (file : str) : res (str * bool) :=
  match (if length root <=? length file then readlink f file else None) with
  | None => Ok (file, isdir f file)
  | Some l =>
      match cnt with
      | O => Err ELoop
      | S cnt' =>
          let target := normpath l in
          let tdir := if isabs target then root else dirname file in
          if isabs target || is_path_below tdir root then
            match realpath_rel (realpath1 f root assume cnt') root assume tdir true (split_on slash target) with
            | Err e => Err e
            | Ok file' => realpath1 f root assume cnt' file'
            end
          else Err EAssert
      end
  end.

(** path.py 246, 249-251: the root, ending in a slash *)
Definition the_root (root : str) : str :=
  let r := normpath root in if endswith [slash] r then r else r ++ [slash].

(** path.py 238-272 realpath (the message of the errors is not modelled) *)
Definition realpath (f : fs) (file root : str) (physdir : bool) (cnt : nat) (assume : bool) : res str :=
  let root := the_root root in
  let file := normpath file in
  if negb (is_path_below file root) then Err EInval
  else if physdir then
         realpath_rel (realpath1 f root assume cnt) root assume root true
           (split_on slash (skipn (length root - 1) file))
       else match realpath1 f root assume cnt file with Ok (r, _) => Ok r | Err e => Err e end.

(** ** is_path_parent *)
(** os.path.abspath; [cwd]: the current directory *)
Definition abspath (cwd p : str) : str := normpath (if isabs p then p else pjoin cwd p).
(** path.py 281-285 *)
Definition abs_path_trailing (cwd p : str) : str :=
  let a := abspath cwd p in if endswith [slash] a then a else a ++ [slash].
(** path.py 274-294 *)
Definition is_path_parent (cwd parent : str) (paths : list str) : bool :=
  match paths with
  | [] => false
  | _ => forallb (fun p => startswith (abs_path_trailing cwd parent) (abs_path_trailing cwd p)) paths
  end.

(** ** Relative links *)
(** p.rpartition('/')[0] ('' when there is no slash) *)
Definition before_last_slash (p : str) : str := removelast (head_part p).
(** path.py 41-45: the loop; [fuel] bounds the number of rounds, each of which
    shortens a non-empty ancestor *)
Fixpoint ancestor (fuel : nat) (link anc : str) (depth : nat) : str * nat :=
  match fuel with
  | O => (anc, depth)
  | S fuel' =>
      match anc with
      | [] => (anc, depth)
      | _ => if startswith anc link then (anc, depth) else ancestor fuel' link (before_last_slash anc) (S depth)
      end
  end.
Definition strip_slashes (p : str) : str := rstrip_slashes (drop_slashes p).   (* p.strip('/') *)
Inductive relink := Unchanged | NoAncestor | Relink (target : str) | LinkLost.
(** path.py 32-57 make_relative_symlink, on a symbolic link [path] whose
    target is [link].  The link starts with the ancestor, so link.partition(ancestor)[2]
    is what follows it (51).  LinkLost: os.symlink("", path) raises after os.remove(path) (56-57). *)
Definition make_relative_symlink (path link : str) : relink :=
  if negb (isabs link) then Unchanged
  else match ancestor (S (length path)) link path 0 with
       | ([], _) => NoAncestor
       | (anc, depth) =>
           let base := strip_slashes (skipn (length anc) link) in
           match concat (repeat (s_ "../") (depth - 1)) ++ base with
           | [] => LinkLost
           | b => Relink b
           end
       end.

(** os.path.relpath(path, start) for absolute arguments *)
Fixpoint strip_common (a b : list str) : list str * list str :=
  match a, b with
  | x :: a', y :: b' => if seqb x y then strip_common a' b' else (a, b)
  | _, _ => (a, b)
  end.
Definition nonempty_comps (p : str) : list str := filter (fun c => negb (seqb c [])) (split_on slash p).
Definition relpath (cwd path start : str) : str :=
  match strip_common (nonempty_comps (abspath cwd start)) (nonempty_comps (abspath cwd path)) with
  | ([], []) => dot
  | (ups, rest) => join [slash] (repeat dotdot (length ups) ++ rest)
  end.
(** p.rpartition(sep)[2]: what follows the last occurrence of [sep] (all of p when there is none) *)
Fixpoint after_last (sep p : str) : option str :=
  match p with
  | [] => if startswith sep p then Some [] else None
  | _ :: p' => match after_last sep p' with
               | Some r => Some r
               | None => if startswith sep p then Some (skipn (length sep) p) else None
               end
  end.
(** path.py 68-75: the target replace_absolute_symlinks gives to the absolute
    link [link] found at [path] *)
Definition replace_absolute (cwd basedir path link : str) : str :=
  let rest := match after_last basedir path with Some r => r | None => path end in
  relpath cwd link (dirname rest).
