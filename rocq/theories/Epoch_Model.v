(** Model of meta/lib/oe/reproducible.py (SOURCE_DATE_EPOCH), as used by
    meta/classes-global/base.bbclass 357-365, and of the times set in
    meta/classes-recipe/image.bbclass 481-484. *)
From Coq Require Import Ascii String List Bool Arith NArith ZArith.
From Verif Require Import Str_Model.
Import ListNotations.
Open Scope list_scope.

(** A directory as os.walk lists it: files with their times, directories.  (Links to
    directories are left out.) *)
Inductive tree := Dir (files : list (str * Z)) (dirs : list (str * tree)).
(** WORKDIR; S, relative to it; SRC_URI; the time of the last commit in a repository (None: no
    valid HEAD); SOURCE_DATE_EPOCH_FALLBACK, which is set by default *)
Record world := mkWorld { w_tree : tree; w_s : list str; w_uri : str; w_git : list str -> option Z; w_fallback : Z }.

Fixpoint sub (t : tree) (p : list str) : option tree :=
  match p with
  | [] => Some t
  | n :: p => match t with Dir _ ds => match find (fun e => seqb (fst e) n) ds with Some (_, s) => sub s p | None => None end end
  end.
Definition is_dir (t : tree) (p : list str) : bool := match sub t p with Some _ => true | None => false end.
(** 92-93 *)
Definition excluded (n : str) : bool := mem_str n [s_ "build"; s_ "image"; s_ "license-destdir"; s_ "patches"; s_ "pseudo"; s_ "recipe-sysroot"; s_ "recipe-sysroot-native"; s_ "sysroot-destdir"; s_ "temp"].
(** 94-97 *)
Fixpoint walk_git (t : tree) : option (list str) :=
  match t with
  | Dir _ ds =>
      if existsb (fun e => seqb (fst e) (s_ ".git")) ds then Some [s_ ".git"]
      else (fix go (l : list (str * tree)) : option (list str) :=
              match l with
              | [] => None
              | (n, s) :: l => if excluded n then go l else match walk_git s with Some p => Some (n :: p) | None => go l end
              end) ds
  end.
(** 77-100 *)
Definition find_git (w : world) : option (list str) :=
  if is_dir (w_tree w) [s_ "git"; s_ ".git"] then Some [s_ "git"; s_ ".git"]
  else if is_dir (w_tree w) (w_s w ++ [s_ ".git"]) then Some (w_s w ++ [s_ ".git"])
  else walk_git (w_tree w).
(** 102-122 *)
Definition from_git (w : world) : option Z :=
  if negb (contains_sub (s_ "git://") (w_uri w)) && negb (contains_sub (s_ "gitsm://") (w_uri w)) then None
  else match find_git w with Some p => w_git w p | None => None end.
(** 131-144: the times of all files that count, in the order of the walk *)
Definition ignored (n : str) : bool := match n with c :: _ => aeqb c "."%char | [] => false end || seqb n (s_ "singletask.lock").
Fixpoint times (t : tree) : list Z :=
  match t with
  | Dir fs ds => map snd (filter (fun f => negb (ignored (fst f))) fs) ++
      (fix go (l : list (str * tree)) : list Z := match l with [] => [] | (_, s) :: l => times s ++ go l end) ds
  end.
(** 145-147 *)
Definition newer (acc : option Z) (m : Z) : option Z :=
  match acc with Some a => if Z.eqb a 0 || Z.ltb a m then Some m else acc | None => Some m end.
(** 124-151 *)
Definition from_youngest (w : world) : option Z :=
  match w_s w with
  | [] => None
  | p => match sub (w_tree w) p with Some t => fold_left newer (times t) None | None => None end
  end.
(** x or y *)
Definition py_or (x : option Z) (y : Z) : Z := match x with Some v => if Z.eqb v 0 then y else v | None => y end.
(** 161-166 *)
Definition get_epoch (w : world) : Z := py_or (from_git w) (py_or (from_youngest w) (w_fallback w)).

(** ** The file *)
(** str() and int() of numbers; int() of other texts (with underscores) is left out *)
Definition py_str (z : Z) : str := match z with Zneg p => "-"%char :: dec (Npos p) | _ => dec (Z.to_N z) end.
Definition py_int (s : str) : option Z :=
  let digits t := match t with [] => None | _ => if forallb is_digit t then Some (Z.of_N (dec_val t)) else None end in
  match strip s with
  | c :: r => if aeqb c "-"%char then option_map Z.opp (digits r) else if aeqb c "+"%char then digits r else digits (c :: r)
  | [] => None
  end.
Definition fsys := str -> option str.
Definition put (fs : fsys) (name : str) (v : option str) : fsys := fun n => if seqb n name then v else fs n.
(** 191-199; the files when k steps were made: the new file is opened, each character written,
    and it is renamed *)
Definition write_state (fs : fsys) (file text : str) (k : nat) : fsys :=
  let tmp := file ++ s_ ".new" in
  match k with
  | 0 => fs
  | S k => if k <=? length text then put fs tmp (Some (firstn k text)) else put (put fs tmp None) file (Some text)
  end.
(** 168-189; [cache]: the variable __CACHED_SOURCE_DATE_EPOCH *)
Definition read_epoch (fs : fsys) (fallback : Z) (cache : option (str * str)) (file : str) : str * option (str * str) :=
  match cache with
  | Some ((c :: r) as v, f) =>
      if seqb f file then (v, cache)
      else let z := match fs file with Some s => match py_int s with Some z => z | None => fallback end | None => fallback end in (py_str z, Some (py_str z, file))
  | _ => let z := match fs file with Some s => match py_int s with Some z => z | None => fallback end | None => fallback end in (py_str z, Some (py_str z, file))
  end.
(** What happens with one datastore: reads, and other changes of files; the values read *)
Inductive op := Read (file : str) | Files (fs : fsys).
Fixpoint reads (fs : fsys) (fallback : Z) (cache : option (str * str)) (l : list op) : list (str * str) :=
  match l with
  | [] => []
  | Read f :: l => let '(v, c) := read_epoch fs fallback cache f in (f, v) :: reads fs fallback c l
  | Files fs :: l => reads fs fallback cache l
  end.
(** image.bbclass 483-484: what is newer gets the time, in seconds; others are left alone.
    Times in nanoseconds. *)
Definition clamp (epoch m : Z) : Z := if Z.ltb (epoch * 1000000000) m then (epoch * 1000000000)%Z else m.
