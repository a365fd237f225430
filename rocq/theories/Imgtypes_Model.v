(** meta/classes-recipe/image.bbclass: from IMAGE_FSTYPES to the commands of
    the image tasks.  Definitions only. *)
From Coq Require Import Ascii String List Bool Arith.
From Verif Require Import Str_Model.
Import ListNotations.
Open Scope list_scope.

(** What the class reads from the configuration. *)
Record config := {
  cf_fstypes : list str;               (* IMAGE_FSTYPES.split() *)
  cf_conversions : list str;           (* IMAGE_CONVERSIONS.split() *)
  cf_typedep : list (str * list str)   (* IMAGE_TYPEDEP:<name>, split, by cleaned name *)
}.

Definition suffix (c : str) : str := "."%char :: c.
(** t[:-n] *)
Definition cut_last (n : nat) (t : str) : str := firstn (length t - n) t.
(** x.replace('-', '_').replace('.', '_') *)
Definition clean (t : str) : str :=
  map (fun c => if aeqb c "-"%char || aeqb c "."%char then "_"%char else c) t.

(** image.bbclass 147-152: strip the first conversion that matches *)
Fixpoint strip_one (cs : list str) (t : str) : option str :=
  match cs with
  | [] => None
  | c :: cs' => if endswith (suffix c) t then Some (cut_last (length (suffix c)) t) else strip_one cs' t
  end.
(** image.bbclass 146-152 get_base_type; the name gets shorter with every
    call, so [length t] calls are enough *)
Fixpoint base_type_aux (fuel : nat) (cs : list str) (t : str) : str :=
  match fuel with
  | O => t
  | S n => match strip_one cs t with None => t | Some bt => base_type_aux n cs bt end
  end.
Definition base_type (cf : config) (t : str) : str := base_type_aux (length t) (cf_conversions cf) t.

(** (d.getVar('IMAGE_TYPEDEP:' + clean) or '').split(): lines 163, 203-204 *)
Fixpoint lookup (m : list (str * list str)) (k : str) : list str :=
  match m with
  | [] => []
  | (k', v) :: m' => if seqb k k' then v else lookup m' k
  end.
Definition deps_of (cf : config) (t : str) : list str := lookup (cf_typedep cf) (clean t).

(** image.bbclass 160-171 get_image_basetypes; sets are lists; None: recursion
    deeper than [fuel] (Python: RecursionError) *)
Fixpoint recurse_base (fuel : nat) (cf : config) (t : str) : option (list str) :=
  match fuel with
  | O => None
  | S n =>
      let bt := base_type cf t in
      (fix go (deps : list str) (ret : list str) : option (list str) :=
         match deps with
         | [] => Some ret
         | dep :: deps' => match recurse_base n cf dep with None => None | Some r => go deps' (ret ++ r) end
         end) (deps_of cf bt) [bt]
  end.
Fixpoint image_basetypes (fuel : nat) (cf : config) (ts : list str) : option (list str) :=
  match ts with
  | [] => Some []
  | t :: ts' => match recurse_base fuel cf t, image_basetypes fuel cf ts' with
                | Some a, Some b => Some (a ++ b)
                | _, _ => None
                end
  end.

(** The dictionaries filled by collect_image_type (189-194) *)
Record collected := {
  cl_base : list (str * list str);   (* basetypes *)
  cl_deps : list (str * list str);   (* typedeps *)
  cl_types : list str                (* image_types *)
}.
(** if k not in m: m[k] = []; if x not in m[k]: m[k].append(x) *)
Fixpoint add_to (m : list (str * list str)) (k x : str) : list (str * list str) :=
  match m with
  | [] => [(k, [x])]
  | (k', v) :: m' => if seqb k k' then (k', if mem_str x v then v else v ++ [x]) :: m' else (k', v) :: add_to m' k x
  end.
(** if k not in m: m[k] = set() *)
Fixpoint add_key (m : list (str * list str)) (k : str) : list (str * list str) :=
  match m with
  | [] => [(k, [])]
  | (k', v) :: m' => if seqb k k' then m else (k', v) :: add_key m' k
  end.

(** image.bbclass 196-214 collect_image_type; None: recursion deeper than [fuel] *)
Fixpoint collect (fuel : nat) (cf : config) (t : str) (s : collected) : option collected :=
  match fuel with
  | O => None
  | S n =>
      let bt := base_type cf t in
      let s0 := {| cl_base := add_to (cl_base s) bt t; cl_deps := add_key (cl_deps s) bt; cl_types := cl_types s |} in
      let s1 :=
        (fix go (deps : list str) (s : collected) : option collected :=
           match deps with
           | [] => Some s
           | dep :: deps' =>
               let s' := {| cl_base := cl_base s; cl_deps := cl_deps s;
                            cl_types := if mem_str dep (cl_types s) then cl_types s else cl_types s ++ [dep] |} in
               match collect n cf dep s' with
               | None => None
               | Some s2 => go deps' {| cl_base := cl_base s2; cl_deps := add_to (cl_deps s2) bt (base_type cf dep); cl_types := cl_types s2 |}
               end
           end) (deps_of cf t) s0 in
      match s1 with
      | None => None
      | Some s1 => if seqb bt t then Some s1 else collect n cf bt s1
      end
  end.
(** image.bbclass 216-217 *)
Fixpoint collect_list (fuel : nat) (cf : config) (ts : list str) (s : collected) : option collected :=
  match ts with
  | [] => Some s
  | t :: ts' => match collect fuel cf t s with None => None | Some s1 => collect_list fuel cf ts' s1 end
  end.
Definition collect_all (fuel : nat) (cf : config) : option collected :=
  collect_list fuel cf (cf_fstypes cf) {| cl_base := []; cl_deps := []; cl_types := cf_fstypes cf |}.

(** The commands of a task, by the type of the file they write or remove:
    line 265 the image command, 293 a conversion of [t] with [c] (writing t.c),
    313 removal.  The chown commands (266, 296) do not change which files
    exist and are left out.  Two commands are the same text (294) iff they are
    the same conversion of the same type. *)
Inductive cmd := Build (bt : str) | Convert (t c : str) | Remove (t : str).
Definition cmd_eqb (a b : cmd) : bool :=
  match a, b with
  | Build x, Build y => seqb x y
  | Convert t c, Convert t' c' => seqb t t' && seqb c c'
  | Remove x, Remove y => seqb x y
  | _, _ => false
  end.

(** sorted(conversions) *)
Fixpoint str_leb (a b : str) : bool :=
  match a, b with
  | [], _ => true
  | _, [] => false
  | x :: a', y :: b' => if aeqb x y then str_leb a' b' else Nat.leb (nat_of_ascii x) (nat_of_ascii y)
  end.
Fixpoint insert_str (x : str) (l : list str) : list str :=
  match l with
  | [] => [x]
  | y :: l' => if seqb x y then l else if str_leb x y then x :: l else y :: insert_str x l'
  end.
Definition sorted_set (l : list str) : list str := fold_right insert_str [] l.

(** [rm_images] is a set *)
Definition add_str (x : str) (l : list str) : list str := if mem_str x l then l else l ++ [x].

(** image.bbclass 287-303 create_conversions; [t] is re-assigned within the
    loop.  Each call is for a shorter name; out of fuel is never reached from
    [S (length t)] *)
Fixpoint conversions (fuel : nat) (cs kept : list str) (t : str) (st : list cmd * list str) : list cmd * list str :=
  match fuel with
  | O => st
  | S n =>
      (fix loop (l : list str) (t : str) (st : list cmd * list str) : list cmd * list str :=
         match l with
         | [] => st
         | c :: l' =>
             if endswith (suffix c) t then
               let t1 := cut_last (length (suffix c)) t in
               let st1 := conversions n cs kept t1 st in
               let cmds := if existsb (cmd_eqb (Convert t1 c)) (fst st1) then fst st1 else fst st1 ++ [Convert t1 c] in
               let rm := if mem_str t1 kept then snd st1 else add_str t1 (snd st1) in
               loop l' t1 (cmds, rm)
             else loop l' t st
         end) cs t st
  end.

(** image.bbclass 231-313: the commands of the task of one base type with the
    collected names [ts].  After the loop of 305-306, [t] is the last of [ts].
    The set [rm_images] is emptied in the order in which it was filled. *)
Definition task_cmds (cs kept : list str) (bt : str) (ts : list str) : list cmd :=
  let st := fold_left (fun st t => conversions (S (length t)) cs kept t st) ts ([Build bt], []) in
  let rm := if mem_str bt kept then snd st else add_str (last ts bt) (snd st) in
  fst st ++ map Remove rm.

(** d.setVar(task, ...) of line 322: a later base type with the same cleaned
    name overwrites the task *)
Fixpoint set_task (m : list (str * list cmd)) (k : str) (v : list cmd) : list (str * list cmd) :=
  match m with
  | [] => [(k, v)]
  | (k', v') :: m' => if seqb k k' then (k, v) :: m' else (k', v') :: set_task m' k v
  end.
(** image.bbclass 226-331: all tasks *)
Definition image_tasks (cf : config) (s : collected) : list (str * list cmd) :=
  fold_left (fun m e => set_task m (clean (fst e)) (task_cmds (sorted_set (cf_conversions cf)) (cl_types s) (fst e) (snd e)))
            (cl_base s) [].
(** image.bbclass 316-318, 331: the tasks a task comes after *)
Definition task_after (s : collected) (bt : str) : list str := map clean (lookup (cl_deps s) bt).

(** Running commands in the shell: the state is the set of image files by type;
    a conversion reads its input, rm fails on a missing file. *)
Definition run_cmd (c : cmd) (fs : list str) : option (list str) :=
  match c with
  | Build bt => Some (bt :: fs)
  | Convert t c => if mem_str t fs then Some ((t ++ suffix c) :: fs) else None
  | Remove t => if mem_str t fs then Some (filter (fun x => negb (seqb x t)) fs) else None
  end.
Fixpoint run_cmds (l : list cmd) (fs : list str) : option (list str) :=
  match l with
  | [] => Some fs
  | c :: l' => match run_cmd c fs with None => None | Some fs1 => run_cmds l' fs1 end
  end.
