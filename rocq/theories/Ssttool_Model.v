(** Model of the upload and clean commands of scripts/isar-sstate with a file
    target.  Paths below the target directory are lists of components.
    Simplifications: no symbolic links inside the target; regular expressions given
    with --filter are arbitrary predicates on the recipe name; sizes and messages
    are left out; ages are given per file (the scan happens at one time). *)
From Coq Require Import Ascii String List Bool Arith ZArith.
From Verif Require Import Str_Model Sstname_Model.
Import ListNotations.
Open Scope list_scope.

Definition path := list str.
Fixpoint peqb (a b : path) : bool :=
  match a, b with
  | [], [] => true
  | x :: a', y :: b' => seqb x y && peqb a' b'
  | _, _ => false
  end.
Definition pjoin (p : path) : str := join (s_ "/") p.

(** The target directory: files with their content, and directories below it (the
    target directory itself is [], it always exists) *)
Record tree := mkTree { files : list (path * str); dirs : list path }.

Definition is_file (t : tree) (p : path) : bool := existsb (fun f => peqb (fst f) p) (files t).
Definition is_dir (t : tree) (p : path) : bool := peqb p [] || existsb (peqb p) (dirs t).
(** SstateFileTarget.exists, 321-322 *)
Definition exists_ (t : tree) (p : path) : bool := is_file t p || is_dir t p.

(** The proper prefixes and the path itself, shortest first, without [] *)
Fixpoint prefixes_from (done : path) (p : path) : list path :=
  match p with [] => [] | x :: p' => (done ++ [x]) :: prefixes_from (done ++ [x]) p' end.
Definition prefixes (p : path) : list path := prefixes_from [] p.

(** os.makedirs(..., exist_ok=True), 327-332: None if a component is a file *)
Definition makedirs (t : tree) (p : path) : option tree :=
  if existsb (is_file t) (prefixes p) then None
  else Some (mkTree (files t) (dirs t ++ filter (fun d => negb (is_dir t d)) (prefixes p))).

Definition put (p : path) (x : str) (l : list (path * str)) : list (path * str) :=
  if existsb (fun f => peqb (fst f) p) l
  then map (fun f => if peqb (fst f) p then (p, x) else f) l
  else l ++ [(p, x)].

(** shutil.copy, 334-335: into a directory under the same name; fails if the parent
    directory is missing *)
Definition copy_to (t : tree) (p : path) (x : str) : option tree :=
  if is_dir t p then
    (let q := p ++ [last p []] in
     if is_dir t q then None else Some (mkTree (put q x (files t)) (dirs t)))
  else if is_dir t (removelast p) then Some (mkTree (put p x (files t)) (dirs t)) else None.

(** A local file: subdirectory, name, content (None: a dangling link) *)
Record local := mkLocal { l_dir : path; l_name : str; l_data : option str }.
Definition l_path (f : local) : path := l_dir f ++ [l_name f].

(** isar-sstate 668-671: the options --filter and --arch *)
Definition selected (flt : option (str -> bool)) (arch : option str) (name : str) : bool :=
  let parts := split_on ":" name in
  negb (match flt with
        | Some m => (1 <? length parts) && negb (m (nth 1 parts []))
        | None => false
        end) &&
  negb (match arch with
        | Some (c :: a) => (5 <? length parts) && negb (seqb (nth 5 parts []) (c :: a))
        | _ => false
        end).

(** 661-679: what is to be uploaded *)
Definition to_upload (flt : option (str -> bool)) (arch : option str) (src : list local) (t : tree) : list local :=
  filter (fun f => selected flt arch (l_name f) && negb (exists_ t (l_path f))) src.

(** 683-687 *)
Fixpoint push (fs : list local) (t : tree) : tree * bool :=
  match fs with
  | [] => (t, true)
  | f :: fs' =>
      let t1 := match makedirs t (l_dir f) with Some t1 => t1 | None => t end in
      match l_data f with
      | None => (t1, false)
      | Some x => match copy_to t1 (l_path f) x with
                  | Some t2 => push fs' t2
                  | None => (t1, false)
                  end
      end
  end.

(** 651-687: true if the command ended normally.  Sizes are summed up before
    anything is uploaded (680), which fails for a dangling link. *)
Definition sstate_upload (flt : option (str -> bool)) (arch : option str) (src : list local) (t : tree) : tree * bool :=
  let fs := to_upload flt arch src t in
  if existsb (fun f => match l_data f with None => true | Some _ => false end) fs then (t, false)
  else push fs t.

(** * clean *)
(** 691-701; None: not a number *)
Definition convert_to_seconds (x : str) : option N :=
  match span is_digit x with
  | ([], _) => None
  | (ds, rest) =>
      let unit := match rest with
                  | "w"%char :: _ => 604800%N
                  | "d"%char :: _ => 86400%N
                  | "h"%char :: _ => 3600%N
                  | "m"%char :: _ => 60%N
                  | "s"%char :: _ => 1%N
                  | _ => 86400%N     (* no unit: days *)
                  end in
      Some (dec_val ds * unit)%N
  end.

(** SstateFileTarget.list_all, 353-371, with the age of every file *)
Record entry := mkEntry { e_path : path; e_fields : fields; e_age : Z }.
Definition list_all (age : path -> Z) (t : tree) : list entry :=
  flat_map (fun f => match sstate_regex (pjoin (fst f)) with
                     | Some m => [mkEntry (fst f) m (age (fst f))]
                     | None => []
                     end) (files t).

(** 586-592 *)
Definition apply_filters (flt : option (str -> bool)) (arch : option str) (l : list entry) : list entry :=
  let l := match flt with Some m => filter (fun e => m (f_pn (e_fields e))) l | None => l end in
  match arch with
  | Some (c :: a) => filter (fun e => seqb (f_arch (e_fields e)) (c :: a)) l
  | _ => l
  end.

Definition archive_suffix (s : str) : bool := mem_str s [s_ "tgz"; s_ "tar.zst"].

(** 339-351: the file, then its directories from the innermost outwards as long as
    they are empty; the target directory itself stays *)
Definition child_of (d p : path) : bool := match p with [] => false | _ => peqb (removelast p) d end.
Definition nonempty_dir (t : tree) (d : path) : bool :=
  existsb (fun f => child_of d (fst f)) (files t) || existsb (child_of d) (dirs t).
Fixpoint rmdirs (ds : list path) (t : tree) : tree :=
  match ds with
  | [] => t
  | d :: ds' =>
      if existsb (peqb d) (dirs t) then
        if nonempty_dir t d then t
        else rmdirs ds' (mkTree (files t) (filter (fun x => negb (peqb x d)) (dirs t)))
      else if is_file t d then t else rmdirs ds' t
  end.
Definition delete (p : path) (t : tree) : tree :=
  rmdirs (rev (prefixes (removelast p)))
         (mkTree (filter (fun f => negb (peqb (fst f) p)) (files t)) (dirs t)).

(** 717-727: the files to delete *)
Definition to_delete (flt : option (str -> bool)) (arch : option str) (max_age max_sig_age : N) (all : list entry) : list entry :=
  let archive_files := apply_filters flt arch (filter (fun e => archive_suffix (f_suffix (e_fields e))) all) in
  let siginfo_files := apply_filters flt arch all in      (* sic, 722 *)
  let del_archives := filter (fun e => (Z.of_N max_age <=? e_age e)%Z) archive_files in
  let hashes := map (fun e => f_hash (e_fields e)) del_archives in
  del_archives ++
  filter (fun e => (Z.of_N max_sig_age <=? e_age e)%Z || mem_str (f_hash (e_fields e)) hashes) siginfo_files.

Inductive clean_result := Cleaned (t : tree) | BadAge (* 704-706 *) | Crash. (* 709: max() of an int and None *)

(** 690-738 *)
Definition sstate_clean (flt : option (str -> bool)) (arch : option str) (max_age : str) (max_sig_age : option str)
    (age : path -> Z) (t : tree) : clean_result :=
  match convert_to_seconds max_age with
  | None => BadAge
  | Some a =>
      match convert_to_seconds (match max_sig_age with Some x => x | None => max_age end) with
      | None => Crash
      | Some b => Cleaned (fold_left (fun t e => delete (e_path e) t) (to_delete flt arch a (N.max a b) (list_all age t)) t)
      end
  end.
