(** bitbake/lib/bb/utils.py 747-755, 1003-1105 and meta/lib/oe/utils.py 54-251:
    variables read as lists of words.  Definitions only.  [val] is d.getVar(variable). *)
From Coq Require Import Ascii String List Bool NArith ZArith.
From Verif Require Import Str_Model Imgtypes_Model.
Import ListNotations.
Open Scope list_scope.

(** utils.py: "if not val" *)
Definition no_value (val : option str) : bool := match val with Some (_ :: _) => false | _ => true end.
Definition value (val : option str) : str := match val with Some v => v | None => [] end.
(** utils.py 1022-1049 contains; [checkvalues] given as a string *)
Definition contains {T} (val : option str) (checkvalues : str) (truevalue falsevalue : T) : T :=
  if no_value val then falsevalue
  else if forallb (fun w => mem_str w (split_ws (value val))) (split_ws checkvalues) then truevalue else falsevalue.
(** utils.py 1051-1078 contains_any *)
Definition contains_any {T} (val : option str) (checkvalues : str) (truevalue falsevalue : T) : T :=
  if no_value val then falsevalue
  else if existsb (fun w => mem_str w (split_ws (value val))) (split_ws checkvalues) then truevalue else falsevalue.
(** utils.py 1080-1105 filter *)
Definition filter_words (val : option str) (checkvalues : str) : str :=
  if no_value val then []
  else join (s_ " ") (sorted_set (filter (fun w => mem_str w (split_ws (value val))) (split_ws checkvalues))).
(** set(l), in an order python does not define: [order] lists the elements of a set *)
Definition set_of (order : list str -> list str) (l : list str) : list str := order (sorted_set l).
(** oe/utils.py 54-66 both_contain; None: AttributeError, a variable without value *)
Definition both_contain (order : list str -> list str) (val1 val2 : option str) (checkvalue : str) : option str :=
  match val1, val2 with
  | Some v1, Some v2 =>
      if forallb (fun w => mem_str w (split_ws v1)) (split_ws checkvalue) && forallb (fun w => mem_str w (split_ws v2)) (split_ws checkvalue)
      then Some (join (s_ " ") (set_of order (split_ws checkvalue))) else Some []
  | _, _ => None
  end.
(** oe/utils.py 68-81 set_intersect *)
Definition set_intersect (order : list str -> list str) (val1 val2 : option str) : option str :=
  match val1, val2 with
  | Some v1, Some v2 => Some (join (s_ " ") (set_of order (filter (fun w => mem_str w (split_ws v2)) (split_ws v1))))
  | _, _ => None
  end.
(** oe/utils.py 112-131 features_backfill: the new value of the variable *)
Definition features_backfill (val backfill considered : option str) : option str :=
  let features := split_ws (value val) in
  match filter (fun f => negb (mem_str f features) && negb (mem_str f (split_ws (value considered)))) (split_ws (value backfill)) with
  | [] => val
  | add => Some (value val ++ s_ " " ++ join (s_ " ") add)
  end.
(** oe/utils.py 97-103 str_filter, str_filter_out; [m] is re.match of the expression *)
Definition str_filter (m : str -> bool) (s : str) : str := join (s_ " ") (filter m (split_ws s)).
Definition str_filter_out (m : str -> bool) (s : str) : str := join (s_ " ") (filter (fun x => negb (m x)) (split_ws s)).
(** oe/utils.py 105-107 build_depends_string *)
Definition build_depends_string (depends task : str) : str := join (s_ " ") (map (fun dep => dep ++ s_ ":" ++ task) (split_ws depends)).
Definition drop_end (n : nat) (s : str) : str := firstn (length s - n) s.
(** utils.py 747-755 prune_suffix: the first that fits *)
Fixpoint prune_first (var : str) (suffixes : list str) : str :=
  match suffixes with
  | [] => var
  | x :: rest => if negb (seqb x []) && endswith x var then drop_end (length x) var else prune_first var rest
  end.
(** oe/utils.py 83-94 prune_suffix: each in turn, then MLPREFIX *)
Definition prune_suffixes (var : str) (suffixes : list str) (mlprefix : option str) : str :=
  let v := fold_left (fun v x => if negb (seqb x []) && endswith x v then drop_end (length x) v else v) suffixes var in
  match mlprefix with
  | Some (c :: p) => if startswith (c :: p) v then skipn (length (c :: p)) v else v
  | _ => v
  end.
(** oe/utils.py 239-251 trim_version; None: ValueError.  num_parts below 1 is 0 here *)
Definition trim_version (version : str) (num_parts : nat) : option str :=
  match num_parts with
  | O => None
  | _ => Some (join (s_ ".") (firstn num_parts (split_on "."%char version)))
  end.
(** re.sub(r"\s+", " ", s) *)
Fixpoint sub_blanks (before : bool) (s : str) : str :=
  match s with
  | [] => []
  | c :: s' => if is_space c then (if before then sub_blanks true s' else " "%char :: sub_blanks true s') else c :: sub_blanks false s'
  end.
(** oe/utils.py 345-347 squashspaces *)
Definition squashspaces (s : str) : str := strip (sub_blanks false s).
(** utils.py 1003-1020 to_boolean of a string or None; the outer option is ValueError *)
Definition to_boolean (string : option str) (default : option bool) : option (option bool) :=
  if no_value string then Some default
  else let n := lower (value string) in
       if mem_str n [s_ "y"; s_ "yes"; s_ "1"; s_ "true"] then Some (Some true)
       else if mem_str n [s_ "n"; s_ "no"; s_ "0"; s_ "false"] then Some (Some false)
       else None.
(** oe/types.py 108-128 boolean of a string or None *)
Definition boolean (v : option str) : option bool :=
  match v with
  | None => Some false
  | Some s => let n := lower s in
              if mem_str n [s_ "yes"; s_ "y"; s_ "true"; s_ "t"; s_ "1"] then Some true
              else if mem_str n [s_ "no"; s_ "n"; s_ "false"; s_ "f"; s_ "0"] then Some false
              else None
  end.
Inductive jobs := NoJobs | BadJobs | Jobs (n : Z).
(** oe/utils.py 174-198 parallel_make; [int] is int(), BadJobs an exception *)
Fixpoint parallel_words (int : str -> option Z) (pm : list str) : jobs :=
  match pm with
  | [] => NoJobs
  | opt :: rest =>
      if seqb opt (s_ "-j") then
        match rest with [] => BadJobs | v :: _ => match int v with Some n => Jobs n | None => BadJobs end end
      else if startswith (s_ "-j") opt then match int (strip (skipn 2 opt)) with Some n => Jobs n | None => BadJobs end
      else parallel_words int rest
  end.
Definition parallel_make (int : str -> option Z) (val : option str) : jobs := parallel_words int (split_ws (value val)).
(** oe/utils.py 200-218 parallel_make_argument; [fmt] is the formatting, None an exception *)
Definition parallel_make_argument (int : str -> option Z) (val : option str) (fmt : Z -> str) (limit : option Z) : option str :=
  match parallel_make int val with
  | BadJobs => None
  | NoJobs => Some []
  | Jobs v => if (v =? 0)%Z then Some []
              else Some (fmt (match limit with Some l => if (l =? 0)%Z then v else Z.min l v | None => v end))
  end.
(** oe/utils.py 220-233 packages_filter_out_system *)
Definition packages_filter_out_system (pn packages : str) : list str :=
  filter (fun pkg => negb (mem_str pkg (map (fun x => pn ++ s_ x) [""; "-dbg"; "-dev"; "-doc"; "-locale"; "-staticdev"; "-src"]%string))
                     && negb (contains_sub (pn ++ s_ "-locale-") pkg)) (split_ws packages).
