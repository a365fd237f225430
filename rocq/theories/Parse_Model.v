(** Configuration files: bitbake/lib/bb/parse/parse_py/ConfHandler.py,
    bitbake/lib/bb/parse/ast.py 28-150 and the line handling of
    bitbake/lib/bb/parse/parse_py/BBHandler.py.  Definitions only.
    A file is the list of its lines without the line ends.  Not modelled: line
    numbers, messages, the variable FILE (ConfHandler.py 151-154), the recorded
    dependencies (80-88), confFilters, addpylib, the statement cache. *)
From Coq Require Import Ascii String List Bool Arith.
From Verif Require Import Str_Model Posix_Model Data_Model Search_Model.
Import ListNotations.
Open Scope list_scope.

(** ** Logical lines *)
Definition backslash : ascii := "092"%char.
Definition hash : ascii := "#"%char.
Definition head_is (c : ascii) (s : str) : bool := match s with x :: _ => aeqb x c | [] => false end.
(** s[-1] == '\\' for a text that may be empty *)
Definition continued (s : str) : bool := head_is backslash (rev s).
(** ConfHandler.py 136-144 at the end of the file: readline returns "" *)
Fixpoint drop_backslashes (r : str) : str :=
  match r with c :: r' => if aeqb c backslash then drop_backslashes r' else r | [] => [] end.
Definition cons_line (s : str) (r : option (list str)) : option (list str) :=
  match r with Some l => Some (s :: l) | None => None end.
(** ConfHandler.py 124-148.  [cur]: the text read so far of a line that ends in
    a backslash.  None: bb.fatal (142) or IndexError (136 with an empty text). *)
Fixpoint conf_go (cur : option str) (ls : list str) : option (list str) :=
  match ls with
  | [] =>
      match cur with
      | None => Some []
      | Some s => if head_is hash s then None
                  else match rev (drop_backslashes (rev s)) with [] => None | t => Some [t] end
      end
  | l :: ls' =>
      let s2 := rstrip l in
      match cur with
      | None =>
          match s2 with
          | [] => conf_go None ls'
          | _ => if continued s2 then conf_go (Some s2) ls'
                 else if head_is hash s2 then conf_go None ls' else cons_line s2 (conf_go None ls')
          end
      | Some s =>
          if head_is hash s && negb (head_is hash s2) then None
          else
            let t := removelast s ++ s2 in
            match t with
            | [] => None
            | _ => if continued t then conf_go (Some t) ls'
                   else if head_is hash t then conf_go None ls' else cons_line t (conf_go None ls')
            end
      end
  end.
Definition conf_lines (ls : list str) : option (list str) := conf_go None ls.

(** BBHandler.py 201-221 with 97 and 104, outside functions.  [residue] is
    __residue__.  None: bb.fatal, IndexError for __residue__[0][0], or the
    ParseError of 105. *)
Fixpoint bb_go (residue : list str) (ls : list str) : option (list str) :=
  match ls with
  | [] => match residue with [] => Some [] | _ => None end
  | l :: ls' =>
      let s := rstrip l in
      if match residue with
         | [] => false
         | [] :: _ => true
         | r :: _ => (head_is hash s && negb (head_is hash r)) || (head_is hash r && negb (head_is hash s))
         end then None
      else if continued s then bb_go (residue ++ [removelast s]) ls'
      else
        let t := concat residue ++ s in
        match t with
        | [] => bb_go [] ls'
        | _ => if head_is hash t then bb_go [] ls' else cons_line t (bb_go [] ls')
        end
  end.
Definition bb_lines (ls : list str) : option (list str) := bb_go [] ls.

(** ** Statements *)
Inductive op := OSet | OImmediate | OLazy | OQues | OAppend | OPrepend | OPostdot | OPredot.
Record assignment := { a_exp : bool; a_var : str; a_flag : option str; a_op : op; a_value : str }.

(** ConfHandler.py 23: [a-zA-Z0-9\-_+.${}/~:] *)
Definition var_char (c : ascii) : bool := is_alpha c || is_digit c || existsb (aeqb c) (s_ "-_+.${}/~:").
(** 46-48: the same without the colon *)
Definition var_char' (c : ascii) : bool := var_char c && negb (aeqb c ":"%char).
(** 24: the first and the other characters of a flag *)
Definition flag_first (c : ascii) : bool := is_alpha c || is_digit c || existsb (aeqb c) (s_ "-_+.").
Definition flag_char (c : ascii) : bool := flag_first c || aeqb c "@"%char.
Fixpoint strip_prefix (p s : str) : option str :=
  match p, s with
  | [], _ => Some s
  | x :: p', y :: s' => if aeqb x y then strip_prefix p' s' else None
  | _, [] => None
  end.
(** 26-35: the operators in the order of the expression *)
Definition operators : list (str * op) :=
  [(s_ ":=", OImmediate); (s_ "??=", OLazy); (s_ "?=", OQues); (s_ "+=", OAppend);
   (s_ "=+", OPrepend); (s_ "=.", OPredot); (s_ ".=", OPostdot); (s_ "=", OSet)].
Definition is_quote (c : ascii) : bool := aeqb c "'"%char || aeqb c """"%char.
Definition count (c : ascii) (s : str) : nat := length (filter (aeqb c) s).
(** 37-42: the quoted value at the end.  The look-ahead (37, 38) rejects exactly
    three quotes of the kind of the first; value is greedy, its end is the last
    character of the line. *)
Definition quoted (s : str) : option str :=
  match s with
  | q :: s' =>
      if is_quote q then
        match rev s' with
        | q' :: v => if aeqb q' q && negb (count q v =? 1) then Some (rev v) else None
        | [] => None
        end
      else None
  | [] => None
  end.
(** 26-42: the first operator after which the rest of the expression matches *)
Fixpoint try_ops (ops : list (str * op)) (s : str) : option (op * str) :=
  match ops with
  | [] => None
  | (t, o) :: ops' =>
      match strip_prefix t s with
      | Some r => match quoted (lstrip r) with Some v => Some (o, v) | None => try_ops ops' s end
      | None => try_ops ops' s
      end
  end.
(** 24: the flag in brackets, if the text starts with one *)
Definition flag_at (s : str) : option (str * str) :=
  match s with
  | b :: c :: s' =>
      if aeqb b "["%char && flag_first c then
        let '(f, r) := span flag_char s' in
        match r with e :: r' => if aeqb e "]"%char then Some (c :: f, r') else None | [] => None end
      else None
  | _ => None
  end.
(** 24-42 *)
Definition after_var (s : str) : option (option str * op * str) :=
  let go f r := match try_ops operators (lstrip r) with Some (o, v) => Some (f, o, v) | None => None end in
  match flag_at s with
  | Some (f, r) => match go (Some f) r with Some x => Some x | None => go None s end
  | None => go None s
  end.
(** 23: the shortest name after which the rest matches; [pre]: reversed *)
Fixpoint var_at (pre : str) (s : str) : option (str * (option str * op * str)) :=
  match s with
  | [] => None
  | c :: s' =>
      if var_char c then
        match after_var s' with
        | Some r => Some (rev (c :: pre), r)
        | None => var_at (c :: pre) s'
        end
      else None
  end.
Definition to_assignment (e : bool) (r : str * (option str * op * str)) : assignment :=
  let '(v, (f, o, x)) := r in {| a_exp := e; a_var := v; a_flag := f; a_op := o; a_value := x |}.
(** keyword\s+ *)
Definition after_word (w s : str) : option str :=
  match strip_prefix w s with
  | Some (c :: r) => if is_space c then Some (lstrip r) else None
  | _ => None
  end.
(** 20-43 __config_regexp__.match *)
Definition match_config (s : str) : option assignment :=
  match match after_word (s_ "export") s with Some r => var_at [] r | None => None end with
  | Some r => Some (to_assignment true r)
  | None => option_map (to_assignment false) (var_at [] s)
  end.

Inductive statement :=
| Assign (a : assignment)
| Include (force : bool) (what : str)
| Export (v : str)
| Unset (v : str)
| UnsetFlag (v f : str).
(** 44-45: (.+) after the keyword; if only spaces follow, one of them is left for it *)
Definition argument (w s : str) : option str :=
  match strip_prefix w s with
  | Some (c :: r) =>
      if is_space c then
        match lstrip r with
        | [] => match rev r with x :: _ => Some [x] | [] => None end
        | t => Some t
        end
      else None
  | _ => None
  end.
(** 46-47 *)
Definition word_only (w s : str) : option str :=
  match after_word w s with
  | Some (c :: r) => if forallb var_char' (c :: r) then Some (c :: r) else None
  | _ => None
  end.
(** 48: here a flag has at least two characters *)
Definition unset_flag (s : str) : option (str * str) :=
  match after_word (s_ "unset") s with
  | Some r =>
      match span var_char' r with
      | (c :: v, r') => match flag_at r' with
                        | Some (f, []) => if 2 <=? length f then Some (c :: v, f) else None
                        | _ => None
                        end
      | _ => None
      end
  | None => None
  end.
(** 163-200 feeder (baseconfig False); None: ParseError *)
Definition feeder (s : str) : option statement :=
  match match_config s with
  | Some a => Some (Assign a)
  | None =>
      match argument (s_ "include") s, argument (s_ "require") s, word_only (s_ "export") s, word_only (s_ "unset") s, unset_flag s with
      | Some w, _, _, _, _ => Some (Include false w)
      | None, Some w, _, _, _ => Some (Include true w)
      | None, None, Some v, _, _ => Some (Export v)
      | None, None, None, Some v, _ => Some (Unset v)
      | None, None, None, None, Some (v, f) => Some (UnsetFlag v f)
      | None, None, None, None, None => None
      end
  end.
(** 120-148: the statements of a file, or an exception *)
Fixpoint feed (ls : list str) : option (list statement) :=
  match ls with
  | [] => Some []
  | l :: ls' => match feeder l, feed ls' with Some s, Some r => Some (s :: r) | _, _ => None end
  end.
Definition statements (ls : list str) : option (list statement) :=
  match conf_lines ls with Some l => feed l | None => None end.

(** ** Evaluation *)
Definition with_flags (f : list (str * str)) (e : entry) : entry :=
  {| e_content := e_content e; e_default := e_default e; e_append := e_append e; e_prepend := e_prepend e; e_remove := e_remove e; e_flags := f |}.
(** data_smart.py 744-773 setVarFlag; without the list of exported variables (768-773) *)
Definition set_flag (st : store) (var flag value : str) : store :=
  if seqb flag (s_ "_defaultval") then set_default st var value
  else if seqb flag (s_ "_content") then change st var (with_content value)
  else change st var (fun e => with_flags (set (e_flags e) flag value) e).
(** data_smart.py 775-833 getVarFlag with noweakdefault and parsing, unexpanded *)
Definition get_content (st : store) (var : str) : option str :=
  match find_var st var with Some e => e_content e | None => None end.
Definition get_flag (st : store) (var flag : str) : option str :=
  match find_var st var with
  | Some e => if seqb flag (s_ "_defaultval") then e_default e
              else if seqb flag (s_ "_content") then e_content e else get (e_flags e) flag
  | None => None
  end.
(** data_smart.py 907-923 delVarFlag *)
Definition del_flag (st : store) (var flag : str) : store :=
  match find_var st var with
  | None => st
  | Some e =>
      change st var (fun e =>
        if seqb flag (s_ "_defaultval") then
          {| e_content := e_content e; e_default := None; e_append := e_append e; e_prepend := e_prepend e; e_remove := e_remove e; e_flags := e_flags e |}
        else if seqb flag (s_ "_content") then
          {| e_content := None; e_default := e_default e; e_append := e_append e; e_prepend := e_prepend e; e_remove := e_remove e; e_flags := e_flags e |}
        else with_flags (del (e_flags e) flag) e)
  end.

Section Eval.
  (** limits of the datastore model (Data_Model.get_val) *)
  Variables depth rounds : nat.
  (** d.expand(s, name) in the given store *)
  Definition expand_in (st : store) (name : option str) (s : str) : res str :=
    bind (need_overrides depth rounds st) (fun o =>
      match o with
      | None => Err
      | Some ov => expand rounds (get_var depth rounds st ov) name s
      end).
  (** d.getVar(var) in the given store *)
  Definition get_in (st : store) (var : str) : res (option str) :=
    bind (need_overrides depth rounds st) (fun o => match o with None => Err | Some ov => get_var depth rounds st ov var end).
  (** ast.py 92-96 getFunc *)
  Definition get_func (st : store) (a : assignment) : option str :=
    match a_flag a with Some f => get_flag st (a_var a) f | None => get_content st (a_var a) end.
  Definition or_empty (o : option str) : str := match o with Some v => v | None => [] end.
  (** ast.py 109-132: the value to be set *)
  Definition new_value (st : store) (a : assignment) : res str :=
    let old := or_empty (get_func st a) in
    match a_op a with
    | OQues => Ok (match get_func st a with Some v => v | None => a_value a end)
    | OImmediate => expand_in st (Some (a_var a ++ s_ "[:=]")) (a_value a)
    | OAppend => Ok (old ++ s_ " " ++ a_value a)
    | OPrepend => Ok (a_value a ++ s_ " " ++ old)
    | OPostdot => Ok (old ++ a_value a)
    | OPredot => Ok (a_value a ++ old)
    | OLazy | OSet => Ok (a_value a)
    end.
  (** ast.py 98-150 DataNode.eval *)
  Definition eval_assignment (st : store) (a : assignment) : res store :=
    let st := if a_exp a then set_flag st (a_var a) (s_ "export") (s_ "1") else st in
    bind (new_value st a) (fun v =>
      Ok (match a_flag a, a_op a with
          | Some f, _ => set_flag st (a_var a) f v
          | None, OLazy => set_flag st (a_var a) (s_ "_defaultval") v
          | None, _ => set_var true [] st (a_var a) v
          end)).

  (** ast.py 33-79; [incl]: ConfHandler.py 57-68 for the expanded file names *)
  Definition eval_statement (incl : bool -> list str -> store -> res store) (st : store) (s : statement) : res store :=
    match s with
    | Assign a => eval_assignment st a
    | Include force what =>
        bind (expand_in st None what) (fun w => bind (expand_in st None w) (fun w' => incl force (split_ws w') st))
    | Export v => Ok (set_flag st v (s_ "export") (s_ "1"))
    | Unset v => Ok (del_var st v)
    | UnsetFlag v f => Ok (del_flag st v f)
    end.
  Fixpoint eval_all (incl : bool -> list str -> store -> res store) (ss : list statement) (st : store) : res store :=
    match ss with
    | [] => Ok st
    | s :: ss' => bind (eval_statement incl st s) (eval_all incl ss')
    end.

  (** the files by absolute name *)
  Variable fs : str -> option (list str).
  Definition exists_file (f : str) : bool := match fs f with Some _ => true | None => false end.
  (** ConfHandler.py 70-101; [handle]: bb.parse.handle of an existing file.  A
      missing file is an error if [force]. *)
  Definition include_single (handle : str -> store -> res store) (parent : str) (force : bool) (fn : str) (st : store) : res store :=
    if seqb parent fn then Ok st
    else
      bind (if isabs fn then Ok fn
            else bind (get_in st (s_ "BBPATH")) (fun bbpath =>
                 let path := dirname parent ++ s_ ":" ++ match bbpath with Some p => p | None => s_ "None" end in
                 Ok (match fst (which exists_file path fn false) with Some f => f | None => fn end)))
           (fun f => if exists_file f then handle f st else if force then Err else Ok st).
  Fixpoint include_all (handle : str -> store -> res store) (parent : str) (force : bool) (fns : list str) (st : store) : res store :=
    match fns with
    | [] => Ok st
    | fn :: fns' => bind (include_single handle parent force fn st) (include_all handle parent force fns')
    end.
  (** bb/parse/__init__.py handle and ConfHandler.py 111-159: only *.conf (the
      other handler is BBHandler).  [fuel] bounds the nesting of inclusions. *)
  Fixpoint handle (fuel : nat) (fn : str) (st : store) : res store :=
    match fuel with
    | O => Loops
    | S n =>
        if negb (endswith (s_ ".conf") fn) then Err
        else
          match fs fn with
          | None => Err
          | Some ls =>
              match statements ls with
              | None => Err
              | Some ss => eval_all (include_all (handle n) fn) ss st
              end
          end
    end.
End Eval.
