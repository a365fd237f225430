(** Vocabulary for C77-C80. *)
From Coq Require Import Ascii String List Bool.
From Verif Require Import Str_Model Data_Model Data_Spec Parse_Model.
Import ListNotations.
Open Scope list_scope.

(** ** Layout of a file *)
Definition spaces (w : str) : Prop := Forall (fun c => is_space c = true) w.
Definition begins (c : ascii) (s : str) : Prop := exists t, s = c :: t.
Definition ends (c : ascii) (s : str) : Prop := exists t, s = t ++ [c].
(** What a file consists of: blank lines, comments, statements.  A statement can
    be spread over several lines: each line but the last ends in a backslash,
    and spaces after it. A comment can be continued in the same way. *)
Inductive item :=
| Blank (w : str)
| Comment (more : list (str * str)) (final : str)
| Stmt (more : list (str * str)) (final w : str).
Definition item_lines (i : item) : list str :=
  match i with
  | Blank w => [w]
  | Comment more final => map (fun p => "#"%char :: fst p ++ "\"%char :: snd p) more ++ ["#"%char :: final]
  | Stmt more final w => map (fun p => fst p ++ "\"%char :: snd p) more ++ [final ++ w]
  end.
Definition item_texts (i : item) : list str :=
  match i with
  | Stmt more final _ => [concat (map fst more) ++ final]
  | _ => []
  end.
Definition proper (i : item) : Prop :=
  match i with
  | Blank w => spaces w
  | Comment more final => Forall (fun p => spaces (snd p)) more /\ ~ ends "\"%char (rstrip ("#"%char :: final))
  | Stmt more final w =>
      (** every continued line has some text, none looks like a comment *)
      Forall (fun p => fst p <> [] /\ ~ begins "#"%char (fst p) /\ spaces (snd p)) more /\
      ~ begins "#"%char final /\ spaces w /\ (forall c, ends c final -> is_space c = false) /\
      (more ++ [(final, w)] <> [([], w)]) /\ ~ ends "\"%char (concat (map fst more) ++ final)
  end.
(** Some line ends in two backslashes. *)
Definition double_backslash (ls : list str) : Prop :=
  exists l t, In l ls /\ rstrip l = t ++ ["\"%char; "\"%char].

(** ** Assignments *)
Definition op_text (o : op) : str :=
  match o with
  | OSet => s_ "=" | OImmediate => s_ ":=" | OLazy => s_ "??=" | OQues => s_ "?="
  | OAppend => s_ "+=" | OPrepend => s_ "=+" | OPostdot => s_ ".=" | OPredot => s_ "=."
  end.
Definition alnum (c : ascii) : Prop := is_alpha c = true \/ is_digit c = true.
Definition variable (v : str) : Prop := v <> [] /\ Forall (fun c => alnum c \/ In c (s_ "-_+.${}/~:")) v.
Definition flag_name (f : str) : Prop :=
  exists c t, f = c :: t /\ (alnum c \/ In c (s_ "-_+.")) /\ Forall (fun c => alnum c \/ In c (s_ "-_+.@")) t.
Definition quote_mark (q : ascii) : Prop := q = "'"%char \/ q = """"%char.
Definition flag_text (f : option str) : str := match f with Some f => s_ "[" ++ f ++ s_ "]" | None => [] end.
Definition flag_ok (f : option str) : Prop := match f with Some f => flag_name f | None => True end.
(** The text contains the mark exactly once. *)
Definition one_mark (q : ascii) (v : str) : Prop := exists a b, v = a ++ q :: b /\ ~ In q a /\ ~ In q b.
(** The line assigns: [export ]NAME[FLAG] operator "text", where the text does
    not contain exactly one more mark of the same kind. *)
Definition written (g : assignment) (s : str) : Prop :=
  exists w1 w2 w3 q,
    s = (if a_exp g then s_ "export" ++ w1 else []) ++ a_var g ++
        flag_text (a_flag g) ++ w2 ++ op_text (a_op g) ++ w3 ++ [q] ++ a_value g ++ [q] /\
    spaces w1 /\ spaces w2 /\ spaces w3 /\ (a_exp g = true -> w1 <> []) /\
    variable (a_var g) /\ flag_ok (a_flag g) /\
    quote_mark q /\ ~ one_mark q (a_value g).
(** Names that cannot be confused with a part of the operator or with the word export. *)
Definition tidy_name (g : assignment) : Prop :=
  (forall c, ends c (a_var g) -> ~ In c (s_ ":+.")) /\ (a_exp g = true \/ a_var g <> s_ "export").

(** ** Meaning of the operators on one variable *)
(** The text assigned so far, and the weak default. *)
Definition state := (option str * option str)%type.
Definition given (o : option str) : str := match o with Some v => v | None => [] end.
Definition operate (o : op) (x : str) (s : state) : state :=
  let '(v, w) := s in
  match o with
  | OSet | OImmediate => (Some x, w)
  | OLazy => (v, Some x)
  | OQues => (match v with Some y => Some y | None => Some x end, w)
  | OAppend => (Some (given v ++ s_ " " ++ x), w)
  | OPrepend => (Some (x ++ s_ " " ++ given v), w)
  | OPostdot => (Some (given v ++ x), w)
  | OPredot => (Some (x ++ given v), w)
  end.
(** Lines of a file: an assignment to a variable, an operation (NAME:append and
    so on, with a condition) and an assignment to a flag. *)
Inductive line :=
| Plain (exported : bool) (n : str) (o : op) (x : str)
| Operation (k : keyword) (n : str) (c : option str) (o : op) (x : str)
| Flag (exported : bool) (n f : str) (o : op) (x : str).
Definition line_assignment (l : line) : assignment :=
  match l with
  | Plain e n o x => {| a_exp := e; a_var := n; a_flag := None; a_op := o; a_value := x |}
  | Operation k n c o x => {| a_exp := false; a_var := op_name n (kw_text k) c; a_flag := None; a_op := o; a_value := x |}
  | Flag e n f o x => {| a_exp := e; a_var := n; a_flag := Some f; a_op := o; a_value := x |}
  end.
Definition good_line (l : line) : Prop :=
  match l with
  | Plain _ n o _ => plain n /\ o <> OImmediate
  | Operation _ n c o _ => plain n /\ lower_case c /\ o <> OImmediate /\ o <> OLazy
  | Flag _ n f o _ => plain n /\ o <> OImmediate /\ f <> s_ "_content" /\ f <> s_ "_defaultval"
  end.
(** What the lines did to a variable, in order. *)
Definition outcome (n : str) (l : list line) : state :=
  fold_left (fun s g => match g with
                        | Plain _ m o x => if seqb m n then operate o x s else s
                        | _ => s end) l (None, None).
(** What they did to a flag.  A weak default of a flag is an assignment. *)
Definition flag_outcome (n f : str) (l : list line) : option str :=
  fold_left (fun s g =>
    let exported e m := if e && seqb m n && seqb f (s_ "export") then Some (s_ "1") else s in
    match g with
    | Plain e m _ _ => exported e m
    | Operation _ _ _ _ _ => s
    | Flag e m f' o x =>
        if seqb m n && seqb f' f
        then match o with OLazy => Some x | _ => fst (operate o x (exported e m, None)) end
        else exported e m
    end) l None.
(** The same file written with = and ??= only: [seen] are the lines before. *)
Definition plain_call (seen : list line) (g : line) : list call :=
  match g with
  | Plain _ n OLazy x => [Default n x]
  | Plain _ n _ _ => [Set_ n (given (fst (outcome n (seen ++ [g]))))]
  | Operation k n c o x =>
      let v := given (fst (operate o x (None, None))) in
      [match k with KAppend => Append n c v | KPrepend => Prepend n c v | KRemove => Remove n c v end]
  | Flag _ _ _ _ _ => []
  end.
Fixpoint rewritten (seen l : list line) : list call :=
  match l with
  | [] => []
  | g :: l' => plain_call seen g ++ rewritten (seen ++ [g]) l'
  end.
Definition assigned_text (s : state) : option str := match fst s with Some v => Some v | None => snd s end.
(** Two stores give the same texts and values. *)
Definition same_values (st st' : store) : Prop :=
  forall depth rounds ov n,
    get_raw depth rounds st ov n = get_raw depth rounds st' ov n /\
    get_var depth rounds st ov n = get_var depth rounds st' ov n.
Definition no_include (f : bool) (fns : list str) (st : store) : res store := Err.

(** ** Directives *)
(** keyword, blanks, the rest *)
Definition after_keyword (k : str) (s a : str) : Prop :=
  exists w, s = k ++ w ++ a /\ spaces w /\ w <> [] /\ a <> [] /\ forall c, begins c a -> is_space c = false.
Definition name_without_colon (v : str) : Prop := Forall (fun c => alnum c \/ In c (s_ "-_+.${}/~")) v.
(** How the directives are written: the flag to be unset has at least two characters. *)
Definition directive (st : statement) (s : str) : Prop :=
  match st with
  | Assign g => False
  | Include false a => after_keyword (s_ "include") s a
  | Include true a => after_keyword (s_ "require") s a
  | Export v => after_keyword (s_ "export") s v /\ name_without_colon v
  | Unset v => after_keyword (s_ "unset") s v /\ name_without_colon v
  | UnsetFlag v f => after_keyword (s_ "unset") s (v ++ s_ "[" ++ f ++ s_ "]") /\ v <> [] /\ name_without_colon v /\ flag_name f /\ 2 <= length f
  end.
