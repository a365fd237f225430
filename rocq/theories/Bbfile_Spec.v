(** What the text of a recipe means: headers of functions, bodies, places of lines. *)
From Coq Require Import String Ascii List Bool Arith.
From Verif Require Import Str_Model Data_Model Parse_Model Parse_Spec Bbfile_Model.
Import ListNotations.
Open Scope list_scope.

(** ** Headers *)
(** A letter, a digit or the underscore *)
Definition wordly (c : ascii) : Prop := alnum c \/ c = "_"%char.
(** The words that can precede the name *)
Definition keyword_word (k : str) : Prop := k = s_ "python" \/ k = s_ "fakeroot".
(** [words] NAME ( ) { with spaces between the parts.  The name can be missing; each word is followed by a space,
    but python may stand directly before the bracket.  The name is not one of the words itself (fakeroot directly
    before the bracket is a name). *)
Definition heading (s name : str) (py fr : bool) : Prop :=
  exists (kws : list (str * str)) (n w1 w2 w3 : str),
    s = concat (map (fun p => fst p ++ snd p) kws) ++ n ++ w1 ++ s_ "(" ++ w2 ++ s_ ")" ++ w3 ++ s_ "{" /\
    Forall (fun p => keyword_word (fst p) /\ spaces (snd p)) kws /\
    (Forall (fun p => snd p <> []) kws \/
     n = [] /\ exists k, kws = k ++ [(s_ "python", [])] /\ Forall (fun p => snd p <> []) k) /\
    Forall (fun c => wordly c \/ In c (s_ ".-+{}$:")) n /\ spaces w1 /\ spaces w2 /\ spaces w3 /\
    n <> s_ "python" /\ (n = s_ "fakeroot" -> w1 = []) /\
    name = match n with [] => s_ "__anonymous" | _ => n end /\
    (py = true <-> exists w, In (s_ "python", w) kws) /\ (fr = true <-> exists w, In (s_ "fakeroot", w) kws).
(** def NAME, then somewhere a colon *)
Definition def_heading (s name : str) : Prop :=
  exists w a b, s = s_ "def" ++ w ++ name ++ a ++ s_ ":" ++ b /\ spaces w /\ w <> [] /\ name <> [] /\ Forall wordly name /\
    match a with c :: _ => ~ wordly c | [] => True end.
(** The text starts a function of one kind or the other. *)
Definition starts_function (s : str) : Prop := (exists n py fr, heading s n py fr) \/ (exists n, def_heading s n).

(** ** Files *)
(** The pieces of a file.  The first line of a function or def can be continued like any statement. *)
Inductive part :=
| Layout (i : item)
| Fn (more : list (str * str)) (final w : str) (name : str) (py fr : bool) (lines : list str) (w' : str)
| Df (more : list (str * str)) (final w : str) (name : str) (lines : list str).
Definition head_text (more : list (str * str)) (final : str) : str := concat (map fst more) ++ final.
Definition part_lines (p : part) : list str :=
  match p with
  | Layout i => item_lines i
  | Fn more final w _ _ _ lines w' => item_lines (Stmt more final w) ++ lines ++ [s_ "}" ++ w']
  | Df more final w _ lines => item_lines (Stmt more final w) ++ lines
  end.
(** A line of a def is blank, indented or a comment. *)
Definition belongs (l : str) : Prop := spaces l \/ (exists c r, l = c :: r /\ is_space c = true) \/ begins "#"%char l.
Definition good_part (p : part) : Prop :=
  match p with
  | Layout (Stmt more final w) => proper (Stmt more final w) /\ ~ starts_function (head_text more final)
  | Layout i => proper i
  | Fn more final w name py fr lines w' =>
      proper (Stmt more final w) /\ heading (head_text more final) name py fr /\
      (forall l v, In l lines -> spaces v -> l <> s_ "}" ++ v) /\ spaces w'
  | Df more final w name lines =>
      proper (Stmt more final w) /\ def_heading (head_text more final) name /\ Forall belongs lines
  end.
(** Behind a def there is nothing or a line that does not belong to it. *)
Fixpoint separated (l : list part) : Prop :=
  match l with
  | [] => True
  | Df _ _ _ _ _ :: r => match concat (map part_lines r) with [] => True | x :: _ => ~ belongs x end /\ separated r
  | _ :: r => separated r
  end.
(** The statements of the pieces, where [k] lines precede. *)
Fixpoint nodes (k : nat) (l : list part) : list node :=
  match l with
  | [] => []
  | p :: r =>
      let e := k + length (part_lines p) in
      match p with
      | Layout i => map Text (item_texts i)
      | Fn more final w name py fr lines w' => [Func name (map rstrip lines ++ [[]]) py fr e]
      | Df more final w name lines => [PyDef name (head_text more final :: map rstrip lines) (S e)]
      end ++ nodes e r
  end.

(** ** Lines *)
(** The line number i (counted from 0) of a text *)
Definition line_of (text : str) (i : nat) (l : str) : Prop := nth_error (split_on (ascii_of_nat 10) text) i = Some l.
Definition no_newline (ls : list str) : Prop := Forall (fun l => ~ In (ascii_of_nat 10) l) ls.
Definition one_line (s : str) : Prop := ~ In (ascii_of_nat 10) s.
(** The n lines from line number a on (counted from 0), without the spaces at their ends *)
Definition upto_line (a n : nat) (ls : list str) : list str := map rstrip (firstn n (skipn a ls)).
(** c lines before line number h end in a backslash *)
Definition continued_lines (ls : list str) (h c : nat) : Prop := c <= h /\ length (upto_line (h - c) c ls) = c /\ Forall (ends "\"%char) (upto_line (h - c) c ls).
(** The text t is what these lines and line number h say together *)
Definition head_at (ls : list str) (h : nat) (t : str) : Prop :=
  exists l c, nth_error ls h = Some l /\ continued_lines ls h c /\ t = concat (map (@removelast ascii) (upto_line (h - c) c ls)) ++ rstrip l.
