(** What the claims on revisions of git sources mean. *)
From Coq Require Import Ascii String List Bool Arith.
From Verif Require Import Str_Model.
Import ListNotations.
Open Scope list_scope.

(** The variables that can give the revision of the source [name] of the recipe [pn],
    the strongest first. *)
Definition variables (pn name : str) : list str :=
  [s_ "SRCREV_" ++ name ++ s_ ":pn-" ++ pn; s_ "SRCREV_" ++ name; s_ "SRCREV:pn-" ++ pn; s_ "SRCREV"].
Definition usable (getVar : str -> option str) (a v : str) : Prop := getVar a = Some v /\ v <> [] /\ v <> s_ "INVALID".
(** The first usable variable is [v]; no variable is usable. *)
Definition decided (getVar : str -> option str) (vars : list str) (v : str) : Prop :=
  exists l1 a l2, vars = l1 ++ a :: l2 /\ usable getVar a v /\ forall b w, In b l1 -> ~ usable getVar b w.
Definition undecided (getVar : str -> option str) (vars : list str) : Prop := forall b w, In b vars -> ~ usable getVar b w.

(** The answer of a repository: objects and the refs that name them. *)
Definition points (out : list (str * str)) (ref c : str) : Prop := In (c, ref) out.
Definition absent (out : list (str * str)) (ref : str) : Prop := forall c, ~ points out ref c.
Definition refs_once (out : list (str * str)) : Prop := NoDup (map snd out).
Definition branch_ref (u : str) : str := s_ "refs/heads/" ++ u.
Definition tag_ref (u : str) : str := s_ "refs/tags/" ++ u.
(** the commit of an annotated tag *)
Definition peeled (r : str) : str := r ++ s_ "^{}".
Definition begins_refs (u : str) : Prop := exists v, u = s_ "refs/" ++ v.
Definition sha1 (r : str) : Prop := length r = 40 /\ forall c, In c r -> In c (s_ "0123456789abcdef").

(** A format read from the left, at each place the longest name. *)
Inductive token := Char (c : ascii) | Name (n : str).
Inductive reads (names : list str) : str -> list token -> Prop :=
| r_end : reads names [] []
| r_name : forall n f toks, In n names -> (forall m g, In m names -> n ++ f = m ++ g -> length m <= length n) -> reads names f toks -> reads names (n ++ f) (Name n :: toks)
| r_char : forall c f toks, (forall m g, In m names -> c :: f <> m ++ g) -> reads names f toks -> reads names (c :: f) (Char c :: toks).
(** The revision of the last source called [n], if any. *)
Definition last_rev (n : str) (scms : list (str * str)) : option str := option_map snd (find (fun e => seqb n (fst e)) (rev scms)).
Definition value (scms : list (str * str)) (t : token) : str :=
  match t with Char c => [c] | Name n => match last_rev n scms with Some r => firstn 10 r | None => [] end end.
