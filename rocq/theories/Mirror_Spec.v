(** What the claims on mirrors mean. *)
From Coq Require Import Ascii String List Bool Arith Permutation.
From Verif Require Import Str_Model Url_Model Url_Spec Mirror_Model.
Import ListNotations.
Open Scope list_scope.

(** The address [v] comes from [u] by these lines, one after the other. *)
Inductive comes_by (repl : str -> str * str -> option str) : str -> list (str * str) -> str -> Prop :=
| comes_nil u : comes_by repl u [] u
| comes_line u x v xs w : repl u x = Some v -> comes_by repl v xs w -> comes_by repl u (x :: xs) w.
(** by lines of the list, each used at most as often as it is there *)
Definition comes_once (repl : str -> str * str -> option str) (u : str) (lines : list (str * str)) (v : str) : Prop :=
  exists xs rest, Permutation lines (xs ++ rest) /\ comes_by repl u xs v.
(** A word of a mirror line: no white space, no backslash followed by n *)
Definition line_word (w : str) : Prop := w <> [] /\ (forall c, In c w -> is_space c = false) /\ contains_sub (s_ "\n") w = false.
(** A scheme as usual: letters *)
Definition letters (t : str) : Prop := t <> [] /\ forall c, In c t -> is_alpha c = true.
(** The words that are replaced in mirror lines *)
Definition keywords : list str := [s_ "TYPE"; s_ "HOST"; s_ "PATH"; s_ "BASENAME"; s_ "MIRRORNAME"].
Definition plain (s : str) : Prop := forall k, In k keywords -> contains_sub k s = false.
(** What a regular expression stands for: [pre] fits the items, and [post] follows it. *)
Inductive fit : list item -> str -> str -> Prop :=
| fit_nil post : fit [] [] post
| fit_one u c l pre post : fits u c = true -> fit l pre post -> fit (One u :: l) (c :: pre) post
| fit_opt0 u l pre post : fit l pre post -> fit (Opt u :: l) pre post
| fit_opt1 u c l pre post : fits u c = true -> fit l pre post -> fit (Opt u :: l) (c :: pre) post
| fit_star0 u l pre post : fit l pre post -> fit (Star u :: l) pre post
| fit_star1 u c l pre post : fits u c = true -> fit (Star u :: l) pre post -> fit (Star u :: l) (c :: pre) post
| fit_end l pre post : pre ++ post = [] \/ pre ++ post = [nl] -> fit l pre post -> fit (End :: l) pre post.
