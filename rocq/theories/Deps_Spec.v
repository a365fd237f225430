(** Vocabulary for C40. *)
From Coq Require Import Ascii String List Bool.
From Verif Require Import Str_Model Str_Proofs.
Import ListNotations.
Open Scope list_scope.

Definition operators : list str :=
  [s_ "<="; s_ "=<"; s_ "<<"; s_ "=="; s_ "!="; s_ ">="; s_ "=>"; s_ ">>"; s_ "<"; s_ ">"; s_ "="].
(** A package with at most one constraint. *)
Definition item := (str * option (str * str))%type.
Definition good_name (n : str) : Prop := word n /\ ~ In ","%char n /\ startswith (s_ "(") n = false.
Definition good_version (v : str) : Prop := word v /\ ~ In ","%char v /\ startswith (s_ "(") v = false.
Definition good_item (i : item) : Prop :=
  good_name (fst i) /\ match snd i with None => True | Some (o, v) => In o operators /\ good_version v end.
Definition constraint_text (c : str * str) : str := fst c ++ s_ " " ++ snd c.

(** Ways to write an item as words: the parenthesis, the operator and the
    version may be written together or apart. *)
Definition no_op_start (v : str) : Prop := match v with c :: _ => ~ In c (s_ "<>=") | [] => True end.
Inductive spelled : item -> list str -> Prop :=
| sp_name n : spelled (n, None) [n]
| sp_usual n o v : spelled (n, Some (o, v)) [n; s_ "(" ++ o; v ++ s_ ")"]
| sp_apart n o v : endswith (s_ ")") v = false -> spelled (n, Some (o, v)) [n; s_ "("; o; v; s_ ")"]
| sp_apart2 n o v : spelled (n, Some (o, v)) [n; s_ "("; o; v ++ s_ ")"]
| sp_tight n o v : no_op_start v -> spelled (n, Some (o, v)) [n; s_ "(" ++ o ++ v ++ s_ ")"].

(** The constraints given for a name, in order. *)
Definition constraints (items : list item) (n : str) : list str :=
  flat_map (fun i => if seqb (fst i) n then match snd i with None => [] | Some c => [constraint_text c] end else []) items.
(** Names in the order of their first mention. *)
Definition first_mentions (items : list item) : list str := rev (nodup str_eq_dec (rev (map fst items))).

(** Dictionaries of dependencies: different names, constraints of the form operator, blank, version. *)
Definition good_deps (deps : list (str * list str)) : Prop :=
  NoDup (map fst deps) /\
  Forall (fun d => good_name (fst d) /\ Forall (fun c => exists o v, c = constraint_text (o, v) /\ In o operators /\ good_version v) (snd d)) deps.
(** Lexicographic order by character codes. *)
Inductive str_lt : str -> str -> Prop :=
| lt_nil c s : str_lt [] (c :: s)
| lt_head c d s t : nat_of_ascii c < nat_of_ascii d -> str_lt (c :: s) (d :: t)
| lt_tail c s t : str_lt s t -> str_lt (c :: s) (c :: t).
Definition ascending (l : list str) : Prop :=
  forall a x b y c, l = a ++ x :: b ++ y :: c -> str_lt x y.
