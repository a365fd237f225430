(** C31-C34. *)
From Coq Require Import Ascii String List Bool Arith.
From Verif Require Import Str_Model.
Import ListNotations.
Open Scope list_scope.

(** [implies m a b]: b follows from a in one or more steps of the mapping. *)
Inductive implies (m : list (str * str)) : str -> str -> Prop :=
| imp_one a v b : (exists l1 l2, m = l1 ++ (a, v) :: l2 /\ ~ In a (map fst l1)) -> In b (split_ws v) -> implies m a b
| imp_step a b c : implies m a b -> implies m b c -> implies m a c.

(** An item marked for removal: '-x' or '~x'. *)
Definition marks (v x : str) : Prop := v = "-"%char :: x \/ v = "~"%char :: x.
Definition is_mark (v : str) : Prop := exists x, marks v x.
Definition occurrences (x : str) (l : list str) : nat := length (filter (seqb x) l).
Definition cancels (x : str) (l : list str) : nat :=
  length (filter (fun v => seqb v ("-"%char :: x) || seqb v ("~"%char :: x)) l).
