(** References, and how far they go. *)
From Coq Require Import Ascii String List Bool Arith.
From Verif Require Import Str_Model.
Import ListNotations.
Open Scope list_scope.

(** Some order of a set *)
Definition orders (ord : list str -> list str) : Prop := forall l, NoDup (ord l) /\ forall x, In x (ord l) <-> In x l.
(** [refers n v]: the expression refers to v through n other variables *)
Inductive refers (first : list str) (refs : str -> list str) : nat -> str -> Prop :=
| refers_first v : In v first -> refers first refs 0 v
| refers_by n u v : refers first refs n u -> In v (refs u) -> refers first refs (S n) v.
(** The least such n *)
Definition distance first refs (v : str) (n : nat) : Prop := refers first refs n v /\ forall k, refers first refs k v -> n <= k.
