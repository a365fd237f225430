(** Mutual exclusion, said about what lockfile returned. *)
From Coq Require Import List.
From Verif Require Import Lock_Model.
Import ListNotations.

(** lockfile returned the lock to process [p], which did not call unlockfile yet. *)
Definition holds (s : state) (p : nat) : Prop := exists i, at_ (pr s p) = Holding i.
Definition holds_exclusively (s : state) (p : nat) : Prop := holds s p /\ wants (pr s p) = Exclusive.

(** While one process holds the lock exclusively no other holds it. *)
Definition exclusive (s : state) : Prop :=
  forall p q, p < count s -> q < count s -> holds_exclusively s p -> holds s q -> p = q.

(** No process asks for a shared lock. *)
Definition all_exclusive (es : list event) : Prop := forall p r b, ~ In (Call p true r b) es.
