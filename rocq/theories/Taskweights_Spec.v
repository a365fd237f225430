(** What loop detection is supposed to find, said about the graph only. *)
From Coq Require Import List NArith.
From Verif Require Import Taskweights_Model.
Import ListNotations.

(** No task twice, no dependency twice (they are sets), and every dependency is a task. *)
Definition proper (g : graph) : Prop :=
  NoDup (gtasks g) /\ forall t, In t (gtasks g) -> NoDup (gdeps g t) /\ forall d, In d (gdeps g t) -> In d (gtasks g).

(** [t] needs [d], directly or through other tasks. *)
Inductive needs (g : graph) : nat -> nat -> Prop :=
  | needs_direct t d : In t (gtasks g) -> In d (gdeps g t) -> needs g t d
  | needs_trans t d e : In t (gtasks g) -> In d (gdeps g t) -> needs g d e -> needs g t e.

(** Some task needs itself. *)
Definition has_loop (g : graph) : Prop := exists t, needs g t t.

(** [t] is on a loop, or a task on a loop needs it. *)
Definition below_loop (g : graph) (t : nat) : Prop := exists x, needs g x x /\ (x = t \/ needs g x t).

(** The tasks that depend directly on [t], and the sum of a weight over them. *)
Definition dependents (g : graph) (t : nat) (l : list nat) : Prop :=
  NoDup l /\ forall r, In r l <-> In r (gtasks g) /\ In t (gdeps g r).
Definition total (w : nat -> N) (l : list nat) : N := fold_right (fun r acc => (w r + acc)%N) 0%N l.

(** A chain as it is printed: each task is needed by the next, the last by the first. *)
Fixpoint linked (g : graph) (x : nat) (l : list nat) (last : nat) : Prop :=
  match l with
  | [] => In last (gtasks g) /\ In x (gdeps g last)
  | y :: l' => In y (gtasks g) /\ In x (gdeps g y) /\ linked g y l' last
  end.
Definition loop_chain (g : graph) (chain : list nat) : Prop :=
  match chain with [] => False | x :: l => linked g x l x end.
