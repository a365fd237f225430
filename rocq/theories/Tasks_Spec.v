(** What addtask and deltask lines mean. *)
From Coq Require Import String Ascii List Bool Arith.
From Verif Require Import Str_Model Tasks_Model.
Import ListNotations.
Open Scope list_scope.

Definition occurs (p s : str) : Prop := exists a b, s = a ++ p ++ b.
(** The name of a task starts with do_, whether it is written or not *)
Definition named (t d : str) : Prop :=
  (exists r, t = s_ "do_" ++ r /\ d = t) \/ ((forall r, t <> s_ "do_" ++ r) /\ d = s_ "do_" ++ t).
Definition word_in (x : str) (o : option str) : Prop := exists s, o = Some s /\ In x (split_ws s).
(** The line creates the task; the line deletes it; the line says that b waits for a *)
Definition creates (c : command) (t : str) : Prop := exists x b a, c = Add x b a /\ named x t.
Definition deletes (c : command) (t : str) : Prop := exists ts x, c = Del ts /\ In x (split_ws ts) /\ named x t.
Definition declares (c : command) (a b : str) : Prop :=
  exists t bef aft, c = Add t bef aft /\ ((named t b /\ word_in a aft) \/ (named t a /\ word_in b bef)).
(** A task exists: the last line about it creates it *)
Definition is_task (h : list command) (t : str) : Prop :=
  exists h1 c h2, h = h1 ++ c :: h2 /\ creates c t /\ forall d, In d h2 -> ~ deletes d t.
(** b waits for a: a line says so, b was not deleted later, and a was not deleted later while b existed *)
Definition waits (h : list command) (a b : str) : Prop :=
  exists h1 c h2, h = h1 ++ c :: h2 /\ declares c a b /\
    (forall d, In d h2 -> ~ deletes d b) /\
    (forall k1 d k2, h2 = k1 ++ d :: k2 -> deletes d a -> ~ is_task (h1 ++ c :: k1) b).

(** ** Between two tasks *)
Section Graph.
  Variable tasks : list str.
  Variable deps : str -> list str.
  Variable e : str.
  (** the task y waits for x *)
  Definition next (x y : str) : Prop := x <> e /\ In y tasks /\ y <> x /\ In x (deps y).
  Inductive path : str -> str -> Prop :=
  | path_here x : path x x
  | path_next x y z : next x y -> path y z -> path x z.
  (** x is on a circle of tasks that wait for each other *)
  Definition circular (x : str) : Prop := exists y, next x y /\ path y x.
End Graph.
