(** What the graph of the setscene tasks has to be. *)
From Coq Require Import List Bool Arith.
From Verif Require Import Runq_Model.
Import ListNotations.
Open Scope list_scope.

(** [x] is needed by [a], directly or by way of tasks that cannot be restored from the cache themselves *)
Inductive stretch (c : cfg) (a : nat) : nat -> Prop :=
| stretch_direct d : In d (depends c a) -> stretch c a d
| stretch_via x d : stretch c a x -> ~ In x (scene c) -> In d (depends c x) -> stretch c a d.

(** The data that the engine works with says just that *)
Record collapsed (c : cfg) : Prop := {
  (* a setscene task stands for the ordinary tasks that it needs in this way *)
  c_covers : forall a x, In a (scene c) -> (In x (coveredby c a) <-> ~ In x (scene c) /\ stretch c a x);
  (* the setscene tasks that need another one *)
  c_rev : forall a b, In b (scene c) -> (In a (sqrev c b) <-> In a (scene c) /\ stretch c a b);
  c_deps : forall a b, In a (scene c) -> (In b (sqdeps c a) <-> In b (scene c) /\ stretch c a b)
}.

(** What a build cannot do without: the tasks on which nothing depends and the requested ones, and what these need,
    down to the first tasks that may come from the cache *)
Definition top (c : cfg) (r : nat) : Prop := In r (tasks c) /\ ((forall t, In t (tasks c) -> ~ In r (depends c t)) \/ (In r (targets c) /\ ~ In r (scene c))).
Definition indispensable (c : cfg) (t : nat) : Prop := exists r, top c r /\ (t = r \/ (~ In r (scene c) /\ stretch c r t)).

(** During the build the hash of no task with a setscene variant changed *)
Definition no_rehash (c : cfg) (es : list event) : Prop := forall ch o, In (Migrate ch o) es -> forall t, In t ch -> ~ In t (scene c).
