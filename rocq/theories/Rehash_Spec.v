(** What the claims on new hashes mean. *)
From Coq Require Import Ascii String List Bool Arith Relations Permutation.
From Verif Require Import Str_Model Rehash_Model.
Import ListNotations.
Open Scope list_scope.

Section Spec.
Variables deps revdeps hashed : tid -> list tid.
(** [a] depends on [b], over any number of tasks *)
Definition depends_on (a b : tid) : Prop := clos_trans tid (fun a b => In b (deps a)) a b.
(** The tasks of a build: finitely many, without loops, with the reverse of the
    dependencies; hashes are made of those of dependencies only. *)
Definition graph (all : list tid) : Prop :=
  (forall a b, In a (revdeps b) <-> In b (deps a)) /\ (forall a b, In b (deps a) -> In a all) /\
  (forall t, ~ depends_on t t) /\ (forall a b, In b (hashed a) -> In b (deps a)).
End Spec.
(** The hash of a task is the one computed from the names of its dependencies. *)
Definition right (hashed : tid -> list tid) (make : tid -> list str -> str) (s : st) (t : tid) : Prop := th s t = make t (map (name s) (hashed t)).
(** Any order of the elements *)
Definition any_order (iter : nat -> list tid -> list tid) : Prop := forall n l, Permutation (iter n l) l.
(** What a task of the same configuration depends on, itself included *)
Inductive within (depends : tid -> list tid) (mc : tid -> nat) (t : tid) : tid -> Prop :=
| within_self : within depends mc t t
| within_dep u v : within depends mc t u -> In v (depends u) -> mc v = mc t -> within depends mc t v.
(** A task for which another name was reported, or one that waits for such a task *)
Definition reported (running : tid -> bool) (deferred : list (tid * tid)) (q : list (tid * str)) (t : tid) : Prop :=
  exists p u, In (p, u) q /\ running p = false /\ (t = p \/ In (t, p) deferred).
