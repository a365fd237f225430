(** What the claims on archives of shared state mean. *)
From Coq Require Import Ascii String List Bool Arith.
From Verif Require Import Str_Model Ssttrip_Model.
Import ListNotations.
Open Scope list_scope.

(** Neither of two directories is in the other. *)
Definition apart (a b : path) : Prop := ~ (exists r, a = b ++ r) /\ ~ (exists r, b = a ++ r).
(** The directory [a] of [t] and the directory [b] of [t'] hold the same. *)
Definition same_below (a : path) (t : tree) (b : path) (t' : tree) : Prop := forall r n, In (a ++ r, n) t <-> In (b ++ r, n) t'.
Definition present (a : path) (t : tree) : Prop := exists n, In (a, n) t.
(** The directories of a task: different names, none in another nor in the directory the
    archive is made in, or that in it. *)
Definition well_placed (place : path) (dirs : list state) : Prop :=
  NoDup (map fst dirs) /\ (forall d, In d dirs -> apart (snd d) place) /\
  forall a d b d' c, dirs = a ++ d :: b ++ d' :: c -> apart (snd d) (snd d').
Definition shown (n : str) : Prop := forall t, n <> "."%char :: t.
