(** What is said about SOURCE_DATE_EPOCH. *)
From Coq Require Import Ascii String List Bool Arith NArith ZArith.
From Verif Require Import Str_Model Epoch_Model.
Import ListNotations.
Open Scope list_scope.

(** The files and directories of a tree, whatever order they are listed in. *)
Inductive file_at : tree -> list str -> Z -> Prop :=
| file_here fs ds n m : In (n, m) fs -> file_at (Dir fs ds) [n] m
| file_below fs ds n s p m : In (n, s) ds -> file_at s p m -> file_at (Dir fs ds) (n :: p) m.
Inductive dir_at : tree -> list str -> Prop :=
| dir_here t : dir_at t []
| dir_below fs ds n s p : In (n, s) ds -> dir_at s p -> dir_at (Dir fs ds) (n :: p).
(** No two directories of the same name in one. *)
Inductive sane : tree -> Prop := sane_dir fs ds : NoDup (map fst ds) -> (forall n s, In (n, s) ds -> sane s) -> sane (Dir fs ds).
Definition counts (p : list str) : Prop := exists q n, p = q ++ [n] /\ (forall r, n <> "."%char :: r) /\ n <> s_ "singletask.lock".
Definition youngest (t : tree) (v : Z) : Prop := (exists p, file_at t p v /\ counts p) /\ forall p m, file_at t p m -> counts p -> (m <= v)%Z.
Definition from_1970 (t : tree) : Prop := forall p m, file_at t p m -> (0 <= m)%Z.
(** S, with what is in it *)
Definition source (w : world) (t : tree) : Prop := w_s w <> [] /\ sub (w_tree w) (w_s w) = Some t.
Definition git_uri (w : world) : Prop := (exists a b, w_uri w = a ++ s_ "git://" ++ b) \/ exists a b, w_uri w = a ++ s_ "gitsm://" ++ b.
(** The two usual places of the repository. *)
Definition usual_git (w : world) (p : list str) : Prop :=
  (p = [s_ "git"; s_ ".git"] /\ dir_at (w_tree w) p) \/ (~ dir_at (w_tree w) [s_ "git"; s_ ".git"] /\ p = w_s w ++ [s_ ".git"] /\ dir_at (w_tree w) p).
(** The same files, listed in another order. *)
Definition same_tree (t t' : tree) : Prop := (forall p m, file_at t p m <-> file_at t' p m) /\ forall p, dir_at t p <-> dir_at t' p.
