(** What task hashes are for: they are the same for the same inputs and differ as soon as
    anything a task needs differs. *)
From Coq Require Import String Ascii List Permutation.
From Verif Require Import Str_Model Sigtask_Model.
Import ListNotations.

(** [v] is [t] or has it among the dependencies that count for hashes, however far away. *)
Inductive needs (g : str -> task) : str -> str -> Prop :=
| n_self t : needs g t t
| n_dep v p u t : In (p, u) (t_deps (g v)) -> needs g u t -> needs g v t.

(** No circle. *)
Definition acyclic (depends : str -> list str) : Prop :=
  exists rank : str -> nat, forall t d, In d (depends t) -> rank d < rank t.
(** Hash dependencies are among the task's dependencies, which are among the tasks. *)
Definition well_formed (g : str -> task) (depends : str -> list str) (tids : list str) : Prop :=
  NoDup tids /\ (forall t p d, In (p, d) (t_deps (g t)) -> In d (depends t)) /\
  (forall t d, In t tids -> In d (depends t) -> In d tids).
(** Every pass may visit the tasks in any order. *)
Definition any_order (order : nat -> list str -> list str) : Prop := forall n l, Permutation (order n l) l.

(** The digest has a fixed length. *)
Definition fixed_length (H : str -> str) : Prop := exists n, forall x, length (H x) = n.

(** The two graphs are the same but for one input of task [t]: its base hash, the text of its
    files, or its taint. *)
Definition files_part (t : task) : str := List.concat (map file_text (by_path (by_checksum (t_files t)))).
Definition one_input (a b : task) : Prop :=
  t_deps a = t_deps b /\
  (t_base a <> t_base b /\ t_files a = t_files b /\ t_taint a = t_taint b \/
   t_base a = t_base b /\ files_part a <> files_part b /\ t_taint a = t_taint b \/
   t_base a = t_base b /\ t_files a = t_files b /\ taint_text (t_taint a) <> taint_text (t_taint b)).

Definition absolute (f : str) : Prop := exists r, f = "/"%char :: r.
(** The files of [l] with the directory [p] moved to [q]. *)
Definition moved (p q : str) (a b : str * str) : Prop :=
  snd a = snd b /\ exists r, absolute r /\ fst a = p ++ r /\ fst b = q ++ r.
Definition no_mark (p : str) : Prop := forall a b, p ++ s_ "/" <> a ++ s_ "/./" ++ b.
