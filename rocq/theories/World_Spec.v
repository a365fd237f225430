(** world and universe in terms of recipes. *)
From Coq Require Import String List.
From Verif Require Import Str_Model World_Model.
Import ListNotations.

Definition has_name (r : recipe) (n : str) : Prop := n = r_pn r \/ In n (r_provides r).
(** No recipe with another name provides what recipes of this name provide, and nothing of it is virtual *)
Definition alone (rs : list recipe) (pn : str) : Prop :=
  forall r n, In r rs -> r_pn r = pn -> has_name r n ->
    (forall x, n <> s_ "virtual/" ++ x) /\ (forall r', In r' rs -> has_name r' n -> r_pn r' = pn).
Definition different_files (rs : list recipe) : Prop := NoDup (map r_file rs).
