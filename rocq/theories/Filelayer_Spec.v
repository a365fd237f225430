(** Which pattern is the most exact one. *)
From Coq Require Import Ascii String List Bool Arith.
From Verif Require Import Str_Model.
Import ListNotations.
Open Scope list_scope.

(** The pattern [p] of the layer [c] matches, no other that matches is longer, and none before it is as long *)
Definition best_match (m : str -> str -> bool) (res : list (str * str)) (path c : str) : Prop :=
  exists before p after, res = before ++ (c, p) :: after /\ p <> [] /\ m p path = true /\
    (forall c' p', In (c', p') before -> m p' path = true -> length p' < length p) /\
    (forall c' p', In (c', p') after -> m p' path = true -> length p' <= length p).
(** What is configured: every collection with its pattern *)
Definition pattern_of (var : str -> option str) (c : str) : str := match var (s_ "BBFILE_PATTERN_" ++ c) with Some p => p | None => [] end.
