(** Vocabulary for C35. *)
From Coq Require Import Ascii String List.
From Verif Require Import Str_Model.
Import ListNotations.
Open Scope list_scope.

(** [t] is [b] followed by conversions, each a dot and a name. *)
Inductive derived (cs : list str) (b : str) : str -> Prop :=
| d_base : derived cs b b
| d_conv t c : derived cs b t -> In c cs -> derived cs b (t ++ "."%char :: c).
(** [b] is a base type: no conversion at its end. *)
Definition plain (cs : list str) (b : str) : Prop := forall t c, In c cs -> b <> t ++ "."%char :: c.
(** No conversion ends with a dot and another conversion. *)
Definition unambiguous (cs : list str) : Prop := forall c1 c2 t, In c1 cs -> In c2 cs -> c1 <> t ++ "."%char :: c2.

(** The types an image needs: the requested ones, what these depend on, and
    the base types of all of them. *)
Inductive needed (base : str -> str) (deps : str -> list str) (req : list str) : str -> Prop :=
| n_req t : In t req -> needed base deps req t
| n_dep t u : needed base deps req t -> In u (deps t) -> needed base deps req u
| n_base t : needed base deps req t -> needed base deps req (base t).
(** The types whose files are wanted: requested, or a dependency of a needed type. *)
Definition wanted (base : str -> str) (deps : str -> list str) (req : list str) (t : str) : Prop :=
  In t req \/ exists u, needed base deps req u /\ In t (deps u).
