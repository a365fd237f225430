(** Layers, their files and series. *)
From Coq Require Import Ascii String List.
From Verif Require Import Str_Model.
Import ListNotations.
Open Scope list_scope.

(** An entry of BBFILES_DYNAMIC that selects the pattern f, with these collections *)
Definition selects (cols : list str) (entry f : str) : Prop :=
  exists l, ~ In ":"%char l /\
    ((entry = l ++ s_ ":" ++ f /\ (forall x, l <> "!"%char :: x) /\ In l cols) \/ (entry = s_ "!" ++ l ++ s_ ":" ++ f /\ ~ In l cols)).
Definition well_formed (entry : str) : Prop := exists x l f, entry = x :: l ++ s_ ":" ++ f /\ x <> ":"%char /\ ~ In ":"%char l.
(** A layer fits if it says nothing, or one of its series is one of the core *)
Definition fits (series compat : list str) : Prop := compat = [] \/ exists s, In s compat /\ In s series.
