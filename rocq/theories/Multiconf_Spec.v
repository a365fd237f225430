(** What a build with several configurations needs. *)
From Coq Require Import String Ascii List Bool.
From Verif Require Import Str_Model Taskdata_Model Taskdata_Spec.
Import ListNotations.
Open Scope list_scope.

(** A word of the flag mcdepends: mc:FROM:TO:NAME:TASK *)
Definition mcword (k from to name task : str) : Prop := exists p, split_on ":"%char k = [p; from; to; name; task].

Section Spec.
Variable mcs : list str.
Variable C : str -> cache.
Variable mcwords : str -> str -> list str.
Variable targets : list (str * str).

(** The names that a configuration has to provide: those that were asked for, and those that a recipe names in a
    multiconfig dependency if that recipe is itself needed, in some configuration, for such names *)
Inductive required : str -> str -> Prop :=
| R_target mc t : In (mc, t) targets -> required mc t
| R_mc mc names fn k from to t task : In mc mcs -> In to mcs -> (forall u, In u names -> required mc u) -> wanted_file (C mc) names fn ->
    In k (mcwords mc fn) -> mcword k from to t task -> required to t.
End Spec.
