(** Layers and the files in them. *)
From Coq Require Import Ascii String List Bool.
From Verif Require Import Str_Model Emptylayer_Model.
Import ListNotations.
Open Scope list_scope.

(** The file [f] belongs to the layer with the pattern [p]: the first that matches *)
Definition belongs (m : str -> str -> bool) (ls : list layer) (f p : str) : Prop :=
  exists before c after, ls = before ++ (c, p) :: after /\ m p f = true /\ forall c' p', In (c', p') before -> m p' f = false.
(** A layer that has a recipe *)
Definition has_recipe (m : str -> str -> bool) (ls : list layer) (recipes : list str) (p : str) : Prop := exists f, In f recipes /\ belongs m ls f p.
