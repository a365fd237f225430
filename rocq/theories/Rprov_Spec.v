(** What the configuration prefers for a runtime name. *)
From Coq Require Import Ascii String List.
From Verif Require Import Str_Model Providers_Model.
Import ListNotations.
Open Scope list_scope.

(** Files of the same name are the same file. *)
Definition same_file (files : list recipe) : Prop := forall f g, In f files -> In g files -> f_name f = f_name g -> f = g.
(** The configuration names the recipe [pn] as the provider of something that one of the
    candidates provides, and [pn] is a candidate itself. *)
Definition prefers (getvar : str -> option str) (provides : str -> list str) (files : list recipe) (pn : str) : Prop :=
  In pn (map f_pn files) /\
  exists f x, In f files /\ In x (provides (f_pn f)) /\ getvar (s_ "PREFERRED_PROVIDER_" ++ x) = Some pn.
(** PREFERRED_RPROVIDER does not name a candidate. *)
Definition no_rprovider (getvar : str -> option str) (files : list recipe) (item : str) : Prop :=
  forall pn, getvar (s_ "PREFERRED_RPROVIDER_" ++ item) = Some pn -> pn = [] \/ ~ In pn (map f_pn files).
