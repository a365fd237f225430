(** What a build needs, from the recipes alone. *)
From Coq Require Import String Ascii List Bool.
From Verif Require Import Str_Model Taskdata_Model.
Import ListNotations.
Open Scope list_scope.

Section Spec.
Variable C : cache.

(** The file [g] can provide the name [t] *)
Definition eligible (x : side) (t g : str) : Prop := exists l, c_choice C x t = Some l /\ In g l.
(** A task of the recipe names [t] in its flag: one of the words is t:task *)
Definition flag_names (x : side) (fn t : str) : Prop :=
  exists k w tk, In k (c_tasks C fn) /\ In w (t_flag k x) /\ split_on ":"%char w = [t; tk].
(** The recipe file needs something with the name [t] *)
Definition file_needs (x : side) (fn t : str) : Prop := In t (c_needs C x fn) \/ flag_names x fn t.

(** A reason why a recipe cannot be built, or a name cannot be provided: there is a chain of needs that ends in a name
    that nothing provides *)
Inductive bad_file : str -> Prop :=
| bad_need fn x t : file_needs x fn t -> bad_name x t -> bad_file fn
with bad_name : side -> str -> Prop :=
| bad_nothing x t : c_ignored C t = false -> c_choice C x t = None -> bad_name x t
| bad_none x t : c_ignored C t = false -> c_choice C x t = Some [] -> bad_name x t
| bad_provider x t g : c_ignored C t = false -> eligible x t g -> bad_file g -> bad_name x t.

(** The names that matter for the targets, and the recipe files that can provide them *)
Inductive wanted_name (targets : list str) : side -> str -> Prop :=
| wanted_target t : In t targets -> wanted_name targets Build t
| wanted_need x fn t : wanted_file targets fn -> file_needs x fn t -> wanted_name targets x t
with wanted_file (targets : list str) : str -> Prop :=
| wanted_choice x t g : wanted_name targets x t -> c_ignored C t = false -> eligible x t g -> wanted_file targets g.

(** The first provider of the name is a recipe file that can provide it, takes part in the build and has not failed *)
Definition provided (s : state) (x : side) (t : str) : Prop :=
  exists g rest, providers s x t = g :: rest /\ eligible x t g /\ In g (s_seen s) /\ ~ In g (s_ffns s).
End Spec.
Scheme bad_file_mut := Induction for bad_file Sort Prop
with bad_name_mut := Induction for bad_name Sort Prop.
Scheme wanted_name_mut := Induction for wanted_name Sort Prop
with wanted_file_mut := Induction for wanted_file Sort Prop.
