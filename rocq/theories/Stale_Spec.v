(** Which tasks are known to the index. *)
From Coq Require Import Ascii String List Bool.
From Verif Require Import Str_Model Stale_Model.
Import ListNotations.
Open Scope list_scope.

(** A line of the index: the beginning of the stamps of a recipe, the beginning of the names of its manifests, its directory *)
Definition index_line (lines : list str) (stamp manifest : str) : Prop := exists l dir, In l lines /\ split_ws l = [stamp; manifest; dir].
(** [name] without "do_" in front *)
Definition bare (name short : str) : Prop := exists a b c, name = a :: b :: c :: short.
(** The manifest of a task, by a line of the index that knows one of its stamps *)
Definition known (lines : list str) (t : task) (man : str) : Prop :=
  exists stamp manifest rest short, index_line lines stamp manifest /\ In (stamp ++ rest) (t_stamps t) /\ bare (t_name t) short /\ man = manifest ++ s_ "." ++ short.
(** Names of tasks have three letters at least: they begin with do_ *)
Definition named (tasks : list task) : Prop := forall t, In t tasks -> exists short, bare (t_name t) short.
