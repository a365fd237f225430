(** The creation of shared-state archives: the intended reading. *)
From Coq Require Import Ascii String List Bool.
From Verif Require Import Str_Model Sstpack_Model.
Import ListNotations.

(** what one gets by opening the name *)
Definition opens (e : entry) (c : content) : Prop := e = File c \/ e = Link (Some c).
Definition there (e : entry) : Prop := exists c, opens e c.
(** nobody else touches the name *)
Definition undisturbed (evs : list event) : Prop := forall e, ~ In (Other e) evs.
(** no command of process [i] fails *)
Definition never_fails (i : nat) (evs : list event) : Prop := ~ In (Step i Failure) evs.
