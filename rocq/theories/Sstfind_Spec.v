(** The search for shared-state objects: the intended reading. *)
From Coq Require Import Ascii String List Bool.
From Verif Require Import Str_Model.
Import ListNotations.

(** no blank in any of the fields of a name *)
Definition no_blank (s : str) : Prop := ~ In " "%char s.

(** [name t f]: the object of task [t] has the file name [f].  It is there if the
    file is in the local directory or some mirror has it. *)
Definition there (name : str -> str -> Prop) (dir : str) (local : str -> bool) (mirrored : str -> Prop) (t : str) : Prop :=
  exists f, name t f /\ (local (dir ++ s_ "/" ++ f) = true \/ mirrored f).
