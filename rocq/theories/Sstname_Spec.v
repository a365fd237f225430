(** Shared-state file names: the intended reading. *)
From Coq Require Import Ascii String List Bool Arith ZArith.
From Verif Require Import Str_Model.
Import ListNotations.

(** A field of a name: none of the separators *)
Definition field (s : str) : Prop := forall c, In c s -> c <> ":"%char /\ c <> "/"%char /\ c <> nl.
(** A task name has no dot either *)
Definition task_name (s : str) : Prop := field s /\ ~ In "."%char s.
(** A lower-case hexadecimal hash *)
Definition hex_hash (s : str) : Prop := s <> [] /\ forall c, In c s -> In c (s_ "0123456789abcdef").

(** The last component of a path *)
Definition basename (path : str) : str := last (split_on "/" path) [].
