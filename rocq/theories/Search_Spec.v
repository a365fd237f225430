(** Vocabulary for C48. *)
From Coq Require Import Ascii String List Bool.
From Verif Require Import Str_Model Posix_Model.
Import ListNotations.
Open Scope list_scope.

(** [x] is the first of [l] with [p]. *)
Definition first_with {A} (p : A -> Prop) (l : list A) (x : A) : Prop :=
  exists before after, l = before ++ x :: after /\ p x /\ Forall (fun y => ~ p y) before.
(** Everything combined, the overrides (last one first, none at the end) before the directories. *)
Definition combined (overrides dirs : list str) : list (str * str) :=
  flat_map (fun o => map (fun d => (o, d)) dirs) (rev ([] :: overrides)).
Definition place (od : str * str) : str := pjoin (snd od) (fst od).
(** The directories: those of FILESEXTRAPATHS without the flag, then the others. *)
Definition directories (path : list str) (extra : str) : list str :=
  filter (fun p => negb (seqb p [])) (split_on ":"%char (replace_str (s_ "__default:") [] extra) ++ path).
