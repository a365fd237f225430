(** What is said about configuration fragments and build profiles *)
From Coq Require Import String Ascii List.
From Verif Require Import Str_Model Patch_Spec.
From Verif Require Export Words_Spec.
Import ListNotations.
Open Scope list_scope.

(** The file name of a path has the extension [e], with its dot *)
Definition has_ext (p e : str) : Prop := exists n b, is_basename p n /\ named n b e.
(** Some of a list, in the same order: those for which [P] holds *)
Inductive chosen {A} (P : A -> Prop) : list A -> list A -> Prop :=
| chosen_nil : chosen P [] []
| chosen_yes x l r : P x -> chosen P l r -> chosen P (x :: l) (x :: r)
| chosen_no x l r : ~ P x -> chosen P l r -> chosen P (x :: l) r.
(** A relative path without white space: not empty, and no slash in front *)
Definition relative (p : str) : Prop := (exists c r, p = c :: r /\ c <> "/"%char) /\ forall c, In c p -> is_space c = false.
(** A word for true, and one for false, of a variable *)
Definition is_true (o : option str) : Prop := exists s, o = Some s /\ In (lower s) [s_ "y"; s_ "yes"; s_ "1"; s_ "true"].
Definition is_false (o : option str) : Prop := o = None \/ o = Some [] \/ exists s, o = Some s /\ In (lower s) [s_ "n"; s_ "no"; s_ "0"; s_ "false"].
