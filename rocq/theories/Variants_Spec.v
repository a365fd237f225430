(** What is said about the variants of recipes, without the functions of the model *)
From Coq Require Import String Ascii List.
From Verif Require Import Str_Model.
From Verif Require Export Words_Spec.
(** [has_word text w]: w is a longest piece of the text without white space *)
Import ListNotations.
Open Scope list_scope.

(** A text without colon *)
Definition colonless (s : str) : Prop := ~ In ":"%char s.
(** A name without white space or colon *)
Definition plain_name (s : str) : Prop := s <> [] /\ (forall c, In c s -> is_space c = false) /\ colonless s.
(** [w] is a piece of a text, words or not *)
Definition piece_of (w text : str) : Prop := exists a b, text = a ++ w ++ b.
(** No two pairs of a list have the same first part *)
Definition named_apart {A} (l : list (str * A)) : Prop := NoDup (map fst l).
