(** Vocabulary for C47. *)
From Coq Require Import Ascii String List Bool.
From Verif Require Import Str_Model Str_Proofs Deps_Spec.
Import ListNotations.
Open Scope list_scope.

(** [w] is a maximal run of characters other than blanks in [s]. *)
Definition has_word (s w : str) : Prop :=
  word w /\ exists a b, s = a ++ w ++ b /\ (a = [] \/ exists a' c, a = a' ++ [c] /\ is_space c = true) /\ (b = [] \/ exists c b', b = c :: b' /\ is_space c = true).
Definition var_has (v : option str) (w : str) : Prop := exists s, v = Some s /\ has_word s w.
(** Written without superfluous blanks, in alphabetical order, each word once. *)
Definition tidy (s : str) : Prop := exists ws, Forall word ws /\ ascending ws /\ s = join (s_ " ") ws.
