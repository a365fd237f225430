(** Vocabulary for C46. *)
From Coq Require Import Ascii String List Bool.
From Verif Require Import Str_Model Str_Proofs.
Import ListNotations.
Open Scope list_scope.

Definition blanks (s : str) : Prop := Forall (fun c => is_space c = true) s.
Definition gap (s : str) : Prop := s <> [] /\ blanks s.
(** An option: name=value, without blanks and brackets. *)
Definition setting (w : str) : Prop := word w /\ ~ In "]"%char w /\ exists k v, w = k ++ "="%char :: v /\ k <> [] /\ v <> [].
(** Options as written before a URL, with the text that stands for them. *)
Inductive written_options : str -> str -> Prop :=
| no_options : written_options [] []
| one_option b1 o b2 g : blanks b1 -> setting o -> blanks b2 -> gap g ->
    written_options (s_ "[" ++ b1 ++ o ++ b2 ++ s_ "]") ((s_ "[" ++ b1 ++ o ++ b2 ++ s_ "]") ++ g)
| two_options b1 o1 g1 o2 b2 g : blanks b1 -> setting o1 -> gap g1 -> setting o2 -> blanks b2 -> gap g ->
    written_options (s_ "[" ++ b1 ++ o1 ++ g1 ++ o2 ++ b2 ++ s_ "]") ((s_ "[" ++ b1 ++ o1 ++ g1 ++ o2 ++ b2 ++ s_ "]") ++ g).
(** A word without brackets. *)
Definition plain (w : str) : Prop := word w /\ ~ In "["%char w /\ ~ In "]"%char w.
