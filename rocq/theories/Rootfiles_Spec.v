(** What the claims on files of root file systems mean. *)
From Coq Require Import Ascii String List Bool Arith.
From Verif Require Import Str_Model.
Import ListNotations.
Open Scope list_scope.

(** A text of complete lines. *)
Definition text_of (lines : list str) : str := flat_map (fun l => l ++ [nl]) lines.
Definition one_line (l : str) : Prop := ~ In nl l.
Definition has_key (key l : str) : Prop := exists v, l = key ++ v.
(** The lines written for a key: none if there is no value. *)
Definition line_of (key value : str) : list str := match value with [] => [] | _ => [key ++ s_ """" ++ value ++ s_ """"] end.
(** [out] is [lines] without those the predicate holds for, in the same order. *)
Inductive without (drop : str -> Prop) : list str -> list str -> Prop :=
| w_nil : without drop [] []
| w_drop : forall x l out, drop x -> without drop l out -> without drop (x :: l) out
| w_keep : forall x l out, ~ drop x -> without drop l out -> without drop (x :: l) (x :: out).
(** The place of an additional file in the root file system [root]. *)
Definition place (root destination : str) : str := root ++ s_ "/" ++ destination.
