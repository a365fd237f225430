(** Items of LOCALE_GEN and lines of files. *)
From Coq Require Import String Ascii List Bool Arith.
From Verif Require Import Str_Model Str_Proofs.
Import ListNotations.
Open Scope list_scope.

(** LOCALE_GEN holds the items, separated by backslash n *)
Definition holds (v : str) (items : list str) : Prop :=
  items <> [] /\ v = join (s_ "\n") items /\ Forall (fun i => contains_sub (s_ "\n") i = false) items.
Definition blank_string (s : str) : Prop := Forall (fun c => is_space c = true) s.
(** The item without the blanks around it *)
Definition trimmed (i t : str) : Prop :=
  exists a b, i = a ++ t ++ b /\ blank_string a /\ blank_string b /\
    (forall c r, t = c :: r -> is_space c = false) /\ (forall r c, t = r ++ [c] -> is_space c = false).
(** Its locale: the first word *)
Definition locale_of (i w : str) : Prop :=
  word w /\ exists a b, i = a ++ w ++ b /\ blank_string a /\ (forall c r, b = c :: r -> is_space c = true).
(** The part in front of a character, or all of it *)
Definition part_before (c : ascii) (w p : str) : Prop :=
  ~ In c p /\ (p = w \/ exists r, w = p ++ c :: r).
(** The lines of a file whose lines all end with a newline *)
Definition lines (f : str) : list str := removelast (split_on nl f).
