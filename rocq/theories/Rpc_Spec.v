(** What a sender may pass to the transport (C10). *)
From Coq Require Import Ascii String List Bool Arith.
From Verif Require Import Str_Model.
Import ListNotations.
Open Scope list_scope.

(** A JSON text as json.dumps writes it: no line break, not empty, no white space
    at its end. *)
Definition json_text (t : str) : Prop :=
  ~ In nl t /\ exists t' c, t = t' ++ [c] /\ is_space c = false.

(** The [i]-th block of [n] characters. *)
Definition block (n i : nat) (t : str) : str := firstn n (skipn (n * i) t).

(** No block of [n] characters ends in white space. *)
Definition clean_cuts (n : nat) (t : str) : Prop :=
  forall i b c, block n i t = b ++ [c] -> is_space c = false.
(** Every non-empty block contains a character that is not white space. *)
Definition no_blank_block (n : nat) (t : str) : Prop :=
  forall i, block n i t <> [] -> exists c, In c (block n i t) /\ is_space c = false.
(** [t] without the white space at the end of its blocks. *)
Fixpoint trimmed (n k : nat) (t : str) : str :=
  match k with O => [] | S k' => rstrip (firstn n t) ++ trimmed n k' (skipn n t) end.
