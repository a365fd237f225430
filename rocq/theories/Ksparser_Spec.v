(** What a number and a size argument mean (C07). *)
From Coq Require Import Ascii String List Bool NArith ZArith.
From Verif Require Import Str_Model.
Import ListNotations.
Open Scope list_scope.

Definition blank (s : str) : Prop := Forall (fun c => is_space c = true) s.

(** Groups of digits joined by "_", the positional value of all their digits. *)
Definition digit_groups (dig : ascii -> N -> Prop) (base : N) (s : str) (n : N) : Prop :=
  exists gs vs, gs <> [] /\ Forall (fun g => g <> []) gs /\ s = join (s_ "_") gs /\
    Forall2 dig (concat gs) vs /\ n = fold_left (fun a v => (a * base + v)%N) vs 0%N.

Definition dec_digit_is (c : ascii) (v : N) : Prop := (v < 10)%N /\ c = ascii_of_N (48 + v).
Definition hex_digit_is (c : ascii) (v : N) : Prop :=
  ((v < 10)%N /\ c = ascii_of_N (48 + v)) \/
  ((10 <= v < 16)%N /\ (c = ascii_of_N (87 + v) \/ c = ascii_of_N (55 + v))).

(** A signed number literal with blanks around. *)
Definition signed_literal (body : str -> N -> Prop) (s : str) (z : Z) : Prop :=
  exists a sg ds b n, blank a /\ blank b /\ s = a ++ sg ++ ds ++ b /\ body ds n /\
    ((sg = [] /\ z = Z.of_N n) \/ (sg = s_ "+" /\ z = Z.of_N n) \/ (sg = s_ "-" /\ z = (- Z.of_N n)%Z)).

Definition int_literal (s : str) (z : Z) : Prop := signed_literal (digit_groups dec_digit_is 10) s z.
Definition hex_literal (s : str) (z : Z) : Prop :=
  signed_literal (fun ds n => digit_groups hex_digit_is 16 ds n \/
     exists p t, (p = s_ "0x" \/ p = s_ "0X" \/ p = s_ "0x_" \/ p = s_ "0X_") /\
                 ds = p ++ t /\ digit_groups hex_digit_is 16 t n) s z.

(** Bytes per unit. *)
Definition unit_bytes (in_bytes : bool) (c : ascii) (u : Z) : Prop :=
  (in_bytes = true /\ (c = "s" \/ c = "S")%char /\ u = 512%Z) \/
  ((c = "k" \/ c = "K")%char /\ u = 1024%Z) \/
  (c = "M"%char /\ u = (1024 * 1024)%Z) \/
  (c = "G"%char /\ u = (1024 * 1024 * 1024)%Z).
