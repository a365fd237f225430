(** Vocabulary for C44. *)
From Coq Require Import Ascii String List Bool NArith.
From Verif Require Import Str_Model Progress_Model.
Import ListNotations.
Open Scope list_scope.
Open Scope N_scope.

(** [lines] are the complete lines of a text, with their newlines, and [rest] what follows. *)
Definition is_line (l : str) : Prop := exists a, l = a ++ [nl] /\ ~ In nl a.
Definition has_lines (text : str) (lines : list str) (rest : str) : Prop :=
  text = concat lines ++ rest /\ Forall is_line lines /\ ~ In nl rest.

Definition digits (s : str) : Prop := s <> [] /\ Forall (fun c => is_digit c = true) s.
(** A line that announces how much there is to do. *)
Inductive announces : kind -> str -> N -> Prop :=
| apt_announces k a b t : k <> Initrd -> digits a -> digits b ->
    announces k (a ++ s_ " upgraded, " ++ b ++ s_ " newly installed" ++ t) (dec_val a + dec_val b)
| initrd_announces a t : digits a -> (forall c t', t = c :: t' -> is_digit c = false) ->
    announces Initrd (s_ "Total number of modules: " ++ a ++ t) (N.max 1 (dec_val a / 2)).
(** How many steps a line tells of, if any, and how many steps each announced unit takes. *)
Definition starts (p : string) (line : str) : Prop := exists t, line = s_ p ++ t.
Inductive tells : kind -> str -> N -> Prop :=
| tells_get l : starts "Get:" l -> tells Download l 1
| tells_unpack l : starts "Preparing to unpack" l -> tells Install l 1
| tells_setup l : starts "Setting up" l -> tells Install l 1
| tells_module l : starts "Adding module" l \/ starts "dracut-install: cp" l \/ starts "dracut-install: Failed to find module" l -> tells Initrd l 1
| tells_excluding l : starts "(excluding" l -> tells Initrd l (N.of_nat (count_occ Ascii.ascii_dec l " "%char)).
Definition steps_each (k : kind) : N := match k with Install => 2 | _ => 1 end.
(** [sums k from lines l]: the running totals after each line that tells of steps *)
Inductive sums (k : kind) : N -> list str -> list N -> Prop :=
| sums_nil from : sums k from [] []
| sums_skip from l ls r : (forall n, ~ tells k l n) -> sums k from ls r -> sums k from (l :: ls) r
| sums_tell from l n ls r : tells k l n -> sums k (from + n) ls r -> sums k from (l :: ls) (from + n :: r).
