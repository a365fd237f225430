(** Specification vocabulary for C08 and C09. *)
From Coq Require Import Ascii String List Bool NArith ZArith.
From Verif Require Import Str_Model.
Import ListNotations.
Open Scope list_scope.

Definition all_digits (s : str) : Prop := s <> [] /\ Forall (fun c => is_digit c = true) s.
Definition starts_with_digit (s : str) : Prop := exists c t, s = c :: t /\ is_digit c = true.
Definition ends_with_digit (s : str) : Prop := exists c t, s = t ++ [c] /\ is_digit c = true.

(** dpkg's order (deb-version(7)): alternate non-digit and digit parts.  In the
    non-digit part '~' sorts before the end, letters before other characters. *)
Definition deb_order (c : ascii) : Z :=
  (if is_digit c then 0
   else if is_alpha c then Z.of_N (N_of_ascii c)
   else if aeqb c "~"%char then -1
   else Z.of_N (N_of_ascii c) + 256)%Z.
Definition deb_head (s : str) : Z := match s with [] => 0%Z | c :: _ => deb_order c end.
Fixpoint take_digits (s : str) : str * str :=
  match s with
  | c :: s' => if is_digit c then let '(a, b) := take_digits s' in (c :: a, b) else ([], s)
  | [] => ([], [])
  end.
Definition non_digit_first (s : str) : bool :=
  match s with [] => false | c :: _ => negb (is_digit c) end.
(** verrevcmp of dpkg's lib/dpkg/version.c: sign of the result *)
Fixpoint deb_cmp (fuel : nat) (a b : str) : option Z :=
  match fuel with
  | O => None
  | S f =>
      match a, b with
      | [], [] => Some 0%Z
      | _, _ =>
        if non_digit_first a || non_digit_first b then
          let oa := deb_head a in let ob := deb_head b in
          if (oa =? ob)%Z then deb_cmp f (tl a) (tl b) else Some (Z.sgn (oa - ob))
        else
          let '(da, ra) := take_digits a in let '(db, rb) := take_digits b in
          if (dec_val da =? dec_val db)%N then deb_cmp f ra rb
          else Some (if (dec_val da <? dec_val db)%N then -1 else 1)%Z
      end
  end.

(** Kinds of characters in the order in which they sort. *)
Definition kind (c : ascii) : nat :=
  if aeqb c "~"%char then 0 else if is_digit c then 1 else if is_alpha c then 2 else 3.
(** [c] continues the number or word at the end of [p]. *)
Definition continues (p : str) (c : ascii) : Prop :=
  exists d t, p = t ++ [d] /\ ((is_digit d = true /\ is_digit c = true) \/ (is_alpha d = true /\ is_alpha c = true)).
Definition all_letters (s : str) : Prop := s <> [] /\ Forall (fun c => is_alpha c = true) s.
Definition starts_with_letter (s : str) : Prop := exists c t, s = c :: t /\ is_alpha c = true.
(** Alphabetical order by code point. *)
Inductive earlier : str -> str -> Prop :=
| earlier_end : forall c s, earlier [] (c :: s)
| earlier_char : forall c d a b, (N_of_ascii c < N_of_ascii d)%N -> earlier (c :: a) (d :: b)
| earlier_next : forall c a b, earlier a b -> earlier (c :: a) (c :: b).
