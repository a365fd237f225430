(** Python strings as lists of characters, and the str methods the modelled code
    uses (CPython library, external to /repo).  Definitions only. *)
From Coq Require Import Ascii String List Bool NArith ZArith.
Import ListNotations.
Open Scope list_scope.

Definition str := list ascii.
Definition s_ (x : string) : str := list_ascii_of_string x.

Definition aeqb := Ascii.eqb.
Fixpoint seqb (a b : str) : bool :=
  match a, b with
  | [], [] => true
  | x :: a', y :: b' => aeqb x y && seqb a' b'
  | _, _ => false
  end.

Definition nl : ascii := "010"%char.

(** str.isspace for code points below 256: 9-13, 28-32, 0x85, 0xa0 *)
Definition is_space (c : ascii) : bool :=
  let n := N_of_ascii c in
  ((9 <=? n) && (n <=? 13) || (28 <=? n) && (n <=? 32) || (n =? 133) || (n =? 160))%N.
Definition is_digit (c : ascii) : bool :=
  let n := N_of_ascii c in ((48 <=? n) && (n <=? 57))%N.
Definition is_upper (c : ascii) : bool :=
  let n := N_of_ascii c in ((65 <=? n) && (n <=? 90))%N.
Definition is_lower (c : ascii) : bool :=
  let n := N_of_ascii c in ((97 <=? n) && (n <=? 122))%N.
(** string.ascii_letters *)
Definition is_alpha (c : ascii) : bool := is_upper c || is_lower c.
Definition to_lower (c : ascii) : ascii :=
  if is_upper c then ascii_of_N (N_of_ascii c + 32) else c.
Definition lower (s : str) : str := map to_lower s.

(** str.split(): maximal runs of non-space characters *)
Fixpoint split_ws_aux (cur : str) (s : str) : list str :=
  match s with
  | [] => match cur with [] => [] | _ => [rev cur] end
  | c :: s' =>
      if is_space c then
        match cur with [] => split_ws_aux [] s' | _ => rev cur :: split_ws_aux [] s' end
      else split_ws_aux (c :: cur) s'
  end.
Definition split_ws (s : str) : list str := split_ws_aux [] s.

(** str.split(c) for a one-character separator: always at least one piece *)
Fixpoint split_aux (sep : ascii) (cur : str) (s : str) : list str :=
  match s with
  | [] => [rev cur]
  | c :: s' => if aeqb c sep then rev cur :: split_aux sep [] s' else split_aux sep (c :: cur) s'
  end.
Definition split_on (sep : ascii) (s : str) : list str := split_aux sep [] s.

(** sep.join(l) *)
Fixpoint join (sep : str) (l : list str) : str :=
  match l with
  | [] => []
  | [x] => x
  | x :: l' => x ++ sep ++ join sep l'
  end.

Fixpoint startswith (p s : str) : bool :=
  match p, s with
  | [], _ => true
  | x :: p', y :: s' => aeqb x y && startswith p' s'
  | _, [] => false
  end.
Definition endswith (p s : str) : bool := startswith (rev p) (rev s).

(** sub in s *)
Fixpoint contains_sub (sub s : str) : bool :=
  startswith sub s || match s with [] => false | _ :: s' => contains_sub sub s' end.

(** s.lstrip(), s.rstrip(), s.strip() *)
Fixpoint lstrip (s : str) : str :=
  match s with c :: s' => if is_space c then lstrip s' else s | [] => [] end.
Definition rstrip (s : str) : str := rev (lstrip (rev s)).
Definition strip (s : str) : str := rstrip (lstrip s).

Definition mem_str (x : str) (l : list str) : bool := existsb (seqb x) l.

(** s.split(sep, 1): before / after the first separator *)
Fixpoint cut_at (sep : ascii) (s : str) : str * option str :=
  match s with
  | [] => ([], None)
  | c :: s' => if aeqb c sep then ([], Some s')
               else let '(a, b) := cut_at sep s' in (c :: a, b)
  end.

(** s.replace(c, t) for a one-character pattern *)
Definition replace_char (c : ascii) (t : str) (s : str) : str :=
  flat_map (fun x => if aeqb x c then t else [x]) s.

(** s.replace(p, t), p non-empty (left to right, non-overlapping); [skip] counts
    characters of a match still to be dropped *)
Fixpoint replace_aux (p t : str) (skip : nat) (s : str) : str :=
  match s with
  | [] => []
  | c :: s' =>
      match skip with
      | S k => replace_aux p t k s'
      | O => if startswith p s then t ++ replace_aux p t (length p - 1) s'
             else c :: replace_aux p t O s'
      end
  end.
Definition replace_str (p t s : str) : str :=
  match p with [] => s | _ => replace_aux p t O s end.

(** Decimal value of a digit sequence; int() and "%d" *)
Definition digit_val (c : ascii) : N := (N_of_ascii c - 48)%N.
Definition dec_val (s : str) : N := fold_left (fun a c => (a * 10 + digit_val c)%N) s 0%N.

(** str(n) / "%d" % n for a natural number *)
Fixpoint dec_aux (fuel : nat) (n : N) (acc : str) : str :=
  match fuel with
  | O => acc
  | S f => let c := ascii_of_N (48 + n mod 10) in
           if (n / 10 =? 0)%N then c :: acc else dec_aux f (n / 10)%N (c :: acc)
  end.
Definition dec (n : N) : str := dec_aux (S (N.to_nat (N.log2 n))) n [].
