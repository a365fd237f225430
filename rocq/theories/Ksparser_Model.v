(** Model of /repo/scripts/lib/wic/ksparser.py argument types.  Definitions only. *)
From Coq Require Import Ascii String List Bool NArith ZArith.
From Verif Require Import Str_Model.
Import ListNotations.
Open Scope list_scope.

Definition char (x : ascii) (s : string) : bool := existsb (aeqb x) (s_ s).

(** CPython int(s, base), base 10 or 16 (external): white space around, sign,
    optional 0x for base 16, digits with single underscores in between. *)
Definition hex_digit (c : ascii) : option N :=
  let n := N_of_ascii c in
  if is_digit c then Some (n - 48)%N
  else if ((97 <=? n) && (n <=? 102))%N then Some (n - 87)%N
  else if ((65 <=? n) && (n <=? 70))%N then Some (n - 55)%N
  else None.
Definition dec_digit (c : ascii) : option N :=
  if is_digit c then Some (digit_val c) else None.

Fixpoint digits (dig : ascii -> option N) (base acc : N) (prev : bool) (s : str) : option N :=
  match s with
  | [] => if prev then Some acc else None
  | c :: s' =>
      match dig c with
      | Some d => digits dig base (acc * base + d)%N true s'
      | None => if aeqb c "_"%char && prev then digits dig base acc false s' else None
      end
  end.

Definition signed (f : str -> option N) (s : str) : option Z :=
  match s with
  | c :: s' =>
      if aeqb c "-"%char then option_map (fun n => (- Z.of_N n)%Z) (f s')
      else if aeqb c "+"%char then option_map Z.of_N (f s')
      else option_map Z.of_N (f s)
  | [] => None
  end.

Definition py_int (s : str) : option Z := signed (digits dec_digit 10 0 false) (strip s).

Definition hex_body (s : str) : option N :=
  match s with
  | c :: x :: s' =>
      if aeqb c "0"%char && (aeqb x "x"%char || aeqb x "X"%char)
      then (* after the prefix one underscore is allowed *)
        match s' with
        | u :: s'' => if aeqb u "_"%char then digits hex_digit 16 0 false s''
                      else digits hex_digit 16 0 false s'
        | [] => None
        end
      else digits hex_digit 16 0 false s
  | _ => digits hex_digit 16 0 false s
  end.
Definition py_int16 (s : str) : option Z := signed hex_body (strip s).

(** Lines 71-85: apply the suffix *)
Definition apply_suffix (in_bytes : bool) (suffix : str) (size : Z) : option Z :=
  if in_bytes && (seqb suffix (s_ "s") || seqb suffix (s_ "S")) then Some (size * 512)%Z
  else
    let mult := if in_bytes then 1024%Z else 1%Z in
    if seqb suffix (s_ "k") || seqb suffix (s_ "K") then Some (size * mult)%Z
    else if seqb suffix (s_ "M") then Some (size * mult * 1024)%Z
    else if seqb suffix (s_ "G") then Some (size * mult * 1024 * 1024)%Z
    else None.

(** Lines 54-86; [None] = ArgumentTypeError *)
Definition sizetype (default : str) (in_bytes : bool) (arg : str) : option Z :=
  match py_int arg with
  | Some n => apply_suffix in_bytes default n
  | None =>
      let suffix := match rev arg with [] => [] | c :: _ => [c] end in   (* arg[-1:] *)
      match py_int (removelast arg) with                                 (* arg[:-1] *)
      | Some n => apply_suffix in_bytes suffix n
      | None => None
      end
  end.

(** Lines 114-130 *)
Definition systemidtype (arg : str) : option str :=
  match py_int16 arg with
  | Some n => if (n <=? 0)%Z || (255 <? n)%Z then None else Some arg
  | None => None
  end.
