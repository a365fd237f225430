(** Model of the version comparison in /repo/bitbake/lib/bb/utils.py 64-164.
    Strings are assumed to contain no line break (the regular expressions of lines
    66-67 do not match across lines).  Definitions only. *)
From Coq Require Import Ascii String List Bool NArith ZArith.
From Verif Require Import Str_Model Ksparser_Model.
Import ListNotations.
Open Scope list_scope.

(** Entries of the list built by explode_version: (order, content) *)
Inductive tok :=
| TTilde                (* (-1, '~') *)
| TNum (n : N)          (* (0, int) *)
| TAlpha (s : str)      (* (1, letters) *)
| TChar (c : ascii).    (* (2, character) *)

(** The greedy groups ([a-zA-Z]+) and (\d+): longest prefix *)
Fixpoint span (p : ascii -> bool) (s : str) : str * str :=
  match s with
  | [] => ([], [])
  | c :: s' => if p c then let '(a, b) := span p s' in (c :: a, b) else ([], s)
  end.

(** Lines 64-84.  The Python loop consumes at least one character each time, so
    [length s] rounds are enough. *)
Fixpoint explode_fuel (fuel : nat) (s : str) : list tok :=
  match fuel, s with
  | O, _ | _, [] => []
  | S f, c :: s' =>
      if is_digit c then
        let '(a, b) := span is_digit s in TNum (dec_val a) :: explode_fuel f b
      else if is_alpha c then
        let '(a, b) := span is_alpha s in TAlpha a :: explode_fuel f b
      else if aeqb c "~"%char then TTilde :: explode_fuel f s'
      else TChar c :: explode_fuel f s'
  end.
Definition explode_version (s : str) : list tok := explode_fuel (length s) s.

(** The order component; None is the (0, None) used after the end *)
Definition tord (t : option tok) : Z :=
  match t with
  | None => 0 | Some TTilde => -1 | Some (TNum _) => 0 | Some (TAlpha _) => 1 | Some (TChar _) => 2
  end%Z.

(** Python's < on str: by code points, a proper prefix is smaller *)
Fixpoint str_ltb (a b : str) : bool :=
  match a, b with
  | [], [] => false
  | [], _ :: _ => true
  | _ :: _, [] => false
  | x :: a', y :: b' =>
      if (N_of_ascii x <? N_of_ascii y)%N then true
      else if aeqb x y then str_ltb a' b' else false
  end.

(** ca < cb for contents of the same order *)
Definition content_ltb (a b : tok) : bool :=
  match a, b with
  | TNum x, TNum y => (x <? y)%N
  | TAlpha x, TAlpha y => str_ltb x y
  | TChar x, TChar y => (N_of_ascii x <? N_of_ascii y)%N
  | _, _ => false
  end.

(** One round of lines 112-125: None = continue with the next pair *)
Definition cmp_tok (a b : option tok) : option Z :=
  match a, b with
  | None, None => Some 0
  | _, _ =>
      if tord a <? tord b then Some (-1)
      else if tord b <? tord a then Some 1
      else match a, b with
           | None, _ => Some (-1)
           | _, None => Some 1
           | Some x, Some y => if content_ltb x y then Some (-1)
                               else if content_ltb y x then Some 1 else None
           end
  end%Z.

(** Lines 103-125; an exhausted list is read as (0, None) *)
Fixpoint cmp_toks (va vb : list tok) : Z :=
  match va, vb with
  | [], [] => 0
  | [], y :: _ => match cmp_tok None (Some y) with Some r => r | None => 0 end
  | x :: _, [] => match cmp_tok (Some x) None with Some r => r | None => 0 end
  | x :: va', y :: vb' => match cmp_tok (Some x) (Some y) with Some r => r | None => cmp_toks va' vb' end
  end.

Definition vercmp_part (a b : str) : Z := cmp_toks (explode_version a) (explode_version b).

(** A version tuple (PE, PV, PR); the epoch is already int(pe or 0) *)
Record ver := Ver { v_epoch : Z; v_version : str; v_rev : str }.

(** Lines 127-136 *)
Definition vercmp (a b : ver) : Z :=
  let r := (v_epoch a - v_epoch b)%Z in
  let r := if (r =? 0)%Z then vercmp_part (v_version a) (v_version b) else r in
  if (r =? 0)%Z then vercmp_part (v_rev a) (v_rev b) else r.

(** s.strip(" <>=") *)
Definition strip_chars (cs : string) (s : str) : str :=
  let fix go (s : str) := match s with c :: s' => if char c cs then go s' else s | [] => [] end in
  rev (go (rev (go s))).

(** s.rsplit("-", 1) when the string contains '-' *)
Definition rcut_at (sep : ascii) (s : str) : str * option str :=
  match cut_at sep (rev s) with
  | (a, Some b) => (rev b, Some (rev a))
  | (_, None) => (s, None)
  end.

(** Lines 86-98; None = int() raises ValueError *)
Definition split_version (s0 : str) : option ver :=
  let s := strip_chars " <>=" s0 in
  let finish (e : Z) (s : str) :=
    match rcut_at "-"%char s with
    | (v, Some r) => Ver e v r
    | (v, None) => Ver e v []
    end in
  match split_on ":"%char s with
  | e :: v :: _ => option_map (fun z => finish z v) (py_int e)
  | _ => Some (finish 0%Z s)
  end.

(** Lines 138-142 *)
Definition vercmp_string (a b : str) : option Z :=
  match split_version a, split_version b with
  | Some x, Some y => Some (vercmp x y)
  | _, _ => None
  end.

(** Lines 144-164; None = exception *)
Definition vercmp_string_op (a b op : str) : option bool :=
  match vercmp_string a b with
  | None => None
  | Some res =>
      if seqb op (s_ "=") || seqb op (s_ "==") then Some (res =? 0)%Z
      else if seqb op (s_ "<=") then Some (res <=? 0)%Z
      else if seqb op (s_ ">=") then Some (0 <=? res)%Z
      else if seqb op (s_ ">") || seqb op (s_ ">>") then Some (0 <? res)%Z
      else if seqb op (s_ "<") || seqb op (s_ "<<") then Some (res <? 0)%Z
      else if seqb op (s_ "!=") then Some (negb (res =? 0)%Z)
      else None
  end.
