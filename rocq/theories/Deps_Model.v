(** bitbake/lib/bb/utils.py: dependency strings.  Definitions only. *)
From Coq Require Import Ascii String List Bool Arith.
From Verif Require Import Str_Model Data_Model Imgtypes_Model.
Import ListNotations.
Open Scope list_scope.

(** utils.py 166-188 explode_deps *)
Fixpoint explode_words (flag : bool) (l : list str) : list str :=
  match l with
  | [] => []
  | i :: l' =>
      let flag1 := flag || startswith (s_ "(") i in
      let rest := explode_words (if flag1 && endswith (s_ ")") i then false else flag1) l' in
      if flag1 then rest else i :: rest
  end.
Definition explode_deps (s : str) : list str := explode_words false (split_ws s).

(** 216: the operators, two characters first *)
Definition two_char : list str := [s_ "<="; s_ "=<"; s_ "<<"; s_ "=="; s_ "!="; s_ ">="; s_ "=>"; s_ ">>"].
Definition one_char : list str := [s_ "<"; s_ ">"; s_ "="].
Definition cut_op (i : str) : option (str * str) :=
  if existsb (fun o => startswith o i) two_char then Some (firstn 2 i, skipn 2 i)
  else if existsb (fun o => startswith o i) one_char then Some (firstn 1 i, skipn 1 i)
  else None.

(** The loop variables of 196-202.  A constraint before any name is stored under
    the key None in Python; the model reports failure there. *)
Record pst := {
  p_r : list (str * list str);
  p_dep : option str;
  p_cmp : str;
  p_ver : str;
  p_incmp : bool;
  p_inv : bool
}.
(** 234-247 *)
Definition in_version (p : pst) (i : str) : option pst :=
  let close := endswith (s_ ")") i in
  let i1 := if close then removelast i else i in
  let ver1 := if close && negb (seqb (p_ver p) []) && negb (seqb i1 []) then p_ver p ++ s_ " " else p_ver p in
  let inv1 := if close then false else p_inv p in
  match i1 with
  | [] => Some {| p_r := p_r p; p_dep := p_dep p; p_cmp := p_cmp p; p_ver := ver1; p_incmp := p_incmp p; p_inv := inv1 |}
  | _ =>
      match p_dep p with
      | None => None
      | Some d =>
          let ver2 := ver1 ++ i1 in
          let old := match get (p_r p) d with Some l => l | None => [] end in
          Some {| p_r := set (p_r p) d (old ++ [p_cmp p ++ s_ " " ++ ver2]); p_dep := p_dep p; p_cmp := p_cmp p; p_ver := ver2; p_incmp := p_incmp p; p_inv := inv1 |}
      end
  end.
(** 249-253 *)
Definition new_dep (p : pst) (i : str) : pst :=
  {| p_r := match get (p_r p) i with Some (x :: l) => p_r p | _ => set (p_r p) i [] end;
     p_dep := Some i; p_cmp := []; p_ver := []; p_incmp := p_incmp p; p_inv := p_inv p |}.
(** 203-253: one word; None: VersionStringException *)
Definition word_step (p : pst) (i : str) : option pst :=
  let open := startswith (s_ "(") i in
  let i1 := if open then strip (skipn 1 i) else i in
  let p1 := {| p_r := p_r p; p_dep := p_dep p; p_cmp := p_cmp p; p_ver := p_ver p; p_incmp := p_incmp p || open; p_inv := p_inv p |} in
  if open && seqb i1 [] then Some p1
  else if p_incmp p1 then
    match cut_op i1 with
    | None => None
    | Some (o, i2) =>
        let p2 := {| p_r := p_r p; p_dep := p_dep p; p_cmp := o; p_ver := p_ver p; p_incmp := false; p_inv := true |} in
        match i2 with [] => Some p2 | _ => in_version p2 i2 end
    end
  else if p_inv p1 then in_version p1 i1
  else Some (new_dep p1 i1).
Fixpoint words_steps (p : pst) (l : list str) : option pst :=
  match l with
  | [] => Some p
  | i :: l' => match word_step p i with None => None | Some p' => words_steps p' l' end
  end.
Definition p_start : pst := {| p_r := []; p_dep := None; p_cmp := []; p_ver := []; p_incmp := false; p_inv := false |}.

(** 255: sorted by name *)
Fixpoint insert_key (e : str * list str) (l : list (str * list str)) : list (str * list str) :=
  match l with
  | [] => [e]
  | x :: l' => if str_leb (fst e) (fst x) then e :: l else x :: insert_key e l'
  end.
Definition sort_keys (l : list (str * list str)) : list (str * list str) := fold_right insert_key [] l.
(** 190-255 explode_dep_versions2 *)
Definition explode_versions (sort : bool) (s : str) : option (list (str * list str)) :=
  match words_steps p_start (split_ws (replace_char ","%char [] s)) with
  | None => None
  | Some p => Some (if sort then sort_keys (p_r p) else p_r p)
  end.

(** 274-291 join_deps of lists *)
Definition join_items (deps : list (str * list str)) : list str :=
  flat_map (fun d => match snd d with [] => [fst d] | vs => map (fun v => fst d ++ s_ " (" ++ v ++ s_ ")") vs end) deps.
Definition join_deps (commasep : bool) (deps : list (str * list str)) : str :=
  join (if commasep then s_ ", " else s_ " ") (join_items deps).
(** 257-272 explode_dep_versions: only the first constraint is kept (the warning is not modelled) *)
Definition explode_first (s : str) : option (list (str * option str)) :=
  match explode_versions true s with
  | None => None
  | Some r => Some (map (fun d => (fst d, hd_error (snd d))) r)
  end.
(** 274-291 join_deps of single constraints *)
Definition join_first (commasep : bool) (deps : list (str * option str)) : str :=
  join (if commasep then s_ ", " else s_ " ")
       (map (fun d => match snd d with Some v => fst d ++ s_ " (" ++ v ++ s_ ")" | None => fst d end) deps).
