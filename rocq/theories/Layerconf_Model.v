(** Model of how bitbake-layers edits bblayers.conf: bitbake/lib/bb/utils.py
    edit_metadata (1213-1398, for one variable) and edit_bblayers_conf (1417-1541).
    Definitions only. *)
From Coq Require Import Ascii String List Bool Arith.
From Verif Require Import Str_Model Data_Model Parse_Model.
Import ListNotations.
Open Scope list_scope.

(** ** Lines *)
(** iteration over a file: lines with their ends; the last one may have none *)
Fixpoint keep_ends (cur t : str) : list str :=
  match t with
  | [] => match cur with [] => [] | _ => [cur] end
  | c :: t => if aeqb c nl then (cur ++ [nl]) :: keep_ends [] t else keep_ends (cur ++ [c]) t
  end.
Definition readlines (t : str) : list str := keep_ends [] t.

(** ** edit_metadata *)
(** 1273: [ \\t] in a raw text is a space, a backslash or the letter t *)
Definition re_space (c : ascii) : bool := existsb (aeqb c) (s_ " \t").
Definition re_before (c : ascii) : bool := existsb (aeqb c) (s_ "?+:.").
Definition re_after (c : ascii) : bool := existsb (aeqb c) (s_ "+.").
(** 1273 for a name [v] without special characters, match_overrides False: the quotation
    mark that is found.  No character is in two neighbouring classes, so there is one way to
    match. *)
Definition var_match (v line : str) : option ascii :=
  match strip_prefix v line with
  | Some r =>
      match snd (span re_before (snd (span re_space r))) with
      | e :: r => if aeqb e "="%char then match snd (span re_space (snd (span re_after r))) with q :: _ => if is_quote q then Some q else None | [] => None end else None
      | [] => None
      end
  | None => None
  end.
(** What the callback makes of a value: unchanged (origvalue, None), dropped (None) or a new
    list, always with indent 2 and minbreak False.  Callbacks do not touch newlines. *)
Inductive verdict := Keep | Drop | List (l : list str).
Definition ends_in (c : ascii) (s : str) : bool := head_is c (rev s).
Section Edit.
  Variable v : str.
  Variable C : Type.
  (** state of the callback, value, operator *)
  Variable varfunc : C -> str -> str -> C * verdict.
  Record editing := mkEditing { e_updated : bool; e_check : bool; e_out : list str; e_open : option (str * ascii * str * list str); e_cb : C }.
  (** 1321-1341: new lines of a list *)
  Definition render (start : str) (l : list str) : list str :=
    match l with
    | [] => [start ++ s_ " """"" ++ [nl]]
    | _ => [start ++ s_ " "" \" ++ [nl]] ++ map (fun i => s_ "  " ++ i ++ s_ " \" ++ [nl]) l ++ [s_ "  """ ++ [nl]]
    end.
  (** 1284-1346 with 1361-1364 and 1386-1389 *)
  Definition handle_var_end (e : editing) (start full : str) (lines : list str) : editing :=
    match varfunc (e_cb e) full (strip (skipn (length v) start)) with
    | (cb, Drop) => mkEditing true true (e_out e) None cb
    | (cb, List l) => mkEditing true true (e_out e ++ render start l) None cb
    | (cb, Keep) => mkEditing (e_updated e) (e_check e) (e_out e ++ lines) None cb
    end.
  (** 1350-1398: one line *)
  Definition edit_line (e : editing) (line : str) : editing :=
    match e_open e with
    | Some (start, q, full, lines) =>
        let value := rstrip line in
        let full := full ++ removelast value in
        let lines := lines ++ [line] in
        if ends_in q value then handle_var_end e start full lines
        else mkEditing (e_updated e) (e_check e) (e_out e) (Some (start, q, full, lines)) (e_cb e)
    | None =>
        match var_match v line with
        | Some q =>
            let '(a, b) := cut_at q line in
            let start := rstrip a in
            let value := rstrip (match b with Some b => b | None => [] end) in
            let full := if ends_in backslash value then removelast value else value in
            if ends_in q full then handle_var_end e start (removelast full) [line]
            else mkEditing (e_updated e) (e_check e) (e_out e) (Some (start, q, full, [line])) (e_cb e)
        | None =>
            if e_check e && seqb (last (e_out e) []) [nl] && seqb line [nl] then mkEditing (e_updated e) false (e_out e) None (e_cb e)
            else mkEditing (e_updated e) false (e_out e ++ [line]) None (e_cb e)
        end
    end.
  (** 1213-1398: the lines of a variable that is not closed at the end are lost *)
  Definition edit_metadata (lines : list str) (cb : C) : bool * list str * C :=
    let e := fold_left edit_line lines (mkEditing false false [] None cb) in (e_updated e, e_out e, e_cb e).
End Edit.

(** ** edit_bblayers_conf *)
(** 1436-1439; canonicalise_path (1442-1446) is the same for paths without a tilde *)
Definition remove_trailing_sep (p : str) : str := if ends_in "/"%char p then removelast p else p.
(** fnmatch.fnmatch on this platform; sets in brackets are not modelled *)
Fixpoint fnmatch (name pat : str) : bool :=
  match pat with
  | [] => match name with [] => true | _ => false end
  | p :: pat =>
      if aeqb p "*"%char then (fix any (n : str) : bool := fnmatch n pat || match n with _ :: n => any n | [] => false end) name
      else match name with
           | c :: name => (aeqb p "?"%char || aeqb p c) && fnmatch name pat
           | [] => false
           end
  end.
(** 1465-1470: the operators seen and the layers *)
Definition first_pass (c : list str * list str) (value op : str) : (list str * list str) * verdict :=
  let '(calls, layers) := c in
  ((calls ++ [op], (if seqb op (s_ "=") then [] else layers) ++ map remove_trailing_sep (split_ws value)), Keep).
(** 1476-1482: the first layer that matches is removed *)
Fixpoint remove_first (pat : str) (layers : list str) : option (list str) :=
  match layers with
  | [] => None
  | l :: layers => if fnmatch (remove_trailing_sep l) (remove_trailing_sep pat) then Some layers else option_map (cons l) (remove_first pat layers)
  end.
Fixpoint remove_layers (pats layers removed : list str) (updated : bool) : list str * list str * bool :=
  match pats with
  | [] => (layers, removed, updated)
  | p :: pats => match remove_first p layers with
                 | Some layers => remove_layers pats layers (removed ++ [p]) true
                 | None => remove_layers pats layers removed updated
                 end
  end.
(** 1483-1488 *)
Fixpoint add_layers (add layers : list str) (updated : bool) : list str * bool :=
  match add with
  | [] => (layers, updated)
  | a :: add => if mem_str a layers then add_layers add layers updated else add_layers add (layers ++ [a]) true
  end.
(** 1472-1507 without edit_cb; the state: layers still to be added, and those removed *)
Definition second_pass (plusequals : bool) (pats : list str) (c : list str * list str) (value op : str) : (list str * list str) * verdict :=
  let '(add, removed) := c in
  let '(layers, removed, updated) := remove_layers pats (map remove_trailing_sep (split_ws value)) removed false in
  let '(layers, updated, add) := if plusequals then (layers, updated, add) else let '(l, u) := add_layers add layers updated in (l, u, []) in
  ((add, removed), if updated then (if seqb op (s_ "+=") && match layers with [] => true | _ => false end then Drop else List layers) else Keep).
Record outcome_of := mkOutcome { o_text : str; o_notadded : list str; o_notremoved : list str }.
(** 1417-1541: the text of the file afterwards.  None: the exception of 1512.
    notremoved is a set: its order is arbitrary in the code. *)
Definition edit_bblayers_conf (text : str) (add remove : list str) : option outcome_of :=
  let addlayers := map remove_trailing_sep add in
  let removelayers := map remove_trailing_sep remove in
  let '(_, newlines, (calls, orig)) := edit_metadata (s_ "BBLAYERS") _ first_pass (readlines text) ([], []) in
  match calls with
  | [] => None
  | _ =>
      let plusequals := 1 <? length (filter (fun o => seqb o (s_ "+=")) calls) in
      let canon := map remove_trailing_sep removelayers in
      let notadded := filter (fun l => mem_str (remove_trailing_sep l) orig && negb (mem_str (remove_trailing_sep l) canon)) addlayers in
      let addlayers := filter (fun l => negb (mem_str (remove_trailing_sep l) (map remove_trailing_sep notadded))) addlayers in
      let '(updated, newlines, (rest, removed)) := edit_metadata (s_ "BBLAYERS") _ (second_pass plusequals removelayers) newlines (addlayers, []) in
      let newlines := newlines ++ map (fun l => s_ "BBLAYERS += """ ++ l ++ s_ """" ++ [nl]) rest in
      Some (mkOutcome (if updated || match rest with [] => false | _ => true end then concat newlines else text) notadded
              (nodup (list_eq_dec ascii_dec) (filter (fun l => negb (mem_str l removed)) removelayers)))
  end.
