(** What is said about edits of bblayers.conf. *)
From Coq Require Import Ascii String List Bool Arith.
From Verif Require Import Str_Model Data_Model Parse_Model Parse_Spec.
Import ListNotations.
Open Scope list_scope.

(** ** Reading the file *)
(** The lines of a text that ends in a line end; the parser (Parse_Model) reads these. *)
Definition text_lines (t : str) : list str := match rev (split_on nl t) with [] :: r => rev r | r => rev r end.
Definition reads (t : str) (ss : list statement) : Prop := statements (text_lines t) = Some ss.
(** What the statements of the file itself make of BBLAYERS (see operate in Parse_Spec), and
    the layers it lists.  A weak default counts if nothing else is assigned. *)
Definition about_layers (s : statement) : option (op * str) :=
  match s with Assign a => if seqb (a_var a) (s_ "BBLAYERS") && match a_flag a with None => true | _ => false end then Some (a_op a, a_value a) else None | _ => None end.
Definition value_of (ss : list statement) : state := fold_left (fun x s => match about_layers s with Some (o, v) => operate o v x | None => x end) ss (None, None).
Definition layers_of (ss : list statement) : list str := split_ws (match value_of ss with (Some v, _) => v | (None, Some w) => w | (None, None) => [] end).
(** The other statements. *)
Definition others (ss : list statement) : list statement := filter (fun s => match about_layers s with Some _ => false | None => true end) ss.

(** ** Well-formed files *)
(** A setting of BBLAYERS: operator, spaces around it, quotation mark, the value in pieces:
    all but the last one are followed by a backslash, and white space. *)
Record setting := mkSetting { s_op : op; s_before : nat; s_after : nat; s_quote : ascii; s_pieces : list (str * str); s_final : str; s_tail : str }.
Definition s_head (s : setting) : str := s_ "BBLAYERS" ++ repeat " "%char (s_before s) ++ op_text (s_op s) ++ repeat " "%char (s_after s) ++ [s_quote s].
Definition s_value (s : setting) : str := concat (map fst (s_pieces s)) ++ s_final s.
Definition s_item (s : setting) : item :=
  match s_pieces s with
  | [] => Stmt [] (s_head s ++ s_final s ++ [s_quote s]) (s_tail s)
  | (p, w) :: ps => Stmt ((s_head s ++ p, w) :: ps) (s_final s ++ [s_quote s]) (s_tail s)
  end.
(** A path without its last slash; the path of a layer is not the root directory and does
    not end in two slashes. *)
Definition slashless (p : str) : str := match rev p with c :: r => if aeqb c "/"%char then rev r else p | [] => [] end.
Definition tidy_path (p : str) : Prop := slashless p <> [] /\ ~ ends "/"%char (slashless p).
(** A part of the file: something that is not about BBLAYERS, or a setting of it. *)
Inductive part := Other (i : item) | Setting (s : setting).
Definition part_item (p : part) : item := match p with Other i => i | Setting s => s_item s end.
Definition no_marks (s : str) : Prop := forall q, quote_mark q -> ~ In q s.
Definition good_part (p : part) : Prop :=
  proper (part_item p) /\ (forall l, In l (item_lines (part_item p)) -> ~ In nl l) /\
  match p with
  | Other i => (forall l r, In l (item_lines i) -> l <> s_ "BBLAYERS" ++ r) /\ (forall t s, In t (item_texts i) -> feeder t = Some s -> about_layers s = None)
  | Setting s => quote_mark (s_quote s) /\ no_marks (s_value s) /\ Forall tidy_path (split_ws (s_value s))
  end.
Definition file_of (ps : list part) : str := concat (map (fun l => l ++ [nl]) (concat (map (fun p => item_lines (part_item p)) ps))).
Definition settings (ps : list part) : list setting := flat_map (fun p => match p with Setting s => [s] | Other _ => [] end) ps.
Definition layer_path (p : str) : Prop := p <> [] /\ (forall c, In c p -> is_space c = false) /\ no_marks p /\ tidy_path p.
(** No wildcards. *)
Definition literal (p : str) : Prop := forall c, In c p -> ~ In c (s_ "*?[").
(** Operators that work on words: set, immediate, append or prepend with a space. *)
Definition list_op (o : op) : Prop := o = OSet \/ o = OImmediate \/ o = OAppend \/ o = OPrepend.
(** How many settings append, and whether a setting lists a layer, with or without a slash
    at its end. *)
Definition appends_in (ss : list setting) : nat := length (filter (fun s => match s_op s with OAppend => true | _ => false end) ss).
Definition lists (s : setting) (x : str) : Prop := In (slashless x) (map slashless (split_ws (s_value s))).
