(** Vocabulary for C36, C37, C39. *)
From Coq Require Import Ascii String List Bool.
From Verif Require Import Str_Model Data_Model.
Import ListNotations.
Open Scope list_scope.

(** What configuration files do to variables, in order: assignment, weak
    default, and the three operations with an optional condition (a list of
    overrides that must all be set). *)
Inductive call :=
| Set_ (n v : str)
| Default (n v : str)
| Append (n : str) (c : option str) (v : str)
| Prepend (n : str) (c : option str) (v : str)
| Remove (n : str) (c : option str) (v : str).
Definition name_of (c : call) : str :=
  match c with Set_ n _ | Default n _ | Append n _ _ | Prepend n _ _ | Remove n _ _ => n end.

(** The last of the texts in a list. *)
Definition latest (l : list str) : option str := match rev l with [] => None | x :: _ => Some x end.
Definition sets (h : list call) (n : str) : list str :=
  flat_map (fun c => match c with Set_ m v => if seqb m n then [v] else [] | _ => [] end) h.
Definition defaults (h : list call) (n : str) : list str :=
  flat_map (fun c => match c with Default m v => if seqb m n then [v] else [] | _ => [] end) h.
(** The texts whose condition is met. *)
Definition met (ov : list str) (c : option str) : bool :=
  match c with
  | None => true
  | Some o => seqb o [] || forallb (fun p => mem_str p ov) (split_on ":"%char o)
  end.
Definition appends (ov : list str) (h : list call) (n : str) : list str :=
  flat_map (fun c => match c with Append m o v => if seqb m n && met ov o then [v] else [] | _ => [] end) h.
Definition prepends (ov : list str) (h : list call) (n : str) : list str :=
  flat_map (fun c => match c with Prepend m o v => if seqb m n && met ov o then [v] else [] | _ => [] end) h.

(** The text of a name on its own: the last assignment, else the last default,
    with prepends before (the last one first) and appends after it. *)
Definition around (pre app : list str) (base : option str) : option str :=
  match pre, app, base with
  | [], [], None => None
  | _, _, _ => Some (concat (rev pre) ++ match base with Some v => v | None => [] end ++ concat app)
  end.
Definition assigned (h : list call) (n : str) : option str :=
  match latest (sets h n) with Some v => Some v | None => latest (defaults h n) end.
Definition text (ov : list str) (h : list call) (n : str) : option str :=
  around (prepends ov h n) (appends ov h n) (assigned h n).

(** [o] is the override of highest priority for which [has] holds: the one
    that OVERRIDES first lists last. *)
Definition selected (ov : list str) (has : str -> Prop) (o : str) : Prop :=
  exists before after, ov = before ++ o :: after /\ has o /\ ~ In o before /\
    forall o', In o' after -> has o' -> In o' before \/ o' = o.

(** Names of overrides that can be used: they start with a lower-case letter or digit. *)
Definition override_name (o : str) : Prop :=
  match o with c :: _ => is_lower c = true \/ is_digit c = true | [] => False end /\ ~ In ":"%char o.

(** A text as literal characters and references, without stray dollar signs. *)
Inductive piece := Char (c : ascii) | Reference (k : str).
Definition piece_text (p : piece) : str :=
  match p with Char c => [c] | Reference k => s_ "${" ++ k ++ s_ "}" end.
Definition tidy_piece (p : piece) : Prop :=
  match p with
  | Char c => c <> "$"%char
  | Reference k => k <> [] /\ Forall (fun c => is_alpha c = true \/ is_digit c = true \/ In c (s_ "-_+./~:")) k
  end.
Definition tidy (s : str) (l : list piece) : Prop := Forall tidy_piece l /\ s = concat (map piece_text l).

(** Full expansion: [value k] is the text assigned to a variable.  A reference
    to a variable without value stays. *)
Inductive expands (value : str -> option str) : list piece -> str -> Prop :=
| x_nil : expands value [] []
| x_char c l r : expands value l r -> expands value (Char c :: l) (c :: r)
| x_unset k l r : value k = None -> expands value l r -> expands value (Reference k :: l) (piece_text (Reference k) ++ r)
| x_set k v p x l r : value k = Some v -> tidy v p -> expands value p x -> expands value l r ->
    expands value (Reference k :: l) (x ++ r).

(** ** Connection with the modelled API *)
(** The name used in a file for an operation. *)
Definition op_name (n op : str) (c : option str) : str :=
  n ++ op ++ match c with None => [] | Some o => s_ ":" ++ o end.
(** Parsing files: every line is one call of setVar (while parsing) or, for the
    weak default, setVarFlag. *)
Definition parse_line (ov : list str) (st : store) (c : call) : store :=
  match c with
  | Set_ n v => set_var true ov st n v
  | Default n v => set_default st n v
  | Append n o v => set_var true ov st (op_name n (s_ ":append") o) v
  | Prepend n o v => set_var true ov st (op_name n (s_ ":prepend") o) v
  | Remove n o v => set_var true ov st (op_name n (s_ ":remove") o) v
  end.
Definition parse (ov : list str) (h : list call) : store := fold_left (parse_line ov) h empty.

(** Names without an operation in them. *)
Definition plain (n : str) : Prop :=
  forall a b, n <> a ++ s_ ":append" ++ b /\ n <> a ++ s_ ":prepend" ++ b /\ n <> a ++ s_ ":remove" ++ b.
Definition lower_case (c : option str) : Prop :=
  match c with None => True | Some o => Forall (fun x => is_upper x = false) o end.
Definition is_operation (c : call) : bool := match c with Set_ _ _ | Default _ _ => false | _ => true end.
Definition well_formed (c : call) : Prop :=
  match c with
  | Set_ n _ | Default n _ => plain n
  | Append n o _ | Prepend n o _ | Remove n o _ => plain n /\ lower_case o
  end.
Definition mentioned (h : list call) (n : str) : Prop := exists c, In c h /\ name_of c = n.
(** The variants of [a] in the files have a single override each, and no
    variable changed by an operation is named like an active override. *)
Definition single_overrides (ov : list str) (h : list call) (a : str) : Prop :=
  (forall o, mentioned h (a ++ s_ ":" ++ o) -> ~ In ":"%char o) /\
  (forall c, In c h -> is_operation c = true -> ~ In (name_of c) ov).
Definition variant (h : list call) (a : str) (o : str) : Prop := override_name o /\ mentioned h (a ++ s_ ":" ++ o).

Definition removals (ov : list str) (h : list call) (n : str) : list str :=
  flat_map (fun c => match c with Remove m o v => if seqb m n && met ov o then [v] else [] | _ => [] end) h.

(** Files with plain variables only: no overrides in names, no removals, and
    operations only on names that do not start like an override. *)
Definition plain_files (h : list call) : Prop :=
  Forall (fun c => well_formed c /\ ~ In ":"%char (name_of c) /\
                   match c with
                   | Remove _ _ _ => False
                   | Append n _ _ | Prepend n _ _ => match n with x :: _ => is_lower x = false /\ is_digit x = false | [] => True end
                   | _ => True end) h.
(** [j] is used in the text of [k]. *)
Definition uses (value : str -> option str) (j k : str) : Prop :=
  exists v p, value k = Some v /\ tidy v p /\ In (Reference j) p.
(** [j] is [k] or is used by it, directly or not. *)
Inductive needs (value : str -> option str) (k : str) : str -> Prop :=
| n_self : needs value k k
| n_more i j : needs value k i -> uses value j i -> needs value k j.
(** [k] is used in its own text, directly or not. *)
Definition circular (value : str -> option str) (k : str) : Prop :=
  exists j, uses value j k /\ needs value j k.
