(** What is said about the sources of Debian packages. *)
From Coq Require Import Ascii String List Bool Arith.
From Verif Require Import Str_Model.
Import ListNotations.
Open Scope list_scope.

(** A word: not empty and without white space. *)
Definition a_word (w : str) : Prop := w <> [] /\ forall c, In c w -> is_space c = false.
(** Where the kernel build looks for a fragment: in the sources, or in the directory of
    copied fragments. *)
Definition in_sources (S f : str) : Prop := exists x, f = S ++ s_ "/" ++ x.
Inductive looked_for (S : str) : str -> str -> Prop :=
| lf_sources : forall x, looked_for S (S ++ s_ "/" ++ x) x
| lf_copied : forall f, ~ in_sources S f -> looked_for S f (s_ "debian/fragments/" ++ f).

(** Absolute paths made of names. *)
Definition plain (c : str) : Prop := c <> [] /\ ~ In "/"%char c /\ c <> s_ "." /\ c <> s_ "..".
Definition path_of (cs : list str) : str := flat_map (fun c => "/"%char :: c) cs.

(** How a control file is read (deb822): paragraphs of fields, separated by blank lines; a
    line that begins with white space continues the field before it; white space around a
    value does not matter. *)
Definition blank (l : str) : bool := forallb is_space l.
Fixpoint read (ls : list str) (cur : list (str * str)) : option (list (list (str * str))) :=
  match ls with
  | [] => Some (match cur with [] => [] | _ => [rev cur] end)
  | l :: ls =>
      if blank l then match read ls [] with Some r => Some (match cur with [] => r | _ => rev cur :: r end) | None => None end
      else match l with
           | c :: _ =>
               if is_space c then match cur with (n, v) :: cur => read ls ((n, v ++ nl :: l) :: cur) | [] => None end
               else match cut_at ":"%char l with
                    | (n, Some v) => match n with [] => None | _ => read ls ((n, strip v) :: cur) end
                    | (_, None) => None
                    end
           | [] => None
           end
  end.
Definition read_control (t : str) : option (list (list (str * str))) := read (split_on nl t) [].
Definition one_line (v : str) : Prop := ~ In nl v.
(** The entries of a list with commas are one line each (they may be on lines of their own) *)
Definition list_of_lines (v : str) : Prop := forall e, In e (split_on ","%char v) -> one_line (strip e).
(** The list with one comma and one space between its entries. *)
Definition tidy (v : str) : str := join (s_ ", ") (filter (fun e : str => match e with [] => false | _ => true end) (map strip (split_on ","%char v))).

(** ** Files of the debian directory *)
(** Scripts of the package, and the names of its units (also templates, and units of users),
    triggers and temporary files. *)
Definition hook (n : str) : Prop := In n [s_ "preinst"; s_ "prerm"; s_ "postinst"; s_ "postrm"].
Definition unit_of (pn n : str) : Prop :=
  n = pn ++ s_ ".triggers" \/ n = pn ++ s_ ".tmpfiles" \/ n = pn ++ s_ ".mount" \/
  exists t u k, In t [[]; s_ "@"] /\ In u [[]; s_ ".user"] /\ In k [s_ ".path"; s_ ".service"; s_ ".socket"; s_ ".target"; s_ ".timer"] /\ n = pn ++ t ++ u ++ k.
