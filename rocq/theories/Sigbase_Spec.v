(** What a task's base hash should cover. *)
From Coq Require Import String Ascii List.
From Verif Require Import Str_Model Sigbase_Model.
Import ListNotations.

(** [v] is the value of flag [name] (the first entry of that name counts). *)
Definition flag_is (flags : list (str * str)) (name v : str) : Prop :=
  exists l r, flags = l ++ (name, v) :: r /\ forall p, In p l -> fst p <> name.
Definition no_flag (flags : list (str * str)) (name : str) : Prop := forall p, In p flags -> fst p <> name.
Definition flag_word (flags : list (str * str)) (name x : str) : Prop :=
  exists v, flag_is flags name v /\ In x (split_ws v).

(** "v[f]" names flag f of variable v. *)
Definition names_flag (k v f : str) : Prop :=
  exists rest, k = v ++ s_ "[" ++ f ++ rest ++ s_ "]" /\ ~ In "["%char v /\ ~ In "["%char f /\
  (rest = [] \/ exists r, rest = "["%char :: r).
Definition ordinary (k : str) : Prop := forall v f, ~ names_flag k v f.

(** The text of an ordinary variable or task [k] uses [x]. *)
Inductive uses (s : store) (k x : str) : Prop :=
| u_ref : no_flag (e_flags (s_entry s k)) (s_ "vardepvalue") ->
    In x (p_refs (e_parse (s_entry s k))) -> uses s k x
| u_call : no_flag (e_flags (s_entry s k)) (s_ "vardepvalue") ->
    In x (p_execs (e_parse (s_entry s k))) -> In x (s_keys s) -> uses s k x
| u_export : no_flag (e_flags (s_entry s k)) (s_ "vardepvalue") ->
    e_kind (s_entry s k) = Shell -> In x (s_shelldeps s) -> uses s k x
| u_remove t p : no_flag (e_flags (s_entry s k)) (s_ "vardepvalue") ->
    e_kind (s_entry s k) <> Python -> In (t, p) (e_removes (s_entry s k)) -> In x (p_refs p) -> uses s k x
| u_func n : no_flag (e_flags (s_entry s k)) (s_ "vardepvalue") ->
    e_kind (s_entry s k) <> Plain -> In n [s_ "prefuncs"; s_ "postfuncs"; s_ "exports"] ->
    flag_word (e_flags (s_entry s k)) n x -> uses s k x
| u_flag f v : s_flagsexcl s <> [] -> In (f, v) (e_flags (s_entry s k)) ->
    ~ In f (split_ws (s_flagsexcl s)) -> x = k ++ s_ "[" ++ f ++ s_ "]" -> uses s k x
| u_vardeps : flag_word (e_flags (s_entry s k)) (s_ "vardeps") x -> uses s k x.

(** [k] depends directly on [x]: variables, variable flags, library functions. *)
Inductive depends (s : store) (k x : str) : Prop :=
| d_var : s_mod s k = None -> ordinary k -> uses s k x ->
    ~ flag_word (e_flags (s_entry s k)) (s_ "vardepsexclude") x -> ~ In x (s_ignored s) -> depends s k x
| d_flag v f : s_mod s k = None -> names_flag k v f -> f <> s_ "vardepvalueexclude" ->
    In x (p_refs (snd (s_flag s v f))) \/ In x (p_execs (snd (s_flag s v f))) /\ In x (s_keys s) ->
    ~ In x (s_ignored s) -> depends s k x
| d_lib m : s_mod s k = Some m ->
    In x (p_refs m) \/ In x (p_execs m) /\ In x (s_keys s) -> ~ In x (s_ignored s) -> depends s k x.

Inductive reaches (s : store) : str -> str -> Prop :=
| r_one k x : depends s k x -> reaches s k x
| r_step k y x : depends s k y -> reaches s y x -> reaches s k x.

(** The restrictions under which the code tracks all of it. *)
Definition one_remove (s : store) : Prop := forall k, length (e_removes (s_entry s k)) <= 1.
Definition whole_flag_names (s : store) : Prop :=
  forall k f v a b, In (f, v) (e_flags (s_entry s k)) -> s_flagsexcl s = a ++ f ++ b ->
    In f (split_ws (s_flagsexcl s)).
(** Two configurations that agree in everything but the variables. *)
Definition same_config (s s' : store) : Prop :=
  s_keys s' = s_keys s /\ s_shelldeps s' = s_shelldeps s /\ s_flagsexcl s' = s_flagsexcl s /\ s_ignored s' = s_ignored s.

(** [q] is a variable that [k] asks whether it contains [item]. *)
Inductive asks (s : store) (k q item : str) : Prop :=
| a_var c : In (q, c) (p_contains (e_parse (s_entry s k))) -> In item c -> asks s k q item
| a_remove t p c : In (t, p) (e_removes (s_entry s k)) -> In (q, c) (p_contains p) -> In item c -> asks s k q item
| a_lib m c : s_mod s k = Some m -> In (q, c) (p_contains m) -> In item c -> asks s k q item.

(** [k] is the same in both: its text, its flags, and the words it asks about. *)
Definition same_for (s s' : store) (k : str) : Prop :=
  s_mod s' k = s_mod s k /\ s_entry s' k = s_entry s k /\
  (forall v f, names_flag k v f -> s_flag s' v f = s_flag s v f) /\
  (forall q item w, asks s k q item -> ~ In q (s_ignored s) -> In w (split_ws item) ->
     (In w (split_ws (s_getvar s' q)) <-> In w (split_ws (s_getvar s q)))).

(** The configuration with the text of variable [x] replaced. *)
Definition set_text (s : store) (x v : str) : store :=
  mkStore (s_keys s)
    (fun k => let e := s_entry s k in
              if seqb k x then mkEntry (e_kind e) v (e_parse e) (e_removes e) (e_flags e) else e)
    (s_flag s) (s_getvar s) (s_mod s) (s_shelldeps s) (s_flagsexcl s) (s_ignored s).

(** [r] is [v] with every occurrence of [x] struck out, from left to right. *)
Inductive struck (x : str) : str -> str -> Prop :=
| struck_nil : struck x [] []
| struck_out v r : struck x v r -> struck x (x ++ v) r
| struck_keep c v r : (forall t, c :: v <> x ++ t) -> struck x v r -> struck x (c :: v) (c :: r).
