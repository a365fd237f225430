(** When what is known about a recipe is up to date. *)
From Coq Require Import String Ascii List.
From Verif Require Import Str_Model Pcache_Model.
Import ListNotations.
Open Scope list_scope.

(** A file name, the name of a configuration *)
Definition no_colon (s : str) : Prop := ~ In ":"%char s.
(** The name of a variant: native, compat and the like *)
Definition plain_variant (v : str) : Prop := v <> [] /\ forall t, v <> s_ "mc:" ++ t.

(** How a list of files is written: FILE:True for a file that was there, FILE:False for one that was not. *)
Definition listed (p : str * bool) : str := fst p ++ (if snd p then s_ ":True" else s_ ":False").
Definition list_text (l : list (str * bool)) : str := join (s_ " ") (map listed l).
(** A name in which such a list cannot be cut: it does not begin with white space, and there is no white space after
    :True or :False *)
Definition list_name (f : str) : Prop :=
  (forall c t, f = c :: t -> is_space c = false) /\
  forall a c b, (f = a ++ s_ ":True" ++ c :: b \/ f = a ++ s_ ":False" ++ c :: b) -> is_space c = false.

Section Spec.
Variables C P Q : Type.

(** Nothing that was recorded about a recipe changed: its file, the files it was parsed from, the files it looked for, and
    its appends *)
Definition unchanged (w : world C) (fn : str) (appends : list str) (i : core P) : Prop :=
  mtime w fn <> 0 /\ mtime w fn = c_time P i /\
  (forall f t, In (f, t) (c_depends P i) -> mtime w f = t) /\
  (forall fl fs f word, In fl (c_checks P i) -> file_list fl = Some fs -> In (f, word) fs ->
     (word = s_ "True" -> exists_ w f = true) /\ (word = s_ "False" -> exists_ w f = false)) /\
  appends = c_appends P i.

(** Two states of the file system: a file with the same time has the same contents *)
Definition honest (w w' : world C) : Prop := forall f, mtime w f = mtime w' f -> w f = w' f.

(** The parser reads the recipe, files it notes with their times, and it notes which files it looked for. *)
Variable parse_recipe : world C -> str -> list str -> option (list (str * store P Q) * store P Q).
Definition all_depends (vs : list (str * store P Q)) (d : store P Q) : list (str * nat) := flat_map (fun v => d_depends P Q (snd v)) vs ++ d_depends P Q d.
Definition notes_files : Prop := forall w fn a vs d, parse_recipe w fn a = Some (vs, d) ->
  mtime w fn <> 0 /\
  (forall f t, In (f, t) (all_depends vs d) -> t = mtime w f) /\
  (forall fl, In fl (d_checks P Q d) -> exists fs, file_list fl = Some fs /\ forall f word, In (f, word) fs -> word = if exists_ w f then s_ "True" else s_ "False").
(** What it finds depends on nothing else *)
Definition reads_only_noted : Prop := forall w w' fn a vs d, parse_recipe w fn a = Some (vs, d) ->
  w' fn = w fn -> (forall f t, In (f, t) (all_depends vs d) -> w' f = w f) ->
  (forall fl fs f word, In fl (d_checks P Q d) -> file_list fl = Some fs -> In (f, word) fs -> exists_ w' f = exists_ w f) ->
  parse_recipe w' fn a = Some (vs, d).
(** The same, but the parser may also look for the files that a variant of the recipe notes *)
Definition reads_only_noted_anywhere : Prop := forall w w' fn a vs d, parse_recipe w fn a = Some (vs, d) ->
  w' fn = w fn -> (forall f t, In (f, t) (all_depends vs d) -> w' f = w f) ->
  (forall s fl fs f word, In s (d :: map snd vs) -> In fl (d_checks P Q s) -> file_list fl = Some fs -> In (f, word) fs -> exists_ w' f = exists_ w f) ->
  parse_recipe w' fn a = Some (vs, d).
(** The variants of a recipe have names of their own *)
Definition names_variants : Prop := forall w fn a vs d, parse_recipe w fn a = Some (vs, d) ->
  NoDup (map fst vs) /\ forall v, In v (map fst vs) -> plain_variant v.
(** If the recipe may be cached then so may its variants *)
Definition caches_together : Prop := forall w fn a vs d, parse_recipe w fn a = Some (vs, d) ->
  d_nocache P Q d = false -> forall v s, In (v, s) vs -> d_nocache P Q s = false.

(** The recipes of a session: different files *)
Definition proper (recipes : list (str * list str)) : Prop := NoDup (map fst recipes) /\ forall fn a, In (fn, a) recipes -> no_colon fn.
(** Results arrive in any order, and perhaps not all of them *)
Definition delivers (order : list (str * list str) -> list (str * list str)) : Prop := forall l, NoDup (map fst l) -> NoDup (map fst (order l)) /\ incl (order l) l.

(** A history: sessions with or without the information about signatures ([x]), one after the other, starting without a
    cache; the file system may change between them. *)
Inductive history (x : bool) : list (world C) -> disk P Q -> Prop :=
  | no_cache : history x [] {| core_file := None; extra_file := None |}
  | next_session : forall ws d w recipes order known d' dc, history x ws d -> (forall w0, In w0 ws -> honest w w0) -> proper recipes -> delivers order ->
      session C P Q parse_recipe x w recipes order d = Some (known, d', dc) -> history x (w :: ws) d'.
End Spec.
