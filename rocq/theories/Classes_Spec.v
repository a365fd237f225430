(** What inheriting classes and exporting functions means. *)
From Coq Require Import String Ascii List Bool Arith.
From Verif Require Import Str_Model Posix_Model Classes_Model.
Import ListNotations.
Open Scope list_scope.

Section Files.
  Variable content : str -> option (list stmt).
  Variable bbpath ctype : str.
  Definition exists_file (f : str) : Prop := content f <> None.
  (** Where a class is looked for, in this order.  An absolute name is taken as it is.  A name without .bbclass is
      completed and looked for in the directory of the type first, on the whole of BBPATH, and then in classes. *)
  Definition along (rel : str) : list str := map (fun dir => pjoin dir rel) (split_on ":"%char bbpath) ++ [rel].
  Definition places (name : str) : list str :=
    if isabs name then [name]
    else if endswith (s_ ".bbclass") name then along name
    else along (pjoin (s_ "classes-" ++ ctype) (name ++ s_ ".bbclass")) ++ along (pjoin (s_ "classes") (name ++ s_ ".bbclass")).
  (** the first place where there is a file *)
  Definition found (name f : str) : Prop :=
    exists before after, places name = before ++ f :: after /\ exists_file f /\ forall g, In g before -> ~ exists_file g.
  Definition nowhere (name : str) : Prop := forall g, In g (places name) -> ~ exists_file g.

  (** f contains, in statement i, an inherit (or an inherit_defer) with this name *)
  Definition inherits_at (f : str) (i : nat) (name : str) : Prop :=
    exists ss text, content f = Some ss /\ nth_error ss i = Some (Inh text) /\ In name (split_ws text).
  Definition defers_at (f : str) (i : nat) (name : str) : Prop :=
    exists ss text, content f = Some ss /\ nth_error ss i = Some (Defer text) /\ In name (split_ws text).
  Definition needs (f g : str) : Prop := exists i name, inherits_at f i name /\ found name g.
  (** g is inherited by f, directly or not *)
  Inductive below : str -> str -> Prop :=
  | below_here f : below f f
  | below_next f g h : needs f g -> below g h -> below f h.
  (** the classes of a recipe without those of inherit_defer; all its classes *)
  Definition class_now (files : list str) (g : str) : Prop := exists f h, In f files /\ needs f h /\ below h g.
  Inductive class_of (files : list str) : str -> Prop :=
  | class_file f i name g : (In f files \/ class_of files f) -> (inherits_at f i name \/ defers_at f i name) -> found name g -> class_of files g.

  (** the statements of a file that are not inherit *)
  Definition plain (f : str) (k : nat) : Prop := exists ss s, content f = Some ss /\ nth_error ss k = Some s /\ forall t, s <> Inh t.
  Definition about (f : str) (e : event) : bool :=
    match e with Start g => seqb g f | Ran g _ => seqb g f | End g => seqb g f end.
  (** f is evaluated from its start to its end, each statement once and in order *)
  Definition evaluated (f : str) (es : list event) : Prop :=
    exists ks, es = Start f :: map (Ran f) ks ++ [End f] /\ (forall k, In k ks <-> plain f k) /\
      forall a k b, ks = a ++ k :: b -> forall x, (In x a -> x < k) /\ (In x b -> k < x).
  (** what is known when statement k of f is evaluated: the classes inherited above have started; they have also ended, or
      they had started before f did (f is one of the files they inherit) *)
  Definition prepared (a : list event) (f : str) (k : nat) : Prop :=
    forall i name g, i < k -> inherits_at f i name -> found name g ->
      In (Start g) a /\ (In (End g) a \/ exists a1 a2, a = a1 ++ Start f :: a2 /\ In (Start g) (a1 ++ [Start f])).
  (** the names deferred by the statements evaluated, in order *)
  Definition deferred_names (es : list event) : list str :=
    flat_map (fun e => match e with
      | Ran f k => match content f with Some ss => match nth_error ss k with Some (Defer t) => split_ws t | _ => [] end | None => [] end
      | _ => []
      end) es.
End Files.

(** ** Functions *)
Definition exports (d : definition) (f : str) : Prop := exists c fs, d = Export c fs /\ In f (split_ws fs).
Definition defines (d : definition) (f : str) : Prop := exists t py, d = Method f t py.
(** the text is a function of its own, not one made by an export *)
Definition own_text (t : str) : Prop := t <> [] /\ forall a b, t <> a ++ sentinel ++ b.
(** no function f with an empty text *)
Definition never_empty (h : list definition) (f : str) : Prop := forall t py, In (Method f t py) h -> t <> [].

(** ** Anonymous functions: no two are at the same place, and no two files have names that differ only in special
    characters *)
Definition distinct_places (l : list anon) : Prop :=
  NoDup (map fst l) /\ forall f g lf lg ef eg, In (f, lf, ef) l -> In (g, lg, eg) l -> map translated f = map translated g -> f = g.
