(** Vocabulary for C43. *)
From Coq Require Import Ascii String List Bool ZArith.
From Verif Require Import Str_Model Vercmp_Model Providers_Model.
Import ListNotations.
Open Scope list_scope.

(** [a] is to be taken before [b]: higher layer priority, then higher
    DEFAULT_PREFERENCE, then higher version. *)
Definition before (a b : recipe) : Prop :=
  (f_pri b < f_pri a)%Z \/
  (f_pri a = f_pri b /\ ((f_pref b < f_pref a)%Z \/
    (f_pref a = f_pref b /\ (vercmp (version b) (version a) < 0)%Z))).
Definition best (files : list recipe) (f : recipe) : Prop := In f files /\ forall g, In g files -> ~ before g f.

(** A wanted version: an optional epoch and a version, or a version prefix followed by "%". *)
Inductive wanted := Exactly (v : str) | Prefix (v : str).
Definition wanted_text (e : option str) (w : wanted) : str :=
  match e with Some x => x ++ s_ ":" | None => [] end ++ match w with Exactly v => v | Prefix v => v ++ s_ "%" end.
Definition fits (e : option str) (w : wanted) (f : recipe) : Prop :=
  (forall x, e = Some x -> f_pe f = x) /\
  match w with Exactly v => f_pv f = v | Prefix v => exists t, f_pv f = v ++ t end.
(** A version text that can be written: one line, not ending in "%", and not starting like an epoch. *)
Definition digits (s : str) : Prop := s <> [] /\ Forall (fun c => is_digit c = true) s.
Definition plain_version (v : str) : Prop :=
  v <> [] /\ ~ In nl v /\ (forall a, v <> a ++ s_ "%") /\ (forall d r, digits d -> v <> d ++ s_ ":" ++ r).
Definition plain_wanted (e : option str) (w : wanted) : Prop :=
  (forall x, e = Some x -> digits x) /\
  match w with
  | Exactly v => plain_version v
  | Prefix v => ~ In nl v /\ (forall d r, digits d -> v <> d ++ s_ ":" ++ r)
  end.
(** The configuration asks for a version of a recipe: the first of three variables that is not empty. *)
Definition unset (o : option str) : Prop := o = None \/ o = Some [].
Definition asks (getvar : str -> option str) (keyword pn v : str) : Prop :=
  let a := getvar (keyword ++ s_ "_VERSION:pn-" ++ pn) in
  let b := getvar (keyword ++ s_ "_VERSION_" ++ pn) in
  let c := getvar (keyword ++ s_ "_VERSION") in
  v <> [] /\ (a = Some v \/ (unset a /\ b = Some v) \/ (unset a /\ unset b /\ c = Some v)).
Definition asks_nothing (getvar : str -> option str) (keyword pn : str) : Prop :=
  unset (getvar (keyword ++ s_ "_VERSION:pn-" ++ pn)) /\ unset (getvar (keyword ++ s_ "_VERSION_" ++ pn)) /\
  getvar (keyword ++ s_ "_VERSION") = None.
