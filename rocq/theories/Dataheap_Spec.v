(** Vocabulary for C38: what can be observed of a datastore. *)
From Coq Require Import Ascii String List Bool Arith.
From Verif Require Import Str_Model Data_Model Dataheap_Model.
Import ListNotations.
Open Scope list_scope.

(** The value of a flag with the contents of mutable objects. *)
Definition seen (h : heap) (v : value) : str + contents :=
  match v with Text t => inl t | Obj a => inr (h_cont h a) end.
(** Flags of a variable, as getVarFlag and getVarFlags see them. *)
Definition flags_of (h : heap) (i : nat) (var : str) : option (list (str * (str + contents))) :=
  match find h i var with
  | None => None
  | Some a => Some (map (fun e => (fst e, seen h (snd e))) (h_flags h a))
  end.
(** The override variants registered for a variable. *)
Definition variants_of (h : heap) (i : nat) (var : str) : option contents :=
  match get (h_over h i) var with None => None | Some a => Some (h_cont h a) end.
(** Everything observable of a datastore is the same. *)
Definition same_view (h h' : heap) (i : nat) : Prop :=
  (forall var, flags_of h' i var = flags_of h i var) /\ (forall var, variants_of h' i var = variants_of h i var).

(** [i] is [j] or one of the datastores it was copied from. *)
Inductive origin (h : heap) (i : nat) : nat -> Prop :=
| o_self : origin h i i
| o_copy j p : h_parent h j = Some p -> origin h i p -> origin h i j.
(** Set in the datastore itself. *)
Definition own (h : heap) (j : nat) (var : str) : Prop := get (h_dict h j) var <> None.

(** Operations other than the two that change shared objects. *)
Definition local_op (o : op) : Prop := match o with Export _ | Rename _ _ => False | _ => True end.
(** States reached from one datastore by any operations. *)
Definition reachable (h : heap) : Prop := exists os, h = run start os.
