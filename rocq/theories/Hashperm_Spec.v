(** What the permissions of the hash server are meant to guarantee. *)
From Coq Require Import Ascii String List Bool Arith.
From Verif Require Import Str_Model Hashperm_Model.
Import ListNotations.

(** The permissions held allow a request that needs ps *)
Definition covers (held ps : list str) : Prop := In (s_ "@all") held \/ (forall p, In p ps -> In p held).

(** What a command on the database needs, by what it does *)
Inductive kind := Reading | Reporting | Administration.
Definition kind_of (k : command) : kind :=
  match k with
  | CEquiv => Reporting
  | CRemove | CGcMark | CGcSweep | CGcStatus | CCleanUnused | CResetStats | CDbUsage | CDbColumns => Administration
  | _ => Reading
  end.
Definition needs (k : kind) : list str :=
  match k with
  | Reading => [s_ "@read"]
  | Reporting => [s_ "@read"; s_ "@report"]
  | Administration => [s_ "@db-admin"]
  end.

(** The user may administrate users *)
Definition administrator (u : user) : Prop := In (s_ "@user-admin") (perms u) \/ In (s_ "@all") (perms u).

(** The request logs its connection in as the user named n *)
Definition logs_in (r : request) (n : str) : Prop := (exists tok, r = Auth n tok) \/ r = BecomeUser n.
