(** What the user of a PR server sees: the trace of requests and answers. *)
From Coq Require Import Ascii String List Bool ZArith.
From Verif Require Import Str_Model Prserv_Model.
Import ListNotations.

Definition trace := list (event * option answer).

(** At position [i] of the trace a client asked for the PR of (v,a,c) and got x *)
Definition got (tr : trace) (i : nat) (v a c : str) (x : Z) : Prop :=
  nth_error tr i = Some (ERequest (GetPr v a c), Some (AValue (Some x))).

(** At position [i] a value was imported for (v,a,c) and x was acknowledged *)
Definition imported (tr : trace) (i : nat) (v a c : str) (x : Z) : Prop :=
  exists y, nth_error tr i = Some (ERequest (ImportOne v a c y), Some (AValue (Some x))).

(** Position [i] of the trace is an event with property P *)
Definition event_at (tr : trace) (i : nat) (P : event -> Prop) : Prop :=
  exists e ans, nth_error tr i = Some (e, ans) /\ P e.

(** The event asks for, or imports, (v,a,c); asks for or imports anything of
    the group (v,a); imports into the group *)
Definition mentions (v a c : str) (e : event) : Prop :=
  e = ERequest (GetPr v a c) \/ exists x, e = ERequest (ImportOne v a c x).
Definition writes_group (v a : str) (e : event) : Prop := exists c, mentions v a c e.
Definition imports (v a : str) (e : event) : Prop := exists c x, e = ERequest (ImportOne v a c x).

(** The events that make the server write everything it knows to disk *)
Definition commits (e : event) : Prop := e = EBadRequest \/ e = ESignal \/ e = ERestart.

(** Nothing acknowledged up to position i is lost before position j: every crash
    in between comes after a commit that comes after i. *)
Definition kept (tr : trace) (i j : nat) : Prop :=
  forall k, (i < k < j)%nat -> event_at tr k (eq ECrash) ->
    exists l, (i < l < k)%nat /\ event_at tr l commits.

(** The requests that concern the group (v,a), and everything that happens to
    the server as a whole *)
Definition concerns (v a : str) (e : event) : bool :=
  match e with
  | ERequest (GetPr v' a' _) | ERequest (ImportOne v' a' _ _) | ERequest (TestPr v' a' _)
  | ERequest (TestPackage v' a') | ERequest (MaxPackagePr v' a') => seqb v' v && seqb a' a
  | ERequest (Export _ _ _) => false
  | _ => true
  end.

(** Two servers answer the same to every future sequence of PR requests for
    versions other than the empty string *)
Definition same_gets (nohist : bool) (s1 s2 : server) : Prop :=
  forall es, Forall (fun e => exists v a c, e = ERequest (GetPr v a c) /\ v <> []) es ->
    fst (run nohist false s1 es) = fst (run nohist false s2 es).
