(** What the clients of the hash server see. *)
From Coq Require Import Ascii String List Bool ZArith.
From Verif Require Import Str_Model Hashserv_Model.
Import ListNotations.

Definition trace := list (event * option answer).

(** The request asks for the unihash of the task (m,t), as a query, as an
    equivalence report or as a report of a client that may report *)
Definition asks (m t : str) (r : request) : Prop :=
  r = Get m t \/ r = GetAll m t \/ r = GetStream m t \/
  (exists u, r = Equiv m t u) \/ (exists o u now ex, r = Report true m t o u now ex).

(** At position i of the trace some client was told that the unihash of (m,t) is u *)
Definition told (tr : trace) (i : nat) (m t u : str) : Prop :=
  exists c r, asks m t r /\ nth_error tr i = Some (EReq c r, Some (AUni (Some u))).

(** Events that delete unihash entries *)
Definition deletes (e : event) : Prop :=
  exists c, (exists cond, e = EReq c (Remove cond)) \/ (exists mk, e = EReq c (GcSweep mk)).

(** The task (m,t) has a unihash entry u *)
Definition has_unihash (d : db) (m t u : str) : Prop := exists mk, In (mkU m t u mk) (unihashes d).

(** An output record of another task of the same method with the output hash o,
    whose task has the unihash u *)
Definition other_record (d : db) (m t o : str) (r : orow) (u : str) : Prop :=
  In r (outhashes d) /\ o_method r = m /\ o_out r = o /\ o_task r <> t /\
  has_unihash d m (o_task r) u.

(** The condition selects the entry: it names at least one column of the table,
    and all columns it names have the given value *)
Definition selects (cond : list (str * str)) (r : urow) : Prop :=
  let value k := if seqb k (s_ "method") then Some (u_method r)
                 else if seqb k (s_ "taskhash") then Some (u_task r)
                 else if seqb k (s_ "unihash") then Some (u_uni r)
                 else if seqb k (s_ "gc_mark") then Some (u_mark r) else None in
  (exists k v, In (k, v) cond /\ value k <> None) /\
  (forall k v x, In (k, v) cond -> value k = Some x -> x = v).

(** A request that neither deletes nor starts a new collection *)
Definition ordinary (e : event) : Prop :=
  forall c, (forall cond, e <> EReq c (Remove cond)) /\ (forall mk, e <> EReq c (GcSweep mk)) /\
            (forall mk cond, e <> EReq c (GcMark mk cond)).
