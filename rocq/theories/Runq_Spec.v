(** What a user of the task engine relies on, said about the history of a build
    (the [log] of things an observer sees, latest first) and the task graph only. *)
From Coq Require Import List Bool ZArith Arith.
From Verif Require Import Runq_Model.
Import ListNotations.
Open Scope list_scope.

(** [t] needs [d], directly or through other tasks. *)
Inductive needs (c : cfg) : nat -> nat -> Prop :=
  | needs_direct t d : In d (depends c t) -> needs c t d
  | needs_trans t d e : In d (depends c t) -> needs c d e -> needs c t e.

(** The dependency graph is closed and has no loop (C27 is about loops). *)
Definition sound_graph (c : cfg) : Prop :=
  (forall t d, In t (tasks c) -> In d (depends c t) -> In d (tasks c)) /\
  exists rank : nat -> nat, forall t d, In t (tasks c) -> In d (depends c t) -> rank d < rank t.

(** Task [t] is finished according to history [h]: its code ran successfully, it
    has no code, its result was restored from the cache, or its stamp was current. *)
Definition finished (h : list ev) (t : nat) : Prop :=
  In (Succeeded t) h \/ In (Noexec t) h \/ exists b, In (Skipped t b) h.

(** The events by which a task is taken up. *)
Definition takes_up (t : nat) (e : ev) : Prop :=
  e = Started t \/ e = Noexec t \/ exists b, e = Skipped t b.

(** Number of processes running at the end of history [h]. *)
Definition weight (e : ev) : Z :=
  match e with
  | Started _ | SceneStarted _ => 1
  | Succeeded _ | TaskFailed _ | SceneOk _ | SceneFailed _ => -1
  | _ => 0
  end%Z.
Definition processes (h : list ev) : Z := fold_right (fun e z => weight e + z)%Z 0%Z h.

(** Tasks whose process was started and did not report yet. *)
Definition executing (h : list ev) (t : nat) : Prop :=
  In (Started t) h /\ ~ In (Succeeded t) h /\ ~ In (TaskFailed t) h.

(** The cache delivered setscene task [q] (or it was not needed). *)
Definition restored (h : list ev) (q : nat) : Prop := In (SceneOk q) h \/ In (SceneSkip q) h.

Definition no_interrupt (es : list event) : Prop := ~ In Interrupt es.
