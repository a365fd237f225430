(** What is said about the execution of tasks. *)
From Coq Require Import Ascii String List Bool Arith.
From Verif Require Import Str_Model Exec_Model.
Import ListNotations.
Open Scope list_scope.

Definition trace := list (item * option exn).
(** The functions that were run, with what they raised. *)
Fixpoint ran (tr : trace) : list (str * option exn) := match tr with [] => [] | (Run f _, r) :: tr => (f, r) :: ran tr | _ :: tr => ran tr end.
(** The events that were fired. *)
Fixpoint fired (tr : trace) : list event := match tr with [] => [] | (Fire e, _) :: tr => e :: fired tr | _ :: tr => fired tr end.
(** The functions a task consists of: prefuncs, the task itself, postfuncs; functions
    without a body are left out. *)
Definition parts (flags : str -> func) (t : task) : list str := filter (fun f => has_body (flags f)) (t_pre t ++ [t_name t] ++ t_post t).
Definition all_well (tr : trace) : Prop := Forall (fun x => snd x = None) tr.
(** Some lock file is listed before another in every list, never the other way round, and
    never twice. *)
Definition ordered (rank : str -> nat) (l : list str) : Prop := forall i j a b, i < j -> nth_error l i = Some a -> nth_error l j = Some b -> rank a < rank b.
Definition all_done (ts : tasks) : Prop := Forall (fun t => snd t = Done) ts.
(** The tasks of these numbers do a step each. *)
Fixpoint steps (ts : tasks) (is : list nat) : option tasks := match is with [] => Some ts | i :: is => match lock_step ts i with Some ts => steps ts is | None => None end end.
