(** What is said about environments. *)
From Coq Require Import Ascii String List Bool Arith.
From Verif Require Import Str_Model Environ_Model.
Import ListNotations.
Open Scope list_scope.

(** A dictionary holds a value for a key. *)
Definition holds (e : environ) (k v : str) : Prop := In (k, v) e.
Definition proper (e : environ) : Prop := NoDup (map fst e).
Definition unset (e : environ) (k : str) : Prop := forall v, ~ holds e k v.
(** Two environments agree on a name. *)
Definition agree (a b : environ) (k : str) : Prop := forall v, holds a k v <-> holds b k v.
(** The names that pass: those of BB_ENV_PASSTHROUGH, or without it the usual ones; and those of
    BB_ENV_PASSTHROUGH_ADDITIONS; everything with BB_PRESERVE_ENV. *)
Definition usual_names : list str :=
  map s_ ["BBPATH"; "BB_PRESERVE_ENV"; "BB_ENV_PASSTHROUGH_ADDITIONS"; "BB_TASKHASH"; "HOME"; "LOGNAME"; "PATH"; "PWD"; "SHELL"; "USER"; "LC_ALL"; "BBSERVER"]%string.
Definition exported_names : list str := map s_ ["BB_TASKHASH"; "HOME"; "LOGNAME"; "PATH"; "PWD"; "SHELL"; "USER"; "LC_ALL"; "BBSERVER"]%string.
Definition passes (e : environ) (k : str) : Prop :=
  ~ unset e (s_ "BB_PRESERVE_ENV") /\ ~ unset e k \/
  unset e (s_ "BB_PRESERVE_ENV") /\
   ((exists v, holds e (s_ "BB_ENV_PASSTHROUGH") v /\ (In k (split_ws v) \/ k = s_ "BB_ENV_PASSTHROUGH")) \/
    (unset e (s_ "BB_ENV_PASSTHROUGH") /\ In k usual_names) \/
    (exists v, holds e (s_ "BB_ENV_PASSTHROUGH_ADDITIONS") v /\ (In k (split_ws v) \/ k = s_ "BB_ENV_PASSTHROUGH_ADDITIONS"))).
(** A server that served these clients (environment; whether other options changed). *)
Definition served (first : environ) (mcs : nat) (clients : list (environ * bool)) : server := fold_left connect clients (start_server first mcs).
(** The last one. *)
Definition last_client (clients : list (environ * bool)) (c : environ) : Prop := exists l b, clients = l ++ [(c, b)].
(** What the datastore has of an environment: exactly the variables that pass with the
    environment of the server's process. *)
Definition reflects (base : list (str * (str * bool))) (process client : environ) : Prop :=
  (forall k v ex, In (k, (v, ex)) base <-> holds client k v /\ passes process k /\ (ex = true <-> In k exported_names)).
(** The value of a variable in the datastore. *)
Definition variable (d : dstore) (k : str) (x : dvar) : Prop := In (k, x) d.
Definition internal (k : str) : Prop := exists r, k = s_ "__" ++ r.
