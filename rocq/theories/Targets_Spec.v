(** How a target is written: [mc:CONF:]NAME[:do_TASK]. *)
From Coq Require Import String Ascii List.
From Verif Require Import Str_Model.
Import ListNotations.
Open Scope list_scope.

Record request := { r_conf : option str; r_name : str; r_task : option str }.
Definition text (r : request) : str :=
  match r_conf r with None => [] | Some c => s_ "mc:" ++ c ++ s_ ":" end ++ r_name r ++
  match r_task r with None => [] | Some t => s_ ":do_" ++ t end.
Definition plain (s : str) : Prop := ~ In ":"%char s /\ ~ In "*"%char s.
(** A name as recipes have it, and the words with a meaning of their own *)
Definition good (r : request) : Prop :=
  plain (r_name r) /\ r_name r <> [] /\ ~ In (r_name r) [s_ "world"; s_ "universe"; s_ "multiconfig"] /\
  (forall t, r_task r = Some t -> plain t /\ forall u, t <> s_ "do_" ++ u).
(** A configuration by its name, or none: the default one *)
Definition one_conf (mcs : list str) (r : request) : Prop := match r_conf r with None => In [] mcs | Some c => plain c /\ In c mcs end.
Definition every_conf (r : request) : Prop := r_conf r = Some (s_ "*").
(** What the request means *)
Definition conf_of (r : request) : str := match r_conf r with None => [] | Some c => c end.
Definition task_of (default : str) (r : request) : str := match r_task r with None => default | Some t => s_ "do_" ++ t end.
Definition meaning (default : str) (r : request) : str * str * str := (conf_of r, r_name r, task_of default r).
