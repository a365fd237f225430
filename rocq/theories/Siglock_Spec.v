(** Which dependencies should count, and what locking a hash should mean. *)
From Coq Require Import String Ascii List.
From Verif Require Import Str_Model Siglock_Model.
Import ListNotations.

(** The dependency is another task of the same recipe in the same multiconfig. *)
Definition own (q : query) : Prop := q_recipe q = q_dep q /\ q_same_mc q = true.
(** It is declared safe, for this recipe or for all others. *)
Definition declared_safe (q : query) : Prop :=
  In (q_recipe q ++ s_ "->" ++ q_dep q) (q_safe q) \/
  In (s_ "*->" ++ q_dep q) (q_safe q) /\ q_recipe q <> q_dep q.
Definition native (r : str) : Prop := exists a, r = a ++ s_ "-native".
(** The recipe produces something for the build host or an SDK. *)
Definition for_host (r : str) : Prop :=
  native r \/ (exists a b, r = a ++ s_ "-cross-" ++ b) \/ exists b, r = s_ "nativesdk-" ++ b.
(** One of the class files, joined by blanks, has this text in it. *)
Definition inherits (l : list str) (c : str) : Prop := exists a b, join (s_ " ") l = a ++ c ++ b.
Definition kernel (l : list str) : Prop := inherits l (s_ "/module-base.bbclass") \/ inherits l (s_ "/linux-kernel-base.bbclass").
(** The three exceptions for target recipes. *)
Definition architecture_free_group (q : query) : Prop :=
  inherits (q_inherits q) (s_ "/packagegroup.bbclass") /\ inherits (q_inherits q) (s_ "/allarch.bbclass") /\ ~ native (q_dep q).
Definition abi_safe (q : query) : Prop := In (q_dep q) (q_abisafe q) /\ ~ inherits (q_inherits q) (s_ "/image.bbclass").
Definition module_only (q : query) : Prop :=
  kernel (q_dep_inherits q) /\ ~ kernel (q_inherits q) /\
  exists recs a b, In recs (q_recommends q) /\ join (s_ " ") recs = a ++ s_ "kernel-module-" ++ b.

Definition counts (q : query) : Prop :=
  q_task q <> s_ "do_rm_work" /\
  (own q /\ ~ (q_task q = s_ "do_kernel_configme" /\ q_deptask q = s_ "do_unpack_and_patch") \/
   ~ own q /\ ~ declared_safe q /\
   (for_host (q_recipe q) \/ ~ architecture_free_group q /\ ~ abi_safe q /\ ~ module_only q)).

(** A recipe name in which a name marked as unlocked occurs. *)
Definition names_unlocked (unlocked : list str) (y : str) : Prop := exists x a b, In x unlocked /\ y = a ++ x ++ b.

(** The task's hash is locked to [h]: the recipe is not unlocked and has no unlocked dependency. *)
Definition locked_to (locks : list (str * str * str)) (unlocked : list str) (c : call) (h : str) : Prop :=
  lock_of locks (c_recipe c) (c_task c) = Some h /\ ~ In (c_recipe c) unlocked /\
  forall y, In y (c_deps c) -> ~ names_unlocked unlocked y.
Definition not_hashed (st : lstate) (tid : str) : Prop := forall v, ~ In (tid, v) (l_hashes st).

(** Two calls for the same task, whatever the computed hashes are. *)
Definition same_call (a b : call) : Prop :=
  c_tid a = c_tid b /\ c_recipe a = c_recipe b /\ c_task a = c_task b /\ c_deps a = c_deps b.
