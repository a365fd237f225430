(** What is said about stamps. *)
From Coq Require Import Ascii String List Bool Arith.
From Verif Require Import Str_Model Stamps_Model.
Import ListNotations.
Open Scope list_scope.

(** [x] contains [y] nowhere *)
Definition lacks (y x : str) : Prop := forall u v, x <> u ++ y ++ v.
Definition with_extra (e : str) : str := match e with [] => [] | _ => s_ "." ++ e end.
(** [f] is a stamp of a task of the recipe, for some hash *)
Definition stamp_of (base task extra f : str) : Prop := exists h, ~ In "/"%char h /\ f = base ++ s_ "." ++ task ++ s_ "." ++ h ++ with_extra extra.
(** signatures and marks of invalidated tasks are kept beside the stamps *)
Definition no_stamp (f : str) : Prop := (exists u v, f = u ++ s_ "sigdata" ++ v) \/ (exists u v, f = u ++ s_ "sigbasedata" ++ v) \/ exists u, f = u ++ s_ ".taint".
(** a name without wildcards *)
Definition literal (s : str) : Prop := ~ In "*"%char s.
(** the names of a recipe and of a task are as usual: the task is do_something, its
    name does not occur in the name of the directory, and the extra information
    neither contains it nor ends with a dot *)
Definition usual (base task extra : str) : Prop :=
  literal base /\ literal task /\ literal extra /\ (exists x, task = s_ "do_" ++ x) /\ ~ In "."%char task /\ ~ In "/"%char task /\ lacks task base /\ lacks task extra /\
  lacks scene task /\ (forall u, extra <> u ++ s_ ".").
Definition usual_hash (h : str) : Prop := h <> [] /\ ~ In "."%char h /\ ~ In "/"%char h.

(** A task is up to date: it has a stamp, and every task of the same recipe it depends
    on was taken from the shared state, or has a stamp that is not newer and is up to
    date itself *)
Definition from_shared (w : tasks) (d : nat) : Prop :=
  exists t3, t_scene w d = Some t3 /\ 0 < t3 /\ (t_stamp w d = None \/ t_stamp w d = Some 0 \/ exists t2, t_stamp w d = Some t2 /\ t2 < t3).
Inductive up_to_date (w : tasks) : nat -> Prop :=
| up_scene t t1 : t_stamp w t = Some t1 -> t_nostamp w t = false -> (exists x, t_name w t = x ++ scene) -> up_to_date w t
| up_task t t1 : t_stamp w t = Some t1 -> t_nostamp w t = false ->
    (forall d, In d (t_deps w t) -> ~ from_shared w d -> t_recipe w d = t_recipe w t -> (exists t2, t_stamp w d = Some t2 /\ 0 < t2 <= t1) /\ up_to_date w d) ->
    up_to_date w t.
(** only the task itself and the times of the tasks it depends on *)
Definition looks_current (w : tasks) (t : nat) : Prop :=
  exists t1, t_stamp w t = Some t1 /\ t_nostamp w t = false /\
    ((exists x, t_name w t = x ++ scene) \/ forall d, In d (t_deps w t) -> ~ from_shared w d -> t_recipe w d = t_recipe w t -> exists t2, t_stamp w d = Some t2 /\ 0 < t2 <= t1).

(** A stamp below the directory of the recipe, for a version and a task do_[task] *)
Definition version_stamp (dir ver task hash extra : str) : str := dir ++ s_ "/" ++ ver ++ s_ ".do_" ++ task ++ s_ "." ++ hash ++ with_extra extra.
(** a part of the name between two dots *)
Definition part (x : str) : Prop := x <> [] /\ ~ In "."%char x /\ ~ In "/"%char x.
Definition unsigned (x : str) : Prop := lacks (s_ "sigdata") x /\ lacks (s_ "sigbasedata") x.
(** the parts of the name of a stamp of the recipe *)
Definition proper_stamp (dir ver task hash extra : str) : Prop :=
  literal dir /\ ~ In "/"%char ver /\ (exists a b, ver = a ++ s_ "-" ++ b) /\ lacks (s_ ".do_") (dir ++ s_ "/" ++ ver) /\ unsigned (dir ++ s_ "/" ++ ver) /\
  part task /\ unsigned task /\
  part hash /\ unsigned hash /\ hash <> s_ "taint" /\ (forall x, hash <> s_ "do_" ++ x) /\
  (extra = [] \/ part extra) /\ unsigned extra /\ extra <> s_ "taint" /\ (forall x, extra <> s_ "do_" ++ x).
