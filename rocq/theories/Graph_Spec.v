(** What C91-C95 say, without the functions of the model. *)
From Coq Require Import String Ascii List Bool Arith.
From Verif Require Import Str_Model Graph_Model.
Import ListNotations.
Open Scope list_scope.

(** ** Dependencies named by a recipe *)
Definition failed (D : data) (t : tid) : Prop := In (fst t) (d_failed_fns D).
(** The recipe file that provides a name for task t *)
Definition built_by (D : data) (t : tid) (n f : str) : Prop := d_build D (d_mc D (fst t)) n = Some f.
Definition run_by (D : data) (t : tid) (n f : str) : Prop := d_run D (d_mc D (fst t)) n = Some f.
(** The words of a flag of a task *)
Definition flag_word (o : option (list str)) (w : str) : Prop := exists l, o = Some l /\ In w l.
(** x is named as a dependency of t: by addtask, by a multiconfig dependency of this or another task of the same
    multiconfig, by deptask, rdeptask or recrdeptask for what the recipe depends on, or by the flags depends and
    rdepends *)
Inductive names (D : data) (t : tid) : tid -> Prop :=
| N_task : forall x, In x (d_tdepends D t) -> names D t x
| N_mc : forall l u l' to n task f, d_mcdepends D t = Some l -> In u (d_tasks D) -> d_mc D (fst u) = d_mc D (fst t) -> d_mcdepends D u = Some l' ->
    In (d_mc D (fst t), to, n, task) l' -> d_build D to n = Some f -> names D t (f, task)
| N_dep : forall n f w, In n (d_depids D (fst t)) -> built_by D t n f -> flag_word (d_deptask D t) w \/ flag_word (d_recrdeptask D t) w ->
    In (f, w) (d_tasks D) -> names D t (f, w)
| N_rdep : forall n f w, In n (d_rdepids D (fst t)) -> run_by D t n f -> flag_word (d_rdeptask D t) w \/ flag_word (d_recrdeptask D t) w ->
    In (f, w) (d_tasks D) -> names D t (f, w)
| N_idep : forall n w f, In (n, w) (d_idepends D t) -> ~ In n (d_failed_deps D (d_mc D (fst t))) -> built_by D t n f -> names D t (f, w)
| N_irdep : forall n w f, In (n, w) (d_irdepends D t) -> run_by D t n f -> names D t (f, w).
(** x is a direct dependency of task t *)
Definition direct_dep (D : data) (t x : tid) : Prop := In t (d_tasks D) /\ ~ failed D t /\ names D t x /\ x <> t.

(** ** Chains *)
Inductive path (R : tid -> tid -> Prop) : tid -> tid -> Prop :=
| P_one : forall x y, R x y -> path R x y
| P_more : forall x y z, R x y -> path R y z -> path R x z.
Definition leads (R : tid -> tid -> Prop) (x y : tid) : Prop := x = y \/ path R x y.
Definition no_cycle (R : tid -> tid -> Prop) : Prop := forall x, ~ path R x x.

(** ** recrdeptask *)
Definition recursive_task (D : data) (t : tid) : Prop := In t (d_tasks D) /\ ~ failed D t /\ exists l, d_recrdeptask D t = Some l.
(** The task names itself in its recrdeptask *)
Definition self_recursive (D : data) (t : tid) : Prop := recursive_task D t /\ flag_word (d_recrdeptask D t) (snd t).
(** t has recideptask for task i of its own recipe *)
Definition recidep (D : data) (t i : tid) : Prop := fst i = fst t /\ flag_word (d_recideptask D t) (snd i).
(** x: a task named in the recrdeptask of t, of a recipe that has a task below d *)
Definition below_rec (D : data) (t d x : tid) : Prop :=
  recursive_task D t /\ (exists y, path (direct_dep D) d y /\ fst x = fst y) /\ flag_word (d_recrdeptask D t) (snd x) /\ In x (d_tasks D) /\ x <> t.
(** x is a dependency of t, direct or through recrdeptask: the recipes below what t depends on, below its
    recideptask tasks and below what these depend on; and what other such tasks have found *)
Inductive deep (D : data) : tid -> tid -> Prop :=
| D_direct : forall t x, direct_dep D t x -> deep D t x
| D_below : forall t d x, deep D t d -> below_rec D t d x -> deep D t x
| D_reci : forall t d x, recidep D t d -> below_rec D t d x -> deep D t x
| D_reci_dep : forall t i d x, recidep D t i -> In i (d_tasks D) -> deep D i d -> below_rec D t d x -> deep D t x
| D_through : forall t d x, recursive_task D t -> deep D t d -> recursive_task D d -> deep D d x -> flag_word (d_recrdeptask D t) (snd x) ->
    In x (d_tasks D) -> deep D t x.
(** The dependencies in effect: tasks that name themselves do not wait for each other *)
Definition final_dep (D : data) (t x : tid) : Prop := deep D t x /\ ~ (self_recursive D t /\ self_recursive D x).

(** ** Requests *)
(** A target asks for task x: its task, or with a final - what this depends on *)
Definition asks (D : data) (R : tid -> tid -> Prop) (g : target) (x : tid) : Prop :=
  (exists f, d_build D (g_mc g) (g_name g) = Some f) /\ ~ In (g_name g) (d_failed_deps D (g_mc g)) /\ ~ In (g_fn g) (d_failed_fns D) /\
  ((~ (exists s, g_task g = s ++ s_ "-")) /\ x = (g_fn g, g_task g) \/
   exists s, g_task g = s ++ s_ "-" /\ R (g_fn g, s) x).
Definition requested (D : data) (R : tid -> tid -> Prop) (targets : list target) (x : tid) : Prop :=
  exists g r, In g targets /\ asks D R g r /\ leads R r x.
(** --runall: task n of each recipe with a requested task, and of each recipe with a task that these lead to *)
Definition names_task (l : list str) (n : str) : Prop := exists w, In w l /\ (n = w /\ (exists s, w = s_ "do_" ++ s) \/ n = s_ "do_" ++ w /\ ~ exists s, w = s_ "do_" ++ s).
Inductive swept (tasks : list tid) (R : tid -> tid -> Prop) (base : tid -> Prop) (l : list str) : tid -> Prop :=
| S_base : forall a n, base a -> names_task l n -> In (fst a, n) tasks -> swept tasks R base l (fst a, n)
| S_more : forall r a n, swept tasks R base l r -> leads R r a -> names_task l n -> In (fst a, n) tasks -> swept tasks R base l (fst a, n).
(** What is built with --runall=l, and with --runonly=l *)
Definition all_of (tasks : list tid) (R : tid -> tid -> Prop) (base : tid -> Prop) (l : list str) (x : tid) : Prop :=
  (l = [] /\ base x) \/ l <> [] /\ exists r, swept tasks R base l r /\ leads R r x.
Definition only_of (R : tid -> tid -> Prop) (base : tid -> Prop) (l : list str) (x : tid) : Prop :=
  (l = [] /\ base x) \/ l <> [] /\ exists r, base r /\ names_task l (snd r) /\ leads R r x.
