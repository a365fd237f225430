(** The graph of tasks of a build: bitbake/lib/bb/runqueue.py 654-1180 (RunQueueData.prepare) and the parts of
    bitbake/lib/bb/taskdata.py it reads.  Definitions only.
    A task (tid) is the pair of its recipe file (with the prefix of its multiconfig, as in fn_from_tid) and its name.
    Sets are lists, in any order.  Not modelled: progress, messages, interrupts. *)
From Coq Require Import String Ascii List Bool Arith.
From Verif Require Import Str_Model.
Import ListNotations.
Open Scope list_scope.

Definition tid := (str * str)%type.
Definition teqb (a b : tid) : bool := seqb (fst a) (fst b) && seqb (snd a) (snd b).
Definition mem (x : tid) (l : list tid) : bool := existsb (teqb x) l.
(** set.add *)
Definition add (l : list tid) (x : tid) : list tid := if mem x l then l else l ++ [x].
Definition sadd (l : list str) (x : str) : list str := if mem_str x l then l else l ++ [x].
Definition upd {A} (f : tid -> A) (k : tid) (v : A) : tid -> A := fun x => if teqb x k then v else f x.

(** What prepare reads.  Names and recipe files are looked up in the multiconfig of the task. *)
Record data := mkData {
  d_tasks : list tid;                                  (* taskentries *)
  d_mc : str -> str;                                   (* split_tid_mcfn: the multiconfig of a recipe file *)
  d_tdepends : tid -> list tid;                        (* taskentries[tid].tdepends, before multiconfig dependencies *)
  d_build : str -> str -> option str;                  (* build_targets[name][0] of a multiconfig; None: missing, empty or None *)
  d_run : str -> str -> option str;                    (* run_targets *)
  d_depids : str -> list str;                          (* depids *)
  d_rdepids : str -> list str;                         (* rdepids *)
  d_deptask : tid -> option (list str);                (* task_deps['deptask'], split *)
  d_rdeptask : tid -> option (list str);
  d_recrdeptask : tid -> option (list str);
  d_recideptask : tid -> option (list str);
  d_idepends : tid -> list (str * str);
  d_irdepends : tid -> list (str * str);
  d_failed_deps : str -> list str;                     (* failed_deps of a multiconfig *)
  d_failed_fns : list str;
  d_mcdepends : tid -> option (list (str * str * str * str))   (* task_deps['mcdepends'], split: from, to, name, task *)
}.

Section Prepare.
Variable D : data.

(** ** Step A, runqueue.py 692-720 and 733-821 *)
(** add_build_dependencies, add_runtime_dependencies: [look] is build_targets or run_targets *)
Definition named (look : str -> option str) (ids tasknames : list str) : list tid :=
  flat_map (fun n => match look n with Some f => filter (fun t => mem t (d_tasks D)) (map (pair f) tasknames) | None => [] end) ids.
(** taskdata.py 82-87: get_mcdepends holds what all tasks of a multiconfig ask for; duplicates change nothing *)
Definition mcdepends (mc : str) : list (str * str * str * str) :=
  flat_map (fun t => if seqb (d_mc D (fst t)) mc then match d_mcdepends D t with Some l => l | None => [] end else []) (d_tasks D).
(** add_mc_dependencies; None: bb.fatal, or KeyError for a name without provider.  [enabled] multiconfigs are those of
    the tasks: a multiconfig without build targets has no provider *)
Fixpoint mc_deps (mc : str) (l : list (str * str * str * str)) : option (list tid) :=
  match l with
  | [] => Some []
  | (from, to, name, task) :: r =>
      if seqb mc from then
        match d_build D to name, mc_deps mc r with Some f, Some r => Some ((f, task) :: r) | _, _ => None end
      else mc_deps mc r
  end.
(** 777-800: idepends and irdepends; None: "depends upon non-existent task" *)
Fixpoint inter (look : str -> option str) (skip : str -> bool) (l : list (str * str)) : option (list tid) :=
  match l with
  | [] => Some []
  | (name, task) :: r =>
      match (if skip name then None else look name) with
      | Some f => if mem (f, task) (d_tasks D) then option_map (cons (f, task)) (inter look skip r) else None
      | None => inter look skip r
      end
  end.
Definition words (o : option (list str)) : list str := match o with Some l => l | None => [] end.
(** 733-821: the dependencies of a task *)
Definition depends_of (t : tid) : option (list tid) :=
  let fn := fst t in
  let mc := d_mc D fn in
  if mem_str fn (d_failed_fns D) then Some []
  else
    match (match d_mcdepends D t with Some _ => mc_deps mc (mcdepends mc) | None => Some [] end),
          inter (d_build D mc) (fun n => mem_str n (d_failed_deps D mc)) (d_idepends D t),
          inter (d_run D mc) (fun _ => false) (d_irdepends D t) with
    | Some m, Some i, Some ir =>
        let rec := words (d_recrdeptask D t) in
        let all := d_tdepends D t ++ m
          ++ named (d_build D mc) (d_depids D fn) (words (d_deptask D t))
          ++ named (d_run D mc) (d_rdepids D fn) (words (d_rdeptask D t))
          ++ i ++ ir
          ++ named (d_build D mc) (d_depids D fn) rec ++ named (d_run D mc) (d_rdepids D fn) rec in
        Some (filter (fun x => negb (teqb x t)) (fold_left add all []))
    | _, _, _ => None
    end.
(** The same for all tasks; None also for a dependency that is no task: revdeps[dep] is a KeyError (852) *)
Fixpoint all_depends (l : list tid) : option (tid -> list tid) :=
  match l with
  | [] => Some (fun _ => [])
  | t :: r =>
      match depends_of t, all_depends r with
      | Some ds, Some f => if forallb (fun x => mem x (d_tasks D)) ds then Some (upd f t ds) else None
      | _, _ => None
      end
  end.
(** recursivetasks, 806-808 *)
Definition recursive (t : tid) : bool :=
  match d_recrdeptask D t with Some _ => negb (mem_str (fst t) (d_failed_fns D)) && mem t (d_tasks D) | None => false end.
(** recursivetasksselfref, 811-812 *)
Definition selfref (t : tid) : bool := recursive t && mem_str (snd t) (words (d_recrdeptask D t)).
(** recursiveitasks, 814-818 *)
Definition ritasks (t : tid) : list tid := map (pair (fst t)) (words (d_recideptask D t)).
End Prepare.

(** ** Part B: recipes below a task, 843-876 *)
Section Chains.
Variable tasks : list tid.
Variable depends : tid -> list tid.
Definition revdeps (t : tid) : list tid := filter (fun x => mem t (depends x)) tasks.
Record chain := mkChain { c_deps : tid -> list tid; c_cum : tid -> list str; c_next : list tid }.
(** 865-872: one task [t] and one task [x] that depends on it *)
Definition visit (t : tid) (s : chain) (x : tid) : chain :=
  let left := filter (fun y => negb (teqb y t)) (c_deps s x) in
  mkChain (upd (c_deps s) x left)
          (upd (c_cum s) x (fold_left sadd (fst t :: c_cum s t) (c_cum s x)))
          (match left with [] => add (c_next s) x | _ => c_next s end).
Definition visit_all (s : chain) (t : tid) : chain := fold_left (visit t) (revdeps t) s.
(** 862-873.  None: not finished after [fuel] rounds *)
Fixpoint rounds (fuel : nat) (s : chain) : option chain :=
  match c_next s with
  | [] => Some s
  | ends => match fuel with O => None | S n => rounds n (fold_left visit_all ends (mkChain (c_deps s) (c_cum s) [])) end
  end.
Definition start : chain :=
  mkChain depends (fun _ => []) (filter (fun t => match depends t with [] => true | _ => false end) tasks).
Definition cumulative : option (tid -> list str) := option_map c_cum (rounds (S (length tasks)) start).
End Chains.

(** ** Part B: recrdeptask, 880-921 *)
Section Recursive.
Variable D : data.
Variable cum : tid -> list str.
Definition with_new (t : tid) (dep : tid -> list tid) (new : list tid) : tid -> list tid := upd dep t (fold_left add new (dep t)).
(** 887-905 *)
Definition below (t : tid) (dep : tid -> list tid) : list tid :=
  let names := words (d_recrdeptask D t) in
  let it := ritasks D t in
  let total := dep t ++ it ++ flat_map dep (filter (fun x => mem x (d_tasks D)) it) in
  filter (fun x => negb (teqb x t) && mem x (d_tasks D)) (flat_map (fun f => map (pair f) names) (flat_map cum total)).
(** 908-917 *)
Definition through (t : tid) (dep : tid -> list tid) : list tid :=
  let names := words (d_recrdeptask D t) in
  filter (fun x => mem_str (snd x) names && mem x (d_tasks D)) (flat_map dep (filter (recursive D) (dep t))).
Definition extend (dep : tid -> list tid) (t : tid) : tid -> list tid :=
  let dep := with_new t dep (below t dep) in with_new t dep (through t dep).
Definition size (dep : tid -> list tid) (l : list tid) : nat := fold_left (fun n t => n + length (dep t)) l 0.
(** 880-919: as long as a pass adds something.  None: not finished after [fuel] passes *)
Fixpoint passes (fuel : nat) (rs : list tid) (dep : tid -> list tid) : option (tid -> list tid) :=
  match fuel with
  | O => None
  | S n => let dep' := fold_left extend rs dep in if size dep' rs =? size dep rs then Some dep' else passes n rs dep'
  end.
(** 922-924 *)
Definition no_selfref (dep : tid -> list tid) : tid -> list tid :=
  fun t => if selfref D t then filter (fun x => negb (selfref D x)) (dep t) else dep t.
End Recursive.
(** Steps A and B *)
Definition resolve (D : data) : option (tid -> list tid) :=
  match all_depends D (d_tasks D) with
  | None => None
  | Some dep =>
      match cumulative (d_tasks D) dep with
      | None => None
      | Some cum =>
          let rs := filter (recursive D) (d_tasks D) in
          option_map (no_selfref D) (passes D cum (S (length rs * length (d_tasks D))) rs dep)
      end
  end.

(** ** Step B: active tasks, 939-954 and 969-1005 *)
Section Active.
Variable dep : tid -> list tid.
(** mark_active.  None: deeper than [fuel] *)
Fixpoint mark (fuel : nat) (t : tid) (b : list tid) : option (list tid) :=
  match fuel with
  | O => None
  | S n =>
      if mem t b then Some b
      else fold_left (fun acc x => match acc with Some b => mark n x b | None => None end) (dep t) (Some (b ++ [t]))
  end.
Definition mark_all (fuel : nat) (l b : list tid) : option (list tid) :=
  fold_left (fun acc x => match acc with Some b => mark fuel x b | None => None end) l (Some b).
End Active.
(** A target: its multiconfig, name, task (a final - asks for the dependencies only) and recipe file *)
Record target := mkTarget { g_mc : str; g_name : str; g_task : str; g_fn : str }.
(** 972-1005: the tasks to mark; None: "Task does not exist" *)
Definition roots (D : data) (dep : tid -> list tid) (g : target) : option (list tid) :=
  if match d_build D (g_mc g) (g_name g) with None => true | Some _ => mem_str (g_name g) (d_failed_deps D (g_mc g)) || mem_str (g_fn g) (d_failed_fns D) end
  then Some []
  else
    let parents := endswith (s_ "-") (g_task g) in
    let t := (g_fn g, if parents then removelast (g_task g) else g_task g) in
    if mem t (d_tasks D) then Some (if parents then dep t else [t]) else None.
Fixpoint all_roots (D : data) (dep : tid -> list tid) (l : list target) : option (list tid) :=
  match l with
  | [] => Some []
  | g :: r => match roots D dep g, all_roots D dep r with Some a, Some b => Some (a ++ b) | _, _ => None end
  end.

(** ** Step C, 1014-1076 *)
Definition task_name (s : str) : str := if startswith (s_ "do_") s then s else s_ "do_" ++ s.
Section Prune.
Variable tasks : list tid.
Variable dep : tid -> list tid.
(** 1030-1036: the tasks --runall asks for, in the recipes of the active tasks *)
Definition wanted (names : list str) (active : list tid) : list tid :=
  fold_left add (filter (fun x => mem x tasks) (flat_map (fun n => map (fun t => (fst t, task_name n)) active) names)) [].
(** 1020-1043: [orig] is runall_tids, [active] is runq_build.  None: not finished after [fuel] rounds *)
Fixpoint runall (fuel : nat) (names : list str) (orig active : list tid) : option (list tid) :=
  match fuel with
  | O => None
  | S n =>
      let w := wanted names active in
      match mark_all dep (S (length tasks)) w [] with
      | Some active' => if forallb (fun x => mem x orig) w then Some active' else runall n names w active'
      | None => None
      end
  end.
(** 1062-1071 *)
Definition runonly (names : list str) (active : list tid) : option (list tid) :=
  mark_all dep (S (length tasks)) (flat_map (fun n => filter (fun t => seqb (snd t) (task_name n)) active) names) [].
End Prune.
(** Steps A to C.  None: no task, an error, or nothing left.  The result: the tasks that remain *)
Definition prepare (D : data) (targets : list target) (runalls runonlys : list str) : option (list tid * (tid -> list tid)) :=
  match resolve D with
  | None => None
  | Some dep =>
      let n := length (d_tasks D) in
      match all_roots D dep targets with
      | None => None
      | Some rt =>
          match mark_all dep (S n) rt [] with
          | None => None
          | Some a =>
              match (match runalls with [] => Some a | _ => runall (d_tasks D) dep (S (S n)) runalls [] a end) with
              | None => None
              | Some a =>
                  match (match runonlys with [] => Some a | _ => runonly (d_tasks D) dep runonlys a end) with
                  | None | Some [] => None
                  | Some a => Some (a, dep)
                  end
              end
          end
      end
  end.

(** ** Recipes that provide the same, 1110-1136 *)
(** [provides], [pn]: fn_provides and pkg_fn of one multiconfig; [fns]: the recipe files of the remaining tasks in it.
    false: bb.fatal "Multiple versions" *)
Fixpoint distinct (seen : list str) (l : list str) : bool :=
  match l with [] => true | p :: r => negb (mem_str p seen) && distinct (p :: seen) r end.
Definition one_version (provides : str -> list str) (pn : str -> str) (allowed fns : list str) : bool :=
  forallb (fun prov => mem_str prov allowed || distinct [] (map pn (filter (fun f => mem_str prov (provides f)) fns)))
          (flat_map provides fns).
Definition versions_ok (D : data) (provides : str -> list str) (pn : str -> str) (allowed : list str) (mc : str) (active : list tid) : bool :=
  one_version provides pn allowed (fold_left sadd (filter (fun f => seqb (d_mc D f) mc) (map fst active)) []).
