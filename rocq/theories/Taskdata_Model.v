(** Which recipes a build consists of: bitbake/lib/bb/taskdata.py 19-66, 67-166, 183-297, 327-383, 388-530 and
    bitbake/lib/bb/cooker.py 636 and 677-678.  Definitions only.
    The pairs of tables for build dependencies and for runtime dependencies (build_targets and run_targets, depids and
    rdepids, failed_deps and failed_rdeps) are one table with a side.  Not modelled: messages and events, extra
    dependencies (add_extra_deps), multiconfig dependencies (mcdepends). *)
From Coq Require Import String Ascii List Bool Arith.
From Verif Require Import Str_Model.
Import ListNotations.
Open Scope list_scope.

Inductive side := Build | Runtime.
Definition upd {A} (f : side -> A) (x : side) (a : A) : side -> A :=
  fun y => match x, y with Build, Build | Runtime, Runtime => a | _, _ => f y end.

(** ** What the recipes say *)
(** A task: its parents and the words of its flags depends (the build side) and rdepends *)
Record task := { t_name : str; t_parents : list str; t_flag : side -> list str }.
(** dataCache.  [c_choice]: the files that filterProviders (see the area Providers) or filterProvidersRunTime
    return for a name, in their order; None: there are none (NoProvider, NoRProvider), or the configuration prefers
    several of them (MultipleRProvider, 421-428).  [c_ignored]: re_match_strings(name, dataCache.ignored_dependencies),
    19-30, for ASSUME_PROVIDED.  [c_needs]: dataCache.deps, or dataCache.rundeps and runrecs of all packages *)
Record cache := {
  c_choice : side -> str -> option (list str);
  c_ignored : str -> bool;
  c_tasks : str -> list task;
  c_needs : side -> str -> list str
}.

(** ** class TaskData, 38-65 *)
(** TaskEntry 32-36: the task with its recipe.  [e_needs]: idepends and irdepends *)
Record entry := { e_fn : str; e_task : str; e_tdepends : list str; e_needs : side -> list (str * str) }.
Record state := {
  s_targets : side -> list (str * list str);    (* build_targets, run_targets: in the order of the dictionary *)
  s_seen : list str;                            (* seenfns *)
  s_entries : list entry;                       (* taskentries *)
  s_needs : side -> list (str * list str);      (* depids, rdepids *)
  s_failed : side -> list str;                  (* failed_deps, failed_rdeps *)
  s_ffns : list str;                            (* failed_fns *)
  s_external : list str                         (* external_targets *)
}.
Definition init : state := Build_state (fun _ => []) [] [] (fun _ => []) (fun _ => []) [] [].
Definition set_targets (s : state) (x : side) (l : list (str * list str)) : state :=
  Build_state (upd (s_targets s) x l) (s_seen s) (s_entries s) (s_needs s) (s_failed s) (s_ffns s) (s_external s).
Definition add_failed (s : state) (x : side) (t : str) : state :=
  Build_state (s_targets s) (s_seen s) (s_entries s) (s_needs s) (upd (s_failed s) x (s_failed s x ++ [t])) (s_ffns s) (s_external s).
Definition add_ffn (s : state) (fn : str) : state :=
  Build_state (s_targets s) (s_seen s) (s_entries s) (s_needs s) (s_failed s) (s_ffns s ++ [fn]) (s_external s).
Definition add_external (s : state) (t : str) : state :=
  Build_state (s_targets s) (s_seen s) (s_entries s) (s_needs s) (s_failed s) (s_ffns s) (s_external s ++ [t]).
Definition add_seen (s : state) (fn : str) : state :=
  Build_state (s_targets s) (s_seen s ++ [fn]) (s_entries s) (s_needs s) (s_failed s) (s_ffns s) (s_external s).
Definition add_entry (s : state) (e : entry) : state :=
  Build_state (s_targets s) (s_seen s) (s_entries s ++ [e]) (s_needs s) (s_failed s) (s_ffns s) (s_external s).
Definition add_need (s : state) (x : side) (fn : str) (l : list str) : state :=
  Build_state (s_targets s) (s_seen s) (s_entries s) (upd (s_needs s) x (s_needs s x ++ [(fn, l)])) (s_failed s) (s_ffns s) (s_external s).

(** How a call ends: normally, with NoProvider, with NoRProvider or MultipleRProvider, with bb.msg.fatal.
    OutOfFuel: not an outcome of the code, see the theorem resolution_ends *)
Inductive res := Ok (s : state) | NoProv (s : state) | NoRProv (s : state) | Fatal | OutOfFuel.
(** A loop whose body may raise *)
Fixpoint each {A} (f : A -> state -> res) (l : list A) (s : state) : res :=
  match l with
  | [] => Ok s
  | a :: r => match f a s with Ok s => each f r s | e => e end
  end.

Fixpoint get (t : str) (l : list (str * list str)) : list str :=
  match l with [] => [] | (k, v) :: r => if seqb k t then v else get t r end.
Fixpoint put (t : str) (v : list str) (l : list (str * list str)) : list (str * list str) :=
  match l with [] => [(t, v)] | (k, w) :: r => if seqb k t then (k, v) :: r else (k, w) :: put t v r end.
Definition keys (l : list (str * list str)) : list str := map fst l.
Definition providers (s : state) (x : side) (t : str) : list str := get t (s_targets s x).
(** 183-197 have_build_target, have_runtime_target *)
Definition have (s : state) (x : side) (t : str) : bool := match providers s x t with [] => false | _ => true end.
(** 199-204, 218-223 seen_build_target, seen_run_target *)
Definition seen_target (x : side) (t : str) (s : state) : state :=
  if mem_str t (keys (s_targets s x)) then s else set_targets s x (s_targets s x ++ [(t, [])]).
(** 206-216, 225-235 add_build_target, add_runtime_target *)
Definition add_target (x : side) (fn t : str) (s : state) : state :=
  if mem_str fn (providers s x t) then s else set_targets s x (put t (providers s x t ++ [fn]) (s_targets s x)).
(** list.remove *)
Fixpoint remove1 (f : str) (l : list str) : list str :=
  match l with [] => [] | g :: r => if seqb g f then r else g :: remove1 f r end.
(** 280-298 get_dependees, get_rdependees *)
Definition dependees (s : state) (x : side) (t : str) : list str :=
  map fst (filter (fun p => mem_str t (snd p)) (s_needs s x)).
(** 476-480, 501-505: the recipes of the tasks that name the target, once for each time it is named *)
Definition namers (s : state) (x : side) (t : str) : list str :=
  flat_map (fun e => map (fun _ => e_fn e) (filter (fun p => seqb (fst p) t) (e_needs e x))) (s_entries s).

Section Resolve.
Variable C : cache.
Variables halt allowincomplete : bool.

(** ** Failures *)
(** 462-484 remove_buildtarget, 486-505 remove_runtarget *)
Definition remove_target (fail : str -> state -> res) (x : side) (t : str) (s : state) : res :=
  let s := add_failed s x t in
  match each fail (dependees s x t) s with
  | Ok s =>
      match each fail (namers s x t) s with
      | Ok s => match x with
                | Build => if halt && mem_str t (s_external s) then NoProv s else Ok s
                | Runtime => Ok s
                end
      | e => e
      end
  | e => e
  end.
(** 451-455, 456-460: one target that may lose its provider *)
Definition lose (fail : str -> state -> res) (fn : str) (x : side) (t : str) (s : state) : res :=
  if mem_str fn (providers s x t) then
    let l := remove1 fn (providers s x t) in
    let s := set_targets s x (put t l (s_targets s x)) in
    match l with [] => remove_target fail x t s | _ => Ok s end
  else Ok s.
(** 438-460 fail_fn.  [n] bounds the depth of the recursion *)
Fixpoint fail_fn (n : nat) (fn : str) (s : state) : res :=
  match n with
  | O => OutOfFuel
  | S n =>
      if mem_str fn (s_ffns s) then Ok s
      else
        let s := add_ffn s fn in
        match each (lose (fail_fn n) fn Build) (keys (s_targets s Build)) s with
        | Ok s => each (lose (fail_fn n) fn Runtime) (keys (s_targets s Runtime)) s
        | e => e
        end
  end.
(** Every recipe that fails is one more in failed_fns *)
Definition depth (s : state) : nat := S (length (s_seen s)).
Definition fail (fn : str) (s : state) : res := fail_fn (depth s) fn s.
Definition remove (x : side) (t : str) (s : state) : res := remove_target (fail_fn (depth s)) x t s.

(** ** A recipe *)
(** 93-103: package:task *)
Definition parse_dep (w : str) : option (str * str) :=
  match split_on ":"%char w with [a; b] => Some (a, b) | _ => None end.
Fixpoint parse_deps (ws : list str) : option (list (str * str)) :=
  match ws with
  | [] => Some []
  | w :: r => match parse_dep w, parse_deps r with Some d, Some l => Some (d :: l) | _, _ => None end
  end.
(** 105-128: a task of the recipe.  Every task is in the list of tasks once *)
Definition add_task (fn : str) (t : task) (s : state) : res :=
  match parse_deps (t_flag t Build), parse_deps (t_flag t Runtime) with
  | Some b, Some r =>
      let ps := filter (fun p => mem_str p (map t_name (c_tasks C fn))) (t_parents t) in
      let s := add_entry s (Build_entry fn (t_name t) ps (fun x => match x with Build => b | Runtime => r end)) in
      let s := fold_left (fun s d => seen_target Build (fst d) s) b s in
      Ok (fold_left (fun s d => seen_target Runtime (fst d) s) r s)
  | _, _ => Fatal
  end.
(** list(set(...)): the order is not that of the code, but any order results from some order of the dependencies *)
Definition dedupe (l : list str) : list str := fold_left (fun acc d => if mem_str d acc then acc else acc ++ [d]) l [].
(** 157-166: the dependencies of one side; true: the recipe has failed *)
Fixpoint check_deps (x : side) (fn : str) (deps : list str) (s : state) : res * bool :=
  match deps with
  | [] => (Ok s, false)
  | d :: r =>
      let s := seen_target x d s in
      if mem_str d (s_failed s x) then (fail fn s, true) else check_deps x fn r s
  end.
(** 67-166 add_tasks *)
Definition add_tasks (fn : str) (s : state) : res :=
  if mem_str fn (s_ffns s) then Fatal
  else if mem_str fn (s_seen s) then Ok s
  else
    match each (add_task fn) (c_tasks C fn) (add_seen s fn) with
    | Ok s =>
        let s := add_need s Build fn (dedupe (c_needs C Build fn)) in
        let s := add_need s Runtime fn (dedupe (c_needs C Runtime fn)) in
        match check_deps Build fn (dedupe (c_needs C Build fn)) s with
        | (Ok s, false) => fst (check_deps Runtime fn (dedupe (c_needs C Runtime fn)) s)
        | (r, _) => r
        end
    | e => e
    end.

(** ** A name *)
(** 378-383, 431-436 *)
Definition add_provider_file (x : side) (t fn : str) (s : state) : res :=
  if mem_str fn (s_ffns s) then Ok s else add_tasks fn (add_target x fn t s).
Definition no_provider (x : side) (s : state) : res := match x with Build => NoProv s | Runtime => NoRProv s end.
(** 337-383 add_provider_internal, 388-436 add_rprovider.  A name with providers has a choice, so the order of the
    two first tests, which is not the same in the two functions, makes no difference *)
Definition provide (x : side) (t : str) (s : state) : res :=
  if c_ignored C t then Ok s
  else match c_choice C x t with
       | None => no_provider x s
       | Some l =>
           if have s x t then Ok s
           else match filter (fun f => negb (mem_str f (s_ffns s))) l with
                | [] => no_provider x s
                | el => each (add_provider_file x t) el s
                end
       end.
(** 237-242 mark_external_target *)
Definition mark_external (t : str) (s : state) : state := if mem_str t (s_external s) then s else add_external s t.
(** 327-335 add_provider: a name that was asked for *)
Definition add_provider (t : str) (s : state) : res :=
  match match provide Build t s with
        | NoProv s => if halt then NoProv s else remove Build t s
        | r => r
        end with
  | Ok s => Ok (mark_external t s)
  | e => e
  end.

(** ** All names *)
(** 244-272 get_unresolved_build_targets, get_unresolved_run_targets *)
Definition unresolved (x : side) (s : state) : list str :=
  filter (fun t => negb (c_ignored C t) && negb (mem_str t (s_failed s x)) && negb (have s x t)) (keys (s_targets s x)).
(** 514-521, 523-527: one target; true: added *)
Definition settle (x : side) (t : str) (s : state) : res * bool :=
  match x, provide x t s with
  | _, Ok s => (Ok s, true)
  | Build, NoProv s =>
      (if halt && mem_str t (s_external s) && negb allowincomplete then NoProv s
       else if allowincomplete then Ok s else remove Build t s, false)
  | Runtime, NoRProv s => (remove Runtime t s, false)
  | _, e => (e, false)
  end.
Fixpoint settle_all (x : side) (ts : list str) (s : state) (added : nat) : res * nat :=
  match ts with
  | [] => (Ok s, added)
  | t :: r => match settle x t s with
              | (Ok s, b) => settle_all x r s (if b then S added else added)
              | (e, _) => (e, added)
              end
  end.
(** 513-528 the body of the loop *)
Definition pass (s : state) : res * nat :=
  match settle_all Build (unresolved Build s) s 0 with
  | (Ok s, n) => settle_all Runtime (unresolved Runtime s) s n
  | r => r
  end.
(** 507-530 add_unresolved.  [n] bounds the number of passes *)
Fixpoint add_unresolved (n : nat) (s : state) : res :=
  match n with
  | O => OutOfFuel
  | S n => match pass s with
           | (Ok s, O) => Ok s
           | (Ok s, S _) => add_unresolved n s
           | (e, _) => e
           end
  end.
(** cooker.py 636 and 677-678, for one configuration *)
Definition taskdata (n : nat) (targets : list str) : res :=
  match each add_provider targets init with
  | Ok s => add_unresolved n s
  | e => e
  end.
End Resolve.
