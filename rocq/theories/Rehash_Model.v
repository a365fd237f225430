(** Model of what happens when the hash of a task's output turns out to be known under
    another name (bitbake/lib/bb/runqueue.py process_possible_migrations 2513-2590: the
    hashes of all tasks that depend on it are computed anew), and of the dependencies
    that are passed to a task (build_taskdepdata 2454-2471). *)
From Coq Require Import Ascii String List Bool Arith.
From Verif Require Import Str_Model.
Import ListNotations.
Open Scope list_scope.

Definition tid := nat.
Definition mem (t : tid) (l : list tid) : bool := existsb (Nat.eqb t) l.
Definition disjoint (a b : list tid) : bool := forallb (fun t => negb (mem t b)) a.
(** Sets are lists without duplicates. *)
Definition add (t : tid) (l : list tid) : list tid := if mem t l then l else l ++ [t].
Definition union (a b : list tid) : list tid := fold_left (fun l t => add t l) b a.
Definition minus (a b : list tid) : list tid := filter (fun t => negb (mem t b)) a.
Definition inter (a b : list tid) : list tid := filter (fun t => mem t b) a.
Definition upd {A} (f : tid -> A) (t : tid) (x : A) : tid -> A := fun u => if Nat.eqb u t then x else f u.

Section Rehash.
(** runtaskentries[t].depends and revdeps; the dependencies whose hashes are part of that
    of a task (siggen runtaskdeps) *)
Variables deps revdeps hashed : tid -> list tid.
(** siggen.get_taskhash (386-410): the hash made of those of the dependencies and of all
    that does not change now *)
Variable make : tid -> list str -> str.
(** The order a set is gone through, which may differ from one time to the next. *)
Variable iter : nat -> list tid -> list tid.
(** runq_running without runq_complete; scenequeue_covered or sq_live *)
Variables running done : tid -> bool.
(** Whether the hash server takes a wanted name for a hash of a task (siggen.py
    report_unihash_equiv 856-887); without a server it is false *)
Variable agree : tid -> str -> str -> bool.
(** sq_deferred *)
Variable deferred : list (tid * tid).
(** The task hashes of siggen; its names for them (get_unihash 706-766: stored names, those of
    the server, or the hashes themselves; the store keeps the pair of hash and name it has
    seen last for a task: here names that are asked again are the same); hash and unihash of the runtaskentries *)
Record st := mkSt { th : tid -> str; uni : tid -> str -> str; rq_hash : tid -> str; rq_uni : tid -> str }.
Definition name (s : st) (t : tid) : str := uni s t (th s t).
(** 2529-2532: unihash of the entry, siggen.set_unihash *)
Definition set_unihash (u : str) (s : st) (t : tid) : st :=
  mkSt (th s) (fun v h => if Nat.eqb v t && seqb h (th s t) then u else uni s v h) (rq_hash s) (upd (rq_uni s) t u).
(** 2517-2536: the queue, what is left of it, and the tasks whose name changed *)
Fixpoint read_queue (q : list (tid * str)) (s : st) (top : list tid) : st * list tid * list (tid * str) :=
  match q with
  | [] => (s, top, [])
  | (t, u) :: q =>
      if running t then let '(s, top, kept) := read_queue q s top in (s, top, (t, u) :: kept)
      else if seqb u (rq_uni s t) then read_queue q s top
      else
        let torehash := t :: map fst (filter (fun d => Nat.eqb (snd d) t) deferred) in
        read_queue q (fold_left (set_unihash u) torehash s) (union top torehash)
  end.
(** 2539-2549: all tasks that depend on these; the fuel bounds the rounds *)
Definition revdeps_of (l : list tid) : list tid := fold_left (fun acc t => union acc (revdeps t)) l [].
Fixpoint collect (fuel : nat) (next total : list tid) : list tid :=
  match next, fuel with
  | [], _ | _, 0 => total
  | _, S fuel => let total := union total next in collect fuel (minus (revdeps_of next) total) total
  end.
(** 2566-2588: one task; [changed] are the tasks whose entries change *)
Definition rehash (t : tid) (s : st) (changed : list tid) : st * list tid :=
  let newhash := make t (map (name s) (hashed t)) in
  let newuni := uni s t newhash in
  let s' := mkSt (upd (th s) t newhash) (uni s) (rq_hash s) (rq_uni s) in
  if seqb newuni (rq_uni s t) then (s', changed)
  else if done t then (mkSt (th s') (if agree t newhash (rq_uni s t) then fun v h => if Nat.eqb v t && seqb h newhash then rq_uni s t else uni s v h else uni s) (rq_hash s) (rq_uni s), changed)
  else (mkSt (th s') (uni s') (upd (rq_hash s) t newhash) (upd (rq_uni s) t newuni), add t changed).
(** 2562-2592: the loop over current.  [p] is what the loop of 2553 left behind.  total.remove
    of a task that is not there is a KeyError: None. *)
Fixpoint inner (p : tid) (current next total : list tid) (s : st) (changed : list tid) : option (list tid * list tid * st * list tid) :=
  match current with
  | [] => Some (next, total, s, changed)
  | t :: current =>
      if negb (match deps p with [] => true | _ => false end) && negb (disjoint (deps t) total) then inner p current next total s changed
      else
        let '(s, changed) := rehash t s changed in
        if mem t total then
          let total := filter (fun u => negb (Nat.eqb u t)) total in
          inner p current (inter (union next (revdeps t)) total) total s changed
        else None
  end.
(** 2560-2592; the fuel bounds the rounds: running out of it is None too *)
Fixpoint rounds (fuel n : nat) (p : tid) (next total : list tid) (s : st) (changed : list tid) : option (st * list tid) :=
  match next with
  | [] => Some (s, changed)
  | _ => match fuel with
         | 0 => None
         | S fuel => match inner p (iter n next) [] total s changed with
                     | Some (next, total, s, changed) => rounds fuel (S n) p next total s changed
                     | None => None
                     end
         end
  end.
(** 2552-2557: the last element of the iteration stays in p *)
Definition migrate (fuel : nat) (q : list (tid * str)) (s : st) : option (st * list tid * list (tid * str)) :=
  let '(s, top, kept) := read_queue q s [] in
  let total := collect fuel (revdeps_of top) [] in
  let next := filter (fun p => match deps p with [] => true | _ => disjoint (deps p) total end) total in
  match rounds (S (length total)) 0 (last (iter 0 total) 0) next total s [] with
  | Some (s, changed) => Some (s, changed, kept)
  | None => None
  end.
End Rehash.

(** ** build_taskdepdata *)
Section Depdata.
Variable depends : tid -> list tid.
Variable mc : tid -> nat.
(** filtermcdeps (2427-2434) *)
Definition filtermcdeps (m : nat) (l : list tid) : list tid := filter (fun t => Nat.eqb (mc t) m) l.
(** 2437-2450: the dependencies in an entry of the cache *)
Definition cached (t : tid) : list tid := filtermcdeps (mc t) (depends t).
(** 2462-2467: one round *)
Fixpoint level (next data additional : list tid) : list tid * list tid :=
  match next with
  | [] => (data, additional)
  | t :: next => let data := add t data in level next data (additional ++ filter (fun d => negb (mem d data)) (cached t))
  end.
(** 2460-2468; None: out of fuel *)
Fixpoint levels (fuel : nat) (next data : list tid) : option (list tid) :=
  match next with
  | [] => Some data
  | _ => match fuel with 0 => None | S fuel => let '(data, additional) := level next data [] in levels fuel additional data end
  end.
Definition build_taskdepdata (fuel : nat) (t : tid) : option (list tid) := levels fuel (filtermcdeps (mc t) (add t (depends t))) [].
End Depdata.
