(** bitbake/lib/bb/runqueue.py 2869-3052 build_scenequeue_data: the graph of the setscene tasks.  Definitions only.
    Tasks, sets and the record [cfg] are those of Runq_Model; of the record only the tasks, their dependencies and the
    setscene tasks are used here.  Not modelled: the stamp files (2985) and the hard dependencies (2987-3005). *)
From Coq Require Import List Bool Arith.
From Verif Require Import Runq_Model.
Import ListNotations.
Open Scope list_scope.

(** sq_revdeps, sq_revdeps_squash and sq_collated_deps.  An entry that does not exist is the empty set: the code reads
    only entries of tasks of the build and of setscene tasks *)
Record data := { rv : nat -> list nat; sq : nat -> list nat; cl : nat -> list nat }.
Definition put (f : nat -> list nat) (k : nat) (v : list nat) : nat -> list nat := fun x => if Nat.eqb x k then v else f x.
(** A dictionary of sets: endpoints *)
Definition points : Type := list (nat * list nat).
Definition has (k : nat) (l : points) : bool := existsb (fun p => Nat.eqb (fst p) k) l.
Definition assign (k : nat) (v : list nat) (l : points) : points :=
  if has k l then map (fun p => if Nat.eqb (fst p) k then (k, v) else p) l else l ++ [(k, v)].
(** 2905-2908 *)
Definition add_to (k v : nat) (l : points) : points :=
  if has k l then map (fun p => if Nat.eqb (fst p) k then (k, add v (snd p)) else p) l else l ++ [(k, [v])].

Section Scene.
Variable c : cfg.

(** 2888-2894 *)
Definition first_data : data := {| rv := revdeps c; sq := fun _ => []; cl := fun _ => [] |}.
Definition first_points : points := map (fun t => (t, [])) (filter (fun t => is_nil (revdeps c t) && negb (mem t (scene c))) (tasks c)).
(** 2902-2908 *)
Definition cut_edge (t : nat) (a : data * points) (d : nat) : data * points :=
  let '(s, e) := a in ({| rv := put (rv s) d (del t (rv s d)); sq := sq s; cl := cl s |}, add_to d t e).
(** 2899-2908 *)
Definition cut_edges : data * points :=
  fold_left (fun a t => fold_left (cut_edge t) (depends c t) a) (scene c) (first_data, first_points).

(** 2927-2933: a dependency of an endpoint; [task]: the value of the endpoint, [ts]: with what was squashed into it *)
Definition hand_down (point : nat) (task ts : list nat) (a : data * points) (d : nat) : data * points :=
  let '(s, new) := a in
  let s := {| rv := put (rv s) d (del point (rv s d)); sq := put (sq s) d (union (sq s d) ts); cl := cl s |} in
  (s, if is_nil (rv s d) && negb (mem d (scene c)) then assign d task new else new).
(** 2915-2933: one endpoint *)
Definition do_point (a : data * points) (p : nat * list nat) : data * points :=
  let '(s, new) := a in
  let '(point, task) := p in
  let ts := union task (sq s point) in
  if mem point (scene c) then ({| rv := rv s; sq := put (sq s) point ts; cl := cl s |}, new)
  else
    let s := {| rv := rv s; sq := put (sq s) point []; cl := fold_left (fun f t => put f t (add point (f t))) ts (cl s) |} in
    fold_left (hand_down point task ts) (depends c point) (s, new).
(** 2912-2935 process_endpoints.  [n] bounds the depth of the recursion; None: not an outcome of the code *)
Fixpoint do_points (n : nat) (e : points) (s : data) : option data :=
  match n with
  | O => None
  | S n => let '(s, new) := fold_left do_point e (s, []) in
           match new with [] => Some s | _ => do_points n new s end
  end.
Definition collapse (n : nat) : option data := let '(s, e) := cut_edges in do_points n e s.
(** 2966-2974: the sanity check; true: bb.msg.fatal *)
Definition went_wrong (s : data) : bool := existsb (fun t => negb (mem t (scene c)) && negb (is_nil (sq s t))) (tasks c).
(** 3020-3025 sq_deps *)
Definition deps_of (s : data) (t : nat) : list nat := filter (fun d => mem t (sq s d)) (scene c).
(** 3017-3018: what the engine works with *)
Definition with_scene_data (s : data) : cfg :=
  mkCfg (tasks c) (depends c) (scene c) (targets c) (noexec c) (threads c) (prio c) (tname c) (tlimit c) (stampf c) (stampq c)
        (halt c) (allowed c) (force c) (skipscene c) (sceneonly c) (cl s) (deps_of s) (sq s) (harddeps c) (hardrev c).

(** 3041-3052: [order]: the setscene tasks by configuration, sorted; [h]: pending_hash_index.  The dictionaries hashes
    and sq_deferred *)
Definition defer (h : nat -> nat) (order : list nat) : list (nat * nat) * list (nat * nat) :=
  fold_left (fun '(hashes, deferred) t =>
    match dget (h t) hashes with
    | None => (hashes ++ [(h t, t)], deferred)
    | Some b => (hashes, deferred ++ [(t, b)])
    end) order ([], []).
End Scene.
