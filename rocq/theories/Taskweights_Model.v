(** Model of the loop detection of bitbake/lib/bb/runqueue.py:
    RunQueueData.calculate_task_weights and circular_depchains_handler.

    A task id is a number (in the code a string; the order of ids is only used to
    choose where the printed loop starts).  A task graph is the list of tasks
    (keys of runtaskentries) and, for each, the list of the tasks it depends on. *)
From Coq Require Import List Bool ZArith NArith Arith.
Import ListNotations.
Open Scope list_scope.

Record graph := mkGraph { gtasks : list nat; gdeps : nat -> list nat }.

Definition mem (x : nat) (l : list nat) : bool := existsb (Nat.eqb x) l.
(** dictionaries with a value for every task: functions *)
Definition upd {A} (f : nat -> A) (k : nat) (v : A) : nat -> A := fun x => if Nat.eqb x k then v else f x.

Section G.
Variable g : graph.

(** runqueue.py 1097-1101: runtaskentries[t].revdeps *)
Definition revdeps (t : nat) : list nat := filter (fun r => mem t (gdeps g r)) (gtasks g).

(** 1108-1116: the tasks nothing depends on, or the first pair of tasks that
    depend on each other (fatal error) *)
Fixpoint two_loops (ts : list nat) : option (nat * nat) :=
  match ts with
  | [] => None
  | t :: ts' => match find (fun d => mem d (gdeps g t)) (revdeps t) with
                | Some d => Some (t, d)
                | None => two_loops ts'
                end
  end.
Definition endpoints : list nat := filter (fun t => match revdeps t with [] => true | _ => false end) (gtasks g).

Record wst := mkW { weight : nat -> N; left : nat -> Z; done : nat -> bool }.

(** 608-616 *)
Definition start : wst :=
  mkW (fun t => if mem t endpoints then 10%N else 1%N)
      (fun t => Z.of_nat (length (revdeps t)))
      (fun t => mem t endpoints).

(** 621-626: one edge *)
Definition relax (t : nat) (a : wst * list nat) (d : nat) : wst * list nat :=
  let '(s, next) := a in
  let w := upd (weight s) d (weight s d + weight s t)%N in
  let l := upd (left s) d (left s d - 1)%Z in
  if Z.eqb (l d) 0 then (mkW w l (upd (done s) d true), next ++ [d]) else (mkW w l (done s), next).
(** 619-626: one round *)
Definition round (points : list nat) (s : wst) : wst * list nat :=
  fold_left (fun a t => fold_left (relax t) (gdeps g t) a) points (s, []).
(** 618-629; [None]: the loop did not end within [fuel] rounds *)
Fixpoint rounds (fuel : nat) (points : list nat) (s : wst) : option wst :=
  match fuel with
  | O => None
  | S f => let '(s, next) := round points s in
           match next with [] => Some s | _ => rounds f next s end
  end.
(** 631-638: the tasks that cannot be built, and the weights *)
Definition calculate : option (list nat * (nat -> N)) :=
  match rounds (S (length (gtasks g))) endpoints start with
  | None => None
  | Some s => Some (filter (fun t => negb (done s t) || negb (Z.eqb (left s t) 0)) (gtasks g), weight s)
  end.

(** 515-526 chain_reorder *)
Fixpoint lowest (l : list nat) (pos best bestpos : nat) : nat :=
  match l with
  | [] => bestpos
  | x :: l' => if Nat.ltb x best then lowest l' (S pos) x pos else lowest l' (S pos) best bestpos
  end.
Definition chain_reorder (chain : list nat) : list nat :=
  match chain with
  | [] => []
  | x :: l => let k := lowest l 1 x 0 in skipn k chain ++ firstn k chain
  end.
(** 528-546 *)
Definition chain_eqb (a b : list nat) : bool :=
  if list_eq_dec Nat.eq_dec a b then true else false.
(** prev_chain[prev_chain.index(r):] *)
Fixpoint from (r : nat) (l : list nat) : list nat :=
  match l with [] => [] | x :: l' => if Nat.eqb x r then l else from r l' end.
Definition lookup (k : nat) (m : list (nat * list nat)) : option (list nat) :=
  match find (fun p => Nat.eqb (fst p) k) m with Some p => Some (snd p) | None => None end.

(** [Found]: the call returned; [Halted]: TooManyLoops was raised; [Broken]: a
    KeyError, or the recursion is deeper than [fuel] *)
Inductive search := Found (explored : list (nat * list nat)) (chains : list (list nat)) | Halted (chains : list (list nat)) | Broken.

(** 551-581: the loop of find_chains over the tasks that depend on [t]; [prev] is the
    chain up to and including [t], [rec] the recursive call *)
Fixpoint scan_revdeps (rec : nat -> list nat -> list (nat * list nat) -> list (list nat) -> search)
    (t : nat) (prev rs total : list nat) (ex : list (nat * list nat)) (chains : list (list nat)) : search :=
  match rs with
  | [] => Found ((t, total) :: ex) chains
  | r :: rs' =>
    if mem r prev then
      let new := chain_reorder (from r prev) in
      let chains := if existsb (chain_eqb new) chains then chains else chains ++ [new] in
      if Nat.ltb 10 (length chains) then Halted chains else scan_revdeps rec t prev rs' total ex chains
    else
      let scan := match lookup r ex with
                  | None => true
                  | Some ds => mem r ds || existsb (fun d => mem d ds) prev
                  end in
      match (if scan then rec r prev ex chains else Found ex chains) with
      | Found ex chains =>
        match lookup r ex with
        | Some ds => scan_revdeps rec t prev rs' (total ++ filter (fun d => negb (mem d total)) ds) ex chains
        | None => Broken
        end
      | x => x
      end
  end.
(** 548-583 find_chains; the messages are those of the chains, in order *)
Fixpoint find_chains (fuel : nat) (t : nat) (prev : list nat) (ex : list (nat * list nat)) (chains : list (list nat)) : search :=
  match fuel with
  | O => Broken
  | S f => scan_revdeps (find_chains f) t (prev ++ [t]) (revdeps t) (revdeps t) ex chains
  end.
(** 585-592 circular_depchains_handler: the loops that are printed *)
Fixpoint depchains (fuel : nat) (ts : list nat) (ex : list (nat * list nat)) (chains : list (list nat)) : search :=
  match ts with
  | [] => Found ex chains
  | t :: ts' => match find_chains fuel t [] ex chains with
                | Found ex chains => depchains fuel ts' ex chains
                | x => x
                end
  end.
Definition printed_loops (problem : list nat) : option (list (list nat)) :=
  match depchains (S (length (gtasks g))) problem [] [] with
  | Found _ chains => Some chains
  | Halted chains => Some chains
  | Broken => None
  end.
End G.
