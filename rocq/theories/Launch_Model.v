(** Calling a function for many items, each in its own process: multiprocess_launch, meta/lib/oe/utils.py 267-343.  Definitions only.
    Items, exceptions and results are strings (an empty one for any false value); the extra arguments and the text of the error are
    not modelled.  The trace of starts and ends is added to the state. *)
From Coq Require Import Ascii String List Bool Arith.
From Verif Require Import Str_Model.
Import ListNotations.
Open Scope list_scope.

(** 279-285 run: what a process sends before it exits; Silent: it is killed and sends nothing *)
Inductive outcome := Raised (e : str) | Returned (r : str) | Silent.
Inductive event := Start (i : str) | End (i : str).
Record state := State { items : list str; launched : list str; errors : list str; results : list str; trace : list event }.
(** 327-330: exception and result of a process that is not alive *)
Definition err_of (o : outcome) : list str := match o with Raised e => [e] | _ => [] end.
Definition res_of (o : outcome) : list str := match o with Returned (c :: r) => [c :: r] | _ => [] end.
Definition finish (out : str -> outcome) (q : str) (s : state) : state :=
  State (items s) (launched s) (errors s ++ err_of (out q)) (results s ++ res_of (out q)) (trace s ++ [End q]).
Definition keep (q : str) (s : state) : state := State (items s) (launched s ++ [q]) (errors s) (results s) (trace s).
(** 320-331: the loop over [l], launched; [alive] are the answers of is_alive (no more answers: all alive).  The loop removes from the
    list it runs over: after a process that has ended the next one is passed over.  launched of the state collects what stays. *)
Fixpoint visit (out : str -> outcome) (alive : list bool) (l : list str) (s : state) : state :=
  match l with
  | [] => s
  | q :: l =>
      match alive with
      | false :: alive =>
          match l with
          | [] => finish out q s
          | x :: l => visit out alive l (keep x (finish out q s))
          end
      | true :: alive => visit out alive l (keep q s)
      | [] => visit out [] l (keep q s)
      end
  end.
Definition nonempty (l : list str) : bool := match l with [] => false | _ => true end.
(** 312 *)
Definition busy (s : state) : bool := (nonempty (items s) && negb (nonempty (errors s))) || nonempty (launched s).
(** 313-319: items.pop() takes the last *)
Definition start (max : nat) (s : state) : state :=
  if negb (nonempty (errors s)) && nonempty (items s) && Nat.ltb (length (launched s)) max then
    let i := last (items s) [] in
    State (removelast (items s)) (launched s ++ [i]) (errors s) (results s) (trace s ++ [Start i])
  else s.
(** 313-331 one turn *)
Definition turn (max : nat) (out : str -> outcome) (alive : list bool) (s : state) : state :=
  let s := start max s in visit out alive (launched s) (State (items s) [] (errors s) (results s) (trace s)).
Fixpoint turns (max : nat) (out : str -> outcome) (sched : list (list bool)) (s : state) : state :=
  match sched with
  | [] => s
  | alive :: sched => if busy s then turns max out sched (turn max out alive s) else s
  end.
Definition after (max : nat) (out : str -> outcome) (l : list str) (sched : list (list bool)) : state := turns max out sched (State l [] [] [] []).
(** 335-343; Running: not finished with this schedule *)
Inductive answer := Results (l : list str) | Fatal (l : list str) | Running.
Definition launch (max : nat) (out : str -> outcome) (l : list str) (sched : list (list bool)) : answer :=
  let s := after max out l sched in
  if busy s then Running else match errors s with [] => Results (results s) | es => Fatal es end.
