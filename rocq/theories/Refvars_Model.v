(** The variables an expression refers to: get_referenced_vars, bitbake/lib/bb/utils.py 1108-1141.  Definitions only.  What expandWithRefs
    finds is given: [first] in the expression, [refs v] in the value of the variable v; [ord] is the order in which Python runs over
    a set. *)
From Coq Require Import Ascii String List Bool.
From Verif Require Import Str_Model.
Import ListNotations.
Open Scope list_scope.

Record search := Search { queue : list str; seen : list str; ret : list str }.
(** 1137 *)
Definition new_vars (ord : list str -> list str) (found seen : list str) : list str := ord (filter (fun v => negb (mem_str v seen)) found).
(** 1114-1140, the expression itself *)
Definition begin (ord : list str -> list str) (first : list str) : search := let n := new_vars ord first [] in Search n n [].
(** 1124-1140, a variable *)
Definition step (ord : list str -> list str) (refs : str -> list str) (s : search) : search :=
  match queue s with
  | [] => s
  | v :: q => let n := new_vars ord (refs v) (seen s) in Search (q ++ n) (seen s ++ n) (ret s ++ [v])
  end.
Fixpoint steps (n : nat) (ord : list str -> list str) (refs : str -> list str) (s : search) : search :=
  match n with
  | O => s
  | S n => steps n ord refs (step ord refs s)
  end.
(** The answer, if the queue is empty after [n] rounds *)
Definition referenced (n : nat) (ord : list str -> list str) (refs : str -> list str) (first : list str) : option (list str) :=
  let s := steps n ord refs (begin ord first) in match queue s with [] => Some (ret s) | _ => None end.
