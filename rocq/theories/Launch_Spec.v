(** Many processes: what was started, what has ended. *)
From Coq Require Import Ascii String List Bool.
From Verif Require Import Str_Model Launch_Model.
Import ListNotations.
Open Scope list_scope.

Fixpoint starts (t : list event) : list str := match t with [] => [] | Start i :: t => i :: starts t | _ :: t => starts t end.
Fixpoint ends (t : list event) : list str := match t with [] => [] | End i :: t => i :: ends t | _ :: t => ends t end.
(** The results that are not empty, of these items *)
Fixpoint values (out : str -> outcome) (l : list str) : list str :=
  match l with
  | [] => []
  | i :: l => match out i with Returned [] => values out l | Returned r => r :: values out l | _ => values out l end
  end.
Fixpoint exceptions (out : str -> outcome) (l : list str) : list str :=
  match l with [] => [] | i :: l => match out i with Raised e => e :: exceptions out l | _ => exceptions out l end end.
