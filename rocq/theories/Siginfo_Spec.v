(** What is sent and received. *)
From Coq Require Import List.
From Verif Require Import Str_Model Siginfo_Model.
Import ListNotations.

(** The data that process p has sent, in order *)
Fixpoint sent (p : pid) (es : list event) : list info :=
  match es with
  | [] => []
  | Send q i :: es => if Nat.eqb q p then i :: sent p es else sent p es
  | _ :: es => sent p es
  end.
(** Keys of a dictionary are different *)
Definition is_info (i : info) : Prop := forall d, In (Some d) i -> NoDup (map fst d).
(** Values written in full *)
Definition full_of (m : saved) : list str := match m with inl _ => [] | inr ps => flat_map (fun x => match fst (snd x) with Some v => [v] | None => [] end) ps end.
Definition fulls (l : list (list saved)) : list str := flat_map full_of (concat l).
(** Reading all of a queue *)
Fixpoint read_all (m : numbered) (q : list (list saved)) : option (list info * numbered) :=
  match q with
  | [] => Some ([], m)
  | x :: q => match setstate m x with
              | Some (i, m) => match read_all m q with Some (is, m) => Some (i :: is, m) | None => None end
              | None => None
              end
  end.
