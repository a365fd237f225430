(** What is said about events. *)
From Coq Require Import Ascii String List Bool Arith.
From Verif Require Import Str_Model Events_Model.
Import ListNotations.
Open Scope list_scope.

(** A handler with this mask is meant for the event. *)
Definition meant (mask : list str) (event : str) : bool := match mask with [] => true | _ => mem_str (s_ "*") mask || mem_str event mask end.
(** Of several handlers with one name the first. *)
Fixpoint firsts (before : list str) (l : list (str * nat)) : list (str * nat) :=
  match l with
  | [] => []
  | (n, c) :: r => if mem_str n before then firsts before r else (n, c) :: firsts (n :: before) r
  end.
Definition full_name (mc : str) (h : handler) : str := with_mc mc (h_name h).
(** the handlers of a recipe under their full names *)
Definition named (mc : str) (hs : list handler) : list (str * nat) := map (fun h => (full_name mc h, match h_code h with Some c => c | None => 0 end)) hs.
(** all handlers compile and a name always comes with the same mask *)
Definition agree (masks : str -> list str) (mc : str) (hs : list handler) : Prop := forall h, In h hs -> h_code h <> None /\ h_mask h = masks (full_name mc h).
(** what is called for an event of a recipe, if the configurations have the handlers [cfg] *)
Definition expected (masks : str -> list str) (cfg : list (str * nat)) (r : recipe) (event : str) : list (str * nat) :=
  filter (fun h => meant (masks (fst h)) event && (mem_str (fst h) (r_seen r) || existsb (fun g => seqb (fst h) (full_name (r_mc r) g)) (r_handlers r)))
    (firsts [] (cfg ++ named (r_mc r) (r_handlers r))).

Section Ui.
  Variable E : Type.
  Fixpoint fired (os : list (op E)) : list E :=
    match os with
    | [] => []
    | Fire e :: r | FireWorker e :: r => e :: fired r
    | _ :: r => fired r
    end.
  (** no main interface connects *)
  Definition waiting (os : list (op E)) : Prop := forall f, ~ In (Connect true f) os.
  (** the interface [h] stays and no main interface leaves *)
  Definition stays (h : nat) (os : list (op E)) : Prop := forall g m, In (Disconnect g m) os -> g <> h /\ m = false.
  (** the first event is fired by the server itself *)
  Definition server_first (os : list (op E)) : Prop := exists a e b, os = a ++ Fire e :: b /\ fired a = [].
  (** [h] is the number of the next interface *)
  Fixpoint connects (os : list (op E)) : nat := match os with [] => 0 | Connect _ _ :: r => S (connects r) | _ :: r => connects r end.
End Ui.
Arguments fired {E}. Arguments waiting {E}. Arguments stays {E}. Arguments server_first {E}. Arguments connects {E}.
