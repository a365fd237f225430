(** The recipes of a build with several configurations: bitbake/lib/bb/cooker.py 612-680 and
    bitbake/lib/bb/taskdata.py 85-90, 125-126, 545-546, on top of the model of TaskData (Taskdata_Model).
    Definitions only. *)
From Coq Require Import String Ascii List Bool Arith.
From Verif Require Import Str_Model Taskdata_Model.
Import ListNotations.
Open Scope list_scope.

(** taskdata: one TaskData for every configuration *)
Definition states : Type := str -> state.
Definition set_state (st : states) (mc : str) (s : state) : states := fun m => if seqb m mc then s else st m.
(** Failed: NoProvider, or a call of bb.fatal.  Stuck: not an outcome of the code, see mc_ends *)
Inductive mres := Done (st : states) (served : list str) | Failed | Stuck.

Section Multi.
Variable mcs : list str.                       (* self.multiconfigs *)
Variable C : str -> cache.                     (* self.recipecaches *)
Variable mcwords : str -> str -> list str.     (* the words of the flags mcdepends of all tasks of a recipe, by configuration *)
Variable order : list str -> list str.         (* the order of the elements of a set *)
Variable halt allowincomplete : bool.

(** taskdata.py 87-90: five parts *)
Definition parts (k : str) : list str := split_on ":"%char k.
Definition well_formed (k : str) : bool := Nat.eqb (length (parts k)) 5.
(** taskdata.py 545: what the recipes added so far name.  add_tasks collects the words when it adds a recipe, here they
    are computed from the recipes; duplicates make no difference *)
Definition mcdepends (mc : str) (s : state) : list str := flat_map (mcwords mc) (s_seen s).
(** A call for one configuration.  add_tasks calls bb.fatal for a malformed word when it adds the recipe, here it
    happens at the end of the call *)
Definition step (mc : str) (f : state -> res) (st : states) : option states + unit :=
  match f (st mc) with
  | Ok s => if forallb well_formed (mcdepends mc s) then inl (Some (set_state st mc s)) else inl None
  | OutOfFuel => inr tt
  | _ => inl None
  end.
(** 659-660, 677-678 *)
Fixpoint unresolved_all (n : nat) (l : list str) (st : states) : option states + unit :=
  match l with
  | [] => inl (Some st)
  | mc :: r => match step mc (add_unresolved (C mc) halt allowincomplete n) st with
               | inl (Some st) => unresolved_all n r st
               | e => e
               end
  end.
(** 663-675: the multiconfig dependencies that have not been served yet; true: there was one *)
Fixpoint serve (l : list str) (st : states) (seen : list str) (new : bool) : option (states * list str * bool) + unit :=
  match l with
  | [] => inl (Some (st, seen, new))
  | k :: r =>
      if mem_str k seen then serve r st seen new
      else
        let depmc := nth 2 (parts k) [] in
        if mem_str depmc mcs then
          match step depmc (add_provider (C depmc) halt (nth 3 (parts k) [])) st with
          | inl (Some st) => serve r st (seen ++ [k]) true
          | inl None => inl None
          | inr e => inr e
          end
        else inl None
  end.
Definition all_mcdepends (st : states) : list str := order (flat_map (fun mc => mcdepends mc (st mc)) mcs).
(** 655-675 *)
Fixpoint mc_loop (n m : nat) (st : states) (seen : list str) : mres :=
  match n with
  | O => Stuck
  | S n =>
      match unresolved_all m mcs st with
      | inl (Some st) =>
          match serve (all_mcdepends st) st seen false with
          | inl (Some (st, seen, true)) => mc_loop n m st seen
          | inl (Some (st, seen, false)) => Done st seen
          | inl None => Failed
          | inr _ => Stuck
          end
      | inl None => Failed
      | inr _ => Stuck
      end
  end.
(** 617-636: the targets with their configurations, which are known *)
Fixpoint ask (targets : list (str * str)) (st : states) : option states + unit :=
  match targets with
  | [] => inl (Some st)
  | (mc, t) :: r => match step mc (add_provider (C mc) halt t) st with inl (Some st) => ask r st | e => e end
  end.
(** 612-680; [n] bounds the numbers of rounds *)
Definition multi (n : nat) (targets : list (str * str)) : mres :=
  match ask targets (fun _ => init) with
  | inl (Some st) =>
      let loops := existsb (fun mc => match mcdepends mc (st mc) with [] => false | _ => true end) mcs || Nat.ltb 1 (length mcs) in
      match (if loops then mc_loop n n st [] else Done st []) with
      | Done st seen =>
          match unresolved_all n mcs st with
          | inl (Some st) => Done st seen
          | inl None => Failed
          | inr _ => Stuck
          end
      | e => e
      end
  | inl None => Failed
  | inr _ => Stuck
  end.
End Multi.
