(** bitbake/lib/bb/providers.py 323-413: the providers of a runtime name.  Definitions only. *)
From Coq Require Import Ascii String List Bool ZArith.
From Verif Require Import Str_Model Sstname_Model Imgtypes_Model Ksparser_Model Vercmp_Model Providers_Model.
Import ListNotations.
Open Scope list_scope.

(** 353-355: pns, the eligible file of a recipe name (a later one replaces an earlier one) *)
Definition by_pn (el : list recipe) (pn : str) : option recipe := find (fun f => seqb (f_pn f) pn) (rev el).
(** "in" of a list of files: by file name *)
Definition has_file (f : recipe) (l : list recipe) : bool := existsb (fun x => seqb (f_name x) (f_name f)) l.

(** 359-362: the first of the names a recipe provides whose PREFERRED_PROVIDER is an
    eligible recipe that has not been chosen yet *)
Fixpoint pick (getvar : str -> option str) (el : list recipe) (preferred : list recipe) (names : list str) : option recipe :=
  match names with
  | [] => None
  | x :: r =>
      match getvar (s_ "PREFERRED_PROVIDER_" ++ x) with
      | Some pn =>
          match by_pn el pn with
          | Some f => if has_file f preferred then pick getvar el preferred r else Some f
          | None => pick getvar el preferred r
          end
      | None => pick getvar el preferred r
      end
  end.

(** 356-370: the loop runs by index over the list [it].  The first removal (366) changes
    that very list, because 367 makes a new list only afterwards ([shared]: eligible is
    still the list the loop runs over).  [all] is the list the dictionary pns was made of.
    The number of steps is bounded by the length of the list. *)
Fixpoint infer (fuel : nat) (getvar : str -> option str) (provides : str -> list str) (all : list recipe)
  (i : nat) (it : list recipe) (shared : bool) (el preferred : list recipe) : list recipe * list recipe :=
  match fuel with
  | O => (el, preferred)
  | S fuel =>
      match nth_error it i with
      | None => (el, preferred)
      | Some p =>
          match pick getvar all preferred (provides (f_pn p)) with
          | None => infer fuel getvar provides all (S i) it shared el preferred
          | Some f =>
              infer fuel getvar provides all (S i) (if shared then remove_file f it else it) false
                (f :: remove_file f el) (preferred ++ [f])
          end
      end
  end.

(** 323-379 filterProvidersRunTime: the sorted providers and numberPreferred.
    [provides] is dataCache.pn_provides. *)
Definition filter_runtime (getvar : str -> option str) (provides : str -> list str) (providers : list recipe) (item : str) : list recipe * nat :=
  let el := filter_providers_ getvar providers item in
  match (match getvar (s_ "PREFERRED_RPROVIDER_" ++ item) with
         | Some (c :: v) => find (fun f => seqb (f_pn f) (c :: v)) el
         | _ => None
         end) with
  | Some f => (f :: remove_file f el, 1)
  | None =>
      let (el', preferred) := infer (length el) getvar provides el 0 el true el [] in
      (el', length preferred)
  end.

(** 383-413 getRuntimeProviders: files whose RPROVIDES, then files whose PACKAGES have
    the name; only if there are none, files with a PACKAGES_DYNAMIC that matches.
    Regular expression matching is a parameter. *)
Definition runtime_providers (matches : str -> str -> bool) (rproviders packages : str -> list recipe)
  (dynamic : list (str * list recipe)) (item : str) : list recipe :=
  match rproviders item ++ packages item with
  | [] => flat_map (fun p => if matches (fst p) item then snd p else []) dynamic
  | l => l
  end.

(** taskdata.py 388-436 add_rprovider, 400-436 without the filter for failed recipes:
    None is NoRProvider or MultipleRProvider *)
Definition rprovider_choice (getvar : str -> option str) (provides : str -> list str) (all_p : list recipe) (item : str) : option (list recipe) :=
  match all_p with
  | [] => None
  | _ =>
      match filter_runtime getvar provides all_p item with
      | ([], _) => None
      | (el, S (S _)) => None
      | (el, _) => Some el
      end
  end.
