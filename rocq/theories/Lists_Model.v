(** meta/classes-global/lists.bbclass: list variables with removable and
    implied items; meta/classes-recipe/features_check.bbclass: feature
    requirements; meta/classes-recipe/multiarch.bbclass: name rewriting.
    Definitions only. *)
From Coq Require Import Ascii String List Bool Arith ZArith.
From Verif Require Import Str_Model.
Import ListNotations.
Open Scope list_scope.

(** A set of flags: name and value. *)
Definition flags := list (str * str).
(** implied_mapping.get(item, '') *)
Fixpoint flag_get (m : flags) (k : str) : str :=
  match m with
  | [] => []
  | (k', v) :: m' => if seqb k k' then v else flag_get m' k
  end.

(** lists.bbclass 86-94 implied_items; [seen] is the shared set; None: the
    recursion is deeper than [fuel] *)
Fixpoint implied_items (fuel : nat) (m : flags) (item : str) (seen : list str) : option (str * list str) :=
  match fuel with
  | O => None
  | S fuel' =>
      if mem_str item seen then Some ([], seen)
      else
        let implied := split_ws (flag_get m item) in
        let fix go (l : list str) (seen : list str) : option (list str * list str) :=
          match l with
          | [] => Some ([], seen)
          | f :: l' =>
              match implied_items fuel' m f seen with
              | None => None
              | Some (r, seen1) =>
                  match go l' seen1 with
                  | None => None
                  | Some (rs, seen2) => Some (r :: rs, seen2)
                  end
              end
          end in
        match go implied (item :: seen) with
        | None => None
        | Some (rs, seen') => Some (join (s_ " ") (implied ++ rs), seen')
        end
  end.

(** lists.bbclass 98-103: the items implied by the words of [value]; a new
    [seen] for every word.  (A missing mapping, 100-101, is the empty one here:
    the result then has no words either.) *)
Definition add_implied_items (m : flags) (value : str) : option str :=
  let fix go (l : list str) : option (list str) :=
    match l with
    | [] => Some []
    | f :: l' => match implied_items (S (length m)) m f [], go l' with
                 | Some (r, _), Some rs => Some (r :: rs)
                 | _, _ => None
                 end
    end in
  match go (split_ws value) with Some rs => Some (join (s_ " ") rs) | None => None end.

(** collections.Counter: counts in order of first use *)
Definition counter := list (str * Z).
Fixpoint count_add (c : counter) (k : str) (n : Z) : counter :=
  match c with
  | [] => [(k, n)]
  | (k', x) :: c' => if seqb k k' then (k', (x + n)%Z) :: c' else (k', x) :: count_add c' k n
  end.
(** v.startswith('-') or v.startswith('~') *)
Definition prefixed (v : str) : bool :=
  match v with c :: _ => aeqb c "-"%char || aeqb c "~"%char | [] => false end.
(** lists.bbclass 64-69 *)
Definition count_item (c : counter) (v : str) : counter :=
  if prefixed v then count_add (count_add c (tl v) (-1)) v (-1) else count_add c v 1.
(** lists.bbclass 62-70, on the words of the value *)
Definition remove_prefixed_items (words : list str) : str :=
  join (s_ " ") (map fst (filter (fun p => (snd p <? 1)%Z) (fold_left count_item words []))).

(** :remove (data_smart.py 875-891): the words left *)
Definition without (words : list str) (removes : str) : list str :=
  filter (fun w => negb (mem_str w (split_ws removes))) words.

(** The words of a variable of LIST_VARIABLES (lists.bbclass 41-42) whose own
    value is [base].  While the implied items are computed (flag
    add_implied_items_internal) the value is that without implied items but with
    the removal applied (83-84, 98); while the items to remove are computed
    (flag remove_prefixed_items_internal) it is that with the implied items of the
    unfiltered value (55-56, 62).  The flags of [m] starting with '_' or ':' are not part of [m]. *)
Definition list_variable (m : flags) (base : str) : option (list str) :=
  let raw := split_ws base in
  let kept := without raw (remove_prefixed_items raw) in
  match add_implied_items m (join (s_ " ") kept), add_implied_items m base with
  | Some implied, Some implied_raw =>
      Some (without (split_ws implied ++ raw) (remove_prefixed_items (split_ws implied_raw ++ raw)))
  | _, _ => None
  end.

(** ** features_check.bbclass *)
(** The three requirement variables of a kind and its features, as words
    ([None]: not set and no override) *)
Record kind_features := {
  kf_any : option (list str); kf_required : option (list str); kf_conflict : option (list str);
  kf_features : list str }.
Definition words_of (o : option (list str)) : list str := match o with Some l => l | None => [] end.
Inductive fresult := Skipped | Unused | Accepted.
(** features_check.bbclass 25-53 for one kind: skipped?; used? *)
Definition check_kind (k : kind_features) : bool * bool :=
  match kf_any k, kf_required k, kf_conflict k with
  | None, None, None => (false, false)
  | _, _, _ =>
      let any := words_of (kf_any k) in
      let disjoint := forallb (fun a => negb (mem_str a (kf_features k))) any in
      let missing := filter (fun r => negb (mem_str r (kf_features k))) (words_of (kf_required k)) in
      let conflicts := filter (fun c => mem_str c (kf_features k)) (words_of (kf_conflict k)) in
      (match any with [] => false | _ => disjoint end
       || match missing with [] => false | _ => true end
       || match conflicts with [] => false | _ => true end, true)
  end.
(** features_check.bbclass 18-57; [parse_all]: PARSE_ALL_RECIPES *)
Definition features_check (parse_all : bool) (kinds : list kind_features) : fresult :=
  if parse_all then Accepted
  else if existsb (fun k => fst (check_kind k)) kinds then Skipped
  else if existsb (fun k => snd (check_kind k)) kinds then Accepted
  else Unused.

(** ** multiarch.bbclass *)
Definition native : str := s_ "-native".
Definition compat : str := s_ "-compat".
Definition archall : str := s_ "-archall".
(** s[:-n] *)
Definition drop_last (n : nat) (s : str) : str := firstn (length s - n) s.
(** multiarch.bbclass 83-91 *)
Definition fixup_name (suffix v : str) : list str :=
  (if endswith compat v || endswith native v then [v] else []) ++
  (if endswith archall v then (if seqb suffix native then [drop_last 8 v] else [])
   else [v ++ suffix]).
Definition fixup_depends (suffix : str) (vs : list str) : list str := flat_map (fixup_name suffix) vs.
(** multiarch.bbclass 12-21: what PROVIDES becomes *)
Definition multiarch_target (p : str) : bool := endswith native p || endswith compat p.
Definition extend_provides (pn suffix : str) (provides : list str) : list str :=
  if multiarch_target pn then provides
  else provides ++ map (fun p => p ++ suffix) (filter (fun p => negb (multiarch_target p)) provides) ++ [pn ++ suffix].
(** multiarch.bbclass 41-49 *)
Definition drop_native_deps (deps : list str) : list str :=
  map (fun d => if endswith native d then drop_last 7 d else d) deps.
(** multiarch.bbclass 116-128 isar_multiarch_packages, one target *)
Definition multiarch_package (compat_arch : option str) (host_arch t : str) : str :=
  match (if endswith compat t then compat_arch else None) with
  | Some a => drop_last 7 t ++ ":"%char :: a
  | None => if endswith native t then drop_last 7 t ++ ":"%char :: host_arch else t
  end.
