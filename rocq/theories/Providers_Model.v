(** bitbake/lib/bb/providers.py: choosing recipes.  Definitions only. *)
From Coq Require Import Ascii String List Bool ZArith.
From Verif Require Import Str_Model Sstname_Model Imgtypes_Model Ksparser_Model Vercmp_Model.
Import ListNotations.
Open Scope list_scope.

(** What the cache knows of a recipe file: its PN, layer priority,
    DEFAULT_PREFERENCE, PE, PV, PR.  The numbers are integers; the epoch is a text
    for matching and a number for comparing (utils.py 128: int(ea or 0)). *)
Record recipe := {
  f_name : str; f_pn : str; f_pri : Z; f_pref : Z;
  f_pe : str; f_epoch : Z; f_pv : str; f_pr : str
}.
Definition version (f : recipe) : ver := Ver (f_epoch f) (f_pv f) (f_pr f).

(** sorted() of the keys of a dictionary with integer keys *)
Fixpoint insert_z (x : Z) (l : list Z) : list Z :=
  match l with
  | [] => [x]
  | y :: l' => if (x =? y)%Z then l else if (x <? y)%Z then x :: l else y :: insert_z x l'
  end.
Definition sorted_keys (l : list Z) : list Z := fold_right insert_z [] l.

(** 64-89 sortPriorities.  The two nested dictionaries are read only through
    sorted(), so grouping is by value. *)
Definition pref_group (files : list recipe) (pri : Z) : list recipe :=
  let fs := filter (fun f => (f_pri f =? pri)%Z) files in
  flat_map (fun pref => filter (fun f => (f_pref f =? pref)%Z) fs) (sorted_keys (map f_pref fs)).
Definition sort_priorities (files : list recipe) : list (list recipe) :=
  fold_left (fun tmp pri => pref_group files pri :: tmp) (sorted_keys (map f_pri files)) [].

(** 91-105 versionVariableMatch: cfgData.getVar as a function *)
Definition version_variable (getvar : str -> option str) (keyword pn : str) : option str :=
  match getvar (keyword ++ s_ "_VERSION:pn-" ++ pn) with
  | Some (c :: v) => Some (c :: v)
  | _ => match getvar (keyword ++ s_ "_VERSION_" ++ pn) with
         | Some (c :: v) => Some (c :: v)
         | _ => getvar (keyword ++ s_ "_VERSION")
         end
  end.

(** 107-118 preferredVersionMatch *)
Definition version_match (pe pv pr : str) (e : option str) (v : str) (r : option str) : bool :=
  (match r with None => true | Some x => seqb pr x end) &&
  (match e with None => true | Some x => seqb pe x end) &&
  (seqb v pv || (endswith (s_ "%") v && startswith (removelast v) pv)).

(** 146: the regular expression has three groups: digits and a colon, repeated;
    anything; an underscore and anything, repeated.  The first keeps its last repetition; the second takes the rest of the line, so the third is never set. *)
Fixpoint epochs (fuel : nat) (e : option str) (s : str) : option str * str :=
  match fuel with
  | O => (e, s)
  | S n => match span is_digit s with
           | ((c :: d), ":"%char :: s') => epochs n (Some (c :: d)) s'
           | _ => (e, s)
           end
  end.
Definition split_preferred (v : str) : option str * str :=
  let (e, s) := epochs (length v) None v in (e, fst (span (fun c => negb (aeqb c nl)) s)).

(** 120-201 findPreferredProvider; log messages not modelled *)
Definition find_preferred (getvar : str -> option str) (pn : str) (groups : list (list recipe)) : option recipe * bool :=
  let required_v := version_variable getvar (s_ "REQUIRED") pn in
  let preferred_v := version_variable getvar (s_ "PREFERRED") pn in
  let required := match required_v with Some _ => true | None => false end in
  let wanted := match required_v with Some v => Some v | None => preferred_v end in
  match wanted with
  | Some (c :: v) =>
      let (e, pv) := split_preferred (c :: v) in
      (find (fun f => version_match (f_pe f) (f_pv f) (f_pr f) e pv None) (concat groups), required)
  | _ => (None, required)
  end.

(** 203-221 findLatestProvider *)
Definition find_latest (files : list recipe) : option recipe :=
  fold_left (fun latest f =>
    match latest with
    | None => Some f
    | Some l => if ((f_pref l =? f_pref f)%Z && (vercmp (version l) (version f) <? 0)%Z) || (f_pref l <? f_pref f)%Z
                then Some f else Some l
    end) files None.

(** 223-240 findBestProvider: (latest, preferred, required); None as a whole: IndexError for no files *)
Definition find_best (getvar : str -> option str) (pn : str) (files : list recipe) : option (option recipe * option recipe * bool) :=
  let groups := sort_priorities files in
  let (preferred, required) := find_preferred getvar pn groups in
  match groups with
  | [] => None
  | g :: _ =>
      let latest := find_latest g in
      Some (latest, match preferred with
                    | Some f => Some f
                    | None => if required then None else latest
                    end, required)
  end.

(** 253: providers.sort() by file name *)
Fixpoint insert_file (f : recipe) (l : list recipe) : list recipe :=
  match l with
  | [] => [f]
  | x :: l' => if str_leb (f_name f) (f_name x) then f :: l else x :: insert_file f l'
  end.
Definition sort_files (l : list recipe) : list recipe := fold_right insert_file [] l.
(** 256-261: the recipes of one name *)
Definition of_pn (l : list recipe) (pn : str) : list recipe := filter (fun f => seqb (f_pn f) pn) l.
Definition pns (l : list recipe) : list str := sorted_set (map f_pn l).

(** 266-275: eligible so far and the names without a preferred version;
    None: the early return of 269-270 *)
Fixpoint preferred_pass (getvar : str -> option str) (l : list recipe) (names : list str) (eligible : list recipe) : list recipe * bool :=
  match names with
  | [] => (eligible, true)
  | pn :: names' =>
      match find_preferred getvar pn (sort_priorities (of_pn l pn)) with
      | (None, true) => (eligible, false)
      | (Some f, _) => preferred_pass getvar l names' (eligible ++ [f])
      | (None, false) => preferred_pass getvar l names' eligible
      end
  end.
(** 277-282 *)
Definition latest_pass (getvar : str -> option str) (l : list recipe) (names : list str) : list recipe :=
  flat_map (fun pn =>
    match fst (find_preferred getvar pn (sort_priorities (of_pn l pn))) with
    | Some _ => []
    | None => match find_latest (hd [] (sort_priorities (of_pn l pn))) with Some f => [f] | None => [] end
    end) names.
(** list.remove *)
Fixpoint remove_file (f : recipe) (l : list recipe) : list recipe :=
  match l with
  | [] => []
  | x :: l' => if seqb (f_name x) (f_name f) then l' else x :: remove_file f l'
  end.
(** The file chosen for a name: preferred_versions[pn][1] *)
Definition chosen_for (getvar : str -> option str) (l : list recipe) (pn : str) : option recipe :=
  match fst (find_preferred getvar pn (sort_priorities (of_pn l pn))) with
  | Some f => Some f
  | None => find_latest (hd [] (sort_priorities (of_pn l pn)))
  end.
(** 242-300 _filterProviders *)
Definition filter_providers_ (getvar : str -> option str) (providers : list recipe) (item : str) : list recipe :=
  let l := sort_files providers in
  let (eligible, complete) := preferred_pass getvar l (pns l) [] in
  if negb complete then eligible
  else
    let eligible := eligible ++ latest_pass getvar l (pns l) in
    fold_left (fun el p =>
      if seqb (f_pn p) item then
        match chosen_for getvar l (f_pn p) with
        | Some f => if existsb (fun x => seqb (f_name x) (f_name f)) el then f :: remove_file f el else el
        | None => el
        end
      else el) l eligible.
(** 302-327 filterProviders; [before] is dataCache.preferred[item] from earlier *)
Definition filter_providers (getvar : str -> option str) (before : option str) (providers : list recipe) (item : str) : list recipe * bool :=
  let eligible := filter_providers_ getvar providers item in
  let preferred := match getvar (s_ "PREFERRED_PROVIDER_" ++ item) with Some (c :: v) => Some (c :: v) | _ => before end in
  match preferred with
  | None => (eligible, false)
  | Some pn =>
      match find (fun f => seqb (f_pn f) pn) eligible with
      | Some f => (f :: remove_file f eligible, true)
      | None => (eligible, false)
      end
  end.
