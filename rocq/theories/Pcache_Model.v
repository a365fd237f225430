(** The cache of parsed recipes: bitbake/lib/bb/cache.py 335-725, used by cooker.py 2130-2140, 2190-2205, 2250-2254 and 2355-2365.
    Definitions only. *)
From Coq Require Import String Ascii List Bool Arith.
From Verif Require Import Str_Model.
Import ListNotations.
Open Scope list_scope.

Definition colon : ascii := ":"%char.
(** s.count(':') *)
Definition count_colon (s : str) : nat := count_occ ascii_dec s colon.

(** 338-353 virtualfn2realfn: the file, the class and the configuration *)
Definition virtualfn2realfn (v : str) : str * str * str :=
  let '(mc, v) :=
    if startswith (s_ "mc:") v && Nat.leb 2 (count_colon v)
    then (nth 1 (split_on colon v) [], join [colon] (skipn 2 (split_on colon v))) else ([], v) in
  if startswith (s_ "virtual:") v then
    let e := split_on colon v in
    (last e [], join [colon] (removelast (tl e)), mc)
  else (v, [], mc).
(** 355-363 *)
Definition realfn2virtual (fn cls mc : str) : str :=
  let fn := match cls with [] => fn | _ => s_ "virtual:" ++ cls ++ s_ ":" ++ fn end in
  match mc with [] => fn | _ => s_ "mc:" ++ mc ++ s_ ":" ++ fn end.
(** 365-376 *)
Definition variant2virtual (fn variant : str) : str :=
  match variant with
  | [] => fn
  | _ =>
      if startswith (s_ "mc:") variant && Nat.leb 2 (count_colon variant) then
        let e := split_on colon variant in
        match nth 2 e [] with
        | [] => s_ "mc:" ++ nth 1 e [] ++ s_ ":" ++ fn
        | _ => s_ "mc:" ++ nth 1 e [] ++ s_ ":virtual:" ++ join [colon] (skipn 2 e) ++ s_ ":" ++ fn
        end
      else s_ "virtual:" ++ variant ++ s_ ":" ++ fn
  end.

(** 405 filelist_regex.split: the text is cut at white space after :True or :False.  [prev]: what is before, backwards;
    [cut]: in the white space of a cut *)
Definition after_mark (prev : str) : bool := startswith (rev (s_ ":True")) prev || startswith (rev (s_ ":False")) prev.
Fixpoint split_marks (prev cur : str) (cut : bool) (s : str) : list str :=
  match s with
  | [] => [rev cur]
  | c :: r =>
      if is_space c && (cut || after_mark prev) then
        if cut then split_marks (c :: prev) [] true r else rev cur :: split_marks (c :: prev) [] true r
      else split_marks (c :: prev) (c :: cur) false r
  end.
(** 623 f.rsplit(":", 1): None: no colon (the code ends with a ValueError) *)
Definition rsplit1 (s : str) : option (str * str) :=
  match cut_at colon (rev s) with (a, Some b) => Some (rev b, rev a) | _ => None end.
Fixpoint all_some {A} (l : list (option A)) : option (list A) :=
  match l with [] => Some [] | Some x :: r => option_map (cons x) (all_some r) | None :: _ => None end.
(** 612-623: the files of one file-checksums flag, with the word after the last colon *)
Definition file_list (fl : str) : option (list (str * str)) :=
  let fl := strip fl in
  match fl with
  | [] => Some []
  | _ => all_some (map rsplit1 (filter (fun f => match f with [] => false | _ => true end) (split_marks [] [] false fl)))
  end.

(** A dictionary *)
Definition dict (A : Type) : Type := list (str * A).
Fixpoint get {A} (k : str) (d : dict A) : option A :=
  match d with [] => None | (x, v) :: r => if seqb x k then Some v else get k r end.
Fixpoint put {A} (k : str) (v : A) (d : dict A) : dict A :=
  match d with [] => [(k, v)] | (x, u) :: r => if seqb x k then (x, v) :: r else (x, u) :: put k v r end.
Fixpoint rem {A} (k : str) (d : dict A) : dict A :=
  match d with [] => [] | (x, u) :: r => if seqb x k then r else (x, u) :: rem k r end.

(** The file system: the modification time (seconds, never 0) and the contents of a file *)
Definition world (C : Type) : Type := str -> option (nat * C).
(** bb/parse/__init__.py 55-61 cached_mtime_noerror *)
Definition mtime {C} (w : world C) (f : str) : nat := match w f with Some (t, _) => t | None => 0 end.
Definition exists_ {C} (w : world C) (f : str) : bool := match w f with Some _ => true | None => false end.

Section Cache.
(** [C]: contents of files; [P]: the information about a recipe that the cache only carries; [Q]: that of SiggenRecipeInfo *)
Variables C P Q : Type.

(** 85-130 CoreRecipeInfo; [c_checks]: the values of file_checksums (none for a skipped recipe); [c_nocache]: 720, BB_DONT_CACHE
    is set, or the version has SRCREVINACTION in it *)
Record core := { c_depends : list (str * nat); c_time : nat; c_variants : list str; c_appends : list str; c_nocache : bool;
                 c_checks : list str; c_rest : P }.
Inductive info := Core (c : core) | Extra (q : Q).
Definition entries : Type := dict (list info).

(** One datastore of a parsed recipe: __depends, the file-checksums flags, 720, and the rest *)
Record store := { d_depends : list (str * nat); d_checks : list str; d_nocache : bool; d_rest : P; d_extra : Q }.
(** cookerdata.py 509-546 parseRecipeVariants: the datastores of the variants, by name, in descending order, and that of the
    recipe itself.  None: the parser gives an error *)
Variable parse_recipe : world C -> str -> list str -> option (list (str * store) * store).

(** [x]: RECIPE_SIGGEN_INFO is on (main.py 425-428: with the option -S); cooker.py 262-268 caches_array *)
Definition make_info (x : bool) (w : world C) (fn : str) (appends : list str) (variants : list str) (depends : list (str * nat)) (d : store) : list info :=
  Core {| c_depends := depends; c_time := mtime w fn; c_variants := variants ++ [[]]; c_appends := appends; c_nocache := d_nocache d;
          c_checks := d_checks d; c_rest := d_rest d |} ::
  (if x then [Extra (d_extra d)] else []).
(** 491-517 parse *)
Definition parse (x : bool) (w : world C) (fn : str) (appends : list str) : option (list (str * list info)) :=
  match parse_recipe w fn appends with
  | None => None
  | Some (vs, d) =>
      Some (map (fun v => (variant2virtual fn (fst v), make_info x w fn appends [] (d_depends (snd v)) (snd v))) vs
            ++ [(fn, make_info x w fn appends (map fst vs) (flat_map (fun v => d_depends (snd v)) vs ++ d_depends d) d)])
  end.

(** The state of a Cache object: depends_cache, clean, checked *)
Record cache := { depends_cache : entries; clean : list str; checked : list str }.
(** 663-673 *)
Definition remove (fn : str) (c : cache) : cache :=
  {| depends_cache := rem fn (depends_cache c); clean := filter (fun k => negb (seqb k fn)) (clean c); checked := checked c |}.
(** 599-609 *)
Definition depends_changed (w : world C) (l : list (str * nat)) : bool := existsb (fun p => negb (Nat.eqb (mtime w (fst p)) (snd p))) l.
(** 611-629: a file of the lists is there although it was not, or the other way round.  None: ValueError *)
Definition checks_changed (w : world C) (l : list str) : option bool :=
  match all_some (map file_list l) with
  | None => None
  | Some l => Some (existsb (fun p => (seqb (snd p) (s_ "True") && negb (exists_ w (fst p))) || (seqb (snd p) (s_ "False") && exists_ w (fst p))) (concat l))
  end.
Fixpoint list_eqb (a b : list str) : bool :=
  match a, b with [], [] => true | x :: a, y :: b => seqb x y && list_eqb a b | _, _ => false end.
(** 644-660: the variants; [n]: the length of caches_array *)
Definition complete (n : nat) (fn : str) (variants : list str) (dc : entries) : bool :=
  forallb (fun v => match get (variant2virtual fn v) dc with Some a => Nat.eqb (length a) n | None => false end) variants.
(** 569-660 cacheValidUpdate and 559-567 cacheValid.  None: the code ends with an AttributeError (the entry has no
    CoreRecipeInfo in the first place) or a ValueError *)
Definition valid_update (n : nat) (w : world C) (fn : str) (appends : list str) (c : cache) : option (bool * cache) :=
  let c := {| depends_cache := depends_cache c; clean := clean c; checked := fn :: checked c |} in
  match get fn (depends_cache c) with
  | None => Some (false, c)
  | Some a =>
      if Nat.eqb (mtime w fn) 0 then Some (false, remove fn c) else
      match a with
      | Core i :: _ =>
          if negb (Nat.eqb (mtime w fn) (c_time i)) then Some (false, remove fn c) else
          if depends_changed w (c_depends i) then Some (false, remove fn c) else
          match checks_changed w (c_checks i) with
          | None => None
          | Some true => Some (false, remove fn c)
          | Some false =>
              if negb (list_eqb appends (c_appends i)) then Some (false, remove fn c) else
              let names := map (variant2virtual fn) (c_variants i) in
              if complete n fn (c_variants i) (depends_cache c)
              then Some (true, {| depends_cache := depends_cache c; clean := fn :: names ++ clean c; checked := checked c |})
              else Some (false, {| depends_cache := depends_cache c; clean := filter (fun k => negb (mem_str k (fn :: names))) (clean c); checked := checked c |})
          end
      | _ => None
      end
  end.
Definition cache_valid (n : nat) (w : world C) (fn : str) (appends : list str) (c : cache) : option (bool * cache) :=
  match (if mem_str fn (checked c) then Some (false, c) else valid_update n w fn appends c) with
  | None => None
  | Some (_, c) => Some (mem_str fn (clean c), c)
  end.
(** 543-557 loadCached.  None: KeyError or AttributeError *)
Definition load_cached (fn : str) (dc : entries) : option (list (str * list info)) :=
  match get fn dc with
  | Some (Core i :: _) => all_some (map (fun v => option_map (pair (variant2virtual fn v)) (get (variant2virtual fn v) dc)) (c_variants i))
  | _ => None
  end.
(** 702-723 add_info, what it does to depends_cache *)
Definition cachable (a : list info) : bool := match a with Core i :: _ => negb (c_nocache i) | _ => false end.
Definition add_info (dc : entries) (p : str * list info) : entries := if cachable (snd p) then put (fst p) (snd p) dc else dc.

(** The two cache files, as the records in them; None: there is no such file *)
Record disk := { core_file : option (list (str * core)); extra_file : option (list (str * Q)) }.
(** 532-535 *)
Definition append_to (dc : entries) (k : str) (i : info) : entries :=
  match get k dc with Some a => put k (a ++ [i]) dc | None => put k [i] dc end.
(** 418-437, 463-541 prepare_cache and load_cachefile *)
Definition load (x : bool) (d : disk) : entries :=
  match core_file d, (if x then extra_file d else Some []) with
  | Some a, Some b =>
      fold_left (fun dc p => append_to dc (fst p) (Extra (snd p))) b
        (fold_left (fun dc p => append_to dc (fst p) (Core (snd p))) a [])
  | _, _ => []
  end.
Definition cores (dc : entries) : list (str * core) := flat_map (fun p => flat_map (fun i => match i with Core c => [(fst p, c)] | Extra _ => [] end) (snd p)) dc.
Definition extras (dc : entries) : list (str * Q) := flat_map (fun p => flat_map (fun i => match i with Core _ => [] | Extra q => [(fst p, q)] end) (snd p)) dc.
(** 675-698 sync: one file after the other; the file of a class that is not in use stays *)
Definition sync (x : bool) (dc : entries) (d : disk) : disk :=
  {| core_file := Some (cores dc); extra_file := if x then Some (extras dc) else extra_file d |}.
(** 684-695: the process is killed while it writes the first file (what is written so far is [n] records), or the second one *)
Definition sync_killed (dc : entries) (d : disk) (second : bool) (n : nat) : disk :=
  if second then {| core_file := Some (cores dc); extra_file := Some (firstn n (extras dc)) |}
  else {| core_file := Some (firstn n (cores dc)); extra_file := extra_file d |}.

(** cooker.py 2133-2140: which recipes come from the cache and which are parsed *)
Fixpoint sort_out (n : nat) (w : world C) (recipes : list (str * list str)) (c : cache) : option (list (str * list str) * list (str * list str) * cache) :=
  match recipes with
  | [] => Some ([], [], c)
  | (fn, appends) :: r =>
      match cache_valid n w fn appends c with
      | None => None
      | Some (b, c) =>
          match sort_out n w r c with
          | None => None
          | Some (cached, toparse, c) => if b then Some ((fn, appends) :: cached, toparse, c) else Some (cached, (fn, appends) :: toparse, c)
          end
      end
  end.
(** cooker.py 2250-2254, 2355-2365: what the session knows about the recipes from the cache *)
Fixpoint from_cache (l : list (str * list str)) (dc : entries) : option (list (str * list info) * entries) :=
  match l with
  | [] => Some ([], dc)
  | (fn, _) :: r =>
      match load_cached fn dc with
      | None => None
      | Some infos =>
          match from_cache r (fold_left add_info infos dc) with
          | None => None
          | Some (known, dc) => Some (infos ++ known, dc)
          end
      end
  end.
(** cooker.py 2256-2280, 2355-2365: the recipes are parsed in some order; at the first error parsing stops *)
Fixpoint from_files (x : bool) (w : world C) (l : list (str * list str)) (dc : entries) : list (str * list info) * entries :=
  match l with
  | [] => ([], dc)
  | (fn, appends) :: r =>
      match parse x w fn appends with
      | None => ([], dc)
      | Some infos => let '(known, dc) := from_files x w r (fold_left add_info infos dc) in (infos ++ known, dc)
      end
  end.
(** cooker.py 2165-2205, 2130-2148: one session.  [recipes]: the files and their appends; [order]: the order in which the
    results of the parser processes arrive, for the list of files to parse; it may be cut short (the user interrupts).
    cacheclean (681) is false as soon as a result arrived.  The result: what the session knows about the recipes and the
    files it leaves.  None: it ends with an exception *)
Definition session (x : bool) (w : world C) (recipes : list (str * list str)) (order : list (str * list str) -> list (str * list str)) (d : disk)
  : option (list (str * list info) * disk * entries) :=
  let n := if x then 2 else 1 in
  match sort_out n w recipes {| depends_cache := load x d; clean := []; checked := [] |} with
  | None => None
  | Some (cached, toparse, c) =>
      match from_cache cached (depends_cache c) with
      | None => None
      | Some (known, dc) =>
          let '(parsed, dc) := from_files x w (order toparse) dc in
          Some (known ++ parsed, if existsb (fun p => cachable (snd p)) parsed then sync x dc d else d, dc)
      end
  end.
End Cache.
