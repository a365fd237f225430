(** Model of the layers: their priorities (bitbake/lib/bb/cooker.py 1122-1243
    handleCollections), the recipes and the .bbappend files they contain and which
    append files are applied to a recipe (1760-1926 CookerCollectFiles). *)
From Coq Require Import Ascii String List Bool Arith ZArith.
From Verif Require Import Str_Model Vercmp_Model Posix_Model Imgtypes_Model.
Import ListNotations.
Open Scope list_scope.

(** BBFILE_PRIORITY_x: not set or empty; a number; something else *)
Inductive pri_var := NoPri | Num (z : Z) | BadPri.
(** BBFILE_PATTERN_x: not set; empty; not a regular expression; a regular expression *)
Inductive pat_var := NoPattern | EmptyPattern | BadPattern | Pattern (p : str).
(** The variables of a layer.  LAYERDEPENDS and LAYERRECOMMENDS are given as what
    explode_dep_versions2 makes of them (Deps_Model), with each "op version" split;
    LAYERVERSION: None if not set or empty *)
Definition deplist := list (str * list (str * str)).
Record vars := mkVars { v_priority : pri_var; v_depends : deplist; v_recommends : deplist; v_version : option str; v_pattern : pat_var }.

Fixpoint get {A} (k : str) (l : list (str * A)) : option A :=
  match l with
  | [] => None
  | (x, v) :: r => if seqb k x then Some v else get k r
  end.
Fixpoint put {A} (k : str) (v : A) (l : list (str * A)) : list (str * A) :=
  match l with
  | [] => [(k, v)]
  | (x, w) :: r => if seqb k x then (x, v) :: r else (x, w) :: put k v r
  end.

Section Layers.
  Variable conf : str -> vars.
  (** BBFILE_COLLECTIONS *)
  Variable layers : list str.

  (** 1155-1173: whether the dependencies are met; None: bb.fatal for a version that cannot be read *)
  Fixpoint check_versions (dep : str) (ops : list (str * str)) : option bool :=
    match ops with
    | [] => Some true
    | (op, ver) :: r =>
        match (match v_version (conf dep) with Some lv => vercmp_string_op lv ver op | None => Some false end) with
        | None => None
        | Some b => option_map (andb b) (check_versions dep r)
        end
    end.
  Fixpoint check_depends (deps : deplist) : option bool :=
    match deps with
    | [] => Some true
    | (dep, ops) :: r =>
        match (if mem_str dep layers then check_versions dep ops else Some false) with
        | None => None
        | Some b => option_map (andb b) (check_depends r)
        end
    end.
  (** 1185-1205: the recommended layers that count as dependencies; only the first condition is looked at *)
  Fixpoint recommended (recs : deplist) : option (list str) :=
    match recs with
    | [] => Some []
    | (rec, ops) :: r =>
        match (if mem_str rec layers then
                 match ops with
                 | [] => Some true
                 | (op, ver) :: _ => match v_version (conf rec) with Some lv => vercmp_string_op lv ver op | None => Some false end
                 end
               else Some false) with
        | None => None
        | Some b => option_map (fun l => if b then rec :: l else l) (recommended r)
        end
    end.

  (** The variables of the first loop (1126-1205); [k_last]: the Python variable prio *)
  Record known := mkKnown { k_errors : bool; k_min : Z; k_last : option Z; k_pri : list (str * option Z); k_deps : list (str * list str) }.
  Definition known0 : known := mkKnown false 0 None [] [].
  (** 1131-1205, one layer.  None: an exception other than CollectionError *)
  Definition read_layer (k : known) (c : str) : option known :=
    let v := conf c in
    let lower m z := if (Z.eqb m 0 || Z.ltb z m)%bool then z else m in
    match (match v_priority v with
           | NoPri => Some (k_errors k, k_min k, k_last k, None)
           | Num z => Some (k_errors k, lower (k_min k) z, Some z, Some z)
           | BadPri => match k_last k with None => None (* UnboundLocalError *) | Some z => Some (true, lower (k_min k) z, Some z, Some z) end
           end), check_depends (v_depends v), recommended (v_recommends v) with
    | Some (err, mn, last, pri), Some ok, Some recs =>
        Some (mkKnown (err || negb ok) mn last (put c pri (k_pri k)) (put c (map fst (v_depends v) ++ recs) (k_deps k)))
    | _, _, _ => None
    end.
  Fixpoint read_layers (k : known) (cs : list str) : option known :=
    match cs with
    | [] => Some k
    | c :: r => match read_layer k c with None => None | Some k' => read_layers k' r end
    end.

  (** 1208-1218 calc_layer_priority; None: KeyError, or RecursionError ([fuel]) *)
  Fixpoint calc (deps : list (str * list str)) (mn : Z) (fuel : nat) (pri : list (str * option Z)) (c : str) : option (list (str * option Z)) :=
    match fuel with
    | O => None
    | S f =>
        match get c pri with
        | None => None
        | Some (Some (Zpos _ | Zneg _)) => Some pri
        | Some _ =>
            match get c deps with
            | None => None
            | Some ds =>
                let fix go (ds : list str) (pri : list (str * option Z)) (m : Z) : option (list (str * option Z) * Z) :=
                  match ds with
                  | [] => Some (pri, m)
                  | d :: r =>
                      match calc deps mn f pri d with
                      | None => None
                      | Some pri =>
                          match get d pri with
                          | Some (Some z) => go r pri (if Z.ltb m z then z else m)
                          | _ => None
                          end
                      end
                  end in
                match go ds pri mn with
                | None => None
                | Some (pri, m) => Some (put c (Some (m + 1)%Z) pri)
                end
            end
        end
    end.

  (** An entry of bbfile_config_priorities: the layer, the pattern (the compiled one is
      ^NULL$ if it is empty) and the priority *)
  Record entry := mkEntry { e_layer : str; e_pattern : str; e_pri : Z }.
  (** 1221-1239 *)
  Fixpoint compile (deps : list (str * list str)) (mn : Z) (err : bool) (pri : list (str * option Z)) (cs : list str) : option (bool * list entry) :=
    match cs with
    | [] => Some (err, [])
    | c :: r =>
        match calc deps mn (S (length layers)) pri c with
        | None => None
        | Some pri =>
            let entry p := match get c pri with Some (Some z) => [mkEntry c p z] | _ => [] end in
            let '(err, e) := match v_pattern (conf c) with
                             | NoPattern | BadPattern => (true, [])
                             | EmptyPattern => (false, entry [])  (* 1231: errors = False *)
                             | Pattern p => (err, entry p)
                             end in
            match compile deps mn err pri r with None => None | Some (err, es) => Some (err, e ++ es) end
        end
    end.
  Inductive handled := Priorities (l : list entry) | CollectionError | Crash.
  (** 1122-1243 *)
  Definition handle_collections : handled :=
    match read_layers known0 layers with
    | None => Crash
    | Some k =>
        match compile (k_deps k) (k_min k) (k_errors k) (k_pri k) layers with
        | None => Crash
        | Some (true, _) => CollectionError
        | Some (false, es) => Priorities es
        end
    end.
End Layers.

(** Python 3.7 re.escape: the characters that get a backslash (LAYERDIR_RE,
    cookerdata.py 417) *)
Definition special (c : ascii) : bool := existsb (aeqb c) (s_ "()[]{}?*+-|^$\.&~# " ++ ["009"; "010"; "011"; "012"; "013"]%char).
Definition escape (d : str) : str := flat_map (fun c => if special c then ["\"%char; c] else [c]) d.
Fixpoint unescape (p : str) : str :=
  match p with
  | c :: ((c' :: r) as t) => if aeqb c "\" then c' :: unescape r else c :: unescape t
  | _ => p
  end.
(** re.match for patterns that are texts with escaped characters: "^text"; an empty
    pattern stands for ^NULL$.  Other regular expressions are not modelled. *)
Definition re_match (p f : str) : bool :=
  match p with
  | [] => seqb f (s_ "NULL")
  | c :: r => startswith (unescape (if aeqb c "^" then r else p)) f
  end.

(** 1767 sorted(..., reverse=True), stable *)
Fixpoint insert_desc (x : entry) (l : list entry) : list entry :=
  match l with
  | [] => [x]
  | y :: r => if str_leb (e_pattern y) (e_pattern x) then x :: y :: r else y :: insert_desc x r
  end.
Definition sort_desc (l : list entry) : list entry := fold_right insert_desc [] l.
(** 1769-1773 *)
Fixpoint file_priority (es : list entry) (f : str) : Z * option str :=
  match es with
  | [] => (0%Z, None)
  | e :: r => if re_match (e_pattern e) f then (e_pri e, Some (e_layer e)) else file_priority r f
  end.

(** What the file system answers: os.path.isdir; the files below a directory as
    os.walk gives them (without SCCS, CVS, .svn); glob.glob; os.path.exists; the files
    of the current directory *)
Record fs := mkFs { isdir : str -> bool; below : str -> list str; globbed : str -> list str; exists_ : str -> bool; here : list str }.
Definition is_bb (f : str) : bool := endswith (s_ ".bb") f.
Definition is_append (f : str) : bool := endswith (s_ ".bbappend") f.
(** 1805, stable *)
Fixpoint insert_pri (es : list entry) (x : str) (l : list str) : list str :=
  match l with
  | [] => [x]
  | y :: r => if Z.leb (fst (file_priority es x)) (fst (file_priority es y)) then x :: y :: r else y :: insert_pri es x r
  end.
Definition sort_pri (es : list entry) (l : list str) : list str := fold_right (insert_pri es) [] l.
(** 1838-1848: the files of one entry of BBFILES *)
Definition item_files (w : fs) (f : str) : list str :=
  if isdir w f then filter (fun g => is_bb g || is_append g) (below w f)
  else sorted_set (match globbed w f with [] => if exists_ w f then [f] else [] | l => l end).
Definition add_new (acc : list str) (g : str) : list str := if mem_str g acc then acc else acc ++ [g].
(** 1802-1850 *)
Definition new_files (es : list entry) (w : fs) (bbfiles : str) : list str :=
  let files := match sort_pri es (split_ws bbfiles) with [] => filter is_bb (here w) | l => l end in
  fold_left add_new (flat_map (item_files w) files) [].
(** re.search for masks that are texts and alternatives of texts *)
Definition bar : ascii := "|"%char.
Definition re_search (p f : str) : bool := existsb (fun a => contains_sub a f) (split_on bar p).
(** 1862-1876 *)
Definition fix_mask (m : str) : str := match m with c :: r => if aeqb c bar then r else m | [] => m end.
Definition mask_of (bbmask : str) : str := join (s_ "|") (map fix_mask (split_ws bbmask)).
(** 1886 *)
Definition masked (bbmask f : str) : bool := match mask_of bbmask with [] => false | p => re_search p f end.
Definition unmasked (es : list entry) (w : fs) (bbfiles bbmask : str) : list str := filter (fun f => negb (masked bbmask f)) (new_files es w bbfiles).
(** 1883-1900: the recipes; the append files with the names of their recipes.
    [config]: as handleCollections left it *)
Definition recipes (config : list entry) (w : fs) (bbfiles bbmask : str) : list str := filter is_bb (unmasked (sort_desc config) w bbfiles bbmask).
Definition append_base (f : str) : str := replace_str (s_ ".bbappend") (s_ ".bb") (basename f).
Definition appends (config : list entry) (w : fs) (bbfiles bbmask : str) : list (str * str) :=
  map (fun f => (append_base f, f)) (filter (fun f => negb (is_bb f) && is_append f) (unmasked (sort_desc config) w bbfiles bbmask)).
(** 1916-1926 get_file_appends *)
Definition percent : ascii := "%"%char.
Definition applies_to (f base : str) : bool :=
  seqb base f ||
  match cut_at percent base with
  | (p, Some _) => startswith (firstn (length p) f) base
  | (_, None) => false
  end.
Definition file_appends (config : list entry) (w : fs) (bbfiles bbmask fn : str) : list str :=
  map snd (filter (fun b => applies_to (basename fn) (fst b)) (appends config w bbfiles bbmask)).
(** 1902-1912: the recipes hidden by each recipe; the list is walked from its end *)
Definition overlay_step (st : list (str * str) * list (str * list str)) (f : str) : list (str * str) * list (str * list str) :=
  let '(seen, hidden) := st in
  match get (basename f) seen with
  | None => (put (basename f) f seen, hidden)
  | Some top => (seen, put top (match get top hidden with Some l => l | None => [] end ++ [f]) hidden)
  end.
Definition overlayed (bbfiles : list str) : list (str * list str) := snd (fold_left overlay_step (rev bbfiles) ([], [])).
