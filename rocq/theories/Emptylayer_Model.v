(** The warning about layers without files: bitbake/lib/bb/cooker.py 1769-1773 calc_bbfile_priority and 1928-1988
    collection_priorities (the priorities themselves: Layers_Model).  Definitions only.  A compiled expression is its pattern (re.compile
    gives the same object for the same pattern); [m p f] says whether the pattern p matches the file f. *)
From Coq Require Import Ascii String List Bool.
From Verif Require Import Str_Model.
Import ListNotations.
Open Scope list_scope.

(** (collection, pattern), as sorted in bbfile_config_priorities *)
Definition layer : Type := str * str.
(** 1769-1773: the pattern of the first layer that matches *)
Fixpoint home (m : str -> str -> bool) (ls : list layer) (f : str) : option str :=
  match ls with
  | [] => None
  | (_, p) :: ls => if m p f then Some p else home m ls f
  end.
Definition remove_all (x : str) (l : list str) : list str := filter (fun y => negb (seqb x y)) l.
(** What the loop carries: seen, matched, matched_regex, unmatched_regex *)
Record tally := Tally { seen : list str; matched : list str; used : list str; unused : list str }.
(** 1944-1952, one recipe *)
Definition count (m : str -> str -> bool) (ls : list layer) (t : tally) (f : str) : tally :=
  match home m ls f with
  | Some p =>
      if mem_str p (unused t) then Tally (f :: seen t) (f :: matched t) (p :: used t) (remove_all p (unused t))
      else Tally (f :: seen t) (f :: matched t) (used t) (unused t)
  | None => Tally (f :: seen t) (matched t) (used t) (unused t)
  end.
(** 1965-1969 *)
Definition already_matched (m : str -> str -> bool) (t : tally) (f : str) : bool := existsb (fun p => m p f) (used t).
(** 1971-1980: whether this pattern stays unmatched; [s]: seen *)
Fixpoint stays (m : str -> str -> bool) (t : tally) (p : str) (s : list str) : bool :=
  match s with
  | [] => true
  | f :: s => if m p f then if already_matched m t f then stays m t p s else false else stays m t p s
  end.
(** 1928-1980: the patterns nothing matches; [recipes]: the files of pkgfns, [fns]: all recipe files, also skipped ones *)
Definition unmatched (m : str -> str -> bool) (ls : list layer) (recipes appends fns : list str) : list str :=
  let t := fold_left (count m ls) recipes (Tally [] [] [] (map snd ls)) in
  match unused t with
  | [] => []
  | _ =>
      let s := filter (fun f => negb (mem_str f (matched t))) (seen t ++ appends ++ fns) in
      filter (fun p => stays m t p s) (unused t)
  end.
(** 1982-1986: the collections warned about; [ignore]: BBFILE_PATTERN_IGNORE_EMPTY of a collection *)
Definition warned (m : str -> str -> bool) (ignore : str -> option str) (ls : list layer) (recipes appends fns : list str) : list str :=
  let u := unmatched m ls recipes appends fns in
  map fst (filter (fun l => mem_str (snd l) u && negb (match ignore (fst l) with Some v => seqb v (s_ "1") | None => false end)) ls).
