(** The targets of a build: bitbake/lib/bb/cooker.py 568-644 (buildTaskData) and 1654-1698 (checkPackages).
    Definitions only.  None is bb.fatal.  Not modelled: messages, events and NothingToBuild (an empty list of targets). *)
From Coq Require Import String Ascii List Bool Arith.
From Verif Require Import Str_Model.
Import ListNotations.
Open Scope list_scope.

Definition colon : ascii := ":"%char.
Definition star : ascii := "*"%char.

(** list.remove of a word that is in the list *)
Fixpoint remove_word (w : str) (l : list str) : list str :=
  match l with [] => [] | x :: r => if seqb x w then r else x :: remove_word w r end.
(** 1663-1668: multiconfig:A:x is another spelling of mc:A:x *)
Definition respell (pkgs : list str) : list str :=
  fold_left (fun l p => if startswith (s_ "multiconfig:") p
                        then remove_word p l ++ [replace_str (s_ "multiconfig:") (s_ "mc:") p] else l) pkgs pkgs.
(** 1674-1677, 1694-1696: a target of one configuration *)
Definition in_conf (mc t : str) : str := match mc with [] => t | _ => s_ "mc:" ++ mc ++ s_ ":" ++ t end.
(** 1670-1677, 1679-1696: a word that stands for many targets; [all]: the targets of a configuration (world_target, or
    those of universe_target that have the task), in the order of the set *)
Definition unfold_word (w : str) (mcs : list str) (all : str -> list str) (pkgs : list str) : list str :=
  if mem_str w pkgs then remove_word w pkgs ++ flat_map (fun mc => map (in_conf mc) (all mc)) mcs else pkgs.
(** 1654-1698 *)
Definition check_packages (mcs : list str) (world universe : str -> list str) (pkgs : list str) : list str :=
  unfold_word (s_ "universe") mcs universe (unfold_word (s_ "world") mcs world (respell pkgs)).

(** 591, 621: k.startswith("mc:") and k.count(':') >= 2 *)
Definition names_conf (k : str) : bool := startswith (s_ "mc:") k && Nat.leb 2 (count_occ ascii_dec k colon).
(** 590-606: the targets so far, the text for the default configuration, whether there was a target without a
    configuration, whether there was a wildcard *)
Fixpoint expand (mcs : list str) (l : list str) (full : list str) (implicit : str) (explicit wild : bool) : option (list str * str * bool) :=
  match l with
  | [] => Some (full, implicit, explicit)
  | k :: r =>
      if names_conf k then
        if wild then None
        else if seqb (nth 1 (split_on colon k) []) [star] then
          let full := full ++ map (fun mc => replace_char star mc k) (filter (fun mc => match mc with [] => false | _ => true end) mcs) in
          let implicit := if mem_str [] mcs then nth 2 (split_on colon k) [] else implicit in
          expand mcs r full implicit explicit true
        else expand mcs r (full ++ [k]) implicit explicit wild
      else expand mcs r (full ++ [k]) implicit true wild
  end.
(** 582-609 *)
Definition full_list (mcs : list str) (l : list str) : option (list str) :=
  match expand mcs l [] [] false false with
  | None => None
  | Some (full, implicit, explicit) =>
      Some (full ++ (if negb explicit && negb (seqb implicit []) then [implicit] else []))
  end.

(** str.split of a word, the first two parts: k2[0] and k2[1] of 626-629 *)
Fixpoint cut_sub (p s : str) : option (str * str) :=
  if startswith p s then Some ([], skipn (length p) s)
  else match s with
       | [] => None
       | c :: r => match cut_sub p r with Some (a, b) => Some (c :: a, b) | None => None end
       end.
Definition do_prefix (t : str) : str := if startswith (s_ "do_") t then t else s_ "do_" ++ t.
(** 618-638: the configuration, the name and the task of a target *)
Definition parse_target (mcs : list str) (task : str) (k : str) : option (str * str * str) :=
  let '(mc, k) := if names_conf k then (nth 1 (split_on colon k) [], join [colon] (skipn 2 (split_on colon k))) else ([], k) in
  let '(k, ktask) :=
    match cut_sub (s_ ":do_") k with
    | None => (k, task)
    | Some (a, b) => (a, match cut_sub (s_ ":do_") b with Some (b, _) => b | None => b end)
    end in
  if mem_str mc mcs then Some (mc, k, do_prefix ktask) else None.
Fixpoint parse_all (mcs : list str) (task : str) (l : list str) : option (list (str * str * str)) :=
  match l with
  | [] => Some []
  | k :: r => match parse_target mcs task k, parse_all mcs task r with Some a, Some b => Some (a :: b) | _, _ => None end
  end.
(** 574-644: what is asked of which configuration; [task] is the task given with the command, or
    BB_DEFAULT_TASK *)
Definition targets (mcs : list str) (world universe : str -> list str) (task : str) (pkgs : list str) : option (list (str * str * str)) :=
  match full_list mcs (check_packages mcs world universe pkgs) with
  | None => None
  | Some l => parse_all mcs (do_prefix task) l
  end.
