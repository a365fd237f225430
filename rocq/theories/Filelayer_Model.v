(** The layer of a file: get_collection_res and get_file_layer, bitbake/lib/bb/utils.py 1543-1580.  Definitions only.  [m p f]: re.match;
    fnmatchcase: fnmatch of Layerconf_Model (sets in brackets are not modelled). *)
From Coq Require Import Ascii String List Bool Arith.
From Verif Require Import Str_Model Layerconf_Model.
Import ListNotations.
Open Scope list_scope.

Definition set_item (l : list (str * str)) (k v : str) : list (str * str) :=
  if existsb (fun e => seqb (fst e) k) l then map (fun e => if seqb (fst e) k then (k, v) else e) l else l ++ [(k, v)].
(** 1543-1549; [var]: getVar *)
Definition collection_res (var : str -> option str) : list (str * str) :=
  fold_left (fun l c => set_item l c (match var (s_ "BBFILE_PATTERN_" ++ c) with Some p => p | None => [] end))
    (split_ws (match var (s_ "BBFILE_COLLECTIONS") with Some v => v | None => [] end)) [].
(** 1557-1565; [len], [best]: matchlen, match *)
Fixpoint to_layer (m : str -> str -> bool) (path : str) (res : list (str * str)) (len : nat) (best : option str) : option str :=
  match res with
  | [] => best
  | (c, p) :: res => if Nat.ltb len (length p) && m p path then to_layer m path res (length p) (Some c) else to_layer m path res len best
  end.
Definition path_to_layer (m : str -> str -> bool) (res : list (str * str)) (path : str) : option str := to_layer m path res 0 None.
(** 1567-1580; [entries]: BBFILES_PRIORITIZED *)
Fixpoint by_entry (m : str -> str -> bool) (res : list (str * str)) (entries : list str) (file : str) : option str :=
  match entries with
  | [] => path_to_layer m res file
  | e :: entries => if fnmatch file e then path_to_layer m res e else by_entry m res entries file
  end.
Definition file_layer (m : str -> str -> bool) (var : str -> option str) (file : str) : option str :=
  by_entry m (collection_res var) (split_ws (match var (s_ "BBFILES_PRIORITIZED") with Some v => v | None => [] end)) file.
