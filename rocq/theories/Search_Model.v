(** Search paths: meta/classes-global/base.bbclass 320-337, bitbake/lib/bb/utils.py
    959-990, bitbake/lib/bb/fetch2/local.py 30-66, meta/lib/oe/path.py 296-327.  Definitions only. *)
From Coq Require Import Ascii String List Bool.
From Verif Require Import Str_Model Imgtypes_Model Posix_Model.
Import ListNotations.
Open Scope list_scope.

Definition colon : ascii := ":"%char.
(** base.bbclass 321-337 base_set_filespath; the variables are empty when not set *)
Definition base_set_filespath (path : list str) (filesextrapaths filesoverrides : str) : str :=
  let extrapaths := replace_str (s_ "__default:") [] filesextrapaths in
  let path := match extrapaths with [] => path | _ => split_on colon extrapaths ++ path end in
  let overrides := rev (split_on colon (colon :: filesoverrides)) in
  join [colon] (flat_map (fun o => flat_map (fun p => match p with [] => [] | _ => [pjoin p o] end) path) overrides).
(** utils.py 980-990: the loop of which; [ok] is is_candidate.  The result has the
    candidate found (before abspath, 984-985) and the history. *)
Fixpoint which_loop (ok : str -> bool) (item : str) (paths hist : list str) : option str * list str :=
  match paths with
  | [] => (None, hist)
  | p :: paths' =>
      let next := pjoin p item in
      let hist := hist ++ [next] in
      if ok next then (Some next, hist) else which_loop ok item paths' hist
  end.
(** utils.py 959-990 which; [path] is "" when None *)
Definition which (ok : str -> bool) (path item : str) (reverse : bool) : option str * list str :=
  let paths := split_on colon path in
  which_loop ok item (if reverse then rev paths else paths) [].
(** local.py 48-66 localfile_searchpaths; None: IndexError *)
Definition localfile_searchpaths (exists_ : str -> bool) (filespath decodedurl : str) : option (list str) :=
  match decodedurl with
  | [] => None
  | c :: _ => if is_slash c then Some [decodedurl]
              else match filespath with [] => Some [] | _ => Some (snd (which exists_ filespath decodedurl false)) end
  end.
(** local.py 42-46 localpath: the last element; None: IndexError *)
Definition localpath (exists_ : str -> bool) (filespath decodedurl : str) : option str :=
  match localfile_searchpaths exists_ filespath decodedurl with
  | Some l => match rev l with x :: _ => Some x | [] => None end
  | None => None
  end.
Section Wild.
  Variable glob : str -> list str.
  Variable readable : str -> bool.
  Variable rel : str -> str -> str.
  (** path.py 314-325: the files of one element; [rel] is os.path.relpath and the
      elements are absolute already (311-312) *)
  Fixpoint wild_files (element : str) (found : list str) (seen files : list str) : list str * list str :=
    match found with
    | [] => (seen, files)
    | f :: found' =>
        if negb (readable f) then wild_files element found' seen files
        else if mem_str (rel f element) seen then wild_files element found' seen files
        else wild_files element found' (rel f element :: seen) (files ++ [f])
    end.
  (** path.py 309-327 *)
  Fixpoint wild_loop (pathname : str) (paths : list str) (seen files : list str) : list str :=
    match paths with
    | [] => files
    | element :: paths' =>
        let (seen, files) := wild_files element (sorted_set (glob (pjoin element pathname))) seen files in
        wild_loop pathname paths' seen files
    end.
  Definition which_wild (pathname : str) (paths : list str) : list str := wild_loop pathname paths [] [].
End Wild.
