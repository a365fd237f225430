(** Model of the shared-state manifests of meta/classes-global/sstate.bbclass: writing
    a manifest (sstate_install), uninstalling it (sstate_clean_manifest) and the
    removal of unreachable recipes (sstate_eventhandler_reachablestamps).
    The file system is a list of absolute normalised path names with their kinds.
    Left out: file contents, locks, hooks, postrm scripts, debug output. *)
From Coq Require Import Ascii String List Bool Arith.
From Verif Require Import Str_Model.
Import ListNotations.
Open Scope list_scope.

Inductive kind := KFile | KLink | KDir.
Definition kind_eqb (a b : kind) : bool :=
  match a, b with KFile, KFile | KLink, KLink | KDir, KDir => true | _, _ => false end.
Definition fs := list (str * kind).

(** os.path.islink / isfile / isdir on a path without trailing slash *)
Definition has (t : fs) (p : str) (k : kind) : bool := existsb (fun e => seqb (fst e) p && kind_eqb (snd e) k) t.
Definition remove_path (p : str) (t : fs) : fs := filter (fun e => negb (seqb (fst e) p)) t.

(** p is d ++ "/" ++ one component *)
Definition is_child (d p : str) : bool :=
  startswith (d ++ s_ "/") p &&
  (let r := skipn (length d + 1) p in negb (seqb r []) && negb (existsb (aeqb "/") r)).
(** os.listdir(d) is not empty *)
Definition populated (t : fs) (d : str) : bool := existsb (fun e => is_child d (fst e)) t.

(** file.readlines(): the lines with their newline characters *)
Fixpoint readlines_aux (cur : str) (s : str) : list str :=
  match s with
  | [] => match cur with [] => [] | _ => [rev cur] end
  | c :: s' => if aeqb c nl then rev (c :: cur) :: readlines_aux [] s' else readlines_aux (c :: cur) s'
  end.
Definition readlines (s : str) : list str := readlines_aux [] s.

(** * sstate_install, 218-350 *)
(** One staged directory: source, destination, and what os.walk visits below the
    source, as paths relative to it (each starting with "/").  KLink is a link to a
    directory or a file; links to files are visited as files, with the same effect. *)
Record staged := mkStaged { st_src : str; st_dst : str; st_tree : list (str * kind) }.

(** 244-260: the name under which a visited path is recorded *)
Definition recorded (s : staged) (rel : str) : str := replace_str (st_src s) (st_dst s) (st_src s ++ rel).
Definition shared_files (ss : list staged) : list str :=
  flat_map (fun s => flat_map (fun e => match snd e with KDir => [] | _ => [recorded s (fst e)] end) (st_tree s)) ss.
Definition shared_dirs (ss : list staged) : list str :=
  flat_map (fun s => flat_map (fun e => match snd e with
                                        | KDir => let d := recorded s (fst e) in
                                                  [if endswith (s_ "/") d then d else d ++ s_ "/"]
                                        | _ => []
                                        end) (st_tree s)) ss.

(** 263-281: an existing file that is neither a link nor in an allowed place.
    os.path.exists follows links, but links are skipped anyway; path names and the
    entries of SSTATE_ALLOW_OVERLAP_FILES are already normalised. *)
Definition overlaps (allowed : list str) (t : fs) (f : str) : bool :=
  (has t f KFile || has t f KDir) && negb (existsb (fun w => startswith w f) allowed).

(** sorted(l, key=len), stable *)
Fixpoint insert_len (x : str) (l : list str) : list str :=
  match l with
  | [] => [x]
  | y :: l' => if length x <? length y then x :: l else y :: insert_len x l'
  end.
Definition sort_len (l : list str) : list str := fold_left (fun acc x => insert_len x acc) l [].

(** 309-321: the manifest file *)
Definition manifest_text (ss : list staged) : str :=
  concat (map (fun f => f ++ [nl]) (shared_files ss ++ rev (sort_len (shared_dirs ss)))).

(** 339-342: oe.path.copyhardlinktree *)
Definition copy_tree (ss : list staged) (t : fs) : fs :=
  fold_left (fun t e => if existsb (fun f => seqb (fst f) (fst e)) t then t else t ++ [e])
            (flat_map (fun s => map (fun e => (st_dst s ++ fst e, snd e)) (st_tree s)) ss) t.

(** None: the build stops because of overlapping files (263-307) *)
Definition sstate_install (allowed : list str) (ss : list staged) (t : fs) : option (str * fs) :=
  if existsb (overlaps allowed t) (shared_files ss) then None
  else Some (manifest_text ss, copy_tree ss t).

(** * sstate_clean_manifest, 497-522 (no prefix) *)
Definition clean_entry (canrace : bool) (t : fs) (line : str) : fs :=
  let entry := strip line in
  if endswith (s_ "/") entry then
    let p := removelast entry in
    if has t p KLink then remove_path p t
    else if has t p KDir && negb (populated t p) && negb canrace then remove_path p t
    else t
  else if has t entry KFile || has t entry KLink then remove_path entry t
  else t.                                       (* OSError, ignored *)
Definition clean_manifest (canrace : bool) (text : str) (t : fs) : fs :=
  fold_left (clean_entry canrace) (readlines text) t.

(** * sstate_eventhandler_reachablestamps, 1215-1296 *)
Record cleanup := mkCleanup { cl_removed : list str;      (* index lines whose manifests are uninstalled, in order *)
                              cl_index : list str }.      (* the new lines of the index *)

(** 1246-1265, one index, from the last line backwards.  None: bb.fatal *)
Fixpoint scan (stamps preserve machine : list str) (manseen : list str) (ls : list str) (toremove ignore : list str)
    : option (list str * list str) :=
  match ls with
  | [] => Some (toremove, ignore)
  | l :: ls' =>
      match split_ws l with
      | [stamp; manifest; workdir] =>
          if mem_str manifest manseen then scan stamps preserve machine manseen ls' toremove (ignore ++ [l])
          else
            scan stamps preserve machine (manifest :: manseen) ls'
                 (if negb (mem_str stamp stamps) && negb (mem_str stamp preserve) && mem_str stamp machine
                  then toremove ++ [l] else toremove) ignore
      | _ => None
      end
  end.
(** list.remove: the first occurrence *)
Fixpoint remove_first (x : str) (l : list str) : list str :=
  match l with [] => [] | y :: l' => if seqb y x then l' else y :: remove_first x l' end.

(** 1240-1289 for one index file; preserve is the list read from preserve-stamps *)
Definition clean_index (stamps preserve machine : list str) (index : str) : option cleanup :=
  let lines := readlines index in
  match scan stamps preserve machine [] (rev lines) [] [] with
  | None => None
  | Some (toremove, ignore) =>
      let kept := fold_left (fun ls r => remove_first r ls) toremove lines in
      Some (mkCleanup toremove (filter (fun l => negb (mem_str l ignore)) kept))
  end.

(** 1222-1225 *)
Definition preserve_list (file : option str) : list str := match file with Some x => readlines x | None => [] end.
(** 1233-1235 *)
Definition machine_list (file : option str) : list str := match file with Some x => map strip (readlines x) | None => [] end.

(** 1215-1296 for one architecture *)
Definition reachablestamps (stamps : list str) (preserve machine : option str) (index : str) : option cleanup :=
  clean_index stamps (preserve_list preserve) (machine_list machine) index.
