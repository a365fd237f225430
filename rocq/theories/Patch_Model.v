(** Which files of SRC_URI are patches, and how they are applied and taken back:
    meta/lib/oe/patch.py and meta/classes-recipe/patch.bbclass.  Definitions only. *)
From Coq Require Import String Ascii List Bool Arith ZArith.
From Verif Require Import Str_Model Vercmp_Model.
Import ListNotations.
Open Scope list_scope.

(** * Selection *)

(** The parameters of a URL: parm, a dictionary (the first entry of a key counts) *)
Fixpoint parm (k : str) (ps : list (str * str)) : option str :=
  match ps with [] => None | (k', v) :: r => if seqb k k' then Some v else parm k r end.
(** os.path.basename: behind the last slash *)
Definition basename (p : str) : str := match rcut_at "/"%char p with (_, Some b) => b | (_, None) => p end.
(** os.path.splitext of a base name: leading dots do not start an extension *)
Fixpoint lead_dots (s : str) : str * str :=
  match s with
  | c :: s' => if aeqb c "."%char then let '(d, r) := lead_dots s' in (c :: d, r) else ([], s)
  | [] => ([], [])
  end.
Definition splitext (b : str) : str * str :=
  let '(d, r) := lead_dots b in
  match rcut_at "."%char r with
  | (a, Some e) => (d ++ a, "."%char :: e)
  | (_, None) => (b, [])
  end.
(** What the fetcher knows of a URL: local path, whether that is a directory, parameters *)
Record source := { s_local : str; s_isdir : bool; s_parm : list (str * str) }.
(** oe.types.boolean of a string, meta/lib/oe/types.py 108-128; None is ValueError *)
Definition oe_boolean (v : str) : option bool :=
  let v := lower v in
  if mem_str v [s_ "yes"; s_ "y"; s_ "true"; s_ "t"; s_ "1"] then Some true
  else if mem_str v [s_ "no"; s_ "n"; s_ "false"; s_ "f"; s_ "0"] then Some false
  else None.
Inductive answer := Raised | NotPatch | PatchAt (local : str).
(** patch_path, patch.py 887-908; expand is true as in do_patch *)
Definition patch_path (workdir : str) (u : source) : answer :=
  if s_isdir u then NotPatch else
  let '(base, ext) := splitext (basename (s_local u)) in
  let packed := mem_str ext [s_ ".gz"; s_ ".bz2"; s_ ".xz"; s_ ".Z"] in
  let local := if packed then workdir ++ s_ "/" ++ base else s_local u in
  let ext := if packed then snd (splitext base) else ext in
  match parm (s_ "apply") (s_parm u) with
  | Some v => match oe_boolean v with None => Raised | Some true => PatchAt local | Some false => NotPatch end
  | None => if mem_str ext [s_ ".diff"; s_ ".patch"] then PatchAt local else NotPatch
  end.
(** What should_apply reads from the datastore: the source date (already resolved: SRCDATE_PN, SRCDATE, or DATE
    for "now", 954-960), SRCREV and PV *)
Record facts := { f_date : option str; f_rev : option str; f_pv : str }.
(** One test of should_apply: None is an exception, Some false rejects *)
Definition and_then (a : option bool) (b : option bool) : option bool :=
  match a with None => None | Some false => Some false | Some true => b end.
Definition limit (k : str) (ps : list (str * str)) (f : str -> option bool) : option bool :=
  match parm k ps with None => Some true | Some v => f v end.
Definition with_rev (fs : facts) (f : str -> bool) : option bool :=
  match f_rev fs with None => Some true | Some [] => Some true | Some r => Some (f r) end.
Definition with_date (fs : facts) (f : str -> bool) : option bool :=
  match f_date fs with None => None | Some d => Some (f d) end.
(** should_apply, 951-1003 *)
Definition should_apply (fs : facts) (ps : list (str * str)) : option bool :=
  and_then (limit (s_ "maxdate") ps (fun v => with_date fs (fun d => negb (str_ltb v d))))
  (and_then (limit (s_ "mindate") ps (fun v => with_date fs (fun d => negb (str_ltb d v))))
  (and_then (limit (s_ "minrev") ps (fun v => with_rev fs (fun r => negb (str_ltb r v))))
  (and_then (limit (s_ "maxrev") ps (fun v => with_rev fs (fun r => negb (str_ltb v r))))
  (and_then (limit (s_ "rev") ps (fun v => with_rev fs (fun r => contains_sub v r)))
  (and_then (limit (s_ "notrev") ps (fun v => with_rev fs (fun r => negb (contains_sub v r))))
  (and_then (limit (s_ "maxver") ps (fun v => option_map negb (vercmp_string_op (f_pv fs) v (s_ ">"))))
            (limit (s_ "minver") ps (fun v => option_map negb (vercmp_string_op (f_pv fs) v (s_ "<")))))))))).
(** An entry of the result: the URL built at 943 and taken apart again at patch.bbclass 123 (the round trip is C41) *)
Record entry := { e_file : str; e_name : str; e_strip : str; e_dir : option str }.
Definition nonempty_or (o : option str) (d : str) : str := match o with Some (c :: r) => c :: r | _ => d end.
(** src_patches, 910-948; None is an exception *)
Fixpoint src_patches (workdir : str) (fs : facts) (urls : list source) : option (list entry) :=
  match urls with
  | [] => Some []
  | u :: rest =>
      match patch_path workdir u with
      | Raised => None
      | NotPatch => src_patches workdir fs rest
      | PatchAt local =>
          match should_apply fs (s_parm u) with
          | None => None
          | Some false => src_patches workdir fs rest
          | Some true =>
              match src_patches workdir fs rest with
              | None => None
              | Some l =>
                  Some ({| e_file := local;
                           e_name := nonempty_or (parm (s_ "pname") (s_parm u)) (basename local);
                           e_strip := match parm (s_ "striplevel") (s_parm u) with
                                      | Some v => v
                                      | None => match parm (s_ "pnum") (s_parm u) with Some v => v | None => s_ "1" end
                                      end;
                           e_dir := match parm (s_ "patchdir") (s_parm u) with Some (c :: r) => Some (c :: r) | _ => None end |} :: l)
              end
          end
      end
  end.

(** * Application *)
Section Tool.
(** The files of a directory, the text of a patch, and patch(1): with -pN, forwards and with -R.  A patch text
    that cannot be read is None. *)
Variables tree content : Type.
Variable papply : str -> content -> tree -> option tree.
Variable prevert : str -> option content -> tree -> option tree.

(** A patch: its base name (os.path.basename of the file), its strip level and its text *)
Record pfile := { pf_name : str; pf_strip : str; pf_text : content }.

(** ** PatchTree, patch.py 186-294 *)
(** A directory: its files, the lines of patches/series, and the texts stored under patches/, by name *)
Record ptdisk := { pt_tree : tree; pt_series : list str; pt_store : str -> option content }.
(** The object: self.patches and self._current *)
Definition ptmem : Type := list pfile * option nat.
Definition pt_mem0 : ptmem := ([], None).
Definition patchdir (ds : str) : str := ds ++ s_ "/patches".
(** the text found under a path: one in patches/, or none *)
Definition pt_read (ds f : str) (d : ptdisk) : option content :=
  let pre := patchdir ds ++ s_ "/" in
  if startswith pre f then pt_store d (skipn (length pre) f) else None.
(** _removePatch, 199-203, of a line joined to the path of patches/: None is IndexError or the failure of patch *)
Definition pt_remove (ds line : str) (d : ptdisk) : option tree :=
  match split_on ","%char (patchdir ds ++ s_ "/" ++ strip line) with
  | f :: st :: _ => prevert st (pt_read ds f d) (pt_tree d)
  | _ => None
  end.
(** the loop at 211-212 *)
Fixpoint pt_remove_all (ds : str) (lines : list str) (d : ptdisk) : bool * ptdisk :=
  match lines with
  | [] => (true, d)
  | l :: rest =>
      match pt_remove ds l d with
      | None => (false, d)
      | Some t => pt_remove_all ds rest {| pt_tree := t; pt_series := pt_series d; pt_store := pt_store d |}
      end
  end.
(** Clean, 287-289: Pop(all), 274-277: _removePatchFile(True), 205-219 *)
Definition pt_clean (ds : str) (d : ptdisk) : bool * ptdisk :=
  let '(ok, d') := pt_remove_all ds (rev (pt_series d)) d in
  if ok then (true, {| pt_tree := pt_tree d'; pt_series := []; pt_store := pt_store d' |}) else (false, d').
(** Import, 221-229: list.insert at the position behind the current patch *)
Definition pt_import (p : pfile) (m : ptmem) : ptmem :=
  let i := match snd m with Some c => S c | None => 0 end in
  (firstn i (fst m) ++ p :: skipn i (fst m), snd m).
(** _appendPatchFile, 193-197 *)
Definition set_store (k : str) (v : content) (f : str -> option content) : str -> option content :=
  fun k' => if seqb k' k then Some v else f k'.
Definition pt_append (p : pfile) (d : ptdisk) : ptdisk :=
  {| pt_tree := pt_tree d; pt_series := pt_series d ++ [pf_name p ++ s_ "," ++ pf_strip p];
     pt_store := set_store (pf_name p) (pf_text p) (pt_store d) |}.
(** Push without all, 264-272, with _applypatch, 231-255: a dry run and a run *)
Definition pt_push (m : ptmem) (d : ptdisk) : bool * (ptmem * ptdisk) :=
  let next := match snd m with Some c => S c | None => 0 end in
  match nth_error (fst m) next with
  | None => (false, (m, d))
  | Some p =>
      match papply (pf_strip p) (pf_text p) (pt_tree d) with
      | None => (false, (m, d))
      | Some t => (true, ((fst m, Some next), pt_append p {| pt_tree := t; pt_series := pt_series d; pt_store := pt_store d |}))
      end
  end.
Definition pt_step (ds : str) (p : pfile) (md : ptmem * ptdisk) : bool * (ptmem * ptdisk) := pt_push (pt_import p (fst md)) (snd md).

(** ** QuiltTree, patch.py 662-793, with quilt as its manual page describes it *)
(** A directory: its files, the lines of patches/series (name and strip level), the applied patches, newest first,
    each with the files as they were before it (.pc), and the links patches/NAME with the text they lead to *)
Record qdisk := { q_tree : tree; q_series : list (str * str); q_applied : list (str * tree); q_links : str -> option content }.
(** Clean, 680-688: quilt pop -a -f fails (status 2) if nothing is applied, and the series then stays (exceptions are dropped) *)
Definition q_clean (ds : str) (d : qdisk) : bool * qdisk :=
  match rev (q_applied d) with
  | [] => (true, d)
  | (_, t) :: _ => (true, {| q_tree := t; q_series := []; q_applied := []; q_links := q_links d |})
  end.
(** Import, 718-733 *)
Definition q_import (p : pfile) (d : qdisk) : qdisk :=
  {| q_tree := q_tree d; q_series := q_series d ++ [(pf_name p, pf_strip p)]; q_applied := q_applied d;
     q_links := set_store (pf_name p) (pf_text p) (q_links d) |}.
(** quilt push: the patch that follows the topmost one in the series *)
Fixpoint after (n : str) (l : list (str * str)) : list (str * str) :=
  match l with [] => [] | (k, s) :: r => if seqb k n then r else after n r end.
Definition q_next (d : qdisk) : option (str * str) :=
  match q_applied d with [] => hd_error (q_series d) | (n, _) :: _ => hd_error (after n (q_series d)) end.
(** Push, 736-753 *)
Definition q_push (d : qdisk) : bool * qdisk :=
  match q_next d with
  | None => (false, d)
  | Some (n, st) =>
      match q_links d n with
      | None => (false, d)
      | Some c =>
          match papply st c (q_tree d) with
          | None => (false, d)
          | Some t => (true, {| q_tree := t; q_series := q_series d; q_applied := (n, q_tree d) :: q_applied d; q_links := q_links d |})
          end
      end
  end.
Definition q_step (ds : str) (p : pfile) (md : unit * qdisk) : bool * (unit * qdisk) :=
  let '(ok, d) := q_push (q_import p (snd md)) in (ok, (tt, d)).

(** ** do_patch, patch.bbclass 122-153, with the resolver that only pushes (patch.py 808-823) *)
Section Task.
Variables disk mem : Type.
Variable mem0 : mem.
Variable clean : str -> disk -> bool * disk.
Variable step : str -> pfile -> mem * disk -> bool * (mem * disk).
(** The directory a name of it leads to.  Directories are taken as separate: a patch of one changes no file of another. *)
Variable resolve : str -> str.
Fixpoint find_class (ds : str) (l : list (str * mem)) : option mem :=
  match l with [] => None | (k, m) :: r => if seqb ds k then Some m else find_class ds r end.
Definition put (w : str -> disk) (k : str) (d : disk) : str -> disk := fun k' => if seqb k' k then d else w k'.
Fixpoint do_patch (classes : list (str * mem)) (w : str -> disk) (l : list (str * pfile)) : bool * (str -> disk) :=
  match l with
  | [] => (true, w)
  | (ds, p) :: rest =>
      let '(ok, (m, d)) :=
        match find_class ds classes with
        | Some m => (true, (m, w (resolve ds)))
        | None => let '(ok, d) := clean ds (w (resolve ds)) in (ok, (mem0, d))
        end in
      if ok then
        let '(ok, (m', d')) := step ds p (m, d) in
        if ok then do_patch ((ds, m') :: classes) (put w (resolve ds) d') rest
        else (false, put w (resolve ds) d')
      else (false, put w (resolve ds) d)
  end.
(** Runs of the task one after the other, each with the SRC_URI of its time *)
Fixpoint runs (w : str -> disk) (h : list (list (str * pfile))) : str -> disk :=
  match h with [] => w | l :: h => runs (snd (do_patch [] w l)) h end.
End Task.
End Tool.
(** The directory of an entry, patch.bbclass 125-130; S has no slash at its end (os.path.join) *)
Definition entry_dir (s : str) (e : entry) : str :=
  match e_dir e with
  | None => s
  | Some pd => if startswith (s_ "/") pd then pd else s ++ s_ "/" ++ pd
  end.
(** What the loop of patch_do_patch hands to the patch tool, patch.bbclass 122-142; [read] is the text of a file *)
Definition task_list {content} (s : str) (read : str -> content) (es : list entry) : list (str * pfile content) :=
  map (fun e => (entry_dir s e, {| pf_name := basename (e_file e); pf_strip := e_strip e; pf_text := read (e_file e) |})) es.
