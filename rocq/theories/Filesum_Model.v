(** Checksums of local files: bitbake/lib/bb/checksum.py 19-160, with the cache files of bitbake/lib/bb/cache.py 825-925
    (MultiProcessCache).  Definitions only. *)
From Coq Require Import String Ascii List Bool Arith.
From Verif Require Import Str_Model Posix_Model Sigtask_Model Pcache_Model.
Import ListNotations.
Open Scope list_scope.

(** The file system: a file (or a link to one) with its modification time and contents, a directory in the order in which
    it is read, a link to a directory, something that cannot be read (a broken link) *)
Inductive node :=
  | File (t : nat) (c : str)
  | Dir (l : list (str * node))
  | DirLink
  | Broken.
Fixpoint child (c : str) (l : list (str * node)) : option node :=
  match l with [] => None | (x, n) :: r => if seqb x c then Some n else child c r end.
Fixpoint find (n : node) (cs : list str) : option node :=
  match cs with
  | [] => Some n
  | c :: r => match n with Dir l => match child c l with Some n => find n r | None => None end | _ => None end
  end.
(** What is at an absolute path.  Simplification: a path is looked at after normpath, also by isdir and islink *)
Definition at_path (root : node) (p : str) : option node := find root (norm_comps p).
(** os.stat(f)[ST_MTIME] and the contents of a file *)
Definition stat_file (root : node) (p : str) : option (nat * str) := match at_path root p with Some (File t c) => Some (t, c) | _ => None end.

(** s.replace(old, new) for a text [old] that is not empty; [skip]: how much of an occurrence is left *)
Fixpoint replace_go (old new : str) (skip : nat) (s : str) : str :=
  match s with
  | [] => []
  | c :: r =>
      match skip with
      | S k => replace_go old new k r
      | 0 => if startswith old s then new ++ replace_go old new (length old - 1) r else c :: replace_go old new 0 r
      end
  end.
Definition replace (old new s : str) : str := replace_go old new 0 s.

Section Sums.
(** bb.utils.md5_file of the contents; glob.glob; BB_SIGNATURE_LOCAL_DIRS_EXCLUDE *)
Variable md5 : str -> str.
Variable glob : str -> list str.
Variable excluded : list str.

(** 43-52, cache.py 833-836: an object FileChecksumCache in a process: cachedata[0], cachedata_extras[0], and FileMtimeCache.cache *)
Record proc := { data : dict (nat * str); extras : dict (nat * str); times : dict nat }.
(** 25-28 cached_mtime; None: OSError *)
Definition cached_mtime (root : node) (f : str) (p : proc) : option nat * proc :=
  match get f (times p) with
  | Some t => (Some t, p)
  | None =>
      match stat_file root f with
      | Some (t, _) => (Some t, {| data := data p; extras := extras p; times := put f t (times p) |})
      | None => (None, p)
      end
  end.
(** 54-68 get_checksum and 86-92 checksum_file; None: OSError, which becomes a warning *)
Definition get_checksum (root : node) (f : str) (p : proc) : option str * proc :=
  let f := normpath f in
  match cached_mtime root f p with
  | (None, p) => (None, p)
  | (Some cm, p) =>
      let again :=
        match stat_file root f with
        | Some (_, c) => (Some (md5 c), {| data := data p; extras := put f (cm, md5 c) (extras p); times := times p |})
        | None => (None, p)
        end in
      match get f (data p) with
      | Some (m, h) => if Nat.eqb cm m then (Some h, p) else again
      | None => again
      end
  end.
(** Checksums of files, one after the other; 118-120, 140-142, 147-149: "if checksum" *)
Fixpoint sum_files (root : node) (fs : list str) (p : proc) : list (str * str) * proc :=
  match fs with
  | [] => ([], p)
  | f :: r =>
      let '(h, p) := get_checksum root f p in
      let '(l, p) := sum_files root r p in
      (match h with Some (c :: h) => [(f, c :: h)] | _ => [] end ++ l, p)
  end.
(** 113-115 os.walk(pth, topdown=True) without the excluded directories: the files, as paths below the top *)
Definition is_dir (n : node) : bool := match n with Dir _ | DirLink => true | _ => false end.
Fixpoint walk (n : node) (here : list str) : list (list str) :=
  match n with
  | Dir l =>
      map (fun p => here ++ [fst p]) (filter (fun p => negb (is_dir (snd p))) l) ++
      flat_map (fun p => if mem_str (fst p) excluded then [] else walk (snd p) (here ++ [fst p])) l
  | _ => []
  end.
(** 106-121 checksum_dir; None: bb.fatal *)
Definition checksum_dir (root : node) (pth : str) (p : proc) : option (list (str * str) * proc) :=
  if seqb pth [slash] then None else
  let pth := rstrip_slashes pth in
  let top := match at_path root pth with Some n => n | None => Broken end in
  let full rel := replace pth (pjoin pth dot) (fold_left pjoin rel pth) in
  Some (sum_files root (map full (walk top [])) p).
(** 134-149: one path that is no pattern, or a result of glob *)
Definition checksum_path (root : node) (f : str) (p : proc) : option (list (str * str) * proc) :=
  match at_path root f with
  | Some DirLink => Some ([], p)
  | Some (Dir _) => checksum_dir root f p
  | _ => Some (sum_files root [f] p)
  end.
Fixpoint checksum_paths (root : node) (fs : list str) (p : proc) : option (list (str * str) * proc) :=
  match fs with
  | [] => Some ([], p)
  | f :: r =>
      match checksum_path root f p with
      | None => None
      | Some (l, p) => match checksum_paths root r p with None => None | Some (l', p) => Some (l ++ l', p) end
      end
  end.
(** 124-133: the paths of a list; None: IndexError *)
Definition star : ascii := "*"%char.
Definition wanted (pth : str) : option (list str) :=
  match split_on colon pth with
  | f :: e :: _ => if seqb e (s_ "False") then Some [] else Some (if existsb (aeqb star) f then glob f else [f])
  | _ => None
  end.
Definition nonempty (s : str) : bool := match s with [] => false | _ => true end.
Definition items (filelist : str) : list str := filter nonempty (map strip (filter nonempty (split_marks [] [] false filelist))).
(** 80-153 get_checksums *)
Definition get_checksums (root : node) (filelist : str) (p : proc) : option (list (str * str) * proc) :=
  match all_some (map wanted (items filelist)) with
  | None => None
  | Some fs => match checksum_paths root (concat fs) p with None => None | Some (l, p) => Some (by_checksum l, p) end
  end.

(** 70-78 merge_data: dest is a list of one dictionary, so that "h in dest" never holds and what is merged last stays *)
Definition merge_data (source dest : dict (nat * str)) : dict (nat * str) := fold_left (fun d e => put (fst e) (snd e) d) source dest.
(** A file that save_extras (cache.py 869-895) left: complete; empty or of another version; cut off in the middle (the process
    was killed), where the Unpickler raises UnpicklingError *)
Inductive part := Whole (d : dict (nat * str)) | NoData | CutOff.
(** cache.py 903-932 save_merge, for the order in which os.listdir gives the files.  None: the exception is not caught *)
Fixpoint save_merge (parts : list part) (d : dict (nat * str)) : option (dict (nat * str)) :=
  match parts with
  | [] => Some d
  | Whole s :: r => save_merge r (merge_data s d)
  | NoData :: r => save_merge r d
  | CutOff :: _ => None
  end.
(** 838-864 init_cache; None: no file, or it is not readable *)
Definition init_cache (main : option (dict (nat * str))) : proc := {| data := match main with Some d => d | None => [] end; extras := []; times := [] |}.
End Sums.
