(** Model of bb.utils.movefile, copyfile and break_hardlinks (bitbake/lib/bb/utils.py
    769-860, 862-938, 940-955) and bb.utils.rename (1773-1781) on a file system with hard
    links, where every operation may fail and the machine may stop between any two. *)
From Coq Require Import Ascii String List Bool Arith.
From Verif Require Import Str_Model.
Import ListNotations.
Open Scope list_scope.

(** Owner, permissions and time of change of a file *)
Record meta := mkMeta { m_owner : nat; m_mode : nat; m_time : nat }.
Inductive node := File (c : str) (m : meta) | Link (target : str) | Dir | Special.
(** Names are absolute paths; a name stands for a node, a node may have several names *)
Record fs := mkFs { names : str -> option nat; nodes : nat -> node; fresh : nat }.
Definition look (s : fs) (p : str) : option node := option_map (nodes s) (names s p).
Definition set_name (s : fs) (p : str) (i : option nat) : fs := mkFs (fun q => if seqb q p then i else names s q) (nodes s) (fresh s).
Definition set_node (s : fs) (i : nat) (n : node) : fs := mkFs (names s) (fun j => if Nat.eqb j i then n else nodes s j) (fresh s).

(** The file system, the states it was in, and which of the next operations fail *)
Record world := mkWorld { w_fs : fs; w_seen : list fs; w_faults : list bool }.
Definition act (f : fs -> option fs) (w : world) : bool * world :=
  let rest := tl (w_faults w) in
  if hd false (w_faults w) then (false, mkWorld (w_fs w) (w_seen w) rest)
  else match f (w_fs w) with
       | Some s => (true, mkWorld s (w_seen w ++ [s]) rest)
       | None => (false, mkWorld (w_fs w) (w_seen w) rest)
       end.

(** ** System calls; None: refused *)
Definition unlink (p : str) (s : fs) : option fs :=
  match look s p with None | Some Dir => None | Some _ => Some (set_name s p None) end.
Definition symlink (target p : str) (s : fs) : option fs :=
  match names s p with
  | Some _ => None
  | None => Some (mkFs (fun q => if seqb q p then Some (fresh s) else names s q) (fun j => if Nat.eqb j (fresh s) then Link target else nodes s j) (S (fresh s)))
  end.
(** os.rename of what is not a directory; two names of one node stay as they are *)
Definition os_rename (a b : str) (s : fs) : option fs :=
  match names s a, look s b with
  | None, _ => None
  | Some _, Some Dir => None
  | Some i, _ => match names s b with
                 | Some j => if Nat.eqb i j then Some s else Some (set_name (set_name s a None) b (Some i))
                 | None => Some (set_name (set_name s a None) b (Some i))
                 end
  end.
(** open(p, 'wb'): the process's owner and permissions for a new file.  Links are not
    followed (simplified: refused) *)
Section Process.
Variable me : nat.
Variable umask_mode now : nat.
Definition create (p : str) (s : fs) : option fs :=
  match names s p with
  | None => Some (mkFs (fun q => if seqb q p then Some (fresh s) else names s q) (fun j => if Nat.eqb j (fresh s) then File [] (mkMeta me umask_mode now) else nodes s j) (S (fresh s)))
  | Some i => match nodes s i with File _ m => Some (set_node s i (File [] (mkMeta (m_owner m) (m_mode m) now))) | _ => None end
  end.
(** one write of one byte: what a larger write leaves when it is interrupted is among these *)
Definition append (p : str) (c : ascii) (s : fs) : option fs :=
  match names s p with
  | Some i => match nodes s i with File d m => Some (set_node s i (File (d ++ [c]) m)) | _ => None end
  | None => None
  end.
Definition change (p : str) (f : meta -> meta) (s : fs) : option fs :=
  match names s p with
  | Some i => match nodes s i with File d m => Some (set_node s i (File d (f m))) | _ => None end
  | None => None
  end.
Fixpoint write (p : str) (data : str) (w : world) : bool * world :=
  match data with
  | [] => (true, w)
  | c :: data => match act (append p c) w with (true, w) => write p data w | (false, w) => (false, w) end
  end.
(** shutil.copyfile; the same file and what is not a file are refused *)
Definition shutil_copyfile (a b : str) (w : world) : bool * world :=
  match look (w_fs w) a with
  | Some (File c _) =>
      if (match names (w_fs w) a, names (w_fs w) b with Some i, Some j => Nat.eqb i j | _, _ => false end) then (false, w)
      else match act (create b) w with (true, w) => write b c w | (false, w) => (false, w) end
  | _ => (false, w)
  end.
Definition chown (p : str) (o : nat) := act (change p (fun m => mkMeta o (m_mode m) (m_time m))).
Definition chmod (p : str) (o : nat) := act (change p (fun m => mkMeta (m_owner m) o (m_time m))).
Definition utime (p : str) (t : nat) := act (change p (fun m => mkMeta (m_owner m) (m_mode m) t)).
Notation "'do_' a 'then' b 'or' c" := (fun w => match a w with (true, w) => b w | (false, w) => c w end) (at level 200, a at level 100, b at level 100).

(** Whether os.rename between the directories fails with EXDEV *)
Variable exdev : bool.
(** 1773-1781, with shutil.move for a file: shutil.copy2 (contents, permissions and times)
    and os.unlink *)
Definition bb_rename (a b : str) (w : world) : bool * world :=
  if exdev then
    match look (w_fs w) a with
    | Some (File c m) =>
        (do_ shutil_copyfile a b then (do_ utime b (m_time m) then (do_ chmod b (m_mode m) then act (unlink a) or pair false) or pair false) or pair false) w
    | _ => (false, w)
    end
  else act (os_rename a b) w.

(** What the functions return: None or False, a time, a stat result; Raised: an exception *)
Inductive result := No | Time (t : nat) | Stat | Raised.
Definition truthy (r : result) : bool := match r with Time (S _) | Stat => true | _ => false end.
(** Devices (os.lstat): of src, and of dest, or of its directory if there is no dest *)
Variable same_device : bool.
Definition isdir (s : fs) (p : str) : bool := match look s p with Some Dir => true | _ => false end.
Definition basename_of (p : str) : str := last (split_on "/"%char p) [].
Definition new_of (p : str) : str := p ++ s_ "#new".
(** 859-865; newmtime 0 stands for None as well *)
Definition finish (p : str) (newmtime : nat) (m : meta) (w : world) : result * world :=
  let t := match newmtime with 0 => m_time m | _ => newmtime end in
  match utime p t w with (true, w) => (Time t, w) | (false, w) => (Raised, w) end.
(** 785-797: a link at dest is removed, unless that fails *)
Definition clear_dest (dest : str) (w : world) : world :=
  match look (w_fs w) dest with Some (Link _) => snd (act (unlink dest) w) | _ => w end.
(** 799-810 (movefile) and 889-899 (copyfile; os.lchown of the link is left out) *)
Definition move_link (src dest : str) (remove_src : bool) (w : world) : result * world :=
  match look (w_fs w) src with
  | Some (Link target) =>
      let '(ok, w) := match look (w_fs w) dest with
                      | Some Dir | None => (true, w)
                      | Some _ => act (unlink dest) w
                      end in
      if ok then
        match act (symlink target dest) w with
        | (true, w) => if remove_src then match act (unlink src) w with (true, w) => (match look (w_fs w) dest with Some _ => Stat | None => No end, w) | (false, w) => (No, w) end else (Stat, w)
        | (false, w) => (No, w)
        end
      else (No, w)
  | _ => (No, w) (* os.readlink fails *)
  end.
(** 769-865.  A directory or a special file that has to go to another device is left to
    /bin/mv, which is not modelled.  dest#new is in the directory of dest: no EXDEV there. *)
Definition movefile (src dest : str) (newmtime : nat) (w : world) : result * world :=
  match look (w_fs w) src with
  | None => (No, w)
  | Some n =>
      let w := clear_dest dest w in
      match n with
      | Link _ => move_link src dest true w
      | File c m =>
          let destpath := if isdir (w_fs w) dest then dest ++ s_ "/" ++ basename_of src else dest in
          if same_device then
            match bb_rename src destpath w with (true, w) => finish destpath newmtime m w | (false, w) => (No, w) end
          else
            match (do_ shutil_copyfile src (new_of destpath) then (do_ act (os_rename (new_of destpath) destpath) then
                     (do_ chown destpath (m_owner m) then (do_ chmod destpath (m_mode m) then act (unlink src) or pair false) or pair false) or pair false) or pair false) w with
            | (true, w) => finish destpath newmtime m w
            | (false, w) => (No, w)
            end
      | _ => if same_device then match act (os_rename src (if isdir (w_fs w) dest then dest ++ s_ "/" ++ basename_of src else dest)) w with (true, w) => (Stat, w) | (false, w) => (No, w) end else (No, w)
      end
  end.
(** 862-938; bb.utils.rename of dest#new stays in one directory.  [readable]: os.access. *)
Variable readable : bool.
Definition copyfile (src dest : str) (newmtime : nat) (w : world) : result * world :=
  match look (w_fs w) src with
  | None => (No, w)
  | Some n =>
      let w := clear_dest dest w in
      match n with
      | Link _ => move_link src dest false w
      | File c m =>
          let '(ok, w) := if readable then (true, w) else chmod src (Nat.lor (m_mode m) 256) w in
          let '(ok, w) := if ok then match shutil_copyfile src (new_of dest) w with (true, w) => act (os_rename (new_of dest) dest) w | (false, w) => (false, w) end else (false, w) in
          let '(restored, w) := if readable then (true, w) else match chmod src (m_mode m) w with (true, w) => utime src (m_time m) w | (false, w) => (false, w) end in
          if negb restored then (Raised, w)
          else if ok then
            match chown dest (m_owner m) w with
            | (true, w) => match chmod dest (m_mode m) w with (true, w) => finish dest newmtime m w | (false, w) => (No, w) end
            | (false, w) => (No, w)
            end
          else (No, w)
      | _ => (No, w) (* /bin/cp is not modelled *)
      end
  end.
(** 940-955; [links]: st_nlink *)
Definition break_hardlinks (src : str) (links : nat) (w : world) : bool * world :=
  match look (w_fs w) src with
  | None => (false, w)
  | Some _ => if Nat.eqb links 1 then (true, w) else let '(r, w) := copyfile src src 0 w in (truthy r, w)
  end.
End Process.
Definition start (s : fs) (faults : list bool) : world := mkWorld s [s] faults.
