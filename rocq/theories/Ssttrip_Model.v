(** Model of what shared state archives hold and restore: directories (sstate.bbclass),
    Debian packages (dpkg-base.bbclass), root file systems (rootfs.bbclass) and the
    bootstrap (isar-mmdebstrap.inc). *)
From Coq Require Import Ascii String List Bool Arith.
From Verif Require Import Str_Model.
Import ListNotations.
Open Scope list_scope.

(** ** Directories *)
(** Paths are normalized (sstate_add, sstate.bbclass 207-216): lists of components. *)
Definition path := list str.
Inductive node := NFile (content : str) | NLink (target : str) | NDir.
(** A file system: its entries. *)
Definition tree := list (path * node).
(** The rest of a path below a directory. *)
Fixpoint strip (p q : path) : option path :=
  match p, q with
  | [], _ => Some q
  | x :: p, y :: q => if seqb x y then strip p q else None
  | _ :: _, [] => None
  end.
(** The entries below a path, and itself as the empty path. *)
Definition sub (p : path) (t : tree) : tree := flat_map (fun e => match strip p (fst e) with Some r => [(r, snd e)] | None => [] end) t.
Definition has (p : path) (t : tree) : bool := existsb (fun e => match fst e with [] => true | _ => false end) (sub p t).
(** oe.path.remove and bb.utils.remove with recurse *)
Definition remove (p : path) (t : tree) : tree := filter (fun e => match strip p (fst e) with Some _ => false | None => true end) t.
(** os.rename: a directory that is there and not empty, or a file, is an error: None *)
Definition rename (a b : path) (t : tree) : option tree :=
  if has a t then
    match sub b t with
    | [] | [([], NDir)] => Some (map (fun e => match strip a (fst e) with Some r => (b ++ r, snd e) | None => e end) (remove b t))
    | _ => None
    end
  else None.
(** A directory of the task: its name in the archive and its path. *)
Definition state := (str * path)%type.
(** sstate_package (654-743), the directories (674-693).  Times and the errors on absolute
    links, that do not end the task, are left out. *)
Fixpoint pack (build : path) (dirs : list state) (t : tree) : option tree :=
  match dirs with
  | [] => Some t
  | (base, src) :: dirs =>
      if has src t then match rename src (build ++ [base]) t with Some t => pack build dirs t | None => None end
      else pack build dirs t
  end.
Definition hidden (n : str) : bool := startswith (s_ ".") n.
(** ls -A, and what the pattern * stands for, with all below it *)
Definition inside (build : path) (t : tree) : tree := filter (fun e => match fst e with [] => false | _ => true end) (sub build t).
Definition expanded (l : tree) : tree := filter (fun e => match fst e with n :: _ => negb (hidden n) | [] => false end) l.
(** sstate_create_package (833-874): tar of *; with hidden names only, the pattern is a
    file that does not exist. *)
Definition archive (build : path) (t : tree) : option tree :=
  match inside build t, expanded (inside build t) with _ :: _, [] => None | _, a => Some a end.
Definition sstate_package (build : path) (dirs : list state) (t : tree) : option (tree * tree) :=
  match pack build dirs (remove build t ++ [(build, NDir)]) with
  | Some t => match archive build t with Some a => Some (a, t) | None => None end
  | None => None
  end.
(** sstate_installpkgdir (397-418), the directories: prepdir and rename.  Directories
    above are assumed to be there. *)
Fixpoint installpkgdir (inst : path) (dirs : list state) (t : tree) : option tree :=
  match dirs with
  | [] => Some t
  | (base, src) :: dirs => match rename (inst ++ [base]) src (remove src t) with Some t => installpkgdir inst dirs t | None => None end
  end.
(** sstate_installpkg (355-395): the archive is unpacked into an empty directory. *)
Definition installpkg (inst : path) (a : tree) (dirs : list state) (t : tree) : option tree :=
  installpkgdir inst dirs (remove inst t ++ (inst, NDir) :: map (fun e => (inst ++ fst e, snd e)) a).
(** sstate_task_postfunc (807-825): the task's own directories are moved away, packed and
    moved back.  The copy to the destinations is in Sstman_Model. *)
Definition postfunc (build : path) (dirs : list state) (t : tree) : option tree :=
  match sstate_package build dirs t with
  | Some (_, t) => match installpkgdir build dirs t with Some t => Some (remove build t) | None => None end
  | None => None
  end.

(** ** Files by name *)
Definition files := list (str * str).
Fixpoint get (n : str) (f : files) : option str := match f with [] => None | (m, c) :: f => if seqb m n then Some c else get n f end.
Fixpoint put (n c : str) (f : files) : files := match f with [] => [(n, c)] | (m, x) :: f => if seqb m n then (n, c) :: f else (m, x) :: put n c f end.
(** [a] unpacked, moved or built over [f] *)
Definition over (a f : files) : files := fold_left (fun f e => put (fst e) (snd e) f) a f.

(** ** Debian packages of a work directory (dpkg-base.bbclass 182-199) *)
Definition key := nat.
Section Debs.
(** What do_dpkg_build makes of the input with a given hash. *)
Variable out : key -> files.
(** The packages in the work directory and the archives. *)
Record world := mkWorld { w_debs : files; w_cache : list (key * files) }.
Fixpoint archived (k : key) (c : list (key * files)) : option files := match c with [] => None | (j, a) :: c => if Nat.eqb j k then Some a else archived k c end.
Inductive event := Build (k : key) | Restore (k : key) | Wipe.
(** do_dpkg_build: sbuild puts the packages into the work directory (dpkg.bbclass 127);
    dpkg_build_sstate_prepare copies all *.deb there into the archive, unless there is one
    already.  do_dpkg_build_setscene: all packages of the archive are moved into the
    work directory.  do_clean removes the directory. *)
Definition happen (w : world) (e : event) : world :=
  match e with
  | Build k =>
      let d := over (out k) (w_debs w) in
      mkWorld d (match archived k (w_cache w) with Some _ => w_cache w | None => (k, d) :: w_cache w end)
  | Restore k => match archived k (w_cache w) with Some a => mkWorld (over a (w_debs w)) (w_cache w) | None => w end
  | Wipe => mkWorld [] (w_cache w)
  end.
Definition history (es : list event) : world := fold_left happen es (mkWorld [] []).
End Debs.

(** ** The root file system of an image (rootfs.bbclass 628-720, image.bbclass 384-413) *)
Inductive task := Install | Boot | Initrd.
Definition task_eqb (a b : task) : bool := match a, b with Install, Install | Boot, Boot | Initrd, Initrd => true | _, _ => false end.
Section Image.
(** The root file system do_rootfs_install makes, and what do_rootfs_postprocess makes of
    one; paths are names here. *)
Variable inst : key -> files.
Variable post : key -> files -> files.
Record image := mkImage { i_root : files; i_cache : list (key * task * files) }.
Fixpoint stored (k : key) (t : task) (c : list (key * task * files)) : option files :=
  match c with [] => None | (j, u, a) :: c => if Nat.eqb j k && task_eqb u t then Some a else stored k t c end.
(** rootfs_install_sstate_prepare (690-703), which is run for every task of SSTATETASKS:
    the packages of apt are left out. *)
Definition packed (f : files) : files := filter (fun e => negb (startswith (s_ "var/cache/apt/archives") (fst e))) f.
Definition store (k : key) (t : task) (i : image) : image :=
  mkImage (i_root i) (match stored k t (i_cache i) with Some _ => i_cache i | None => (k, t, packed (i_root i)) :: i_cache i end).
Inductive step := Run (k : key) (t : task) | Post (k : key) | Set_scene (k : key) (t : task) | Remove_work.
(** do_rootfs_install begins with an empty directory (root_cleandirs); the restored archive
    of any of the tasks is unpacked over what is there
    (rootfs_install_sstate_finalize, 706-715). *)
Definition go (i : image) (s : step) : image :=
  match s with
  | Run k Install => store k Install (mkImage (inst k) (i_cache i))
  | Run k t => store k t i
  | Post k => mkImage (post k (i_root i)) (i_cache i)
  | Set_scene k t => match stored k t (i_cache i) with Some a => mkImage (over a (i_root i)) (i_cache i) | None => i end
  | Remove_work => mkImage [] (i_cache i)
  end.
Definition steps (l : list step) : image := fold_left go l (mkImage [] []).
End Image.

(** ** The bootstrap (isar-mmdebstrap.inc 253-283) *)
Section Bootstrap.
Variable boot : key -> str.
(** rootfs.tar.zst of the work directory and the archives *)
Record strap := mkStrap { s_tar : option str; s_cache : list (key * str) }.
Fixpoint kept (k : key) (c : list (key * str)) : option str := match c with [] => None | (j, a) :: c => if Nat.eqb j k then Some a else kept k c end.
Definition strap_step (s : strap) (e : event) : strap :=
  match e with
  | Build k => mkStrap (Some (boot k)) (match kept k (s_cache s) with Some _ => s_cache s | None => (k, boot k) :: s_cache s end)
  | Restore k => match kept k (s_cache s) with Some a => mkStrap (Some a) (s_cache s) | None => s end
  | Wipe => mkStrap None (s_cache s)
  end.
Definition straps (es : list event) : strap := fold_left strap_step es (mkStrap None []).
End Bootstrap.
