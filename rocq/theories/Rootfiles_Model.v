(** Model of the files isar itself puts into a root file system
    (meta/classes-recipe/rootfs.bbclass, rootfs-add-files.bbclass,
    image-postproc-extension.bbclass and image.bbclass): the resolv.conf of the host
    during downloads, additional files, os-release and the package lists. *)
From Coq Require Import Ascii String List Bool Arith.
From Verif Require Import Str_Model.
Import ListNotations.
Open Scope list_scope.

(** ** resolv.conf while sources and debug packages are downloaded *)
Inductive entry := File (text : str) | Link (target : str).
(** etc/resolv.conf and etc/resolv.conf.isar of the root file system *)
Record resolv := mkResolv { r_conf : option entry; r_saved : option entry }.
(** The commands of do_cache_deb_src (rootfs.bbclass 468-487) and of cache_dbg_pkgs
    (490-510), that differ only in what is downloaded.  [network]: BB_NO_NETWORK is not
    set; [host]: the host's resolv.conf. *)
(** 469-472; a link that leads nowhere is moved too (-h) *)
Definition r_save (s : resolv) : resolv := match r_conf s with Some e => mkResolv None (Some e) | None => s end.
(** rootfs_install_resolvconf (321-330): the unlink of a link *)
Definition r_unlink (network : bool) (s : resolv) : resolv :=
  if network then match r_conf s with Some (Link _) => mkResolv None (r_saved s) | _ => s end else s.
(** the copy *)
Definition r_copy (network : bool) (host : str) (s : resolv) : resolv := if network then mkResolv (Some (File host)) (r_saved s) else s.
(** 477-480 / 499-502: lists and downloads; they do not change the two files *)
Definition r_download (s : resolv) : resolv := s.
(** 482 *)
Definition r_remove (s : resolv) : resolv := mkResolv None (r_saved s).
(** 483-486 *)
Definition r_restore (s : resolv) : resolv := match r_saved s with Some e => mkResolv (Some e) None | None => s end.
Definition commands (network : bool) (host : str) : list (resolv -> resolv) :=
  [r_save; r_unlink network; r_copy network host; r_download; r_download; r_download; r_remove; r_restore].
(** The task, ended after [n] commands: a command that fails ends it (set -e). *)
Definition stopped (network : bool) (host : str) (n : nat) (s : resolv) : resolv := fold_left (fun s c => c s) (firstn n (commands network host)) s.
Definition cache_deb_src (network : bool) (host : str) (s : resolv) : resolv := fold_left (fun s c => c s) (commands network host) s.

(** ** Additional files *)
(** All files of the machine, by path.  Directories and owners are left out: mkdir
    always succeeds, and no destination is a directory. *)
Definition fs := str -> option str.
Definition write (p : str) (v : option str) (f : fs) : fs := fun q => if seqb q p then v else f q.
(** rootfs-add-files.bbclass 22-41: an entry is its source and destination flag; the
    result says whether the function ended without an exception.  A source that does
    not exist is an error message and then a failing cp. *)
Fixpoint rootfs_add_files (rootfsdir : str) (l : list (str * str)) (f : fs) : fs * bool :=
  match l with
  | [] => (f, true)
  | (source, destination) :: l =>
      let target := rootfsdir ++ s_ "/" ++ destination in
      (* 30-31: rm -f {destination} *)
      let f := match f target with Some _ => write destination None f | None => f end in
      match source with
      | [] => (* 36-38: touch; return *)
          (match f target with Some _ => f | None => write target (Some []) f end, true)
      | _ => match f source with
             | None => (f, false)
             | Some v => rootfs_add_files rootfsdir l (write target (Some v) f)
             end
      end
  end.
(** rootfs-add-files.bbclass 8 and 42 put the function twice into
    ROOTFS_INSTALL_COMMAND. *)
Definition add_files_task (rootfsdir : str) (l : list (str * str)) (f : fs) : fs * bool :=
  let (f, ok) := rootfs_add_files rootfsdir l f in if ok then rootfs_add_files rootfsdir l f else (f, false).

(** ** os-release *)
(** sed -i '/^KEY.*/d' on a text: complete lines, and perhaps a last one without a
    newline. *)
Fixpoint del_lines (key : str) (l : list str) : str :=
  match l with
  | [] => []
  | [last] => if startswith key last then [] else last
  | x :: l => if startswith key x then del_lines key l else x ++ nl :: del_lines key l
  end.
Definition sed_delete (key : str) (t : str) : str := del_lines key (split_on nl t).
(** echo KEY"VALUE" | tee -a.  Values with backslashes, that echo may change, and
    quotes are written as they are. *)
Definition set_line (key value : str) (t : str) : str :=
  match value with
  | [] => t
  | _ => sed_delete key t ++ key ++ s_ """" ++ value ++ s_ """" ++ [nl]
  end.
Definition build_id : str := s_ "BUILD_ID=".
Definition variant : str := s_ "VARIANT=".
Definition variant_version : str := s_ "VARIANT_VERSION=".
(** image-postproc-extension.bbclass 4-35 with the three options of
    image_postprocess_mark (52-56) *)
Definition update_etc_os_release (id desc ver : str) (t : str) : str :=
  set_line variant_version ver (set_line variant desc (set_line build_id id t)).

(** ** The package lists of the image *)
(** os.path.basename *)
Fixpoint after_slash (p : str) (acc : str) : str :=
  match p with [] => acc | c :: p => if aeqb c "/" then after_slash p [] else after_slash p (acc ++ [c]) end.
Definition base (p : str) : str := after_slash p [].
(** os.path.splitext of a name without slashes, the extension: from the last dot on,
    unless only dots are before it *)
Fixpoint last_dot (p : str) : option str :=
  match p with
  | [] => None
  | c :: p' => match last_dot p' with Some e => Some e | None => if aeqb c "." then Some p else None end
  end.
Fixpoint drop_lead (p : str) : str := match p with c :: p' => if aeqb c "." then drop_lead p' else p | [] => [] end.
Definition extension (name : str) : str := match last_dot (drop_lead name) with Some e => e | None => [] end.
(** image.bbclass 437-445; [locals]: the local parts of the URLs in SRC_URI.
    "ext in (".list")" is a test for a substring: the parentheses make no tuple. *)
Definition apt_list_files (locals : list str) : list str :=
  filter (fun l => let e := extension (base l) in negb (seqb e []) && contains_sub e (s_ ".list")) locals.
(** image.bbclass 449-480 (do_rootfs_finalize), the part on sources.list.d: a directory as names and texts
    (files of directories below it are removed as well).  [work]: the files of
    WORKDIR; a missing one ends the task: None. *)
Fixpoint copy_lists (work : fs) (ls : list str) (dir : fs) : option fs :=
  match ls with
  | [] => Some dir
  | l :: ls => match work l with Some v => copy_lists work ls (write (base l) (Some v) dir) | None => None end
  end.
Definition finalize_lists (work : fs) (ls : list str) (dir : fs) : option fs :=
  match ls with [] => Some dir | _ => copy_lists work ls (fun _ => None) end.
