(** Model of how isar prepares the sources of Debian packages: configuration fragments of
    kernels (meta/classes-recipe/linux-kernel.bbclass), the architecture packages are
    built on (crossvars.bbclass), the directory of the sources (dpkg-base.bbclass), and the
    debian directory (debianize.bbclass). *)
From Coq Require Import Ascii String List Bool Arith.
From Verif Require Import Str_Model Posix_Model Rootfiles_Model Changelog_Model.
Import ListNotations.
Open Scope list_scope.

(** ** Kernel configuration (linux-kernel.bbclass) *)
(** A source of SRC_URI: its local part and the parameter apply (decodeurl) *)
Definition source := (str * option str)%type.
(** 216-227: "ext in (".cfg")" is a test for a substring: the parentheses make no tuple *)
Definition config_fragments (listed : list str) (sources : list source) : list str :=
  listed ++ map fst (filter (fun s =>
    negb (match snd s with Some a => seqb a (s_ "no") | None => false end) &&
    (let e := extension (base (fst s)) in negb (seqb e []) && contains_sub e (s_ ".cfg"))) sources).
(** 289-297: [S] is the variable S *)
Definition get_kernel_config_fragments (S : str) (frags : list str) : str :=
  strip (flat_map (fun f => s_ " " ++ if startswith (S ++ s_ "/") f then skipn (length S + 1) f else s_ "debian/fragments/" ++ f) frags).
(** 314-323 after the cleandirs of 335: the files of S, by their path below S, and of
    WORKDIR.  Two paths of one file are the same text.  [S] has no characters that are special
    in patterns.  A file that is missing ends the task: None. *)
Definition cleaned (src : fs) : fs := fun p => if startswith (s_ "debian/fragments/") p then None else src p.
Fixpoint copy_fragments (S : str) (frags : list str) (work src : fs) : option fs :=
  match frags with
  | [] => Some src
  | f :: frags =>
      if startswith S f then copy_fragments S frags work src
      else match work f with
           | Some v => copy_fragments S frags work (write (s_ "debian/fragments/" ++ f) (Some v) src)
           | None => None
           end
  end.
Definition configure_kernel (S : str) (frags : list str) (work src : fs) : option fs := copy_fragments S frags work (cleaned src).
(** 270-284 and 308-312: what make is called with, and whether the file is copied to .config;
    [there]: WORKDIR/KERNEL_DEFCONFIG is a file (a directory makes cp fail) *)
Definition get_kernel_config_target (defconfig : str) (there : bool) : str :=
  match defconfig with
  | [] => s_ "defconfig"
  | _ => if there then s_ "olddefconfig" else s_ "defconfig KBUILD_DEFCONFIG=" ++ defconfig
  end.
Definition config_copied (defconfig : str) (there : bool) : bool := match defconfig with [] => false | _ => there end.

(** ** The architecture packages are built on (crossvars.bbclass 11-43) *)
Record vars := mkVars { distro_arch : str; compat_arch : option str; host_arch : str; package_arch : str; cross : bool; flavor : str; can_compat : bool;
  host_dir : str; target_dir : str }.
Record built := mkBuilt { build_arch : str; schroot_dir : str; schroot_dep : str; toolchain : str }.
Definition in_list (x : str) (l : list (option str)) : bool := existsb (fun y => match y with Some y => seqb x y | None => false end) l.
(** [package_arch] is the expanded value; the text ${BUILD_ARCH} is left when BUILD_ARCH is
    not set yet *)
Definition crossvars (v : vars) : built :=
  let suffix := match flavor v with [] => [] | f => s_ "-" ++ f end in
  let host := negb (seqb (distro_arch v) (host_arch v)) &&
    (seqb (package_arch v) (host_arch v) || (in_list (package_arch v) [Some (distro_arch v); compat_arch v; Some (s_ "${BUILD_ARCH}")] && cross v)) in
  let tools := if host then s_ "crossbuild-essential-" ++ distro_arch v else s_ "build-essential" in
  mkBuilt (if host then host_arch v else distro_arch v)
    ((if host then host_dir v else target_dir v) ++ suffix)
    ((if host then s_ "sbuild-chroot-host" else s_ "sbuild-chroot-target") ++ suffix ++ s_ ":do_build")
    (tools ++ if can_compat v then s_ " crossbuild-essential-" ++ match compat_arch v with Some a => a | None => [] end else []).

(** ** The directory of the sources (dpkg-base.bbclass 104-113) *)
(** os.path.abspath of absolute paths; os.path.commonpath of two normalized absolute paths:
    their components (one or two slashes at the start do not matter) *)
Fixpoint common (a b : list str) : list str :=
  match a, b with x :: a, y :: b => if seqb x y then x :: common a b else [] | _, _ => [] end.
Definition components (p : str) : list str := filter (fun c => negb (seqb c [])) (split_on slash p).
Definition commonpath (a b : str) : str := slash :: join [slash] (common (components a) (components b)).
(** the warnings are left out *)
Definition get_package_srcdir (s workdir : str) : str :=
  let s := normpath s in let workdir := normpath workdir in
  if seqb (commonpath s workdir) workdir then skipn (length workdir + 1) s else s.

(** ** debian/control (debianize.bbclass 95-129) *)
(** The values as bitbake puts them in; characters the shell would expand in the here
    document ($, ` and \) are left out. *)
Record control := mkControl { c_bpn : str; c_section : str; c_standards : str; c_maintainer : str; c_build_depends : str; c_root : str; c_arch : str;
  c_depends : str; c_provides : str; c_replaces : str; c_breaks : str; c_built_using : str; c_conflicts : str; c_multi : str; c_description : str }.
Definition put_line (l : str) : str := l ++ [nl].
Definition deb_create_control (c : control) : str :=
  put_line (s_ "Source: " ++ c_bpn c) ++
  put_line (s_ "Section: " ++ beautify (c_section c)) ++
  put_line (s_ "Priority: optional") ++
  put_line (s_ "Standards-Version: " ++ c_standards c) ++
  put_line (s_ "Maintainer: " ++ c_maintainer c) ++
  put_line (s_ "Build-Depends: " ++ beautify (c_build_depends c)) ++
  (match c_root c with [] => [] | r => put_line (s_ "Rules-Requires-Root: " ++ r) end) ++
  put_line [] ++
  put_line (s_ "Package: " ++ c_bpn c) ++
  put_line (s_ "Architecture: " ++ c_arch c) ++
  put_line (s_ "Depends: " ++ beautify (c_depends c)) ++
  put_line (s_ "Provides: " ++ beautify (c_provides c)) ++
  put_line (s_ "Replaces: " ++ beautify (c_replaces c)) ++
  put_line (s_ "Breaks: " ++ beautify (c_breaks c)) ++
  put_line (s_ "Built-Using: " ++ beautify (c_built_using c)) ++
  put_line (s_ "Conflicts: " ++ beautify (c_conflicts c)) ++
  put_line (s_ "Multi-Arch: " ++ c_multi c) ++
  put_line (s_ "Description: " ++ c_description c).

(** ** deb_debianize (debianize.bbclass 152-215) *)
(** The files of S/debian: content and whether they can be executed.  The changelog
    (deb_add_changelog, see Changelog_Model) is left out. *)
Definition dir := str -> option (str * bool).
Definition place_file (n : str) (e : str * bool) (d : dir) : dir := fun m => if seqb m n then Some e else d m.
(** install -m *)
Definition install (n from : str) (exec : bool) (w : fs) (d : dir) : dir := match w from with Some c => place_file n (c, exec) d | None => d end.
(** cat > keeps the mode of a file that is there *)
Definition mode_of (n : str) (d : dir) : bool := match d n with Some (_, x) => x | None => false end.
Definition hooks : list str := [s_ "preinst"; s_ "prerm"; s_ "postinst"; s_ "postrm"].
Definition handled : list str :=
  [s_ ".triggers"] ++
  [s_ ".mount"; s_ ".path"; s_ ".service"; s_ ".socket"; s_ ".target"; s_ ".timer"; s_ "@.path"; s_ "@.service"; s_ "@.socket"; s_ "@.target"; s_ "@.timer"] ++
  [s_ ".user.path"; s_ ".user.service"; s_ ".user.socket"; s_ ".user.target"; s_ ".user.timer"; s_ "@.user.path"; s_ "@.user.service"; s_ "@.user.socket"; s_ "@.user.target"; s_ "@.user.timer"] ++
  [s_ ".tmpfiles"].
(** [generated]: what deb_create_control and deb_create_rules (139-150) write *)
Definition deb_debianize (pn generated_control generated_rules : str) (w : fs) (d : dir) : dir :=
  let d := match w (s_ "control") with Some c => place_file (s_ "control") (c, false) d | None => place_file (s_ "control") (generated_control, mode_of (s_ "control") d) d end in
  let d := match w (s_ "rules") with Some c => place_file (s_ "rules") (c, true) d | None => place_file (s_ "rules") (generated_rules, true) d end in
  let d := match d (s_ "copyright") with Some _ => d | None => install (s_ "copyright") (s_ "default-copyright") false w d end in
  let d := fold_left (fun d h => install h h true w d) hooks d in
  fold_left (fun d f => install (pn ++ f) (pn ++ f) false w d) handled d.
