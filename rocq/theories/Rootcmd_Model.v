(** Model of commands run on a root file system (meta/classes-recipe/rootfs.bbclass): the
    command line of rootfs_cmd, the packages downloaded from isar-apt, and the initrd. *)
From Coq Require Import Ascii String List Bool Arith.
From Verif Require Import Str_Model.
Import ListNotations.
Open Scope list_scope.

(** ** rootfs_cmd (rootfs.bbclass 82-136) *)
(** bwrap_args, bwrap_binds and bwrap_rootfs *)
Record vars := mkVars { v_args : str; v_binds : str; v_root : str }.
Inductive outcome := Fatal (message : str) | Ran (words : list str).
(** 88-117: the loop over the arguments, up to "--"; what is left of them. *)
Fixpoint options (l : list str) (v : vars) : str + vars * list str :=
  match l with
  | [] => inr (v, [])
  | a :: l' =>
      if seqb a (s_ "--") then inr (v, l)
      else if seqb a (s_ "--bind") then
        match l' with
        | x :: y :: l'' => options l'' (mkVars (v_args v) (v_binds v ++ s_ " --bind " ++ x ++ s_ " " ++ y) (v_root v))
        | _ => inl (s_ "--bind requires two arguments")
        end
      else if seqb a (s_ "--chdir") then
        match l' with
        | x :: l'' => options l'' (mkVars (v_args v ++ s_ " " ++ a ++ s_ " " ++ x) (v_binds v) (v_root v))
        | _ => inl (a ++ s_ " requires an argument")
        end
      else if startswith (s_ "-") a then inl (a ++ s_ " is not a supported option!")
      else match v_root v with
           | [] => options l' (mkVars (v_args v) (v_binds v) a)
           | _ => inl (s_ "unexpected argument '" ++ a ++ s_ "'")
           end
  end.
Definition ro_dirs : list str := [s_ "bin"; s_ "etc"; s_ "lib"; s_ "lib64"; s_ "sys"; s_ "usr"; s_ "var"].
(** 82-136.  [repo]: REPO_ISAR_DIR/DISTRO; [isdir]: the test -d.  Unquoted variables are
    split at white space; patterns in them are not expanded. *)
Definition rootfs_cmd (repo : str) (isdir : str -> bool) (l : list str) : outcome :=
  match options l (mkVars (s_ "--bind " ++ repo ++ s_ " /isar-apt") [] []) with
  | inl m => Fatal m
  | inr (v, rest) =>
      let args := match v_root v with [] => v_args v | r => v_args v ++ s_ " --bind " ++ r ++ s_ " /" end in
      match rest with
      | _ :: c :: cmd =>
          let args := fold_left (fun a d => if isdir (v_root v ++ s_ "/" ++ d) then a ++ s_ " --ro-bind " ++ v_root v ++ s_ "/" ++ d ++ s_ " /" ++ d else a) ro_dirs args in
          Ran ([s_ "bwrap"; s_ "--unshare-user"; s_ "--unshare-pid"] ++ split_ws args ++
               [s_ "--dev-bind"; s_ "/dev"; s_ "/dev"; s_ "--proc"; s_ "/proc"; s_ "--tmpfs"; s_ "/tmp"] ++ split_ws (v_binds v) ++ s_ "--" :: c :: cmd)
      | _ => Fatal (s_ "no command specified (missing --)")
      end
  end.

(** ** Packages of isar-apt (369-388) *)
(** sed -n "s|^.*/\(.*\)_[^_]*_[^_]*\.deb'.*|\1|p" on one line.  [ends]: the rest of a
    line fits _[^_]*_[^_]*\.deb'.* *)
Definition ends (s : str) : bool :=
  match s with
  | c :: s => aeqb c "_" && match cut_at "_"%char s with (_, Some r) => contains_sub (s_ ".deb'") (fst (cut_at "_"%char r)) | (_, None) => false end
  | [] => false
  end.
(** The group takes as much as it can, *)
Fixpoint group (s : str) : option str :=
  match s with
  | [] => None
  | c :: s' => match group s' with Some g => Some (c :: g) | None => if ends s then Some [] else None end
  end.
(** after the .* and slash before it did. *)
Fixpoint sed_name (s : str) : option str :=
  match s with
  | [] => None
  | c :: s' => match sed_name s' with Some g => Some g | None => if aeqb c "/" then group s' else None end
  end.
(** The arguments of apt-get download *)
Definition isar_names (lines : list str) : list str := flat_map (fun l => match sed_name l with Some n => [n] | None => [] end) lines.

(** ** The generator (16-20) *)
(** [use]: ROOTFS_USE_DRACUT is true *)
Definition uses_dracut (packages : str) (use : bool) : bool := contains_sub (s_ "dracut") packages || use.

(** ** The initrd (653-669) and the kernel that is deployed with it *)
(** basename $kernel | cut -d'-' -f2- *)
Definition kernel_version (k : str) : str := match cut_at "-"%char k with (_, Some v) => v | (a, None) => a end.
Definition initrd_name (v : str) : str := s_ "initrd.img-" ++ v.
Section Initrd.
(** What the generator makes for a kernel version. *)
Variable gen : str -> str.
(** The order find visits /boot in. *)
Variable order : list (str * str) -> list (str * str).
(** The files of /boot: names and contents. *)
Fixpoint put (n c : str) (boot : list (str * str)) : list (str * str) :=
  match boot with [] => [(n, c)] | (m, x) :: boot => if seqb m n then (n, c) :: boot else (m, x) :: put n c boot end.
(** find -name "initrd.img-$kernel_version*" -exec install {} /isar-work/initrd.img:
    versions have no characters that are special in patterns. *)
Definition found (v : str) (boot : list (str * str)) : list str := map snd (filter (fun e => startswith (initrd_name v) (fst e)) (order boot)).
(** One kernel: /boot and the initrd.img of the work directory after it. *)
Definition one_kernel (st : list (str * str) * option str) (k : str) : list (str * str) * option str :=
  let v := kernel_version k in
  let boot := put (initrd_name v) (gen v) (fst st) in
  (boot, fold_left (fun _ c => Some c) (found v boot) (snd st)).
(** [kernels]: the names vmlinu[xz]-* of /boot, in the order of the shell.  None: there is
    no kernel and no initrd is deployed.  [old]: initrd.img left in the work directory. *)
Definition generate_initramfs (kernels : list str) (boot : list (str * str)) (old : option str) : option str :=
  match kernels with [] => None | _ => snd (fold_left one_kernel kernels (boot, old)) end.
End Initrd.
(** image.bbclass 388-395: the kernel that is deployed.  [links]: what vmlinuz or vmlinux
    in / leads to, and in /boot: None if there is none or both, when realpath prints
    two lines and no file has that name. *)
Definition kernel_deployed (root boot : option str) : option str := match root with Some k => Some k | None => boot end.
