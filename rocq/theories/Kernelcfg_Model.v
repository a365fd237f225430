(** Configuration fragments and build profiles of kernel recipes: meta/classes-recipe/linux-kernel.bbclass 165-167, 216-240, 286-325;
    where a plain file of SRC_URI is unpacked: bitbake/lib/bb/fetch2/__init__.py 1582-1609.  Definitions only. *)
From Coq Require Import String Ascii List Bool.
From Verif Require Import Str_Model Words_Model Posix_Model.
From Verif Require Patch_Model Vercmp_Model.
Import ListNotations.
Open Scope list_scope.

(** An address of SRC_URI as decodeurl gives it: its type, its path and its parameter apply *)
Record source := { u_type : str; u_local : str; u_apply : option str }.
(** 221-227: whether a source is taken.  "ext and ext in (".cfg")": the parentheses do not make a tuple, so ext is looked for in a text *)
Definition is_fragment (u : source) : bool :=
  match u_apply u with
  | Some a => negb (seqb a (s_ "no"))
  | None => true
  end &&
  (let ext := snd (Patch_Model.splitext (Patch_Model.basename (u_local u))) in
   negb (seqb ext []) && contains_sub ext (s_ ".cfg")).
(** 216-227; [frags]: KERNEL_CONFIG_FRAGMENTS *)
Definition config_fragments (frags : str) (sources : list source) : list str :=
  split_ws frags ++ map u_local (filter is_fragment sources).
(** 286-295: where the build looks for a fragment, below ${S}; [sdir]: S *)
Definition fragment_name (sdir frag : str) : str :=
  if startswith (sdir ++ s_ "/") frag then skipn (length (sdir ++ s_ "/")) frag else s_ "debian/fragments/" ++ frag.
Definition kernel_config_fragments (sdir : str) (l : list str) : str :=
  strip (concat (map (fun frag => s_ " " ++ fragment_name sdir frag) l)).
(** dirname of a path.  Simplification: one slash between the parts and none at the end *)
Definition sh_dirname (p : str) : str :=
  match Vercmp_Model.rcut_at "/"%char p with (_, None) => s_ "." | ([], Some _) => s_ "/" | (d, Some _) => d end.
(** 314-324: what is copied where; "${frag#${S}}" = "$frag": the fragment does not start with ${S}.  Simplification: ${S} has no
    characters of patterns *)
Definition copied (sdir workdir frag : str) : option (str * str) :=
  if startswith sdir frag then None
  else Some (workdir ++ s_ "/" ++ frag, sdir ++ s_ "/debian/fragments/" ++ sh_dirname frag ++ s_ "/" ++ Patch_Model.basename frag).
Definition copies (sdir workdir : str) (l : list str) : list (str * str) :=
  flat_map (fun frag => match copied sdir workdir frag with Some c => [c] | None => [] end) (split_ws (join (s_ " ") l)).
(** fetch2/__init__.py 1595-1609: where a plain file is put, without the parameter subdir *)
Definition unpacked (workdir : str) (u : source) : str :=
  if seqb (u_type u) (s_ "file") then
    workdir ++ s_ "/" ++ drop_slashes (rstrip_slashes (u_local u))
  else workdir ++ s_ "/" ++ Patch_Model.basename (u_local u).

(** 229-235 get_additional_build_profiles; None: ValueError *)
Definition additional_profiles (base_distro bpn : str) (deploy arch_all : option str) : option str :=
  match to_boolean deploy None with
  | None => None
  | Some (Some true) =>
      match to_boolean arch_all None with
      | None => None
      | Some (Some true) => Some (base_distro ++ s_ " pkg." ++ bpn ++ s_ ".libcdev-arch-all")
      | Some _ => Some base_distro
      end
  | Some _ => Some (base_distro ++ s_ " pkg." ++ bpn ++ s_ ".nolibcdev")
  end.
(** 238: DEB_BUILD_PROFILES; [user]: what it was *)
Definition build_profiles (user base_distro bpn : str) (deploy arch_all : option str) : option str :=
  match additional_profiles base_distro bpn deploy arch_all with Some p => Some (user ++ s_ " " ++ p) | None => None end.
(** 167: whether the recipe provides linux-libc-dev: the override libcdev *)
Definition provides_libcdev (profiles bpn : str) : bool :=
  contains (Some profiles) (s_ "pkg." ++ bpn ++ s_ ".nolibcdev") false true.
(** 237: the field Architecture of linux-libc-dev; true: all *)
Definition libcdev_all (profiles bpn : str) : bool :=
  contains (Some profiles) (s_ "pkg." ++ bpn ++ s_ ".libcdev-arch-all") true false.
