(** The adjustment of git repositories for the build chroot: meta/classes-recipe/dpkg-base.bbclass 21-73; where repositories are
    unpacked: bitbake/lib/bb/fetch2/git.py 609-633.  Definitions only. *)
From Coq Require Import Ascii String List Bool Arith.
From Verif Require Import Str_Model Posix_Model Path_Model.
Import ListNotations.
Open Scope list_scope.

(** A source of SRC_URI: whether it is a git repository, and its parameters (None: not given) *)
Record source := mkSource { s_git : bool; s_subdir : option str; s_subpath : option str; s_destsuffix : option str }.
Definition given (o : option str) : str := match o with Some s => s | None => [] end.
Definition default_suffix (subpath : option str) : str :=
  match given subpath with [] => s_ "git/" | p => basename (rstrip_slashes p) ++ s_ "/" end.
(** git.py 612-633.  Simplification: an absolute subdir is inside (621-623) *)
Definition unpack_dest (rootdir : str) (s : source) : str :=
  match given (s_subdir s) with
  | [] => pjoin rootdir (match s_destsuffix s with Some x => x | None => default_suffix (s_subpath s) end)
  | sub => pjoin (pjoin rootdir sub) (given (s_destsuffix s))
  end.
(** dpkg-base.bbclass 52-59 *)
Definition adjust_dest (rootdir : str) (s : source) : str :=
  pjoin rootdir (match s_destsuffix s with Some x => x | None => default_suffix (s_subpath s) end).

(** ** sed -e 's|A|B|' (external to /repo) *)
(** What is left after a match at the beginning; only the point of the special characters is modelled *)
Fixpoint like_prefix (pat s : str) : option str :=
  match pat, s with
  | [], _ => Some s
  | p :: pat, c :: s => if aeqb p "."%char || aeqb p c then like_prefix pat s else None
  | _ :: _, [] => None
  end.
Definition filled (rep matched : str) : str := concat (map (fun c => if aeqb c "&"%char then matched else [c]) rep).
(** The first match on the line is replaced *)
Fixpoint sed_line (pat rep s : str) : str :=
  match like_prefix pat s with
  | Some rest => filled rep (firstn (length pat) s) ++ rest
  | None => match s with [] => [] | c :: s => c :: sed_line pat rep s end
  end.
Definition special (l s : str) : bool := existsb (fun c => existsb (aeqb c) l) s.
(** [None]: an error of sed, or not modelled *)
Definition sed (pat rep : str) (lines : list str) : option (list str) :=
  if special (list_ascii_of_string "|[*\") pat || special (list_ascii_of_string "|\") rep then None
  else Some (map (sed_line pat rep) lines).

(** ** do_adjust_git *)
(** Files: their lines, by normalised name *)
Definition files := str -> option (list str).
Definition put (f : files) (p : str) (l : list str) : files := fun q => if seqb q p then Some l else f q.
(** 26-28 *)
Definition git_link (linkdir : str) : str := pjoin linkdir (s_ ".git-downloads").
Definition git_dl (dl_dir : str) : str := pjoin dl_dir (s_ "git").
Definition alternates (destdir : str) : str := normpath (pjoin destdir (s_ ".git/objects/info/alternates")).
(** 61-71, of one source; [None]: bb.fatal *)
Definition adjust_one (cwd rootdir linkdir dl_dir : str) (s : source) (f : files) : option files :=
  if s_git s then
    let destdir := adjust_dest rootdir s in
    let rel := relpath cwd (git_link linkdir) (pjoin destdir (s_ ".git/objects")) in
    match f (alternates destdir) with
    | None => Some f
    | Some lines => option_map (put f (alternates destdir)) (sed (git_dl dl_dir) rel lines)
    end
  else Some f.
(** 36-73 *)
Fixpoint adjust_git (cwd rootdir linkdir dl_dir : str) (srcs : list source) (f : files) : option files :=
  match srcs with
  | [] => Some f
  | s :: srcs => match adjust_one cwd rootdir linkdir dl_dir s f with
                 | Some f => adjust_git cwd rootdir linkdir dl_dir srcs f
                 | None => None
                 end
  end.
(** How git reads a line of alternates (external to /repo): relative to the directory objects *)
Definition git_object_dir (destdir line : str) : str :=
  if isabs line then normpath line else normpath (pjoin (pjoin destdir (s_ ".git/objects")) line).

(** 43-50: a link in the directory of downloads, whose real path is [real]: the new target *)
Definition mirror_target (dl real : str) : option str :=
  if startswith (dl ++ s_ "/") real then Some (skipn (length (dl ++ s_ "/")) real) else None.

(** 30-34: the link to the downloads.  [link]: its target, if it is there; [there]: os.path.exists, [real]: os.path.realpath of
    a target.  [None]: os.symlink raises FileExistsError *)
Definition link_step (there : str -> bool) (real : str -> str) (dl : str) (link : option str) : option str :=
  let works l := match l with Some t => there t | None => false end in
  let link := match link with
              | Some t => if there t && negb (seqb (real t) (real dl)) then None else link
              | None => None
              end in
  if works link then link
  else match link with None => Some dl | Some _ => None end.
