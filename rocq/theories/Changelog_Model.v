(** meta/classes-recipe/debianize.bbclass 36-82 (deb_add_changelog), meta/classes-global/base.bbclass
    367-377 (deb_list_beautify) and meta/classes-recipe/dpkg-base.bbclass 104-113, 147-151.
    Definitions only. *)
From Coq Require Import String Ascii List Bool Arith ZArith.
From Verif Require Import Str_Model Posix_Model.
Import ListNotations.
Open Scope list_scope.

(** ** Files *)
(** [s_log]: S/debian/changelog, [w_orig]: WORKDIR/changelog.orig, [w_log]: WORKDIR/changelog;
    None: there is no such file *)
Record files := mkFiles { s_log : option str; w_orig : option str; w_log : option str }.
Definition put_log (x : option str) (f : files) : files := mkFiles x (w_orig f) (w_log f).
Definition put_orig (x : option str) (f : files) : files := mkFiles (s_log f) x (w_log f).
(** -s: the file exists and is not empty *)
Definition filled (x : option str) : bool := match x with Some (_ :: _) => true | _ => false end.
Definition content (x : option str) : str := match x with Some c => c | None => [] end.

(** What a file holds while a text is being written behind [base]: any beginning of it.  cp, cat
    and echo create or truncate the file first and then write *)
Definition writing (base text : str) : list str := map (fun n => base ++ firstn n text) (seq 0 (S (length text))).

(** sed 's/<orig-version>/V/': the first occurrence; V is a Debian version and has no / & or \ *)
Fixpoint sed_first (pat new s : str) : str :=
  if startswith pat s then new ++ skipn (length pat) s
  else match s with [] => [] | c :: s' => c :: sed_first pat new s' end.
Definition placeholder : str := s_ "<orig-version>".
Definition eol : str := [nl].

(** BPN, CHANGELOG_V, DEBIAN_CHANGELOG_TIMESTAMP and MAINTAINER *)
Record params := mkParams { bpn : str; changelog_v : str; timestamp : Z; maintainer : str }.

Section Tools.
  (** dpkg-parsechangelog -S Version, the seconds of -S Date (None: the command fails and the task
      with it, set -e), and date -R *)
  Variable pver : str -> option str.
  Variable psecs : str -> option Z.
  Variable fdate : Z -> str.

  (** 54-61 *)
  Definition entry (p : params) (v : str) (t : Z) : str :=
    bpn p ++ s_ " (" ++ v ++ s_ ") UNRELEASED; urgency=low" ++ eol ++ eol ++
    s_ "  * generated by Isar" ++ eol ++ eol ++
    s_ " -- " ++ maintainer p ++ s_ "  " ++ fdate t ++ eol.

  (** 38-52: version and time of the entry, from the files as they are at the start *)
  Definition version_time (p : params) (f : files) : option (str * Z) :=
    match s_log f with
    | None => Some (changelog_v p, timestamp p)
    | Some c =>
      let o := match w_orig f with Some o => o | None => c end in
      match o with
      | [] => Some (changelog_v p, timestamp p)
      | _ => match pver o with
             | None => None
             | Some ov => match psecs o with
                          | None => None
                          | Some s => Some (sed_first placeholder ov (changelog_v p), (s + 42)%Z)
                          end
             end
      end
    end.

  (** The states the files go through, in order, and whether the function succeeds.  Killed at any
      moment, it leaves one of them *)
  (** 40-43: cp *)
  Definition keep_orig (f : files) : list files :=
    match s_log f, w_orig f with
    | Some c, None => map (fun x => put_orig (Some x) f) (writing [] c)
    | _, _ => []
    end.
  Definition last_of (f : files) (l : list files) : files := last l f.
  (** 55-61: the entry is written *)
  Definition write_entry (e : str) (f : files) : list files := map (fun x => put_log (Some x) f) (writing [] e).
  (** 64: touch *)
  Definition touch_orig (f : files) : list files :=
    match w_orig f with None => [put_orig (Some []) f] | Some _ => [] end.
  (** 65-69 *)
  Definition add_orig (f : files) : list files :=
    if filled (w_orig f) then map (fun x => put_log (Some x) f) (writing (content (s_log f)) (eol ++ content (w_orig f))) else [].
  (** 71-81; rm and the creation of the new file are two states *)
  Definition add_given (v : str) (f : files) : option (list files) :=
    match w_log f with
    | None => Some []
    | Some w => match pver w with
                | None => None
                | Some lv => if seqb lv v then Some (put_log None f :: map (fun x => put_log (Some x) f) (writing [] w))
                             else Some (map (fun x => put_log (Some x) f) (writing (content (s_log f)) (eol ++ w)))
                end
    end.
  Definition add_changelog (p : params) (f : files) : list files * bool :=
    let l1 := keep_orig f in let f1 := last_of f l1 in
    match version_time p f1 with
    | None => (l1, false)
    | Some (v, t) =>
      let l2 := write_entry (entry p v t) f1 in let f2 := last_of f1 l2 in
      let l3 := touch_orig f2 in let f3 := last_of f2 l3 in
      let l4 := add_orig f3 in let f4 := last_of f3 l4 in
      match add_given v f4 with
      | None => (l1 ++ l2 ++ l3 ++ l4, false)
      | Some l5 => (l1 ++ l2 ++ l3 ++ l4 ++ l5, true)
      end
    end.
  (** One execution that runs to its end: None when a tool fails *)
  Definition run (p : params) (f : files) : option files :=
    let (l, ok) := add_changelog p f in if ok then Some (last_of f l) else None.
  (** Several executions, each with its own settings *)
  Fixpoint runs (ps : list params) (f : files) : option files :=
    match ps with [] => Some f | p :: ps' => match run p f with Some f' => runs ps' f' | None => None end end.
End Tools.

(** ** Helpers for control files *)
(** base.bbclass 367-377; an unset variable is the empty text *)
Definition beautify (line : str) : str :=
  join (s_ ", ") (filter (fun w : str => match w with [] => false | _ => true end) (map strip (split_on ","%char line))).
(** dpkg-base.bbclass 147-151.  [arch_differ]: BUILD_ARCH and PACKAGE_ARCH differ *)
Definition build_profiles (profiles : str) (arch_differ : bool) : str :=
  strip (profiles ++ if arch_differ then s_ " cross" else []).
