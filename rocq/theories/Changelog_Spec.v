(** What the changelog of a package should hold, in terms of the files before the build. *)
From Coq Require Import String Ascii List Bool Arith ZArith.
From Verif Require Import Str_Model Changelog_Model.
Import ListNotations.
Open Scope list_scope.

(** The changelog that came with the sources: the copy made by the first execution, or else the
    file itself *)
Definition original (f : files) : str :=
  match w_orig f with
  | Some o => o
  | None => match s_log f with Some c => c | None => [] end
  end.

(** [r] is [s] with its first [pat] replaced by [new] *)
Definition first_replaced (pat new s r : str) : Prop :=
  (exists a b, s = a ++ pat ++ b /\ r = a ++ new ++ b /\ forall a' b', s = a' ++ pat ++ b' -> length a <= length a') \/
  (r = s /\ forall a b, s <> a ++ pat ++ b).

(** The text of a Debian changelog entry *)
Definition entry_text (package version who date : str) : str :=
  package ++ s_ " (" ++ version ++ s_ ") UNRELEASED; urgency=low" ++ [nl; nl] ++ s_ "  * generated by Isar" ++ [nl; nl] ++
  s_ " -- " ++ who ++ s_ "  " ++ date ++ [nl].

(** An older changelog below an entry, after an empty line; nothing if it is empty *)
Definition then_text (o : str) : str := match o with [] => [] | _ => nl :: o end.

Section Tools.
  Variable pver : str -> option str.
  Variable psecs : str -> option Z.
  Variable fdate : Z -> str.
  (** Version and time of the new entry: 42 seconds after the last original entry, if there is one *)
  Inductive dated (p : params) (f : files) : str -> Z -> Prop :=
  | dated_given : s_log f = None \/ original f = [] -> dated p f (changelog_v p) (timestamp p)
  | dated_orig ov s v : s_log f <> None -> original f <> [] -> pver (original f) = Some ov -> psecs (original f) = Some s ->
      first_replaced (s_ "<orig-version>") ov (changelog_v p) v -> dated p f v (s + 42).
  (** The new changelog: the entry, the original changelog, then the one given in WORKDIR; the one
      given alone if its latest version is the new one *)
  Inductive new_log (p : params) (f : files) : str -> Prop :=
  | new_plain v t : dated p f v t -> w_log f = None ->
      new_log p f (entry_text (bpn p) v (maintainer p) (fdate t) ++ then_text (original f))
  | new_given v t w : dated p f v t -> w_log f = Some w -> pver w = Some v -> new_log p f w
  | new_both v t w lv : dated p f v t -> w_log f = Some w -> pver w = Some lv -> lv <> v ->
      new_log p f (entry_text (bpn p) v (maintainer p) (fdate t) ++ then_text (original f) ++ nl :: w).
End Tools.
