(** What a download should give. *)
From Coq Require Import String Ascii List Bool Arith Permutation.
From Verif Require Import Str_Model Fetch_Model.
Import ListNotations.
Open Scope list_scope.

(** A file has every checksum the recipe states *)
Definition good (H : cid -> str -> str) (cf : cfg) (c : str) : Prop := forall i x, expected cf i = Some x -> x <> [] -> H i c = x.
(** The recipe states none *)
Definition nothing_stated (cf : cfg) : Prop := forall i x, expected cf i = Some x -> x = [].
(** A stamp that is newer than the file records checksums of that file *)
Definition honest (H : cid -> str -> str) (s : st) : Prop :=
  forall c m l t, content s = Some (c, m) -> stamp s = Some (l, t) -> m < t -> forall i x, l i = Some x -> x = H i c.
(** What may happen to the directory: downloads, by recipes that may state anything from servers that may send anything, and
    changes from outside that do not give a file a time before that of the stamp *)
Inductive change (H : cid -> str -> str) : st -> st -> Prop :=
| fetched cf pre up mirrors s : change H s (fst (download_one H cf pre up mirrors s))
| replaced s c m : (forall l t, stamp s = Some (l, t) -> t <= m) -> change H s (set_file (Some (Real c m)) s)
| removed s : change H s (set_file None s)
| stamp_removed s : change H s (set_stamp None s)
| mirror_changed s s' : file s' = file s -> stamp s' = stamp s ->
    (forall n, file s = Some (Link n) -> forall c m l t, lm s' n = Some (c, m) -> stamp s = Some (l, t) -> t <= m) -> change H s s'.
Inductive history (H : cid -> str -> str) : st -> st -> Prop :=
| h_start s : history H s s
| h_step s s' s'' : history H s s' -> change H s' s'' -> history H s s''.
(** An address that follows from [u] by replacements, each with a line that no other step on the way uses *)
Inductive follows {line : Type} (repl : str -> line -> nat -> option str) (tarballs : list nat) : str -> list line -> str -> Prop :=
| f_one u lines x tb v : In x lines -> In tb tarballs -> repl u x tb = Some v -> follows repl tarballs u lines v
| f_more u lines rest x tb v w : Permutation lines (x :: rest) -> In tb tarballs -> repl u x tb = Some v ->
    follows repl tarballs v rest w -> follows repl tarballs u lines w.
(** A host is allowed by a pattern: it is the same, or the pattern is *.domain and the host is the domain or in it *)
Definition allowed (pattern host : str) : Prop :=
  lower pattern = lower host \/
  exists domain, lower pattern = s_ "*." ++ domain /\ (lower host = domain \/ exists sub, lower host = sub ++ s_ "." ++ domain).
