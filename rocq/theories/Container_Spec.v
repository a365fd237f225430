(** Vocabulary for C42. *)
From Coq Require Import Ascii String List Bool.
From Verif Require Import Str_Model.
Import ListNotations.
Open Scope list_scope.

(** What a request denotes: a repository, a digest or a tag in it, and the platform. *)
Inductive reference := ByDigest (d : str) | ByTag (t : str).
Record image := { i_host : str; i_repo : str; i_ref : reference; i_platform : str }.

Definition hex_char (c : ascii) : bool := existsb (aeqb c) (s_ "0123456789abcdef").
(** algorithm:hex, as the OCI specification writes digests *)
Definition oci_digest (d : str) : Prop :=
  exists alg hex, d = alg ++ s_ ":" ++ hex /\ 32 <= length hex /\ Forall (fun c => hex_char c = true) hex /\
    forall c, In c alg -> ~ In c (s_ ":_/-").
(** A tag that ends like a digest written with "-" *)
Definition digest_like (t : str) : Prop :=
  exists alg hex, t = alg ++ s_ "-" ++ hex /\ 32 <= length hex /\ Forall (fun c => hex_char c = true) hex.
