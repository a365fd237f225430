(** meta/lib/container_fetcher.py: names of downloaded container images.  Definitions only. *)
From Coq Require Import Ascii String List Bool.
From Verif Require Import Str_Model.
Import ListNotations.
Open Scope list_scope.

(** What urldata_init reads: host and path of the URL, its parameters tag and
    digest, and PACKAGE_ARCH *)
Record request := { r_host : str; r_path : str; r_tag : option str; r_digest : option str; r_arch : str }.
(** 22-24 *)
Definition tag (r : request) : str := match r_tag r with Some t => t | None => s_ "latest" end.
(** 26-28, and the tests [if ud.digest]: an empty digest counts as none *)
Definition digest (r : request) : option str := match r_digest r with Some (c :: d) => Some (c :: d) | _ => None end.
(** 30-37 *)
Definition arch_variant (r : request) : str * option str :=
  if seqb (r_arch r) (s_ "armhf") then (s_ "arm", Some (s_ "v7"))
  else if seqb (r_arch r) (s_ "armel") then (s_ "arm", Some (s_ "v6"))
  else (r_arch r, None).
(** 39 *)
Definition container_name (r : request) : str := r_host r ++ (if seqb (r_path r) (s_ "/") then [] else r_path r).
(** 40-41 *)
Definition container_src (r : request) : str :=
  container_name r ++ match digest r with Some d => s_ "@" ++ d | None => s_ ":" ++ tag r end.
(** 42 *)
Definition localname (r : request) : str := replace_char "/"%char (s_ ".") (container_name r).
(** 43-46 *)
Definition localfile (r : request) : str :=
  s_ "container-images/" ++ fst (arch_variant r) ++ s_ "/" ++
  match snd (arch_variant r) with Some v => v ++ s_ "/" | None => [] end ++
  localname r ++ s_ "_" ++
  match digest r with Some d => replace_char ":"%char (s_ "-") d | None => tag r end ++ s_ ".zst".
(** 104-105 unpack: the name in the work directory *)
Definition unpacked (r : request) : str := localname r ++ s_ ":" ++ tag r ++ s_ ".zst".
