(** The variants of a recipe: bitbake/lib/bb/parse/ast.py 425-504 (multi_finalize), bitbake/lib/bb/cookerdata.py 509-546,
    meta/classes-recipe/per-kernel.bbclass, dpkg-customization.bbclass, customization-base.bbclass and image-customizations.bbclass.
    Definitions only. *)
From Coq Require Import String Ascii List Bool Arith.
From Verif Require Import Str_Model Pcache_Model.
Import ListNotations.
Open Scope list_scope.

(** A dictionary of datastores, the keys in the order python keeps them *)
Definition find_in {S : Type} (k : str) (l : list (str * S)) : option S :=
  match find (fun p => seqb k (fst p)) l with Some p => Some (snd p) | None => None end.

(** The keys of a dictionary filled in this order *)
Fixpoint keys (l : list str) : list str :=
  match l with [] => [] | a :: r => a :: filter (fun b => negb (seqb b a)) (keys r) end.
(** 475-481: extendedmap and variantmap of a word; no variant: the word has no colon *)
Definition ext_class (ext : str) : str := match split_on colon ext with c :: _ :: _ => c | _ => ext end.
Definition ext_variant (ext : str) : option str := match split_on colon ext with _ :: v :: _ => Some v | _ => None end.
(** 427 and 498: "onlyfinalise and name not in onlyfinalise": both are strings, so this looks for a part of the string *)
Definition wanted (only : option str) (name : str) : bool :=
  match only with Some (c :: o) => contains_sub name (c :: o) | _ => true end.

Section MultiFinalize.
(** A datastore: getVar (None read as the empty string), setVar, BBHandler.inherit of a class, and finalize 387-423 with the
    name of the variant.  Simplifications: a datastore that raises SkipRecipe is one that finalize gives; other exceptions are left out *)
Variable S : Type.
Variable getvar : str -> S -> str.
Variable setvar : str -> str -> S -> S.
Variable inherit : str -> S -> S.
Variable finalize : str -> S -> S.

(** 484-490 extendfunc; [pn]: PN of the recipe itself *)
Definition extendfunc (pn name : str) (d : S) : S :=
  let d := match ext_variant name with
           | Some v => setvar (s_ "BBEXTENDVARIANT") v (setvar (s_ "BBEXTENDCURR") (ext_class name) d)
           | None => setvar (s_ "PN") (pn ++ s_ "-" ++ name) d
           end in
  inherit (ext_class name) d.
(** 441-504 multi_finalize; [safe_d]: the recipe after its appends and deferred classes (442-453); 425-439: only the recipe
    itself is in datastores when the variants are made, so line 439 is not reached.  The keys of extendedmap are the words, each once *)
Definition multi_finalize (only : option str) (safe_d : S) : list (str * S) :=
  let d := finalize [] safe_d in
  let extended := getvar (s_ "BBCLASSEXTEND") d in
  let pn := getvar (s_ "PN") d in
  let safe_d := match extended with [] => safe_d | _ => setvar (s_ "BBCLASSEXTEND") extended safe_d end in
  ([], d) :: map (fun name => (name, finalize name (extendfunc pn name safe_d))) (filter (wanted only) (keys (split_ws extended))).

(** [handle mc fn]: what the recipe file gives in a configuration before multi_finalize.  Simplification: it does not depend on
    __ONLYFINALISE *)
Variable handle : str -> str -> S.
(** cookerdata.py 509-526 parseRecipeVariants of one configuration, as the cache calls it (cache.py 519) *)
Definition parse_all (mc fn : str) : list (str * S) := multi_finalize None (handle mc fn).
(** cookerdata.py 515-519 and 538-546 parseRecipe, as the worker calls it; None: KeyError *)
Definition parse_one (virtualfn : str) : option S :=
  let '(fn, virtual, mc) := virtualfn2realfn virtualfn in
  find_in virtual (multi_finalize (Some (match virtual with [] => s_ "default" | _ => virtual end)) (handle mc fn)).
End MultiFinalize.

(** ** per-kernel.bbclass *)
(** What the class and a kernel module (linux-module.bbclass 15: PN .= "-${KERNEL_NAME}") read and write; None: not set *)
Record kstore := { k_pn : option str; k_curr : str; k_variant : str; k_kernel : str; k_extend : option str }.
Section PerKernel.
(** PN of the recipe before linux-module, KERNEL_NAMES, and what else is in BBCLASSEXTEND, in front and behind *)
Variables base names front back : str.
(** 18: BBCLASSEXTEND += ... *)
Definition kernel_words (k0 : str) : str :=
  join (s_ " ") (map (fun k => s_ "per-kernel:" ++ k) (filter (fun k => negb (seqb k k0)) (split_ws names))).
Definition k_getvar (n : str) (d : kstore) : str :=
  if seqb n (s_ "PN") then match k_pn d with Some p => p | None => base ++ s_ "-" ++ k_kernel d end
  else if seqb n (s_ "BBCLASSEXTEND") then
    match k_extend d with Some e => e | None => front ++ s_ " " ++ kernel_words (k_kernel d) ++ back end
  else if seqb n (s_ "BBEXTENDCURR") then k_curr d
  else if seqb n (s_ "BBEXTENDVARIANT") then k_variant d
  else [].
Definition k_setvar (n v : str) (d : kstore) : kstore :=
  if seqb n (s_ "PN") then {| k_pn := Some v; k_curr := k_curr d; k_variant := k_variant d; k_kernel := k_kernel d; k_extend := k_extend d |}
  else if seqb n (s_ "BBCLASSEXTEND") then {| k_pn := k_pn d; k_curr := k_curr d; k_variant := k_variant d; k_kernel := k_kernel d; k_extend := Some v |}
  else if seqb n (s_ "BBEXTENDCURR") then {| k_pn := k_pn d; k_curr := v; k_variant := k_variant d; k_kernel := k_kernel d; k_extend := k_extend d |}
  else if seqb n (s_ "BBEXTENDVARIANT") then {| k_pn := k_pn d; k_curr := k_curr d; k_variant := v; k_kernel := k_kernel d; k_extend := k_extend d |}
  else d.
(** 20-33 per_kernel_virtclass_handler, at the start of finalize (ast.py 402); 29, PROVIDES, left out *)
Definition k_finalize (_ : str) (d : kstore) : kstore :=
  if negb (seqb (k_curr d) (s_ "per-kernel")) then d
  else if seqb (k_variant d) [] then d
  else {| k_pn := k_pn d; k_curr := k_curr d; k_variant := k_variant d; k_kernel := k_variant d; k_extend := k_extend d |}.
(** The datastores of a kernel module with KERNEL_NAME = [k0].  Simplification: the classes of the other words do not change these variables *)
Definition kernel_stores (k0 : str) : list (str * kstore) :=
  multi_finalize kstore k_getvar k_setvar (fun _ d => d) k_finalize None
    {| k_pn := None; k_curr := []; k_variant := []; k_kernel := k0; k_extend := None |}.
(** PN and KERNEL_NAME of a datastore *)
Definition k_name (d : kstore) : str := k_getvar (s_ "PN") d.
End PerKernel.

(** ** Customization packages *)
Section Customization.
(** The configuration: CUSTOMIZATION_VARS before the append, expanded; CUSTOMIZATION_VARS_PREFIXED; CUSTOMIZATION_FOR_IMAGES *)
Variables vars prefixed for_images : str.
(** customization-base.bbclass 10-11: with images the value of IMAGE is one more word *)
Definition customization_vars (image : str) : list str :=
  split_ws (vars ++ match split_ws for_images with [] => [] | _ => s_ " " ++ image end).
(** 19-20; "var in d.getVar('CUSTOMIZATION_VARS_PREFIXED')": the variable is a string *)
Definition customization_prefix (image : str) : str :=
  join (s_ "-") (filter (fun v => contains_sub v prefixed) (customization_vars image)).
Definition customization_suffix (image : str) : str :=
  join (s_ "-") (filter (fun v => negb (contains_sub v prefixed)) (customization_vars image)).
(** dpkg-customization.bbclass 3-6: PN of the recipe [pre] with a value of IMAGE *)
Definition customized_pn (pre image : str) : str :=
  match customization_prefix image with [] => [] | p => p ++ s_ "-" end ++ pre ++
  match customization_suffix image with [] => [] | x => s_ "-" ++ x end.
(** What the class reads and writes *)
Record cstore := { c_pn : option str; c_curr : str; c_variant : str; c_image : str; c_extend : option str }.
(** What the anonymous functions add to BBCLASSEXTEND (multiarch.bbclass) *)
Variable back : str.
(** dpkg-customization.bbclass 8 *)
Definition image_words : str := join (s_ " ") (map (fun i => s_ "dpkg-customization:" ++ i) (split_ws for_images)).
Definition c_getvar (pre n : str) (d : cstore) : str :=
  if seqb n (s_ "PN") then match c_pn d with Some p => p | None => customized_pn pre (c_image d) end
  else if seqb n (s_ "BBCLASSEXTEND") then match c_extend d with Some e => e | None => image_words ++ back end
  else [].
Definition c_setvar (n v : str) (d : cstore) : cstore :=
  if seqb n (s_ "PN") then {| c_pn := Some v; c_curr := c_curr d; c_variant := c_variant d; c_image := c_image d; c_extend := c_extend d |}
  else if seqb n (s_ "BBCLASSEXTEND") then {| c_pn := c_pn d; c_curr := c_curr d; c_variant := c_variant d; c_image := c_image d; c_extend := Some v |}
  else if seqb n (s_ "BBEXTENDCURR") then {| c_pn := c_pn d; c_curr := v; c_variant := c_variant d; c_image := c_image d; c_extend := c_extend d |}
  else if seqb n (s_ "BBEXTENDVARIANT") then {| c_pn := c_pn d; c_curr := c_curr d; c_variant := v; c_image := c_image d; c_extend := c_extend d |}
  else d.
Definition with_image (i : str) (d : cstore) : cstore :=
  {| c_pn := c_pn d; c_curr := c_curr d; c_variant := c_variant d; c_image := i; c_extend := c_extend d |}.
(** 10-34 customization_virtclass_handler; 22-24: with images '${IMAGE}' is a word of CUSTOMIZATION_VARS; PROVIDES, BPN and OVERRIDES left out *)
Definition c_finalize (_ : str) (d : cstore) : cstore :=
  if negb (seqb (c_curr d) (s_ "dpkg-customization")) || seqb (c_variant d) [] then with_image [] d
  else match split_ws for_images with
       | [] => d
       | images => if mem_str (c_variant d) images then with_image (c_variant d) d else d
       end.
(** The datastores of a customization recipe; same simplification as for kernel_stores *)
Definition customization_stores (pre : str) : list (str * cstore) :=
  multi_finalize cstore (c_getvar pre) c_setvar (fun _ d => d) c_finalize None
    {| c_pn := None; c_curr := []; c_variant := []; c_image := []; c_extend := None |}.
(** image-customizations.bbclass 3-27 customization_packages; [bpn]: BPN of the image *)
Definition customization_packages (customizations bpn : str) : list str :=
  let image := if mem_str bpn (split_ws for_images) then bpn else [] in
  let prefix := match customization_prefix image with [] => [] | p => p ++ s_ "-" end in
  let suffix := match customization_suffix image with [] => s_ "-customization" | x => s_ "-customization-" ++ x end in
  map (fun package => prefix ++ package ++ suffix) (split_ws customizations).
End Customization.
