(** meta/classes-recipe/image-locales-extension.bbclass: the locales of an image.  Definitions only. *)
From Coq Require Import String Ascii List Bool Arith.
From Verif Require Import Str_Model Imgtypes_Model.
Import ListNotations.
Open Scope list_scope.

(** locale_gen.split('\\n'): at each backslash followed by n, 16 and 22 *)
Fixpoint split_bn_aux (cur s : str) : list str :=
  match s with
  | [] => [rev cur]
  | c :: s' =>
      match s' with
      | d :: s'' => if aeqb c "\"%char && aeqb d "n"%char then rev cur :: split_bn_aux [] s'' else split_bn_aux (c :: cur) s'
      | [] => [rev (c :: cur)]
      end
  end.
Definition split_bn (s : str) : list str := split_bn_aux [] s.
Definition nonempty (s : str) : bool := match s with [] => false | _ => true end.
(** get_locale_gen, 13-17 *)
Definition locale_items (v : str) : list str := sorted_set (filter nonempty (map strip (split_bn v))).
Definition get_locale_gen (v sep : str) : str := join sep (locale_items v).
(** get_nopurge, 19-26 *)
Definition before (c : ascii) (w : str) : str := hd [] (split_on c w).
Definition nopurge_items (v : str) : list str :=
  sorted_set (flat_map (fun j => let w := hd [] (split_ws j) in map strip [before "_"%char w; before "."%char w; w])
                       (filter (fun j => nonempty (strip j)) (split_bn v))).
Definition get_nopurge (v : str) : str := join [nl] (nopurge_items v).
(** locale.gen as written, 42-44, and appended to the file of the image on each run, 78 *)
Definition locale_gen_text (v : str) : str := get_locale_gen v [nl] ++ [nl].
Definition install_locales (v : str) (file : str) : str := file ++ locale_gen_text v.
