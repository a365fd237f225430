(** Vocabulary for C45. *)
From Coq Require Import Ascii String List Bool.
From Verif Require Import Str_Model Posix_Model.
Import ListNotations.
Open Scope list_scope.

(** The place an absolute path names when it goes through no symbolic links: names from the root. *)
Definition go (at_ : list str) (c : str) : list str :=
  if seqb c [] then at_ else if seqb c (s_ ".") then at_ else if seqb c (s_ "..") then removelast at_ else at_ ++ [c].
Definition place (p : str) : list str := fold_left go (split_on "/"%char p) [].
(** Absolute, and not starting with exactly two slashes (which POSIX leaves open). *)
Definition rooted (p : str) : Prop := isabs p = true /\ initial_slashes p <> 2.
Definition inside (dir p : str) : Prop := exists rest, place p = place dir ++ rest.
Definition strictly_inside (dir p : str) : Prop := exists rest, rest <> [] /\ place p = place dir ++ rest.
(** No blank that would split it. *)
Definition one_word (p : str) : Prop := Forall (fun c => is_space c = false) p.
(** The file a template name means, and the name its result has to have: ".tmpl" dropped or
    ".out" added.  A name that is nothing but dots before ".tmpl" is kept as it is. *)
Definition target (w f : str) : str := if isabs f then f else w ++ "/"%char :: f.
Definition output_name (last out : str) : Prop :=
  (exists b, last = b ++ s_ ".tmpl" /\ ((exists c, In c b /\ c <> "."%char) /\ out = b \/ (forall c, In c b -> c = "."%char) /\ out = last)) \/
  ((forall b, last <> b ++ s_ ".tmpl") /\ out = last ++ s_ ".out").
