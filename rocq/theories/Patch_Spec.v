(** What makes a source a patch, and what applying patches means. *)
From Coq Require Import String Ascii List Bool Arith ZArith.
From Verif Require Import Str_Model Vercmp_Model Deps_Spec Patch_Model.
Import ListNotations.
Open Scope list_scope.

(** ** Selection *)
Definition is_basename (p n : str) : Prop := ~ In "/"%char n /\ (p = n \/ exists d, p = d ++ "/"%char :: n).
(** The name is [b] with the extension [e], and [b] is not made of dots alone *)
Definition named (n b e : str) : Prop :=
  n = b ++ e /\ (exists x, e = "."%char :: x /\ ~ In "."%char x) /\ exists c, In c b /\ c <> "."%char.
Definition patch_ext (e : str) : Prop := e = s_ ".patch" \/ e = s_ ".diff".
Definition packed_ext (e : str) : Prop := e = s_ ".gz" \/ e = s_ ".bz2" \/ e = s_ ".xz" \/ e = s_ ".Z".
(** A parameter of the URL *)
Definition has_parm (u : source) (k : string) (v : str) : Prop := parm (s_ k) (s_parm u) = Some v.
Definition no_parm (u : source) (k : string) : Prop := parm (s_ k) (s_parm u) = None.
(** The words for yes *)
Definition yes (v : str) : Prop := In (lower v) [s_ "yes"; s_ "y"; s_ "true"; s_ "t"; s_ "1"].
Definition no (v : str) : Prop := In (lower v) [s_ "no"; s_ "n"; s_ "false"; s_ "f"; s_ "0"].
(** A patch by its name: .patch or .diff, perhaps packed *)
Definition patch_name (n : str) : Prop :=
  exists b e, named n b e /\ (patch_ext e \/ packed_ext e /\ exists b' e', named b b' e' /\ patch_ext e').
(** The file the patch is read from: packed files are found unpacked in the work directory *)
Definition read_from (workdir : str) (u : source) (f : str) : Prop :=
  exists n, is_basename (s_local u) n /\
    ((exists b e, named n b e /\ packed_ext e /\ f = workdir ++ s_ "/" ++ b) \/
     ((forall b e, named n b e -> ~ packed_ext e) /\ f = s_local u)).
(** The source is a patch: it is told to be one, or it has the name of one and is not told not to be one *)
Definition is_patch (u : source) : Prop :=
  s_isdir u = false /\
  ((exists v, has_parm u "apply" v /\ yes v) \/ (no_parm u "apply" /\ exists n, is_basename (s_local u) n /\ patch_name n)).
(** The limits on dates, revisions and versions hold *)
Definition le (a b : str) : Prop := ~ str_lt b a.
Definition in_limits (fs : facts) (u : source) : Prop :=
  (forall v, has_parm u "mindate" v -> exists d, f_date fs = Some d /\ le v d) /\
  (forall v, has_parm u "maxdate" v -> exists d, f_date fs = Some d /\ le d v) /\
  (forall v r, f_rev fs = Some r -> r <> [] ->
     (has_parm u "minrev" v -> le v r) /\ (has_parm u "maxrev" v -> le r v) /\
     (has_parm u "rev" v -> exists a b, r = a ++ v ++ b) /\ (has_parm u "notrev" v -> ~ exists a b, r = a ++ v ++ b)) /\
  (forall v, has_parm u "minver" v -> exists z, vercmp_string (f_pv fs) v = Some z /\ (z >= 0)%Z) /\
  (forall v, has_parm u "maxver" v -> exists z, vercmp_string (f_pv fs) v = Some z /\ (z <= 0)%Z).
(** The entry of a patch *)
Definition entry_for (workdir : str) (u : source) (e : entry) : Prop :=
  read_from workdir u (e_file e) /\
  (forall v, v <> [] -> has_parm u "pname" v -> e_name e = v) /\
  (no_parm u "pname" \/ has_parm u "pname" [] -> is_basename (e_file e) (e_name e)) /\
  (forall v, has_parm u "striplevel" v -> e_strip e = v) /\
  (no_parm u "striplevel" -> forall v, has_parm u "pnum" v -> e_strip e = v) /\
  (no_parm u "striplevel" -> no_parm u "pnum" -> e_strip e = s_ "1") /\
  (forall v, v <> [] -> has_parm u "patchdir" v -> e_dir e = Some v) /\
  (no_parm u "patchdir" \/ has_parm u "patchdir" [] -> e_dir e = None).
(** The patches of the sources, in their order *)
Inductive selected (workdir : str) (fs : facts) : list source -> list entry -> Prop :=
| sel_nil : selected workdir fs [] []
| sel_skip : forall u us es, ~ (is_patch u /\ in_limits fs u) -> selected workdir fs us es -> selected workdir fs (u :: us) es
| sel_take : forall u us e es, is_patch u -> in_limits fs u -> entry_for workdir u e -> selected workdir fs us es ->
    selected workdir fs (u :: us) (e :: es).

(** ** Application *)
Section Apply.
Variables tree content : Type.
Variable papply : str -> content -> tree -> option tree.
(** The patches applied one after the other *)
Fixpoint apply_all (ps : list (pfile content)) (t : tree) : option tree :=
  match ps with
  | [] => Some t
  | p :: ps => match papply (pf_strip _ p) (pf_text _ p) t with Some t' => apply_all ps t' | None => None end
  end.
(** The patches for one directory, in order *)
Definition of_dir (ds : str) (l : list (str * pfile content)) : list (pfile content) :=
  map snd (filter (fun x => seqb (fst x) ds) l).
(** A name that can be read back from the series file *)
Definition plain (n : str) : Prop :=
  n <> [] /\ ~ In ","%char n /\ (forall c r, n = c :: r -> is_space c = false) /\ (forall r c, n = r ++ [c] -> is_space c = false).
(** A list of patches as it should be: names that differ within a directory, one name for each directory *)
Definition orderly (resolve : str -> str) (l : list (str * pfile content)) : Prop :=
  (forall ds, NoDup (map (pf_name _) (of_dir ds l))) /\
  (forall ds ds', In ds (map fst l) -> In ds' (map fst l) -> resolve ds = resolve ds' -> ds = ds').
Definition readable (l : list (str * pfile content)) : Prop :=
  forall ds p, In (ds, p) l -> ~ In ","%char ds /\ plain (pf_name _ p) /\ plain (pf_strip _ p).
End Apply.

(** The directory a patch belongs to: the source directory, or the one its URL names, absolute or below it *)
Definition belongs_to (s : str) (e : entry) (d : str) : Prop :=
  (e_dir e = None /\ d = s) \/
  (exists r, e_dir e = Some ("/"%char :: r) /\ d = "/"%char :: r) \/
  (exists pd, e_dir e = Some pd /\ (forall r, pd <> "/"%char :: r) /\ d = s ++ s_ "/" ++ pd).
Definition handed_over {content} (s : str) (read : str -> content) (e : entry) (x : str * pfile content) : Prop :=
  belongs_to s e (fst x) /\ is_basename (e_file e) (pf_name _ (snd x)) /\ pf_strip _ (snd x) = e_strip e /\ pf_text _ (snd x) = read (e_file e).
