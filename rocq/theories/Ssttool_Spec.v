(** What upload and clean of isar-sstate are documented to do (lines 30-50). *)
From Coq Require Import Ascii String List Bool Arith ZArith.
From Verif Require Import Str_Model Sstname_Model Ssttool_Model.
Import ListNotations.

(** A proper directory tree: no path is both, no name twice, every parent is a
    directory of the tree *)
Definition proper (t : tree) : Prop :=
  NoDup (map fst (files t)) /\
  (forall p, In p (map fst (files t)) -> p <> [] /\ ~ In p (dirs t) /\ (removelast p = [] \/ In (removelast p) (dirs t))) /\
  (forall d, In d (dirs t) -> d <> [] /\ (removelast d = [] \/ In (removelast d) (dirs t))).

(** The file has the content x *)
Definition holds (t : tree) (p : path) (x : str) : Prop := In (p, x) (files t).

(** A shared-state file chosen by the filters *)
Definition chosen (flt : option (str -> bool)) (arch : option str) (f : fields) : Prop :=
  (forall m, flt = Some m -> m (f_pn f) = true) /\
  (forall a, arch = Some a -> a <> [] -> f_arch f = a).

Definition archive (f : fields) : Prop := f_suffix f = s_ "tgz" \/ f_suffix f = s_ "tar.zst".
Definition siginfo (f : fields) : Prop := f_suffix f = s_ "tgz.siginfo" \/ f_suffix f = s_ "tar.zst.siginfo".

(** Ages: a number with a unit *)
Definition unit_seconds (c : ascii) (n : N) : Prop :=
  (c = "s"%char /\ n = 1%N) \/ (c = "m"%char /\ n = 60%N) \/ (c = "h"%char /\ n = 3600%N) \/
  (c = "d"%char /\ n = 86400%N) \/ (c = "w"%char /\ n = 604800%N).

(** The local files are those of a directory tree: no path twice, and no file is a
    directory above another file *)
Definition source_tree (src : list local) : Prop :=
  NoDup (map l_path src) /\
  forall f g rest, In f src -> In g src -> l_dir g <> (l_dir f ++ [l_name f]) ++ rest.

(** An existing file of the target stands where a directory is needed *)
Definition blocked (t : tree) (f : local) : Prop :=
  exists q r x, l_dir f = q ++ r /\ holds t q x.

(** A local file chosen by --filter and --arch: the second and the sixth of the
    colon-separated fields of its name, as far as there are so many *)
Definition picked (flt : option (str -> bool)) (arch : option str) (f : local) : Prop :=
  exists parts, l_name f = join (s_ ":") parts /\ (forall w, In w parts -> ~ In ":"%char w) /\ parts <> [] /\
  (forall m pn, flt = Some m -> nth_error parts 1 = Some pn -> m pn = true) /\
  (forall a b, arch = Some a -> a <> [] -> nth_error parts 5 = Some b -> b = a).
