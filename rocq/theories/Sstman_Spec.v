(** What manifests are for. *)
From Coq Require Import Ascii String List Bool Arith.
From Verif Require Import Str_Model Sstman_Model.
Import ListNotations.
Open Scope list_scope.

(** p is somewhere below the directory d *)
Definition below (d p : str) : Prop := exists r, p = d ++ s_ "/" ++ r.

(** A file system: every path is a directory's path, a slash and a name; directories
    are there before what is in them ("" is the root) *)
Definition sane_fs (t : fs) : Prop :=
  NoDup (map fst t) /\
  forall p k, In (p, k) t -> exists d name, p = d ++ s_ "/" ++ name /\ name <> [] /\ ~ In "/"%char name /\
                                            (d = [] \/ In (d, KDir) t).

(** What a task stages: destination paths with kinds *)
Definition staged_path (ss : list staged) (p : str) (k : kind) : Prop :=
  exists s rel, In s ss /\ In (rel, k) (st_tree s) /\ p = st_dst s ++ rel.

(** Names a manifest can record: no newline, no blank at either end, not ending in a
    slash, and the source directory's name not inside the relative path *)
Definition recordable (s : staged) (rel : str) : Prop :=
  (forall a b, rel <> a ++ st_src s ++ b) /\ st_src s <> [] /\
  ~ In nl (st_dst s ++ rel) /\
  (exists c m l, st_dst s ++ rel = c :: m ++ [l] /\ is_space c = false /\ is_space l = false /\ l <> "/"%char).

(** A line of the index file: three words and a newline *)
Definition plain_word (w : str) : Prop := w <> [] /\ forall c, In c w -> is_space c = false.
Record iline := mkIline { i_stamp : str; i_manifest : str; i_workdir : str }.
Definition iline_text (l : iline) : str := i_stamp l ++ s_ " " ++ i_manifest l ++ s_ " " ++ i_workdir l ++ [nl].
Definition plain_line (l : iline) : Prop := plain_word (i_stamp l) /\ plain_word (i_manifest l) /\ plain_word (i_workdir l).

(** The entry is the newest one of its manifest in the index *)
Definition newest (index : list iline) (l : iline) : Prop :=
  exists a b, index = a ++ l :: b /\ forall x, In x b -> i_manifest x <> i_manifest l.

(** A file made of complete lines *)
Definition lines_file (ws : list str) : str := concat (map (fun w => w ++ [nl]) ws).
Definition index_file (ls : list iline) : str := concat (map iline_text ls).
