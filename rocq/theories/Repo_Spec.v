(** What a repository should hold. *)
From Coq Require Import String Ascii List Bool Arith.
From Verif Require Import Str_Model Repo_Model.
Import ListNotations.
Open Scope list_scope.

(** The package of that name and architecture in the repository *)
Definition holds (idx : list pkg) (n a : str) (p : pkg) : Prop := In p idx /\ k_name p = n /\ k_arch p = a.
(** One package for each name and architecture *)
Definition one_each (idx : list pkg) : Prop :=
  forall p q, In p idx -> In q idx -> k_name p = k_name q -> k_arch p = k_arch q -> p = q.
(** A file name has one content *)
Definition unambiguous (ps : list pkg) : Prop :=
  forall p q, In p ps -> In q ps -> k_name p = k_name q -> k_arch p = k_arch q -> k_ver p = k_ver q -> p = q.
Section Order.
Variable newer : str -> str -> bool.
(** Debian's order of versions is a strict order in which two different versions can be compared *)
Definition version_order : Prop :=
  (forall v, newer v v = false) /\ (forall u v w, newer u v = true -> newer v w = true -> newer u w = true) /\
  (forall v w, v <> w -> newer v w = true \/ newer w v = true).
(** The newest of the packages of that name and architecture *)
Definition newest (avail : pkg -> Prop) (n a : str) (p : pkg) : Prop :=
  (avail p /\ k_name p = n /\ k_arch p = a) /\
  forall q, avail q -> k_name q = n -> k_arch q = a -> newer (k_ver q) (k_ver p) = false.
End Order.
(** The packages are given the same name in the pool *)
Definition same_pool_file (p q : pkg) : Prop := k_name p = k_name q /\ k_arch p = k_arch q /\ k_ver p = k_ver q.
(** Packages of a list, and those of a repository that have no counterpart of another content in the list *)
Definition offered (ps idx : list pkg) (q : pkg) : Prop :=
  In q ps \/ (In q idx /\ ~ exists f, In f ps /\ same_pool_file f q).
Definition has_key (ps : list pkg) (n a : str) : Prop := exists p, holds ps n a p.
