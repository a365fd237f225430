(** Vocabulary for C50. *)
From Coq Require Import Ascii String List Bool.
From Verif Require Import Str_Model Mounts_Model.
Import ListNotations.
Open Scope list_scope.

Definition under (dir p : str) : Prop := exists rest, p = dir ++ s_ "/" ++ rest.
(** Nothing is mounted below [dir]. *)
Definition nothing_below (dir : str) (t : table) : Prop := forall m, In m t -> ~ under dir m.
(** Mounts that matter for [dir]: at it, below it, or above it. *)
Definition concerns (dir m : str) : Prop := m = dir \/ under dir m \/ under m dir.
Inductive same_for (dir : str) : table -> table -> Prop :=
| same_nil : same_for dir [] []
| same_left : forall m a b, ~ concerns dir m -> same_for dir a b -> same_for dir (m :: a) b
| same_right : forall m a b, ~ concerns dir m -> same_for dir a b -> same_for dir a (m :: b)
| same_both : forall m a b, concerns dir m -> same_for dir a b -> same_for dir (m :: a) (m :: b).
(** What the other tasks do is none of [dir]'s concern. *)
Definition unrelated (dir : str) (env : nat -> table -> table) : Prop := forall n t, same_for dir (env n t) t.

(** The mounts a root file system needs. *)
Definition needed (c : config) : list str :=
  map (app (root c))
    ([s_ "/dev"; s_ "/dev/shm"; s_ "/dev/pts"; s_ "/proc"; s_ "/sys"; s_ "/isar-work"]
     ++ (if has_firmware c then [s_ "/sys/firmware"] else [])
     ++ (if apt_copied c then [] else [s_ "/isar-apt"])
     ++ (if cached_base c then [s_ "/base-apt"] else [])).
(** All mount commands succeed. *)
Definition mounts_work (c : config) : Prop := (forall p, In p (needed c) -> ok c p = true) /\ slave_ok c = true
  /\ mkdir_ok c (s_ "/isar-work") = true
  /\ (apt_copied c = false -> mkdir_ok c (s_ "/isar-apt") = true)
  /\ (cached_base c = true -> mkdir_ok c (s_ "/base-apt") = true).
Definition succeeds (x : command) : Prop := match x with Plain b => b = true | Unmounting b => b = true end.

(** The line mentions the directory. *)
Definition mentions (base : str) (e : mount_line) : Prop := exists a b, line_text e = a ++ base ++ b.
(** Only mounts that mention the directory are mounted on top of, below or above one that does. *)
Definition separate (base : str) (t : list mount_line) : Prop :=
  forall later e earlier x, t = later ++ e :: earlier -> mentions base e -> In x later ->
    mtarget x = mtarget e \/ under (mtarget e) (mtarget x) \/ under (mtarget x) (mtarget e) -> mentions base x.
(** [b] is [a] without the elements that satisfy [p]. *)
Inductive without {A} (p : A -> Prop) : list A -> list A -> Prop :=
| without_nil : without p [] []
| without_skip : forall x a b, p x -> without p a b -> without p (x :: a) b
| without_keep : forall x a b, ~ p x -> without p a b -> without p (x :: a) (x :: b).

(** The task was started in this build and has not failed since. *)
Definition already_started (h : list build_event) (k : str) : Prop :=
  exists h1 h2, h = h1 ++ TaskStarted k :: h2 /\ ~ In BuildStarted h2 /\ ~ In (TaskFailed k) h2.

(** Command i of the list acquires, releases. *)
Definition acquires (l : list locked_command) (i : nat) : Prop := exists r o, nth_error l i = Some (true, r, o).
Definition releases (l : list locked_command) (i : nat) : Prop := exists a o, nth_error l i = Some (a, true, o).
(** The lock was acquired before command i and not released before it. *)
Definition protected (l : list locked_command) (i : nat) : Prop :=
  exists j, j <= i /\ acquires l j /\ forall k, j <= k -> k < i -> ~ releases l k.
