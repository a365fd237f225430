(** What is said about moves and copies of files. *)
From Coq Require Import Ascii String List Bool Arith.
From Verif Require Import Str_Model Moves_Model.
Import ListNotations.
Open Scope list_scope.

(** A file with this content is there. *)
Definition holds (s : fs) (p : str) (c : str) : Prop := exists m, look s p = Some (File c m).
(** Where a file is moved to: into dest if that is a directory. *)
Definition target (s : fs) (src dest : str) : str := match look s dest with Some Dir => dest ++ s_ "/" ++ last (split_on "/"%char src) [] | _ => dest end.
(** Every name stands for a node that was made. *)
Definition sound (s : fs) : Prop := forall p i, names s p = Some i -> i < fresh s.
(** Two names of different files. *)
Definition apart (s : fs) (p q : str) : Prop := p <> q /\ forall i, names s p = Some i -> names s q <> Some i.
(** Nothing is at this name, or a file that has no other name. *)
Definition spare (s : fs) (p : str) : Prop := match names s p with None => True | Some j => (exists c m, nodes s j = File c m) /\ forall q, names s q = Some j -> q = p end.
(** A file with content [c] that is to be moved; it is not its own target, and the name of the
    temporary file beside the target (with #new) is free. *)
Definition movable (s : fs) (src dest c : str) (m : meta) : Prop :=
  sound s /\ look s src = Some (File c m) /\ apart s src (target s src dest) /\ src <> new_of (target s src dest) /\ spare s (new_of (target s src dest)).
(** A file that is to be copied, maybe over itself. *)
Definition copyable (s : fs) (src dest c : str) (m : meta) : Prop :=
  sound s /\ look s src = Some (File c m) /\ src <> new_of dest /\ spare s (new_of dest).
