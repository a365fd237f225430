(** Specification vocabulary for C05, C06 (independent of the algorithms). *)
From Coq Require Import ZArith List Bool Sorting.Sorted.
From Verif Require Import Filemap_Model.
Import ListNotations.
Open Scope Z_scope.

(** Block [b] belongs to one of the ranges. *)
Definition covered (rs : list range) (b : Z) : Prop :=
  exists r, In r rs /\ fst r <= b <= snd r.
(** Block [b] belongs to one of the extents (first block, number of blocks). *)
Definition mapped (es : list extent) (b : Z) : Prop :=
  exists e, In e es /\ fst e <= b < fst e + snd e.

(** Ranges are non-empty, ascending and disjoint. *)
Definition ranges_ok (rs : list range) : Prop :=
  Forall (fun r => fst r <= snd r) rs /\ StronglySorted (fun a b => snd a < fst b) rs.
(** ... and moreover never adjacent. *)
Definition ranges_merged (rs : list range) : Prop :=
  Forall (fun r => fst r <= snd r) rs /\ StronglySorted (fun a b => snd a + 1 < fst b) rs.
(** What a file system reports: non-empty, ascending, disjoint extents. *)
Definition extents_ok (es : list extent) : Prop :=
  Forall (fun e => 0 < snd e) es /\ StronglySorted (fun a b => fst a + snd a <= fst b) es.

(** Byte offset [x] of the source lies in a mapped block. *)
Definition byte_mapped (bs : Z) (rs : list range) (x : Z) : Prop :=
  exists r, In r rs /\ fst r * bs <= x < (snd r + 1) * bs.

(** Source offset [x] is inside the window to be copied ([length] = 0: no limit) *)
Definition in_window (src : file) (skip length x : Z) : Prop :=
  skip <= x < f_size src /\ (length <> 0 -> x - skip < length).

(** The lseek interface for a file of [isz] bytes whose data (non-hole) bytes are
    [data]; holes are made of whole blocks of [bs] bytes. -1: nothing found. *)
Definition lseek_ok (data : Z -> Prop) (seek_data seek_hole : Z -> Z) (bs isz : Z) : Prop :=
  (forall x, data x -> 0 <= x < isz) /\
  (forall b x y, b * bs <= x < (b + 1) * bs -> b * bs <= y < (b + 1) * bs -> y < isz ->
     data x -> data y) /\
  (forall off, 0 <= off ->
     (seek_data off = -1 /\ forall x, off <= x -> ~ data x) \/
     (off <= seek_data off /\ data (seek_data off) /\
      forall x, off <= x < seek_data off -> ~ data x)) /\
  (forall off, data off ->
     off < seek_hole off <= isz /\ (forall x, off <= x < seek_hole off -> data x) /\
     ~ data (seek_hole off)).
