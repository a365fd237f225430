(** Specification vocabulary for the wic layout properties (C01-C04), written
    without using the layout algorithm of [WicLayout_Model]. *)
From Coq Require Import ZArith List Bool Sorting.Sorted.
From Verif Require Import WicLayout_Model.
Import ListNotations.
Open Scope Z_scope.

(** First sector after the partition table header. *)
Definition first_usable (t : ptable) : Z := match t with Msdos => 1 | _ => 34 end.
(** Sectors needed behind the last partition (GPT backup table). *)
Definition tail_sectors (t : ptable) : Z := match t with Msdos => 0 | _ => 34 end.
(** Sectors reserved in front of a partition (EBR of logical partitions). *)
Definition ebr (t : ptable) (q : placed) : Z :=
  match t, pl_type q with Msdos, Logical => 2 | _, _ => 0 end.

Definition pl_end (q : placed) : Z := pl_start q + pl_size q.

(** [x] is the least multiple of [m] that is not below [lo]. *)
Definition least_multiple (m lo x : Z) : Prop :=
  lo <= x /\ (m | x) /\ forall y, lo <= y -> (m | y) -> x <= y.

(** Where alignment (in KiB, 0 = none) alone would put a partition when [lo]
    is the first free sector. *)
Definition aligned_pos (align lo x : Z) : Prop :=
  if align =? 0 then x = lo else least_multiple (2 * align) lo x.

(** [q] is the right place for [p] if the space before sector [free] is taken. *)
Definition place_ok (t : ptable) (free : Z) (p : part) (q : placed) : Prop :=
  pl_size q = 2 * pt_disk_size p /\
  match pt_offset p with
  | None => aligned_pos (pt_align p) (free + ebr t q) (pl_start q)
  | Some o => pl_start q * 512 = o /\
              exists a, aligned_pos (pt_align p) (free + ebr t q) a /\ a <= pl_start q
  end.

(** The whole list is laid out one after the other from sector [free] on. *)
Inductive laid (t : ptable) : Z -> list part -> list placed -> Prop :=
| laid_nil : forall free, laid t free [] []
| laid_cons : forall free p ps q qs,
    place_ok t free p q -> laid t (pl_end q) ps qs -> laid t free (p :: ps) (q :: qs).

(** Options that cannot be combined with the table type. *)
Definition forbidden (t : ptable) (p : part) : Prop :=
  (t = Msdos /\ (pt_has_name p = true \/ pt_has_ptype p = true)) \/
  (t <> GptHybrid /\ pt_mbr p = true).

(** Sane inputs: argparse lets negative --align through, see
    [wic_negative_align_refuted]. *)
Definition sane (p : part) : Prop := 0 <= pt_align p /\ 0 <= pt_disk_size p.

Definition before (a b : placed) : Prop := pl_end a <= pl_start b.

(** Number of primary slots (primary and extended entries) of a table. *)
Definition slot (e : entry) : bool := match e_kind e with ELogical => false | _ => true end.
Definition not_extended (e : entry) : bool := match e_kind e with EExtended => false | _ => true end.

(** After the first logical partition of the table nothing else than logical
    partitions of the table without --offset follow. *)
Fixpoint gapfree (pqs : list (part * placed)) : Prop :=
  match pqs with
  | [] => True
  | (p, q) :: rest =>
      if negb (pt_no_table p) && is_logical (pl_type q)
      then Forall (fun pq => pt_offset (fst pq) = None /\ pt_no_table (fst pq) = false
                             /\ pl_type (snd pq) = Logical) rest
      else gapfree rest
  end.

(** A logical entry and its two EBR sectors are inside an extended entry. *)
Definition inside (ext log : entry) : Prop :=
  e_start ext <= e_start log - 2 /\
  e_start log + e_size log <= e_start ext + e_size ext.
