(** Model of the wic partition layout.
    Source: /repo/scripts/lib/wic/plugins/imager/direct.py.
    Integers are Z (Python ints).  [Z.modulo]/[Z.div] are floor based, as
    Python's [%] and [//].  Definitions only. *)
From Coq Require Import ZArith List Bool.
Import ListNotations.
Open Scope Z_scope.

(** direct.py 289-296: MBR_OVERHEAD, GPT_OVERHEAD, SECTOR_SIZE *)
Definition MBR_OVERHEAD : Z := 1.
Definition GPT_OVERHEAD : Z := 34.
Definition SECTOR_SIZE : Z := 512.

(** ksparser.py 196: --ptable choices *)
Inductive ptable := Msdos | Gpt | GptHybrid.
(** ksparser.py 172-173: --type choices *)
Inductive ptype := Primary | Logical.

Definition is_msdos (t : ptable) : bool := match t with Msdos => true | _ => false end.
Definition is_hybrid (t : ptable) : bool := match t with GptHybrid => true | _ => false end.
Definition is_gptish (t : ptable) : bool := match t with Msdos => false | _ => true end.
Definition is_logical (t : ptype) : bool := match t with Logical => true | _ => false end.

(** The attributes of a wic Partition that the layout reads
    (partition.py 27-66).  [pt_align] is 0 when --align is absent: direct.py
    429 only tests truth.  [pt_disk_size] is [Partition.disk_size] in KiB
    (partition.py 118-125).  [pt_bootfat] abstracts the test of direct.py
    607-608 (mountpoint "/boot" and fstype vfat/msdos). *)
Record part := Part {
  pt_has_name : bool;      (* --part-name given *)
  pt_has_ptype : bool;     (* --part-type given *)
  pt_mbr : bool;           (* --mbr *)
  pt_no_table : bool;      (* --no-table *)
  pt_type : ptype;         (* --type *)
  pt_align : Z;            (* --align, KiB, 0 = none *)
  pt_offset : option Z;    (* --offset, bytes *)
  pt_disk_size : Z;        (* KiB *)
  pt_bootfat : bool
}.

(** direct.py 372-373: KiB to sectors *)
Definition size_sec (p : part) : Z := pt_disk_size p * 1024 / SECTOR_SIZE.

(** direct.py 326 and 384: number of partitions in the table *)
Definition num_real (ps : list part) : Z :=
  Z.of_nat (length (filter (fun p => negb (pt_no_table p)) ps)).

(** direct.py 329-340: realnum, used for fstab and root= *)
Fixpoint realnums_from (t : ptable) (nreal : Z) (realnum : Z) (ps : list part) : list Z :=
  match ps with
  | [] => []
  | p :: ps' =>
      if pt_no_table p then 0 :: realnums_from t nreal realnum ps'
      else
        let r := realnum + 1 in
        (if is_msdos t && (3 <? r) && (4 <? nreal) then r + 1 else r)
          :: realnums_from t nreal r ps'
  end.
Definition realnums (t : ptable) (ps : list part) : list Z :=
  realnums_from t (num_real ps) 0 ps.

(** direct.py 303-314: the counters of PartitionedImage *)
Record lstate := LState {
  l_numpart : Z; l_realpart : Z; l_primary : Z; l_extpart : Z;
  l_extsize : Z; l_logcnt : Z; l_offset : Z
}.
Definition lstate0 : lstate := LState 0 0 0 0 0 0 0.

(** What layout_partitions stores in a partition: part.start, part.size_sec,
    part.num, part.type. *)
Record placed := Placed { pl_start : Z; pl_size : Z; pl_num : Z; pl_type : ptype }.

(** direct.py 410-417: header overhead, added before the first partition *)
Definition overhead (t : ptable) : Z :=
  if is_msdos t then MBR_OVERHEAD else GPT_OVERHEAD.

(** direct.py 428-449: sectors skipped for --align *)
Definition align_skip (align off : Z) : Z :=
  if align =? 0 then 0
  else
    let a := align * 1024 / SECTOR_SIZE in
    let r := off mod a in
    if r =? 0 then 0 else a - r.

(** direct.py 419-426: effective type (msdos only) *)
Definition eff_type (t : ptable) (nreal : Z) (s : lstate) (p : part) : ptype :=
  if is_msdos t then
    if (3 <? l_primary s) ||
       ((l_extpart s =? 0) && (3 <=? l_primary s) && (4 <? nreal))
    then Logical else pt_type p
  else pt_type p.

(** direct.py 387-492: one iteration of the loop; [None] is WicError. *)
Definition layout_step (t : ptable) (nreal : Z) (s : lstate) (p : part)
  : option (lstate * placed) :=
  if is_msdos t && pt_has_name p then None else            (* 390-392 *)
  if is_msdos t && pt_has_ptype p then None else           (* 394-399 *)
  if pt_mbr p && negb (is_hybrid t) then None else         (* 401-403 *)
  let numpart := l_numpart s + 1 in                        (* 406 *)
  let realpart := if pt_no_table p then l_realpart s else l_realpart s + 1 in
  let off0 := if numpart =? 1 then l_offset s + overhead t else l_offset s in
  let ty := eff_type t nreal s p in
  let off1 := if is_msdos t && is_logical ty then off0 + 2 else off0 in
  let skip := align_skip (pt_align p) off1 in
  let off2 := off1 + skip in
  let placed_at :=                                         (* 451-464 *)
    match pt_offset p with
    | None => Some off2
    | Some o =>
        let os := o / SECTOR_SIZE in
        if negb (os * SECTOR_SIZE =? o) then None
        else if os - off2 <? 0 then None
        else Some os
    end in
  match placed_at with
  | None => None
  | Some start =>
      let sz := size_sec p in
      let off3 := start + sz in                            (* 466-467 *)
      if is_msdos t && negb (pt_no_table p) then           (* 474 *)
        match ty with
        | Logical =>                                       (* 475-484 *)
            let cnt := l_logcnt s + 1 in
            let num := cnt + 4 in
            if l_extpart s =? 0 then
              Some (LState numpart realpart (l_primary s + 1) num
                           (l_extsize s + (sz + 2)) cnt off3,
                    Placed start sz num ty)
            else
              Some (LState numpart realpart (l_primary s) (l_extpart s)
                           (l_extsize s + skip + (sz + 2)) cnt off3,
                    Placed start sz num ty)
        | Primary =>                                       (* 485-487 *)
            Some (LState numpart realpart (l_primary s + 1) (l_extpart s)
                         (l_extsize s) (l_logcnt s) off3,
                  Placed start sz (l_primary s + 1) ty)
        end
      else
        Some (LState numpart realpart (l_primary s) (l_extpart s)
                     (l_extsize s) (l_logcnt s) off3,
              Placed start sz (if pt_no_table p then 0 else realpart) ty)
  end.

Fixpoint layout_from (t : ptable) (nreal : Z) (s : lstate) (ps : list part)
  : option (lstate * list placed) :=
  match ps with
  | [] => Some (s, [])
  | p :: ps' =>
      match layout_step t nreal s p with
      | None => None
      | Some (s1, q) =>
          match layout_from t nreal s1 ps' with
          | None => None
          | Some (s2, qs) => Some (s2, q :: qs)
          end
      end
  end.

(** direct.py 375-492 *)
Definition layout (t : ptable) (ps : list part) : option (lstate * list placed) :=
  layout_from t (num_real ps) lstate0 ps.

(** direct.py 494-501: size of the image file in bytes *)
Definition min_size (t : ptable) (extra : Z) (s : lstate) : Z :=
  (l_offset s + (if is_gptish t then GPT_OVERHEAD else 0)) * SECTOR_SIZE + extra.

(** direct.py 556-622: the mkpart commands issued.  An entry is
    (kind, start, size).  [None] is the WicError of lines 620 and 673.
    Everything else in create() decorates entries (names, flags, types). *)
Inductive entry_kind := EPrimary | EExtended | ELogical.
Record entry := Entry { e_kind : entry_kind; e_start : Z; e_size : Z }.

Definition kind_of (ty : ptype) : entry_kind :=
  match ty with Primary => EPrimary | Logical => ELogical end.

(** direct.py 605-612 *)
Definition created_size (p : part) (q : placed) : Z :=
  if pt_bootfat p && negb (pl_size q mod 2 =? 0) then pl_size q - 1 else pl_size q.

(** direct.py 573-615: commands for the main table *)
Fixpoint create_entries (t : ptable) (s : lstate) (pqs : list (part * placed)) : list entry :=
  match pqs with
  | [] => []
  | (p, q) :: rest =>
      if pl_num q =? 0 then create_entries t s rest
      else
        (if is_msdos t && (pl_num q =? l_extpart s)
         then [Entry EExtended (pl_start q - 2) (l_extsize s)] else [])
        ++ Entry (kind_of (pl_type q)) (pl_start q) (created_size p q)
        :: create_entries t s rest
  end.

(** direct.py 617-622 and 669-678: entries of the hybrid MBR, including the
    protective one; more than four is an error *)
Definition hybrid_count (pqs : list (part * placed)) : Z :=
  Z.of_nat (length (filter (fun pq => pt_mbr (fst pq) && negb (pl_num (snd pq) =? 0)) pqs)).
Definition create (t : ptable) (s : lstate) (pqs : list (part * placed)) : option (list entry) :=
  if is_hybrid t && (4 <? hybrid_count pqs + 1) then None
  else Some (create_entries t s pqs).

(** External tool: the number `parted mkpart` gives to a new entry.  For
    msdos, primary and extended entries get the lowest free number and logical
    ones are numbered from 5 in order of their position; since starts are
    increasing the n-th created logical entry gets 4+n.  For GPT the lowest
    free number is used.  As no entry is ever removed, the lowest free number
    is one more than the number of entries of that class. *)
Definition is_elogical (k : entry_kind) : bool :=
  match k with ELogical => true | _ => false end.
Fixpoint parted_numbers (t : ptable) (nprim nlog : Z) (es : list entry) : list Z :=
  match es with
  | [] => []
  | e :: es' =>
      if is_msdos t && is_elogical (e_kind e)
      then (4 + (nlog + 1)) :: parted_numbers t nprim (nlog + 1) es'
      else (nprim + 1) :: parted_numbers t (nprim + 1) nlog es'
  end.
