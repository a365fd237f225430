(** Model of /repo/scripts/lib/wic/filemap.py: extent enumeration (FIEMAP and
    SEEK_DATA/SEEK_HOLE), range merging and [sparse_copy].
    Offsets, sizes and block numbers are Z.  Definitions only. *)
From Coq Require Import ZArith List Bool.
Import ListNotations.
Open Scope Z_scope.

(** Byte values are kept abstract as Z. *)
Definition byte := Z.
(** A file: its size and its content (only offsets below the size matter). *)
Record file := File { f_size : Z; f_data : Z -> byte }.

(** An inclusive range of block numbers, as yielded by the generators. *)
Definition range := (Z * Z)%type.

(* ------------------------------------------------------------------ *)
(** FIEMAP.  An extent of the file: first block and number of blocks (both are
    block aligned: the assertions of lines 445-446 are assumed to hold). *)
Definition extent := (Z * Z)%type.
Definition ext_first (e : extent) := fst e.
Definition ext_end (e : extent) := fst e + snd e.

(** Lines 348-389, external: the ioctl reports, in file order, the (whole)
    extents that overlap the blocks [block, block+count), at most [cap] of
    them (the buffer size, line 337). *)
Definition fiemap_ioctl (exts : list extent) (cap : nat) (block count : Z) : list extent :=
  firstn cap (filter (fun e => (block <? ext_end e) && (ext_first e <? block + count)) exts).

(** Lines 431-455: walk over the extents of one ioctl call.  Result: yielded
    ranges, and the next block, or None if the generator returned (448-449). *)
Fixpoint fiemap_walk (start count block : Z) (es : list extent) (cur : Z)
  : list range * option Z :=
  match es with
  | [] => ([], Some cur)
  | e :: es' =>
      if start + count - 1 <? ext_first e then ([], None)
      else
        let first := Z.max (ext_first e) block in
        let last := Z.min (ext_end e) (start + count) - 1 in
        let '(rs, nxt) := fiemap_walk start count block es' (ext_end e) in
        ((first, last) :: rs, nxt)
  end.

(** Lines 413-457.  [None]: out of fuel (the Python loop would not stop). *)
Fixpoint do_get_mapped (fuel : nat) (exts : list extent) (cap : nat)
  (start count block : Z) : option (list range) :=
  match fuel with
  | O => None
  | S fuel' =>
      if block <? start + count then
        match fiemap_ioctl exts cap block count with
        | [] => Some []
        | es =>
            let '(rs, nxt) := fiemap_walk start count block es block in
            match nxt with
            | None => Some rs
            | Some b => match do_get_mapped fuel' exts cap start count b with
                        | None => None
                        | Some rs' => Some (rs ++ rs')
                        end
            end
        end
      else Some []
  end.

(** Lines 466-477: merging of consecutive ranges *)
Fixpoint merge_from (prev : range) (rs : list range) : list range :=
  match rs with
  | [] => [prev]
  | r :: rs' =>
      if snd prev =? fst r - 1 then merge_from (fst prev, snd r) rs'
      else prev :: merge_from r rs'
  end.

(** Lines 459-477.  [None]: `next(iterator)` on an empty iterator raises
    StopIteration inside a generator, i.e. RuntimeError (PEP 479). *)
Definition merge_ranges (rs : list range) : option (list range) :=
  match rs with
  | [] => None
  | r :: rs' => Some (merge_from r rs')
  end.

Definition fiemap_ranges (fuel : nat) (exts : list extent) (cap : nat) (start count : Z)
  : option (list range) :=
  match do_get_mapped fuel exts cap start count start with
  | None => None
  | Some rs => merge_ranges rs
  end.

(* ------------------------------------------------------------------ *)
(** Lines 257-282 (FilemapSeek._get_ranges with SEEK_DATA, SEEK_HOLE).
    [seek_data]/[seek_hole] are the lseek calls; -1 is ENXIO (see _lseek). *)
Fixpoint seek_ranges (fuel : nat) (seek_data seek_hole : Z -> Z)
  (bs image_size blocks_cnt limit : Z) (end_ : Z) : option (list range) :=
  match fuel with
  | O => None
  | S fuel' =>
      let start := seek_data end_ in
      if (start =? -1) || (limit <=? start) || (start =? image_size) then Some []
      else
        let e0 := seek_hole start in
        let e1 := if (e0 =? -1) || (e0 =? image_size) then blocks_cnt * bs else e0 in
        let e2 := if limit <? e1 then limit else e1 in
        match seek_ranges fuel' seek_data seek_hole bs image_size blocks_cnt limit e2 with
        | None => None
        | Some rs => Some ((start / bs, e2 / bs - 1) :: rs)
        end
  end.
Definition filemap_seek (fuel : nat) (seek_data seek_hole : Z -> Z)
  (bs image_size blocks_cnt start count : Z) : option (list range) :=
  seek_ranges fuel seek_data seek_hole bs image_size blocks_cnt
              (start * bs + count * bs) (start * bs).

(* ------------------------------------------------------------------ *)
(** sparse_copy, lines 520-583. *)

(** read(size) at source position [pos]: number of bytes actually read *)
Definition read_len (src : file) (pos size : Z) : Z :=
  Z.max 0 (Z.min size (f_size src - pos)).

(** write of the [n] source bytes at [spos] to position [dpos] *)
Definition write_at (dst src : file) (dpos spos n : Z) : file :=
  if n <=? 0 then dst
  else File (Z.max (f_size dst) (dpos + n))
            (fun i => if (dpos <=? i) && (i <? dpos + n) then f_data src (spos + (i - dpos))
                      else f_data dst i).

(** Result of the chunk loop: finished range (with the new [written]), or the
    early return of lines 580-582. *)
Inductive chunk_res := CMore (dst : file) (written : Z) | CReturn (dst : file) | CFuel.

(** Lines 566-582; [spos]/[dpos] are the file positions, [chunk] is 1 MiB. *)
Fixpoint chunk_loop (fuel : nat) (src dst : file) (length : Z) (chunk : Z)
  (to_read read written spos dpos : Z) : chunk_res :=
  match fuel with
  | O => CFuel
  | S fuel' =>
      if read <? to_read then
        let chunk' := if to_read <? read + chunk then to_read - read else chunk in
        let size := if negb (length =? 0) && (length <? written + chunk')
                    then length - written else chunk' in
        let n := read_len src spos size in
        let dst' := write_at dst src dpos spos n in
        let written' := written + size in
        if written' =? length then CReturn dst'
        else chunk_loop fuel' src dst' length chunk' to_read (read + size) written'
                        (spos + n) (dpos + n)
      else CMore dst written
  end.

(** Lines 546-583: loop over the mapped ranges.  [None] = fuel. *)
Fixpoint copy_ranges (src dst : file) (bs skip seek length chunk : Z)
  (rs : list range) : option file :=
  match rs with
  | [] => Some dst
  | (first, last) :: rs' =>
      let start0 := first * bs in
      let end_ := (last + 1) * bs in
      if end_ <=? skip then copy_ranges src dst bs skip seek length chunk rs'
      else
        let start := if (start0 <? skip) && (skip <? end_) then skip else start0 in
        let written := start - skip in                         (* line 558 *)
        if negb (length =? 0) && (length <=? written) then Some dst
        else
          match chunk_loop (S (Z.to_nat (end_ - start))) src dst length chunk
                           (end_ - start) 0 written start (seek + start - skip) with
          | CFuel => None
          | CReturn dst' => Some dst'
          | CMore dst' _ => copy_ranges src dst' bs skip seek length chunk rs'
          end
  end.

(** Line 566 *)
Definition CHUNK : Z := 1024 * 1024.

(** Lines 535-543: [dst] is None when the destination cannot be opened r+b *)
Definition open_dst (src : file) (dst : option file) (skip seek length : Z) : file :=
  match dst with
  | Some d => d
  | None => File (if length =? 0 then f_size src + seek - skip else length + seek)
                 (fun _ => 0)
  end.

Definition sparse_copy (src : file) (ranges : list range) (bs : Z) (dst : option file)
  (skip seek length : Z) : option file :=
  copy_ranges src (open_dst src dst skip seek length) bs skip seek length CHUNK ranges.
