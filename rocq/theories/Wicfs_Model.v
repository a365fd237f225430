(** Model of what wic makes of the lines of a kickstart file besides the layout: numbers
    and identifiers of partitions, the lines of /etc/fstab, the root device, sizes of file
    systems, and the files they are made in (scripts/lib/wic/plugins/imager/direct.py,
    partition.py, ksparser.py). *)
From Coq Require Import Ascii String List Bool NArith.
From Verif Require Import Str_Model.
Import ListNotations.
Open Scope list_scope.

Inductive ptable := MSDOS | GPT | HYBRID.
Definition gpt (f : ptable) : bool := match f with MSDOS => false | _ => true end.
(** partition.py 24-68, the fields used here.  An option that was not given is the empty
    string (Python: None; both are false).  The overhead factor is a fraction (Python: a
    float). *)
Record part := mkPart {
  disk : str; mount : str; fstype : str; label : str; uuid : str; fsuuid : str; fsopts : str; passno : str; part_name : str; source : str;
  use_uuid : bool; use_label : bool; no_table : bool;
  size : N; fixed : N; extra : N; factor : N * N;
  realnum : N; line : N }.
Definition set_num (p : part) (n : N) : part :=
  mkPart (disk p) (mount p) (fstype p) (label p) (uuid p) (fsuuid p) (fsopts p) (passno p) (part_name p) (source p) (use_uuid p) (use_label p) (no_table p) (size p) (fixed p) (extra p) (factor p) n (line p).
Definition set_ids (p : part) (u fu : str) : part :=
  mkPart (disk p) (mount p) (fstype p) (label p) u fu (fsopts p) (passno p) (part_name p) (source p) (use_uuid p) (use_label p) (no_table p) (size p) (fixed p) (extra p) (factor p) (realnum p) (line p).
Definition none (s : str) : bool := match s with [] => true | _ => false end.
Definition fat (p : part) : bool := seqb (fstype p) (s_ "vfat") || seqb (fstype p) (s_ "msdos").

(** str.upper on ASCII, str.rjust(8, "0"), %08x, %02d *)
Definition to_upper (c : ascii) : ascii := if is_lower c then ascii_of_N (N_of_ascii c - 32) else c.
Definition upper (s : str) : str := map to_upper s.
Definition rjust (k : nat) (s : str) : str := repeat "0"%char (k - length s) ++ s.
Definition lower_digit (d : N) : ascii := ascii_of_N (if (d <? 10)%N then 48 + d else 87 + d).
Fixpoint hexpad (dig : N -> ascii) (k : nat) (n : N) : str :=
  match k with 0 => [] | S k => hexpad dig k (n / 16) ++ [dig (n mod 16)%N] end.
Definition pad2 (n : N) : str := rjust 2 (dec n).

(** ksparser.py 222-279: what is refused for a partition line; for FAT the length only *)
Definition ks_ok (p : part) : bool :=
  negb (seqb (fstype p) (s_ "squashfs") && (negb (none (fsuuid p)) || negb (none (label p)))) &&
  negb (seqb (fstype p) (s_ "erofs") && negb (none (label p))) &&
  negb (fat p && negb (none (fsuuid p)) && (if startswith (s_ "0X") (upper (fsuuid p)) then Nat.ltb 10 (length (fsuuid p)) else Nat.ltb 8 (length (fsuuid p)))) &&
  negb (use_label p && none (label p)).

(** direct.py 326-340 *)
Fixpoint number (f : ptable) (nreal n : N) (ps : list part) : list part :=
  match ps with
  | [] => []
  | p :: ps =>
      if no_table p then set_num p 0 :: number f nreal n ps
      else let n := (n + 1)%N in set_num p (if negb (gpt f) && (3 <? n)%N && (4 <? nreal)%N then n + 1 else n)%N :: number f nreal n ps
  end.
Definition num_real (ps : list part) : N := N.of_nat (length (filter (fun p => negb (no_table p)) ps)).

Section Ids.
(** The results of str(uuid.uuid4()), one after the other; the identifier of the disk *)
Variable uuid4 : nat -> str.
Variable ident : N.
(** direct.py 344-348 *)
Definition part_uuid (f : ptable) (k : nat) (p : part) : str * nat :=
  if none (uuid p) && use_uuid p then
    if gpt f then (uuid4 k, S k) else (hexpad lower_digit 8 ident ++ s_ "-" ++ pad2 (realnum p), k)
  else (uuid p, k).
(** direct.py 349-360 *)
Definition fs_uuid (k : nat) (p : part) : str * nat :=
  if none (fsuuid p) then (if fat p then s_ "0x" ++ upper (firstn 8 (uuid4 k)) else uuid4 k, S k)
  else if fat p then
    (if startswith (s_ "0X") (upper (fsuuid p)) then s_ "0x" ++ rjust 8 (skipn 2 (upper (fsuuid p))) else s_ "0x" ++ rjust 8 (upper (fsuuid p)), k)
  else (fsuuid p, k).
Fixpoint identify (f : ptable) (k : nat) (ps : list part) : list part :=
  match ps with
  | [] => []
  | p :: ps => let '(u, k) := part_uuid f k p in let '(fu, k) := fs_uuid k p in set_ids p u fu :: identify f k ps
  end.
(** direct.py 303-360 *)
Definition init_parts (f : ptable) (ps : list part) : list part := identify f 0 (number f (num_real ps) 0 ps).
End Ids.

(** direct.py 121-138 *)
Definition dev_node (p : part) : str := s_ "/dev/" ++ disk p ++ (if startswith (s_ "mmcblk") (disk p) then s_ "p" else []) ++ dec (realnum p).
Definition device_name (p : part) : str :=
  if use_uuid p then
    if negb (none (fsuuid p)) then
      if Nat.eqb (length (fsuuid p)) 10 then s_ "UUID=" ++ firstn 4 (skipn 2 (fsuuid p)) ++ s_ "-" ++ skipn 6 (fsuuid p)
      else s_ "UUID=" ++ fsuuid p
    else s_ "PARTUUID=" ++ uuid p
  else if use_label p then s_ "LABEL=" ++ label p
  else dev_node p.
(** direct.py 117-119 *)
Definition in_fstab (p : part) : bool :=
  negb (N.eqb (realnum p) 0) && negb (none (mount p)) && (startswith (s_ "/") (mount p) || seqb (mount p) (s_ "swap")).
(** direct.py 140-143 *)
Definition tab : str := ["009"%char].
Definition fstab_line (p : part) : str :=
  join tab [device_name p; mount p; fstype p; if none (fsopts p) then s_ "defaults" else fsopts p; s_ "0"; if none (passno p) then s_ "0" else passno p] ++ [nl].
(** direct.py 105-155 (the time of the file is not modelled): the content of the new file;
    None: no new file *)
Definition update_fstab (content : str) (ps : list part) : option str :=
  match filter in_fstab ps with [] => None | l => Some (content ++ concat (map fstab_line l)) end.
(** direct.py 254-270; None: no root partition *)
Fixpoint rootdev (f : ptable) (ps : list part) : option str :=
  match ps with
  | [] => None
  | p :: ps =>
      if seqb (mount p) (s_ "/") then
        Some (if negb (none (uuid p)) then s_ "PARTUUID=" ++ uuid p
              else if negb (none (label p)) && gpt f then s_ "PARTLABEL=" ++ label p
              else dev_node p)
      else rootdev f ps
  end.
(** What is put on the disk.  direct.py 624-645: name and GUID in the table, for gpt only;
    467 and 672: the identifier of the disk.  partition.py: the identifier given to mkfs
    (293, 367, 391, 431, 466, 510, 529; none for squashfs 413-415). *)
Definition table_name (f : ptable) (p : part) : option str :=
  if gpt f && negb (none (part_name p) && none (label p)) then Some (if none (part_name p) then label p else part_name p) else None.
Definition table_guid (f : ptable) (p : part) : option str := if gpt f && negb (none (uuid p)) then Some (uuid p) else None.
Definition made_with (p : part) : option str := if seqb (fstype p) (s_ "squashfs") || seqb (fstype p) (s_ "none") then None else Some (fsuuid p).

(** ** Sizes *)
(** partition.py 70-91 *)
Definition extra_blocks (p : part) (current : N) : N :=
  if (size p =? 0)%N then 0%N else if (current <? size p)%N then (size p - current)%N else 0%N.
(** partition.py 93-118; None: WicError *)
Definition rootfs_size (p : part) (actual : N) : option N :=
  if negb (fixed p =? 0)%N then (if (fixed p <? actual)%N then None else Some (fixed p))
  else let e := extra_blocks p actual in let e := if (e <? extra p)%N then extra p else e in
       Some ((actual + e) * fst (factor p) / snd (factor p))%N.
(** partition.py 120-128 *)
Definition disk_size (p : part) : N := if (fixed p =? 0)%N then size p else fixed p.
(** A file: its name in the working directory, its length in KiB, and the size the file
    system in it is made with, in KiB *)
Record image := mkImage { file : str; kib : N; fs_kib : N }.
Definition shown (s : str) : str := if none s then s_ "None" else s.
(** partition.py 140-168 with 448-531: a partition without a source; None: WicError *)
Definition empty_image (p : part) : option (option image) :=
  if seqb (fstype p) (s_ "none") || no_table p then Some None
  else if (size p =? 0)%N && (fixed p =? 0)%N then None
  else if seqb (fstype p) (s_ "swap") then Some (Some (mkImage (s_ "fs.swap") (size p) (size p)))
  else if seqb (fstype p) (s_ "squashfs") || seqb (fstype p) (s_ "erofs") then None
  else Some (Some (mkImage (s_ "fs_" ++ shown (label p) ++ s_ "." ++ dec (line p) ++ s_ "." ++ fstype p) (disk_size p) (if seqb (fstype p) (s_ "btrfs") then size p else disk_size p))).
(** partition.py 206-267, for the file systems whose size is computed here (ext, btrfs, FAT):
    a partition made of a directory with [actual] KiB.  The file is as long as the file
    system is made. *)
Definition rootfs_image (p : part) (actual : N) : option image :=
  match rootfs_size p actual with
  | Some n => Some (mkImage (s_ "rootfs_" ++ shown (label p) ++ s_ "." ++ dec (line p) ++ s_ "." ++ fstype p) n n)
  | None => None
  end.
(** direct.py 693-707: every file is copied to its place and then renamed; None: the file is
    not there *)
Fixpoint assemble (files : list str) (sources : list str) : option (list str) :=
  match sources with
  | [] => Some files
  | s :: sources => if mem_str s files then assemble (filter (fun f => negb (seqb f s)) files) sources else None
  end.
