(** What the claims on fstab lines, root devices and sizes mean. *)
From Coq Require Import Ascii String List Bool NArith.
From Verif Require Import Str_Model Wicfs_Model.
Import ListNotations.
Open Scope list_scope.

(** The fields of a line of fstab(5): what is between white space *)
Definition fields (l : str) : list str := split_ws l.
Definition plain (w : str) : Prop := w <> [] /\ forall c, In c w -> is_space c = false.
(** Linux, disk_name: a p between name and number if the name ends with a digit *)
Definition node_of (d : str) (n : N) : str := d ++ (match rev d with c :: _ => if is_digit c then s_ "p" else [] | [] => [] end) ++ dec n.
(** Linux, block/partitions/msdos.c: %08x-%02x *)
Definition kernel_digit (d : N) : ascii := nth (N.to_nat d) (s_ "0123456789abcdef") "0"%char.
Definition msdos_partuuid (ident n : N) : str := hexpad kernel_digit 8 ident ++ s_ "-" ++ hexpad kernel_digit 2 n.
(** What the kernel finds as partition [p] (number [realnum p] of its disk) *)
Inductive finds (f : ptable) (ident : N) (p : part) : str -> Prop :=
| by_guid u : table_guid f p = Some u -> finds f ident p (s_ "PARTUUID=" ++ u)
| by_id : gpt f = false -> finds f ident p (s_ "PARTUUID=" ++ msdos_partuuid ident (realnum p))
| by_name l : table_name f p = Some l -> finds f ident p (s_ "PARTLABEL=" ++ l)
| by_node : finds f ident p (s_ "/dev/" ++ node_of (disk p) (realnum p)).
(** Hexadecimal digits of either case, and the number they denote *)
Definition hex_value (c : ascii) : option N :=
  let n := N_of_ascii c in
  if is_digit c then Some (n - 48)%N
  else if ((97 <=? n) && (n <=? 102))%N then Some (n - 87)%N
  else if ((65 <=? n) && (n <=? 70))%N then Some (n - 55)%N
  else None.
Fixpoint hex_number (acc : N) (s : str) : option N :=
  match s with
  | [] => Some acc
  | c :: s => match hex_value c with Some d => hex_number (acc * 16 + d)%N s | None => None end
  end.
(** The text udev has for the 32-bit number of a FAT file system: %04X-%04X *)
Definition upper_digit (d : N) : ascii := ascii_of_N (if (d <? 10)%N then 48 + d else 55 + d).
Definition fat_text (v : N) : str := hexpad upper_digit 4 (v / 65536) ++ s_ "-" ++ hexpad upper_digit 4 (v mod 65536).
(** The choices for --fstype (ksparser.py 159-162) *)
Definition fstypes : list str := map s_ ["ext2"; "ext3"; "ext4"; "btrfs"; "squashfs"; "vfat"; "msdos"; "erofs"; "swap"; "none"]%string.
(** str(uuid4()): 36 characters, of which the first eight are hexadecimal digits *)
Definition uuid_text (u : str) : Prop := length u = 36 /\ exists v, hex_number 0 (firstn 8 u) = Some v.
(** A partition of the table that is mounted *)
Definition mounted (p : part) : bool := negb (N.eqb (realnum p) 0) && (startswith (s_ "/") (mount p) || seqb (mount p) (s_ "swap")).
(** The six fields of its line: device, mount point, type, options, and two numbers *)
Definition expected (p : part) : list str :=
  [device_name p; mount p; fstype p; if none (fsopts p) then s_ "defaults" else fsopts p; s_ "0"; if none (passno p) then s_ "0" else passno p].
(** A disk is named as wic expects: with a digit at the end exactly for mmcblk *)
Definition usual_disk (d : str) : Prop := startswith (s_ "mmcblk") d = match rev d with c :: _ => is_digit c | [] => false end.
(** The root partition *)
Definition is_root (ps : list part) (p : part) : Prop := exists a b, ps = a ++ p :: b /\ mount p = s_ "/" /\ forall q, In q a -> mount q <> s_ "/".
