(** Model of meta/recipes-support/expand-on-first-boot/files/expand-last-partition.sh: which
    disk is changed, whether, and what sfdisk is given. *)
From Coq Require Import Ascii String List Bool Arith NArith.
From Verif Require Import Str_Model.
Import ListNotations.
Open Scope list_scope.

(** What the script sees: the root file system's device with links resolved; the entries of
    slaves/ of a device (None: no such directory); the size of a disk and of its partitions;
    the dump of its partition table; whether /etc/fstab has x-systemd.growfs; the file system
    of the last partition.  Tools (sfdisk, dd, partx, mount, resize2fs) are taken to succeed. *)
Record system := mkSystem { y_source : str; y_slaves : str -> option (list str); y_size : str -> option N; y_parts : str -> list N; y_dump : str -> list str; y_growfs : bool; y_fs : str }.
Inductive effect := SaveFirst (dev : str) | Table (dev : str) (lines : list str) | RestoreFirst (dev : str) | Inform (part : str) | Resize (fs part : str).

(** ${s##*/} *)
Definition base_name (s : str) : str := last (split_on "/"%char s) [].
(** 15-17 from one entry on; None: empty *)
Fixpoint descend (n : nat) (y : system) (x : str) : option str :=
  match y_slaves y x with
  | None => Some x
  | Some [] => None
  | Some (z :: _) => match n with S n => descend n y z | 0 => None end
  end.
(** 12-20 *)
Definition root_device (n : nat) (y : system) : str :=
  match y_slaves y (base_name (y_source y)) with
  | Some (x :: _) => match descend n y x with Some z => s_ "/dev/" ++ z | None => y_source y end
  | _ => y_source y
  end.
Fixpoint drop_digits (s : str) : str := match s with c :: r => if is_digit c then drop_digits r else s | [] => [] end.
(** 22: sed 's/p\?[0-9]*$//' *)
Definition boot_device (s : str) : str :=
  match drop_digits (rev s) with
  | c :: r => if aeqb c "p"%char then rev r else rev (c :: r)
  | [] => []
  end.
Definition total (l : list N) : N := fold_left N.add l 0%N.

(** size=[^,]*, and a blank; what follows *)
Fixpoint past_comma (s : str) : option str :=
  match s with
  | c :: r => if aeqb c ","%char then match r with e :: r' => if aeqb e " "%char then Some r' else None | [] => None end else past_comma r
  | [] => None
  end.
Definition past_size (s : str) : option str := if startswith (s_ ", size=") s then past_comma (skipn 7 s) else None.
(** \(.*, \)size=[^,]*, from the last place on that matches, if [ok] holds of the rest *)
Fixpoint cut_size (ok : str -> bool) (s : str) : option str :=
  match s with
  | c :: r => match cut_size ok r with
              | Some x => Some (c :: x)
              | None => match past_size s with Some rest => if ok rest then Some (s_ ", " ++ rest) else None | None => None end
              end
  | [] => None
  end.
(** 61 *)
Definition extended_line (s : str) : str :=
  match cut_size (fun r => seqb r (s_ "type=f") || seqb r (s_ "type=5")) s with Some x => x | None => s end.
(** 62; the device's name stands for itself *)
Definition last_line (dev s : str) : str :=
  if startswith (dev ++ s_ " ") s then
    match cut_size (fun _ => true) (skipn (length dev + 1) s) with Some x => dev ++ s_ " " ++ x | None => s end
  else s.
(** 49 *)
Definition last_part (dump : list str) : str := fst (cut_at " "%char (last dump [])).
(** 59-62 *)
Definition transform (dump : list str) : list str :=
  map (last_line (last_part dump)) (map extended_line (filter (fun l => negb (contains_sub (s_ "last-lba") l)) dump)).
(** 44 *)
Definition is_gpt (dump : list str) : bool := existsb (contains_sub (s_ "label: gpt")) dump.
(** 29-105 *)
Definition run (n : nat) (y : system) : nat * list effect :=
  let root := root_device n y in
  let dev := boot_device root in
  if seqb root dev then (1, [])
  else match y_size y (base_name dev), y_parts y (base_name dev) with
  | Some size, p :: ps =>
      if N.ltb size (total (p :: ps) + 32768) then (0, [])
      else
        let dump := y_dump y dev in
        let part := last_part dump in
        let change := (if is_gpt dump then [SaveFirst dev; Table dev (transform dump); RestoreFirst dev] else [Table dev (transform dump)]) ++ [Inform part] in
        if y_growfs y then (0, change)
        else if startswith (s_ "ext") (y_fs y) || seqb (y_fs y) (s_ "btrfs") then (0, change ++ [Resize (y_fs y) part])
        else (1, change)
  | _, _ => (1, [])
  end.
