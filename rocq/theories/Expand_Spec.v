(** What is said about the expansion of the last partition. *)
From Coq Require Import Ascii String List Bool Arith NArith.
From Verif Require Import Str_Model Install_Spec Expand_Model.
Import ListNotations.
Open Scope list_scope.

(** Below a device, by the first of what it is on, down to what is on nothing else. *)
Inductive below (y : system) : nat -> str -> str -> Prop :=
| below_end x : y_slaves y x = None -> below y 0 x x
| below_step k x z l w : y_slaves y x = Some (z :: l) -> below y k z w -> below y (S k) x w.
(** The partition the root file system is on, at last. *)
Inductive root_part (y : system) (n : nat) : str -> Prop :=
| root_direct x : y_source y = s_ "/dev/" ++ x -> y_slaves y x = None \/ y_slaves y x = Some [] -> root_part y n x
| root_below x z l k w : y_source y = s_ "/dev/" ++ x -> y_slaves y x = Some (z :: l) -> below y k z w -> k <= n -> root_part y n w.
(** Below a device, by the first of what it is on, down to one that is said to be on others but on which nothing is listed. *)
Inductive dangling (y : system) : nat -> str -> Prop :=
| dangling_end x : y_slaves y x = Some [] -> dangling y 0 x
| dangling_step k x z l : y_slaves y x = Some (z :: l) -> dangling y k z -> dangling y (S k) x.
Fixpoint sum (l : list N) : N := match l with [] => 0%N | n :: r => (n + sum r)%N end.
Definition ends_in_p (d : str) : Prop := exists r, d = r ++ s_ "p".
Definition plain_name (x : str) : Prop := ~ In "/"%char x.

(** A partition table and sfdisk's dump of it. *)
Record entry := mkEntry { e_dev : str; e_start : N; e_size : option N; e_type : str; e_more : list str }.
Definition padded (n : N) : str := repeat " "%char (12 - length (dec n)) ++ dec n.
Definition fields (e : entry) : str := join (s_ ", ") ((s_ "type=" ++ e_type e) :: e_more e).
Definition line (e : entry) : str :=
  e_dev e ++ s_ " : start=" ++ padded (e_start e) ++ match e_size e with Some n => s_ ", size=" ++ padded n | None => [] end ++ s_ ", " ++ fields e.
Definition sizeless (t : str) : Prop := forall a b, t <> a ++ s_ ", size=" ++ b.
Definition named (t : str) : Prop := exists a b, t = a ++ s_ "last-lba" ++ b.
Definition proper (e : entry) : Prop := e_size e <> None /\ ~ In ","%char (e_dev e) /\ ~ In " "%char (e_dev e) /\ sizeless (s_ ", " ++ fields e) /\ ~ named (line e).
(** An extended partition of a table without further fields. *)
Definition extended (e : entry) : Prop := (e_type e = s_ "5" \/ e_type e = s_ "f") /\ e_more e = [].
(** What becomes of an entry if its size is left out *)
Definition open_end (e : entry) : entry := mkEntry (e_dev e) (e_start e) None (e_type e) (e_more e).
Inductive opened : entry -> entry -> Prop :=
| opened_ext e : extended e -> opened e (open_end e)
| opened_not e : ~ extended e -> opened e e.

(** sfdisk gives a partition without a size all up to the next one or the end of the disk. *)
Definition ends_at (disk_end : N) (t : list entry) (start stop : N) : Prop :=
  (start < stop)%N /\ (stop <= disk_end)%N /\ (stop = disk_end \/ exists e, In e t /\ e_start e = stop) /\ forall e, In e t -> (start < e_start e)%N -> (stop <= e_start e)%N.
Definition laid_out (disk_end : N) (t : list entry) (e : entry) (first size : N) : Prop :=
  first = e_start e /\ match e_size e with Some n => size = n | None => ends_at disk_end t (e_start e) (e_start e + size) end.
(** A table whose partitions are on the disk and do not overlap. *)
Definition valid (disk_end : N) (t : list entry) : Prop :=
  forall e, In e t -> exists n, e_size e = Some n /\ (0 < n)%N /\ (e_start e + n <= disk_end)%N /\ forall e', In e' t -> (e_start e < e_start e')%N -> (e_start e + n <= e_start e')%N.
