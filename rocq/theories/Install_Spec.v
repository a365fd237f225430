(** What is said about the installer. *)
From Coq Require Import Ascii String List Bool Arith.
From Verif Require Import Str_Model Install_Model.
Import ListNotations.
Open Scope list_scope.

Definition begins (p w : str) : Prop := exists v, w = p ++ v.
(** What the kernel's command line says last behind [p]. *)
Definition given (line p v : str) : Prop := exists a b, split_ws line = a ++ (p ++ v) :: b /\ forall w, In w b -> ~ begins p w.
Definition not_given (line p : str) : Prop := forall w, In w (split_ws line) -> ~ begins p w.
(** A line of auto.install without the blanks around it. *)
Definition is_blank (c : ascii) : Prop := c = " "%char \/ c = "009"%char.
Definition stripped (raw v : str) : Prop :=
  exists a b, raw = a ++ v ++ b /\ Forall is_blank a /\ Forall is_blank b /\ (forall c r, v = c :: r -> ~ is_blank c) /\ (forall r c, v = r ++ [c] -> ~ is_blank c).
Definition auto_line (m : machine) (i : nat) (v : str) : Prop :=
  match m_auto m with Some text => stripped (nth i (split_on nl text) []) v | None => v = [] end.
(** The kernel's command line, or else auto.install. *)
Definition setting (m : machine) (p : str) (i : nat) (v : str) : Prop := given (m_cmdline m) p v \/ (not_given (m_cmdline m) p /\ auto_line m i v).
(** Of a list of devices the first that is one, but not the one booted from; else the text. *)
Definition devices_of (value : str) : list str := split_ws (map (fun c => if aeqb c ","%char || aeqb c ":"%char then " "%char else c) value).
Definition boots_from (m : machine) (dev : str) : Prop := dev = boot_device m.
Definition usable (m : machine) (dev : str) : Prop := m_block m dev = true /\ ~ boots_from m dev.
Definition selected (m : machine) (value dev : str) : Prop :=
  (exists a b, devices_of value = a ++ dev :: b /\ usable m dev /\ forall x, In x a -> ~ usable m x) \/ ((forall x, In x (devices_of value) -> ~ usable m x) /\ dev = value).
Definition target_setting (m : machine) (dev : str) : Prop :=
  (exists v, given (m_cmdline m) (s_ "installer.target.dev=") v /\ selected m v dev) \/ (not_given (m_cmdline m) (s_ "installer.target.dev=") /\ auto_line m 1 dev).
Definition overwrite_setting (m : machine) (v : str) : Prop :=
  ((exists x, given (m_cmdline m) (s_ "installer.target.overwrite") x) /\ v = s_ "OVERWRITE") \/ (not_given (m_cmdline m) (s_ "installer.target.overwrite") /\ auto_line m 2 v).
(** An installation without questions was asked for. *)
Definition asked_unattended (m : machine) : Prop :=
  m_auto m <> None \/ exists w, In w (split_ws (m_cmdline m)) /\ (w = s_ "installer.unattended" \/ begins (s_ "installer.image.uri=") w \/ begins (s_ "installer.target.dev=") w \/ begins (s_ "installer.target.overwrite") w).
(** It may be stopped by a key, and was. *)
Definition may_stop (m : machine) : Prop :=
  In (s_ "installer.unattended.abort.enable") (split_ws (m_cmdline m)) \/ (m_auto m <> None /\ auto_line m 3 (s_ "true")).
Definition unattended (m : machine) (a : answers) : Prop := asked_unattended m /\ ~ (may_stop m /\ a_switch a = true).
(** The kernel's names of partitions: the disk's name and a number, with a p in between if the
    disk's name ends with a digit. *)
Definition digits (n : str) : Prop := n <> [] /\ Forall (fun c => is_digit c = true) n.
Definition ends_in_digit (d : str) : Prop := exists r c, d = r ++ [c] /\ is_digit c = true.
Definition partition_of (disk part : str) : Prop :=
  exists n, digits n /\ ((ends_in_digit disk /\ part = disk ++ s_ "p" ++ n) \/ (~ ends_in_digit disk /\ part = disk ++ n)).
(** Disks called nvme... and mmcblk... end with a digit, and no disk's name starts with one. *)
Definition disk_name (d : str) : Prop := (begins (s_ "mmcblk") d \/ begins (s_ "nvme") d -> ends_in_digit d) /\ (exists c r, d = c :: r /\ is_digit c = false).
Definition on_disk (disk dev : str) : Prop := dev = disk \/ partition_of disk dev.
(** A disk that can be installed to, but for what the root file system is on. *)
Definition plain_disk (b : bdev) : Prop :=
  (begins (s_ "mmcblk") (b_name b) -> exists c, b_name b = s_ "mmcblk" ++ [c] /\ is_digit c = true) /\
  (forall p, In p [s_ "dm-"; s_ "loop"; s_ "mtd"; s_ "sr"; s_ "ram"; s_ "zram"] -> ~ begins p (b_name b)) /\
  (* not part of an array *)
  (forall l h, b_holders b = Some l -> In h l -> b_md b = false -> ~ exists c r, h = s_ "md" ++ c :: r /\ is_digit c = true) /\
  (* an array that works *)
  (begins (s_ "md") (b_name b) -> exists t, b_state b = Some t /\ In (filter (fun c => negb (aeqb c nl || aeqb c " "%char)) t) [s_ "active"; s_ "clean"]).
(** What counts as the root file system's: names that start with that of its device, of its
    disk, of one below it. *)
Definition taken (s : sysfs) (n : str) : Prop :=
  if seqb (s_fstype s) (s_ "nfs") then begins (s_ "nfs") n
  else begins (root_dev s) n \/ (base_no_part (root_dev s) <> [] /\ begins (base_no_part (root_dev s)) n) \/
       exists x, In x (s_slaves s) /\ (begins x n \/ (before_digits x <> [] /\ begins (before_digits x) n)).
