(** Theorems on the expansion of the last partition (C169, C170). *)
From Coq Require Import Ascii String List Bool Arith NArith Lia.
From Verif Require Import Str_Model Str_Proofs Install_Spec Expand_Model Expand_Spec Expand_Proofs.
Import ListNotations.
Open Scope list_scope.

(** ** C169: which disk is changed, and when *)
(** The disk of the partition the root file system is on at last is changed, and only if more
    than 32768 blocks of it belong to no partition; the first block of a disk with GPT is
    kept. *)
Theorem expand_disk n y part disk : (forall x, y_source y = s_ "/dev/" ++ x -> plain_name x) -> root_part y n part -> partition_of disk part -> ends_in_digit disk \/ ~ ends_in_p disk -> plain_name disk ->
  let dev := s_ "/dev/" ++ disk in
  let dump := y_dump y dev in
  ((forall size, y_size y disk = Some size -> y_parts y disk = [] \/ (size < total (y_parts y disk) + 32768)%N) -> snd (run n y) = []) /\
  (forall size, y_size y disk = Some size -> y_parts y disk <> [] -> (total (y_parts y disk) + 32768 <= size)%N ->
    exists rest, snd (run n y) = (if is_gpt dump then [SaveFirst dev; Table dev (transform dump); RestoreFirst dev] else [Table dev (transform dump)]) ++ [Inform (last_part dump)] ++ rest /\
      (rest = [] \/ (rest = [Resize (y_fs y) (last_part dump)] /\ y_growfs y = false /\ (begins (s_ "ext") (y_fs y) \/ y_fs y = s_ "btrfs"))) /\
      (fst (run n y) = 0 <-> rest <> [] \/ y_growfs y = true)).
Proof.
  intros PN RP PO K PD dev dump. unfold run. rewrite (root_part_device y n part PN RP), (boot_partition disk part PO K), (base_plain disk PD). fold dev. fold dump.
  assert (NE : seqb (s_ "/dev/" ++ part) dev = false) by (apply (proj2 (seqb_neq _ _)); intro E; apply app_inv_head in E; exact (part_longer _ _ PO E)). rewrite NE. split.
  - intro H. destruct (y_size y disk) as [size|]; [|reflexivity]. specialize (H size eq_refl). destruct (y_parts y disk) as [|p ps]; [reflexivity|]. destruct H as [H|H]; [discriminate H|]. apply N.ltb_lt in H. rewrite H. reflexivity.
  - intros size SZ NP L. rewrite SZ. destruct (y_parts y disk) as [|p ps]; [exfalso; apply NP; reflexivity|]. apply N.ltb_ge in L. rewrite L. destruct (y_growfs y).
    + exists []. rewrite app_nil_r. split; [reflexivity|]. split; [left; reflexivity|]. split; [intros _; right; reflexivity|reflexivity].
    + destruct (startswith (s_ "ext") (y_fs y) || seqb (y_fs y) (s_ "btrfs")) eqn:FS.
      * exists [Resize (y_fs y) (last_part dump)]. rewrite app_assoc. split; [reflexivity|]. split; [right; split; [reflexivity|]; split; [reflexivity|]|split; [intros _; left; discriminate|reflexivity]]. apply orb_prop in FS. destruct FS as [FS|FS]; [left; apply startswith_iff; exact FS|right; apply seqb_eq; exact FS].
      * exists []. rewrite app_nil_r. split; [reflexivity|]. split; [left; reflexivity|]. split; [discriminate|intros [H|H]; [exfalso; apply H; reflexivity|discriminate H]].
Qed.
(** Without a number at the end of the device's name nothing is changed. *)
Theorem expand_no_partition n y r c : root_device n y = r ++ [c] -> is_digit c = false -> c <> "p"%char -> run n y = (1, []).
Proof.
  intros E D P. unfold run. rewrite E. assert (B : boot_device (r ++ [c]) = r ++ [c]).
  { unfold boot_device. rewrite rev_app_distr. cbn [rev app drop_digits]. rewrite D. destruct (aeqb c "p"%char) eqn:A; [apply aeqb_eq in A; exfalso; exact (P A)|]. rewrite rev_involutive. reflexivity. }
  rewrite B, seqb_refl. reflexivity.
Qed.

(** The space of the partitions is the sum of their sizes; a disk has GPT if a line of the dump has the label; if too little is
    free, the script ends well and changes nothing. *)
Theorem expand_space : (forall l, total l = sum l) /\ (forall dump, is_gpt dump = true <-> exists l a b, In l dump /\ l = a ++ s_ "label: gpt" ++ b) /\
  (forall n y part disk size, (forall x, y_source y = s_ "/dev/" ++ x -> plain_name x) -> root_part y n part -> partition_of disk part -> ends_in_digit disk \/ ~ ends_in_p disk -> plain_name disk ->
     y_size y disk = Some size -> y_parts y disk <> [] -> (size < sum (y_parts y disk) + 32768)%N -> run n y = (0, [])).
Proof.
  assert (T : forall l, total l = sum l).
  { intro l. unfold total. assert (G : forall l a, fold_left N.add l a = (a + sum l)%N) by (clear; induction l as [|x l IH]; intro a; cbn [fold_left sum]; [lia|rewrite IH; lia]). rewrite G. lia. }
  split; [exact T|]. split.
  - intro dump. unfold is_gpt. rewrite existsb_exists. split.
    + intros (l & I & C). apply contains_sub_iff in C. destruct C as (a & b & C). exists l, a, b. auto.
    + intros (l & a & b & I & C). exists l. split; [exact I|]. apply contains_sub_iff. exists a, b. exact C.
  - intros n y part disk size PN RP PO K PD SZ NP L. unfold run. rewrite (root_part_device y n part PN RP), (boot_partition disk part PO K), (base_plain disk PD).
    assert (NE : seqb (s_ "/dev/" ++ part) (s_ "/dev/" ++ disk) = false) by (apply (proj2 (seqb_neq _ _)); intro E; apply app_inv_head in E; exact (part_longer _ _ PO E)). rewrite NE, SZ.
    destruct (y_parts y disk) as [|p ps]; [exfalso; apply NP; reflexivity|]. rewrite T. apply N.ltb_lt in L. rewrite L. reflexivity.
Qed.
(** A chain of devices that ends in nothing is not followed. *)
Theorem expand_dangling n k y x z l : y_source y = s_ "/dev/" ++ x -> plain_name x -> y_slaves y x = Some (z :: l) -> dangling y k z -> root_device n y = y_source y.
Proof.
  intros E P S D. unfold root_device. rewrite E. rewrite (base_plain x P). rewrite S. assert (X : descend n y z = None).
  { clear -D. revert n. induction D as [x H|k x z l H D IH]; intro n; destruct n as [|n]; cbn [descend]; rewrite H; try reflexivity. apply IH. }
  rewrite X. reflexivity.
Qed.
Definition exdang : system := mkSystem (s_ "/dev/dm-1") (fun d => if seqb d (s_ "dm-1") then Some [s_ "dm-0"] else if seqb d (s_ "dm-0") then Some [] else None) (fun _ => None) (fun _ => []) (fun _ => []) false [].
Example expand_dangling_met : plain_name (s_ "dm-1") /\ y_slaves exdang (s_ "dm-1") = Some [s_ "dm-0"] /\ dangling exdang 0 (s_ "dm-0").
Proof. split; [intro I; cbn in I; intuition discriminate|]. split; [reflexivity|]. apply dangling_end. reflexivity. Qed.
Example expand_space_met : exists y, root_part y 0 (s_ "sda2") /\ partition_of (s_ "sda") (s_ "sda2") /\ y_size y (s_ "sda") = Some 35000%N /\ y_parts y (s_ "sda") = [1000%N; 2000%N] /\ (35000 < sum [1000; 2000] + 32768)%N /\ run 0 y = (0, []).
Proof.
  exists (mkSystem (s_ "/dev/sda2") (fun _ => None) (fun d => if seqb d (s_ "sda") then Some 35000%N else None) (fun d => if seqb d (s_ "sda") then [1000%N; 2000%N] else []) (fun _ => []) false (s_ "ext4")).
  split; [apply root_direct; [reflexivity|left; reflexivity]|]. split; [|repeat split].
  exists (s_ "2"). split; [split; [discriminate|repeat constructor]|]. right. split; [|reflexivity]. intros (r & c & E & D). change (s_ "sda") with (["s"; "d"]%char ++ ["a"%char]) in E. apply app_inj_tail in E. destruct E as [_ <-]. discriminate D.
Qed.

(** ** C170: the new table *)
(** Only sizes are left out: that of the last partition and of extended ones; and a header line
    with the last block. *)
Theorem expand_table h ts e : Forall proper (ts ++ [e]) -> (forall t, In t ts -> e_dev t <> e_dev e) -> (forall l, In l h -> sizeless l) ->
  exists ts', Forall2 opened ts ts' /\ transform (h ++ map line (ts ++ [e])) = filter (fun l => negb (contains_sub (s_ "last-lba") l)) h ++ map line (ts' ++ [open_end e]).
Proof.
  intros P D H. unfold transform. pose proof P as P0. apply Forall_app in P0. destruct P0 as [PT PE]. inversion PE as [|? ? PE' _]; subst. rewrite (last_part_line h ts e PE'). rewrite filter_app, (filter_lines _ P). rewrite !map_app, !map_map.
  assert (HD : map (fun x => last_line (e_dev e) (extended_line x)) (filter (fun l => negb (contains_sub (s_ "last-lba") l)) h) = filter (fun l => negb (contains_sub (s_ "last-lba") l)) h).
  { rewrite <- (map_id (filter _ h)) at 2. apply map_ext_in. intros l I. apply filter_In in I. apply header_line, H, I. }
  rewrite HD. cbn [map].
  assert (TS : exists ts', Forall2 opened ts ts' /\ map (fun x => last_line (e_dev e) (extended_line (line x))) ts = map line ts').
  { clear P H HD PE. induction ts as [|t ts IH]; [exists []; split; [constructor|reflexivity]|]. inversion PT as [|? ? P1 P2]; subst. destruct (IH (fun x I => D x (or_intror I)) P2) as (ts' & F & E). destruct (extended_opened t P1) as (t' & O & E'). exists (t' :: ts'). split; [constructor; assumption|]. cbn [map]. rewrite E, E'. f_equal. apply (last_line_other e t t' PE' P1); [apply D; left; reflexivity|]. destruct O; reflexivity. }
  destruct TS as (ts' & F & E). exists ts'. split; [exact F|]. rewrite map_app, E. f_equal. f_equal. cbn [map]. f_equal. destruct (extended_opened e PE') as (e' & O & ->). rewrite (last_line_self e e' PE' O). reflexivity.
Qed.
(** With such a table the last partition keeps its start, does not become smaller and overlaps
    with none; it reaches the end of the disk if all others start before it. *)
Theorem expand_grows disk_end ts e n : valid disk_end (ts ++ [e]) -> e_size e = Some n ->
  exists size, laid_out disk_end (ts ++ [open_end e]) (open_end e) (e_start e) size /\ (n <= size)%N /\ (e_start e + size <= disk_end)%N /\
    (forall t, In t ts -> (e_start e < e_start t)%N -> (e_start e + size <= e_start t)%N) /\
    ((forall t, In t ts -> (e_start t <= e_start e)%N) -> (e_start e + size = disk_end)%N).
Proof.
  intros V S. assert (IE : In e (ts ++ [e])) by (apply in_or_app; right; left; reflexivity). destruct (V e IE) as (n' & S' & NZ & LE & NO). rewrite S in S'. injection S' as <-.
  assert (ST : forall t, In t (ts ++ [open_end e]) -> exists t', In t' (ts ++ [e]) /\ e_start t' = e_start t) by (intros t I; apply in_app_iff in I; destruct I as [I|[<-|[]]]; [exists t; split; [apply in_or_app; left; exact I|reflexivity]|exists e; auto]).
  destruct (ends_exists disk_end (e_start e) (ts ++ [open_end e])) as (stop & A & B & C & D); [lia|intros t I; destruct (ST t I) as (t' & I' & <-); destruct (V t' I') as (k & _ & _ & L & _); lia|].
  exists (stop - e_start e)%N. replace (e_start e + (stop - e_start e))%N with stop by lia.
  assert (GE : (e_start e + n <= stop)%N) by (destruct C as [-> |(t & I & <-)]; [exact LE|destruct (ST t I) as (t' & I' & E'); rewrite <- E'; apply NO; [exact I'|lia]]).
  split; [split; [reflexivity|]; cbn [e_size open_end e_start]; replace (e_start e + (stop - e_start e))%N with stop by lia; split; [exact A|split; [exact B|split; [exact C|exact D]]]|]. split; [lia|]. split; [exact B|]. split; [intros t I G; apply D; [apply in_or_app; left; exact I|exact G]|].
  intro L. destruct C as [C|(t & I & C)]; [exact C|]. exfalso. apply in_app_iff in I. destruct I as [I|[<-|[]]]; [specialize (L t I); lia|cbn in C; lia].
Qed.

Definition exh : list str := [s_ "label: gpt"; s_ "device: /dev/sda"; s_ "first-lba: 34"; s_ "last-lba: 70000"; []].
Definition exe1 : entry := mkEntry (s_ "/dev/sda1") 2048 (Some 1000%N) (s_ "C12A") [s_ "uuid=5B"].
Definition exe2 : entry := mkEntry (s_ "/dev/sda2") 4096 (Some 2000%N) (s_ "0FC6") [s_ "uuid=77"; s_ "name=""root"""].
Example exe_line : line exe1 = s_ "/dev/sda1 : start=        2048, size=        1000, type=C12A, uuid=5B".
Proof. vm_compute. reflexivity. Qed.
Example exe_transform : transform (exh ++ map line [exe1; exe2]) = [s_ "label: gpt"; s_ "device: /dev/sda"; s_ "first-lba: 34"; []] ++ [line exe1; s_ "/dev/sda2 : start=        4096, type=0FC6, uuid=77, name=""root"""].
Proof. vm_compute. reflexivity. Qed.
Definition exx : entry := mkEntry (s_ "/dev/sda2") 4096 (Some 2000%N) (s_ "5") [].
Definition exl : entry := mkEntry (s_ "/dev/sda5") 4100 (Some 1900%N) (s_ "83") [].
Example exx_transform : transform (map line [exe1; exx; exl]) = [line exe1; s_ "/dev/sda2 : start=        4096, type=5"; s_ "/dev/sda5 : start=        4100, type=83"].
Proof. vm_compute. reflexivity. Qed.
Lemma sizeless_dec t : contains_sub (s_ ", size=") t = false -> sizeless t.
Proof. intros H a b E. assert (X : contains_sub (s_ ", size=") t = true) by (apply contains_sub_iff; exists a, b; exact E). congruence. Qed.
Lemma unnamed_dec t : contains_sub (s_ "last-lba") t = false -> ~ named t.
Proof. intros H X. apply contains_sub_iff in X. congruence. Qed.
Lemma notin_dec c t : existsb (aeqb c) t = false -> ~ In c t.
Proof. intros H I. assert (X : existsb (aeqb c) t = true) by (apply existsb_exists; exists c; split; [exact I|apply aeqb_refl]). congruence. Qed.
Example table_met : Forall proper ([exe1] ++ [exe2]) /\ (forall t, In t [exe1] -> e_dev t <> e_dev exe2) /\ (forall l, In l exh -> sizeless l) /\ valid 70000 ([exe1] ++ [exe2]) /\ Forall proper [exx].
Proof.
  assert (PR : forall e, e_size e <> None -> existsb (aeqb ","%char) (e_dev e) = false -> existsb (aeqb " "%char) (e_dev e) = false -> contains_sub (s_ ", size=") (s_ ", " ++ fields e) = false -> contains_sub (s_ "last-lba") (line e) = false -> proper e) by (intros e A B C D E; split; [exact A|]; split; [apply notin_dec; exact B|]; split; [apply notin_dec; exact C|]; split; [apply sizeless_dec; exact D|apply unnamed_dec; exact E]).
  split; [repeat constructor; apply PR; first [discriminate|vm_compute; reflexivity]|]. split; [intros t [<-|[]]; discriminate|]. split; [|split].
  - intros l I. apply sizeless_dec. cbn [exh In] in I. repeat (destruct I as [<-|I]; [vm_compute; reflexivity|]). destruct I.
  - intros e [<-|[<-|[]]]; (eexists; split; [reflexivity|]); cbn; (split; [lia|]; split; [lia|]); intros e' [<-|[<-|[]]]; cbn; lia.
  - repeat constructor; apply PR; first [discriminate|vm_compute; reflexivity].
Qed.
(** A machine: encrypted root on the second partition of an nvme disk. *)
Definition exy (gpt : bool) : system :=
  mkSystem (s_ "/dev/dm-0") (fun x => if seqb x (s_ "dm-0") then Some [s_ "nvme0n1p2"] else if seqb x (s_ "nvme0n1") then Some [] else None)
    (fun d => if seqb d (s_ "nvme0n1") then Some 70000%N else None) (fun d => if seqb d (s_ "nvme0n1") then [1000%N; 2000%N] else [])
    (fun d => if seqb d (s_ "/dev/nvme0n1") then (if gpt then [s_ "label: gpt"] else [s_ "label: dos"]) ++ [s_ "/dev/nvme0n1p1 : start=2048, size=1000, type=83"; s_ "/dev/nvme0n1p2 : start=4096, size=2000, type=83"] else []) false (s_ "ext4").
Example exy_run : run 3 (exy true) = (0, [SaveFirst (s_ "/dev/nvme0n1"); Table (s_ "/dev/nvme0n1") [s_ "label: gpt"; s_ "/dev/nvme0n1p1 : start=2048, size=1000, type=83"; s_ "/dev/nvme0n1p2 : start=4096, type=83"]; RestoreFirst (s_ "/dev/nvme0n1"); Inform (s_ "/dev/nvme0n1p2"); Resize (s_ "ext4") (s_ "/dev/nvme0n1p2")]).
Proof. vm_compute. reflexivity. Qed.
Example exy_met : (forall x, y_source (exy false) = s_ "/dev/" ++ x -> plain_name x) /\ root_part (exy false) 3 (s_ "nvme0n1p2") /\ partition_of (s_ "nvme0n1") (s_ "nvme0n1p2") /\ ends_in_digit (s_ "nvme0n1") /\ plain_name (s_ "nvme0n1") /\ y_parts (exy false) (s_ "nvme0n1") <> [] /\ (total (y_parts (exy false) (s_ "nvme0n1")) + 32768 <= 70000)%N.
Proof.
  split; [intros x E; apply (app_inv_head (s_ "/dev/") (s_ "dm-0") x) in E; subst x; apply notin_dec; reflexivity|].
  split; [apply (root_below _ _ (s_ "dm-0") (s_ "nvme0n1p2") [] 0); [reflexivity|reflexivity|constructor; reflexivity|lia]|].
  assert (ED : ends_in_digit (s_ "nvme0n1")) by (exists (s_ "nvme0n"), "1"%char; split; reflexivity).
  split; [exists (s_ "2"); split; [split; [discriminate|repeat constructor]|left; split; [exact ED|reflexivity]]|]. split; [exact ED|]. split; [apply notin_dec; reflexivity|]. split; [discriminate|]. vm_compute. discriminate.
Qed.
Example expand_whole_met : run 0 (mkSystem (s_ "/dev/sda") (fun _ => None) (fun _ => Some 5%N) (fun _ => [1%N]) (fun _ => []) false []) = (1, []).
Proof. vm_compute. reflexivity. Qed.
(** A partition of the sixteenth disk is not recognised: the p of sdp is taken for that of a
    partition, and nothing is expanded. *)
Theorem expand_sdp_refuted : exists n y, root_part y n (s_ "sdp2") /\ partition_of (s_ "sdp") (s_ "sdp2") /\ y_size y (s_ "sdp") = Some 70000%N /\ y_parts y (s_ "sdp") = [1000%N; 2000%N] /\ run n y = (1, []).
Proof.
  exists 0, (mkSystem (s_ "/dev/sdp2") (fun _ => None) (fun d => if seqb d (s_ "sdp") then Some 70000%N else None) (fun d => if seqb d (s_ "sdp") then [1000%N; 2000%N] else []) (fun _ => []) false (s_ "ext4")).
  split; [apply root_direct; [reflexivity|left; reflexivity]|]. split; [|repeat split].
  exists (s_ "2"). split; [split; [discriminate|repeat constructor]|]. right. split; [|reflexivity]. intros (r & c & E & D). change (s_ "sdp") with (["s"; "d"]%char ++ ["p"%char]) in E. apply app_inj_tail in E. destruct E as [_ <-]. discriminate D.
Qed.
(** The partition dumped last need not be the last on the disk: then the space at the end stays
    unused. *)
Theorem expand_order_refuted : exists disk_end ts e, valid disk_end (ts ++ [e]) /\ forall size, laid_out disk_end (ts ++ [open_end e]) (open_end e) (e_start e) size -> (e_start e + size < disk_end)%N /\ e_size e = Some size.
Proof.
  exists 70000%N, [mkEntry (s_ "/dev/sda1") 4096 (Some 1000%N) (s_ "83") []], (mkEntry (s_ "/dev/sda2") 2048 (Some 2048%N) (s_ "83") []). split.
  - intros e [<-|[<-|[]]]; (eexists; split; [reflexivity|]); cbn; (split; [lia|]; split; [lia|]); intros e' [<-|[<-|[]]]; cbn; lia.
  - intros size [_ L]. cbn [e_size open_end e_start] in *. destruct L as (A & B & C & D). assert (D1 := D _ (or_introl eq_refl)). cbn [e_start] in D1. assert (D2 : (2048 + size <= 4096)%N) by (apply D1; reflexivity). clear D D1. destruct C as [C|(x & [<-|[<-|[]]] & C)]; cbn [e_start open_end] in C; [lia| |lia]. split; [lia|]. f_equal. lia.
Qed.
(** A partition whose name contains last-lba is removed from the table. *)
Theorem expand_named_refuted : exists ts e, (forall t, In t ts -> e_size t <> None) /\ ts <> [] /\ transform (map line (ts ++ [e])) = [line (open_end e)].
Proof.
  exists [mkEntry (s_ "/dev/sda1") 2048 (Some 1000%N) (s_ "0FC6") [s_ "name=""last-lba"""]], exe2. split; [intros t [<-|[]]; discriminate|]. split; [discriminate|]. vm_compute. reflexivity.
Qed.

Print Assumptions expand_disk.
Print Assumptions expand_no_partition.
Print Assumptions expand_space.
Print Assumptions expand_dangling.
Print Assumptions expand_table.
Print Assumptions expand_grows.
