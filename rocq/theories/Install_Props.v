(** Theorems on the installer (C166-C168). *)
From Coq Require Import Ascii String List Bool Arith Lia.
From Verif Require Import Str_Model Str_Proofs Install_Model Install_Spec Install_Proofs.
Import ListNotations.
Open Scope list_scope.

(** ** C166: the configuration *)
(** What is used is what the kernel's command line says last, or else what auto.install says. *)
Theorem installer_config m c : handle_config m = Some c ->
  target_setting m (c_target c) /\ overwrite_setting m (c_overwrite c) /\
  (exists v, setting m (s_ "installer.image.uri=") 0 v /\ (c_image c = v \/ (asked_unattended m /\ m_file m v = false /\ c_image c = m_data m ++ s_ "/" ++ v))) /\
  (c_unattended c = true <-> asked_unattended m) /\ (c_abort c = s_ "true" <-> may_stop m).
Proof.
  intro H. destruct (handle_spec m) as [[U E]|[(U & R & E)|(U & R & E)]]; rewrite E in H; [| |discriminate H]; injection H as <-.
  - split; [apply gather_target|]. split; [apply gather_over|]. split; [exists (c_image (gather m)); split; [apply gather_image|left; reflexivity]|]. split; [apply gather_unattended|apply gather_abort].
  - destruct (final_fields m (gather m)) as (-> & -> & -> & FU). split; [apply gather_target|]. split; [apply gather_over|]. split; [|split; [rewrite (FU U); split; [intros _; apply gather_unattended; exact U|reflexivity]|apply gather_abort]].
    exists (c_image (gather m)). split; [apply gather_image|]. unfold final. destruct (m_file m (c_image (gather m))) eqn:F; [left; reflexivity|right]. split; [apply gather_unattended; exact U|auto].
Qed.
(** With all of / and /boot on one disk that disk is passed over in a list of devices. *)
Theorem installer_not_boot m c d v a dev b : handle_config m = Some c -> m_boot m <> [] -> (forall x, In x (m_boot m) -> x = d) -> given (m_cmdline m) (s_ "installer.target.dev=") v ->
  devices_of v = a ++ dev :: b -> m_block m dev = true -> dev <> s_ "/dev/" ++ d -> (forall x, In x a -> m_block m x = false \/ x = s_ "/dev/" ++ d) -> c_target c = dev.
Proof.
  intros H NE B G E BL ND A. destruct (installer_config m c H) as (T & _).
  assert (BD : boot_device m = s_ "/dev/" ++ d).
  { unfold boot_device. destruct (m_boot m) as [|x l]; [exfalso; apply NE; reflexivity|]. rewrite (B x (or_introl eq_refl)). assert (L : forall y, In y l -> y = d) by (intros y I; apply B; right; exact I). clear - L. cbn [map]. induction l as [|y l IH]; [reflexivity|]. rewrite (L y (or_introl eq_refl)). cbn [map]. change (uniq ((s_ "/dev/" ++ d) :: (s_ "/dev/" ++ d) :: map (fun d => s_ "/dev/" ++ d) l)) with (if seqb (s_ "/dev/" ++ d) (s_ "/dev/" ++ d) then uniq ((s_ "/dev/" ++ d) :: map (fun d => s_ "/dev/" ++ d) l) else (s_ "/dev/" ++ d) :: uniq ((s_ "/dev/" ++ d) :: map (fun d => s_ "/dev/" ++ d) l)). rewrite seqb_refl. apply IH. intros z I. apply L. right. exact I. }
  apply (target_unique m); [exact T|]. left. exists v. split; [exact G|]. left. exists a, b. split; [exact E|]. unfold usable, boots_from. rewrite BD. split; [split; [exact BL|exact ND]|]. intros x I [U V]. destruct (A x I) as [Q|Q]; [congruence|exact (V Q)].
Qed.
(** Without questions nothing is done unless all that is needed was said. *)
Theorem installer_complete m image dev o : asked_unattended m -> setting m (s_ "installer.image.uri=") 0 image -> target_setting m dev -> overwrite_setting m o ->
  ((exists c, handle_config m = Some c) <->
   image <> [] /\ dev <> [] /\ (o = s_ "OVERWRITE" \/ o = s_ "ABORT") /\ (forall d, split_ws dev = [d] -> m_block m d = true) /\ (m_file m image = true \/ m_file m (m_data m ++ s_ "/" ++ image) = true)).
Proof.
  intros U SI ST SO. rewrite (setting_unique _ _ _ _ _ SI (gather_image m)), (target_unique _ _ _ ST (gather_target m)), (over_unique _ _ _ SO (gather_over m)). change ((exists c, handle_config m = Some c) <-> ready m (gather m)). apply gather_unattended in U.
  destruct (handle_spec m) as [[U' E]|[(_ & R & E)|(_ & R & E)]]; [congruence| |]; rewrite E; [split; [intros _; exact R|intros _; eexists; reflexivity]|split; [intros [c H]; discriminate H|intro H; exfalso; exact (R H)]].
Qed.
Theorem installer_interactive m : ~ asked_unattended m -> exists c, handle_config m = Some c /\ c_unattended c = false.
Proof. intro N. destruct (handle_spec m) as [[U E]|[(U & _)|(U & _)]]; [exists (gather m); auto| |]; exfalso; apply N, gather_unattended, U. Qed.

Definition exm (auto : option str) (line : str) (boot : list str) : machine :=
  mkMachine (fun f => seqb f (s_ "/i/a.wic") || seqb f (s_ "/i/a.wic.bmap")) (fun d => mem_str d [s_ "/dev/sda"; s_ "/dev/sdb"; s_ "/dev/sdc"]) (fun d => seqb d (s_ "/dev/sdb")) boot (s_ "/i") auto line [s_ "a.wic"].
Definition exauto : str := join [nl] [s_ "a.wic"; s_ " /dev/sdb "; s_ "ABORT"; s_ "true"; s_ "9"].
Definition exline : str := s_ "quiet installer.image.uri=a.wic installer.target.dev=/dev/sda,/dev/sdb installer.target.overwrite=OVERWRITE".
Example exauto_config : handle_config (exm (Some exauto) (s_ "quiet") [s_ "sda"]) = Some (mkConfig true (s_ "true") (s_ "9") (s_ "/i/a.wic") (s_ "/dev/sdb") (s_ "ABORT")).
Proof. vm_compute. reflexivity. Qed.
Example exline_config : handle_config (exm None exline [s_ "sda"]) = Some (mkConfig true (s_ "false") (s_ "5") (s_ "/i/a.wic") (s_ "/dev/sdb") (s_ "OVERWRITE")).
Proof. vm_compute. reflexivity. Qed.
Example notboot_met : let m := exm None exline [s_ "sda"; s_ "sda"] in m_boot m <> [] /\ (forall x, In x (m_boot m) -> x = s_ "sda") /\ devices_of (s_ "/dev/sda,/dev/sdb") = [s_ "/dev/sda"] ++ s_ "/dev/sdb" :: [] /\ m_block m (s_ "/dev/sdb") = true /\ given (m_cmdline m) (s_ "installer.target.dev=") (s_ "/dev/sda,/dev/sdb").
Proof.
  split; [discriminate|]. split; [intros x [<-|[<-|[]]]; reflexivity|]. split; [vm_compute; reflexivity|]. split; [vm_compute; reflexivity|].
  exists [s_ "quiet"; s_ "installer.image.uri=a.wic"], [s_ "installer.target.overwrite=OVERWRITE"]. split; [vm_compute; reflexivity|]. intros w [<-|[]] [v E]. discriminate E.
Qed.
Example exline_over : handle_config (exm (Some exauto) (s_ "installer.target.dev=/dev/sdc") [s_ "sda"]) = Some (mkConfig true (s_ "true") (s_ "9") (s_ "/i/a.wic") (s_ "/dev/sdc") (s_ "ABORT")).
Proof. vm_compute. reflexivity. Qed.
Example exline_incomplete : handle_config (exm None (s_ "installer.image.uri=a.wic installer.target.dev=/dev/sdb") [s_ "sda"]) = None.
Proof. vm_compute. reflexivity. Qed.
Example complete_met : let m := exm (Some exauto) (s_ "installer.target.dev=/dev/sdc") [s_ "sda"] in
  asked_unattended m /\ setting m (s_ "installer.image.uri=") 0 (s_ "a.wic") /\ target_setting m (s_ "/dev/sdc") /\ overwrite_setting m (s_ "ABORT").
Proof.
  intro m. split; [left; discriminate|]. pose proof (gather_image m) as I. pose proof (gather_target m) as T. pose proof (gather_over m) as O.
  assert (E1 : c_image (gather m) = s_ "a.wic") by (vm_compute; reflexivity). assert (E2 : c_target (gather m) = s_ "/dev/sdc") by (vm_compute; reflexivity). assert (E3 : c_overwrite (gather m) = s_ "ABORT") by (vm_compute; reflexivity).
  rewrite E1 in I. rewrite E2 in T. rewrite E3 in O. auto.
Qed.
Example interactive_met : ~ asked_unattended (exm None (s_ "quiet") []).
Proof. rewrite <- gather_unattended. vm_compute. discriminate. Qed.
(** installer.target.overwrite=ABORT on the kernel's command line has the device overwritten:
    only the word's beginning is looked at. *)
Theorem installer_abort_refuted : exists m c, In (s_ "installer.target.overwrite=ABORT") (split_ws (m_cmdline m)) /\ (forall w, In w (split_ws (m_cmdline m)) -> w <> s_ "installer.target.overwrite=OVERWRITE") /\ m_auto m = None /\ handle_config m = Some c /\ c_overwrite c = s_ "OVERWRITE".
Proof.
  exists (exm None (s_ "installer.image.uri=a.wic installer.target.dev=/dev/sdb installer.target.overwrite=ABORT") [s_ "sda"]). eexists.
  split; [vm_compute; auto|]. split; [|split; [reflexivity|split; [vm_compute; reflexivity|reflexivity]]].
  intros w I E. subst w. apply mem_str_In in I. vm_compute in I. discriminate I.
Qed.

(** ** C167: the devices that are offered *)
(** Every plain disk is offered but those counted as the root file system's. *)
Theorem devices_exact s dev : In dev (discover s) <-> exists b, In b (s_block s) /\ dev = s_ "/dev/" ++ b_name b /\ plain_disk b /\ ~ taken s (b_name b).
Proof. apply discover_iff. Qed.
(** The disk the root file system is on is not offered, nor is one that has one of the parts of
    the device it is on. *)
Theorem devices_not_root s disk x : seqb (s_fstype s) (s_ "nfs") = false -> disk_name disk -> on_disk disk x -> s_source s = s_ "/dev/" ++ x \/ In x (s_slaves s) -> ~ In (s_ "/dev/" ++ disk) (discover s).
Proof.
  intros NFS DN OD W I. apply discover_iff in I. destruct I as (b & _ & E & _ & NT). apply app_inv_head in E. apply NT. rewrite <- E. unfold taken. rewrite NFS. destruct W as [W|W].
  - assert (R : root_dev s = x) by (unfold root_dev; rewrite W; rewrite (proj2 (after_prefix_iff (s_ "/dev/") (s_ "/dev/" ++ x) x) eq_refl); reflexivity). rewrite R. destruct OD as [->|PO].
    + left. exists []. rewrite app_nil_r. reflexivity.
    + right. left. destruct (base_part disk x DN PO) as [B NE]. auto.
  - right. right. exists x. split; [exact W|]. right. destruct (part_digits disk x DN OD) as [B NE]. auto.
Qed.
(** With the root file system on a partition of a disk all plain disks are offered whose names
    do not start with that disk's. *)
Theorem devices_others s disk x b : seqb (s_fstype s) (s_ "nfs") = false -> s_slaves s = [] -> s_source s = s_ "/dev/" ++ x -> partition_of disk x -> Forall (fun c => is_digit c = false) disk \/ begins (s_ "mmcblk") disk \/ begins (s_ "nvme") disk -> disk_name disk ->
  In b (s_block s) -> plain_disk b -> ~ begins disk (b_name b) -> In (s_ "/dev/" ++ b_name b) (discover s).
Proof.
  intros NFS SL SO PO K DN I P NB. apply discover_iff. exists b. split; [exact I|]. split; [reflexivity|]. split; [exact P|]. unfold taken. rewrite NFS, SL.
  assert (R : root_dev s = x) by (unfold root_dev; rewrite SO; rewrite (proj2 (after_prefix_iff (s_ "/dev/") (s_ "/dev/" ++ x) x) eq_refl); reflexivity). rewrite R.
  assert (DX : begins disk x) by (destruct PO as (n & _ & [[_ ->]|[_ ->]]); eexists; reflexivity).
  assert (BX : base_no_part x = disk).
  { unfold base_no_part. destruct (startswith (s_ "mmcblk") x || startswith (s_ "nvme") x) eqn:S.
    - destruct PO as (n & D & [[ED ->]|[NE ->]]); [rewrite (before_p_part disk n D); reflexivity|]. exfalso. apply NE. destruct DN as [DN _]. apply DN. destruct D as [_ D]. apply orb_prop in S. destruct S as [S|S]; apply startswith_begins in S; apply begins_plain in S; [left; exact S|reflexivity|exact D|right; exact S|reflexivity|exact D].
    - apply orb_false_elim in S. destruct S as [S1 S2]. apply startswith_not in S1, S2. destruct K as [K|[K|K]]; [|exfalso; exact (S1 (begins_trans _ _ _ K DX))|exfalso; exact (S2 (begins_trans _ _ _ K DX))].
      assert (NE : existsb is_digit disk = false) by (clear - K; induction K as [|c l H F IH]; [reflexivity|cbn; rewrite H; exact IH]).
      destruct PO as (n & [_ D] & [[(r & c & E & C) _]|[_ ->]]); [exfalso; rewrite E, existsb_app in NE; cbn in NE; rewrite C, orb_true_r in NE; discriminate NE|]. rewrite before_digits_app, NE, (digits_none n D), app_nil_r. reflexivity. }
  rewrite BX. intros [H|[[_ H]|(y & [] & _)]]; [exact (NB (begins_trans _ _ _ DX H))|exact (NB H)].
Qed.
Definition plain (n : str) : bdev := mkBdev n (Some []) false None.
Definition exsys : sysfs := mkSys (s_ "ext4") (s_ "/dev/sda2") [] [plain (s_ "sda"); plain (s_ "sdb"); plain (s_ "nvme0n1"); plain (s_ "loop0"); mkBdev (s_ "sdc") (Some [s_ "md0"]) false None; mkBdev (s_ "md0") (Some []) true (Some (s_ "clean" ++ [nl])); mkBdev (s_ "md1") (Some []) true (Some (s_ "inactive")); plain (s_ "mmcblk0"); plain (s_ "mmcblk0boot0")].
Example exsys_devices : discover exsys = map (fun n => s_ "/dev/" ++ n) [s_ "sdb"; s_ "nvme0n1"; s_ "md0"; s_ "mmcblk0"].
Proof. vm_compute. reflexivity. Qed.
Lemma partition_sda : partition_of (s_ "sda") (s_ "sda2").
Proof. exists (s_ "2"). split; [split; [discriminate|repeat constructor]|]. right. split; [|reflexivity]. intros (r & c & E & D). change (s_ "sda") with ([ "s"; "d" ]%char ++ ["a"%char]) in E. apply app_inj_tail in E. destruct E as [_ <-]. discriminate D. Qed.
Lemma diskname_sda : disk_name (s_ "sda").
Proof. split; [intros [[v E]|[v E]]; discriminate E|]. exists "s"%char, (s_ "da"). auto. Qed.
Example devices_met : seqb (s_fstype exsys) (s_ "nfs") = false /\ disk_name (s_ "sda") /\ on_disk (s_ "sda") (s_ "sda2") /\ s_source exsys = s_ "/dev/" ++ s_ "sda2" /\ Forall (fun c => is_digit c = false) (s_ "sda") /\ plain_disk (plain (s_ "sdb")) /\ ~ begins (s_ "sda") (b_name (plain (s_ "sdb"))).
Proof.
  split; [reflexivity|]. split; [apply diskname_sda|]. split; [right; apply partition_sda|]. split; [reflexivity|]. split; [repeat constructor|].
  assert (I : In (s_ "/dev/sdb") (discover exsys)) by (rewrite exsys_devices; left; reflexivity). apply discover_iff in I. destruct I as (b & I & E & P & NT).
  assert (B : b = plain (s_ "sdb")) by (cbn [exsys s_block In] in I; repeat (destruct I as [<-|I]; [first [reflexivity|discriminate E]|]); destruct I).
  subst b. split; [exact P|]. intros [v V]. discriminate V.
Qed.
(** With the root file system in an encrypted logical volume the disk is offered: only what is
    directly below its device counts. *)
Theorem devices_nested_refuted : exists s, s_source s = s_ "/dev/dm-1" /\ s_slaves s = [s_ "dm-0"] /\ (* dm-0 is on sda2 *) In (s_ "/dev/sda") (discover s).
Proof. exists (mkSys (s_ "ext4") (s_ "/dev/dm-1") [s_ "dm-0"] [mkBdev (s_ "dm-0") (Some [s_ "dm-1"]) false None; mkBdev (s_ "sda") (Some []) false None]). vm_compute. auto. Qed.
(** With an overlay as root file system every disk is offered. *)
Theorem devices_overlay_refuted : exists s, s_fstype s = s_ "overlay" /\ s_source s = s_ "overlay" /\ (forall b, In b (s_block s) -> plain_disk b -> ~ begins (s_ "overlay") (b_name b) -> In (s_ "/dev/" ++ b_name b) (discover s)) /\ In (s_ "/dev/sda") (discover s).
Proof.
  exists (mkSys (s_ "overlay") (s_ "overlay") [] [plain (s_ "sda"); plain (s_ "loop0")]). split; [reflexivity|]. split; [reflexivity|]. split; [|vm_compute; auto].
  intros b I P N. apply discover_iff. exists b. split; [exact I|]. split; [reflexivity|]. split; [exact P|]. cbn. intros [H|[[_ H]|(y & [] & _)]]; exact (N H).
Qed.
(** A disk that has nothing to do with the root file system is not offered if its name starts
    with the name of the root file system's disk: sdaa, with sda1, or any nvme disk, with one
    below the root file system's device. *)
Theorem devices_similar_refuted : exists s s' b, In b (s_block s) /\ plain_disk b /\ b_name b = s_ "sdaa" /\ s_source s = s_ "/dev/sda1" /\ s_slaves s = [] /\ discover s = [] /\ s_source s' = s_ "/dev/md0" /\ s_slaves s' = [s_ "nvme0n1p2"] /\ In (plain (s_ "nvme1n1")) (s_block s') /\ discover s' = [].
Proof.
  exists (mkSys (s_ "ext4") (s_ "/dev/sda1") [] [plain (s_ "sda"); plain (s_ "sdaa")]), (mkSys (s_ "ext4") (s_ "/dev/md0") [s_ "nvme0n1p2"] [mkBdev (s_ "nvme0n1") (Some [s_ "md0"]) false None; plain (s_ "nvme1n1")]), (plain (s_ "sdaa")).
  split; [right; left; reflexivity|]. split; [|repeat split; vm_compute; auto].
  assert (I : In (s_ "/dev/sdaa") (discover (mkSys (s_ "ext4") (s_ "/dev/sdb1") [] [plain (s_ "sdaa")]))) by (left; reflexivity). apply discover_iff in I. destruct I as (b & [<-|[]] & _ & P & _). exact P.
Qed.

(** ** C168: the installation *)
(** An image is copied to the device that was configured, if that is empty or may be
    overwritten; or to one that was offered and confirmed. *)
Theorem installer_copies m s a t st e nb image dev : installer m s a t = (st, e) -> In (Copy nb image dev) e ->
  m_file m image = true /\ t_free t = true /\ nb = negb (m_file m (bmap_of image)) /\
  (unattended m a -> target_setting m dev /\ (exists v, setting m (s_ "installer.image.uri=") 0 v /\ (image = v \/ image = m_data m ++ s_ "/" ++ v)) /\ (m_empty m dev = true \/ overwrite_setting m (s_ "OVERWRITE"))) /\
  (~ unattended m a -> In dev (discover s) /\ a_confirm a = true /\ (m_empty m dev = true \/ a_overwrite a = true)).
Proof.
  unfold installer. intros H I. destruct (handle_config m) as [c|] eqn:HC; [|injection H as _ <-; destruct I as [I|[]]; discriminate I].
  destruct (flow_cases m (discover s) a t c) as [(r & e' & _ & M & E)|(image' & dev' & P & [[_ E]|[A C]])]; [rewrite E in H; injection H as _ <-; apply M in I; discriminate I|rewrite E in H; injection H as _ <-; destruct I|].
  assert (CP : t_free t = true /\ Copy nb image dev = Copy (negb (m_file m (bmap_of image'))) image' dev').
  { destruct C as [[_ E]|[(T & _ & E)|[(T & _ & _ & E)|(T & _ & _ & E)]]]; rewrite E in H; injection H as _ <-.
    - destruct I as [I|[I|[]]]; discriminate I.
    - destruct (stays_unattended a c); [destruct I|destruct I as [I|[]]; discriminate I].
    - split; [exact T|]. destruct I as [I|I]; [symmetry; exact I|]. destruct (stays_unattended a c); [destruct I|destruct I as [I|[]]; discriminate I].
    - split; [exact T|]. destruct I as [I|[I|[]]]; [symmetry; exact I|discriminate I]. }
  destruct CP as [T Q]. injection Q as -> -> ->. clear C.
  assert (SU : stays_unattended a c = true <-> unattended m a).
  { rewrite <- stays_iff. unfold stays_unattended. destruct (installer_config m c HC) as (_ & _ & _ & U & B). rewrite <- gather_unattended in U. rewrite <- gather_abort in B. rewrite !andb_true_iff, U, !negb_true_iff, <- !not_true_iff_false, !andb_true_iff, !seqb_eq, B. reflexivity. }
  unfold plan in P. destruct (stays_unattended a c) eqn:UN.
  - injection P as <- <-. destruct (handle_spec m) as [[U E]|[(U & R & E)|(U & R & E)]]; rewrite E in HC; [exfalso|injection HC as <-|discriminate HC].
    + injection HC as <-. unfold stays_unattended in UN. rewrite U in UN. discriminate UN.
    + split; [apply final_file; exact R|]. split; [exact T|]. split; [reflexivity|]. split; [|intro N; exfalso; apply N, SU; reflexivity]. intros _.
      destruct (final_fields m (gather m)) as (F1 & F2 & _ & _). unfold allowed in A. rewrite F1 in *. rewrite F2 in A. split; [apply gather_target|]. split; [|destruct A as [A|A]; [left; exact A|right; rewrite <- A; apply gather_over]].
      exists (c_image (gather m)). split; [apply gather_image|]. unfold final. destruct (m_file m (c_image (gather m))); [left|right]; reflexivity.
  - destruct (attended_spec _ _ _ _ _ _ P) as (F & D & CF). split; [exact F|]. split; [exact T|]. split; [reflexivity|]. split; [intro U; apply SU in U; discriminate U|]. intros _. auto.
Qed.
(** One device is written at most. *)
Theorem installer_once m s a t st x nb image dev y : installer m s a t = (st, x ++ Copy nb image dev :: y) -> forall nb' image' dev', ~ In (Copy nb' image' dev') (x ++ y).
Proof.
  unfold installer. intros H nb' image' dev' I. destruct (handle_config m) as [c|]; [|injection H as _ H; destruct x as [|? [|? ?]]; discriminate H].
  destruct (flow_cases m (discover s) a t c) as [(r & e' & _ & M & E)|(i & d & P & [[_ E]|[A C]])]; [rewrite E in H; injection H as _ H; assert (Q : In (Copy nb image dev) e') by (rewrite H; apply in_or_app; right; left; reflexivity); apply M in Q; discriminate Q|rewrite E in H; injection H as _ H; destruct x; discriminate H|].
  destruct C as [[_ E]|[(_ & _ & E)|[(_ & _ & _ & E)|(_ & _ & _ & E)]]]; rewrite E in H; injection H as _ H.
  - destruct x as [|? [|? [|? ?]]]; discriminate H.
  - destruct (stays_unattended a c); destruct x as [|? [|? ?]]; discriminate H.
  - destruct x as [|z x]; [injection H as _ _ _ <-; cbn [app] in I; destruct (stays_unattended a c); [destruct I|destruct I as [I|[]]; discriminate I]|]. injection H as _ H. destruct (stays_unattended a c); destruct x as [|? [|? ?]]; discriminate H.
  - destruct x as [|z x]; [injection H as _ _ _ <-; destruct I as [I|[]]; discriminate I|]. injection H as _ H. destruct x as [|? [|? ?]]; discriminate H.
Qed.
(** Without questions it ends well only if the configuration was complete and the device could
    be overwritten, and if no other one installs, the copy was made. *)
Theorem installer_unattended_status m s a t st e : unattended m a -> installer m s a t = (st, e) ->
  (st = 0 <-> exists c, handle_config m = Some c /\ (m_empty m (c_target c) = true \/ c_overwrite c = s_ "OVERWRITE") /\ (t_free t = false \/ (t_copy t = true /\ (t_version t = false \/ t_fifo t = true)))) /\
  (st = 0 -> In Success e) /\ (In Success e -> st = 0 /\ (t_free t = false \/ exists nb image dev, In (Copy nb image dev) e /\ t_copy t = true)).
Proof.
  unfold installer. intros U H. destruct (handle_config m) as [c|] eqn:HC; [|injection H as <- <-; split; [split; [discriminate|intros (c & X & _); discriminate X]|]; split; [discriminate|intros [X|[]]; discriminate X]].
  assert (SU : stays_unattended a c = true).
  { apply stays_iff in U. revert U. unfold stays_unattended. destruct (installer_config m c HC) as (_ & _ & _ & U & B). rewrite <- gather_unattended in U. rewrite <- gather_abort in B. rewrite !andb_true_iff, U, !negb_true_iff, <- !not_true_iff_false, !andb_true_iff, !seqb_eq, B. auto. }
  assert (NP : no_pipe t = false <-> t_version t = false \/ t_fifo t = true) by (unfold no_pipe; destruct (t_version t), (t_fifo t); cbn; intuition discriminate).
  destruct (flow_cases m (discover s) a t c) as [(r & e' & P & _)|(i & d & P & C)]; unfold plan in P; rewrite SU in P; [discriminate P|]. injection P as <- <-. rewrite SU in C. unfold allowed in C.
  assert (K : forall Z : Prop, (exists c', Some c = Some c' /\ (m_empty m (c_target c') = true \/ c_overwrite c' = s_ "OVERWRITE") /\ Z) <-> (m_empty m (c_target c) = true \/ c_overwrite c = s_ "OVERWRITE") /\ Z) by (intro Z; split; [intros (c' & X & Y); injection X as <-; exact Y|intro Y; exists c; auto]).
  rewrite K, <- NP. destruct C as [[A E]|[A [[T E]|[(T & N & E)|[(T & N & CP & E)|(T & N & CP & E)]]]]]; rewrite E in H; injection H as <- <-.
  - split; [split; [discriminate|intros [X _]; exfalso; exact (A X)]|]. split; [discriminate|intros []].
  - split; [split; [intros _; split; [exact A|left; exact T]|reflexivity]|]. split; [intros _; right; left; reflexivity|]. intros _. split; [reflexivity|left; exact T].
  - split; [split; [discriminate|intros (_ & [X|[_ X]]); congruence]|]. split; [discriminate|intros []].
  - split; [split; [discriminate|intros (_ & [X|[X _]]); congruence]|]. split; [discriminate|intros [X|[]]; discriminate X].
  - split; [split; [intros _; split; [exact A|right; auto]|reflexivity]|]. split; [intros _; right; left; reflexivity|]. intros _. split; [reflexivity|]. right. do 3 eexists. split; [left; reflexivity|exact CP].
Qed.
(** Whoever answers the questions gets the image they chose on the only other disk. *)
Theorem installer_attended m s a t i image dev : ~ asked_unattended m -> not_given (m_cmdline m) (s_ "installer.image.uri=") -> a_image a = Some i -> nth_error (m_entries m) i = Some image -> m_file m (m_data m ++ s_ "/" ++ image) = true ->
  discover s = [dev] -> a_confirm a = true -> m_empty m dev = true \/ a_overwrite a = true -> t_free t = true -> t_version t = false \/ t_fifo t = true -> t_copy t = true ->
  installer m s a t = (0, [Copy (negb (m_file m (bmap_of (m_data m ++ s_ "/" ++ image)))) (m_data m ++ s_ "/" ++ image) dev; Success]).
Proof.
  intros NU NI AI NE F D CF OV T NP CP. unfold installer. destruct (handle_spec m) as [[U E]|[(U & _)|(U & _)]]; [|exfalso; apply NU, gather_unattended, U|exfalso; apply NU, gather_unattended, U]. rewrite E.
  assert (IM : c_image (gather m) = []).
  { destruct (gather_image m) as [G|[_ A]]; [exfalso; exact (given_not _ _ _ G NI)|]. unfold auto_line in A. destruct (m_auto m) eqn:AU; [exfalso; apply NU; left; rewrite AU; discriminate|exact A]. }
  assert (SU : stays_unattended a (gather m) = false) by (unfold stays_unattended; rewrite U; reflexivity).
  unfold flow_run. rewrite SU. unfold attended. rewrite IM. cbn [orb]. destruct (m_entries m) as [|y l]; [destruct i; discriminate NE|]. rewrite AI, NE, F, D, CF. cbn [negb].
  destruct (policy_spec m a false (gather m) dev) as [[_ ->]|[A _]]; [|exfalso; apply A; exact OV]. unfold install. rewrite T, CP. destruct NP as [->| ->]; [reflexivity|]. rewrite andb_false_r. reflexivity.
Qed.
(** The block map that is used is the image's name up to the last .wic, with .wic.bmap. *)
Theorem installer_bmap base ext : (forall a b, s_ ".wic" ++ ext = a ++ s_ ".wic" ++ b -> a = []) -> bmap_of (base ++ s_ ".wic" ++ ext) = base ++ s_ ".wic.bmap".
Proof.
  intro N. unfold bmap_of. destruct (before_wic (base ++ s_ ".wic" ++ ext)) as [x|] eqn:B.
  - apply before_wic_some in B. destruct B as (ext' & E & N'). rewrite (last_wic_unique _ _ _ _ E N N'). reflexivity.
  - exfalso. exact (before_wic_none _ B base ext eq_refl).
Qed.
Definition exans : answers := mkAnswers false (Some 0) (Some 0) true true.
Definition extools : tools := mkTools true true true true.
Example exrun_unattended : installer (exm None exline [s_ "sda"]) exsys exans extools = (0, [Copy false (s_ "/i/a.wic") (s_ "/dev/sdb"); Success]).
Proof. vm_compute. reflexivity. Qed.
Example exrun_attended : installer (exm None (s_ "quiet") [s_ "sda"]) exsys (mkAnswers false (Some 0) (Some 0) true false) extools = (0, [Copy false (s_ "/i/a.wic") (s_ "/dev/sdb"); Success]).
Proof. vm_compute. reflexivity. Qed.
Example exrun_declined : installer (exm None (s_ "quiet") [s_ "sda"]) (mkSys (s_ "ext4") (s_ "/dev/sda2") [] [plain (s_ "sdc")]) (mkAnswers false (Some 0) None true false) extools = (0, []).
Proof. vm_compute. reflexivity. Qed.
Example exrun_abort : installer (exm (Some exauto) (s_ "installer.target.dev=/dev/sdc") [s_ "sda"]) exsys exans extools = (1, []).
Proof. vm_compute. reflexivity. Qed.
Example exrun_modes : unattended (exm None exline [s_ "sda"]) exans /\ ~ unattended (exm (Some exauto) (s_ "quiet") []) (mkAnswers true None None true true) /\ ~ unattended (exm None (s_ "quiet") []) exans.
Proof.
  rewrite <- !stays_iff. vm_compute. repeat split; discriminate.
Qed.
Example attended_met : ~ asked_unattended (exm None (s_ "quiet") []) /\ not_given (s_ "quiet") (s_ "installer.image.uri=") /\ nth_error (m_entries (exm None (s_ "quiet") [])) 0 = Some (s_ "a.wic") /\ m_file (exm None (s_ "quiet") []) (s_ "/i" ++ s_ "/" ++ s_ "a.wic") = true /\ discover (mkSys (s_ "ext4") (s_ "/dev/sda2") [] [plain (s_ "sda"); plain (s_ "sdb")]) = [s_ "/dev/sdb"].
Proof. split; [apply interactive_met|]. split; [|repeat split; vm_compute; reflexivity]. intros w I [v E]. assert (W : split_ws (s_ "quiet") = [s_ "quiet"]) by (vm_compute; reflexivity). rewrite W in I. destruct I as [<-|[]]. discriminate E. Qed.
Example bmap_met : bmap_of (s_ "/i/x.wic.y.wic.gz") = s_ "/i/x.wic.y.wic.bmap" /\ bmap_of (s_ "/i/x.img") = s_ "/i/x.img.wic.bmap".
Proof. vm_compute. auto. Qed.
Example bmap_met2 : forall a b, s_ ".wic" ++ s_ ".gz" = a ++ s_ ".wic" ++ b -> a = [].
Proof. intros a b. destruct a as [|c1 [|c2 [|c3 [|c4 [|c5 [|c6 [|c7 [|c8 a]]]]]]]]; [reflexivity|..]; intro E; discriminate E. Qed.
(** When another console installs success is reported, whatever the image and the device asked
    for here, and whatever becomes of that installation. *)
Theorem installer_locked_refuted : exists m s a t, unattended m a /\ t_copy t = false /\ installer m s a t = (0, [Message; Success]).
Proof. exists (exm None exline [s_ "sda"]), exsys, exans, (mkTools false true true false). split; [apply exrun_modes|]. split; [reflexivity|]. vm_compute. reflexivity. Qed.
(** If the only device given is the one booted from it is overwritten. *)
Theorem installer_boot_refuted : exists m s a t, m_boot m = [s_ "sda"] /\ unattended m a /\ installer m s a t = (0, [Copy false (s_ "/i/a.wic") (s_ "/dev/sda"); Success]).
Proof.
  exists (exm None (s_ "installer.image.uri=a.wic installer.target.dev=/dev/sda installer.target.overwrite") [s_ "sda"]), exsys, exans, extools. split; [reflexivity|]. split; [apply stays_iff; vm_compute; reflexivity|]. vm_compute. reflexivity.
Qed.
(** With two disks mounted at / and below /boot none of them is avoided. *)
Theorem installer_boots_refuted : exists m s a t, m_boot m = [s_ "sda"; s_ "sdc"] /\ given (m_cmdline m) (s_ "installer.target.dev=") (s_ "/dev/sda,/dev/sdb") /\ installer m s a t = (0, [Copy false (s_ "/i/a.wic") (s_ "/dev/sda"); Success]).
Proof.
  exists (exm None exline [s_ "sda"; s_ "sdc"]), exsys, exans, extools. split; [reflexivity|]. split; [|vm_compute; reflexivity].
  exists [s_ "quiet"; s_ "installer.image.uri=a.wic"], [s_ "installer.target.overwrite=OVERWRITE"]. split; [vm_compute; reflexivity|]. intros w [<-|[]] [v E]. discriminate E.
Qed.

Print Assumptions installer_config.
Print Assumptions installer_not_boot.
Print Assumptions installer_complete.
Print Assumptions devices_exact.
Print Assumptions devices_not_root.
Print Assumptions devices_others.
Print Assumptions installer_copies.
Print Assumptions installer_once.
Print Assumptions installer_unattended_status.
Print Assumptions installer_attended.
Print Assumptions installer_bmap.
