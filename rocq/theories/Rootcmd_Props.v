(** Commands of root file systems: the claims. *)
From Coq Require Import Ascii String List Bool Arith Lia Permutation.
From Verif Require Import Str_Model Str_Proofs Rootcmd_Model Rootcmd_Spec Rootcmd_Proofs.
Import ListNotations.
Open Scope list_scope.

(** ** C133: rootfs_cmd *)
(** A command is run exactly if the arguments are binds, directories and root file
    systems (only the last of which is not empty), "--" and a command. *)
Theorem rootfs_cmd_accepts : forall repo isdir l, (exists w, rootfs_cmd repo isdir l = Ran w) <->
  exists items cmd, l = usage items cmd /\ cmd <> [] /\ (forall r, In r (roots items) -> plain r) /\ forall a r b, roots items = a ++ r :: b -> b <> [] -> r = [].
Proof.
  intros repo isdir l. split.
  - intros [w H]. unfold rootfs_cmd in H. destruct (options l _) as [m|[v rest]] eqn:O; [discriminate H|]. apply options_shape with (n := length l) in O; [|lia]. destruct O as (items & E & P & K & R).
    destruct R as [R|[c R]]; subst rest; [discriminate H|]. destruct c as [|x c]; [discriminate H|]. exists items, (x :: c). split; [exact E|]. split; [discriminate|]. split; [exact P|]. apply ok_nil. exact K.
  - intros (items & cmd & -> & N & P & K). unfold rootfs_cmd. rewrite options_usage; [|exact P|apply ok_nil; exact K]. destruct cmd as [|x cmd]; [congruence|]. eexists. reflexivity.
Qed.
(** What is run: the repository, directories to change to, the root file system and the
    read-only directories, in this order, then the binds; the command is passed on
    unchanged, whatever is in its arguments. *)
Theorem rootfs_cmd_exact : forall repo isdir items cmd, one_word repo -> cmd <> [] -> (forall r, In r (roots items) -> plain r) -> length (roots items) <= 1 -> (forall i, In i items -> item_words i) ->
  let root := match roots items with r :: _ => r | [] => [] end in
  rootfs_cmd repo isdir (usage items cmd) = Ran (
    [s_ "bwrap"; s_ "--unshare-user"; s_ "--unshare-pid"; s_ "--bind"; repo; s_ "/isar-apt"] ++ chdirs items ++ (match roots items with r :: _ => [s_ "--bind"; r; s_ "/"] | [] => [] end) ++
    flat_map (fun d => if isdir (root ++ s_ "/" ++ d) then [s_ "--ro-bind"; root ++ s_ "/" ++ d; s_ "/" ++ d] else []) [s_ "bin"; s_ "etc"; s_ "lib"; s_ "lib64"; s_ "sys"; s_ "usr"; s_ "var"] ++
    [s_ "--dev-bind"; s_ "/dev"; s_ "/dev"; s_ "--proc"; s_ "/proc"; s_ "--tmpfs"; s_ "/tmp"] ++ binds items ++ s_ "--" :: cmd).
Proof.
  intros repo isdir items cmd WR N P L W root. unfold rootfs_cmd. rewrite options_usage; [|exact P|].
  2:{ apply ok_nil. intros a r b E NB. rewrite E, app_length in L. cbn in L. destruct b; [congruence|cbn in L; lia]. }
  cbn [v_args v_binds v_root]. assert (RW : forall r, In r (roots items) -> one_word r).
  { intros r I. unfold roots in I. apply in_flat_map in I. destruct I as ([x y|d|r'] & I & J); try destruct J as [J|[]]; try contradiction. subst r'. exact (W _ I). }
  destruct cmd as [|x cmd]; [congruence|].
  assert (A0 : split_ws (s_ "--bind " ++ repo ++ s_ " /isar-apt") = [s_ "--bind"; repo; s_ "/isar-apt"]).
  { change (s_ "--bind " ++ repo ++ s_ " /isar-apt") with (join (s_ " ") [s_ "--bind"; repo; s_ "/isar-apt"]). apply split_ws_join. constructor; [apply lit_word; reflexivity|]. constructor; [apply one_word_word, WR|]. constructor; [apply lit_word; reflexivity|constructor]. }
  assert (B0 : split_ws ([] ++ bind_text items) = binds items) by (rewrite (split_bind items [] W); reflexivity).
  destruct (roots items) as [|r [|r2 rs]] eqn:RI; [| |cbn in L; lia]; cbn [last].
  - subst root. rewrite (split_ro isdir [] ro_dirs _ (Forall_nil _) ro_words). rewrite split_chdir by exact W. rewrite A0, B0. cbn [app]. rewrite <- !app_assoc. reflexivity.
  - assert (WW : one_word r) by (apply RW; left; reflexivity). destruct WW as [NR FR]. destruct r as [|c r]; [congruence|]. subst root.
    rewrite (split_ro isdir (c :: r) ro_dirs _ (proj2 (Forall_forall _ _) FR) ro_words).
    change (s_ " --bind " ++ (c :: r) ++ s_ " /") with (s_ " " ++ join (s_ " ") [s_ "--bind"; c :: r; s_ "/"]).
    rewrite add_words; [|constructor; [apply lit_word; reflexivity|]; constructor; [apply one_word_word; split; assumption|]; constructor; [apply lit_word; reflexivity|constructor]].
    rewrite split_chdir by exact W. rewrite A0, B0. cbn [app]. rewrite <- !app_assoc. reflexivity.
Qed.
(** A path with a space becomes two arguments. *)
Theorem rootfs_cmd_space_refuted : exists repo isdir x y root cmd w, rootfs_cmd repo isdir [s_ "--bind"; x; y; root; s_ "--"; cmd] = Ran w /\ ~ In x w.
Proof.
  exists (s_ "/r"), (fun _ => false), (s_ "/a b"), (s_ "/c"), (s_ "/root"), (s_ "ls"). eexists. split; [vm_compute; reflexivity|]. cbn. intuition discriminate.
Qed.
Example demo_cmd : let items := [Bind (s_ "/w/lock") (s_ "/var/lib/dpkg/lock"); Root (s_ "/w/rootfs")] in (forall i, In i items -> item_words i) /\
  rootfs_cmd (s_ "/d/isar") (fun d => seqb d (s_ "/w/rootfs/etc")) (usage items [s_ "sh"; s_ "-c"; s_ "a b"]) = Ran (map s_ ["bwrap"; "--unshare-user"; "--unshare-pid"; "--bind"; "/d/isar"; "/isar-apt"; "--bind"; "/w/rootfs"; "/"; "--ro-bind"; "/w/rootfs/etc"; "/etc";
    "--dev-bind"; "/dev"; "/dev"; "--proc"; "/proc"; "--tmpfs"; "/tmp"; "--bind"; "/w/lock"; "/var/lib/dpkg/lock"; "--"; "sh"; "-c"; "a b"]%string).
Proof.
  cbn zeta. split; [|vm_compute; reflexivity]. intros i [<-|[<-|[]]]; cbn; repeat split; try discriminate; intros c I; cbn in I; repeat (destruct I as [<-|I]; [reflexivity|]); destruct I.
Qed.

(** ** C134: packages of isar-apt *)
(** Of the packages apt would install, the names are passed to apt-get download. *)
Theorem isar_names_exact : forall us, (forall u, In u us -> apt_line u) -> isar_names (map line us) = map u_name us.
Proof. induction us as [|u us IH]; intro H; [reflexivity|]. unfold isar_names in *. cbn [map flat_map]. rewrite (sed_line u (H u (or_introl eq_refl))). cbn [app]. rewrite IH by (intros x I; apply H; right; exact I). reflexivity. Qed.
(** Lines without a package give none. *)
Theorem isar_names_none : forall l, ~ In "'"%char l -> isar_names [l] = [].
Proof. intros l H. unfold isar_names. cbn [flat_map]. rewrite sed_none; [reflexivity|]. intros p q E. apply group_quote. intro I. apply H. rewrite E. apply in_or_app. right. right. exact I. Qed.
(** The architecture is lost: for a package of another architecture the one for this
    machine is downloaded. *)
Theorem isar_names_arch_refuted : exists u u', apt_line u /\ apt_line u' /\ u_arch u <> u_arch u' /\ isar_names [line u] = isar_names [line u'].
Proof.
  exists (mkUri (s_ "file:///isar-apt/pool") (s_ "hello") (s_ "1.0") (s_ "i386") (s_ " hello_1.0_i386.deb 10 SHA256:ab")), (mkUri (s_ "file:///isar-apt/pool") (s_ "hello") (s_ "1.0") (s_ "amd64") (s_ " hello_1.0_amd64.deb 10 SHA256:ab")).
  assert (D : forall cs s, forallb (fun c => negb (existsb (aeqb c) s)) cs = true -> none_of cs s).
  { intros cs s H c I J. rewrite forallb_forall in H. specialize (H c I). apply negb_true_iff in H. assert (X : existsb (aeqb c) s = true) by (apply existsb_exists; exists c; split; [exact J|apply aeqb_refl]). congruence. }
  split; [repeat split; apply D; reflexivity|]. split; [repeat split; apply D; reflexivity|]. split; [discriminate|]. vm_compute. reflexivity.
Qed.

(** ** C135: the initrd *)
(** dracut is used exactly if it is asked for or a package has "dracut" in its name. *)
Theorem generator_exact : forall pkgs use, (forall p, In p pkgs -> one_word p) -> uses_dracut (join (s_ " ") pkgs) use = true <-> use = true \/ exists p a b, In p pkgs /\ p = a ++ s_ "dracut" ++ b.
Proof.
  intros pkgs use W. unfold uses_dracut. rewrite orb_true_iff, contains_words by (apply lit_word; reflexivity). split.
  - intros [(w & I & C)|H]; [|left; exact H]. apply contains_sub_iff in C. destruct C as (a & b & C). right. exists w, a, b. auto.
  - intros [H|(p & a & b & I & E)]; [right; exact H|]. left. exists p. split; [exact I|]. apply contains_sub_iff. exists a, b. exact E.
Qed.
(** A package that only mentions dracut in its name is enough. *)
Theorem generator_refuted : exists pkgs, ~ In (s_ "dracut") pkgs /\ In (s_ "initramfs-tools") pkgs /\ uses_dracut (join (s_ " ") pkgs) false = true.
Proof. exists [s_ "initramfs-tools"; s_ "dracut-network-doc"]. split; [cbn; intuition discriminate|]. split; [left; reflexivity|]. vm_compute. reflexivity. Qed.
(** The initrd deployed is that of the last kernel, whatever order the directory is read
    in and whatever was left in the work directory, if no other name begins with its
    name. *)
Theorem initrd_last : forall gen order ks k boot old, (forall l, Permutation (order l) l) -> NoDup (map fst boot) ->
  (forall n, In n (map fst boot) \/ (exists k', In k' ks /\ n = initrd_name (kernel_version k')) -> begins (initrd_name (kernel_version k)) n -> n = initrd_name (kernel_version k)) ->
  generate_initramfs gen order (ks ++ [k]) boot old = Some (gen (kernel_version k)).
Proof.
  intros gen order ks k boot old OP N H. unfold generate_initramfs. destruct (ks ++ [k]) as [|z zs] eqn:Z; [destruct ks; discriminate Z|]. rewrite <- Z. clear z zs Z. rewrite fold_left_app. cbn [fold_left].
  destruct (kernels_boot gen order ks (boot, old) N) as [N2 B]. destruct (fold_left (one_kernel gen order) ks (boot, old)) as [boot2 old2]. cbn [fst] in N2, B. unfold one_kernel. cbn [fst snd].
  set (v := kernel_version k) in *. set (b := put (initrd_name v) (gen v) boot2).
  assert (A : forall c, In c (found order v b) -> c = gen v).
  { intros c I. unfold found in I. apply in_map_iff in I. destruct I as ([n x] & E & I). cbn in E. subst x. apply filter_In in I. destruct I as [I S]. cbn [fst] in S. apply (Permutation_in _ (OP b)) in I. apply startswith_iff in S.
    assert (n = initrd_name v). { destruct (put_In _ _ _ _ _ I) as [[E _]|J]; [exact E|]. apply H; [|exact S]. destruct (B n); [apply in_map_iff; exists (n, c); auto|left; assumption|right; assumption]. }
    subst n. exact (put_own _ _ _ N2 c I). }
  assert (NE : found order v b <> []).
  { intro E. assert (I : In (gen v) (found order v b)); [|rewrite E in I; destruct I]. unfold found. apply in_map_iff. exists (initrd_name v, gen v). split; [reflexivity|]. apply filter_In. split; [|cbn [fst]; apply startswith_iff; exists []; rewrite app_nil_r; reflexivity].
    apply (Permutation_in _ (Permutation_sym (OP b))). apply put_there. }
  rewrite (fold_last _ _ []) by exact NE. f_equal. apply A. destruct (exists_last NE) as (l & x & ->). rewrite last_last. apply in_or_app. right. left. reflexivity.
Qed.
(** The kernel linked in / is deployed, and the one linked in /boot if / has none. *)
Theorem kernel_chosen : forall root boot k, kernel_deployed root boot = Some k <-> root = Some k \/ (root = None /\ boot = Some k).
Proof. intros [r|] boot k; cbn; intuition congruence. Qed.
(** So with one kernel, kernel and initrd belong together. *)
Theorem initrd_belongs : forall gen order k links k' boot old, (forall l, Permutation (order l) l) -> NoDup (map fst boot) -> (forall n, In n (map fst boot) -> begins (initrd_name (kernel_version k)) n -> n = initrd_name (kernel_version k)) ->
  kernel_deployed (fst links) (snd links) = Some k' -> In k' [k] -> generate_initramfs gen order [k] boot old = Some (gen (kernel_version k')).
Proof. intros gen order k links k' boot old OP N H _ [<-|[]]. apply (initrd_last gen order [] k boot old OP N). intros n [I|(k' & [] & _)]. apply H, I. Qed.
(** The initrd is made for the version in the name of the kernel: all after the first
    dash. *)
Theorem initrd_version : forall gen order stem v boot old, (forall l, Permutation (order l) l) -> NoDup (map fst boot) -> ~ In "-"%char stem ->
  (forall n, In n (map fst boot) -> begins (s_ "initrd.img-" ++ v) n -> n = s_ "initrd.img-" ++ v) -> generate_initramfs gen order [stem ++ "-"%char :: v] boot old = Some (gen v).
Proof.
  intros gen order stem v boot old OP N S H. assert (V : kernel_version (stem ++ "-"%char :: v) = v) by (unfold kernel_version; rewrite cut_at_some by (apply no_char_In; exact S); reflexivity).
  rewrite <- V at 2. apply (initrd_last gen order [] _ boot old OP N). rewrite V. intros n [I|(k' & [] & _)]. apply H, I.
Qed.
Theorem initrd_none : forall gen order boot old, generate_initramfs gen order [] boot old = None.
Proof. reflexivity. Qed.
(** With two kernels they may not: 6.1.0-9 comes after 6.1.0-10. *)
Theorem initrd_newest_refuted : exists kernels k, In k kernels /\ kernel_deployed (Some k) None = Some k /\
  forall gen, gen (kernel_version k) <> gen (s_ "6.1.0-9-amd64") -> exists other, generate_initramfs gen (fun l => l) kernels [] None = Some other /\ other <> gen (kernel_version k).
Proof.
  exists [s_ "vmlinuz-6.1.0-10-amd64"; s_ "vmlinuz-6.1.0-9-amd64"], (s_ "vmlinuz-6.1.0-10-amd64"). split; [left; reflexivity|]. split; [reflexivity|]. intros gen D. exists (gen (s_ "6.1.0-9-amd64")). split; [reflexivity|]. intro E. apply D. symmetry. exact E.
Qed.
(** A backup next to the initrd may be deployed in its place. *)
Theorem initrd_backup_refuted : exists k boot, NoDup (map fst boot) /\ forall gen, generate_initramfs gen (fun l => rev l) [k] boot None = Some (s_ "old") \/ generate_initramfs gen (fun l => l) [k] boot None = Some (s_ "old").
Proof.
  exists (s_ "vmlinuz-6.1.0-9-amd64"), [(s_ "initrd.img-6.1.0-9-amd64.bak", s_ "old")]. split; [repeat constructor; intros []|]. intro gen. left. reflexivity.
Qed.
Example demo_initrd : generate_initramfs (fun v => s_ "for " ++ v) (fun l => rev l) [s_ "vmlinuz-5.10.0-8"; s_ "vmlinuz-6.1.0-9"] [(s_ "initrd.img-5.10.0-8", s_ "x"); (s_ "config-6.1.0-9", s_ "c")] (Some (s_ "left")) = Some (s_ "for 6.1.0-9").
Proof. vm_compute. reflexivity. Qed.
Print Assumptions rootfs_cmd_accepts. Print Assumptions rootfs_cmd_exact. Print Assumptions rootfs_cmd_space_refuted. Print Assumptions isar_names_exact. Print Assumptions isar_names_none. Print Assumptions isar_names_arch_refuted.
Print Assumptions generator_exact. Print Assumptions generator_refuted. Print Assumptions initrd_last. Print Assumptions initrd_belongs. Print Assumptions initrd_none. Print Assumptions initrd_newest_refuted. Print Assumptions initrd_backup_refuted.
Print Assumptions kernel_chosen.
Print Assumptions initrd_version.
