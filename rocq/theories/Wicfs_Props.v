(** C144-C146: lines of fstab, identification of partitions, sizes and files of file systems. *)
From Coq Require Import Ascii String List Bool NArith Arith Lia.
From Verif Require Import Str_Model Str_Proofs Wicfs_Model Wicfs_Spec Wicfs_Proofs.
Import ListNotations.
Open Scope list_scope.

(** C144: the new fstab has the lines of the old one and after them one line with six fields
    for every mounted partition of the table, in their order, and nothing else. *)
Theorem fstab_lines : forall content ps r, content = [] \/ (exists c, content = c ++ [nl]) -> (forall p, In p ps -> mounted p = true -> Forall plain (expected p)) ->
  update_fstab content ps = Some r ->
  map fields (split_on nl r) = map fields (removelast (split_on nl content)) ++ map expected (filter mounted ps) ++ [[]].
Proof.
  intros content ps r C W U. unfold update_fstab in U. rewrite filter_ext_mounted in U. set (l := filter mounted ps) in *.
  assert (R : r = content ++ concat (map fstab_line l)) by (destruct l; [discriminate|]; inversion U; reflexivity). clear U.
  assert (WL : Forall (fun p => Forall word (expected p)) l).
  { apply Forall_forall. intros p I. unfold l in I. apply filter_In in I. destruct I as [I M]. specialize (W p I M). rewrite Forall_forall in W |- *. intros w J. apply plain_word, W, J. }
  assert (LN : map fields (split_on nl (concat (map fstab_line l))) = map expected l ++ [[]]).
  { assert (E : map fstab_line l = map (fun x => x ++ [nl]) (map (fun p => join tab (expected p)) l)) by (rewrite map_map; reflexivity). rewrite E, lines_of.
    - rewrite map_app, map_map. f_equal. apply map_ext_in. intros p I. rewrite Forall_forall in WL. apply join_tab_words, WL, I.
    - apply Forall_forall. intros x I. apply in_map_iff in I. destruct I as (p & <- & I). rewrite Forall_forall in WL. apply join_no_nl, WL, I. }
  destruct C as [->|(c & ->)].
  - rewrite R. cbn [app]. rewrite LN. reflexivity.
  - rewrite R, <- app_assoc. change ([nl] ++ concat (map fstab_line l)) with (nl :: concat (map fstab_line l)). rewrite !split_on_after, map_app, LN. f_equal. change (split_on nl []) with [@nil ascii]. rewrite removelast_last. reflexivity.
Qed.
(** C144: there is a new file exactly if a partition of the table is mounted. *)
Theorem fstab_new_file : forall content ps, (exists r, update_fstab content ps = Some r) <-> exists p, In p ps /\ mounted p = true.
Proof.
  intros content ps. unfold update_fstab. rewrite filter_ext_mounted. split.
  - intros (r & U). destruct (filter mounted ps) as [|p l] eqn:E; [discriminate|]. exists p. apply filter_In. rewrite E. left. reflexivity.
  - intros (p & I). apply filter_In in I. destruct (filter mounted ps) as [|q l]; [destruct I|]. eexists. reflexivity.
Qed.
Definition base : part := mkPart (s_ "sda") (s_ "/") (s_ "ext4") [] [] [] [] [] [] [] false false false 1024 0 0 (13, 10)%N 0 1.
Definition with_mount (p : part) (m t : str) (l : N) : part := mkPart (disk p) m t (label p) (uuid p) (fsuuid p) (fsopts p) (passno p) (part_name p) (source p) (use_uuid p) (use_label p) (no_table p) (size p) (fixed p) (extra p) (factor p) (realnum p) l.
Definition with_names (p : part) (d l u fu pn : str) (uu : bool) : part := mkPart d (mount p) (fstype p) l u fu (fsopts p) (passno p) pn (source p) uu (use_label p) (no_table p) (size p) (fixed p) (extra p) (factor p) (realnum p) (line p).
Definition with_sizes (p : part) (s f e : N) : part := mkPart (disk p) (mount p) (fstype p) (label p) (uuid p) (fsuuid p) (fsopts p) (passno p) (part_name p) (source p) (use_uuid p) (use_label p) (no_table p) s f e (factor p) (realnum p) (line p).
Definition off_table (p : part) : part := mkPart (disk p) (mount p) (fstype p) (label p) (uuid p) (fsuuid p) (fsopts p) (passno p) (part_name p) (source p) (use_uuid p) (use_label p) true (size p) (fixed p) (extra p) (factor p) (realnum p) (line p).
Definition ex_uuid4 (n : nat) : str := s_ "1234abcd-0000-4000-8000-00000000000" ++ dec (N.of_nat (Nat.modulo n 10)).
Definition ex_ps : list part := [with_mount (with_names base (s_ "sda") [] [] [] [] true) (s_ "/boot") (s_ "vfat") 1; with_mount base (s_ "/") (s_ "ext4") 2; off_table (with_mount base (s_ "/raw") (s_ "none") 3); with_mount base [] (s_ "ext4") 4; with_mount base (s_ "swap") (s_ "swap") 5].
Definition ex_text : str := s_ "proc /proc proc defaults 0 0" ++ [nl].
Definition ex_init : list part := init_parts ex_uuid4 3735928559 MSDOS ex_ps.
Definition ex_new : str := match update_fstab ex_text ex_init with Some r => r | None => [] end.
Example ex_fstab : map fields (split_on nl ex_new) =
  [map s_ ["proc"; "/proc"; "proc"; "defaults"; "0"; "0"]; map s_ ["UUID=1234-ABCD"; "/boot"; "vfat"; "defaults"; "0"; "0"]; map s_ ["/dev/sda2"; "/"; "ext4"; "defaults"; "0"; "0"]; map s_ ["/dev/sda4"; "swap"; "swap"; "defaults"; "0"; "0"]; []]%string.
Proof. vm_compute. reflexivity. Qed.
Example ex_fstab_plain : forallb (fun p => forallb (fun w => negb (none w) && forallb (fun c => negb (is_space c)) w) (expected p)) (filter mounted ex_init) = true.
Proof. vm_compute. reflexivity. Qed.
(** C144, refuted: when the last line of the old file does not end with a newline, the first
    new line becomes part of it. *)
Theorem fstab_newline_refuted : exists r, update_fstab (s_ "proc /proc proc defaults 0 0") [set_num base 1] = Some r /\
  map fields (split_on nl r) = [map s_ ["proc"; "/proc"; "proc"; "defaults"; "0"; "0/dev/sda1"; "/"; "ext4"; "defaults"; "0"; "0"]; []]%string.
Proof. eexists. split; [reflexivity|]. vm_compute. reflexivity. Qed.
(** C144, refuted: a mount point with a space gives a line with seven fields. *)
Theorem fstab_space_refuted : exists r, update_fstab [] [set_num (with_mount base (s_ "/my data") (s_ "ext4") 1) 1] = Some r /\
  map fields (split_on nl r) = [map s_ ["/dev/sda1"; "/my"; "data"; "ext4"; "defaults"; "0"; "0"]; []]%string.
Proof. eexists. split; [reflexivity|]. vm_compute. reflexivity. Qed.

(** C145: the line of a FAT partition with --use-uuid has the text for the number that
    mkdosfs gets: the one given in hexadecimal digits, with or without 0x, in either case, or
    one made up. *)
Theorem device_fat : forall uuid4 ident f ps i p p', (forall n, uuid_text (uuid4 n)) -> nth_error ps i = Some p -> nth_error (init_parts uuid4 ident f ps) i = Some p' ->
  fat p = true -> use_uuid p = true ->
  fsuuid p = [] \/ (exists d v, hex_number 0 d = Some v /\ length d <= 8 /\ (fsuuid p = d \/ fsuuid p = s_ "0x" ++ d \/ fsuuid p = s_ "0X" ++ d)) ->
  exists v, device_name p' = s_ "UUID=" ++ fat_text v /\ (v < 2 ^ 32)%N /\ (exists t, made_with p' = Some (s_ "0x" ++ t) /\ hex_number 0 t = Some v) /\
    (forall d w, fsuuid p <> [] -> hex_number 0 d = Some w -> fsuuid p = d \/ fsuuid p = s_ "0x" ++ d \/ fsuuid p = s_ "0X" ++ d -> v = w).
Proof.
  intros uuid4 ident f ps i p p' UT NP NP' F U H. destruct (init_nth _ _ _ _ _ _ NP') as (q & m & k1 & k2 & Q & _ & E). rewrite NP in Q. inversion Q; subst q. clear Q.
  assert (X : exists v d, hex_number 0 d = Some v /\ length d <= 8 /\ fst (fs_uuid uuid4 k2 (set_num p m)) = s_ "0x" ++ hexpad upper_digit 8 v /\ (fsuuid p <> [] -> fsuuid p = d \/ fsuuid p = s_ "0x" ++ d \/ fsuuid p = s_ "0X" ++ d)).
  { destruct (none (fsuuid p)) eqn:N.
    - destruct (UT k2) as [L (v & HV)]. exists v, (firstn 8 (uuid4 k2)). split; [exact HV|]. split; [rewrite firstn_length; lia|]. split; [apply fs_uuid_fat; [exact UT|exact F|]; cbn [fsuuid set_num]; rewrite N; exact HV|]. intro NE. destruct (fsuuid p); [congruence|discriminate].
    - destruct H as [H|(d & v & HD & L & H)]; [rewrite H in N; discriminate|]. exists v, d. split; [exact HD|]. split; [exact L|]. split; [|auto]. apply fs_uuid_fat; [exact UT|exact F|]. cbn [fsuuid set_num]. rewrite N. exists d. auto. }
  destruct X as (v & d & HD & L & FS & WH). destruct (rjust_upper d L v HD) as [RJ LT].
  assert (HT : hex_number 0 (hexpad upper_digit 8 v) = Some v) by (rewrite RJ; unfold rjust; rewrite hex_number_zeros; apply hex_number_upper, HD).
  exists v. split; [apply device_fat_text; [subst p'; exact U|subst p'; exact FS]|]. split; [exact LT|]. split.
  - exists (hexpad upper_digit 8 v). split; [|exact HT]. unfold made_with. subst p'. cbn [fstype fsuuid set_ids set_num]. rewrite FS. unfold fat in F. apply orb_true_iff in F. destruct F as [F|F]; apply seqb_eq in F; rewrite F; reflexivity.
  - intros e w NE HE WE. assert (EQ : forall a b x y, hex_number 0 a = Some x -> hex_number 0 b = Some y -> fsuuid p = a \/ fsuuid p = s_ "0x" ++ a \/ fsuuid p = s_ "0X" ++ a -> fsuuid p = b \/ fsuuid p = s_ "0x" ++ b \/ fsuuid p = s_ "0X" ++ b -> x = y).
    { clear. intros a b x y A B [P|[P|P]] [Q|[Q|Q]]; rewrite P in Q; clear P;
        try (apply app_inv_head in Q); try (subst a; congruence); try (subst b; congruence); try discriminate;
        exfalso; try (subst a; cbn in A; discriminate); try (subst b; cbn in B; discriminate). }
    exact (EQ d e v w HD HE (WH NE) WE).
Qed.
Example ex_uuid_text : forall n, uuid_text (ex_uuid4 n).
Proof.
  intro n. split; [|exists 305441741%N; reflexivity]. unfold ex_uuid4. rewrite app_length. assert (L : length (dec (N.of_nat (Nat.modulo n 10))) = 1).
  { pose proof (Nat.mod_upper_bound n 10 ltac:(discriminate)) as B. set (k := Nat.modulo n 10) in *. clearbody k. do 10 (destruct k as [|k]; [reflexivity|]). lia. }
  rewrite L. reflexivity.
Qed.
(** C145: for other file systems with --use-uuid the line has the identifier the file system
    is made with. *)
Theorem device_other : forall uuid4 ident f ps i p p', (forall n, uuid_text (uuid4 n)) -> nth_error ps i = Some p -> nth_error (init_parts uuid4 ident f ps) i = Some p' ->
  fat p = false -> use_uuid p = true -> length (fsuuid p) <> 10 -> fstype p <> s_ "squashfs" -> fstype p <> s_ "none" ->
  exists u, device_name p' = s_ "UUID=" ++ u /\ made_with p' = Some u /\ (fsuuid p <> [] -> u = fsuuid p).
Proof.
  intros uuid4 ident f ps i p p' UT NP NP' F U L N1 N2. destruct (init_nth _ _ _ _ _ _ NP') as (q & m & k1 & k2 & Q & _ & E). rewrite NP in Q. inversion Q; subst q. clear Q.
  set (u := fst (fs_uuid uuid4 k2 (set_num p m))) in *. assert (FU : u = if none (fsuuid p) then uuid4 k2 else fsuuid p).
  { unfold u, fs_uuid. cbn [fsuuid set_num]. change (fat (set_num p m)) with (fat p). rewrite F. destruct (none (fsuuid p)); reflexivity. }
  assert (LU : length u <> 10 /\ u <> []).
  { rewrite FU. destruct (none (fsuuid p)) eqn:N; [destruct (UT k2) as [X _]; rewrite X; split; [discriminate|intro Y; rewrite Y in X; discriminate]|]. split; [exact L|]. destruct (fsuuid p); [discriminate|discriminate]. }
  exists u. split; [|split].
  - unfold device_name. subst p'. cbn [use_uuid fsuuid set_ids set_num]. rewrite U. destruct LU as [L1 L2]. apply Nat.eqb_neq in L1. rewrite L1. destruct u; [congruence|reflexivity].
  - unfold made_with. subst p'. cbn [fstype fsuuid set_ids set_num]. apply seqb_neq in N1. apply seqb_neq in N2. rewrite N1, N2. reflexivity.
  - intro NE. rewrite FU. destruct (fsuuid p); [congruence|reflexivity].
Qed.
(** C145: with a table of type gpt, identifiers that are given stay, and identifiers that are
    made up are each used once: for one partition or one file system. *)
Theorem uuids_once : forall uuid4 ident ps i j p q p' q', (forall m n, uuid4 m = uuid4 n -> m = n) ->
  nth_error ps i = Some p -> nth_error ps j = Some q -> nth_error (init_parts uuid4 ident GPT ps) i = Some p' -> nth_error (init_parts uuid4 ident GPT ps) j = Some q' ->
  (uuid p <> [] -> uuid p' = uuid p) /\
  (uuid p = [] -> use_uuid p = true -> uuid q = [] -> use_uuid q = true -> i <> j -> uuid p' <> uuid q') /\
  (uuid p = [] -> use_uuid p = true -> fsuuid q = [] -> fat q = false -> uuid p' <> fsuuid q') /\
  (fsuuid p = [] -> fat p = false -> fsuuid q = [] -> fat q = false -> i <> j -> fsuuid p' <> fsuuid q').
Proof.
  intros uuid4 ident ps i j p q p' q' INJ P Q P' Q'.
  assert (W : forall i p p', nth_error ps i = Some p -> nth_error (init_parts uuid4 ident GPT ps) i = Some p' -> exists m k1, nth_error (number GPT (num_real ps) 0 ps) i = Some (set_num p m) /\ uuid p' = fst (part_uuid uuid4 ident GPT k1 (set_num p m)) /\ fsuuid p' = fst (fs_uuid uuid4 (snd (part_uuid uuid4 ident GPT k1 (set_num p m))) (set_num p m)) /\
    forall j q q', i < j -> nth_error ps j = Some q -> nth_error (init_parts uuid4 ident GPT ps) j = Some q' -> exists m' k3, snd (fs_uuid uuid4 (snd (part_uuid uuid4 ident GPT k1 (set_num p m))) (set_num p m)) <= k3 /\
      uuid q' = fst (part_uuid uuid4 ident GPT k3 (set_num q m')) /\ fsuuid q' = fst (fs_uuid uuid4 (snd (part_uuid uuid4 ident GPT k3 (set_num q m'))) (set_num q m'))).
  { clear. intros i p p' P P'. unfold init_parts in P'. destruct (identify_used _ _ _ _ _ _ _ P') as (x & k1 & k2 & X & _ & U & F & -> & R). destruct (number_nth _ _ _ _ _ _ X) as (y & m & Y & Z & _). rewrite P in Y. inversion Y; subst y. subst x. exists m, k1. split; [exact X|]. split; [exact U|]. split; [exact F|].
    intros j q q' L Q Q'. destruct (R j q' L Q') as (z & k3 & k4 & Z1 & Z2 & -> & Z3 & Z4). destruct (number_nth _ _ _ _ _ _ Z1) as (y & m' & Y' & E & _). rewrite Q in Y'. inversion Y'; subst y. subst z. exists m', k3. auto. }
  assert (A : forall k p m, uuid p = [] -> use_uuid p = true -> part_uuid uuid4 ident GPT k (set_num p m) = (uuid4 k, S k)) by (intros k x m A B; unfold part_uuid; cbn [uuid use_uuid set_num]; rewrite A, B; reflexivity).
  assert (B : forall k p m, fsuuid p = [] -> fat p = false -> fs_uuid uuid4 k (set_num p m) = (uuid4 k, S k)) by (intros k x m B C; unfold fs_uuid; cbn [fsuuid set_num]; change (fat (set_num x m)) with (fat x); rewrite B, C; reflexivity).
  assert (S1 : forall k p, k <= snd (part_uuid uuid4 ident GPT k p)) by (intros k x; destruct (part_uuid_step uuid4 ident GPT k x) as [E|[E _]]; rewrite E; lia).
  assert (S2 : forall k p, k <= snd (fs_uuid uuid4 k p)) by (intros k x; destruct (fs_uuid_step uuid4 k x) as [E|E]; rewrite E; lia).
  split; [|split; [|split]].
  - intro N. destruct (W i p p' P P') as (m & k1 & _ & U & _). rewrite U. unfold part_uuid. cbn [uuid use_uuid set_num]. destruct (uuid p); [contradiction|reflexivity].
  - intros A1 A2 B1 B2 NE. assert (X : forall i j p q p' q', i < j -> nth_error ps i = Some p -> nth_error ps j = Some q -> nth_error (init_parts uuid4 ident GPT ps) i = Some p' -> nth_error (init_parts uuid4 ident GPT ps) j = Some q' -> uuid p = [] -> use_uuid p = true -> uuid q = [] -> use_uuid q = true -> uuid p' <> uuid q').
    { clear - W A S1 S2 INJ. intros i j p q p' q' L P Q P' Q' A1 A2 B1 B2. destruct (W i p p' P P') as (m & k1 & _ & U & _ & R). destruct (R j q q' L Q Q') as (m' & k3 & K & V & _). rewrite U, V, !A by assumption. rewrite A in K by assumption. cbn [fst snd] in K |- *. intro E. apply INJ in E. specialize (S2 (S k1) (set_num p m)). lia. }
    destruct (Nat.lt_total i j) as [L|[L|L]]; [exact (X i j p q p' q' L P Q P' Q' A1 A2 B1 B2)|contradiction|]. intro E. symmetry in E. exact (X j i q p q' p' L Q P Q' P' B1 B2 A1 A2 E).
  - intros A1 A2 B1 B2. destruct (Nat.lt_total i j) as [L|[L|L]].
    + destruct (W i p p' P P') as (m & k1 & _ & U & _ & R). destruct (R j q q' L Q Q') as (m' & k3 & K & _ & V). rewrite U, V, A, B by assumption. rewrite A in K by assumption. cbn [fst snd] in K |- *. intro E. apply INJ in E. pose proof (S2 (S k1) (set_num p m)). pose proof (S1 k3 (set_num q m')). lia.
    + subst j. rewrite P in Q. injection Q as ->. rewrite P' in Q'. injection Q' as ->. destruct (W i q q' P P') as (m & k1 & _ & U & F & _). rewrite U, F, A by assumption. cbn [snd fst]. rewrite B by assumption. cbn [fst]. intro E. apply INJ in E. lia.
    + destruct (W j q q' Q Q') as (m & k1 & _ & _ & V & R). destruct (R i p p' L P P') as (m' & k3 & K & U & _). rewrite U, V, A, B by assumption. rewrite B in K by assumption. cbn [fst snd] in K |- *. intro E. apply INJ in E. lia.
  - intros A1 A2 B1 B2 NE. assert (X : forall i j p q p' q', i < j -> nth_error ps i = Some p -> nth_error ps j = Some q -> nth_error (init_parts uuid4 ident GPT ps) i = Some p' -> nth_error (init_parts uuid4 ident GPT ps) j = Some q' -> fsuuid p = [] -> fat p = false -> fsuuid q = [] -> fat q = false -> fsuuid p' <> fsuuid q').
    { clear - W B S1 S2 INJ. intros i j p q p' q' L P Q P' Q' A1 A2 B1 B2. destruct (W i p p' P P') as (m & k1 & _ & _ & U & R). destruct (R j q q' L Q Q') as (m' & k3 & K & _ & V). rewrite U, V, !B by assumption. rewrite B in K by assumption. cbn [fst snd] in K |- *. intro E. apply INJ in E. specialize (S1 k3 (set_num q m')). lia. }
    destruct (Nat.lt_total i j) as [L|[L|L]]; [exact (X i j p q p' q' L P Q P' Q' A1 A2 B1 B2)|contradiction|]. intro E. symmetry in E. exact (X j i q p q' p' L Q P Q' P' B1 B2 A1 A2 E).
Qed.
Example uuids_once_ex : (forall m n, dec (N.of_nat m) = dec (N.of_nat n) -> m = n) /\
  map (fun p => (uuid p, fsuuid p)) (init_parts (fun n => dec (N.of_nat n)) 1 GPT [with_names base (s_ "sda") [] [] [] [] true; with_names base (s_ "sda") [] (s_ "x") [] [] true; with_names base (s_ "sda") [] [] [] [] true]) = [(s_ "0", s_ "1"); (s_ "x", s_ "2"); (s_ "3", s_ "4")].
Proof. split; [intros m n E; apply dec_inj in E; lia|]. vm_compute. reflexivity. Qed.
(** C145: a FAT identifier of more than eight digits is refused, with 0x or without. *)
Theorem fat_refused : forall p d v, fat p = true -> hex_number 0 d = Some v -> 8 < length d -> fsuuid p = d \/ fsuuid p = s_ "0x" ++ d \/ fsuuid p = s_ "0X" ++ d -> ks_ok p = false.
Proof.
  intros p d v F H L E. unfold ks_ok. rewrite F. apply andb_false_intro1. apply andb_false_intro2. apply negb_false_iff. cbn [andb].
  destruct E as [E|[E|E]]; rewrite E.
  - rewrite (hex_no_x d v 0 H). destruct d; [cbn in L; lia|]. cbn [none negb andb]. apply Nat.ltb_lt. exact L.
  - change (upper (s_ "0x" ++ d)) with ("0"%char :: "X"%char :: upper d). cbn [startswith s_ list_ascii_of_string]. cbn [aeqb Ascii.eqb Bool.eqb andb app none negb length]. apply Nat.ltb_lt. lia.
  - change (upper (s_ "0X" ++ d)) with ("0"%char :: "X"%char :: upper d). cbn [startswith s_ list_ascii_of_string]. cbn [aeqb Ascii.eqb Bool.eqb andb app none negb length]. apply Nat.ltb_lt. lia.
Qed.
Definition ex_squash : part := with_mount (with_names base (s_ "sda") [] [] [] [] true) (s_ "/data") (s_ "squashfs") 1.
(** C145, refuted: a squashfs has no identifier, but its line with --use-uuid has one. *)
Theorem device_squashfs_refuted : ks_ok ex_squash = true /\
  map device_name (init_parts ex_uuid4 1 GPT [ex_squash]) = [s_ "UUID=1234abcd-0000-4000-8000-000000000001"] /\ map made_with (init_parts ex_uuid4 1 GPT [ex_squash]) = [None].
Proof. vm_compute. auto. Qed.
(** C145: without --use-uuid and --use-label the line has the node of the partition, if the
    disk is named as usual. *)
Theorem device_node : forall p, use_uuid p = false -> use_label p = false -> usual_disk (disk p) -> device_name p = s_ "/dev/" ++ node_of (disk p) (realnum p).
Proof. intros p U L D. unfold device_name. rewrite U, L. unfold dev_node. f_equal. apply node_usual, D. Qed.
Example ex_usual : usual_disk (s_ "sda") /\ usual_disk (s_ "mmcblk0") /\ usual_disk (s_ "vdb").
Proof. repeat split. Qed.
(** C145, refuted: for other disks whose names end with a digit the node is not there. *)
Theorem device_nvme_refuted : let p := set_num (with_names base (s_ "nvme0n1") [] [] [] [] false) 2 in
  device_name p = s_ "/dev/nvme0n12" /\ node_of (disk p) (realnum p) = s_ "nvme0n1p2".
Proof. vm_compute. auto. Qed.
(** C145: different partitions of the table have different numbers, and so different nodes. *)
Theorem devices_distinct : forall uuid4 ident f ps i j p q, i <> j -> nth_error (init_parts uuid4 ident f ps) i = Some p -> nth_error (init_parts uuid4 ident f ps) j = Some q ->
  no_table p = false -> no_table q = false ->
  realnum p <> realnum q /\ (disk p = disk q -> use_uuid p = false -> use_label p = false -> use_uuid q = false -> use_label q = false -> device_name p <> device_name q).
Proof.
  intros uuid4 ident f ps i j p q NE NP NQ TP TQ.
  assert (D : realnum p <> realnum q).
  { destruct (init_numbers _ _ _ _ _ _ NP) as (a & A1 & A2 & _). destruct (init_numbers _ _ _ _ _ _ NQ) as (b & B1 & B2 & _).
    destruct (init_nth _ _ _ _ _ _ NP) as (p0 & m & k1 & k2 & _ & M & EP). destruct (init_nth _ _ _ _ _ _ NQ) as (q0 & m' & k1' & k2' & _ & M' & EQ).
    assert (Z : realnum a <> 0%N) by (rewrite A2, EP; cbn; intro Y; apply M in Y; subst p; cbn in TP; congruence). assert (Z' : realnum b <> 0%N) by (rewrite B2, EQ; cbn; intro Y; apply M' in Y; subst q; cbn in TQ; congruence).
    destruct (Nat.lt_ge_cases i j) as [L|L].
    - pose proof (number_increasing _ _ _ _ _ _ _ _ L A1 B1 Z Z'). lia.
    - assert (L' : j < i) by lia. pose proof (number_increasing _ _ _ _ _ _ _ _ L' B1 A1 Z' Z). lia. }
  split; [exact D|]. intros ED U1 L1 U2 L2 E. unfold device_name in E. rewrite U1, L1, U2, L2 in E. unfold dev_node in E. rewrite ED in E. apply app_inv_head in E. apply app_inv_head in E. apply app_inv_head in E. exact (D (dec_inj _ _ E)).
Qed.
(** C145: the root device is one by which the kernel finds the root partition: with a table
    of type gpt if it has an identifier, or a label and no other name; with one of type
    msdos if its number has one digit and the identifier was not given; or by its node. *)
Theorem rootdev_found : forall uuid4 ident f ps p', (forall n, uuid_text (uuid4 n)) -> is_root (init_parts uuid4 ident f ps) p' -> no_table p' = false ->
  (gpt f = true -> uuid p' = [] -> label p' <> [] -> part_name p' = [] \/ part_name p' = label p') ->
  (gpt f = false -> (realnum p' < 10)%N /\ forall p, In p ps -> uuid p = []) ->
  usual_disk (disk p') ->
  exists dev, rootdev f (init_parts uuid4 ident f ps) = Some dev /\ finds f ident p' dev.
Proof.
  intros uuid4 ident f ps p' UT R T C1 C2 D. rewrite (rootdev_first f _ p' R). eexists. split; [reflexivity|].
  destruct R as (a & b & E & _ & _). assert (NP : nth_error (init_parts uuid4 ident f ps) (length a) = Some p') by (rewrite E, nth_error_app2, Nat.sub_diag by lia; reflexivity).
  destruct (init_nth _ _ _ _ _ _ NP) as (p & m & k1 & k2 & IP & M & EP). apply nth_error_In in IP.
  destruct (none (uuid p')) eqn:NU; cbn [negb].
  - assert (U0 : uuid p' = []) by (destruct (uuid p'); [reflexivity|discriminate]).
    destruct (none (label p')) eqn:NL; cbn [negb andb].
    + unfold dev_node. rewrite node_usual by exact D. apply by_node.
    + destruct (gpt f) eqn:G.
      * apply by_name. unfold table_name. rewrite G, NL, andb_false_r. cbn [negb andb]. assert (LN : label p' <> []) by (intro X; rewrite X in NL; discriminate). destruct (C1 eq_refl U0 LN) as [X|X]; rewrite X; [reflexivity|]. destruct (none (label p')); reflexivity.
      * unfold dev_node. rewrite node_usual by exact D. apply by_node.
  - destruct (gpt f) eqn:G.
    + apply by_guid. unfold table_guid. rewrite G, NU. reflexivity.
    + destruct (C2 eq_refl) as [LT UP]. specialize (UP p IP).
      assert (EU : uuid p' = hexpad lower_digit 8 ident ++ s_ "-" ++ pad2 (realnum p')).
      { rewrite EP. cbn [uuid set_ids realnum set_num]. unfold part_uuid. cbn [uuid set_num use_uuid realnum]. rewrite UP. cbn [none andb]. destruct (use_uuid p) eqn:UU; [rewrite G; reflexivity|]. exfalso. rewrite EP in NU. cbn [uuid set_ids] in NU. unfold part_uuid in NU. cbn [uuid set_num use_uuid] in NU. rewrite UP, UU in NU. discriminate. }
      rewrite EU. rewrite pad2_hex, !lower_kernel; [apply by_id; exact G|]. split; [|exact LT]. destruct (N.eq_dec (realnum p') 0) as [Z|Z]; [|lia]. exfalso. rewrite EP in Z. cbn in Z. apply M in Z. rewrite EP in T. cbn in T. congruence.
Qed.
Definition root_ex : list part := [with_mount base (s_ "/boot") (s_ "vfat") 1; with_mount (with_names base (s_ "sda") [] [] [] [] true) (s_ "/") (s_ "ext4") 2].
Example rootdev_ex : rootdev MSDOS (init_parts ex_uuid4 3735928559 MSDOS root_ex) = Some (s_ "PARTUUID=deadbeef-02") /\ rootdev GPT (init_parts ex_uuid4 1 GPT root_ex) = Some (s_ "PARTUUID=1234abcd-0000-4000-8000-000000000001").
Proof. vm_compute. auto. Qed.
(** What is on the disk with --part-name *)
Definition named_root : part := with_names base (s_ "sda") (s_ "rootfs") [] [] (s_ "system") false.
(** C145, refuted: with --part-name and --label the root device has the label, but the
    partition has the other name. *)
Theorem rootdev_part_name_refuted : rootdev GPT (init_parts ex_uuid4 1 GPT [named_root]) = Some (s_ "PARTLABEL=rootfs") /\
  forall p, In p (init_parts ex_uuid4 1 GPT [named_root]) -> table_name GPT p = Some (s_ "system") /\ table_guid GPT p = None.
Proof. split; [vm_compute; reflexivity|]. intros p [<-|[]]. vm_compute. auto. Qed.
Definition nine : list part := map (fun n => with_mount base (s_ "/data") (s_ "ext4") n) [1; 2; 3; 4; 5; 6; 7; 8]%N ++ [with_mount (with_names base (s_ "sda") [] [] [] [] true) (s_ "/") (s_ "ext4") 9].
(** C145, refuted: with a table of type msdos the number in the root device is decimal, the
    kernel's hexadecimal: partition 10 is not found. *)
Theorem rootdev_msdos_number_refuted : rootdev MSDOS (init_parts ex_uuid4 3735928559 MSDOS nine) = Some (s_ "PARTUUID=deadbeef-10") /\
  msdos_partuuid 3735928559 10 = s_ "deadbeef-0a" /\ exists p, is_root (init_parts ex_uuid4 3735928559 MSDOS nine) p /\ realnum p = 10%N.
Proof.
  split; [vm_compute; reflexivity|]. split; [vm_compute; reflexivity|]. set (l := init_parts ex_uuid4 3735928559 MSDOS nine). exists (last l base). split; [|vm_compute; reflexivity].
  exists (removelast l), []. split; [apply app_removelast_last; vm_compute; discriminate|]. split; [vm_compute; reflexivity|].
  assert (C : forallb (fun q => negb (seqb (mount q) (s_ "/"))) (removelast l) = true) by (vm_compute; reflexivity). intros q I. pose proof (proj1 (forallb_forall _ _) C q I) as H. cbv beta in H. apply negb_true_iff, seqb_neq in H. exact H.
Qed.
Definition given_root : part := with_names base (s_ "sda") [] (s_ "0fc63daf-0000-4000-8000-000000000000") [] [] true.
(** C145, refuted: with a table of type msdos an identifier given with --uuid is in the root
    device, but not on the disk. *)
Theorem rootdev_msdos_uuid_refuted : rootdev MSDOS (init_parts ex_uuid4 3735928559 MSDOS [given_root]) = Some (s_ "PARTUUID=0fc63daf-0000-4000-8000-000000000000") /\
  (forall p, In p (init_parts ex_uuid4 3735928559 MSDOS [given_root]) -> table_guid MSDOS p = None /\ msdos_partuuid 3735928559 (realnum p) = s_ "deadbeef-01").
Proof. split; [vm_compute; reflexivity|]. intros p [<-|[]]. vm_compute. auto. Qed.

(** C146: a file system made of a directory has room for it, for the requested size and for
    the extra space; with --fixed-size it has that size; it is refused only if the directory
    is larger than the fixed size. *)
Theorem rootfs_room : forall p actual, (0 < snd (factor p) <= fst (factor p))%N ->
  match rootfs_size p actual with
  | Some n => (actual <= n)%N /\ (fixed p = 0%N -> size p <= n /\ actual + extra p <= n)%N /\ (fixed p <> 0%N -> n = fixed p)
  | None => (fixed p <> 0 /\ fixed p < actual)%N
  end.
Proof.
  intros p actual [D L]. unfold rootfs_size. destruct (N.eqb_spec (fixed p) 0) as [Z|Z]; cbn [negb].
  - set (e := if (extra_blocks p actual <? extra p)%N then extra p else extra_blocks p actual).
    assert (E1 : (extra p <= e)%N) by (unfold e; destruct (N.ltb_spec (extra_blocks p actual) (extra p)); lia).
    assert (E2 : (size p <= actual + e)%N) by (assert (size p <= actual + extra_blocks p actual)%N by (unfold extra_blocks; destruct (N.eqb_spec (size p) 0); [lia|]; destruct (N.ltb_spec actual (size p)); lia); unfold e; destruct (N.ltb_spec (extra_blocks p actual) (extra p)); lia).
    assert (G : (actual + e <= (actual + e) * fst (factor p) / snd (factor p))%N) by (apply N.div_le_lower_bound; [lia|]; rewrite N.mul_comm; apply N.mul_le_mono_l; exact L).
    split; [lia|]. split; [intros _; lia|]. intro X. congruence.
  - destruct (N.ltb_spec (fixed p) actual) as [X|X]; [auto|]. split; [exact X|]. split; [intro Y; congruence|reflexivity].
Qed.
Example rootfs_room_ex : rootfs_size base 500 = Some 1331%N /\ rootfs_size base 2000 = Some 2600%N /\ rootfs_size (with_sizes base 0 1000 0) 900 = Some 1000%N /\ rootfs_size (with_sizes base 0 1000 0) 1001 = None.
Proof. vm_compute. auto. Qed.
(** C146: without --fixed-size it has exactly the largest of the three, times the factor. *)
Theorem rootfs_exact : forall p actual, fixed p = 0%N -> rootfs_size p actual = Some (N.max (N.max actual (size p)) (actual + extra p) * fst (factor p) / snd (factor p))%N.
Proof.
  intros p actual Z. unfold rootfs_size. rewrite Z. cbn [N.eqb negb]. f_equal. f_equal. f_equal. unfold extra_blocks.
  destruct (N.eqb_spec (size p) 0) as [E|E]; [rewrite E; destruct (N.ltb_spec 0 (extra p)); lia|]. destruct (N.ltb_spec actual (size p)); destruct (N.ltb_spec (size p - actual) (extra p)) || destruct (N.ltb_spec 0 (extra p)); try lia; destruct (N.ltb_spec 0 (extra p)); lia.
Qed.
Lemma some2 : forall (a b : image), Some (Some a) = Some (Some b) -> b = a.
Proof. intros a b E. congruence. Qed.
(** C146: an empty file system fills its partition: it is made with the size the partition
    gets, unless it is a swap area or a btrfs with --fixed-size. *)
Theorem empty_fills : forall p i, empty_image p = Some (Some i) -> fixed p = 0%N \/ (fstype p <> s_ "swap" /\ fstype p <> s_ "btrfs") ->
  kib i = disk_size p /\ fs_kib i = disk_size p /\ (0 < disk_size p)%N.
Proof.
  intros p i E C. unfold empty_image in E. destruct (seqb (fstype p) (s_ "none") || no_table p); [discriminate|]. destruct ((size p =? 0)%N && (fixed p =? 0)%N) eqn:Z; [discriminate|].
  assert (P : (0 < disk_size p)%N) by (unfold disk_size; destruct (N.eqb_spec (fixed p) 0); [rewrite andb_true_r in Z; apply N.eqb_neq in Z; lia|lia]).
  assert (DZ : fixed p = 0%N -> size p = disk_size p) by (intro X; unfold disk_size; rewrite X; reflexivity).
  destruct (seqb (fstype p) (s_ "swap")) eqn:SW.
  - inversion E; subst i. cbn [kib fs_kib]. destruct C as [X|[X _]]; [rewrite (DZ X); auto|apply seqb_eq in SW; contradiction].
  - destruct (seqb (fstype p) (s_ "squashfs") || seqb (fstype p) (s_ "erofs")); [discriminate|]. apply some2 in E. subst i. cbn [kib fs_kib]. split; [reflexivity|]. split; [|exact P]. destruct (seqb (fstype p) (s_ "btrfs")) eqn:B; [|reflexivity]. destruct C as [X|[_ X]]; [exact (DZ X)|apply seqb_eq in B; contradiction].
Qed.
Definition fixed_swap : part := with_sizes (with_mount base (s_ "swap") (s_ "swap") 3) 0 4096 0.
Definition fixed_btrfs : part := with_sizes (with_mount base (s_ "/data") (s_ "btrfs") 4) 0 4096 0.
(** C146, refuted: with --fixed-size the file of a swap area is empty, and an empty btrfs is
    made with size 0. *)
Theorem empty_fixed_refuted : ks_ok fixed_swap = true /\ ks_ok fixed_btrfs = true /\ disk_size fixed_swap = 4096%N /\ empty_image fixed_swap = Some (Some (mkImage (s_ "fs.swap") 0 0)) /\
  empty_image fixed_btrfs = Some (Some (mkImage (s_ "fs_None.4.btrfs") 4096 0)).
Proof. vm_compute. auto. Qed.
(** C146: every partition has a file of its own, and all of them are put together, if there is
    at most one empty swap area. *)
Theorem files_own : forall (parts : list part) (imgs : list image),
  Forall2 (fun p i => empty_image p = Some (Some i) \/ exists n, rootfs_image p n = Some i) parts imgs ->
  NoDup (map line parts) -> (forall p, In p parts -> In (fstype p) fstypes) ->
  (forall a b c p q, parts = a ++ p :: b ++ q :: c -> fstype p = s_ "swap" -> fstype q <> s_ "swap") ->
  NoDup (map file imgs) /\ assemble (map file imgs) (map file imgs) = Some [].
Proof.
  intros parts imgs F ND T SW. enough (N : NoDup (map file imgs)) by (split; [exact N|apply assemble_ok, N]).
  assert (NM : forall p i, empty_image p = Some (Some i) \/ (exists n, rootfs_image p n = Some i) ->
    (fstype p = s_ "swap" /\ file i = s_ "fs.swap") \/ exists a, (a = s_ "fs_" \/ a = s_ "rootfs_") /\ file i = a ++ shown (label p) ++ s_ "." ++ dec (line p) ++ s_ "." ++ fstype p).
  { intros p i [E|(n & E)].
    - unfold empty_image in E. destruct (seqb (fstype p) (s_ "none") || no_table p); [discriminate|]. destruct ((size p =? 0)%N && (fixed p =? 0)%N); [discriminate|]. destruct (seqb (fstype p) (s_ "swap")) eqn:S; [left; inversion E; subst; apply seqb_eq in S; auto|]. destruct (seqb (fstype p) (s_ "squashfs") || seqb (fstype p) (s_ "erofs")); [discriminate|]. apply some2 in E. subst i. right. exists (s_ "fs_"). auto.
    - unfold rootfs_image in E. destruct (rootfs_size p n); [|discriminate]. inversion E; subst i. right. exists (s_ "rootfs_"). auto. }
  induction F as [|p i parts imgs H F IH]; [constructor|]. inversion ND as [|? ? NI ND']; subst. cbn [map]. constructor.
  - intro I. apply in_map_iff in I. destruct I as (j & EJ & IJ).
    assert (X : exists q, In q parts /\ (empty_image q = Some (Some j) \/ exists n, rootfs_image q n = Some j)).
    { clear - F IJ. induction F as [|q k parts imgs H F IH]; [destruct IJ|]. destruct IJ as [<-|IJ]; [exists q; split; [left; reflexivity|exact H]|]. destruct (IH IJ) as (r & A & B). exists r. split; [right; exact A|exact B]. }
    destruct X as (q & IQ & HQ). destruct (NM p i H) as [[SP FP]|(a & A & FP)]; destruct (NM q j HQ) as [[SQ FQ]|(b & B & FQ)].
    + apply in_split in IQ. destruct IQ as (x & y & ->). exact (SW [] x y p q eq_refl SP SQ).
    + rewrite FP, FQ in EJ. destruct B as [->| ->]; discriminate.
    + rewrite FP, FQ in EJ. destruct A as [->| ->]; discriminate.
    + rewrite FP, FQ in EJ. rewrite !(app_assoc _ (shown _)) in EJ. apply name_line in EJ; [|apply fstypes_no_dot, T; right; exact IQ|apply fstypes_no_dot, T; left; reflexivity]. apply NI. rewrite <- EJ. apply in_map, IQ.
  - apply IH; [exact ND'|intros r I; apply T; right; exact I|]. intros a b c r s E S. apply (SW (p :: a) b c r s); [rewrite E; reflexivity|exact S].
Qed.
Definition swap1 : part := with_mount base (s_ "swap") (s_ "swap") 1.
Definition swap2 : part := with_mount base (s_ "swap") (s_ "swap") 2.
Definition data3 : part := with_mount base (s_ "/data") (s_ "ext4") 3.
Example files_ex : empty_image swap1 = Some (Some (mkImage (s_ "fs.swap") 1024 1024)) /\ rootfs_image data3 500 = Some (mkImage (s_ "rootfs_None.3.ext4") 1331 1331) /\
  assemble [s_ "fs.swap"; s_ "rootfs_None.3.ext4"] [s_ "fs.swap"; s_ "rootfs_None.3.ext4"] = Some [].
Proof. vm_compute. auto. Qed.
(** C146, refuted: two swap areas have the same file; after the first was put into the image
    the file is gone, and the second fails. *)
Theorem files_swap_refuted : exists i j, empty_image swap1 = Some (Some i) /\ empty_image swap2 = Some (Some j) /\ file i = file j /\ assemble [file i] [file i; file j] = None.
Proof. exists (mkImage (s_ "fs.swap") 1024 1024), (mkImage (s_ "fs.swap") 1024 1024). vm_compute. auto. Qed.

Print Assumptions fstab_lines.
Print Assumptions fstab_new_file.
Print Assumptions fstab_newline_refuted.
Print Assumptions fstab_space_refuted.
Print Assumptions device_fat.
Print Assumptions device_other.
Print Assumptions device_squashfs_refuted.
Print Assumptions device_node.
Print Assumptions device_nvme_refuted.
Print Assumptions devices_distinct.
Print Assumptions rootdev_found.
Print Assumptions rootdev_part_name_refuted.
Print Assumptions rootdev_msdos_number_refuted.
Print Assumptions rootdev_msdos_uuid_refuted.
Print Assumptions rootfs_room.
Print Assumptions empty_fills.
Print Assumptions empty_fixed_refuted.
Print Assumptions files_own.
Print Assumptions files_swap_refuted.
Print Assumptions uuids_once.
Print Assumptions fat_refused.
Print Assumptions rootfs_exact.
