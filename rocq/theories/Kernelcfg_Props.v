(** Configuration fragments and build profiles of kernels: theorems *)
From Coq Require Import String Ascii List Bool Arith.
From Verif Require Import Str_Model Str_Proofs Words_Model Words_Spec Words_Proofs Posix_Model Posix_Proofs Patch_Spec Variants_Proofs Kernelcfg_Model Kernelcfg_Spec Kernelcfg_Proofs.
From Verif Require Patch_Model Patch_Proofs.
Import ListNotations.
Open Scope list_scope.

(** ** Which sources are fragments *)
(** As long as no source has the extension .c, .cf or a mere dot: the fragments are those of KERNEL_CONFIG_FRAGMENTS and then, in the
    order of SRC_URI, the files with the extension .cfg that are not marked apply=no *)
Theorem fragments_taken : forall frags sources,
  (forall u e, In u sources -> has_ext (u_local u) e -> e <> s_ "." /\ e <> s_ ".c" /\ e <> s_ ".cf") ->
  exists taken, chosen (fun u => u_apply u <> Some (s_ "no") /\ has_ext (u_local u) (s_ ".cfg")) sources taken /\
    config_fragments frags sources = split_ws frags ++ map u_local taken.
Proof.
  intros frags sources H. exists (filter is_fragment sources). split; [|reflexivity].
  assert (E : forall u, In u sources -> (is_fragment u = true <-> u_apply u <> Some (s_ "no") /\ has_ext (u_local u) (s_ ".cfg"))).
  { intros u I. rewrite fragment_iff. split; intros [A B]; (split; [exact A|]).
    - destruct B as (e & X & K). destruct (H u e I X) as (N1 & N2 & N3). destruct K as [K|[K|[K|K]]]; try contradiction. now subst e.
    - exists (s_ ".cfg"). auto. }
  clear H. induction sources as [|u l IH]; cbn; [constructor|]. destruct (is_fragment u) eqn:F.
  - constructor; [apply E; [now left|exact F]|]. apply IH. intros v I. apply E. now right.
  - constructor; [|apply IH; intros v I; apply E; now right]. intros X. apply (proj2 (E u (or_introl eq_refl))) in X. congruence.
Qed.
(** The extension is looked for in the text ".cfg": a C source file is taken for a configuration fragment *)
Theorem fragments_c_refuted : exists u, u_apply u = None /\ has_ext (u_local u) (s_ ".c") /\ config_fragments [] [u] = [u_local u].
Proof.
  exists {| u_type := s_ "file"; u_local := s_ "drivers/dummy.c"; u_apply := None |}. split; [reflexivity|]. split; [|reflexivity]. apply ext_iff; [discriminate|reflexivity].
Qed.
Definition x_cfg (t p : string) (a : option str) : source := {| u_type := s_ t; u_local := s_ p; u_apply := a |}.
Definition x_sources : list source :=
  [x_cfg "https" "/pub/linux.tar.xz" None; x_cfg "file" "net/usb.cfg" None; x_cfg "file" "old.cfg" (Some (s_ "no")); x_cfg "file" "defconfig" None; x_cfg "file" "fs.cfg" (Some (s_ "yes"))].
Example fragments_taken_met : config_fragments (s_ " base.cfg ") x_sources = [s_ "base.cfg"; s_ "net/usb.cfg"; s_ "fs.cfg"] /\
  forall u e, In u x_sources -> has_ext (u_local u) e -> e <> s_ "." /\ e <> s_ ".c" /\ e <> s_ ".cf".
Proof.
  split; [reflexivity|]. intros u e I H. assert (NE : e <> []) by (destruct H as (n & b & _ & (_ & (x & -> & _) & _)); discriminate).
  apply (proj2 (ext_iff (u_local u) e NE)) in H. subst e. unfold x_sources in I. cbn [In] in I.
  repeat (destruct I as [I|I]; [subst u; vm_compute; repeat split; discriminate|]). contradiction.
Qed.

(** ** The fragments the build names are there *)
(** For fragments given by relative paths: the names the build is told are debian/fragments/ and the path, and each is copied to that
    place in the sources *)
Theorem fragments_there : forall sdir workdir l, (exists r, sdir = "/"%char :: r) -> Forall relative l ->
  split_ws (kernel_config_fragments sdir l) = map (fun f => s_ "debian/fragments/" ++ f) l /\
  forall f, In f l -> exists to, In (workdir ++ s_ "/" ++ f, to) (copies sdir workdir l) /\
    normpath to = normpath (sdir ++ s_ "/" ++ s_ "debian/fragments/" ++ f).
Proof.
  intros sdir workdir l (r & S) F.
  assert (NS : forall f, relative f -> startswith sdir f = false).
  { intros f [(c & x & -> & N) _]. rewrite S. cbn [startswith]. destruct (aeqb "/"%char c) eqn:E; [|reflexivity]. apply aeqb_eq in E. congruence. }
  assert (NS2 : forall f, relative f -> startswith (sdir ++ s_ "/") f = false).
  { intros f [(c & x & -> & N) _]. rewrite S. cbn [startswith app]. destruct (aeqb "/"%char c) eqn:E; [|reflexivity]. apply aeqb_eq in E. congruence. }
  assert (W : Forall word l).
  { eapply Forall_impl; [|exact F]. intros f [(c & x & -> & N) A]. split; [discriminate|]. now apply Forall_forall. }
  split.
  - unfold kernel_config_fragments. rewrite split_strip.
    assert (E : map (fun frag => s_ " " ++ fragment_name sdir frag) l = map (fun w => s_ " " ++ w) (map (fun f => s_ "debian/fragments/" ++ f) l)).
    { rewrite map_map. apply map_ext_in. intros f I. unfold fragment_name. rewrite (NS2 f) by exact (proj1 (Forall_forall _ _) F f I). reflexivity. }
    rewrite E. apply split_blank_words. apply Forall_forall. intros w I. apply in_map_iff in I as (f & <- & I). apply word_prefix; [repeat constructor|]. exact (proj1 (Forall_forall _ _) W f I).
  - intros f I. assert (R := proj1 (Forall_forall _ _) F f I). destruct (copied_place sdir workdir f R (NS f R)) as (to & C & P). exists to. split; [|exact P].
    unfold copies. rewrite split_ws_join by exact W. apply in_flat_map. exists f. split; [exact I|]. rewrite C. now left.
Qed.
(** A fragment of the sources is named by its path there and not copied *)
Theorem fragments_inside : forall sdir workdir x, fragment_name sdir (sdir ++ s_ "/" ++ x) = x /\ copied sdir workdir (sdir ++ s_ "/" ++ x) = None.
Proof.
  intros sdir workdir x. unfold fragment_name, copied. rewrite startswith_app. replace (sdir ++ s_ "/" ++ x) with ((sdir ++ s_ "/") ++ x) by now rewrite <- app_assoc.
  rewrite startswith_app, skipn_app, skipn_all, Nat.sub_diag. auto.
Qed.
(** What is copied for a local file of SRC_URI is the file where it is unpacked *)
Theorem fragments_local : forall workdir u e, u_type u = s_ "file" -> relative (u_local u) -> has_ext (u_local u) e ->
  unpacked workdir u = workdir ++ s_ "/" ++ u_local u.
Proof.
  intros workdir u e T [(c & r & R & N) _] (n & b & [NS B] & (E & (x & X & _) & (y & Y & _))). unfold unpacked. rewrite T, seqb_refl. f_equal. f_equal.
  assert (L : exists p z, u_local u = p ++ [z] /\ z <> "/"%char).
  { assert (NE : n <> []) by (rewrite E; destruct b; [contradiction|discriminate]). destruct (exists_last NE) as (p & z & Z).
    assert (ZN : z <> "/"%char) by (intros ->; apply NS; rewrite Z; apply in_or_app; right; now left).
    destruct B as [-> |(d & ->)]; [exists p, z; auto|]. exists (d ++ "/"%char :: p), z. split; [rewrite Z; now rewrite <- app_assoc|exact ZN]. }
  destruct L as (p & z & L & Z). unfold rstrip_slashes. rewrite L, rev_app_distr. cbn [rev app]. rewrite drop_slashes_cons by (apply not_true_is_false; intros K; apply is_slash_iff in K; contradiction).
  cbn [rev]. rewrite rev_involutive. rewrite <- L, R. apply drop_slashes_cons. apply not_true_is_false. intros K. apply is_slash_iff in K. contradiction.
Qed.
Example fragments_there_met : Forall relative [s_ "base.cfg"; s_ "net/usb.cfg"] /\
  kernel_config_fragments (s_ "/w/linux") [s_ "base.cfg"; s_ "net/usb.cfg"; s_ "/w/linux/debian/isar/version.cfg"] = s_ "debian/fragments/base.cfg debian/fragments/net/usb.cfg debian/isar/version.cfg" /\
  copies (s_ "/w/linux") (s_ "/w") [s_ "base.cfg"; s_ "net/usb.cfg"; s_ "/w/linux/debian/isar/version.cfg"] =
    [(s_ "/w/base.cfg", s_ "/w/linux/debian/fragments/./base.cfg"); (s_ "/w/net/usb.cfg", s_ "/w/linux/debian/fragments/net/usb.cfg")] /\
  unpacked (s_ "/w") (x_cfg "file" "net/usb.cfg" None) = s_ "/w/net/usb.cfg" /\ has_ext (s_ "net/usb.cfg") (s_ ".cfg").
Proof.
  split; [|repeat split; apply ext_iff; [discriminate|reflexivity]].
  repeat constructor; try (eexists _, _; split; [reflexivity|discriminate]); intros c I; cbn in I; repeat (destruct I as [<-|I]; [reflexivity|]); contradiction.
Qed.
(** A fragment that is downloaded from a directory of a server: it is unpacked without the directory, and looked for with it *)
Theorem fragments_download_refuted : exists workdir sdir u from to, config_fragments [] [u] = [u_local u] /\
  copies sdir workdir [u_local u] = [(from, to)] /\ normpath from <> normpath (unpacked workdir u).
Proof.
  exists (s_ "/w"), (s_ "/w/linux"), (x_cfg "https" "/configs/net.cfg" None). eexists _, _. split; [reflexivity|]. split; [reflexivity|]. vm_compute. discriminate.
Qed.
(** A path that starts with the text of ${S} but is outside of it: not copied, yet named as if it were *)
Theorem fragments_beside_refuted : exists sdir workdir f, (forall x, f <> sdir ++ s_ "/" ++ x) /\ copies sdir workdir [f] = [] /\
  kernel_config_fragments sdir [f] = s_ "debian/fragments/" ++ f.
Proof.
  exists (s_ "/w/linux"), (s_ "/w"), (s_ "/w/linux-cfg/net.cfg"). split; [intros x E; discriminate E|]. split; reflexivity.
Qed.

(** ** Profiles of linux-libc-dev *)
(** If neither the configuration nor BASE_DISTRO sets the profiles itself: linux-libc-dev is provided exactly if KERNEL_LIBC_DEV_DEPLOY is set, and is
    for all architectures exactly if KERNEL_LIBC_DEV_ARCH_ALL is set too; other values than those for true and false are errors *)
Theorem libcdev_profiles : forall user base_distro bpn deploy arch_all,
  (forall c, In c bpn -> is_space c = false) ->
  (forall w, has_word user w \/ has_word base_distro w -> w <> s_ "pkg." ++ bpn ++ s_ ".nolibcdev" /\ w <> s_ "pkg." ++ bpn ++ s_ ".libcdev-arch-all") ->
  let result := build_profiles user base_distro bpn deploy arch_all in
  (is_false deploy -> exists p, result = Some p /\ provides_libcdev p bpn = false /\ libcdev_all p bpn = false) /\
  (is_true deploy -> is_true arch_all -> exists p, result = Some p /\ provides_libcdev p bpn = true /\ libcdev_all p bpn = true) /\
  (is_true deploy -> is_false arch_all -> exists p, result = Some p /\ provides_libcdev p bpn = true /\ libcdev_all p bpn = false) /\
  (result = None <-> ~ is_false deploy /\ (is_true deploy -> ~ is_true arch_all /\ ~ is_false arch_all)).
Proof.
  intros user base_distro bpn deploy arch_all B N result.
  assert (TB : forall o, (is_true o -> to_boolean o None = Some (Some true)) /\ (is_false o -> to_boolean o None = Some None \/ to_boolean o None = Some (Some false)) /\
                         (~ is_true o -> ~ is_false o -> to_boolean o None = None)).
  { intros o. unfold to_boolean. split; [|split].
    - intros (s & -> & I). destruct s as [|c s]; [cbn in I; intuition discriminate|]. cbn [no_value value]. now rewrite (proj2 (mem_str_In _ _) I).
    - intros [->|[->|(s & -> & I)]]; [now left|now left|]. destruct s as [|c s]; [now left|]. right. cbn [no_value value].
      destruct (mem_str (lower (c :: s)) [s_ "y"; s_ "yes"; s_ "1"; s_ "true"]) eqn:E.
      + exfalso. apply mem_str_In in E. cbn [In] in I, E. repeat destruct I as [I|I]; try contradiction; rewrite <- I in E; intuition discriminate.
      + now rewrite (proj2 (mem_str_In _ _) I).
    - intros T F. destruct o as [[|c s]|]; [exfalso; apply F; right; now left| |exfalso; apply F; now left]. cbn [no_value value].
      destruct (mem_str (lower (c :: s)) [s_ "y"; s_ "yes"; s_ "1"; s_ "true"]) eqn:E; [exfalso; apply T; exists (c :: s); split; [reflexivity|now apply mem_str_In]|].
      destruct (mem_str (lower (c :: s)) [s_ "n"; s_ "no"; s_ "0"; s_ "false"]) eqn:E'; [exfalso; apply F; right; right; exists (c :: s); split; [reflexivity|now apply mem_str_In]|reflexivity]. }
  assert (TF : forall o, is_true o -> ~ is_false o).
  { intros o T F. destruct (TB o) as (A & C & _). destruct (C F) as [X|X]; rewrite (A T) in X; discriminate. }
  set (no := s_ "pkg." ++ bpn ++ s_ ".nolibcdev") in *. set (all := s_ "pkg." ++ bpn ++ s_ ".libcdev-arch-all") in *.
  assert (Wb : forall t, Forall (fun c => is_space c = false) t -> word (s_ "pkg." ++ bpn ++ t)).
  { intros t T. split; [discriminate|]. apply Forall_app. split; [repeat constructor|]. apply Forall_app. split; [now apply Forall_forall|exact T]. }
  assert (Wno : word no) by (apply Wb; repeat constructor). assert (Wall : word all) by (apply Wb; repeat constructor).
  assert (Dif : no <> all) by (unfold no, all; intros E; apply app_inv_head in E; apply app_inv_head in E; discriminate).
  assert (Base : forall w, has_word (user ++ s_ " " ++ base_distro) w <-> has_word user w \/ has_word base_distro w).
  { intros w. rewrite <- !has_word_iff. change (user ++ s_ " " ++ base_distro) with (user ++ " "%char :: base_distro). rewrite split_ws_app by reflexivity. apply in_app_iff. }
  assert (More : forall x w, word x -> has_word (user ++ s_ " " ++ base_distro ++ s_ " " ++ x) w <-> has_word user w \/ has_word base_distro w \/ w = x).
  { intros x w X. rewrite <- !has_word_iff. change (user ++ s_ " " ++ base_distro ++ s_ " " ++ x) with (user ++ " "%char :: base_distro ++ " "%char :: x).
    rewrite !split_ws_app by reflexivity. rewrite (split_ws_single x X), !in_app_iff. cbn. intuition. }
  assert (Has : forall T p w (a b : T), p <> [] -> word w -> contains (Some p) w a b = if mem_str w (split_ws p) then a else b).
  { intros T p w a b NE W. unfold contains. destruct p as [|c p]; [congruence|]. cbn [no_value value]. rewrite (split_ws_single w W). cbn [forallb]. now rewrite andb_true_r. }
  assert (Mem : forall w p, mem_str w (split_ws p) = true <-> has_word p w) by (intros; rewrite mem_str_In; apply has_word_iff).
  assert (NE : forall x, user ++ s_ " " ++ x <> []) by (intros x E; apply app_eq_nil in E as [_ E]; discriminate).
  assert (P0 : provides_libcdev (user ++ s_ " " ++ base_distro) bpn = true /\ libcdev_all (user ++ s_ " " ++ base_distro) bpn = false).
  { unfold provides_libcdev, libcdev_all. fold no all. rewrite !Has by auto. 
    destruct (mem_str no (split_ws (user ++ s_ " " ++ base_distro))) eqn:E; [exfalso; apply Mem, Base in E; exact (proj1 (N _ E) eq_refl)|].
    destruct (mem_str all (split_ws (user ++ s_ " " ++ base_distro))) eqn:E'; [exfalso; apply Mem, Base in E'; exact (proj2 (N _ E') eq_refl)|]. auto. }
  assert (P1 : provides_libcdev (user ++ s_ " " ++ base_distro ++ s_ " " ++ no) bpn = false /\ libcdev_all (user ++ s_ " " ++ base_distro ++ s_ " " ++ no) bpn = false).
  { unfold provides_libcdev, libcdev_all. fold no all. rewrite !Has by auto. rewrite (proj2 (Mem no _)) by (apply More; auto).
    destruct (mem_str all _) eqn:E; [exfalso; apply Mem, More in E; [|exact Wno]; destruct E as [E|[E|E]]; [exact (proj2 (N all (or_introl E)) eq_refl)|exact (proj2 (N all (or_intror E)) eq_refl)|congruence]|]. auto. }
  assert (P2 : provides_libcdev (user ++ s_ " " ++ base_distro ++ s_ " " ++ all) bpn = true /\ libcdev_all (user ++ s_ " " ++ base_distro ++ s_ " " ++ all) bpn = true).
  { unfold provides_libcdev, libcdev_all. fold no all. rewrite !Has by auto. rewrite (proj2 (Mem all _)) by (apply More; auto).
    destruct (mem_str no _) eqn:E; [exfalso; apply Mem, More in E; [|exact Wall]; destruct E as [E|[E|E]]; [exact (proj1 (N no (or_introl E)) eq_refl)|exact (proj1 (N no (or_intror E)) eq_refl)|congruence]|]. auto. }
  destruct (TB deploy) as (D1 & D2 & D3). destruct (TB arch_all) as (A1 & A2 & A3). unfold result, build_profiles, additional_profiles.
  split; [|split; [|split]].
  - intros F. exists (user ++ s_ " " ++ base_distro ++ s_ " " ++ no). split; [|exact P1]. destruct (D2 F) as [-> | ->]; reflexivity.
  - intros T T'. exists (user ++ s_ " " ++ base_distro ++ s_ " " ++ all). split; [|exact P2]. rewrite (D1 T), (A1 T'). reflexivity.
  - intros T F'. exists (user ++ s_ " " ++ base_distro). split; [|exact P0]. rewrite (D1 T). destruct (A2 F') as [-> | ->]; reflexivity.
  - split.
    + intros H. split.
      * intros F. destruct (D2 F) as [X|X]; rewrite X in H; discriminate.
      * intros T. rewrite (D1 T) in H. split.
        -- intros T'. rewrite (A1 T') in H. discriminate.
        -- intros F'. destruct (A2 F') as [X|X]; rewrite X in H; discriminate.
    + intros [NF K]. destruct (to_boolean deploy None) as [[[|]|]|] eqn:E; [| | |reflexivity].
      * assert (T : is_true deploy).
        { unfold to_boolean in E. destruct deploy as [[|c s]|]; try discriminate. cbn [no_value value] in E. destruct (mem_str _ _) eqn:M; [|destruct (mem_str (lower (c :: s)) [s_ "n"; s_ "no"; s_ "0"; s_ "false"]); discriminate].
          exists (c :: s). split; [reflexivity|now apply mem_str_In]. }
        destruct (K T) as [K1 K2]. rewrite (A3 K1 K2). reflexivity.
      * exfalso. apply NF. unfold to_boolean in E. destruct deploy as [[|c s]|]; try discriminate. cbn [no_value value] in E. destruct (mem_str (lower (c :: s)) [s_ "y"; s_ "yes"; s_ "1"; s_ "true"]); [discriminate|].
        destruct (mem_str _ _) eqn:M; [|discriminate]. right. right. exists (c :: s). split; [reflexivity|now apply mem_str_In].
      * exfalso. apply NF. unfold to_boolean in E. destruct deploy as [[|c s]|]; [right; now left| |now left]. cbn [no_value value] in E. destruct (mem_str _ _); [discriminate|]. destruct (mem_str _ _); discriminate.
Qed.
Example libcdev_profiles_met :
  build_profiles (s_ "nodoc") (s_ "debian") (s_ "linux-cip") (Some (s_ "1")) (Some (s_ "Yes")) = Some (s_ "nodoc debian pkg.linux-cip.libcdev-arch-all") /\
  build_profiles (s_ "nodoc") (s_ "debian") (s_ "linux-cip") (Some (s_ "0")) (Some (s_ "1")) = Some (s_ "nodoc debian pkg.linux-cip.nolibcdev") /\
  build_profiles [] (s_ "debian") (s_ "linux-cip") (Some (s_ "maybe")) None = None /\ is_true (Some (s_ "Yes")) /\ is_false (Some (s_ "0")) /\
  (forall c, In c (s_ "linux-cip") -> is_space c = false) /\
  (forall w, has_word (s_ "nodoc") w \/ has_word (s_ "debian") w -> w <> s_ "pkg.linux-cip.nolibcdev" /\ w <> s_ "pkg.linux-cip.libcdev-arch-all").
Proof.
  split; [reflexivity|]. split; [reflexivity|]. split; [reflexivity|]. split; [eexists; split; [reflexivity|right; left; reflexivity]|]. split; [right; right; eexists; split; [reflexivity|right; right; left; reflexivity]|].
  split; [intros c I; cbn in I; repeat (destruct I as [<-|I]; [reflexivity|]); contradiction|].
  intros w [H|H]; apply has_word_iff in H; cbn in H; (destruct H as [H|H]; [|contradiction]); subst w; split; discriminate.
Qed.

Print Assumptions fragments_taken.
Print Assumptions fragments_c_refuted.
Print Assumptions fragments_there.
Print Assumptions fragments_inside.
Print Assumptions fragments_local.
Print Assumptions fragments_download_refuted.
Print Assumptions fragments_beside_refuted.
Print Assumptions libcdev_profiles.
