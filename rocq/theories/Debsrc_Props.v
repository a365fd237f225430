(** Sources of Debian packages: the claims. *)
From Coq Require Import Ascii String List Bool Arith Lia.
From Verif Require Import Str_Model Str_Proofs Posix_Model Posix_Proofs Path_Model Path_Proofs Rootfiles_Model Changelog_Model Debsrc_Model Debsrc_Spec Debsrc_Proofs.
Import ListNotations.
Open Scope list_scope.

(** ** C147: configuration fragments of kernels *)
(** Fragments named *.cfg in SRC_URI are used, wherever they are, unless they have apply=no. *)
Theorem fragment_chosen : forall listed sources d n l a, ~ In "/"%char n -> (exists c, In c n /\ c <> "."%char) -> l = n ++ s_ ".cfg" \/ l = d ++ "/"%char :: n ++ s_ ".cfg" ->
  In (l, a) sources -> a <> Some (s_ "no") -> In l (config_fragments listed sources).
Proof.
  intros listed sources d n l a S C H I A. unfold config_fragments. apply in_or_app. right. apply in_map_iff. exists (l, a). split; [reflexivity|]. apply filter_In. split; [exact I|]. cbn [fst snd]. pose proof (chosen_cfg d n S C l H) as Z. cbv zeta in Z |- *. rewrite Z, andb_true_r.
  destruct a as [a|]; [|reflexivity]. destruct (seqb a (s_ "no")) eqn:E; [apply seqb_eq in E; subst a; congruence|reflexivity].
Qed.
(** Nothing else is, but for names that end in a beginning of .cfg. *)
Theorem fragment_only : forall listed sources l, In l (config_fragments listed sources) ->
  In l listed \/ exists a n e, In (l, a) sources /\ a <> Some (s_ "no") /\ l = n ++ e /\ In e [s_ "."; s_ ".c"; s_ ".cf"; s_ ".cfg"].
Proof.
  intros listed sources l I. apply in_app_or in I. destruct I as [I|I]; [left; exact I|right]. apply in_map_iff in I. destruct I as ([l' a] & E & I). cbn in E. subst l'. apply filter_In in I. destruct I as [I F]. cbn [fst snd] in F. apply andb_true_iff in F. destruct F as [A F].
  destruct (chosen_shape l F) as (n & e & E & J). exists a, n, e. split; [exact I|]. split; [|split; assumption]. intros ->. rewrite seqb_refl in A. discriminate A.
Qed.
(** They are used in the order of SRC_URI, after those of KERNEL_CONFIG_FRAGMENTS. *)
Theorem fragment_order : forall listed s1 s s2, config_fragments listed [] = listed /\
  config_fragments listed (s1 ++ s :: s2) = config_fragments listed s1 ++ config_fragments [] [s] ++ config_fragments [] s2 /\ (config_fragments [] [s] = [] \/ config_fragments [] [s] = [fst s]).
Proof.
  intros listed s1 s s2. split; [apply app_nil_r|]. split.
  - unfold config_fragments. change (s :: s2) with ([s] ++ s2). rewrite !filter_app, !map_app, <- !app_assoc. reflexivity.
  - unfold config_fragments. cbn [filter app]. destruct (negb _ && _); [right|left]; reflexivity.
Qed.
(** The kernel is configured with exactly these, in this order. *)
Theorem fragments_used : forall S frags, (forall f, In f frags -> a_word f /\ f <> S ++ s_ "/") ->
  Forall2 (looked_for S) frags (split_ws (get_kernel_config_fragments S frags)).
Proof.
  intros S frags H. rewrite frag_text, split_ws_strip, flat_words.
  - clear H. induction frags as [|f frags IH]; constructor; [apply looks_for|exact IH].
  - apply Forall_forall. intros w I. apply in_map_iff in I. destruct I as (f & <- & I). destruct (H f I) as [A B]. exact (looks_word S f A B).
Qed.
(** Every fragment is where it is looked for: those from WORKDIR are copied there and those
    of the sources are left alone, as are all other files.  (For fragments that begin with
    the path of the sources but are not below it see below.) *)
Theorem fragments_there_partial : forall S frags work src out, configure_kernel S frags work src = Some out -> (forall f, In f frags -> startswith S f = true -> in_sources S f) ->
  forall f w, In f frags -> looked_for S f w ->
  (in_sources S f -> (forall x, w <> s_ "debian/fragments/" ++ x) -> out w = src w) /\ (~ in_sources S f -> out w = work f /\ work f <> None).
Proof.
  intros S frags work src out E H f w I L. destruct (copy_spec _ _ _ _ _ E) as [A B]. split.
  - intros _ N. rewrite B by (intros g _ _; apply N). unfold cleaned. destruct (startswith (s_ "debian/fragments/") w) eqn:Z; [|reflexivity]. apply startswith_iff in Z. destruct Z as [x Z]. exfalso. exact (N x Z).
  - intro N. destruct L as [x|f _]; [exfalso; apply N; exists x; reflexivity|]. apply A; [exact I|]. destruct (startswith S f) eqn:Z; [exfalso; exact (N (H f I Z))|reflexivity].
Qed.
Theorem fragments_rest : forall S frags work src out p, configure_kernel S frags work src = Some out -> (forall x, p <> s_ "debian/fragments/" ++ x) -> out p = src p.
Proof.
  intros S frags work src out p E N. destruct (copy_spec _ _ _ _ _ E) as [_ B]. rewrite B by (intros g _ _; apply N). unfold cleaned. destruct (startswith (s_ "debian/fragments/") p) eqn:Z; [|reflexivity]. apply startswith_iff in Z. destruct Z as [x Z]. exfalso. exact (N x Z).
Qed.
(** Old fragments are gone. *)
Theorem fragments_stale : forall S frags work src out x, configure_kernel S frags work src = Some out -> ~ In x frags -> out (s_ "debian/fragments/" ++ x) = None.
Proof.
  intros S frags work src out x E N. destruct (copy_spec _ _ _ _ _ E) as [_ B]. rewrite B; [unfold cleaned; rewrite startswith_app; reflexivity|]. intros f I _ Q. apply app_inv_head in Q. subst f. contradiction.
Qed.
(** A fragment that is missing ends the task. *)
Theorem fragments_missing : forall S frags work src f, In f frags -> startswith S f = false -> work f = None -> configure_kernel S frags work src = None.
Proof.
  intros S frags work src f I N W. unfold configure_kernel. generalize (cleaned src) as s. induction frags as [|g frags IH]; intro s; [destruct I|]. cbn [copy_fragments]. destruct I as [->|I]; [rewrite N, W; reflexivity|].
  destruct (startswith S g); [apply IH, I|]. destruct (work g); [apply IH, I|reflexivity].
Qed.
(** The test is for a part of ".cfg": C files of SRC_URI are taken for fragments. *)
Theorem fragment_c_refuted : exists sources, In (s_ "patches/hello.c") (config_fragments [] sources) /\ sources = [(s_ "patches/hello.c", None)].
Proof. eexists. split; [|reflexivity]. vm_compute. auto. Qed.
(** A fragment next to the sources, whose path begins like theirs, is not copied: whether
    it is there or not, the task succeeds and the kernel is configured with a file that does
    not exist. *)
Theorem fragment_beside_refuted : exists S f, (forall x, f <> S ++ s_ "/" ++ x) /\ forall work, exists out, configure_kernel S [f] work (fun _ => None) = Some out /\ looked_for S f (s_ "debian/fragments/" ++ f) /\ out (s_ "debian/fragments/" ++ f) = None.
Proof.
  exists (s_ "/work/linux-6.1"), (s_ "/work/linux-6.1-extra/net.cfg"). split; [intros x E; discriminate E|]. intro work. eexists. split; [reflexivity|]. split; [|vm_compute; reflexivity]. constructor. intros [x E]. discriminate E.
Qed.
(** make olddefconfig is called exactly if the configuration was copied. *)
Theorem kernel_target : forall defconfig there, (get_kernel_config_target defconfig there = s_ "olddefconfig" <-> config_copied defconfig there = true) /\
  (config_copied defconfig there = false -> get_kernel_config_target defconfig there = s_ "defconfig" ++ match defconfig with [] => [] | d => s_ " KBUILD_DEFCONFIG=" ++ d end).
Proof. intros [|c d] []; cbn; split; try split; intro H; try discriminate H; try reflexivity. Qed.
Example demo_fragments : let S := s_ "/work/linux" in let frags := config_fragments [s_ "/work/linux/debian/isar/version.cfg"] [(s_ "files/net.cfg", None); (s_ "off.cfg", Some (s_ "no")); (s_ "x.patch", None); (s_ "usb.cfg", Some (s_ "yes"))] in
  get_kernel_config_fragments S frags = s_ "debian/isar/version.cfg debian/fragments/files/net.cfg debian/fragments/usb.cfg" /\
  (forall f, In f frags -> a_word f /\ f <> S ++ s_ "/") /\ (forall f, In f frags -> startswith S f = true -> in_sources S f) /\
  exists out, configure_kernel S frags (fun f => Some (s_ "of " ++ f)) (fun p => if seqb p (s_ "debian/fragments/old.cfg") then Some [] else None) = Some out /\ out (s_ "debian/fragments/usb.cfg") = Some (s_ "of usb.cfg").
Proof.
  cbn zeta. split; [vm_compute; reflexivity|]. set (frags := config_fragments _ _). vm_compute in frags. subst frags. split; [|split].
  - intros f [<-|[<-|[<-|[]]]]; (split; [split; [discriminate|]|discriminate]); intros c I; repeat (destruct I as [<-|I]; [reflexivity|]); destruct I.
  - intros f [<-|[<-|[<-|[]]]] E; try discriminate E. exists (s_ "debian/isar/version.cfg"). reflexivity.
  - eexists. split; [reflexivity|]. vm_compute. reflexivity.
Qed.

(** ** C148: the architecture packages are built on *)
(** Packages for the build machine are built on it. *)
Theorem arch_native : forall v, package_arch v = host_arch v -> build_arch (crossvars v) = host_arch v.
Proof. intros v H. cbn. rewrite H, seqb_refl, orb_true_l, andb_true_r. destruct (seqb (distro_arch v) (host_arch v)) eqn:E; [apply seqb_eq in E; exact E|reflexivity]. Qed.
(** Other packages are built on the build machine exactly if that is possible at all and
    cross building is not switched off, and otherwise on the architecture of the
    distribution. *)
Theorem arch_cross : forall v, distro_arch v <> host_arch v -> package_arch v <> host_arch v ->
  (build_arch (crossvars v) = host_arch v <-> cross v = true /\ (package_arch v = distro_arch v \/ compat_arch v = Some (package_arch v) \/ package_arch v = s_ "${BUILD_ARCH}")) /\
  (build_arch (crossvars v) = host_arch v \/ build_arch (crossvars v) = distro_arch v).
Proof.
  intros v D P. cbn. apply seqb_neq in P. assert (D' := D). apply seqb_neq in D. rewrite D, P. cbn [negb andb orb].
  assert (I : seqb (package_arch v) (distro_arch v) || (match compat_arch v with Some y => seqb (package_arch v) y | None => false end || (seqb (package_arch v) (s_ "${BUILD_ARCH}") || false)) = true <->
              (package_arch v = distro_arch v \/ compat_arch v = Some (package_arch v) \/ package_arch v = s_ "${BUILD_ARCH}")).
  { rewrite !orb_true_iff, !seqb_eq. destruct (compat_arch v) as [a|]; [rewrite seqb_eq|]; split; intro H; intuition (try discriminate; try congruence). }
  destruct (_ || _) eqn:E.
  - destruct (cross v); cbn [andb]; (split; [|tauto]).
    + split; [intros _; split; [reflexivity|apply I; reflexivity]|reflexivity].
    + split; [intro H; congruence|intros [H _]; discriminate H].
  - cbn [andb]. split; [|tauto]. split; [intro H; congruence|]. intros [_ H]. apply I in H. discriminate H.
Qed.
(** With one architecture nothing is cross built. *)
Theorem arch_same : forall v, distro_arch v = host_arch v -> build_arch (crossvars v) = distro_arch v /\ schroot_dir (crossvars v) = target_dir v ++ match flavor v with [] => [] | f => s_ "-" ++ f end.
Proof. intros v H. cbn. rewrite H, seqb_refl. split; reflexivity. Qed.
(** The build root, the task that makes it and the tools are those of this architecture. *)
Theorem arch_chroot : forall v, distro_arch v <> host_arch v -> let b := crossvars v in let suffix := match flavor v with [] => [] | f => s_ "-" ++ f end in
  exists more, more = (if can_compat v then s_ " crossbuild-essential-" ++ match compat_arch v with Some a => a | None => [] end else []) /\
  (build_arch b = host_arch v <-> schroot_dep b = s_ "sbuild-chroot-host" ++ suffix ++ s_ ":do_build") /\ (build_arch b = distro_arch v <-> schroot_dep b = s_ "sbuild-chroot-target" ++ suffix ++ s_ ":do_build") /\
  (build_arch b = host_arch v -> schroot_dir b = host_dir v ++ suffix /\ toolchain b = s_ "crossbuild-essential-" ++ distro_arch v ++ more) /\
  (build_arch b = distro_arch v -> schroot_dir b = target_dir v ++ suffix /\ toolchain b = s_ "build-essential" ++ more).
Proof.
  intros v D b suffix. exists (if can_compat v then s_ " crossbuild-essential-" ++ match compat_arch v with Some a => a | None => [] end else []). split; [reflexivity|]. subst b. unfold crossvars.
  assert (ST : forall x y : str, s_ "sbuild-chroot-host" ++ x <> s_ "sbuild-chroot-target" ++ y) by (intros x y E; discriminate E).
  destruct (negb (seqb (distro_arch v) (host_arch v)) && _); cbn [build_arch schroot_dir schroot_dep toolchain].
  - split; [split; reflexivity|]. split; [split; [intro H; congruence|intro H; destruct (ST _ _ H)]|]. split; [intros _; split; [reflexivity|rewrite <- app_assoc; reflexivity]|intro H; congruence].
  - split; [split; [intro H; congruence|intro H; symmetry in H; destruct (ST _ _ H)]|]. split; [split; reflexivity|]. split; [intro H; congruence|intros _; split; reflexivity].
Qed.
Definition demo_vars : vars := mkVars (s_ "arm64") (Some (s_ "armhf")) (s_ "amd64") (s_ "armhf") true (s_ "dev") true (s_ "/schroot/host") (s_ "/schroot/target").
Example demo_arch : crossvars demo_vars = mkBuilt (s_ "amd64") (s_ "/schroot/host-dev") (s_ "sbuild-chroot-host-dev:do_build") (s_ "crossbuild-essential-arm64 crossbuild-essential-armhf") /\
  distro_arch demo_vars <> host_arch demo_vars /\ package_arch demo_vars <> host_arch demo_vars.
Proof. split; [vm_compute; reflexivity|]. split; discriminate. Qed.

(** ** C149: the directory of the sources *)
(** If S is below WORKDIR, PPS is the path from there. *)
Theorem srcdir_below : forall w r, Forall plain w -> Forall plain r -> w <> [] -> r <> [] -> get_package_srcdir (path_of (w ++ r)) (path_of w) = join (s_ "/") r.
Proof.
  intros w r W R NW NR. assert (Fw := plain_named _ W). assert (Fr := plain_named _ R). assert (Fwr : Forall named (w ++ r)) by (apply Forall_app; auto).
  change path_of with ptail. unfold get_package_srcdir. destruct w as [|c w]; [congruence|]. assert (C : comp c) by (inversion Fw as [|? ? [X _]]; assumption).
  assert (I1 : initial_slashes (ptail ((c :: w) ++ r)) = 1) by (cbn [app]; apply initial_ptail, C). assert (I2 : initial_slashes (ptail (c :: w)) = 1) by (apply initial_ptail, C).
  assert (N1 : norm_comps (ptail ((c :: w) ++ r)) = (c :: w) ++ r) by (apply norm_comps_ptail, Fwr). assert (N2 : norm_comps (ptail (c :: w)) = c :: w) by (apply norm_comps_ptail, Fw).
  assert (Z : seqb (commonpath (normpath (ptail ((c :: w) ++ r))) (normpath (ptail (c :: w)))) (normpath (ptail (c :: w))) = true).
  { apply seqb_eq. apply common_path; [exact I1|exact I2|rewrite N2; discriminate|]. exists r. rewrite N1, N2. reflexivity. }
  rewrite Z. rewrite (normpath_one_ptail _ I1) by (rewrite N1; discriminate). rewrite (normpath_one_ptail _ I2) by (rewrite N2; discriminate). rewrite N1, N2. rewrite (flat_map_app _ (c :: w) r : ptail ((c :: w) ++ r) = ptail (c :: w) ++ ptail r). rewrite <- (joined r NR).
  replace (length (ptail (c :: w)) + 1) with (length (ptail (c :: w) ++ [slash])) by (rewrite app_length; reflexivity). change (slash :: join [slash] r) with ([slash] ++ join [slash] r). rewrite app_assoc, skipn_app, skipn_all, Nat.sub_diag. reflexivity.
Qed.
(** Whatever absolute paths S and WORKDIR are, if they differ, PPS names S when it is
    looked up from WORKDIR. *)
Theorem srcdir_names : forall s w, initial_slashes s = 1 -> initial_slashes w = 1 -> norm_comps w <> [] -> normpath s <> normpath w -> pjoin (normpath w) (get_package_srcdir s w) = normpath s.
Proof.
  intros s w Is Iw N D. unfold get_package_srcdir. destruct (seqb (commonpath (normpath s) (normpath w)) (normpath w)) eqn:E.
  - apply seqb_eq in E. apply (common_path s w Is Iw N) in E. destruct E as [r E]. destruct (norm_comps_ok w) as (Fw & _). destruct (norm_comps_ok s) as (Fs & _).
    assert (NR : r <> []) by (intros ->; rewrite app_nil_r in E; apply D; rewrite !normpath_one by assumption; rewrite E; reflexivity).
    rewrite (normpath_one_ptail s Is) by (rewrite E; destruct (norm_comps w); [congruence|discriminate]). rewrite (normpath_one_ptail w Iw N). rewrite E. rewrite (flat_map_app _ (norm_comps w) r : ptail (norm_comps w ++ r) = ptail (norm_comps w) ++ ptail r). rewrite <- (joined r NR).
    assert (FR : Forall comp r) by (rewrite E in Fs; apply Forall_app in Fs; apply Fs).
    replace (skipn _ _) with (join [slash] r).
    + assert (J : exists x y, join [slash] r = x :: y /\ is_slash x = false).
      { destruct r as [|q r]; [congruence|]. inversion FR as [|? ? [QN QS] _]; subst. destruct q as [|x q]; [congruence|]. inversion QS; subst. destruct r as [|q2 r]; [exists x, q; split; [reflexivity|assumption]|]. rewrite join_cons by discriminate. exists x. eexists. split; [reflexivity|assumption]. }
      destruct J as (x & y & J & X). unfold pjoin, isabs. rewrite J, X. assert (L : exists a z, ptail (norm_comps w) = a ++ [z] /\ is_slash z = false).
      { destruct (exists_last N) as (a & z & Q). rewrite Q in Fw |- *. apply Forall_app in Fw. destruct Fw as [_ Fz]. inversion Fz as [|? ? [ZN ZS] _]; subst. destruct (exists_last ZN) as (b & y2 & ->). unfold ptail. rewrite flat_map_app. cbn [flat_map]. rewrite app_nil_r. exists (flat_map (fun c => slash :: c) a ++ slash :: b), y2. split; [rewrite <- app_assoc; reflexivity|]. apply no_char_In in ZS. destruct (is_slash y2) eqn:Y; [|reflexivity]. apply aeqb_eq in Y. exfalso. apply ZS. rewrite Y. apply in_or_app. right. left. reflexivity. }
      destruct L as (a & z & L & Z). rewrite L. rewrite rev_app_distr. cbn [rev app]. rewrite Z. reflexivity.
    + replace (length (ptail (norm_comps w)) + 1) with (length (ptail (norm_comps w) ++ [slash])) by (rewrite app_length; reflexivity). change (slash :: join [slash] r) with ([slash] ++ join [slash] r). rewrite app_assoc, skipn_app, skipn_all, Nat.sub_diag. reflexivity.
  - unfold pjoin. rewrite normpath_isabs. rewrite (isabs_initial s Is). reflexivity.
Qed.
Theorem srcdir_same : forall s w, initial_slashes s = 1 -> initial_slashes w = 1 -> norm_comps w <> [] -> normpath s = normpath w -> get_package_srcdir s w = [].
Proof.
  intros s w Is Iw N E. unfold get_package_srcdir. rewrite E. replace (seqb (commonpath (normpath w) (normpath w)) (normpath w)) with true; [apply skipn_all2; lia|]. symmetry. apply seqb_eq. apply (common_path w w Iw Iw N). exists []. rewrite app_nil_r. reflexivity.
Qed.
Example demo_srcdir : get_package_srcdir (s_ "/build//tmp/work/hello/./git/src/") (s_ "/build/tmp/work/hello") = s_ "git/src" /\ get_package_srcdir (s_ "/build/tmp/work/hello-2") (s_ "/build/tmp/work/hello") = s_ "/build/tmp/work/hello-2" /\
  initial_slashes (s_ "/build//tmp/work/hello/./git/src/") = 1 /\ norm_comps (s_ "/build/tmp/work/hello") <> [] /\ Forall plain [s_ "build"; s_ "tmp"].
Proof. split; [vm_compute; reflexivity|]. split; [vm_compute; reflexivity|]. split; [reflexivity|]. split; [discriminate|]. repeat constructor; try discriminate; cbn; intuition discriminate. Qed.

(** ** C150: the control file *)
(** Read as dpkg reads it, the control file has a paragraph on the source and one on the
    package, with the values of the recipe, as long as these are one line each; in lists
    the entries may be on lines of their own. *)
Theorem control_exact : forall c, (forall v, In v [c_bpn c; c_standards c; c_maintainer c; c_root c; c_arch c; c_multi c; c_description c] -> one_line v) ->
  (forall v, In v [c_section c; c_build_depends c; c_depends c; c_provides c; c_replaces c; c_breaks c; c_built_using c; c_conflicts c] -> list_of_lines v) ->
  read_control (deb_create_control c) = Some [
    [(s_ "Source", strip (c_bpn c)); (s_ "Section", strip (tidy (c_section c))); (s_ "Priority", s_ "optional"); (s_ "Standards-Version", strip (c_standards c)); (s_ "Maintainer", strip (c_maintainer c));
     (s_ "Build-Depends", strip (tidy (c_build_depends c)))] ++ match c_root c with [] => [] | r => [(s_ "Rules-Requires-Root", strip r)] end;
    [(s_ "Package", strip (c_bpn c)); (s_ "Architecture", strip (c_arch c)); (s_ "Depends", strip (tidy (c_depends c))); (s_ "Provides", strip (tidy (c_provides c))); (s_ "Replaces", strip (tidy (c_replaces c)));
     (s_ "Breaks", strip (tidy (c_breaks c))); (s_ "Built-Using", strip (tidy (c_built_using c))); (s_ "Conflicts", strip (tidy (c_conflicts c))); (s_ "Multi-Arch", strip (c_multi c)); (s_ "Description", strip (c_description c))]].
Proof.
  intros c O L. unfold read_control, deb_create_control. rewrite !beautify_tidy.
  assert (OL : forall n v, one_line n -> In v [c_bpn c; c_standards c; c_maintainer c; c_root c; c_arch c; c_multi c; c_description c] -> one_line (n ++ v)) by (intros n v N I; apply field_line; [exact N|apply O, I]).
  assert (TL : forall n v, one_line n -> In v [c_section c; c_build_depends c; c_depends c; c_provides c; c_replaces c; c_breaks c; c_built_using c; c_conflicts c] -> one_line (n ++ tidy v)) by (intros n v N I; apply field_line; [exact N|apply tidy_line, L, I]).
  assert (ON : forall n, forallb (fun x => negb (aeqb x nl)) n = true -> one_line n) by (intros n F I; rewrite forallb_forall in F; specialize (F _ I); rewrite aeqb_refl in F; discriminate F).
  assert (FN : forall n, forallb (fun x => negb (aeqb x ":")) n && match n with x :: _ => negb (is_space x) | [] => false end = true -> field_name n).
  { intros n F. apply andb_true_iff in F. destruct F as [F G]. split; [intro I; rewrite forallb_forall in F; specialize (F _ I); rewrite aeqb_refl in F; discriminate F|]. destruct n as [|x m]; [discriminate G|]. exists x, m. split; [reflexivity|]. apply negb_true_iff, G. }
  assert (RF : forall nm n v ls cur, nm = n ++ s_ ": " -> forallb (fun x => negb (aeqb x ":")) n && match n with x :: _ => negb (is_space x) | [] => false end = true -> read ((nm ++ v) :: ls) cur = read ls ((n, strip v) :: cur)).
  { intros nm n v ls cur -> F. rewrite <- app_assoc. apply read_field, FN, F. }
  rewrite <- (app_nil_r (put_line (s_ "Description: " ++ c_description c))).
  do 2 (rewrite lines_step by (first [apply OL; [apply ON; reflexivity|cbn; tauto]|apply TL; [apply ON; reflexivity|cbn; tauto]])). rewrite lines_step by (apply ON; reflexivity). do 3 (rewrite lines_step by (first [apply OL; [apply ON; reflexivity|cbn; tauto]|apply TL; [apply ON; reflexivity|cbn; tauto]])).
  rewrite (RF (s_ "Source: ") (s_ "Source")) by reflexivity. rewrite (RF (s_ "Section: ") (s_ "Section")) by reflexivity. change (s_ "Priority: optional") with (s_ "Priority: " ++ s_ "optional"). rewrite (RF (s_ "Priority: ") (s_ "Priority")) by reflexivity.
  rewrite (RF (s_ "Standards-Version: ") (s_ "Standards-Version")) by reflexivity. rewrite (RF (s_ "Maintainer: ") (s_ "Maintainer")) by reflexivity. rewrite (RF (s_ "Build-Depends: ") (s_ "Build-Depends")) by reflexivity.
  assert (RB : forall ls cur, cur <> [] -> read ([] :: ls) cur = option_map (cons (rev cur)) (read ls [])) by (intros ls cur' NC; cbn; destruct cur'; [congruence|]; destruct (read ls []); reflexivity).
  set (cur := _ :: _). set (rest := put_line [] ++ _).
  assert (R : forall cur, cur <> [] -> read (split_on nl rest) cur = Some (rev cur ::
    [[(s_ "Package", strip (c_bpn c)); (s_ "Architecture", strip (c_arch c)); (s_ "Depends", strip (tidy (c_depends c))); (s_ "Provides", strip (tidy (c_provides c))); (s_ "Replaces", strip (tidy (c_replaces c)));
     (s_ "Breaks", strip (tidy (c_breaks c))); (s_ "Built-Using", strip (tidy (c_built_using c))); (s_ "Conflicts", strip (tidy (c_conflicts c))); (s_ "Multi-Arch", strip (c_multi c)); (s_ "Description", strip (c_description c))]])).
  { clear cur. intros cur NC. subst rest. rewrite lines_step by (intros []).
    do 10 (rewrite lines_step by (first [apply OL; [apply ON; reflexivity|cbn; tauto]|apply TL; [apply ON; reflexivity|cbn; tauto]])). rewrite (RB _ cur NC).
    rewrite (RF (s_ "Package: ") (s_ "Package")) by reflexivity. rewrite (RF (s_ "Architecture: ") (s_ "Architecture")) by reflexivity. rewrite (RF (s_ "Depends: ") (s_ "Depends")) by reflexivity.
    rewrite (RF (s_ "Provides: ") (s_ "Provides")) by reflexivity. rewrite (RF (s_ "Replaces: ") (s_ "Replaces")) by reflexivity. rewrite (RF (s_ "Breaks: ") (s_ "Breaks")) by reflexivity. rewrite (RF (s_ "Built-Using: ") (s_ "Built-Using")) by reflexivity.
    rewrite (RF (s_ "Conflicts: ") (s_ "Conflicts")) by reflexivity. rewrite (RF (s_ "Multi-Arch: ") (s_ "Multi-Arch")) by reflexivity. rewrite (RF (s_ "Description: ") (s_ "Description")) by reflexivity.
    change (split_on nl []) with [@nil ascii]. reflexivity. }
  destruct (c_root c) as [|x r] eqn:Q.
  - cbn [app]. rewrite R by (subst cur; discriminate). reflexivity.
  - rewrite lines_step by (apply OL; [apply ON; reflexivity|rewrite <- Q; cbn; tauto]). rewrite (RF (s_ "Rules-Requires-Root: ") (s_ "Rules-Requires-Root")) by reflexivity. rewrite R by discriminate. reflexivity.
Qed.
Definition demo_control (description : str) : control := mkControl (s_ "hello") (s_ "misc") (s_ "3.9.6") (s_ "A <a@b>") (s_ "debhelper-compat (= 10), ") (s_ "no") (s_ "any") (s_ "libc6," ++ nl :: s_ " foo (>= 1)") [] [] [] [] [] (s_ "no") description.
(** A description of two lines makes a control file that cannot be read. *)
Theorem control_description_refuted : exists d, read_control (deb_create_control (demo_control d)) = None /\ read_control (deb_create_control (demo_control (s_ "one"))) <> None.
Proof. exists (s_ "one" ++ nl :: s_ "two"). split; [vm_compute; reflexivity|]. vm_compute. discriminate. Qed.
Example demo_control_ok : let c := demo_control (s_ "one") in (forall v, In v [c_bpn c; c_standards c; c_maintainer c; c_root c; c_arch c; c_multi c; c_description c] -> one_line v) /\
  (forall v, In v [c_section c; c_build_depends c; c_depends c; c_provides c; c_replaces c; c_breaks c; c_built_using c; c_conflicts c] -> list_of_lines v) /\ tidy (c_depends c) = s_ "libc6, foo (>= 1)".
Proof.
  cbn zeta. split; [|split].
  - intros v I J. cbn in I. repeat (destruct I as [<-|I]; [cbn in J; intuition discriminate|]). destruct I.
  - intros v I e J K. cbn in I. repeat (destruct I as [<-|I]; [vm_compute in J; repeat (destruct J as [<-|J]; [vm_compute in K; intuition discriminate|]); destruct J|]). destruct I.
  - vm_compute. reflexivity.
Qed.

(** ** C151: the debian directory *)
Lemma unit_of_iff pn n : unit_of pn n <-> exists f, In f handled /\ n = pn ++ f.
Proof.
  split.
  - intros [->|[->|[->|(t & u & k & T & U & K & ->)]]]; [exists (s_ ".triggers")|exists (s_ ".tmpfiles")|exists (s_ ".mount")|exists (t ++ u ++ k)]; (split; [|reflexivity]).
    4:{ cbn [In] in T, U, K. destruct T as [<-|[<-|[]]]; destruct U as [<-|[<-|[]]]; repeat (destruct K as [<-|K]; [vm_compute; tauto|]); destruct K. }
    all: vm_compute; tauto.
  - intros (f & I & ->). assert (G : forallb (fun f => seqb f (s_ ".triggers") || seqb f (s_ ".tmpfiles") || seqb f (s_ ".mount") || existsb (fun t => existsb (fun u => existsb (fun k => seqb f (t ++ u ++ k)) [s_ ".path"; s_ ".service"; s_ ".socket"; s_ ".target"; s_ ".timer"]) [[]; s_ ".user"]) [[]; s_ "@"]) handled = true) by (vm_compute; reflexivity).
    pose proof (proj1 (forallb_forall _ _) G f I) as Z. cbv beta in Z. apply orb_prop in Z. destruct Z as [Z|Z]; [apply orb_prop in Z; destruct Z as [Z|Z]; [apply orb_prop in Z; destruct Z as [Z|Z]|]; apply seqb_eq in Z; subst f; [left|right; left|right; right; left]; reflexivity|].
    right; right; right. apply existsb_exists in Z. destruct Z as (t & T & Z). apply existsb_exists in Z. destruct Z as (u & U & Z). apply existsb_exists in Z. destruct Z as (k & K & Z). apply seqb_eq in Z. subst f. exists t, u, k. repeat (split; [assumption|]). reflexivity.
Qed.
Lemma hook_iff n : hook n <-> In n hooks. Proof. reflexivity. Qed.
(** Hooks, units, triggers and tmpfiles of the recipe get into the debian directory, hooks
    as executables. *)
Theorem debianize_files : forall pn gc gr w d n c, w n = Some c -> (hook n -> ~ unit_of pn n -> deb_debianize pn gc gr w d n = Some (c, true)) /\ (unit_of pn n -> deb_debianize pn gc gr w d n = Some (c, false)).
Proof.
  intros pn gc gr w d n c W. unfold deb_debianize. rewrite (installs false (fun f : str => pn ++ f)), (installs true (fun f : str => f)), W. split.
  - intros H U. assert (E : existsb (fun f : str => seqb n (pn ++ f)) handled = false) by (apply not_true_iff_false; intro E; apply U; apply unit_of_iff; apply existsb_exists in E; destruct E as (f & I & E); apply seqb_eq in E; exists f; auto). rewrite E.
    assert (E2 : existsb (fun f : str => seqb n f) hooks = true) by (apply existsb_exists; exists n; split; [exact H|apply seqb_refl]). rewrite E2. reflexivity.
  - intro U. apply unit_of_iff in U. destruct U as (f & I & E). assert (X : existsb (fun f : str => seqb n (pn ++ f)) handled = true) by (apply existsb_exists; exists f; split; [exact I|rewrite E; apply seqb_refl]). rewrite X. reflexivity.
Qed.
(** control and rules are those of the recipe, or generated; rules can be executed, and a
    generated control file keeps the mode of one that is there; the copyright of the
    sources stays. *)
Theorem debianize_main : forall pn gc gr w d, ~ unit_of pn (s_ "control") -> ~ unit_of pn (s_ "rules") -> ~ unit_of pn (s_ "copyright") -> let r := deb_debianize pn gc gr w d in
  r (s_ "control") = Some (match w (s_ "control"), d (s_ "control") with Some c, _ => (c, false) | None, Some (_, x) => (gc, x) | None, None => (gc, false) end) /\
  r (s_ "rules") = Some (match w (s_ "rules") with Some c => c | None => gr end, true) /\
  r (s_ "copyright") = match d (s_ "copyright") with Some x => Some x | None => option_map (fun c => (c, false)) (w (s_ "default-copyright")) end.
Proof.
  intros pn gc gr w d N1 N2 N3 r. subst r. unfold deb_debianize.
  assert (U : forall n, ~ unit_of pn n -> existsb (fun f : str => seqb n (pn ++ f)) handled = false) by (intros n N; apply not_true_iff_false; intro E; apply N; apply unit_of_iff; apply existsb_exists in E; destruct E as (f & I & E); apply seqb_eq in E; exists f; auto).
  rewrite !(installs false (fun f : str => pn ++ f)), !U by assumption. rewrite !(installs true (fun f : str => f)).
  change (existsb (fun f : str => seqb (s_ "control") f) hooks) with false. change (existsb (fun f : str => seqb (s_ "rules") f) hooks) with false. change (existsb (fun f : str => seqb (s_ "copyright") f) hooks) with false. cbv iota zeta.
  unfold install. unfold mode_of; destruct (w (s_ "control")), (d (s_ "control")) as [[? ?]|], (w (s_ "rules")), (d (s_ "copyright")) eqn:C, (w (s_ "default-copyright")); rewrite ?(place_other (s_ "rules") _ _ (s_ "copyright")), ?(place_other (s_ "control") _ _ (s_ "copyright")) by discriminate; rewrite ?C; repeat split; try reflexivity; exact C.
Qed.
(** All other files stay. *)
Theorem debianize_rest : forall pn gc gr w d n, ~ In n [s_ "control"; s_ "rules"; s_ "copyright"] -> ~ hook n -> ~ unit_of pn n -> deb_debianize pn gc gr w d n = d n.
Proof.
  intros pn gc gr w d n N1 N2 N3. unfold deb_debianize. rewrite (installs false (fun f : str => pn ++ f)), (installs true (fun f : str => f)).
  assert (E : existsb (fun f : str => seqb n (pn ++ f)) handled = false) by (apply not_true_iff_false; intro E; apply N3; apply unit_of_iff; apply existsb_exists in E; destruct E as (f & I & E); apply seqb_eq in E; exists f; auto). rewrite E.
  assert (E2 : existsb (fun f : str => seqb n f) hooks = false) by (apply not_true_iff_false; intro X; apply N2; apply existsb_exists in X; destruct X as (f & I & X); apply seqb_eq in X; subst f; exact I). rewrite E2.
  assert (A : n <> s_ "control") by (intros ->; apply N1; left; reflexivity). assert (B : n <> s_ "rules") by (intros ->; apply N1; right; left; reflexivity). assert (C : n <> s_ "copyright") by (intros ->; apply N1; right; right; left; reflexivity).
  assert (K : forall e d', (match w (s_ "rules") with Some c => place_file (s_ "rules") (c, true) d' | None => place_file (s_ "rules") (e, true) d' end) n = d' n) by (intros e d'; destruct (w (s_ "rules")); apply place_other, B).
  assert (K2 : (match w (s_ "control") with Some c => place_file (s_ "control") (c, false) d | None => place_file (s_ "control") (gc, mode_of (s_ "control") d) d end) n = d n) by (destruct (w (s_ "control")); apply place_other, A).
  cbv zeta. set (d1 := match w (s_ "control") with Some c => _ | None => _ end) in *. set (d2 := match w (s_ "rules") with Some c => place_file (s_ "rules") (c, true) d1 | None => _ end).
  assert (D2 : d2 n = d n) by (subst d2; rewrite (K gr d1); exact K2). destruct (d2 (s_ "copyright")); [exact D2|]. unfold install. destruct (w (s_ "default-copyright")); [rewrite place_other by exact C|]; exact D2.
Qed.
(** Units are looked for under the name of the recipe: a native or compat variant of the
    recipe, whose package has the same name, does not get them. *)
Theorem debianize_variant_refuted : exists bpn w c, w (bpn ++ s_ ".service") = Some c /\ (forall gc gr d, deb_debianize bpn gc gr w d (bpn ++ s_ ".service") = Some (c, false)) /\
  forall gc gr, deb_debianize (bpn ++ s_ "-native") gc gr w (fun _ => None) (bpn ++ s_ ".service") = None.
Proof.
  exists (s_ "hello"), (fun n => if seqb n (s_ "hello.service") then Some (s_ "[Unit]") else None), (s_ "[Unit]"). split; [reflexivity|]. split.
  - intros gc gr d. apply debianize_files; [reflexivity|]. right; right; right. exists [], [], (s_ ".service"). repeat split; cbn; tauto.
  - intros gc gr. rewrite debianize_rest; [reflexivity|cbn; intuition discriminate|cbn; intuition discriminate|]. intro X. apply unit_of_iff in X. destruct X as (f & I & E). cbn in I. repeat (destruct I as [<-|I]; [discriminate E|]). destruct I.
Qed.
Example demo_debianize : let r := deb_debianize (s_ "hello") (s_ "Source: hello") (s_ "%:") (fun n => if seqb n (s_ "postinst") then Some (s_ "#!/bin/sh") else if seqb n (s_ "hello@.timer") then Some (s_ "[Timer]") else None) (fun n => if seqb n (s_ "rules") then Some (s_ "old", false) else None) in
  r (s_ "postinst") = Some (s_ "#!/bin/sh", true) /\ r (s_ "hello@.timer") = Some (s_ "[Timer]", false) /\ r (s_ "rules") = Some (s_ "%:", true) /\ r (s_ "control") = Some (s_ "Source: hello", false) /\ r (s_ "prerm") = None /\ ~ unit_of (s_ "hello") (s_ "control").
Proof. cbn zeta. repeat (split; [vm_compute; reflexivity|]). intro X. apply unit_of_iff in X. destruct X as (f & I & E). cbn in I. repeat (destruct I as [<-|I]; [discriminate E|]). destruct I. Qed.
Print Assumptions fragment_chosen.
Print Assumptions fragment_only.
Print Assumptions fragment_order.
Print Assumptions fragments_used.
Print Assumptions fragments_there_partial.
Print Assumptions fragments_rest.
Print Assumptions fragments_stale.
Print Assumptions fragments_missing.
Print Assumptions fragment_c_refuted.
Print Assumptions fragment_beside_refuted.
Print Assumptions kernel_target.
Print Assumptions arch_native.
Print Assumptions arch_cross.
Print Assumptions arch_same.
Print Assumptions arch_chroot.
Print Assumptions srcdir_below.
Print Assumptions srcdir_names.
Print Assumptions srcdir_same.
Print Assumptions control_exact.
Print Assumptions control_description_refuted.
Print Assumptions debianize_files.
Print Assumptions debianize_main.
Print Assumptions debianize_rest.
Print Assumptions debianize_variant_refuted.
