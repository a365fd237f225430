(** Stamps: the claims. *)
From Coq Require Import Ascii String List Bool Arith Lia.
From Verif Require Import Str_Model Str_Proofs Sstman_Proofs Stamps_Model Stamps_Spec Stamps_Proofs.
Import ListNotations.
Open Scope list_scope.

Lemma usual_lits : forall base task extra, usual base task extra -> literal base /\ literal task /\ literal extra /\ literal (task ++ scene) /\ literal (task ++ scene ++ scene).
Proof. intros base task extra U. destruct U as (LB & LT & LE & _). repeat split; auto; repeat apply lit_app; auto; apply lit_scene. Qed.

(** ** C119 *)
(** After a task has run: its new stamp, and of the files before all that are not
    stamps of this task or of its setscene variant. *)
Theorem make_stamp_exact : forall base hash extra task files f, usual base task (extra task) -> usual_hash (hash task) ->
  (In f (make_stamp base hash extra task files) <->
   f = base ++ s_ "." ++ task ++ s_ "." ++ hash task ++ with_extra (extra task) \/
   (In f files /\ (no_stamp f \/ ~ (stamp_of base task (extra task) f \/ stamp_of base (task ++ scene) (extra task) f)))).
Proof.
  intros base hash extra task files f U H. destruct (usual_lits _ _ _ U) as (LB & LT & LE & LS & _).
  rewrite make_iff, (stampfile_plain _ _ _ _ U H), (matches_iff _ _ _ _ _ _ _ LB LT LS LE (masks_plain _ _ _ U)). reflexivity.
Qed.
(** After the setscene variant of a task has run: its stamp, and every file that is not
    an older stamp of the variant.  The stamps of the task itself stay. *)
Theorem scene_stamp_exact : forall base hash extra task files f, usual base task (extra task) -> usual_hash (hash task) ->
  (In f (make_stamp base hash extra (task ++ scene) files) <->
   f = base ++ s_ "." ++ (task ++ scene) ++ s_ "." ++ hash task ++ with_extra (extra task) \/
   (In f files /\ (no_stamp f \/ ~ (stamp_of base (task ++ scene) (extra task) f \/ stamp_of base (task ++ scene ++ scene) (extra task) f)))).
Proof.
  intros base hash extra task files f U H. destruct (usual_lits _ _ _ U) as (LB & LT & LE & LS & LSS).
  rewrite make_iff, (stampfile_scene _ _ _ _ U H), (matches_iff _ _ _ _ _ _ _ LB LS LSS LE (masks_scene _ _ _ U)). reflexivity.
Qed.
Lemma stamp_task : forall base t e T h x, stamp_of base t e (base ++ s_ "." ++ T ++ s_ "." ++ h ++ x) -> ~ In "."%char t -> ~ In "."%char T -> t = T.
Proof.
  intros base t e T h x (m & _ & E) N1 N2. apply app_inv_head in E. injection E as E. apply no_dot_split in E; auto. destruct E. auto.
Qed.
Lemma scene_no_dot : forall t, ~ In "."%char t -> ~ In "."%char (t ++ scene).
Proof. intros t N I. apply in_app_or in I. destruct I as [I|I]; [contradiction|]. cbn in I. intuition discriminate. Qed.
(** The stamps of other tasks of the recipe are never lost. *)
Theorem other_tasks_keep : forall base hash extra task files T h x, usual base task (extra task) -> usual_hash (hash task) ->
  ~ In "."%char T -> T <> task -> T <> task ++ scene ->
  In (base ++ s_ "." ++ T ++ s_ "." ++ h ++ x) files -> In (base ++ s_ "." ++ T ++ s_ "." ++ h ++ x) (make_stamp base hash extra task files).
Proof.
  intros base hash extra task files T h x U H ND N1 N2 I. apply make_stamp_exact; auto. right. split; [exact I|]. right.
  assert (NT : ~ In "."%char task) by apply U.
  intros [S|S]; apply stamp_task in S; auto using scene_no_dot.
Qed.
(** A stale stamp is a stamp of the task or of its setscene variant for another hash. *)
Theorem stale_exact : forall base hash extra task files f, usual base task (extra task) -> usual_hash (hash task) ->
  (In f (find_stale_stamps base hash extra task files) <->
   In f files /\ ~ no_stamp f /\ (stamp_of base task (extra task) f \/ stamp_of base (task ++ scene) (extra task) f) /\
   f <> base ++ s_ "." ++ task ++ s_ "." ++ hash task ++ with_extra (extra task) /\ f <> base ++ s_ "." ++ (task ++ scene) ++ s_ "." ++ hash task ++ with_extra (extra task)).
Proof.
  intros base hash extra task files f U H. destruct (usual_lits _ _ _ U) as (LB & LT & LE & LS & _).
  unfold find_stale_stamps. rewrite (masks_plain _ _ _ U). cbn [flat_map]. rewrite app_nil_r, in_app_iff, !filter_In, !andb_true_iff, !negb_true_iff, orb_false_iff, !seqb_neq, !mask_stamp by auto.
  rewrite (stampfile_plain _ _ _ _ U H), (stampfile_scene _ _ _ _ U H). unfold shape. rewrite <- kept_iff, not_true_iff_false. tauto.
Qed.
(** Right after the task has run no stamp of it is stale. *)
Theorem none_stale : forall base hash extra task files, usual base task (extra task) -> usual_hash (hash task) ->
  find_stale_stamps base hash extra task (make_stamp base hash extra task files) = [].
Proof.
  intros base hash extra task files U H. destruct (find_stale_stamps base hash extra task (make_stamp base hash extra task files)) as [|f l] eqn:E; [reflexivity|]. exfalso.
  assert (I : In f (find_stale_stamps base hash extra task (make_stamp base hash extra task files))) by (rewrite E; left; reflexivity).
  apply stale_exact in I; auto. destruct I as (I & NS & S & N1 & N2). apply make_stamp_exact in I; auto. tauto.
Qed.

Definition demo_base : str := s_ "/b/tmp/stamps/isar-amd64/hello/1.0-r0".
Definition demo_hash (t : str) : str := if seqb t (s_ "do_dpkg_build") then s_ "77aa" else s_ "11bb".
Definition demo_extra (t : str) : str := [].
Definition demo_files : list str := map (fun x => demo_base ++ s_ x)
  [".do_dpkg_build.0001"; ".do_dpkg_build_setscene.0001"; ".do_dpkg_build.sigdata.0001"; ".do_dpkg_build.taint"; ".do_deploy_deb.11bb"; ".do_dpkg.22"]%string.
Example demo_usual : usual demo_base (s_ "do_dpkg_build") [] /\ usual_hash (demo_hash (s_ "do_dpkg_build")).
Proof.
  assert (LB : forall p x, contains_sub p x = false -> lacks p x) by (intros p x C u v ->; assert (contains_sub p (u ++ p ++ v) = true) by (apply contains_sub_iff; eauto); congruence).
  split; [|split; [discriminate|split; intro I; cbn in I; intuition discriminate]].
  unfold usual, literal. repeat split; try (intro I; cbn in I; intuition discriminate); try (apply LB; vm_compute; reflexivity).
  - eexists. reflexivity.
  - intros u E. destruct u; discriminate E.
Qed.
Example demo_make : make_stamp demo_base demo_hash demo_extra (s_ "do_dpkg_build") demo_files = map (fun x => demo_base ++ s_ x)
  [".do_dpkg_build.sigdata.0001"; ".do_dpkg_build.taint"; ".do_deploy_deb.11bb"; ".do_dpkg.22"; ".do_dpkg_build.77aa"]%string.
Proof. vm_compute. reflexivity. Qed.
Example demo_make_scene : make_stamp demo_base demo_hash demo_extra (s_ "do_dpkg_build_setscene") demo_files = map (fun x => demo_base ++ s_ x)
  [".do_dpkg_build.0001"; ".do_dpkg_build.sigdata.0001"; ".do_dpkg_build.taint"; ".do_deploy_deb.11bb"; ".do_dpkg.22"; ".do_dpkg_build_setscene.77aa"]%string.
Proof. vm_compute. reflexivity. Qed.
Example demo_stale : find_stale_stamps demo_base demo_hash demo_extra (s_ "do_dpkg_build") demo_files = map (fun x => demo_base ++ s_ x) [".do_dpkg_build.0001"; ".do_dpkg_build_setscene.0001"]%string.
Proof. vm_compute. reflexivity. Qed.

Definition named_base : str := s_ "/b/do_build/stamps/hello/1.0-r0".
(** If the name of the task occurs in the path of the directory, the stamps of the
    setscene variant are looked for in another directory: a task that has run again
    leaves the stamp of its setscene variant, and the variant counts as done. *)
Theorem task_in_path_refuted : exists old,
  stamp_of named_base (s_ "do_build_setscene") [] old /\ ~ no_stamp old /\ In old (make_stamp named_base demo_hash demo_extra (s_ "do_build") [old]).
Proof.
  exists (named_base ++ s_ ".do_build_setscene.0001"). split; [exists (s_ "0001"); split; [intro I; cbn in I; intuition discriminate|reflexivity]|]. split; [|vm_compute; auto].
  rewrite <- kept_iff. vm_compute. discriminate.
Qed.
Definition sig_base : str := s_ "/b/sigdata/stamps/hello/1.0-r0".
(** If the path of the directory contains "sigdata", no stamp is ever removed. *)
Theorem sigdata_path_refuted : exists old,
  stamp_of sig_base (s_ "do_build") [] old /\ old <> stampfile sig_base demo_hash demo_extra (s_ "do_build") /\ In old (make_stamp sig_base demo_hash demo_extra (s_ "do_build") [old]) /\
  find_stale_stamps sig_base demo_hash demo_extra (s_ "do_build") [old] = [].
Proof.
  exists (sig_base ++ s_ ".do_build.0001"). split; [exists (s_ "0001"); split; [intro I; cbn in I; intuition discriminate|reflexivity]|]. split; [vm_compute; discriminate|]. split; vm_compute; auto.
Qed.

(** ** C120 *)
Lemma lacks_step : forall T R, ~ In "."%char T -> (forall y, R <> s_ "do_" ++ y) -> lacks (s_ ".do_") R -> lacks (s_ ".do_") (T ++ s_ "." ++ R).
Proof.
  intros T R NT NR LR u v E. apply app_eq_app in E. destruct E as (l & [[-> E]|[-> E]]).
  - destruct l as [|c l].
    + cbn in E. injection E as E. apply (NR v). symmetry. exact E.
    + injection E as <- _. apply NT, in_or_app. right. left. reflexivity.
  - destruct l as [|c l].
    + cbn in E. injection E as E. apply (NR v). exact E.
    + injection E as _ E. exact (LR l v E).
Qed.
Lemma lacks_nodot : forall x, ~ In "."%char x -> lacks (s_ ".do_") x.
Proof. intros x N. apply (lacks_char "."%char); [left; reflexivity|exact N]. Qed.
Lemma stamp_rest : forall task hash extra, part task -> part hash -> (forall x, hash <> s_ "do_" ++ x) -> (extra = [] \/ part extra) -> (forall x, extra <> s_ "do_" ++ x) ->
  lacks (s_ ".do_") (task ++ s_ "." ++ hash ++ with_extra extra).
Proof.
  intros task hash extra (_ & NT & _) (NE & NH & _) HD EX ED. apply lacks_step; auto.
  - intros y E. destruct extra as [|c e]; cbn [with_extra] in E; [rewrite app_nil_r in E; eapply HD, E|].
    apply app_eq_app in E. destruct E as (l & [[-> _]|[E1 E]]); [eapply HD; reflexivity|].
    destruct l as [|k l]; [rewrite app_nil_r in E1; apply (HD []); rewrite app_nil_r; symmetry; exact E1|]. injection E as <- _.
    assert (I : In "."%char (s_ "do_")) by (rewrite E1; apply in_or_app; right; left; reflexivity). cbn in I. intuition discriminate.
  - destruct EX as [->|(_ & NX & _)]; [cbn [with_extra]; rewrite app_nil_r; apply lacks_nodot, NH|].
    destruct extra as [|c e]; cbn [with_extra]; [rewrite app_nil_r; apply lacks_nodot, NH|]. apply lacks_step; auto. apply lacks_nodot, NX.
Qed.
Lemma lacks_nil : forall p, p <> [] -> lacks p [].
Proof. intros p N u v E. symmetry in E. apply app_eq_nil in E. destruct E as [_ E]. apply app_eq_nil in E. destruct E. contradiction. Qed.
Lemma stamp_unsigned : forall p dir ver task hash extra, p <> [] -> ~ In "."%char p -> lacks p (dir ++ s_ "/" ++ ver) -> lacks p task -> lacks p hash -> lacks p extra -> lacks p (s_ "do_") ->
  (forall x, lacks p x -> lacks p (s_ "do_" ++ x)) -> lacks p (version_stamp dir ver task hash extra).
Proof.
  intros p dir ver task hash extra NE ND LD LT LH LE L0 L1. unfold version_stamp.
  replace (dir ++ s_ "/" ++ ver ++ s_ ".do_" ++ task ++ s_ "." ++ hash ++ with_extra extra) with ((dir ++ s_ "/" ++ ver) ++ s_ "." ++ (s_ "do_" ++ task) ++ s_ "." ++ hash ++ with_extra extra) by (rewrite <- !app_assoc; reflexivity).
  apply lacks_dot; auto. apply lacks_dot; auto. destruct extra as [|c e]; cbn [with_extra]; [rewrite app_nil_r; exact LH|]. apply lacks_dot; auto.
Qed.
Lemma lacks_do : forall p x, (exists c r, p = c :: r /\ ~ In c (s_ "do_")) -> lacks p x -> lacks p (s_ "do_" ++ x).
Proof.
  intros p x (c & r & -> & NC) L u v E. apply app_eq_app in E. destruct E as (l & [[E1 E]|[-> E]]).
  - destruct l as [|k l].
    + cbn in E. apply (L [] v). symmetry. exact E.
    + injection E as -> _. apply NC. rewrite E1. apply in_or_app. right. left. reflexivity.
  - exact (L l v E).
Qed.
Definition sig1 : str := s_ "sigdata".
Lemma stamp_no_sig : forall dir ver task hash extra, proper_stamp dir ver task hash extra -> unsigned (version_stamp dir ver task hash extra).
Proof.
  intros dir ver task hash extra (_ & _ & _ & _ & (D1 & D2) & _ & (T1 & T2) & _ & (H1 & H2) & _ & _ & _ & (E1 & E2) & _).
  split; apply stamp_unsigned; auto; try discriminate; try (intro I; cbn in I; intuition discriminate); try (intros x L; apply lacks_do; auto; do 2 eexists; split; [reflexivity|]; intro I; cbn in I; intuition discriminate).
  1,2: eapply (lacks_char "s"%char); [left; reflexivity|]; intro I; cbn in I; intuition discriminate.
Qed.
Lemma stamp_end : forall dir ver task hash extra, version_stamp dir ver task hash extra =
  match extra with [] => (dir ++ s_ "/" ++ ver ++ s_ ".do_" ++ task) ++ s_ "." ++ hash | _ => (dir ++ s_ "/" ++ ver ++ s_ ".do_" ++ task ++ s_ "." ++ hash) ++ s_ "." ++ extra end.
Proof. intros. unfold version_stamp, with_extra. destruct extra; rewrite <- ?app_assoc, ?app_nil_r; reflexivity. Qed.

Lemma gmatch_clean : forall dir task extra f, literal dir -> literal task -> literal extra ->
  (gmatch (clean_wild (dir ++ s_ "/*-*") task extra) f = true <->
   exists a b c, ~ In "/"%char a /\ ~ In "/"%char b /\ ~ In "/"%char c /\ f = dir ++ s_ "/" ++ a ++ s_ "-" ++ b ++ s_ ".do_" ++ task ++ c ++ with_extra extra).
Proof.
  intros dir task extra f LD LT LE.
  assert (W : clean_wild (dir ++ s_ "/*-*") task extra = (dir ++ s_ "/") ++ star :: s_ "-" ++ star :: (s_ ".do_" ++ task) ++ star :: with_extra extra).
  { unfold clean_wild, with_extra. destruct extra; rewrite <- !app_assoc; reflexivity. }
  assert (L1 : literal (s_ "/")) by (intros [H|[]]; discriminate H).
  assert (L2 : literal (s_ "-")) by (intros [H|[]]; discriminate H).
  assert (L3 : literal (s_ ".do_")) by (intro I; cbn in I; intuition discriminate).
  rewrite W, gmatch_lit by (apply lit_app; auto). split.
  - intros (s1 & -> & G). apply gmatch_star in G. destruct G as (a & s2 & NA & -> & G). apply gmatch_lit in G; auto. destruct G as (s3 & -> & G). apply gmatch_star in G. destruct G as (b & s4 & NB & -> & G).
    apply gmatch_lit in G; [|apply lit_app; auto]. destruct G as (s5 & -> & G). apply gmatch_star in G. destruct G as (c & s6 & NC & -> & G). apply gmatch_all in G; [|apply lit_extra, LE]. subst s6.
    exists a, b, c. repeat split; auto. rewrite <- ?app_assoc. reflexivity.
  - intros (a & b & c & NA & NB & NC & ->). eexists. split; [rewrite (app_assoc dir); reflexivity|]. apply gmatch_star. exists a. eexists. split; [exact NA|]. split; [reflexivity|].
    apply gmatch_lit; auto. eexists. split; [reflexivity|]. apply gmatch_star. exists b. eexists. split; [exact NB|]. split; [reflexivity|].
    apply gmatch_lit; [apply lit_app; auto|]. eexists. split; [rewrite (app_assoc (s_ ".do_")); reflexivity|]. apply gmatch_star. exists c. eexists. split; [exact NC|]. split; [reflexivity|]. apply gmatch_all; [apply lit_extra, LE|reflexivity].
Qed.

(** Cleaning a shared-state task removes of the stamps of the recipe, of all its
    versions, exactly those of the task and of its setscene variant (with the extra
    information of the task, if it has any). *)
Theorem clean_stamps_exact : forall dir task extra files ver T h e, literal task -> literal extra -> ~ In "."%char task -> ~ In "."%char extra -> h <> extra ->
  proper_stamp dir ver T h e ->
  (In (version_stamp dir ver T h e) (sstate_clean_stamps (dir ++ s_ "/*-*") task extra files) <->
   In (version_stamp dir ver T h e) files /\ ~ ((T = task \/ T = task ++ scene) /\ (extra = [] \/ e = extra))).
Proof.
  intros dir task extra files ver T h e LT LE ND NX NHX P. pose proof (stamp_no_sig _ _ _ _ _ P) as [SG1 SG2].
  destruct P as (LD & NV & (va & vb & EV) & OD & _ & PT & _ & PH & _ & HT & HD & PE & _ & ET & ED).
  unfold sstate_clean_stamps. rewrite filter_In, negb_true_iff, <- not_true_iff_false.
  assert (X : removed_by_clean (dir ++ s_ "/*-*") task extra (version_stamp dir ver T h e) = true <-> (T = task \/ T = task ++ scene) /\ (extra = [] \/ e = extra)); [|rewrite X; reflexivity].
  pose proof (stamp_rest T h e PT PH HD PE ED) as LY.
  unfold removed_by_clean. rewrite !andb_true_iff, !negb_true_iff, !orb_true_iff, orb_false_iff, gmatch_clean by auto. split.
  - intros (((G & _) & _) & C). split.
    + assert (M : forall u w, version_stamp dir ver T h e = u ++ s_ ".do_" ++ w -> w = T ++ s_ "." ++ h ++ with_extra e).
      { intros u w E. unfold version_stamp in E. rewrite (app_assoc (s_ "/")), (app_assoc dir) in E. apply mark_once in E; auto. apply E. }
      destruct C as [[C|C]|C].
      * apply contains_sub_iff in C. destruct C as (u & w & E). rewrite <- !app_assoc in E. apply M in E. apply no_dot_split in E; [|exact ND|apply PT]. left. symmetry. apply E.
      * apply contains_sub_iff in C. destruct C as (u & w & E). change (s_ "_setscene.") with (scene ++ s_ ".") in E. rewrite <- !app_assoc in E. apply M in E. rewrite app_assoc in E.
        apply no_dot_split in E; [|apply scene_no_dot, ND|apply PT]. right. symmetry. apply E.
      * exfalso. apply endswith_iff in C. destruct C as (u & E). apply M in E. apply ND. rewrite E. apply in_or_app. right. left. reflexivity.
    + destruct extra as [|x1 x2]; [left; reflexivity|right]. destruct G as (a & b & c & _ & _ & _ & E). cbn [with_extra] in E.
      assert (E' : version_stamp dir ver T h e = (dir ++ s_ "/" ++ a ++ s_ "-" ++ b ++ s_ ".do_" ++ task ++ c) ++ s_ "." ++ x1 :: x2) by (rewrite E, <- !app_assoc; reflexivity).
      rewrite stamp_end in E'. destruct e as [|e1 e2].
      * apply no_dot_tail in E'; [|apply PH|exact NX]. destruct E' as [_ E']. contradiction.
      * apply no_dot_tail in E'; [|destruct PE as [PE|PE]; [discriminate PE|apply PE]|exact NX]. apply E'.
  - intros (TT & XX).
    assert (R : exists r, version_stamp dir ver T h e = (dir ++ s_ "/" ++ ver) ++ s_ ".do_" ++ task ++ r ++ s_ "." ++ h ++ with_extra e /\ (r = [] \/ r = scene)).
    { unfold version_stamp. destruct TT as [->| ->]; [exists []|exists scene]; (split; [rewrite <- !app_assoc; reflexivity|auto]). }
    destruct R as (r & R & RR).
    assert (NR : ~ In "/"%char (r ++ s_ "." ++ h)).
    { intro I. apply in_app_or in I. destruct I as [I|[I|I]]; [|discriminate I|destruct PH as (_ & _ & PH); contradiction]. destruct RR as [->| ->]; [exact I|]. cbn in I. intuition discriminate. }
    split; [split; [split|]|].
    + destruct XX as [->| ->].
      * exists va, vb, (r ++ s_ "." ++ h ++ with_extra e). repeat split.
        -- intro I. apply NV. rewrite EV. apply in_or_app. left. exact I.
        -- intro I. apply NV. rewrite EV. apply in_or_app. right. right. exact I.
        -- intro I. rewrite !app_assoc in I. apply in_app_or in I. destruct I as [I|I]; [apply NR; rewrite app_assoc; exact I|]. destruct e as [|e1 e2]; [exact I|]. destruct I as [I|I]; [discriminate I|]. destruct PE as [PE|(_ & _ & PE)]; [discriminate PE|contradiction].
        -- rewrite R, EV. cbn [with_extra]. rewrite <- !app_assoc, ?app_nil_r. reflexivity.
      * exists va, vb, (r ++ s_ "." ++ h). repeat split; auto.
        -- intro I. apply NV. rewrite EV. apply in_or_app. left. exact I.
        -- intro I. apply NV. rewrite EV. apply in_or_app. right. right. exact I.
        -- rewrite R, EV. rewrite <- !app_assoc. reflexivity.
    + split; (apply not_true_iff_false; intro C; apply contains_sub_iff in C; destruct C as (u & w & C)).
      * apply (SG1 (u ++ s_ ".") (s_ "." ++ w)). rewrite C, <- !app_assoc. reflexivity.
      * apply (SG2 (u ++ s_ ".") (s_ "." ++ w)). rewrite C, <- !app_assoc. reflexivity.
    + apply not_true_iff_false. intro C. apply endswith_iff in C. destruct C as (u & C). rewrite stamp_end in C. change (s_ ".taint") with (s_ "." ++ s_ "taint") in C.
      assert (NT : ~ In "."%char (s_ "taint")) by (intro I; cbn in I; intuition discriminate).
      destruct e as [|e1 e2]; (apply no_dot_tail in C; [destruct C; contradiction| |exact NT]); [apply PH|]. destruct PE as [PE|PE]; [discriminate PE|apply PE].
    + left. destruct RR as [->| ->]; [left|right]; apply contains_sub_iff; exists (dir ++ s_ "/" ++ ver), (h ++ with_extra e); rewrite R, <- !app_assoc; reflexivity.
Qed.
(** Signatures and the marks of invalidated tasks stay. *)
Theorem clean_keeps_signatures : forall clean task extra files f, In f files ->
  (exists u v, f = u ++ s_ ".sigdata." ++ v) \/ (exists u v, f = u ++ s_ ".sigbasedata." ++ v) \/ (exists u, f = u ++ s_ ".taint") -> In f (sstate_clean_stamps clean task extra files).
Proof.
  intros clean task extra files f I H. unfold sstate_clean_stamps. apply filter_In. split; [exact I|]. apply negb_true_iff. unfold removed_by_clean. rewrite <- !contains_sub_iff, <- endswith_iff in H.
  destruct H as [H|[H|H]]; rewrite H; rewrite ?orb_true_r; cbn [negb andb orb]; rewrite ?andb_false_r; reflexivity.
Qed.
(** Whatever is not directly in the directory of the recipe stays. *)
Theorem clean_keeps_others : forall dir task extra files f, literal dir -> literal task -> literal extra -> ~ In "/"%char task -> ~ In "/"%char extra -> In f files ->
  (forall n, ~ In "/"%char n -> f <> dir ++ s_ "/" ++ n) -> In f (sstate_clean_stamps (dir ++ s_ "/*-*") task extra files).
Proof.
  intros dir task extra files f LD LT LE NT NX I N. unfold sstate_clean_stamps. apply filter_In. split; [exact I|]. apply negb_true_iff, not_true_iff_false. intro R. unfold removed_by_clean in R. rewrite !andb_true_iff in R.
  destruct R as (((G & _) & _) & _). apply gmatch_clean in G; auto. destruct G as (a & b & c & NA & NB & NC & ->). eapply N; [|reflexivity].
  intro J. repeat (apply in_app_or in J; destruct J as [J|J]); auto; try (cbn in J; intuition discriminate). destruct extra as [|x1 x2]; [exact J|]. destruct J as [J|J]; [discriminate J|contradiction].
Qed.
Definition demo_dir : str := s_ "/b/tmp/stamps/isar-amd64/hello".
Example demo_proper : proper_stamp demo_dir (s_ "1.0-r0") (s_ "dpkg_build_setscene") (s_ "77aa") [] /\ s_ "77aa" <> demo_extra [].
Proof.
  assert (LB : forall p x, contains_sub p x = false -> lacks p x) by (intros p x C u v ->; assert (contains_sub p (u ++ p ++ v) = true) by (apply contains_sub_iff; eauto); congruence).
  split; [|discriminate]. unfold proper_stamp, part, unsigned, literal. repeat split; try (apply LB; vm_compute; reflexivity); try discriminate; try (intro I; cbn in I; intuition discriminate); auto.
  exists (s_ "1.0"), (s_ "r0"). reflexivity.
Qed.
Example demo_clean : sstate_clean_stamps (demo_dir ++ s_ "/*-*") (s_ "dpkg_build") [] (map (fun x => demo_dir ++ s_ x)
  ["/1.0-r0.do_dpkg_build.77aa"; "/0.9-r0.do_dpkg_build_setscene.0001"; "/1.0-r0.do_dpkg_build.sigdata.77aa"; "/1.0-r0.do_dpkg_build2.88"; "2/1.0-r0.do_dpkg_build.99"]%string)
  = map (fun x => demo_dir ++ s_ x) ["/1.0-r0.do_dpkg_build.sigdata.77aa"; "/1.0-r0.do_dpkg_build2.88"; "2/1.0-r0.do_dpkg_build.99"]%string.
Proof. vm_compute. reflexivity. Qed.

(** ** C121 *)
(** The recursive check finds out whether a task is up to date, whatever was remembered
    from checks before; what it remembers is right as well. *)
Theorem check_stamp_exact : forall w fuel t c b c', check w true fuel t c = Some (b, c') -> (forall x y, look x c = Some y -> (y = true <-> up_to_date w x)) ->
  (b = true <-> up_to_date w t) /\ forall x y, look x c' = Some y -> (y = true <-> up_to_date w x).
Proof. intros w fuel t c b c' C S. exact (check_true w fuel t c b c' C S). Qed.
(** It ends if no task depends on itself. *)
Theorem check_stamp_ends : forall w (rank : nat -> nat), (forall t d, In d (t_deps w t) -> rank d < rank t) -> forall t c, exists b c', check w true (S (rank t)) t c = Some (b, c').
Proof.
  intros w rank RK t c. destruct (check w true (S (rank t)) t c) as [[b c']|] eqn:E; [eauto|]. exfalso. revert E. eapply check_some; [exact RK|lia].
Qed.
(** Without recursion only the stamps of the dependencies are compared. *)
Theorem check_direct : forall w fuel t c, exists b, check w false (S fuel) t c = Some (b, c) /\ (b = true <-> looks_current w t).
Proof.
  intros w fuel t c. rewrite check_eq. unfold looks_current.
  destruct (t_stamp w t) as [t1|] eqn:T1; [|exists false; split; [reflexivity|]; split; [discriminate|]; intros (x & E & _); discriminate E].
  destruct (t_nostamp w t) eqn:NS; [exists false; split; [reflexivity|]; split; [discriminate|]; intros (x & _ & E & _); discriminate E|].
  destruct (endswith scene (t_name w t)) eqn:SC.
  - exists true. split; [reflexivity|]. split; [intros _|reflexivity]. exists t1. repeat split; auto. left. apply endswith_iff, SC.
  - destruct (go_false w (check w true fuel) t t1 (t_deps w t) c) as (b & G & E). rewrite G. exists b. split; [reflexivity|]. rewrite E. split.
    + intro H. exists t1. repeat split; auto. right. intros d I NF SR. apply (H d I NF SR).
    + intros (x & X & _ & [(y & Y)|H]) d I NF SR; [rewrite Y, endswith_app in SC; discriminate SC|]. injection X as <-. split; [apply H; auto|exact Logic.I].
Qed.
(** A task that is up to date has a stamp at least as new as those of all the tasks of
    its recipe below it, as long as no setscene variant is in between. *)
Inductive below (w : tasks) : nat -> nat -> Prop :=
| below_one t d : In d (t_deps w t) -> ~ from_shared w d -> t_recipe w d = t_recipe w t -> below w t d
| below_more t d e : In d (t_deps w t) -> ~ from_shared w d -> t_recipe w d = t_recipe w t -> below w d e -> below w t e.
Theorem nothing_newer : forall w t, (forall x, ~ exists y, t_name w x = y ++ scene) -> up_to_date w t -> forall d, below w t d ->
  exists t1 t2, t_stamp w t = Some t1 /\ t_stamp w d = Some t2 /\ t2 <= t1.
Proof.
  intros w t NS U d B. revert U. induction B as [t d I NF SR|t d e I NF SR B IH]; intro U; inversion U as [? x ? ? Y|? t1 T1 _ H]; subst; try (exfalso; eapply NS, Y).
  - destruct (H d I NF SR) as [(t2 & T2 & L) _]. exists t1, t2. repeat split; auto. lia.
  - destruct (H d I NF SR) as [(t2 & T2 & L) UD]. destruct (IH UD) as (x & y & X & Y & LE). exists t1, y. repeat split; auto. rewrite T2 in X. injection X as <-. lia.
Qed.
(** compile (2) needs configure (1) needs fetch (0); 3 is another recipe *)
Definition demo_tasks (stamps : list (option nat)) (scenes : list (option nat)) : tasks :=
  mkTasks (fun n => if Nat.eqb n 3 then s_ "b.bb" else s_ "a.bb") (fun n => nth n (map s_ ["do_fetch"; "do_configure"; "do_compile"; "do_build"]%string) [])
    (fun n => nth n stamps None) (fun n => nth n scenes None) (fun _ => false) (fun n => nth n [[]; [0]; [1; 3]; []] []).
Example demo_rank : forall s c t d, In d (t_deps (demo_tasks s c) t) -> (fun n => nth n [0; 1; 2; 0] 0) d < (fun n => nth n [0; 1; 2; 0] 0) t.
Proof. intros s c t d. cbn. do 4 (destruct t as [|t]; [cbn; intros I; repeat (destruct I as [<-|I]; [cbn; lia|]); contradiction|]). destruct t; cbn; contradiction. Qed.
Example demo_checks :
  (check (demo_tasks [Some 5; Some 6; Some 7; Some 9] []) true 3 2 [] = Some (true, [(2, true); (1, true); (1, true); (0, true); (0, true)])) /\
  (option_map fst (check (demo_tasks [Some 8; Some 6; Some 7; Some 9] []) true 3 2 []) = Some false) /\
  (option_map fst (check (demo_tasks [Some 8; Some 6; Some 7; Some 9] []) false 3 2 []) = Some true) /\
  (option_map fst (check (demo_tasks [Some 8; Some 6; Some 7; Some 9] [None; Some 7]) true 3 2 []) = Some true) /\
  (option_map fst (check (demo_tasks [None; Some 6; Some 7; None] []) true 3 2 []) = Some false).
Proof. vm_compute. repeat split; reflexivity. Qed.
Print Assumptions make_stamp_exact. Print Assumptions scene_stamp_exact. Print Assumptions other_tasks_keep. Print Assumptions stale_exact. Print Assumptions none_stale. Print Assumptions task_in_path_refuted. Print Assumptions sigdata_path_refuted.
Print Assumptions clean_stamps_exact. Print Assumptions clean_keeps_signatures. Print Assumptions clean_keeps_others. Print Assumptions check_stamp_exact. Print Assumptions check_stamp_ends. Print Assumptions check_direct. Print Assumptions nothing_newer.
