(** Which prebuilt tasks are skipped: the claims. *)
From Coq Require Import Ascii String List Bool Arith Lia Permutation.
From Verif Require Import Str_Model Str_Proofs Depvalid_Model Depvalid_Spec Depvalid_Proofs.
Import ListNotations.
Open Scope list_scope.

(** ** C113 *)
(** A prebuilt task is skipped exactly if it is of no use to any task that depends on
    it and is not skipped itself (the task is among its own dependees). *)
Theorem depvalid_exact : forall excluded info t dependees notneeded, In t dependees ->
  (setscene_depvalid excluded info t dependees notneeded = true <->
   only_direct (t_name (info t)) \/
   (t_name (info t) <> s_ "do_packagedata" /\
    forall d, In d dependees -> d <> t -> In d notneeded \/ useless excluded (t_pn (info t)) (t_name (info t)) (t_pn (info d)) (t_name (info d)))).
Proof.
  intros ex info t ds nn IT. unfold setscene_depvalid. destruct (mem_str (t_name (info t)) directtasks) eqn:E1.
  - apply mem_str_In in E1. split; [intros _; left; exact E1|reflexivity].
  - assert (ND : ~ only_direct (t_name (info t))) by (intros H; apply mem_str_In in H; unfold directtasks in E1; congruence).
    destruct (is (t_name (info t)) (s_ "do_packagedata")) eqn:E2.
    + apply is_spec in E2. split; [|intros [H|[H _]]; contradiction]. rewrite negb_true_iff. intros H. exfalso.
      assert (X : existsb (fun d => is (t_name (info d)) (s_ "do_packagedata")) ds = true) by (apply existsb_exists; exists t; split; [exact IT|now apply is_spec]). congruence.
    + assert (NP : t_name (info t) <> s_ "do_packagedata") by (intros H; apply is_spec in H; congruence). rewrite negb_true_iff. split.
      * intros H. right. split; [exact NP|]. intros d I N. destruct (in_dec Nat.eq_dec d nn) as [J|J]; [now left|]. right.
        destruct (uselessb ex (t_pn (info t)) (t_name (info t)) (t_pn (info d)) (t_name (info d))) eqn:U; [now apply uselessb_spec|]. exfalso.
        assert (X : any_need ex info t nn ds = true); [|congruence]. apply any_need_spec. exists d. repeat split; auto. intros K. apply uselessb_spec in K. congruence.
      * intros [H|[_ H]]; [contradiction|]. destruct (any_need ex info t nn ds) eqn:A; [|reflexivity]. apply any_need_spec in A. destruct A as (d & I & N & J & U). destruct (H d I N); contradiction.
Qed.
(** For the tasks of Isar, which have no rules of their own: skipped exactly if every
    other task that depends on it is skipped, names what it needs itself, or packs a
    recipe for the build host. *)
Theorem ordinary_tasks : forall excluded info t dependees notneeded, In t dependees -> ~ oe_rules (t_name (info t)) ->
  (setscene_depvalid excluded info t dependees notneeded = true <->
   forall d, In d dependees -> d <> t -> In d notneeded \/ only_direct (t_name (info d)) \/
     (for_build_host (t_pn (info d)) /\ (packs (t_name (info d)) \/ writes_packages (t_name (info d))))).
Proof.
  intros ex info t ds nn IT NR. rewrite depvalid_exact by exact IT. unfold oe_rules in NR.
  assert (N1 : t_name (info t) <> s_ "do_packagedata") by (intros H; apply NR; right; rewrite H; now left).
  assert (N2 : t_name (info t) <> s_ "do_package") by (intros H; apply NR; right; rewrite H; right; now left).
  assert (N3 : t_name (info t) <> s_ "do_populate_sysroot") by (intros H; apply NR; right; rewrite H; right; right; now left).
  split.
  - intros [H|[_ H]]; [exfalso; apply NR; now left|]. intros d I N. destruct (H d I N) as [J|U]; [now left|]. right. destruct U as [U|U _|U _|U1 U2|[U|U] _ _|U _ _|U _ _ _ _ _]; try contradiction; [now left|]. right. tauto.
  - intros H. right. split; [exact N1|]. intros d I N. destruct (H d I N) as [J|[U|[U1 U2]]]; [now left| |]; right; [now apply u_direct|]. apply u_host; tauto.
Qed.
(** do_packagedata is meant to be skipped unless another do_packagedata depends on it;
    as the task is among its own dependees it never is. *)
Theorem packagedata_refuted : forall excluded info t dependees notneeded, In t dependees -> t_name (info t) = s_ "do_packagedata" ->
  setscene_depvalid excluded info t dependees notneeded = false.
Proof.
  intros ex info t ds nn IT E. destruct (setscene_depvalid ex info t ds nn) eqn:V; [|reflexivity]. apply depvalid_exact in V; [|exact IT]. destruct V as [V|[V _]]; [|contradiction].
  rewrite E in V. cbn in V. repeat destruct V as [V|V]; try discriminate. contradiction.
Qed.
(** The tasks are visited as they become ready: all that depend on a task before it. *)
Definition dependees_first (revdeps : nat -> list nat) (ts : list nat) : Prop := forall a t b, ts = a ++ t :: b -> incl (revdeps t) a.
Lemma visit_keeps ex info sk rv order ts : forall nn x, ~ In x ts -> (In x (fold_left (visit ex info sk rv order) ts nn) <-> In x nn).
Proof.
  induction ts as [|t ts IH]; intros nn x N; [reflexivity|]. cbn. rewrite IH by (intros I; apply N; now right). unfold visit. destruct (_ && _); [|reflexivity]. split; [intros [<-|I]; [exfalso; apply N; now left|exact I]|intros I; now right].
Qed.
(** Whatever the order: a task is skipped exactly if it may be, something depends on
    it, and it is of no use to the tasks that depend on it and are not skipped. *)
Theorem skipped_exact : forall excluded info skippable revdeps order ts, (forall l, Permutation (order l) l) -> NoDup ts -> dependees_first revdeps ts ->
  forall t, In t ts ->
  (In t (skipped excluded info skippable revdeps order ts) <->
   skippable t = true /\ revdeps t <> [] /\
   (only_direct (t_name (info t)) \/
    (t_name (info t) <> s_ "do_packagedata" /\ forall d, In d (revdeps t) -> In d (skipped excluded info skippable revdeps order ts) \/
       useless excluded (t_pn (info t)) (t_name (info t)) (t_pn (info d)) (t_name (info d))))).
Proof.
  intros ex info sk rv order ts PO ND DF t IT. unfold skipped. apply in_split in IT. destruct IT as (a & b & E). pose proof (DF a t b E) as IN. subst ts. rewrite fold_left_app. cbn [fold_left].
  pose proof (NoDup_remove_2 _ _ _ ND) as NT. rewrite in_app_iff in NT. pose proof (visit_keeps ex info sk rv order) as VK. set (v := visit ex info sk rv order) in *. set (nn := fold_left v a []) in *.
  assert (TB : forall x, In x a \/ x = t -> ~ In x b).
  { intros x [I| ->]; [|tauto]. intros I'. apply in_split in I. destruct I as (a1 & a2 & ->). rewrite <- app_assoc in ND. apply NoDup_remove_2 in ND. apply ND. rewrite !in_app_iff. right. right. now right. }
  assert (K1 : In t (fold_left v b (v nn t)) <-> In t (v nn t)) by (apply VK; apply TB; auto).
  assert (NNT : ~ In t nn) by (unfold nn; rewrite VK; [intros []|tauto]).
  assert (K2 : forall d, In d (rv t) -> (In d (fold_left v b (v nn t)) <-> In d nn)).
  { intros d I. apply IN in I. rewrite VK by (apply TB; auto). unfold v, visit. destruct (_ && _); [|reflexivity]. split; [intros [<-|J]; [tauto|exact J]|intros J; now right]. }
  rewrite K1.
  assert (CD : check_dependencies ex info order t (rv t) nn = true <-> only_direct (t_name (info t)) \/
    (t_name (info t) <> s_ "do_packagedata" /\ forall d, In d (rv t) -> In d (fold_left v b (v nn t)) \/ useless ex (t_pn (info t)) (t_name (info t)) (t_pn (info d)) (t_name (info d)))).
  { unfold check_dependencies. rewrite depvalid_exact by (rewrite PO; now left). split; (intros [H|[N H]]; [now left|right; split; [exact N|]]).
    - intros d I. rewrite K2 by exact I. apply H; [rewrite PO; now right|]. intros ->. apply IN in I. tauto.
    - intros d I NE. rewrite PO in I. destruct I as [<-|I]; [contradiction|]. rewrite <- (K2 d I). now apply H. }
  rewrite <- CD. unfold v, visit. destruct (sk t); cbn [andb]; [|split; [intros J; contradiction|intros (J & _); discriminate]].
  destruct (rv t) as [|r rs] eqn:R; cbn [negb andb]; [split; [intros J; contradiction|intros (_ & J & _); contradiction]|].
  destruct (check_dependencies ex info order t (r :: rs) nn); [split; [intros _; repeat split; discriminate|intros _; now left]|]. split; [intros J; contradiction|intros (_ & _ & J); discriminate].
Qed.
(** So the skipped tasks do not depend on the order in which tasks become ready. *)
Theorem skipped_unique : forall excluded info skippable revdeps order order' ts ts',
  (forall l, Permutation (order l) l) -> (forall l, Permutation (order' l) l) -> NoDup ts -> Permutation ts ts' -> dependees_first revdeps ts -> dependees_first revdeps ts' ->
  forall t, In t (skipped excluded info skippable revdeps order ts) <-> In t (skipped excluded info skippable revdeps order' ts').
Proof.
  intros ex info sk rv o o' ts ts' PO PO' ND P DF DF'. assert (ND' : NoDup ts') by (eapply Permutation_NoDup; eauto).
  assert (A : forall n a t b, ts = a ++ t :: b -> length a < n -> (In t (skipped ex info sk rv o ts) <-> In t (skipped ex info sk rv o' ts'))).
  { induction n as [|n IH]; intros a t b E L; [lia|]. assert (IT : In t ts) by (rewrite E; apply in_or_app; right; now left). assert (IT' : In t ts') by now rewrite <- P.
    rewrite (skipped_exact ex info sk rv o ts PO ND DF t IT), (skipped_exact ex info sk rv o' ts' PO' ND' DF' t IT').
    assert (Q : forall d, In d (rv t) -> (In d (skipped ex info sk rv o ts) <-> In d (skipped ex info sk rv o' ts'))).
    { intros d I. apply (DF a t b E) in I. apply in_split in I. destruct I as (a1 & a2 & ->). apply (IH a1 d (a2 ++ t :: b)); [rewrite E, <- app_assoc; reflexivity|]. rewrite app_length in L. cbn in L. lia. }
    split; (intros (S & R & [H|[N H]]); (split; [exact S|split; [exact R|]]); [now left|right; split; [exact N|]]); intros d I; specialize (H d I); specialize (Q d I); tauto. }
  intros t. destruct (in_dec Nat.eq_dec t ts) as [I|N].
  - pose proof I as J. apply in_split in J. destruct J as (a & b & E). exact (A _ a t b E (Nat.lt_succ_diag_r _)).
  - unfold skipped. rewrite visit_keeps by exact N. rewrite visit_keeps by (now rewrite <- P). reflexivity.
Qed.

(** An image needs a package that needs a second package for a build of its own. *)
Definition demo_info (n : nat) : task := nth n [mkTask (s_ "image") (s_ "do_rootfs_install"); mkTask (s_ "hello") (s_ "do_dpkg_build"); mkTask (s_ "lib") (s_ "do_dpkg_build"); mkTask (s_ "doc") (s_ "do_populate_lic")] (mkTask [] []).
Definition demo_rev (n : nat) : list nat := nth n [[]; [0]; [1]; [2]] [].
Example demo_skipped : skipped (fun _ _ => false) demo_info (fun _ => true) demo_rev (@rev nat) [0; 1; 2; 3] = [3].
Proof. vm_compute. reflexivity. Qed.
Example demo_order : dependees_first demo_rev [0; 1; 2; 3] /\ NoDup [0; 1; 2; 3] /\ ~ oe_rules (t_name (demo_info 1)).
Proof.
  split; [|split].
  - intros a t b E. do 4 (destruct a as [|? a]; [injection E; intros; subst; intros q Q; cbn in Q |- *; tauto|]). exfalso. destruct a; discriminate E.
  - repeat constructor; cbn; intuition discriminate.
  - intros [H|H]; cbn in H; repeat destruct H as [H|H]; try discriminate; contradiction.
Qed.
Print Assumptions depvalid_exact. Print Assumptions ordinary_tasks. Print Assumptions packagedata_refuted. Print Assumptions skipped_exact. Print Assumptions skipped_unique.
