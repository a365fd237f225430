From Coq Require Import Ascii String List Bool Arith Lia Permutation.
From Verif Require Import Str_Model Str_Proofs Depvalid_Model Depvalid_Spec.
Import ListNotations.
Open Scope list_scope.

Lemma is_spec a b : is a b = true <-> a = b.
Proof. apply seqb_eq. Qed.
Lemma native_spec pn : is_native_cross pn = true <-> for_build_host pn.
Proof.
  unfold is_native_cross, for_build_host. rewrite !orb_true_iff, !endswith_iff, !contains_sub_iff. tauto.
Qed.
Lemma accounts_spec pn : existsb (fun e => endswith e pn) [s_ "shadow-native"; s_ "shadow-sysroot"; s_ "base-passwd"; s_ "pseudo-native"] = true <-> sets_up_accounts pn.
Proof.
  rewrite existsb_exists. unfold sets_up_accounts. split.
  - intros (e & I & E). apply endswith_iff in E. destruct E as [a ->]. eauto.
  - intros (a & e & -> & I). exists e. split; [exact I|]. apply endswith_iff. eauto.
Qed.

Definition accounts (pn : str) : bool := existsb (fun e => endswith e pn) [s_ "shadow-native"; s_ "shadow-sysroot"; s_ "base-passwd"; s_ "pseudo-native"].
Definition packsb (t : str) : bool := mem_str t [s_ "do_package"; s_ "do_packagedata"; s_ "do_package_qa"].
Definition uselessb (ex : str -> str -> bool) (tp tn dp dn : str) : bool :=
  mem_str dn directtasks
  || (is tn (s_ "do_package") && (packsb dn || mem_str dn package_write))
  || (is tn (s_ "do_populate_sysroot") && (packsb dn || is dn (s_ "do_deploy")))
  || (is_native_cross dp && (packsb dn || (mem_str dn package_write && negb (is tn (s_ "do_populate_sysroot")))))
  || ((is tn (s_ "do_package") || is tn (s_ "do_populate_sysroot")) && accounts dp && is dn (s_ "do_populate_sysroot"))
  || (is tn (s_ "do_populate_sysroot") && is dn (s_ "do_populate_sysroot") && ex dp tp)
  || (is tn (s_ "do_populate_sysroot") && is dn (s_ "do_populate_sysroot") && is_native_cross tp && negb (is tp (s_ "shadow-native")) && negb (is_native_cross dp) && negb (is dp (s_ "meta-extsdk-toolchain"))).
Lemma not_is a b : negb (is a b) = true <-> a <> b.
Proof. rewrite negb_true_iff. split; [intros H E; apply is_spec in E; congruence|intros H; destruct (is a b) eqn:E; [apply is_spec in E; contradiction|auto]]. Qed.
Lemma not_native a : negb (is_native_cross a) = true <-> ~ for_build_host a.
Proof. rewrite negb_true_iff, <- native_spec. destruct (is_native_cross a); split; congruence. Qed.
Lemma uselessb_spec ex tp tn dp dn : uselessb ex tp tn dp dn = true <-> useless ex tp tn dp dn.
Proof.
  unfold uselessb. rewrite !orb_true_iff, !andb_true_iff, !orb_true_iff, !andb_true_iff, !not_is, !not_native, !is_spec, !native_spec. unfold accounts, packsb. rewrite accounts_spec, !mem_str_In.
  fold (packs dn). fold (only_direct dn). fold (writes_packages dn). split.
  - intros [[[[[[H|[H1 H2]]|[H1 H2]]|[H1 H2]]|[[H1 H2] H3]]|[[H1 H2] H3]]|[[[[[H1 H2] H3] H4] H5] H6]].
    + now apply u_direct.
    + now apply u_package.
    + now apply u_sysroot.
    + apply u_host; tauto.
    + now apply u_accounts.
    + now apply u_excluded.
    + now apply u_tools.
  - intros [H|H1 H2|H1 H2|H1 H2|H1 H2 H3|H1 H2 H3|H1 H2 H3 H4 H5 H6]; tauto.
Qed.
Definition dep_names : list str := directtasks ++ package_write ++ [s_ "do_package"; s_ "do_packagedata"; s_ "do_package_qa"; s_ "do_deploy"; s_ "do_populate_sysroot"].
Ltac lits := repeat match goal with
  | |- context [mem_str (s_ ?x) ?l] => let b := eval vm_compute in (mem_str (s_ x) l) in change (mem_str (s_ x) l) with b
  | |- context [is (s_ ?x) (s_ ?y)] => let b := eval vm_compute in (is (s_ x) (s_ y)) in change (is (s_ x) (s_ y)) with b
  end.
Lemma notin_sub (x : str) l l' : ~ In x l -> incl l' l -> mem_str x l' = false.
Proof. intros N I. apply mem_str_false. intros H. apply N, I, H. Qed.
Lemma notin_is (x y : str) l : ~ In x l -> In y l -> is x y = false.
Proof. intros N I. destruct (is x y) eqn:E; [|auto]. apply is_spec in E. subst. contradiction. Qed.
Lemma consider_spec ex t d : consider ex t d = Next <-> useless ex (t_pn t) (t_name t) (t_pn d) (t_name d).
Proof.
  rewrite <- uselessb_spec. destruct t as [tp tn]. destruct d as [dp dn]. unfold consider, uselessb, packsb. cbn [t_pn t_name]. fold (accounts dp).
  assert (T : tn = s_ "do_package" \/ tn = s_ "do_populate_sysroot" \/ (is tn (s_ "do_package") = false /\ is tn (s_ "do_populate_sysroot") = false)).
  { destruct (is tn (s_ "do_package")) eqn:E1; [apply is_spec in E1; auto|]. destruct (is tn (s_ "do_populate_sysroot")) eqn:E2; [apply is_spec in E2; auto|]. auto. }
  destruct (in_dec str_eq_dec dn dep_names) as [I|N].
  - unfold dep_names, directtasks, package_write in I. cbn [app In] in I.
    destruct T as [->|[->|[E1 E2]]]; [| |rewrite E1, E2]; repeat (destruct I as [<-|I]; [lits; cbn [andb orb negb]; try tauto; destruct (is_native_cross dp), (is_native_cross tp), (accounts dp), (ex dp tp), (is dp (s_ "meta-extsdk-toolchain")), (is tp (s_ "shadow-native")); cbn [andb orb negb]; split; congruence|]); destruct I.
  - rewrite !(notin_is dn _ _ N) by (vm_compute; tauto). rewrite !(notin_sub dn dep_names) by (first [exact N|intros x; vm_compute; tauto]). rewrite !andb_false_r. cbn [andb orb]. rewrite ?andb_false_r. cbn [andb orb]. split; discriminate.
Qed.
Section S.
  Variable ex : str -> str -> bool.
  Variable info : nat -> task.
  Lemma existsb_nat d l : existsb (Nat.eqb d) l = true <-> In d l.
  Proof. rewrite existsb_exists. split; [intros (x & I & E); apply Nat.eqb_eq in E; now subst|intros I; exists d; split; [auto|apply Nat.eqb_refl]]. Qed.
  Lemma any_need_spec t nn ds : any_need ex info t nn ds = true <-> exists d, In d ds /\ d <> t /\ ~ In d nn /\ ~ useless ex (t_pn (info t)) (t_name (info t)) (t_pn (info d)) (t_name (info d)).
  Proof.
    induction ds as [|d ds IH]; cbn [any_need]; [split; [discriminate|intros (d & [] & _)]|].
    assert (R : forall P : nat -> Prop, ~ P d -> ((exists x, In x ds /\ P x) <-> exists x, In x (d :: ds) /\ P x)).
    { intros P NP. split; intros (x & I & Q); exists x; (split; [|exact Q]); [now right|]. destruct I as [<-|I]; [contradiction|exact I]. }
    destruct (Nat.eqb_spec t d) as [<-|NE]; [rewrite IH; apply R; tauto|]. destruct (existsb (Nat.eqb d) nn) eqn:E; [apply existsb_nat in E; rewrite IH; apply R; tauto|].
    destruct (consider ex (info t) (info d)) eqn:C; [apply consider_spec in C; rewrite IH; apply R; tauto|]. split; [intros _|reflexivity]. exists d. split; [now left|]. split; [congruence|]. split; [intros I; apply existsb_nat in I; congruence|].
    intros U. apply consider_spec in U. congruence.
  Qed.
End S.
