(** The package repositories isar-apt (C69) and base-apt (C70), and their configuration (C71). *)
From Coq Require Import String Ascii List Bool Arith Lia Permutation.
From Verif Require Import Str_Model Str_Proofs Vercmp_Model Vercmp_Proofs Repo_Model Repo_Spec Repo_Proofs.
Import ListNotations.
Open Scope list_scope.

(** ** C69: after a recipe is deployed, isar-apt holds the newest of its packages, whatever was there before (also a
    newer version, or other bytes of the same version), and the packages of other recipes are as they were *)
Theorem deploy_exact : forall newer ds idx, version_order newer -> unambiguous ds -> one_each idx ->
  exists idx', do_deploy_deb newer ds idx = Some idx' /\ one_each idx' /\
    (forall n a x, has_key ds n a -> (holds idx' n a x <-> newest newer (fun q => In q ds) n a x)) /\
    (forall n a x, ~ has_key ds n a -> (holds idx' n a x <-> holds idx n a x)).
Proof. intros newer ds idx VO U O. apply (deploy_prefix newer VO ds ds idx U O). auto. Qed.
(** Stopping the task at any command, any number of times, makes no difference *)
Theorem deploy_restart : forall newer ns ds idx, version_order newer -> unambiguous ds -> one_each idx ->
  exists idx1 idx2, interrupted newer ns ds idx = Some idx1 /\ do_deploy_deb newer ds idx = Some idx2 /\
    forall n a x, holds idx1 n a x <-> holds idx2 n a x.
Proof.
  intros newer ns ds idx VO U O. destruct (deploy_exact newer ds idx VO U O) as (idx2 & E2 & _ & H2 & H2').
  enough (X : exists idx1, interrupted newer ns ds idx = Some idx1 /\
     (forall n a x, has_key ds n a -> (holds idx1 n a x <-> newest newer (fun q => In q ds) n a x)) /\
     (forall n a x, ~ has_key ds n a -> (holds idx1 n a x <-> holds idx n a x))).
  { destruct X as (idx1 & E1 & H1 & H1'). exists idx1, idx2. split; auto. split; auto. intros n a x. destruct (has_key_dec ds n a) as [K|K]; [now rewrite H1, H2|now rewrite H1', H2']. }
  clear H2 H2' E2 idx2. revert idx O. induction ns as [|k ns IH]; intros idx O; cbn [interrupted].
  - destruct (deploy_exact newer ds idx VO U O) as (idx2 & E2 & _ & H2 & H2'). eauto.
  - assert (P : exists idx1, exec_all newer (firstn k (deploy_cmds ds)) idx = Some idx1 /\ one_each idx1 /\ forall n a x, ~ has_key ds n a -> (holds idx1 n a x <-> holds idx n a x)).
    { unfold deploy_cmds. rewrite firstn_app, map_length, !firstn_map. destruct (Nat.le_gt_cases (length ds) k) as [L|L].
      - rewrite (firstn_all2 ds) by exact L. destruct (deploy_prefix newer VO ds (firstn (k - length ds) ds) idx U O) as (i & E & Oi & _ & H).
        { intros x X. rewrite <- (firstn_skipn (k - length ds) ds). apply in_or_app. now left. }
        exists i. auto.
      - replace (k - length ds) with 0 by lia. cbn [firstn map]. rewrite app_nil_r. destruct (exec_dels newer (firstn k ds) idx) as (i & E & Oi & H). exists i. split; auto. split; auto.
        intros n a x N. unfold holds. rewrite H. split; [tauto|]. intros (I & K1 & K2). split; [|auto]. split; auto. intros (q & Q & Q1 & Q2). apply N. exists q. split; [|split; congruence].
        rewrite <- (firstn_skipn k ds). apply in_or_app. now left. }
    destruct P as (idx1 & E1 & O1 & H1). rewrite E1. destruct (IH idx1 O1) as (i & E & H & H'). exists i. split; auto. split; auto. intros n a x N. rewrite H' by exact N. now apply H1.
Qed.
(** After any history of tasks, of any recipes in any order, each package is the one of the last task that deployed it *)
Theorem deploy_history : forall newer h idx, version_order newer -> Forall unambiguous h -> one_each idx ->
  exists idx', deploys newer h idx = Some idx' /\ one_each idx' /\
    (forall h1 ds h2 n a x, h = h1 ++ ds :: h2 -> has_key ds n a -> (forall d, In d h2 -> ~ has_key d n a) ->
       (holds idx' n a x <-> newest newer (fun q => In q ds) n a x)) /\
    (forall n a x, (forall d, In d h -> ~ has_key d n a) -> (holds idx' n a x <-> holds idx n a x)).
Proof.
  intros newer h idx VO U. revert idx. induction U as [|ds h Ud U IH]; intros idx O; cbn [deploys].
  - exists idx. split; auto. split; auto. split; [intros h1 ds h2 n a x E; now destruct h1|tauto].
  - destruct (deploy_exact newer ds idx VO Ud O) as (i & E & Oi & H & H'). rewrite E. destruct (IH i Oi) as (i' & E' & Oi' & G & G'). exists i'. split; auto. split; auto. split.
    + intros [|d h1] ds' h2 n a x EQ K N; injection EQ as -> ->; [|now apply (G h1 ds' h2)]. rewrite G' by exact N. now apply H.
    + intros n a x N. rewrite G' by (intros d D; apply N; now right). apply H'. apply N. now left.
Qed.

(** An order of versions for the examples *)
Definition ex_newer (v w : str) : bool := str_ltb w v.
Lemma ex_order : version_order ex_newer.
Proof.
  unfold ex_newer. split; [intros v; apply str_ltb_irrefl|]. split; [intros u v w A B; eapply str_ltb_trans; eauto|].
  intros v w N. destruct (str_ltb w v) eqn:A; auto. destruct (str_ltb v w) eqn:B; auto. exfalso. apply N. now apply str_ltb_total.
Qed.
Definition ex_pkg (n v d : string) : pkg := {| k_name := s_ n; k_arch := s_ "amd64"; k_ver := s_ v; k_data := s_ d |}.
(** Nothing removes the packages of earlier builds from the work directory, and all of them are deployed: after going
    back from version 2 to version 1, isar-apt still holds version 2. *)
Theorem deploy_last_build_refuted : exists old new idx',
  unambiguous (build [new] (build [old] [])) /\ k_name old = k_name new /\ k_arch old = k_arch new /\
  do_deploy_deb ex_newer (build [new] (build [old] [])) [] = Some idx' /\ holds idx' (k_name new) (k_arch new) old /\ ~ In new idx'.
Proof.
  exists (ex_pkg "app" "2" "x"), (ex_pkg "app" "1" "y"). eexists. split; [|split; [reflexivity|split; [reflexivity|split; [vm_compute; reflexivity|split]]]].
  - intros p q [<-|[<-|[]]] [<-|[<-|[]]]; auto; cbn; intros; discriminate.
  - split; [now left|]. split; reflexivity.
  - cbn. intros [X|[]]. discriminate.
Qed.
(** A package that a recipe no longer builds stays in isar-apt: only packages of the names that are deployed are removed. *)
Theorem deploy_renamed_refuted : exists d1 d2 idx',
  deploys ex_newer [[d1]; [d2]] [] = Some idx' /\ k_name d1 <> k_name d2 /\ In d1 idx'.
Proof.
  exists (ex_pkg "libx1" "1" "x"), (ex_pkg "libx2" "2" "y"). eexists. split; [vm_compute; reflexivity|]. split; [discriminate|]. right. now left.
Qed.

(** ** C70: base-apt holds the newest version of each package among those it had and those downloaded; a downloaded
    file takes the place of one of the same version with other bytes *)
Theorem base_apt_exact : forall newer fs idx, version_order newer -> unambiguous fs -> one_each idx ->
  exists idx', populate newer fs idx = Some idx' /\ one_each idx' /\
    forall n a x, holds idx' n a x <-> newest newer (offered fs idx) n a x.
Proof. intros newer fs idx VO U O. now apply populate_all. Qed.
(** The order in which the files are found makes no difference *)
Theorem base_apt_order : forall newer fs fs' idx i i', version_order newer -> unambiguous fs -> one_each idx -> Permutation fs fs' ->
  populate newer fs idx = Some i -> populate newer fs' idx = Some i' -> forall n a x, holds i n a x <-> holds i' n a x.
Proof.
  intros newer fs fs' idx i i' VO U O P E E' n a x.
  assert (U' : unambiguous fs') by (intros p q A B; apply U; now apply (Permutation_in _ (Permutation_sym P))).
  destruct (base_apt_exact newer fs idx VO U O) as (j & F & _ & H). destruct (base_apt_exact newer fs' idx VO U' O) as (j' & F' & _ & H').
  rewrite E in F. injection F as <-. rewrite E' in F'. injection F' as <-. rewrite H, H'.
  assert (X : forall y, offered fs idx y <-> offered fs' idx y).
  { intros y. assert (M : forall z, In z fs <-> In z fs') by (intros z; split; apply Permutation_in; auto using Permutation_sym). unfold offered. setoid_rewrite M. reflexivity. }
  unfold newest. setoid_rewrite X. reflexivity.
Qed.
(** A second run changes nothing *)
Theorem base_apt_again : forall newer fs idx i, version_order newer -> unambiguous fs -> one_each idx ->
  populate newer fs idx = Some i -> exists j, populate newer fs i = Some j /\ forall n a x, holds j n a x <-> holds i n a x.
Proof.
  intros newer fs idx i VO U O E. destruct (base_apt_exact newer fs idx VO U O) as (i0 & F & Oi & H). rewrite E in F. injection F as <-.
  destruct (base_apt_exact newer fs i VO U Oi) as (j & Fj & Oj & Hj). exists j. split; auto. intros n a x. rewrite Hj, H.
  assert (IN : forall y, In y i <-> newest newer (offered fs idx) (k_name y) (k_arch y) y) by (intros y; rewrite <- H; unfold holds; tauto).
  assert (SUB : forall y, offered fs i y -> offered fs idx y) by (intros y [Y|[Y _]]; [now left|apply IN in Y; apply Y]).
  assert (SUP : forall y, newest newer (offered fs idx) (k_name y) (k_arch y) y -> offered fs i y).
  { intros y Y. pose proof (proj2 (IN y) Y) as Yi. destruct Y as (([Y|[_ Y]] & _) & _); [now left|now right]. }
  split.
  - intros ((X & N & A) & M). split; [split; auto|]. intros q Q QN QA. destruct (newer (k_ver q) (k_ver x)) eqn:W; auto. exfalso.
    destruct (newest_exists newer VO fs idx (k_name q) (k_arch q) q) as (z & Z); auto. pose proof Z as ((Z0 & ZN & ZA) & ZM).
    assert (ZX : newer (k_ver z) (k_ver x) = true) by (apply (not_newer_trans newer VO (k_ver q)); auto).
    rewrite (M z) in ZX; [discriminate| |congruence|congruence]. apply SUP. now rewrite ZN, ZA.
  - intros ((X & N & A) & M). split; [split; auto|].
    + apply SUP. rewrite N, A. split; auto.
    + intros q Q. now apply M, SUB.
Qed.
(** Nothing is lost: whatever base-apt held or was downloaded, it then holds that package or another of that name and
    architecture that is not older *)
Theorem base_apt_keeps : forall newer fs idx i q, version_order newer -> unambiguous fs -> one_each idx ->
  populate newer fs idx = Some i -> In q fs \/ In q idx ->
  exists x, holds i (k_name q) (k_arch q) x /\ newer (k_ver q) (k_ver x) = false.
Proof.
  intros newer fs idx i q VO U O E Q. destruct (base_apt_exact newer fs idx VO U O) as (i0 & F & Oi & H). rewrite E in F. injection F as <-.
  assert (X : exists f, offered fs idx f /\ same_pool_file f q).
  { destruct Q as [Q|Q]; [exists q; split; [now left|repeat split]|]. destruct (shadowed_dec fs q) as [(f & Ff & K)|N]; [exists f; split; [now left|auto]|exists q; split; [now right|repeat split]]. }
  destruct X as (f & Of & (K1 & K2 & K3)). destruct (newest_exists newer VO fs idx (k_name q) (k_arch q) f) as (z & Z); auto. exists z. split; [now apply H|]. rewrite <- K3. now apply Z.
Qed.
(** What the query answers: the same file is there, another file of that name, version and architecture, or none *)
Theorem contains_exact : forall p idx,
  (repo_contains_package p idx = 0 -> In p idx) /\
  (repo_contains_package p idx = 1 -> exists q, In q idx /\ same_pool_file p q /\ k_data q <> k_data p) /\
  (repo_contains_package p idx = 2 <-> forall q, In q idx -> ~ same_pool_file p q) /\ repo_contains_package p idx <= 2.
Proof.
  intros p idx. pose proof (contains_spec p idx) as C. assert (L : repo_contains_package p idx <= 2).
  { unfold repo_contains_package. destruct (find _ idx); [destruct (seqb _ _)|]; auto. }
  destruct (repo_contains_package p idx) as [|[|[|k]]]; try (exfalso; lia).
  - split; auto. split; [discriminate|]. split; auto. split; [discriminate|]. intros X. exfalso. apply (X p C). repeat split.
  - split; [discriminate|]. split; auto. split; auto. split; [discriminate|]. intros X. exfalso. destruct C as (q & Q & K & _). apply (X q Q K).
  - split; [discriminate|]. split; [discriminate|]. split; [|auto]. split; auto.
Qed.

(** ** C71: the configuration of a repository *)
(** The text a new repository is to be configured with *)
Definition conf_text (c : config) (t : str) : Prop := exists sign extra, t = c_text c ++ sign ++ extra /\
  (c_keys c = [] -> sign = []) /\ (c_keys c <> [] -> sign = s_ "SignWith: " ++ concat (map (fun k => k ++ s_ " ") (c_keys c)) ++ [nl]) /\
  (c_extra c = [] -> extra = []) /\ (c_extra c <> [] -> extra = c_extra c ++ [nl]).
Theorem create_exact : forall c r, r_conf r = None -> exists t, r_conf (create c r) = Some t /\ conf_text c t /\ r_db (create c r) = true.
Proof.
  intros c r N.
  set (sign := match c_keys c with [] => [] | _ => s_ "SignWith: " ++ concat (map (fun k => k ++ s_ " ") (c_keys c)) ++ [nl] end).
  set (extra := match c_extra c with [] => [] | _ => c_extra c ++ [nl] end).
  exists (c_text c ++ sign ++ extra). split; [|split].
  - unfold create, repo_create, sign, extra. rewrite N. destruct (c_keys c), (c_extra c), (r_db r); cbn [do_acts fold_left do_act r_conf app]; rewrite ?app_nil_r, <- ?app_assoc; auto.
  - exists sign, extra. split; auto. unfold sign, extra. destruct (c_keys c), (c_extra c); repeat split; auto; try congruence; discriminate.
  - unfold create, repo_create. rewrite N. destruct (c_keys c), (c_extra c), (r_db r) eqn:D; cbn; auto.
Qed.
(** A repository that is there is left as it is *)
Theorem create_again : forall c c' r, create c' (create c r) = create c r.
Proof.
  intros c c' r. assert (X : (exists t, r_conf (create c r) = Some t) /\ r_db (create c r) = true).
  { destruct (r_conf r) as [t|] eqn:N; [|destruct (create_exact c r N) as (t & T & _ & D); eauto]. unfold create, repo_create. rewrite N. destruct (r_db r) eqn:D; cbn; rewrite ?N, ?D; eauto. }
  destruct X as ((t & T) & D). unfold create at 1, repo_create. now rewrite T, D.
Qed.
(** isar-apt: the configuration is what the recipe says now, whatever was there and however often the task was stopped *)
Theorem cache_config_exact : forall c ns r, let r' := fold_left (fun r n => cache_config_stopped c n r) ns r in
  exists t, r_conf (cache_config c r') = Some t /\ conf_text c t /\ r_db (cache_config c r') = true.
Proof. intros c ns r r'. unfold cache_config. now apply create_exact. Qed.
(** base-apt: a task stopped after the first write leaves a configuration without the keys, and nothing completes it:
    the repository stays unsigned. *)
Theorem create_restart_refuted : exists c n r, r_conf r = None /\ c_keys c <> [] /\
  forall c', exists t, r_conf (create c' (create_stopped c n r)) = Some t /\ t = c_text c /\ ~ conf_text c t.
Proof.
  exists {| c_text := s_ "Codename: x"; c_keys := [s_ "ABCD"]; c_extra := [] |}, 1, {| r_conf := None; r_db := false |}.
  split; auto. split; [discriminate|]. intros c'. eexists. split; [reflexivity|]. split; [reflexivity|]. intros (sign & extra & T & _ & S & _). rewrite S in T by discriminate.
  apply (f_equal (@length _)) in T. cbn in T. rewrite ?app_length in T. cbn in T. lia.
Qed.
(** base-apt: keys given later are not used, since the file exists *)
Theorem create_new_keys_refuted : exists c c' r t, r_conf r = None /\ r_conf (create c' (create c r)) = Some t /\ c_keys c' <> [] /\ ~ conf_text c' t.
Proof.
  exists {| c_text := s_ "Codename: x"; c_keys := []; c_extra := [] |}, {| c_text := s_ "Codename: x"; c_keys := [s_ "ABCD"]; c_extra := [] |}, {| r_conf := None; r_db := false |}.
  eexists. split; auto. split; [reflexivity|]. split; [discriminate|]. intros (sign & extra & T & _ & S & _). rewrite S in T by discriminate.
  apply (f_equal (@length _)) in T. cbn in T. rewrite ?app_length in T. cbn in T. lia.
Qed.

(** ** The copy of isar-apt a build uses: every file of the repository is in it *)
Theorem local_copy_complete : forall repo copy p v, file_at p repo = Some v -> file_at p (local_isarapt repo copy) = Some v.
Proof.
  intros repo copy p v. unfold local_isarapt, copy_over. induction repo as [|[k w] repo IH]; cbn [file_at app]; [discriminate|]. destruct (seqb p k); auto.
Qed.
(** The quoted star keeps the shell from expanding it, so that what was copied before stays: a package that has been
    removed from isar-apt is still in the copy. *)
Theorem local_copy_exact_refuted : exists repo1 repo2 p v, file_at p repo2 = None /\
  file_at p (local_isarapt repo2 (local_isarapt repo1 [])) = Some v.
Proof. exists [(s_ "pool/a.deb", s_ "x")], [(s_ "pool/b.deb", s_ "y")], (s_ "pool/a.deb"), (s_ "x"). split; vm_compute; reflexivity. Qed.

(** ** The hypotheses are met *)
Example deploy_example : let ds := [ex_pkg "app" "1" "new"; ex_pkg "app-dev" "1" "d"] in let idx := [ex_pkg "app" "3" "old"; ex_pkg "lib" "2" "l"] in
  unambiguous ds /\ one_each idx /\ do_deploy_deb ex_newer ds idx = Some [ex_pkg "app-dev" "1" "d"; ex_pkg "app" "1" "new"; ex_pkg "lib" "2" "l"] /\
  interrupted ex_newer [1; 3; 2] ds idx = Some [ex_pkg "app-dev" "1" "d"; ex_pkg "app" "1" "new"; ex_pkg "lib" "2" "l"].
Proof.
  split; [|split; [|split; vm_compute; reflexivity]].
  - intros p q [<-|[<-|[]]] [<-|[<-|[]]]; auto; cbn; intros; discriminate.
  - intros p q [<-|[<-|[]]] [<-|[<-|[]]]; auto; cbn; intros; discriminate.
Qed.
Example base_apt_example : let fs := [ex_pkg "a" "2" "x"; ex_pkg "a" "1" "y"; ex_pkg "b" "1" "new"] in let idx := [ex_pkg "b" "1" "old"; ex_pkg "c" "1" "c"] in
  unambiguous fs /\ one_each idx /\ populate ex_newer fs idx = Some [ex_pkg "b" "1" "new"; ex_pkg "a" "2" "x"; ex_pkg "c" "1" "c"].
Proof.
  split; [|split; [|vm_compute; reflexivity]].
  - intros p q [<-|[<-|[<-|[]]]] [<-|[<-|[<-|[]]]]; auto; cbn; intros; discriminate.
  - intros p q [<-|[<-|[]]] [<-|[<-|[]]]; auto; cbn; intros; discriminate.
Qed.

Print Assumptions deploy_exact.
Print Assumptions deploy_restart.
Print Assumptions deploy_history.
Print Assumptions base_apt_exact.
Print Assumptions base_apt_order.
Print Assumptions base_apt_again.
Print Assumptions base_apt_keeps.
Print Assumptions contains_exact.
Print Assumptions create_exact.
Print Assumptions create_again.
Print Assumptions cache_config_exact.
Print Assumptions local_copy_complete.
