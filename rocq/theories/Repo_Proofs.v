From Coq Require Import String Ascii List Bool Arith Lia.
From Verif Require Import Str_Model Str_Proofs Repo_Model Repo_Spec.
Import ListNotations.
Open Scope list_scope.

Lemma same_key_iff n a p : same_key n a p = true <-> k_name p = n /\ k_arch p = a.
Proof. unfold same_key. rewrite andb_true_iff, !seqb_eq. reflexivity. Qed.
Lemma find_key_some n a idx p : find_key n a idx = Some p -> holds idx n a p.
Proof. intros H. apply find_some in H. destruct H as [I K]. apply same_key_iff in K. now split. Qed.
Lemma find_key_none n a idx : find_key n a idx = None -> forall p, ~ holds idx n a p.
Proof. intros H p (I & N & A). apply (find_none _ _ H) in I. rewrite (proj2 (same_key_iff n a p)) in I by auto. discriminate. Qed.
Lemma find_key_holds n a idx p : one_each idx -> holds idx n a p -> find_key n a idx = Some p.
Proof.
  intros O H. destruct (find_key n a idx) as [q|] eqn:E.
  - apply find_key_some in E. f_equal. destruct E as (I & N & A), H as (I' & N' & A'). apply O; congruence.
  - now apply (find_key_none n a idx E p) in H.
Qed.
Lemma drop_in n a idx p : In p (drop_key n a idx) <-> In p idx /\ ~ (k_name p = n /\ k_arch p = a).
Proof. unfold drop_key. rewrite filter_In, negb_true_iff, <- same_key_iff. destruct (same_key n a p); intuition congruence. Qed.
Lemma drop_one n a idx : one_each idx -> one_each (drop_key n a idx).
Proof. intros O p q P Q. apply drop_in in P, Q. now apply O. Qed.

Section Version.
Variable newer : str -> str -> bool.
Hypothesis VO : version_order newer.
Lemma newer_asym v w : newer v w = true -> newer w v = false.
Proof. destruct VO as (I & T & _). intros H. destruct (newer w v) eqn:E; auto. rewrite <- (I v). symmetry. now apply (T v w v). Qed.
Lemma not_newer_trans u v w : newer u v = true -> newer u w = false -> newer w v = true.
Proof.
  destruct VO as (I & T & C). intros A B. destruct (str_eq_dec u w) as [<-|N]; auto. destruct (C u w N) as [X|X]; [congruence|]. now apply (T w u v).
Qed.
(** One step: a package offered to a repository *)
Lemma include_fresh p idx : one_each idx -> (forall q, In q idx -> same_pool_file p q -> p = q) ->
  exists idx', includedeb newer p idx = Some idx' /\ one_each idx' /\ forall n a x, holds idx' n a x <-> newest newer (offered [p] idx) n a x.
Proof.
  intros O U. unfold includedeb. destruct (find_key (k_name p) (k_arch p) idx) as [q|] eqn:F.
  - pose proof (find_key_some _ _ _ _ F) as (Q & QN & QA). destruct (seqb (k_ver p) (k_ver q)) eqn:V.
    + apply seqb_eq in V. assert (p = q) by (apply U; [auto|split; auto]). subst q. rewrite (proj2 (seqb_eq _ _) eq_refl). exists idx. split; auto. split; auto.
      intros n a x. split.
      * intros (I & N & A). split; [split; [|auto]|].
        -- destruct (seqb (k_name p) (k_name x) && seqb (k_arch p) (k_arch x)) eqn:E.
           ++ apply andb_true_iff in E. rewrite !seqb_eq in E. left. left. apply O; auto; tauto.
           ++ right. split; auto. intros (f & [<-|[]] & (X & Y & _)). rewrite X, Y, !(proj2 (seqb_eq _ _) eq_refl) in E. discriminate.
        -- intros y [[<-|[]]|[Y _]] YN YA; [assert (p = x) by (apply O; congruence)|assert (y = x) by (apply O; congruence)]; subst; apply VO.
      * intros ((X & N & A) & _). split; auto. destruct X as [[<-|[]]|[X _]]; auto.
    + assert (VN : k_ver p <> k_ver q) by (intros E; apply seqb_eq in E; congruence). destruct (newer (k_ver p) (k_ver q)) eqn:W.
      * eexists. split; [reflexivity|]. split.
        -- intros x y [<-|X] [<-|Y] E1 E2; auto; try (apply drop_in in X; destruct X as [X X']); try (apply drop_in in Y; destruct Y as [Y Y']);
           [exfalso; apply Y'; split; congruence|exfalso; apply X'; split; congruence|now apply O].
        -- intros n a x. split.
           ++ intros ([<-|X] & N & A).
              ** split; [split; [left; now left|auto]|]. intros y [[<-|[]]|[Y _]] YN YA; [apply VO|]. assert (y = q) by (apply O; congruence). subst y. now apply newer_asym.
              ** apply drop_in in X. destruct X as [X K]. split; [split; [right; split; auto; intros (f & [<-|[]] & (E1 & E2 & _)); apply K; auto|auto]|].
                 intros y [[<-|[]]|[Y _]] YN YA; [exfalso; apply K; split; congruence|]. assert (y = x) by (apply O; congruence). subst. apply VO.
           ++ intros (([[<-|[]]|[X _]] & N & A) & M); [split; [now left|auto]|]. split; [|auto]. right. apply drop_in. split; auto. intros [K1 K2].
              assert (x = q) by (apply O; congruence). subst x. rewrite (M p) in W; [discriminate|left; now left|congruence|congruence].
      * eexists. split; [reflexivity|]. split; auto. intros n a x. split.
        -- intros (X & N & A). split; [split; [|auto]|].
           ++ right. split; auto. intros (f & [<-|[]] & (E1 & E2 & E3)). assert (x = q) by (apply O; congruence). subst x. congruence.
           ++ intros y [[<-|[]]|[Y _]] YN YA; [|assert (y = x) by (apply O; congruence); subst; apply VO]. assert (x = q) by (apply O; congruence). now subst x.
        -- intros (([[<-|[]]|[X _]] & N & A) & M); [|split; auto]. exfalso. destruct VO as (_ & _ & C). destruct (C _ _ VN) as [Z|Z]; [congruence|].
           rewrite (M q) in Z; [discriminate| |congruence|congruence]. right. split; auto. intros (f & [<-|[]] & (_ & _ & E3)). congruence.
  - pose proof (find_key_none _ _ _ F) as NO. eexists. split; [reflexivity|]. split.
    + intros x y [<-|X] [<-|Y] N A; auto; exfalso; [apply (NO y)|apply (NO x)]; split; auto.
    + intros n a x. split.
      * intros ([<-|X] & N & A).
        -- split; [split; [left; now left|auto]|]. intros y [[<-|[]]|[Y _]] YN YA; [apply VO|]. exfalso. apply (NO y). split; auto. split; congruence.
        -- split; [split; [right; split; auto; intros (f & [<-|[]] & (E1 & E2 & _)); apply (NO x); split; auto|auto]|].
           intros y [[<-|[]]|[Y _]] YN YA; [exfalso; apply (NO x); split; auto; split; congruence|]. assert (y = x) by (apply O; congruence). subst. apply VO.
      * intros (([[<-|[]]|[X _]] & N & A) & M); [split; [now left|auto]|split; [now right|auto]].
Qed.
Lemma contains_spec p idx : match repo_contains_package p idx with
  | 0 => In p idx
  | 1 => exists q, In q idx /\ same_pool_file p q /\ k_data q <> k_data p
  | _ => forall q, In q idx -> ~ same_pool_file p q
  end.
Proof.
  unfold repo_contains_package. destruct (find _ idx) as [q|] eqn:F.
  - apply find_some in F. destruct F as [I K]. rewrite !andb_true_iff, !seqb_eq in K. destruct K as [[K1 K2] K3]. destruct (seqb (k_data q) (k_data p)) eqn:D.
    + apply seqb_eq in D. destruct p, q; cbn in *; subst. exact I.
    + exists q. split; auto. split; [split; auto|]. intros E. apply seqb_eq in E. congruence.
  - intros q I (E1 & E2 & E3). apply (find_none _ _ F) in I. rewrite E1, E2, E3, !(proj2 (seqb_eq _ _) eq_refl) in I. discriminate.
Qed.
Lemma populate_step p idx : one_each idx ->
  exists idx', populate_one newer p idx = Some idx' /\ one_each idx' /\ forall n a x, holds idx' n a x <-> newest newer (offered [p] idx) n a x.
Proof.
  intros O. unfold populate_one. pose proof (contains_spec p idx) as C. destruct (repo_contains_package p idx) as [|[|k]].
  - destruct (include_fresh p idx O) as (idx' & E & O' & H).
    { intros q Q (E1 & E2 & _). now apply O. }
    unfold includedeb in E. rewrite (find_key_holds (k_name p) (k_arch p) idx p O) in E by (split; auto). rewrite !(proj2 (seqb_eq _ _) eq_refl) in E. injection E as <-. eauto.
  - destruct C as (q & Q & (E1 & E2 & E3) & D). destruct (include_fresh p (repo_del_package p idx)) as (idx' & E & O' & H).
    { now apply drop_one. }
    { intros r R (F1 & F2 & _). apply drop_in in R. exfalso. now apply R. }
    exists idx'. split; auto. split; auto. intros n a x. rewrite H.
    assert (X : forall y, offered [p] (repo_del_package p idx) y <-> offered [p] idx y).
    { intros y. unfold offered. unfold repo_del_package. rewrite drop_in. split; intros [Y|Y]; auto; [tauto|]. destruct Y as [Y S]. right. split; auto. split; auto. intros [K1 K2]. apply S. exists p. split; [now left|]. split; auto. split; auto.
      assert (y = q) by (apply O; congruence). now subst y. }
    unfold newest. setoid_rewrite X. reflexivity.
  - apply include_fresh; auto. intros q Q S. exfalso. now apply (C q Q).
Qed.
Lemma newest_step p fs idx idx1 : unambiguous (p :: fs) -> one_each idx -> (forall n a x, holds idx1 n a x <-> newest newer (offered [p] idx) n a x) ->
  forall n a x, newest newer (offered fs idx1) n a x <-> newest newer (offered (p :: fs) idx) n a x.
Proof.
  intros U O H n a x.
  assert (I1 : forall y, In y idx1 <-> newest newer (offered [p] idx) (k_name y) (k_arch y) y) by (intros y; rewrite <- H; unfold holds; tauto).
  assert (EX : forall y, offered [p] idx y -> exists z, In z idx1 /\ k_name z = k_name y /\ k_arch z = k_arch y /\ newer (k_ver y) (k_ver z) = false).
  { intros y Y.
    (* the newest of the package itself and the one of the repository *)
    assert (CH : exists z, newest newer (offered [p] idx) (k_name y) (k_arch y) z).
    { destruct (find_key (k_name y) (k_arch y) idx) as [q|] eqn:F.
      - pose proof (find_key_some _ _ _ _ F) as (Q & QN & QA).
        destruct (seqb (k_name p) (k_name y) && seqb (k_arch p) (k_arch y)) eqn:K.
        + apply andb_true_iff in K. rewrite !seqb_eq in K. destruct K as [K1 K2]. destruct (newer (k_ver q) (k_ver p)) eqn:W.
          * exists q. split; [split; [right; split; auto; intros (f & [<-|[]] & (_ & _ & E3)); destruct VO as (IR & _); rewrite E3, IR in W; discriminate|auto]|].
            intros r [[<-|[]]|[R _]] RN RA; [now apply newer_asym|]. assert (r = q) by (apply O; congruence). subst. apply VO.
          * exists p. split; [split; [left; now left|auto]|]. intros r [[<-|[]]|[R _]] RN RA; [apply VO|]. assert (r = q) by (apply O; congruence). now subst.
        + exists q. assert (KN : ~ (k_name p = k_name y /\ k_arch p = k_arch y)) by (rewrite <- !seqb_eq, <- andb_true_iff; congruence).
          split; [split; [right; split; auto; intros (f & [<-|[]] & (E1 & E2 & _)); apply KN; split; congruence|auto]|].
          intros r [[<-|[]]|[R _]] RN RA; [exfalso; apply KN; auto|]. assert (r = q) by (apply O; congruence). subst. apply VO.
      - pose proof (find_key_none _ _ _ F) as NO. destruct Y as [[<-|[]]|[Y _]]; [|exfalso; apply (NO y); split; auto].
        exists p. split; [split; [left; now left|auto]|]. intros r [[<-|[]]|[R _]] RN RA; [apply VO|]. exfalso. apply (NO r). split; auto. }
    destruct CH as (z & Z). pose proof Z as ((Z1 & Z2 & Z3) & Z4). exists z. split; [apply I1; now rewrite Z2, Z3|]. split; auto. }
  assert (SH : forall y, In y fs -> offered (p :: fs) idx y) by (intros y Y; left; now right).
  assert (OI : forall y, offered [p] idx y -> (exists f, In f fs /\ same_pool_file f y) \/ offered (p :: fs) idx y).
  { intros y Y. destruct (existsb (fun f => same_file f y) fs) eqn:E.
    - left. apply existsb_exists in E. destruct E as (f & F & S). exists f. split; auto. unfold same_file in S. rewrite !andb_true_iff, !seqb_eq in S. unfold same_pool_file. tauto.
    - right. destruct Y as [[<-|[]]|[Y S]]; [left; now left|]. right. split; auto. intros (f & [F|F] & K); [subst f; apply S; exists p; split; [now left|exact K]|].
      assert (X : existsb (fun f => same_file f y) fs = true) by (apply existsb_exists; exists f; split; auto; unfold same_file; destruct K as (K1 & K2 & K3); now rewrite K1, K2, K3, !(proj2 (seqb_eq _ _) eq_refl)). congruence. }
  assert (NS : forall y f, same_pool_file f y -> In f fs -> forall m, newest newer (offered (p :: fs) idx) n a m -> k_name y = n -> k_arch y = a -> newer (k_ver y) (k_ver m) = false).
  { intros y f (K1 & K2 & K3) F m (_ & M) YN YA. rewrite <- K3. apply M; auto; congruence. }
  split.
  - intros ((X & N & A) & M).
    assert (M' : forall y, offered [p] idx y -> k_name y = n -> k_arch y = a -> newer (k_ver y) (k_ver x) = false).
    { intros y Y YN YA. destruct (newer (k_ver y) (k_ver x)) eqn:W; auto. exfalso. destruct (EX y Y) as (z & Z & ZN & ZA & ZV). assert (ZX : newer (k_ver z) (k_ver x) = true) by (apply (not_newer_trans (k_ver y)); auto).
      destruct (existsb (fun f => same_file f z) fs) eqn:E.
      - apply existsb_exists in E. destruct E as (f & F & S). unfold same_file in S. rewrite !andb_true_iff, !seqb_eq in S. destruct S as [[S1 S2] S3]. rewrite <- S2 in ZX. rewrite (M f) in ZX; [discriminate|now left|congruence|congruence].
      - rewrite (M z) in ZX; [discriminate| |congruence|congruence]. right. split; auto. intros (f & F & (K1 & K2 & K3)).
        assert (X' : existsb (fun f => same_file f z) fs = true) by (apply existsb_exists; exists f; split; auto; unfold same_file; now rewrite K1, K2, K3, !(proj2 (seqb_eq _ _) eq_refl)). congruence. }
    split; [split; [|auto]|].
    + destruct X as [X|[X S]]; [now apply SH|]. apply I1 in X. destruct X as ((X & _) & _). destruct (OI x X) as [Z|Z]; auto. now apply S in Z.
    + intros y [[<-|Y]|[Y S]] YN YA.
      * apply M'; auto. left. now left.
      * apply M; auto. now left.
      * apply M'; auto. right. split; auto. intros (f & [<-|[]] & K). apply S. exists p. split; [now left|auto].
  - intros ((X & N & A) & M). split; [split; [|auto]|].
    + assert (XN : (exists f, In f fs /\ same_pool_file f x) -> In x fs).
      { intros (f & F & K). destruct X as [[X|X]|[X S]]; auto.
        - subst x. destruct K as (K1 & K2 & K3). rewrite (U p f); auto; [now left|now right].
        - exfalso. apply S. exists f. split; [now right|auto]. }
      destruct (existsb (fun f => same_file f x) fs) eqn:E.
      * left. apply XN. apply existsb_exists in E. destruct E as (f & F & S). exists f. split; auto. unfold same_file in S. rewrite !andb_true_iff, !seqb_eq in S. unfold same_pool_file. tauto.
      * right. split.
        -- apply I1. rewrite N, A. split; [split; [|auto]|].
           ++ destruct X as [[X|X]|[X S]]; [left; now left| |right; split; auto; intros (f & [<-|[]] & K); apply S; exists p; split; [now left|auto]].
              exfalso. assert (X' : existsb (fun f => same_file f x) fs = true) by (apply existsb_exists; exists x; split; auto; unfold same_file; now rewrite !(proj2 (seqb_eq _ _) eq_refl)). congruence.
           ++ intros y Y YN YA. destruct (OI y Y) as [(f & F & K)|Z]; [|now apply M]. apply (NS y f K F x); auto. split; auto.
        -- intros (f & F & (K1 & K2 & K3)). assert (X' : existsb (fun f => same_file f x) fs = true) by (apply existsb_exists; exists f; split; auto; unfold same_file; now rewrite K1, K2, K3, !(proj2 (seqb_eq _ _) eq_refl)). congruence.
    + intros y [Y|[Y S]] YN YA; [apply M; auto|]. apply I1 in Y. destruct Y as ((Y & _) & _). destruct (OI y Y) as [Z|Z]; [now apply S in Z|]. now apply M.
Qed.
Lemma populate_all fs : forall idx, unambiguous fs -> one_each idx ->
  exists idx', populate newer fs idx = Some idx' /\ one_each idx' /\ forall n a x, holds idx' n a x <-> newest newer (offered fs idx) n a x.
Proof.
  induction fs as [|p fs IH]; intros idx U O; cbn [populate].
  - exists idx. split; auto. split; auto. intros n a x. split.
    + intros (I & N & A). split; [split; [right; split; auto; now intros (f & [] & _)|auto]|]. intros y [[]|[Y _]] YN YA. assert (y = x) by (apply O; congruence). subst. apply VO.
    + intros ((X & N & A) & _). destruct X as [[]|[X _]]. now split.
  - destruct (populate_step p idx O) as (idx1 & E & O1 & H1). rewrite E. destruct (IH idx1) as (idx' & E' & O' & H'); auto.
    { intros x y X Y. apply U; now right. }
    exists idx'. split; auto. split; auto. intros n a x. rewrite H'. now apply newest_step.
Qed.
(** Adding is populating, if the repository holds no other content under the same names *)
Lemma add_populate fs : forall idx, unambiguous fs -> one_each idx -> (forall p q, In p fs -> In q idx -> same_pool_file p q -> p = q) ->
  repo_add_packages newer fs idx = populate newer fs idx.
Proof.
  induction fs as [|p fs IH]; intros idx U O C; auto. cbn [repo_add_packages populate].
  assert (E : populate_one newer p idx = includedeb newer p idx).
  { unfold populate_one. pose proof (contains_spec p idx) as S. destruct (repo_contains_package p idx) as [|[|k]]; auto.
    - unfold includedeb. rewrite (find_key_holds (k_name p) (k_arch p) idx p O) by (split; auto). now rewrite !(proj2 (seqb_eq _ _) eq_refl).
    - exfalso. destruct S as (q & Q & K & D). apply D. f_equal. symmetry. apply C; auto. now left. }
  rewrite E. destruct (populate_step p idx O) as (idx1 & E1 & O1 & H1). rewrite E in E1. rewrite E1. apply IH; auto.
  - intros x y X Y. apply U; now right.
  - intros x y X Y K. assert (Y' : holds idx1 (k_name y) (k_arch y) y) by (split; auto). apply H1 in Y'. destruct Y' as (([[<-|[]]|[Z _]] & _) & _).
    + destruct K as (K1 & K2 & K3). apply U; auto; [now right|now left].
    + apply C; auto. now right.
Qed.
Lemma exec_adds ds : forall idx, exec_all newer (map Add ds) idx = repo_add_packages newer ds idx.
Proof. induction ds as [|p ds IH]; intros idx; auto. cbn [map exec_all exec repo_add_packages]. destruct (includedeb newer p idx); auto. Qed.
Lemma exec_app a b idx : exec_all newer (a ++ b) idx = match exec_all newer a idx with Some i => exec_all newer b i | None => None end.
Proof. revert idx. induction a as [|c a IH]; intros idx; auto. cbn [app exec_all]. destruct (exec newer c idx); auto. Qed.
Lemma exec_dels ds : forall idx, exists idx', exec_all newer (map Del ds) idx = Some idx' /\ (one_each idx -> one_each idx') /\
  forall x, In x idx' <-> In x idx /\ ~ has_key ds (k_name x) (k_arch x).
Proof.
  induction ds as [|p ds IH]; intros idx; cbn [map exec_all exec].
  - exists idx. split; auto. split; auto. intros x. split; [intros I; split; auto; intros (q & [] & _)|tauto].
  - destruct (IH (repo_del_package p idx)) as (idx' & E & O & H). exists idx'. split; auto. split; [intros X; apply O; now apply drop_one|].
    intros x. rewrite H. unfold repo_del_package. rewrite drop_in. split.
    + intros ((I & K) & N). split; auto. intros (q & [<-|Q] & K1 & K2); [apply K; auto|]. apply N. exists q. split; auto.
    + intros (I & N). split; [split; auto|].
      * intros [K1 K2]. apply N. exists p. split; [now left|auto].
      * intros (q & Q & K). apply N. exists q. split; auto. now right.
Qed.
Lemma has_key_dec ds n a : has_key ds n a \/ ~ has_key ds n a.
Proof.
  destruct (find_key n a ds) as [p|] eqn:E; [left; exists p; now apply find_key_some|]. right. intros (p & P). now apply (find_key_none n a ds E p).
Qed.
Lemma deploy_prefix ds ds' idx : unambiguous ds -> one_each idx -> (forall x, In x ds' -> In x ds) ->
  exists idx', exec_all newer (map Del ds ++ map Add ds') idx = Some idx' /\ one_each idx' /\
    (forall n a x, has_key ds' n a -> (holds idx' n a x <-> newest newer (fun q => In q ds') n a x)) /\
    (forall n a x, ~ has_key ds n a -> (holds idx' n a x <-> holds idx n a x)) .
Proof.
  intros U O SUB. destruct (exec_dels ds idx) as (idx0 & E0 & O0 & H0). specialize (O0 O). rewrite exec_app, E0, exec_adds.
  assert (U' : unambiguous ds') by (intros x y X Y; apply U; auto).
  assert (NK : forall p q, In p ds' -> In q idx0 -> ~ (k_name p = k_name q /\ k_arch p = k_arch q)).
  { intros p q P Q [K1 K2]. apply H0 in Q. apply Q. exists p. split; auto. }
  rewrite add_populate; auto; [|intros p q P Q (K1 & K2 & _); exfalso; now apply (NK p q)].
  destruct (populate_all ds' idx0 U' O0) as (idx' & E & O' & H). exists idx'. split; auto. split; auto. split.
  - intros n a x (p & P & PN & PA). rewrite H. unfold newest, offered. split.
    + intros ((X & N & A) & M). split; [split; [|auto]|intros q Q; apply M; now left]. destruct X as [X|[X _]]; auto. exfalso. apply (NK p x); auto. split; congruence.
    + intros ((X & N & A) & M). split; [split; [now left|auto]|]. intros q [Q|[Q _]] QN QA; [now apply M|]. exfalso. apply (NK p q); auto. split; congruence.
  - intros n a x NH. rewrite H. unfold newest, offered. split.
    + intros ((X & N & A) & M). split; [|auto]. destruct X as [X|[X _]]; [|now apply H0 in X]. exfalso. apply NH. exists x. split; auto.
    + intros (X & N & A). assert (X0 : In x idx0) by (apply H0; split; auto; now rewrite N, A). split; [split; [right; split; auto|auto]|].
      * intros (f & F & (K1 & K2 & _)). apply (NK f x); auto.
      * intros q [Q|[Q _]] QN QA; [exfalso; apply NH; exists q; split; auto|]. assert (q = x) by (apply O0; congruence). subst. apply VO.
Qed.
(** Of finitely many packages of one key one is the newest *)
Lemma newest_list l : forall n a q, In q l -> k_name q = n -> k_arch q = a -> exists z, newest newer (fun x => In x l) n a z.
Proof.
  induction l as [|p l IH]; intros n a q Q N A; [easy|].
  destruct (find_key n a l) as [w|] eqn:E.
  - apply find_key_some in E. destruct E as (W & WN & WA). destruct (IH n a w W WN WA) as (z & (Z & ZN & ZA) & M).
    destruct (same_key n a p) eqn:K; [apply same_key_iff in K; destruct K as [KN KA]; destruct (newer (k_ver p) (k_ver z)) eqn:V|].
    + exists p. split; [split; [now left|auto]|]. intros y [<-|Y] YN YA; [apply VO|]. destruct (newer (k_ver y) (k_ver p)) eqn:V2; auto. rewrite <- (M y Y YN YA). symmetry. destruct VO as (_ & T & _). now apply (T _ (k_ver p)).
    + exists z. split; [split; [now right|auto]|]. intros y [<-|Y] YN YA; auto.
    + exists z. split; [split; [now right|auto]|]. intros y [<-|Y] YN YA; auto. rewrite (proj2 (same_key_iff n a p)) in K by auto. discriminate.
  - destruct Q as [<-|Q]; [|exfalso; apply (find_key_none n a l E q); now split].
    exists p. split; [split; [now left|auto]|]. intros y [<-|Y] YN YA; [apply VO|]. exfalso. apply (find_key_none n a l E y). now split.
Qed.
Lemma shadowed_dec fs q : (exists f, In f fs /\ same_pool_file f q) \/ ~ (exists f, In f fs /\ same_pool_file f q).
Proof.
  assert (S : forall f, same_file f q = true <-> same_pool_file f q) by (intros f; unfold same_file, same_pool_file; rewrite !andb_true_iff, !seqb_eq; tauto).
  destruct (existsb (fun f => same_file f q) fs) eqn:E.
  - left. apply existsb_exists in E. destruct E as (f & F & K). exists f. split; auto. now apply S.
  - right. intros (f & F & K). apply S in K. assert (existsb (fun f => same_file f q) fs = true) by (apply existsb_exists; eauto). congruence.
Qed.
Lemma offered_list fs idx : exists l, forall q, In q l <-> offered fs idx q.
Proof.
  induction idx as [|p idx (l & IH)].
  - exists fs. intros q. unfold offered. cbn. tauto.
  - destruct (shadowed_dec fs p) as [D|D].
    + exists l. intros q. rewrite IH. unfold offered. cbn [In]. split; [tauto|]. intros [Q|[[<-|Q] N]]; auto. now apply N in D.
    + exists (p :: l). intros q. cbn [In]. rewrite IH. unfold offered. cbn [In]. split; [intros [<-|[Q|[Q N]]]; auto|intros [Q|[[<-|Q] N]]; auto].
Qed.
Lemma newest_exists fs idx n a q : offered fs idx q -> k_name q = n -> k_arch q = a -> exists z, newest newer (offered fs idx) n a z.
Proof.
  destruct (offered_list fs idx) as (l & L). intros Q N A. apply L in Q. destruct (newest_list l n a q Q N A) as (z & (Z & ZN & ZA) & M).
  exists z. split; [split; auto; now apply L|]. intros y Y. apply M. now apply L.
Qed.
End Version.
