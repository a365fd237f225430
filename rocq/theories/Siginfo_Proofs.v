(** Lemmas about signature data. *)
From Coq Require Import Ascii String List Bool Arith Lia.
From Verif Require Import Str_Model Str_Proofs Graph_Proofs Siginfo_Model Siginfo_Spec.
Import ListNotations.
Open Scope list_scope.

(** The receiver knows the numbers of the sender *)
Definition knows (m : numbered) (s : saver) : Prop :=
  forall v n, number v (save_map s) = Some n -> m n = Some v /\ n < save_count s.
Lemma knows_reset m : knows m reset.
Proof. intros v n H. discriminate. Qed.
Lemma value_restored m s fs : knows m s -> exists m', restore_value m (fst (save_value s fs)) = Some (fs, m') /\ knows m' (snd (save_value s fs)).
Proof.
  intro K. destruct fs as [v|]; [|exists m; split; [reflexivity|exact K]]. cbn [save_value]. destruct (number v (save_map s)) as [n|] eqn:E.
  - exists m. cbn. destruct (K v n E) as [-> _]. split; [reflexivity|exact K].
  - exists (learn m (save_count s) v). split; [reflexivity|]. intros w n. cbn [snd save_map save_count number]. destruct (seqb w v) eqn:W.
    + intro H. injection H as <-. apply seqb_eq in W. subst w. unfold learn. rewrite Nat.eqb_refl. split; [reflexivity|lia].
    + intro H. destruct (K w n H) as [A B]. unfold learn. destruct (Nat.eqb n (save_count s)) eqn:N; [apply Nat.eqb_eq in N; lia|]. split; [exact A|lia].
Qed.
Lemma dict_set_new d k v : ~ In k (map fst d) -> dict_set d k v = d ++ [(k, v)].
Proof.
  induction d as [|[k' v'] d IH]; intro N; [reflexivity|]. cbn [dict_set]. destruct (seqb k k') eqn:E; [apply seqb_eq in E; subst; exfalso; apply N; left; reflexivity|]. cbn [app]. f_equal. apply IH. intro I. apply N. right. exact I.
Qed.
Lemma items_restored d : forall m s ret, knows m s -> NoDup (map fst (ret ++ d)) ->
  exists m', restore_items m ret (fst (save_items s d)) = Some (ret ++ d, m') /\ knows m' (snd (save_items s d)).
Proof.
  induction d as [|[k fs] d IH]; intros m s ret K N; [exists m; split; [cbn; now rewrite app_nil_r|exact K]|]. cbn [save_items].
  destruct (value_restored m s fs K) as (m1 & R & K1). destruct (save_value s fs) as [p s1]. cbn [fst snd] in *.
  assert (NK : ~ In k (map fst ret)). { rewrite map_app in N. cbn in N. apply NoDup_remove_2 in N. intro I. apply N. apply in_or_app. now left. }
  assert (N1 : NoDup (map fst ((ret ++ [(k, fs)]) ++ d))) by (rewrite <- app_assoc; exact N).
  destruct (IH m1 s1 (ret ++ [(k, fs)]) K1 N1) as (m2 & R2 & K2). destruct (save_items s1 d) as [ps s2]. cbn [fst snd] in *.
  exists m2. split; [|exact K2]. cbn [restore_items]. rewrite R, (dict_set_new ret k fs NK), R2, <- app_assoc. reflexivity.
Qed.
Lemma deps_restored m s d : knows m s -> (forall x, d = Some x -> NoDup (map fst x)) -> exists m', restore m (fst (save s d)) = Some (d, m') /\ knows m' (snd (save s d)).
Proof.
  intros K N. destruct d as [[|x d]|]; [exists m; split; [reflexivity|exact K]| |exists m; split; [reflexivity|exact K]].
  unfold save. destruct (items_restored (x :: d) m s [] K (N _ eq_refl)) as (m' & R & K'). destruct (save_items s (x :: d)) as [ps s']. cbn [fst snd] in *. exists m'. split; [|exact K']. cbn [restore]. now rewrite R.
Qed.
Lemma state_restored i : forall m s, knows m s -> is_info i -> exists m', setstate m (fst (getstate s i)) = Some (i, m') /\ knows m' (snd (getstate s i)).
Proof.
  induction i as [|d i IH]; intros m s K N; [exists m; split; [reflexivity|exact K]|]. cbn [getstate].
  destruct (deps_restored m s d K) as (m1 & R & K1); [intros x ->; apply N; left; reflexivity|]. destruct (save s d) as [x s1]. cbn [fst snd] in *.
  destruct (IH m1 s1 K1) as (m2 & R2 & K2); [intros y Y; apply N; right; exact Y|]. destruct (getstate s1 i) as [xs s2]. cbn [fst snd] in *.
  exists m2. split; [|exact K2]. cbn [setstate]. now rewrite R, R2.
Qed.

Lemma read_snoc q : forall m is m' x i m'', read_all m q = Some (is, m') -> setstate m' x = Some (i, m'') -> read_all m (q ++ [x]) = Some (is ++ [i], m'').
Proof.
  induction q as [|y q IH]; intros m is m' x i m'' R S; cbn [read_all app] in *.
  - injection R as <- <-. rewrite S. reflexivity.
  - destruct (setstate m y) as [[j m1]|]; [|discriminate]. destruct (read_all m1 q) as [[js m2]|] eqn:E; [|discriminate]. injection R as <- <-. rewrite (IH _ _ _ _ _ _ E S). reflexivity.
Qed.
(** Of every process: what is received and what is still in the queue is what was sent *)
Definition good (w : world) (s : pid -> list info) : Prop :=
  forall p, exists rs is m, results w p = map Some rs /\ read_all (maps w p) (queues w p) = Some (is, m) /\ s p = rs ++ is /\ knows m (savers w p).
Lemma at_same {A} (f : pid -> A) p x : at_ f p x p = x.
Proof. unfold at_. now rewrite Nat.eqb_refl. Qed.
Lemma at_other {A} (f : pid -> A) p x q : q <> p -> at_ f p x q = f q.
Proof. intro N. unfold at_. destruct (Nat.eqb q p) eqn:E; [apply Nat.eqb_eq in E; contradiction|reflexivity]. Qed.
Lemma good_step w s e : good w s -> (forall p i, e = Send p i -> is_info i) ->
  good (step w e) (fun p => s p ++ sent p [e]).
Proof.
  intros G I p. destruct (G p) as (rs & is & m & R & Q & S & K). destruct e as [q i|q|q]; cbn [step].
  - destruct (getstate (savers w q) i) as [x s'] eqn:E. cbn [savers queues maps results sent]. destruct (Nat.eq_dec p q) as [->|N].
    + rewrite !at_same, Nat.eqb_refl. destruct (state_restored i m (savers w q) K (I q i eq_refl)) as (m' & R' & K'). rewrite E in R', K'. cbn [fst snd] in *.
      exists rs, (is ++ [i]), m'. split; [exact R|]. split; [exact (read_snoc _ _ _ _ _ _ _ Q R')|]. split; [now rewrite S, app_assoc|exact K'].
    + rewrite !at_other by exact N. destruct (Nat.eqb q p) eqn:E'; [apply Nat.eqb_eq in E'; congruence|]. rewrite app_nil_r. exists rs, is, m. auto.
  - cbn [savers queues maps results sent]. rewrite app_nil_r. destruct (Nat.eq_dec p q) as [->|N]; [rewrite at_same|rewrite at_other by exact N]; exists rs, is, m; auto using knows_reset.
  - cbn [sent]. rewrite app_nil_r. destruct (queues w q) as [|x xs] eqn:E; [exists rs, is, m; auto|]. destruct (Nat.eq_dec p q) as [->|N].
    + rewrite E in Q. cbn [read_all] in Q. destruct (setstate (maps w q) x) as [[i m1]|]; [|discriminate]. destruct (read_all m1 xs) as [[js m2]|] eqn:E2; [|discriminate]. injection Q as <- <-. cbn [savers queues maps results]. rewrite !at_same.
      exists (rs ++ [i]), js, m2. split; [rewrite R, map_app; reflexivity|]. split; [exact E2|]. split; [rewrite S, <- app_assoc; reflexivity|exact K].
    + destruct (setstate (maps w q) x) as [[i m1]|]; cbn [savers queues maps results]; rewrite ?at_other by exact N; exists rs, is, m; auto.
Qed.
Lemma sent_app p a b : sent p (a ++ b) = sent p a ++ sent p b.
Proof. induction a as [|[q i|q|q] a IH]; cbn [sent app]; auto. destruct (Nat.eqb q p); [cbn; now rewrite IH|exact IH]. Qed.
Lemma good_run es : (forall p i, In (Send p i) es -> is_info i) -> good (run es) (fun p => sent p es).
Proof.
  intro I. unfold run. induction es as [|e es IH] using rev_ind.
  - intro p. exists [], [], (fun _ => None). repeat split; intros; discriminate.
  - rewrite fold_left_app. cbn [fold_left]. intro p. rewrite sent_app. apply (good_step _ (fun p => sent p es)).
    + apply IH. intros q i J. apply (I q i). apply in_or_app. now left.
    + intros q i ->. apply (I q i). apply in_or_app. right. left. reflexivity.
Qed.

(** ** Values are written once *)
Definition known (s : saver) (v : str) : Prop := exists n, number v (save_map s) = Some n.
Definition adds (s s' : saver) (l : list str) : Prop :=
  NoDup l /\ (forall v, In v l -> ~ known s v) /\ (forall v, known s' v <-> known s v \/ In v l).
Lemma adds_nil s : adds s s [].
Proof. split; [constructor|]. split; [intros v []|]. intro v. cbn. tauto. Qed.
Lemma adds_trans s1 s2 s3 a b : adds s1 s2 a -> adds s2 s3 b -> adds s1 s3 (a ++ b).
Proof.
  intros (A & B & C) (D & E & F). split; [|split].
  - apply NoDup_app_intro; auto. intros x X Y. apply (E x Y). apply C. now right.
  - intros v V. apply in_app_or in V. destruct V as [V|V]; [exact (B v V)|]. intro K. apply (E v V). apply C. now left.
  - intro v. rewrite F, C, in_app_iff. tauto.
Qed.
Definition full_part (p : part) : list str := match fst p with Some v => [v] | None => [] end.
Lemma value_adds s fs : adds s (snd (save_value s fs)) (full_part (fst (save_value s fs))).
Proof.
  destruct fs as [v|]; [|apply adds_nil]. cbn [save_value]. destruct (number v (save_map s)) as [n|] eqn:E; [apply adds_nil|]. cbn [fst snd full_part]. split; [repeat constructor; intros []|]. split.
  - intros w [<-|[]] [n N]. congruence.
  - intro w. unfold known. cbn [save_map number]. destruct (seqb w v) eqn:W.
    + apply seqb_eq in W. subst w. split; [intros _; right; left; reflexivity|intros _; eauto].
    + split; [now left|]. intros [H|[H|[]]]; [exact H|]. subst w. rewrite seqb_refl in W. discriminate.
Qed.
Lemma items_adds d : forall s, adds s (snd (save_items s d)) (full_of (inr (fst (save_items s d)))).
Proof.
  induction d as [|[k fs] d IH]; intro s; [apply adds_nil|]. cbn [save_items]. pose proof (value_adds s fs) as V. destruct (save_value s fs) as [p s1]. cbn [fst snd] in V.
  specialize (IH s1). destruct (save_items s1 d) as [ps s2]. cbn [fst snd] in *. exact (adds_trans _ _ _ _ _ V IH).
Qed.
Lemma save_adds s d : adds s (snd (save s d)) (full_of (fst (save s d))).
Proof.
  destruct d as [[|x d]|]; [apply adds_nil| |apply adds_nil]. unfold save. pose proof (items_adds (x :: d) s) as I. destruct (save_items s (x :: d)). exact I.
Qed.
Lemma state_adds i : forall s, adds s (snd (getstate s i)) (flat_map full_of (fst (getstate s i))).
Proof.
  induction i as [|d i IH]; intro s; [apply adds_nil|]. cbn [getstate]. pose proof (save_adds s d) as V. destruct (save s d) as [x s1]. specialize (IH s1). destruct (getstate s1 i) as [xs s2]. cbn [fst snd] in *. exact (adds_trans _ _ _ _ _ V IH).
Qed.
Lemma run_adds p es : (forall e, In e es -> e <> Reset p /\ e <> Receive p) -> adds reset (savers (run es) p) (fulls (queues (run es) p)).
Proof.
  unfold run. induction es as [|e es IH] using rev_ind; intro N; [apply adds_nil|]. rewrite fold_left_app. cbn [fold_left]. assert (A := IH (fun e I => N e (in_or_app _ _ _ (or_introl I)))). clear IH.
  assert (E : e <> Reset p /\ e <> Receive p) by (apply N; apply in_or_app; right; left; reflexivity). set (w := fold_left step es begin) in *. clearbody w. destruct E as [E1 E2]. destruct e as [q i|q|q]; cbn [step].
  - pose proof (state_adds i (savers w q)) as S. destruct (getstate (savers w q) i) as [x s']. cbn [fst snd savers queues] in *. destruct (Nat.eq_dec p q) as [->|D]; [|now rewrite !at_other by exact D]. rewrite !at_same.
    unfold fulls. rewrite concat_app, flat_map_app. cbn [concat]. rewrite app_nil_r. exact (adds_trans _ _ _ _ _ A S).
  - cbn [savers queues]. rewrite at_other by congruence. exact A.
  - destruct (queues w q) as [|x xs]; [exact A|]. destruct (setstate (maps w q) x) as [[i m]|]; cbn [savers queues]; rewrite at_other by congruence; exact A.
Qed.
