From Coq Require Import List Bool Arith Lia.
From Verif Require Import Lock_Model Lock_Spec.
Import ListNotations.

Definition lockless (pl : place) : bool := match pl with Idle | Opening | Opened _ | Gap _ => true | _ => false end.
(** the places where the lock is known to be on the file on disk *)
Definition sure (pl : place) : bool := match pl with Holding _ | Converting _ | Unlinking _ => true | _ => false end.

Record LI (s : state) : Prop := {
  l_compat : forall p q i a b, p < count s -> q < count s -> p <> q -> inode_of (pr s p) = Some i -> inode_of (pr s q) = Some i ->
      held (pr s p) = Some a -> held (pr s q) = Some b -> a = Shared /\ b = Shared;
  l_none : forall p, p < count s -> lockless (at_ (pr s p)) = true -> held (pr s p) = None;
  l_held : forall p, p < count s -> (match at_ (pr s p) with Locked _ | Exists _ | Holding _ | Converting _ => True | _ => False end) ->
      held (pr s p) = Some (wants (pr s p));
  l_unl : forall p i, p < count s -> at_ (pr s p) = Unlinking i -> held (pr s p) = Some Exclusive;
  l_gap : forall p i, p < count s -> at_ (pr s p) <> Gap i;
  l_sure : forall p i, p < count s -> sure (at_ (pr s p)) = true -> inode_of (pr s p) = Some i -> disk s = Some i
}.
Lemma compatible_spec s p i m : compatible s p i m = true ->
  forall q b, q < count s -> q <> p -> inode_of (pr s q) = Some i -> held (pr s q) = Some b -> b = Shared /\ m = Shared.
Proof.
  unfold compatible. rewrite forallb_forall. intros H q b Q N I B. specialize (H q).
  rewrite I, B in H. cbn in H. rewrite Nat.eqb_refl in H. apply Nat.eqb_neq in N. rewrite N in H. cbn in H.
  assert (X : In q (seq 0 (count s))) by (apply in_seq; lia). specialize (H X). destruct b, m; auto; discriminate.
Qed.
Lemma unused_spec s i : unused s i = true -> disk s <> Some i /\ forall q, q < count s -> inode_of (pr s q) <> Some i.
Proof.
  unfold unused. rewrite andb_true_iff, forallb_forall. intros [A B]. split.
  - intros X. rewrite X in A. cbn in A. rewrite Nat.eqb_refl in A. discriminate.
  - intros q Q X. specialize (B q). rewrite X in B. cbn in B. rewrite Nat.eqb_refl in B.
    assert (In q (seq 0 (count s))) by (apply in_seq; lia). specialize (B H). discriminate.
Qed.
Lemma put_same s p x : pr (put s p x) p = x.
Proof. cbn. now rewrite Nat.eqb_refl. Qed.
Lemma put_other s p x q : q <> p -> pr (put s p x) q = pr s q.
Proof. intros N. cbn. apply Nat.eqb_neq in N. now rewrite N. Qed.

(** changing one process without touching the disk *)
Lemma put_LI s p x : LI s -> p < count s ->
  (lockless (at_ x) = true -> held x = None) ->
  (match at_ x with Locked _ | Exists _ | Holding _ | Converting _ => True | _ => False end -> held x = Some (wants x)) ->
  (forall i, at_ x = Unlinking i -> held x = Some Exclusive) ->
  (forall i, at_ x <> Gap i) ->
  (forall i, sure (at_ x) = true -> inode_of x = Some i -> disk s = Some i) ->
  (forall q i a b, q < count s -> q <> p -> inode_of x = Some i -> inode_of (pr s q) = Some i -> held x = Some a -> held (pr s q) = Some b ->
     a = Shared /\ b = Shared) ->
  LI (put s p x).
Proof.
  intros [A B C D GP E] P H1 H2 H3 HG H4 H5.
  assert (K : forall q, q = p /\ pr (put s p x) q = x \/ q <> p /\ pr (put s p x) q = pr s q).
  { intros q. destruct (Nat.eq_dec q p) as [->|N]; [left; split; auto; apply put_same|right; split; auto; now apply put_other]. }
  constructor; cbn [count disk].
  - intros a b i m n PA PB N. destruct (K a) as [[-> ->]|[NA ->]], (K b) as [[-> ->]|[NB ->]]; try congruence.
    + intros I1 I2 L1 L2. eapply H5; [exact PB|exact NB|exact I1|exact I2|exact L1|exact L2].
    + intros I1 I2 L1 L2. assert (Z : n = Shared /\ m = Shared); [|tauto]. eapply H5; [exact PA|exact NA|exact I2|exact I1|exact L2|exact L1].
    + eapply A; auto.
  - intros q Q. destruct (K q) as [[-> ->]|[N ->]]; auto.
  - intros q Q. destruct (K q) as [[-> ->]|[N ->]]; auto.
  - intros q i Q. destruct (K q) as [[-> ->]|[N ->]]; eauto.
  - intros q i Q. destruct (K q) as [[-> ->]|[N ->]]; eauto.
  - intros q i Q. destruct (K q) as [[-> ->]|[N ->]]; eauto.
Qed.
(** keeping the same lock on the same inode *)
Lemma keep_LI s p pl : LI s -> p < count s ->
  inode_of (pr s p) = inode_of (move pl (held (pr s p)) (pr s p)) ->
  (lockless pl = true -> held (pr s p) = None) ->
  (match pl with Locked _ | Exists _ | Holding _ | Converting _ => True | _ => False end -> held (pr s p) = Some (wants (pr s p))) ->
  (forall i, pl = Unlinking i -> held (pr s p) = Some Exclusive) ->
  (forall i, pl <> Gap i) ->
  (forall i, sure pl = true -> inode_of (pr s p) = Some i -> disk s = Some i) ->
  LI (put s p (move pl (held (pr s p)) (pr s p))).
Proof.
  intros L P EI H1 H2 H3 HG H4. apply put_LI; auto.
  - intros i S I. rewrite <- EI in I. auto.
  - intros q i a b Q N I1 I2 L1 L2. rewrite <- EI in I1. destruct L. eapply l_compat0 with (p := p) (q := q); eauto.
Qed.
(** giving the lock up *)
Lemma drop_LI s p x : LI s -> p < count s -> held x = None -> sure (at_ x) = false ->
  (match at_ x with Locked _ | Exists _ | Gap _ => False | _ => True end) -> LI (put s p x).
Proof.
  intros L P H S N. apply put_LI; auto.
  - destruct (at_ x); intros []; try contradiction; discriminate.
  - intros i E. rewrite E in S. discriminate.
  - intros i E. rewrite E in N. destruct N.
  - intros i E. congruence.
  - intros q i a b _ _ _ _ E. congruence.
Qed.
Lemma again_facts x : held (again x) = None /\ sure (at_ (again x)) = false /\ (match at_ (again x) with Locked _ | Exists _ | Gap _ => False | _ => True end).
Proof. unfold again. cbn. destruct (retry x); auto. Qed.

(** no process has a shared lock *)
Definition no_shared (s : state) : Prop := forall p, p < count s -> wants (pr s p) = Exclusive.

Lemma step_LI atomic s e s' : LI s -> atomic = true \/ no_shared s -> step atomic s e = Some s' -> LI s' /\ count s' = count s.
Proof.
  intros L AT S. unfold step in S. destruct (Nat.ltb (who e) (count s)) eqn:P; [|discriminate]. apply Nat.ltb_lt in P. cbn [negb] in S.
  set (p := who e) in *. pose proof L as [A B C D GP E].
  destruct e; destruct (at_ (pr s p)) eqn:PL; try discriminate; cbn [who] in *.
  all: try (injection S as <-; split; [|reflexivity]; apply drop_LI; cbn; auto; fail).
  all: try (injection S as <-; split; [|reflexivity]; destruct (again_facts (pr s p)) as (X1 & X2 & X3); apply drop_LI; auto; fail).
  - (* Open *) destruct (disk s) as [i|] eqn:DK.
    + injection S as <-. split; [|reflexivity]. apply drop_LI; cbn; auto.
    + destruct (unused s fresh) eqn:U; [|discriminate]. injection S as <-. split; [|reflexivity].
      assert (L1 : LI (set_disk (Some fresh) s)).
      { constructor; cbn [set_disk count pr disk]; auto. intros q i Q SU I. specialize (E q i Q SU I). congruence. }
      apply drop_LI; cbn; auto.
  - (* Flock *) destruct (compatible s p i (wants (pr s p))) eqn:CO; [|discriminate]. injection S as <-. split; [|reflexivity].
    apply put_LI; cbn; auto; try discriminate.
    intros q j a b Q N I1 I2 L1 L2. injection I1 as <-. injection L1 as <-.
    destruct (compatible_spec _ _ _ _ CO q b Q N I2 L2). auto.
  - (* CheckExists *) assert (EI : inode_of (pr s p) = Some i) by (unfold inode_of; now rewrite PL).
    destruct (disk s) eqn:DK; injection S as <-; (split; [|reflexivity]).
    + apply keep_LI; auto; try discriminate. intros _. apply C; auto. now rewrite PL.
    + destruct (again_facts (pr s p)) as (X1 & X2 & X3); apply drop_LI; auto.
  - (* Stat *) assert (EI : inode_of (pr s p) = Some i) by (unfold inode_of; now rewrite PL).
    destruct (disk s) as [j|] eqn:DK; [destruct (Nat.eqb_spec i j)|]; injection S as <-; (split; [|reflexivity]).
    + subst j. apply keep_LI; auto; try discriminate.
      * intros _. apply C; auto. now rewrite PL.
      * intros k _ I. congruence.
    + destruct (again_facts (pr s p)) as (X1 & X2 & X3); apply drop_LI; auto.
    + destruct (again_facts (pr s p)) as (X1 & X2 & X3); apply drop_LI; auto.
  - (* Release *) assert (EI : inode_of (pr s p) = Some i) by (unfold inode_of; now rewrite PL).
    injection S as <-; (split; [|reflexivity]). apply keep_LI; auto; try discriminate.
    + intros _. apply C; auto. now rewrite PL.
    + intros k _ I. apply E with (p := p); auto. now rewrite PL.
  - (* Convert *) assert (EI : inode_of (pr s p) = Some i) by (unfold inode_of; now rewrite PL).
    assert (H : held (pr s p) = Some (wants (pr s p))) by (apply C; auto; now rewrite PL).
    assert (DK : disk s = Some i) by (apply E with (p := p); auto; now rewrite PL).
    destruct (held (pr s p)) as [[|]|] eqn:HE; [| |congruence].
    + destruct AT as [->|NS]; [|specialize (NS p P); congruence].
      destruct (compatible s p i Exclusive) eqn:CO; [|discriminate]. injection S as <-; (split; [|reflexivity]).
      apply put_LI; cbn; auto; try discriminate; try contradiction.
      * intros k _ I. congruence.
      * intros q j a b Q N I1 I2 L1 L2. injection I1 as <-.
        destruct (compatible_spec _ _ _ _ CO q b Q N I2 L2). discriminate.
    + injection S as <-; (split; [|reflexivity]). rewrite <- HE. apply keep_LI; auto; try discriminate.
      * contradiction.
      * intros k _ I. congruence.
  - (* ConvertFails *) assert (EI : inode_of (pr s p) = Some i) by (unfold inode_of; now rewrite PL).
    injection S as <-; (split; [|reflexivity]). apply keep_LI; auto; try discriminate; try contradiction.
  - (* Regain *) exfalso. apply (GP p i); auto.
  - (* Unlink *) assert (EI : inode_of (pr s p) = Some i) by (unfold inode_of; now rewrite PL).
    assert (H : held (pr s p) = Some Exclusive) by (eapply D; eauto).
    assert (DK : disk s = Some i) by (apply E with (p := p); auto; now rewrite PL).
    injection S as <-; (split; [|reflexivity]).
    set (x := move (Unlocking i) (held (pr s p)) (pr s p)).
    assert (L1 : LI (put s p x)).
    { apply keep_LI; auto; try discriminate; try contradiction. }
    change (put (set_disk None s) p x) with (set_disk None (put s p x)).
    destruct L1 as [A1 B1 C1 D1 G1 E1]. constructor; auto. intros q j Q SU I. exfalso. cbn [set_disk count pr] in Q, SU, I.
    destruct (Nat.eq_dec q p) as [->|N]; [rewrite put_same in SU; discriminate|]. rewrite put_other in SU, I by auto.
    assert (disk s = Some j) by (eapply E; eauto). assert (j = i) by congruence. subst j.
    assert (X : exists b, held (pr s q) = Some b).
    { destruct (at_ (pr s q)) eqn:PQ; try discriminate; [exists (wants (pr s q))|exists (wants (pr s q))|exists Exclusive].
      - apply C; auto. now rewrite PQ.
      - apply C; auto. now rewrite PQ.
      - eapply D; eauto. }
    destruct X as [b X]. assert (Z : Exclusive = Shared /\ b = Shared); [|destruct Z; discriminate].
    eapply A with (p := p) (q := q); eauto.
Qed.
Lemma init_LI n d : LI (init n d).
Proof.
  constructor; cbn; intros; try discriminate; auto. contradiction.
Qed.
Lemma step_no_shared atomic s e s' : no_shared s -> step atomic s e = Some s' -> (forall p r b, e <> Call p true r b) -> no_shared s'.
Proof.
  intros NS S NE. unfold step in S. destruct (Nat.ltb (who e) (count s)) eqn:P; [|discriminate]. apply Nat.ltb_lt in P. cbn [negb] in S.
  assert (K : forall s1 x, no_shared s1 -> wants x = Exclusive -> no_shared (put s1 (who e) x)).
  { intros s1 x N W q Q. destruct (Nat.eq_dec q (who e)) as [->|D]; [now rewrite put_same|]. rewrite put_other by auto. now apply N. }
  assert (W : wants (pr s (who e)) = Exclusive) by (now apply NS).
  assert (ND : forall d, no_shared (set_disk d s)) by (intros d q Q; now apply NS).
  destruct (at_ (pr s (who e))) eqn:PL; destruct e; try discriminate; cbn [who] in *;
    repeat match type of S with
    | (match ?b with _ => _ end) = Some _ => destruct b eqn:?; try discriminate
    end; try (injection S as <-; apply K; cbn; auto).
  destruct shared; auto. exfalso. eapply NE; eauto.
Qed.
Lemma run_LI atomic es : forall s s', LI s -> atomic = true \/ (no_shared s /\ all_exclusive es) -> run atomic s es = Some s' -> LI s' /\ count s' = count s.
Proof.
  induction es as [|e es IH]; intros s s' L AT R; cbn in R; [injection R as <-; auto|].
  destruct (step atomic s e) as [s1|] eqn:S; [|discriminate].
  destruct (step_LI atomic s e s1 L) as [L1 C1]; auto; [tauto|].
  destruct (IH s1 s' L1) as [L2 C2]; auto; [|split; auto; congruence].
  destruct AT as [AT|[N A]]; auto. right. split.
  - eapply step_no_shared; eauto. intros p r b ->. apply (A p r b). now left.
  - intros p r b X. apply (A p r b). now right.
Qed.
Lemma LI_exclusive s : LI s -> exclusive s.
Proof.
  intros [A B C D G E] p q P Q [[i HP] W] [j HQ]. destruct (Nat.eq_dec p q) as [|N]; auto. exfalso.
  assert (IP : inode_of (pr s p) = Some i) by (unfold inode_of; now rewrite HP).
  assert (IQ : inode_of (pr s q) = Some j) by (unfold inode_of; now rewrite HQ).
  assert (disk s = Some i) by (apply E with (p := p); auto; now rewrite HP).
  assert (disk s = Some j) by (apply E with (p := q); auto; now rewrite HQ).
  assert (j = i) by congruence. subst j.
  assert (K : Exclusive = Shared /\ wants (pr s q) = Shared); [|destruct K; discriminate].
  eapply A with (p := p) (q := q); eauto.
  - rewrite <- W. apply C; auto. now rewrite HP.
  - apply C; auto. now rewrite HQ.
Qed.
Lemma LI_on_disk s p i : LI s -> p < count s -> at_ (pr s p) = Holding i -> disk s = Some i.
Proof. intros [A B C D G E] P H. apply E with (p := p); auto; [now rewrite H|unfold inode_of; now rewrite H]. Qed.
