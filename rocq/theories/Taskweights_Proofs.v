From Coq Require Import List Bool ZArith NArith Arith Lia.
From Verif Require Import Taskweights_Model Taskweights_Spec.
Import ListNotations.
Open Scope list_scope.

Lemma mem_In x l : mem x l = true <-> In x l.
Proof.
  unfold mem. rewrite existsb_exists. split.
  - intros (y & H & E). apply Nat.eqb_eq in E. now subst.
  - intros H. exists x. split; auto. apply Nat.eqb_refl.
Qed.
Lemma mem_false x l : mem x l = false <-> ~ In x l.
Proof. rewrite <- mem_In. destruct (mem x l); split; congruence. Qed.
Lemma upd_same {A} (f : nat -> A) k v : upd f k v k = v.
Proof. unfold upd. now rewrite Nat.eqb_refl. Qed.
Lemma upd_other {A} (f : nat -> A) k v x : x <> k -> upd f k v x = f x.
Proof. intros H. unfold upd. apply Nat.eqb_neq in H. now rewrite H. Qed.

Section P.
Variable g : graph.
Hypothesis PG : proper g.

Lemma revdeps_In r t : In r (revdeps g t) <-> In r (gtasks g) /\ In t (gdeps g r).
Proof. unfold revdeps. rewrite filter_In, mem_In. tauto. Qed.
Lemma revdeps_NoDup t : NoDup (revdeps g t).
Proof. apply NoDup_filter. apply PG. Qed.
Lemma endpoints_In t : In t (endpoints g) <-> In t (gtasks g) /\ revdeps g t = [].
Proof.
  unfold endpoints. rewrite filter_In. destruct (revdeps g t); split; intros [A B]; split; auto; discriminate.
Qed.

Definition base (t : nat) : N := if mem t (endpoints g) then 10%N else 1%N.
(** [H r t]: the edge from [r] down to [t] was handled; [S]: the tasks that were
    ready, in the order of their becoming so *)
Record WI (H : nat -> nat -> bool) (s : wst) (R : list nat) : Prop := {
  w_nd : NoDup R;
  w_in : forall t, In t R -> In t (gtasks g) /\ forall r, In r (revdeps g t) -> H r t = true;
  w_all : forall t, In t (gtasks g) -> (forall r, In r (revdeps g t) -> H r t = true) -> In t R;
  w_done : forall t, In t (gtasks g) -> done s t = mem t R;
  w_left : forall t, In t (gtasks g) -> left s t = Z.of_nat (length (filter (fun r => negb (H r t)) (revdeps g t)));
  w_weight : forall t, In t (gtasks g) -> weight s t = (base t + total (weight s) (filter (fun r => H r t) (revdeps g t)))%N;
  w_from : forall r t, H r t = true -> In r R;
  w_order : forall l1 t l2, R = l1 ++ t :: l2 -> forall r, In r (revdeps g t) -> In r l1
}.
Lemma WI_ext H H' s R : (forall r t, H r t = H' r t) -> WI H s R -> WI H' s R.
Proof.
  intros E [A B C D F G I J]. constructor; auto.
  - intros t Ht. destruct (B t Ht) as [B1 B2]. split; auto. intros r Hr. rewrite <- E. auto.
  - intros t Ht X. apply C; auto. intros r Hr. rewrite E. auto.
  - intros t Ht. rewrite (F t Ht). f_equal. f_equal. apply filter_ext. intros r. now rewrite E.
  - intros t Ht. rewrite (G t Ht) at 1. do 2 f_equal. apply filter_ext. intros r. now rewrite E.
  - intros r t X. apply (I r t). now rewrite E.
Qed.
Lemma total_ext w w' l : (forall r, In r l -> w r = w' r) -> total w l = total w' l.
Proof. induction l as [|x l IH]; intros E; cbn; auto. rewrite E by (left; auto). unfold total in IH. rewrite IH; auto. intros r Hr. apply E. now right. Qed.
Lemma filter_one (H : nat -> bool) x l : NoDup l -> In x l -> H x = false ->
  S (length (filter (fun r => negb (H r || Nat.eqb r x)) l)) = length (filter (fun r => negb (H r)) l).
Proof.
  induction l as [|y l IH]; intros ND IN HX; [destruct IN|]. inversion ND as [|? ? N1 N2]; subst. cbn.
  destruct (Nat.eqb y x) eqn:E.
  - apply Nat.eqb_eq in E. subst y. rewrite HX. cbn. f_equal. f_equal. apply filter_ext_in. intros r Hr.
    assert (r <> x) by (intros ->; auto). apply Nat.eqb_neq in H0. now rewrite H0, orb_false_r.
  - destruct IN as [->|IN]; [rewrite Nat.eqb_refl in E; discriminate|]. rewrite orb_false_r. specialize (IH N2 IN HX).
    destruct (H y); cbn; auto. 
Qed.
Lemma total_one (H : nat -> bool) w x l : NoDup l -> In x l -> H x = false ->
  total w (filter (fun r => H r || Nat.eqb r x) l) = (w x + total w (filter H l))%N.
Proof.
  induction l as [|y l IH]; intros ND IN HX; [destruct IN|]. inversion ND as [|? ? N1 N2]; subst. cbn.
  destruct (Nat.eqb y x) eqn:E.
  - apply Nat.eqb_eq in E. subst y. rewrite HX. cbn [orb total fold_right]. f_equal.
    change (total w (filter (fun r => H r || Nat.eqb r x) l) = total w (filter H l)). f_equal. apply filter_ext_in. intros r Hr.
    assert (r <> x) by (intros ->; auto). apply Nat.eqb_neq in H0. now rewrite H0, orb_false_r.
  - destruct IN as [->|IN]; [rewrite Nat.eqb_refl in E; discriminate|]. rewrite orb_false_r. specialize (IH N2 IN HX).
    destruct (H y); cbn; auto. unfold total in IH. rewrite IH. lia.
Qed.
Lemma relax_WI H t d s P next :
  WI H s (P ++ next) -> In t (P ++ next) -> In d (gdeps g t) -> H t d = false ->
  WI (fun r x => H r x || (Nat.eqb r t && Nat.eqb x d)) (fst (relax t (s, next) d)) (P ++ snd (relax t (s, next) d)).
Proof.
  intros W Ht Hd HF. set (R := P ++ next) in *. destruct W as [A B C D F G I J].
  assert (TT : In t (gtasks g)) by (apply B; auto).
  assert (DT : In d (gtasks g)) by (destruct PG as [_ X]; apply (X t TT); auto).
  assert (RD : In t (revdeps g d)) by (apply revdeps_In; auto).
  assert (ND : ~ In d R). { intros X. destruct (B d X) as [_ Y]. specialize (Y t RD). congruence. }
  set (H' := fun r x => H r x || (Nat.eqb r t && Nat.eqb x d)).
  assert (Hd' : forall r, H' r d = H r d || Nat.eqb r t).
  { intros r. unfold H'. rewrite Nat.eqb_refl, andb_true_r. auto. }
  assert (Ho : forall r x, x <> d -> H' r x = H r x).
  { intros r x N. unfold H'. apply Nat.eqb_neq in N. rewrite N, andb_false_r, orb_false_r. auto. }
  set (w := upd (weight s) d (weight s d + weight s t)%N). set (l := upd (left s) d (left s d - 1)%Z).
  assert (WT : forall x, In x (gtasks g) -> w x = (base x + total w (filter (fun r => H' r x) (revdeps g x)))%N).
  { intros x Hx.
    assert (T1 : total w (filter (fun r => H' r x) (revdeps g x)) = total (weight s) (filter (fun r => H' r x) (revdeps g x))).
    { apply total_ext. intros r Hr. apply filter_In in Hr. destruct Hr as [_ Hr]. unfold w. apply upd_other. intros ->.
      unfold H' in Hr. apply orb_true_iff in Hr. destruct Hr as [Hr|Hr]; [apply ND; eapply I; eauto|].
      apply andb_true_iff in Hr. destruct Hr as [Hr _]. apply Nat.eqb_eq in Hr. subst. auto. }
    rewrite T1. destruct (Nat.eq_dec x d) as [->|N].
    - unfold w. rewrite upd_same, (G d Hx).
      rewrite (filter_ext (fun r => H' r d) (fun r => H r d || Nat.eqb r t)) by apply Hd'.
      rewrite (total_one (fun r => H r d)); auto using revdeps_NoDup. lia.
    - unfold w. rewrite upd_other by auto. rewrite (G x Hx). do 2 f_equal. apply filter_ext. intros r. now rewrite Ho. }
  assert (WL : forall x, In x (gtasks g) -> l x = Z.of_nat (length (filter (fun r => negb (H' r x)) (revdeps g x)))).
  { intros x Hx. destruct (Nat.eq_dec x d) as [->|N].
    - unfold l. rewrite upd_same, (F d Hx).
      rewrite (filter_ext (fun r => negb (H' r d)) (fun r => negb (H r d || Nat.eqb r t))) by (intros r; now rewrite Hd').
      pose proof (filter_one (fun r => H r d) t (revdeps g d) (revdeps_NoDup d) RD HF). lia.
    - unfold l. rewrite upd_other by auto. rewrite (F x Hx). do 2 f_equal. apply filter_ext. intros r. now rewrite Ho. }
  assert (BB : forall x, In x R -> In x (gtasks g) /\ forall r, In r (revdeps g x) -> H' r x = true).
  { intros x Hx. destruct (B x Hx) as [B1 B2]. split; auto. intros r Hr. unfold H'. now rewrite B2. }
  assert (II : forall r x, H' r x = true -> In r R).
  { intros r x Hr. unfold H' in Hr. apply orb_true_iff in Hr. destruct Hr as [Hr|Hr]; [eapply I; eauto|].
    apply andb_true_iff in Hr. destruct Hr as [Hr _]. apply Nat.eqb_eq in Hr. now subst. }
  cbn [relax]. fold w l. destruct (Z.eqb (l d) 0) eqn:E; cbn [fst snd].
  - apply Z.eqb_eq in E. rewrite WL in E by auto.
    assert (AD : forall r, In r (revdeps g d) -> H' r d = true).
    { intros r Hr. destruct (H' r d) eqn:X; auto. exfalso.
      assert (In r (filter (fun r => negb (H' r d)) (revdeps g d))) by (apply filter_In; rewrite X; auto).
      destruct (filter (fun r => negb (H' r d)) (revdeps g d)); [contradiction|cbn in E; lia]. }
    rewrite app_assoc. fold R. constructor; cbn [weight left done]; auto.
    + apply NoDup_rev in A. rewrite <- (rev_involutive (R ++ [d])). apply NoDup_rev. rewrite rev_app_distr. cbn. constructor; auto.
      now rewrite <- in_rev.
    + intros x Hx. apply in_app_or in Hx. destruct Hx as [Hx|[<-|[]]]; auto.
    + intros x Hx X. apply in_or_app. destruct (Nat.eq_dec x d) as [->|N]; [right; left; auto|left].
      apply C; auto. intros r Hr. rewrite <- Ho by auto. auto.
    + intros x Hx. destruct (Nat.eq_dec x d) as [->|N].
      * rewrite upd_same. symmetry. apply mem_In, in_or_app. right; left; auto.
      * rewrite upd_other, D by auto. destruct (mem x R) eqn:M.
        -- symmetry. apply mem_In. apply mem_In in M. apply in_or_app; auto.
        -- symmetry. apply mem_false. apply mem_false in M. intros X. apply in_app_or in X. destruct X as [X|[X|[]]]; auto.
    + intros r x Hr. apply in_or_app. left. eauto.
    + intros l1 x l2 X r Hr. destruct l2 as [|y l2] using rev_ind.
      * apply app_inj_tail in X. destruct X as [<- <-]. eapply II. eauto.
      * clear IHl2. change (l1 ++ x :: l2 ++ [y]) with (l1 ++ (x :: l2) ++ [y]) in X. rewrite app_assoc in X. apply app_inj_tail in X. destruct X as [X _]. eauto.
  - apply Z.eqb_neq in E. fold R. constructor; cbn [weight left done]; auto.
    + intros x Hx X. destruct (Nat.eq_dec x d) as [->|N].
      * exfalso. apply E. rewrite WL by auto.
        replace (filter (fun r => negb (H' r d)) (revdeps g d)) with (@nil nat); auto.
        symmetry. clear - X. assert (K : forall l, (forall r, In r l -> H' r d = true) -> filter (fun r => negb (H' r d)) l = []).
        { induction l as [|y l IHl]; intros Z; cbn; auto. rewrite Z by (left; auto). cbn. apply IHl. intros r Hr. apply Z. now right. }
        apply K, X.
      * apply C; auto. intros r Hr. rewrite <- Ho by auto. auto.
Qed.

Lemma relax_fst t s n d : fst (relax t (s, n) d) = fst (relax t (s, []) d).
Proof. cbn. destruct (Z.eqb _ 0); auto. Qed.

(** handle all edges of one ready task *)
Lemma edges_WI t ds : forall H s P next,
  WI H s (P ++ next) -> In t (P ++ next) -> (forall d, In d ds -> In d (gdeps g t)) -> NoDup ds ->
  (forall d, In d ds -> H t d = false) ->
  exists s' ext, fold_left (relax t) ds (s, next) = (s', next ++ ext) /\
    WI (fun r x => H r x || (Nat.eqb r t && mem x ds)) s' (P ++ next ++ ext).
Proof.
  induction ds as [|d ds IH]; intros H s P next W Ht DS ND HF; cbn [fold_left].
  - exists s, []. rewrite app_nil_r. split; auto. eapply WI_ext; [|exact W]. intros r x. cbn. rewrite andb_false_r, orb_false_r. auto.
  - inversion ND as [|? ? N1 N2]; subst.
    pose proof (relax_WI H t d s P next W Ht (DS d (or_introl eq_refl)) (HF d (or_introl eq_refl))) as W1.
    assert (X : exists e, snd (relax t (s, next) d) = next ++ e).
    { cbn. destruct (Z.eqb _ 0); cbn; [exists [d]|exists []]; auto. now rewrite app_nil_r. }
    destruct X as [e X]. destruct (relax t (s, next) d) as [s1 n1] eqn:RX. cbn [fst snd] in X, W1. subst n1.
    specialize (IH (fun r x => H r x || (Nat.eqb r t && Nat.eqb x d)) s1 P (next ++ e)).
    destruct IH as (s' & ext & E & W2); auto.
    + rewrite app_assoc. apply in_or_app. auto.
    + intros x Hx. apply DS. now right.
    + intros x Hx. rewrite HF by (right; auto). cbn. destruct (Nat.eqb_spec x d); [subst; contradiction|]. apply andb_false_r.
    + exists s', (e ++ ext). rewrite E. rewrite app_assoc. split; auto.
      rewrite <- app_assoc in W2. rewrite <- app_assoc. eapply WI_ext; [|exact W2]. intros r x. cbn.
      fold (mem x ds). rewrite <- orb_assoc. f_equal. destruct (Nat.eqb r t); auto.
Qed.
(** one round: the ready tasks [todo] are handled *)
Lemma round_WI todo : forall P next s,
  WI (fun r x => mem r P && mem x (gdeps g r)) s (P ++ todo ++ next) ->
  exists s' ext, fold_left (fun a t => fold_left (relax t) (gdeps g t) a) todo (s, next) = (s', next ++ ext) /\
    WI (fun r x => mem r (P ++ todo) && mem x (gdeps g r)) s' ((P ++ todo) ++ next ++ ext).
Proof.
  induction todo as [|t todo IH]; intros P next s W; cbn [fold_left].
  - exists s, []. rewrite !app_nil_r. auto.
  - assert (NP : ~ In t P).
    { intros X. pose proof (w_nd _ _ _ W) as ND. apply NoDup_remove_2 in ND. apply ND. apply in_or_app. auto. }
    assert (TT : In t (gtasks g)).
    { apply (w_in _ _ _ W). apply in_or_app. right. left. auto. }
    destruct (edges_WI t (gdeps g t) (fun r x => mem r P && mem x (gdeps g r)) s (P ++ t :: todo) next) as (s1 & e & E & W1).
    + rewrite <- app_assoc. exact W.
    + apply in_or_app. left. apply in_or_app. right. left. auto.
    + auto.
    + destruct PG as [_ X]. now apply X.
    + intros d Hd. apply mem_false in NP. now rewrite NP.
    + rewrite E. destruct (IH (P ++ [t]) (next ++ e) s1) as (s' & ext & E2 & W2).
      * rewrite <- !app_assoc in *. cbn [app] in *. eapply WI_ext; [|exact W1]. intros r x. cbn.
        unfold mem at 4. rewrite existsb_app. cbn. rewrite orb_false_r. fold (mem r P).
        destruct (Nat.eqb_spec r t); [subst; rewrite orb_true_r; destruct (mem t P), (mem x (gdeps g t)); auto|].
        cbn. rewrite !orb_false_r. auto.
      * exists s', (e ++ ext). rewrite E2. rewrite <- app_assoc in *. split; auto. rewrite <- !app_assoc in *. exact W2.
Qed.
Lemma rounds_WI fuel : forall P todo s,
  WI (fun r x => mem r P && mem x (gdeps g r)) s (P ++ todo) -> length (gtasks g) < fuel + length P + length todo -> todo <> [] \/ fuel <> 0 ->
  length (gtasks g) - length P < fuel ->
  exists s' R, rounds g fuel todo s = Some s' /\ WI (fun r x => mem r R && mem x (gdeps g r)) s' R.
Proof.
  induction fuel as [|f IH]; intros P todo s W _ _ L; [lia|]. cbn [rounds]. unfold round.
  destruct (round_WI todo P [] s) as (s' & ext & E & W1); [rewrite app_nil_r; auto|].
  rewrite E. cbn [app] in *. destruct ext as [|x ext].
  - exists s', (P ++ todo). split; auto. rewrite app_nil_r in W1. auto.
  - apply IH with (P := P ++ todo); auto; try lia.
    + rewrite app_length.
      assert (length ((P ++ todo) ++ x :: ext) <= length (gtasks g)).
      { apply NoDup_incl_length; [apply (w_nd _ _ _ W1)|]. intros y Hy. apply (w_in _ _ _ W1 y Hy). }
      rewrite !app_length in H. cbn in H. destruct todo as [|y todo]; [|cbn in *; lia].
      exfalso. unfold fold_left in E. injection E as _ E. discriminate.
    + left. discriminate.
    + rewrite app_length.
      assert (length ((P ++ todo) ++ x :: ext) <= length (gtasks g)).
      { apply NoDup_incl_length; [apply (w_nd _ _ _ W1)|]. intros y Hy. apply (w_in _ _ _ W1 y Hy). }
      rewrite !app_length in H. cbn in H. destruct todo as [|y todo]; [|cbn in *; lia].
      exfalso. unfold fold_left in E. injection E as _ E. discriminate.
Qed.
Lemma start_WI : WI (fun r x => mem r [] && mem x (gdeps g r)) (start g) ([] ++ endpoints g).
Proof.
  cbn [app mem existsb andb]. constructor.
  - apply NoDup_filter, PG.
  - intros t Ht. apply endpoints_In in Ht. destruct Ht as [H1 H2]. split; auto. rewrite H2. intros r [].
  - intros t Ht X. apply endpoints_In. split; auto. destruct (revdeps g t) as [|r l] eqn:E; auto.
    exfalso. specialize (X r (or_introl eq_refl)). discriminate.
  - reflexivity.
  - intros t Ht. cbn. do 2 f_equal. cbn [andb negb]. induction (revdeps g t); cbn; congruence.
  - intros t Ht. cbn. unfold base. replace (filter (fun _ => false) (revdeps g t)) with (@nil nat); [destruct (mem t (endpoints g)); reflexivity|].
    induction (revdeps g t); cbn; auto.
  - intros r t X; discriminate.
  - intros l1 t l2 E r Hr. assert (In t (endpoints g)) by (rewrite E; apply in_or_app; right; left; auto).
    apply endpoints_In in H. destruct H as [_ H]. rewrite H in Hr. destruct Hr.
Qed.

(** ** Loops *)
Lemma needs_task t d : needs g t d -> In t (gtasks g) /\ In d (gtasks g).
Proof.
  destruct PG as [_ X]. induction 1 as [t d H1 H2|t d e H1 H2 H IH]; split; auto; [apply (X t H1); auto|tauto].
Qed.
Lemma needs_app a b c0 : needs g a b -> needs g b c0 -> needs g a c0.
Proof. induction 1; intros K; eapply needs_trans; eauto. Qed.

(** an order in which dependents come first excludes loops above its members *)
Lemma order_above (R : list nat) :
  (forall l1 t l2, R = l1 ++ t :: l2 -> forall r, In r (revdeps g t) -> In r l1) ->
  forall x t, needs g x t -> forall l1 l2, R = l1 ++ t :: l2 -> In x l1.
Proof.
  intros O x t N. induction N as [x t H1 H2|x d t H1 H2 N IH]; intros l1 l2 E.
  - eapply O; eauto. apply revdeps_In; auto.
  - specialize (IH l1 l2 E). apply in_split in IH. destruct IH as (m1 & m2 & ->).
    apply in_or_app. left. eapply (O m1 d (m2 ++ t :: l2)).
    + rewrite E, <- app_assoc. reflexivity.
    + apply revdeps_In; auto.
Qed.
Lemma order_no_loop (R : list nat) : NoDup R ->
  (forall l1 t l2, R = l1 ++ t :: l2 -> forall r, In r (revdeps g t) -> In r l1) ->
  forall t, In t R -> ~ below_loop g t.
Proof.
  intros ND O t Ht (x & N & X).
  assert (L : forall y, In y R -> ~ needs g y y).
  { intros y Hy NY. apply in_split in Hy. destruct Hy as (l1 & l2 & E).
    pose proof (order_above R O y y NY l1 l2 E) as K. subst R. apply NoDup_remove_2 in ND. apply ND. apply in_or_app. auto. }
  destruct X as [->|X]; [eapply L; eauto|]. apply in_split in Ht. destruct Ht as (l1 & l2 & E).
  pose proof (order_above R O x t X l1 l2 E) as K. apply (L x); auto. rewrite E. apply in_or_app. auto.
Qed.

(** going up for ever in a finite graph meets a loop *)
Lemma climb (bad : nat -> Prop) :
  (forall t, bad t -> In t (gtasks g)) -> (forall t, bad t -> exists r, In r (revdeps g t) /\ bad r) ->
  forall t, bad t -> below_loop g t.
Proof.
  intros B1 B2.
  assert (K : forall n path top t, length (gtasks g) - length path <= n -> NoDup (top :: path) ->
             (forall y, In y path -> needs g top y) -> incl (top :: path) (gtasks g) -> bad top ->
             (top = t \/ needs g top t) -> below_loop g t).
  { induction n as [|n IH]; intros path top t L ND NP INC BT TT;
      destruct (B2 top BT) as (r & Hr & BR); apply revdeps_In in Hr; destruct Hr as [Hr1 Hr2];
      assert (N1 : needs g r top) by (constructor; auto).
    - exfalso. pose proof (NoDup_incl_length ND INC). cbn in H. lia.
    - assert (RT : needs g r t) by (destruct TT as [<-|TT]; [auto|eapply needs_app; eauto]).
      destruct (in_dec Nat.eq_dec r (top :: path)) as [IN|NI].
      + exists r. split; auto. destruct IN as [<-|IN]; auto. exact (needs_app r top r N1 (NP r IN)).
      + apply IH with (path := top :: path) (top := r); auto.
        * pose proof (NoDup_incl_length ND INC). cbn in *. lia.
        * constructor; auto.
        * intros y [<-|Hy]; auto. exact (needs_app r top y N1 (NP y Hy)).
        * intros y [<-|Hy]; auto. }
  intros t BT. apply K with (n := length (gtasks g)) (path := []) (top := t); auto.
  - lia.
  - constructor; [intros []|constructor].
  - intros y [].
  - intros y [<-|[]]. auto.
Qed.

Lemma calculate_spec : exists problem w, calculate g = Some (problem, w) /\
  (forall t, In t problem <-> In t (gtasks g) /\ below_loop g t) /\
  (problem = [] -> forall t, In t (gtasks g) -> w t = (base t + total w (revdeps g t))%N).
Proof.
  unfold calculate.
  destruct (rounds_WI (S (length (gtasks g))) [] (endpoints g) (start g)) as (s & R & E & W); [apply start_WI|cbn; lia|auto|cbn; lia|].
  rewrite E. eexists _, _. split; [reflexivity|].
  assert (RE : forall t, In t (gtasks g) -> (In t R <-> forall r, In r (revdeps g t) -> In r R)).
  { intros t Ht. split.
    - intros X r Hr. destruct (w_in _ _ _ W t X) as [_ Y]. specialize (Y r Hr). apply andb_true_iff in Y. now apply mem_In.
    - intros X. apply (w_all _ _ _ W); auto. intros r Hr. apply andb_true_iff. rewrite !mem_In. split; auto. now apply revdeps_In in Hr. }
  assert (PR : forall t, In t (filter (fun t => negb (done s t) || negb (Z.eqb (left s t) 0)) (gtasks g)) <-> In t (gtasks g) /\ ~ In t R).
  { intros t. rewrite filter_In. split; intros [H1 H2]; split; auto.
    - intros X. rewrite (w_done _ _ _ W t H1), (w_left _ _ _ W t H1) in H2.
      apply mem_In in X. rewrite X in H2. cbn in H2. apply mem_In in X. destruct (w_in _ _ _ W t X) as [_ Y].
      replace (filter _ (revdeps g t)) with (@nil nat) in H2; [discriminate|].
      symmetry. clear - Y. induction (revdeps g t) as [|y l IH]; cbn; auto. rewrite Y by (left; auto). cbn. apply IH. intros r Hr. apply Y. now right.
    - rewrite (w_done _ _ _ W t H1). apply mem_false in H2. rewrite H2. reflexivity. }
  split.
  - intros t. rewrite PR. split; intros [H1 H2]; split; auto.
    + apply (climb (fun t => In t (gtasks g) /\ ~ In t R)); [tauto| |auto].
      intros x [X1 X2].
      destruct (in_dec Nat.eq_dec x R) as [Y|_]; [contradiction|].
      assert (D : (forall r, In r (revdeps g x) -> In r R) \/ exists r, In r (revdeps g x) /\ ~ In r R).
      { induction (revdeps g x) as [|y l IH]; [left; intros r []|].
        destruct (in_dec Nat.eq_dec y R) as [Y|N]; [|right; exists y; split; [left|]; auto].
        destruct IH as [A|(r & A & B)]; [left; intros r [<-|Hr]; auto|right; exists r; split; [right|]; auto]. }
      destruct D as [D|(r & D1 & D2)]; [exfalso; apply X2, RE; auto|].
      exists r. split; auto. split; auto. now apply revdeps_In in D1.
    + intros X. revert H2. apply order_no_loop with (R := R); auto; apply W.
  - intros NIL t Ht. rewrite (w_weight _ _ _ W t Ht) at 1. do 2 f_equal.
    assert (AL : forall x, In x (gtasks g) -> In x R).
    { intros x Hx. destruct (in_dec Nat.eq_dec x R) as [Y|N]; auto. exfalso.
      assert (X : In x (filter (fun t => negb (done s t) || negb (Z.eqb (left s t) 0)) (gtasks g))) by (apply PR; auto).
      rewrite NIL in X. destruct X. }
    assert (K : forall l, (forall r, In r l -> In r (gtasks g) /\ In t (gdeps g r)) -> filter (fun r => mem r R && mem t (gdeps g r)) l = l).
    { induction l as [|y l IH]; intros Q; cbn; auto. destruct (Q y (or_introl eq_refl)) as [Q1 Q2].
      assert (E1 : mem y R = true) by (apply mem_In; auto). assert (E2 : mem t (gdeps g y) = true) by (apply mem_In; auto).
      rewrite E1, E2. cbn. f_equal. apply IH. intros r Hr. apply Q. now right. }
    apply K. intros r Hr. now apply revdeps_In in Hr.
Qed.

(** ** The loops that are printed *)
Lemma linked_app l : forall x y m z, linked g x (l ++ y :: m) z <-> linked g x l y /\ linked g y m z.
Proof.
  induction l as [|a l IH]; intros x y m z; cbn; [tauto|]. rewrite IH. tauto.
Qed.
Lemma rotate x a y b : loop_chain g (x :: a ++ y :: b) -> loop_chain g (y :: b ++ x :: a).
Proof. cbn. rewrite !linked_app. tauto. Qed.
Lemma reorder_loop chain : loop_chain g chain -> loop_chain g (chain_reorder chain).
Proof.
  intros L. unfold chain_reorder. destruct chain as [|x l]; auto. generalize (lowest l 1 x 0). intros k.
  rewrite <- (firstn_skipn k (x :: l)) in L. destruct (firstn k (x :: l)) as [|p a]; [rewrite app_nil_r; auto|].
  destruct (skipn k (x :: l)) as [|q b]; [cbn in *; rewrite app_nil_r in L; auto|].
  apply rotate in L. exact L.
Qed.

(** a chain going up: every task is needed by the one after it *)
Definition rising (l : list nat) : Prop := forall l1 a b l2, l = l1 ++ a :: b :: l2 -> In b (revdeps g a).
Lemma rising_linked l : forall x last r, rising (x :: l ++ [last]) -> In r (revdeps g last) -> linked g x (l ++ [last]) r.
Proof.
  induction l as [|a l IH]; intros x last r R L; cbn.
  - specialize (R [] x last [] eq_refl). apply revdeps_In in R. apply revdeps_In in L. tauto.
  - pose proof (R [] x a (l ++ [last]) eq_refl) as X. apply revdeps_In in X. split; [tauto|split; [tauto|]].
    apply IH; auto. intros l1 p q l2 E. apply (R (x :: l1) p q l2). cbn. f_equal. exact E.
Qed.
Lemma from_split r l : In r l -> exists l1 l2, l = l1 ++ r :: l2 /\ from r l = r :: l2.
Proof.
  induction l as [|x l IH]; intros H; [destruct H|]. cbn. destruct (Nat.eqb_spec x r) as [->|N].
  - exists [], l. auto.
  - destruct H as [H|H]; [congruence|]. destruct (IH H) as (l1 & l2 & E & F). exists (x :: l1), l2. split; [cbn; congruence|auto].
Qed.
Lemma from_loop prev t r : rising (prev ++ [t]) -> In r (revdeps g t) -> In r (prev ++ [t]) -> loop_chain g (from r (prev ++ [t])).
Proof.
  intros R RT H. destruct (from_split r _ H) as (l1 & l2 & E & F). rewrite F. cbn.
  destruct l2 as [|y l2] using rev_ind.
  - apply app_inj_tail in E. destruct E as [_ ->]. cbn. apply revdeps_In in RT. tauto.
  - clear IHl2. change (r :: l2 ++ [y]) with ((r :: l2) ++ [y]) in E. rewrite app_assoc in E. apply app_inj_tail in E. destruct E as [E <-].
    apply rising_linked; auto. intros m1 a b m2 Q. apply (R (l1 ++ m1) a b m2). rewrite E, <- !app_assoc. f_equal.
    exact Q.
Qed.

Definition good_chains (l : list (list nat)) : Prop := NoDup l /\ forall ch, In ch l -> loop_chain g ch.
Definition known (ex : list (nat * list nat)) (t : nat) : Prop := lookup t ex <> None.
(** as long as nothing was found, the explored tasks are in an order that excludes loops *)
Definition ordered (ex : list (nat * list nat)) : Prop :=
  exists R, NoDup R /\ (forall t, known ex t <-> In t R) /\
    (forall l1 t l2, R = l1 ++ t :: l2 -> forall r, In r (revdeps g t) -> In r l1).
Record after (ex : list (nat * list nat)) (ch : list (list nat)) (res : search) (t : nat) : Prop := {
  r_ok : res <> Broken;
  r_halt : forall ch', res = Halted ch' -> good_chains ch' /\ ch' <> [];
  r_found : forall ex' ch', res = Found ex' ch' -> good_chains ch' /\ (exists e, ch' = ch ++ e) /\ known ex' t /\
               (forall x, known ex x -> known ex' x) /\ (ch' = [] -> ordered ex -> ordered ex')
}.
Lemma chain_eqb_eq a b : chain_eqb a b = true <-> a = b.
Proof. unfold chain_eqb. destruct (list_eq_dec Nat.eq_dec a b); split; congruence. Qed.
Lemma known_cons t v ex x : known ((t, v) :: ex) x <-> x = t \/ known ex x.
Proof.
  unfold known, lookup. cbn. destruct (Nat.eqb_spec t x) as [->|N].
  - split; [auto|]. intros _. discriminate.
  - split; [auto|]. intros [->|H]; [congruence|auto].
Qed.
Lemma ordered_push t v ex : ordered ex -> (forall r, In r (revdeps g t) -> known ex r) -> ordered ((t, v) :: ex).
Proof.
  intros (R & ND & K & O) H. destruct (in_dec Nat.eq_dec t R) as [Y|N].
  - exists R. split; auto. split; auto. intros x. rewrite known_cons, K. split; auto. intros [->|X]; auto.
  - exists (R ++ [t]). split; [|split].
    + apply NoDup_rev in ND. rewrite <- (rev_involutive (R ++ [t])). apply NoDup_rev. rewrite rev_app_distr. cbn. constructor; auto.
      now rewrite <- in_rev.
    + intros x. rewrite known_cons, K, in_app_iff. cbn. intuition.
    + intros l1 x l2 E r Hr. destruct l2 as [|y l2] using rev_ind.
      * apply app_inj_tail in E. destruct E as [<- <-]. apply K. auto.
      * clear IHl2. change (l1 ++ x :: l2 ++ [y]) with (l1 ++ (x :: l2) ++ [y]) in E. rewrite app_assoc in E. apply app_inj_tail in E. destruct E as [E _]. eauto.
Qed.
Lemma good_chains_add l ch : good_chains l -> loop_chain g ch -> existsb (chain_eqb ch) l = false -> good_chains (l ++ [ch]).
Proof.
  intros [A B] L E. split.
  - apply NoDup_rev in A. rewrite <- (rev_involutive (l ++ [ch])). apply NoDup_rev. rewrite rev_app_distr. cbn. constructor; auto.
    rewrite <- in_rev. intros X. assert (existsb (chain_eqb ch) l = true); [|congruence].
    apply existsb_exists. exists ch. split; auto. now apply chain_eqb_eq.
  - intros c0 X. apply in_app_or in X. destruct X as [X|[<-|[]]]; auto.
Qed.
Lemma scan_after f t prev :
  (forall r ex ch, In r (revdeps g t) -> ~ In r (prev ++ [t]) -> good_chains ch -> after ex ch (find_chains g f r (prev ++ [t]) ex ch) r) ->
  rising (prev ++ [t]) ->
  forall rs total ex ch, (forall r, In r rs -> In r (revdeps g t)) -> good_chains ch ->
  (ch = [] -> forall r, In r (revdeps g t) -> In r rs \/ known ex r) ->
  after ex ch (scan_revdeps (find_chains g f) t (prev ++ [t]) rs total ex ch) t.
Proof.
  intros REC RI. induction rs as [|r rs IH]; intros tot ex ch RS G KN; cbn [scan_revdeps].
  - constructor; try discriminate. intros ex' ch' E. injection E as <- <-. split; auto. split; [exists []; now rewrite app_nil_r|].
    split; [apply known_cons; auto|]. split; [intros x X; apply known_cons; auto|].
    intros NIL O. apply ordered_push; auto. intros r Hr. destruct (KN NIL r Hr) as [[]|X]; auto.
  - destruct (mem r (prev ++ [t])) eqn:M.
    + apply mem_In in M. pose proof (reorder_loop _ (from_loop prev t r RI (RS r (or_introl eq_refl)) M)) as LC.
      set (ch1 := if existsb _ ch then ch else _).
      assert (G1 : good_chains ch1 /\ ch1 <> [] /\ exists e, ch1 = ch ++ e).
      { unfold ch1. destruct (existsb _ ch) eqn:EX.
        - split; auto. split; [|exists []; now rewrite app_nil_r]. intros ->. discriminate.
        - split; [now apply good_chains_add|]. split; [destruct ch; discriminate|]. eexists; reflexivity. }
      destruct G1 as (G1 & N1 & (e & E1)).
      destruct (Nat.ltb 10 (length ch1)).
      * constructor; try discriminate. intros ch' E. injection E as <-. auto.
      * destruct (IH tot ex ch1) as [A B C]; auto.
        -- intros x X. apply RS. now right.
        -- intros X. congruence.
        -- constructor; auto. intros ex' ch' E. destruct (C ex' ch' E) as (C1 & (e2 & C2) & C3 & C4 & C5).
           split; auto. split; [exists (e ++ e2); rewrite C2, E1, app_assoc; auto|]. auto.
    + apply mem_false in M.
      set (scan := match lookup r ex with None => true | Some ds => _ end).
      assert (AF : after ex ch (if scan then find_chains g f r (prev ++ [t]) ex ch else Found ex ch) r).
      { destruct scan eqn:SC; [apply REC; auto; apply RS; now left|].
        constructor; try discriminate. intros ex' ch' E. injection E as <- <-. split; auto. split; [exists []; now rewrite app_nil_r|].
        split; [|auto]. unfold known. intros X. unfold scan in SC. rewrite X in SC. discriminate. }
      destruct AF as [A B C]. destruct (if scan then _ else _) as [ex1 ch1|ch1|]; [| |congruence].
      * destruct (C ex1 ch1 eq_refl) as (C1 & (e & C2) & C3 & C4 & C5). unfold known in C3.
        destruct (lookup r ex1) as [ds|] eqn:LU; [|congruence].
        destruct (IH (tot ++ filter (fun d => negb (mem d tot)) ds) ex1 ch1) as [A' B' C']; auto.
        -- intros x X. apply RS. now right.
        -- intros NIL x Hx. assert (ch = []) by (destruct ch; auto; rewrite NIL in C2; discriminate).
           destruct (KN H x Hx) as [[<-|X]|X]; auto. right. unfold known. congruence.
        -- constructor; auto. intros ex' ch' E. destruct (C' ex' ch' E) as (D1 & (e2 & D2) & D3 & D4 & D5).
           split; auto. split; [exists (e ++ e2); rewrite D2, C2, app_assoc; auto|]. split; auto. split; auto.
           intros NIL O. apply D5; auto. apply C5; auto. rewrite D2 in NIL. apply app_eq_nil in NIL. tauto.
      * constructor; try discriminate; auto.
Qed.
Lemma rising_snoc l a b : rising (l ++ [a]) -> In b (revdeps g a) -> rising ((l ++ [a]) ++ [b]).
Proof.
  intros R H l1 x y l2 E. destruct l2 as [|z l2] using rev_ind.
  - change (l1 ++ [x; y]) with (l1 ++ [x] ++ [y]) in E. rewrite app_assoc in E. apply app_inj_tail in E. destruct E as [E <-].
    apply app_inj_tail in E. destruct E as [_ <-]. auto.
  - clear IHl2. change (l1 ++ x :: y :: l2 ++ [z]) with (l1 ++ (x :: y :: l2) ++ [z]) in E. rewrite app_assoc in E. apply app_inj_tail in E. destruct E as [E _]. eauto.
Qed.
Lemma find_chains_after f : forall t prev ex ch,
  NoDup (prev ++ [t]) -> incl (prev ++ [t]) (gtasks g) -> rising (prev ++ [t]) -> good_chains ch ->
  length (gtasks g) < f + length prev ->
  after ex ch (find_chains g f t prev ex ch) t.
Proof.
  induction f as [|f IH]; intros t prev ex ch ND INC RI G L; cbn [find_chains].
  - exfalso. pose proof (NoDup_incl_length ND INC) as X. rewrite app_length in X. cbn in X. lia.
  - apply scan_after; auto.
    intros r ex0 ch0 Hr NR G0. apply IH; auto.
    + apply NoDup_rev in ND. rewrite <- (rev_involutive ((prev ++ [t]) ++ [r])). apply NoDup_rev. rewrite rev_app_distr. cbn [rev app]. constructor; auto.
      now rewrite <- in_rev.
    + intros x X. apply in_app_or in X. destruct X as [X|[<-|[]]]; auto. now apply revdeps_In in Hr.
    + now apply rising_snoc.
    + rewrite app_length. cbn. lia.
Qed.
Lemma depchains_after ts : forall ex ch, incl ts (gtasks g) -> good_chains ch -> (ch = [] -> ordered ex) ->
  match depchains g (S (length (gtasks g))) ts ex ch with
  | Found ex' ch' => good_chains ch' /\ (ch' = [] -> ordered ex' /\ forall t, In t ts \/ known ex t -> known ex' t)
  | Halted ch' => good_chains ch' /\ ch' <> []
  | Broken => False
  end.
Proof.
  induction ts as [|t ts IH]; intros ex ch INC G O; cbn [depchains].
  - split; auto. intros N. split; auto. intros t [[]|X]; auto.
  - destruct (find_chains_after (S (length (gtasks g))) t [] ex ch) as [A B C]; auto.
    + constructor; [intros []|constructor].
    + intros x [<-|[]]. apply INC. now left.
    + intros l1 a b l2 E. destruct l1 as [|? [|? ?]]; discriminate.
    + cbn. lia.
    + destruct (find_chains g (S (length (gtasks g))) t [] ex ch) as [ex1 ch1|ch1|]; [| |congruence].
      * destruct (C ex1 ch1 eq_refl) as (C1 & (e & C2) & C3 & C4 & C5).
        assert (O1 : ch1 = [] -> ordered ex1).
        { intros N. apply C5; auto. apply O. rewrite C2 in N. apply app_eq_nil in N. tauto. }
        specialize (IH ex1 ch1). destruct (depchains g (S (length (gtasks g))) ts ex1 ch1) as [ex' ch'|ch'|].
        -- destruct IH as [I1 I2]; auto. { intros x X. apply INC. now right. } split; auto. intros N. destruct (I2 N) as [I3 I4]. split; auto.
           intros x [[<-|X]|X]; auto.
        -- apply IH; auto. intros x X. apply INC. now right.
        -- apply IH; auto. intros x X. apply INC. now right.
      * auto.
Qed.
Lemma printed_spec problem : incl problem (gtasks g) ->
  exists chains, printed_loops g problem = Some chains /\ NoDup chains /\ (forall ch, In ch chains -> loop_chain g ch) /\
    (forall t, In t problem -> below_loop g t -> chains <> []).
Proof.
  intros INC. unfold printed_loops. pose proof (depchains_after problem [] [] INC) as D.
  assert (G0 : good_chains []) by (split; [constructor|intros ch []]).
  assert (O0 : ordered []).
  { exists []. split; [constructor|]. split; [|intros l1 t l2 E; destruct l1; discriminate]. intros t. unfold known. cbn. split; [congruence|intros []]. }
  specialize (D G0 (fun _ => O0)). destruct (depchains g _ problem [] []) as [ex ch|ch|]; [| |destruct D].
  - exists ch. destruct D as [[D1 D2] D3]. split; auto. split; auto. split; auto. intros t Ht BL N.
    destruct (D3 N) as ((R & ND & K & O) & D5). apply (order_no_loop R ND O t); auto. apply K. apply D5. auto.
  - exists ch. destruct D as [[D1 D2] D3]. auto.
Qed.
Lemma loop_chain_needs ch t : loop_chain g ch -> In t ch -> needs g t t.
Proof.
  assert (K : forall l x z, linked g x l z -> needs g z x).
  { induction l as [|y l IH]; intros x z H; cbn in H; [constructor; tauto|]. destruct H as (A & B & C). eapply needs_app; [eapply IH; eauto|]. constructor; auto. }
  intros L H. destruct ch as [|x l]; [destruct H|]. destruct H as [->|H]; [eapply K; eauto|].
  apply in_split in H. destruct H as (a & b & ->). apply rotate in L. cbn in L. eapply K; eauto.
Qed.
End P.
