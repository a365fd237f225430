(** Lemmas about the graph of the setscene tasks. *)
From Coq Require Import List Bool ZArith Arith Lia.
From Verif Require Import Runq_Model Runq_Spec Runq_Proofs Sceneq_Model Sceneq_Spec.
Import ListNotations.
Open Scope list_scope.

Lemma put_same f k v : put f k v k = v. Proof. unfold put. now rewrite Nat.eqb_refl. Qed.
Lemma put_other f k v x : x <> k -> put f k v x = f x. Proof. unfold put. intros H. apply Nat.eqb_neq in H. now rewrite H. Qed.
Lemma nil_no {A} (l : list A) : l = [] <-> forall x, ~ In x l.
Proof. destruct l as [|a l]; split; intros H; auto; try discriminate. elim (H a). now left. Qed.
Lemma not_nil {A} (l : list A) : l <> [] <-> exists x, In x l.
Proof. destruct l as [|a l]; split; intros H; try (now elim H); try (destruct H as [x []]); try discriminate. exists a. now left. Qed.
Definition keys (l : points) : list nat := map fst l.
Lemma has_In k l : has k l = true <-> In k (keys l).
Proof. unfold has, keys. rewrite existsb_exists, in_map_iff. split; intros (p & A & B); exists p; split; auto; [apply Nat.eqb_eq; auto|now apply Nat.eqb_eq]. Qed.
Lemma assign_keys k v l x : In x (keys (assign k v l)) <-> x = k \/ In x (keys l).
Proof.
  unfold assign. destruct (has k l) eqn:H.
  - assert (E : keys (map (fun p => if Nat.eqb (fst p) k then (k, v) else p) l) = keys l).
    { unfold keys. rewrite map_map. apply map_ext. intros [a b]. cbn. destruct (Nat.eqb a k) eqn:E; auto. apply Nat.eqb_eq in E. auto. }
    rewrite E. split; auto. intros [->|I]; auto. now apply has_In.
  - unfold keys. rewrite map_app, in_app_iff. cbn. intuition.
Qed.
Lemma assign_In k v l p : In p (assign k v l) -> p = (k, v) \/ In p l.
Proof.
  unfold assign. destruct (has k l).
  - intros I. apply in_map_iff in I. destruct I as (q & E & I). destruct (Nat.eqb (fst q) k); subst; auto.
  - rewrite in_app_iff. cbn. intuition.
Qed.
Lemma add_to_keys k v l x : In x (keys (add_to k v l)) <-> x = k \/ In x (keys l).
Proof.
  unfold add_to. destruct (has k l) eqn:H.
  - assert (E : keys (map (fun p => if Nat.eqb (fst p) k then (k, add v (snd p)) else p) l) = keys l).
    { unfold keys. rewrite map_map. apply map_ext. intros [a b]. cbn. destruct (Nat.eqb a k) eqn:E; auto. apply Nat.eqb_eq in E. auto. }
    rewrite E. split; auto. intros [->|I]; auto. now apply has_In.
  - unfold keys. rewrite map_app, in_app_iff. cbn. intuition.
Qed.
(** the pairs that a dictionary of sets holds *)
Definition holds (l : points) (k v : nat) : Prop := exists vs, In (k, vs) l /\ In v vs.
Lemma add_to_holds k v l x y : holds (add_to k v l) x y <-> (x = k /\ y = v) \/ holds l x y.
Proof.
  unfold add_to, holds. destruct (has k l) eqn:H.
  - apply has_In in H. unfold keys in H. apply in_map_iff in H. destruct H as ([k' vs0] & E & I0). cbn in E. subst k'. split.
    + intros (vs & I & J). apply in_map_iff in I. destruct I as ([a b] & E & I). cbn in E. destruct (Nat.eqb a k) eqn:Q.
      * apply Nat.eqb_eq in Q. injection E as <- <-. subst a. apply add_In in J. destruct J as [->|J]; eauto.
      * injection E as <- <-. eauto.
    + intros [[-> ->]|(vs & I & J)].
      * exists (add v vs0). split; [apply in_map_iff; exists (k, vs0); cbn; now rewrite Nat.eqb_refl|apply add_In; auto].
      * destruct (Nat.eqb x k) eqn:Q.
        -- apply Nat.eqb_eq in Q. subst x. exists (add v vs). split; [apply in_map_iff; exists (k, vs); cbn; now rewrite Nat.eqb_refl|apply add_In; auto].
        -- exists vs. split; auto. apply in_map_iff. exists (x, vs). cbn. now rewrite Q.
  - split.
    + intros (vs & I & J). apply in_app_iff in I. destruct I as [I|[[= <- <-]|[]]]; [eauto|]. destruct J as [<-|[]]. auto.
    + intros [[-> ->]|(vs & I & J)]; [exists [v]|exists vs]; (split; [apply in_or_app; cbn; auto|cbn; auto]).
Qed.
Lemma holds_key l k v : holds l k v -> In k (keys l).
Proof. intros (vs & I & _). unfold keys. apply in_map_iff. exists (k, vs). auto. Qed.
Lemma holds_app a b k v : holds (a ++ b) k v <-> holds a k v \/ holds b k v.
Proof. unfold holds. split; [intros (vs & I & J); apply in_app_iff in I; destruct I; eauto|intros [(vs & I & J)|(vs & I & J)]; exists vs; rewrite in_app_iff; auto]. Qed.
Lemma keys_app a b : keys (a ++ b) = keys a ++ keys b. Proof. apply map_app. Qed.

Section Scene.
Variable c : cfg.
Hypothesis closed : forall t d, In t (tasks c) -> In d (depends c t) -> In d (tasks c).
Variable rank : nat -> nat.
Hypothesis ranked : forall t d, In t (tasks c) -> In d (depends c t) -> rank d < rank t.
Hypothesis scene_tasks : forall t, In t (scene c) -> In t (tasks c).
Notation stretch := (stretch c).
Notation scened t := (In t (scene c)).

Lemma revdeps_In p d : In p (revdeps c d) <-> In p (tasks c) /\ In d (depends c p).
Proof. unfold revdeps. rewrite filter_In, mem_In. tauto. Qed.

(** *** A level *)
Lemma hand_down_fold point task ts ds : forall s new s' new',
  fold_left (hand_down c point task ts) ds (s, new) = (s', new') ->
  (forall x p, In p (rv s' x) <-> In p (rv s x) /\ ~ (In x ds /\ p = point)) /\
  (forall x t, In t (sq s' x) <-> In t (sq s x) \/ (In x ds /\ In t ts)) /\
  cl s' = cl s /\
  (forall x, In x (keys new) -> In x (keys new')) /\
  (forall x, In x ds -> ~ scened x -> rv s' x = [] -> In x (keys new')) /\
  (forall p, In p new' -> In p new \/ (In (fst p) ds /\ snd p = task)).
Proof.
  induction ds as [|d ds IH]; intros s new s' new' E; cbn [fold_left] in E.
  { injection E as <- <-. split; [intros; cbn; tauto|]. split; [intros; cbn; tauto|]. split; auto. split; auto. split; [intros x []|auto]. }
  unfold hand_down at 2 in E. cbn [rv] in E. set (s1 := {| rv := put (rv s) d (del point (rv s d)); sq := put (sq s) d (union (sq s d) ts); cl := cl s |}) in E.
  set (new1 := if is_nil (put (rv s) d (del point (rv s d)) d) && negb (mem d (scene c)) then assign d task new else new) in E.
  destruct (IH s1 new1 s' new' E) as (R & Q & L & K & F & P). clear IH E.
  assert (R1 : forall x p, In p (rv s1 x) <-> In p (rv s x) /\ ~ (x = d /\ p = point)).
  { intros x p. cbn [s1 rv]. destruct (Nat.eq_dec x d) as [->|N]; [rewrite put_same, del_In|rewrite put_other by auto]; tauto. }
  assert (Q1 : forall x t, In t (sq s1 x) <-> In t (sq s x) \/ (x = d /\ In t ts)).
  { intros x t. cbn [s1 sq]. destruct (Nat.eq_dec x d) as [->|N]; [rewrite put_same, union_In|rewrite put_other by auto]; tauto. }
  split; [intros x p; rewrite R, R1; cbn [In]; split; [intros [[A B] D]; split; auto; intros [[->|I] ->]; tauto|intros [A B]; split; [split; auto; intros [-> ->]; tauto|tauto]]|].
  split; [intros x t; rewrite Q, Q1; cbn [In]; split; [intros [[A|[-> A]]|[A B]]; auto|intros [A|[[->|A] B]]; auto]|].
  split; [rewrite L; reflexivity|]. split; [|split].
  - intros x I. apply K. unfold new1. destruct (_ && _); auto. apply assign_keys. auto.
  - intros x I NS E. destruct (in_dec Nat.eq_dec x ds) as [J|J]; [auto|]. destruct I as [<-|I]; [|contradiction]. apply K. unfold new1. rewrite put_same.
    assert (X : del point (rv s d) = []).
    { apply nil_no. intros p Ip. apply del_In in Ip. rewrite nil_no in E. apply (E p). apply R. split; [|tauto]. apply R1. split; [tauto|]. intros [_ ->]. tauto. }
    rewrite X. cbn [is_nil]. apply (proj2 (mem_false _ _)) in NS. rewrite NS. cbn. apply assign_keys. auto.
  - intros p I. destruct (P p I) as [J|[J J']]; [|right; split; [now right|auto]]. unfold new1 in J. destruct (_ && _); auto. apply assign_In in J. destruct J as [->|J]; auto. right. cbn. auto.
Qed.

Record inv (s : data) (l new : points) : Prop := {
  v_sq : forall p t, In t (sq s p) -> scened t /\ stretch t p;
  v_pts : forall p t, holds (l ++ new) p t -> scened t /\ stretch t p;
  v_cl : forall a x, In x (cl s a) -> scened a /\ ~ scened x /\ stretch a x;
  v_keys : forall p, In p (keys (l ++ new)) -> In p (tasks c);
  v_rv : forall p d, In p (rv s d) -> In p (tasks c) /\ In d (depends c p) /\ ~ scened p;
  v_todo : forall p, In p (tasks c) -> ~ scened p -> In p (keys (l ++ new)) \/ rv s p <> [] \/ forall d, In d (depends c p) -> ~ In p (rv s d);
  v_kept : forall d, ~ scened d -> sq s d <> [] -> In d (keys (l ++ new)) \/ rv s d <> [];
  v_all : forall a x d, scened a -> x = a \/ In x (cl s a) -> In d (depends c x) -> In d (cl s a) \/ In a (sq s d) \/ holds l d a
}.

Lemma cl_fold point ts : forall f a x, In x (fold_left (fun f t => put f t (add point (f t))) ts f a) <-> In x (f a) \/ (In a ts /\ x = point).
Proof.
  induction ts as [|t ts IH]; intros f a x; cbn [fold_left]; [cbn; tauto|]. rewrite IH. cbn [In]. unfold put at 1. destruct (Nat.eqb a t) eqn:E.
  - apply Nat.eqb_eq in E. subst. rewrite add_In. split; [intros [[->|I]|[I ->]]; auto|intros [I|[I ->]]; auto].
  - apply Nat.eqb_neq in E. split; [intros [I|[I ->]]; auto|intros [I|[[->|I] ->]]; auto; contradiction].
Qed.

Lemma do_point_ok s l new point task s' new' : inv s ((point, task) :: l) new -> do_point c (s, new) (point, task) = (s', new') ->
  inv s' l new' /\ (forall p, In p (keys new') -> In p (keys new) \/ In p (depends c point)).
Proof.
  intros [Vsq Vp Vcl Vk Vr Vt Vs Va] E. unfold do_point in E. set (ts := union task (sq s point)) in E.
  assert (TS : forall t, In t ts -> scened t /\ stretch t point).
  { intros t I. unfold ts in I. apply union_In in I. destruct I as [I|I]; [|now apply Vsq]. apply Vp. exists task. split; [now left|auto]. }
  assert (PT : In point (tasks c)) by (apply Vk; now left).
  assert (HO : forall d a, holds ((point, task) :: l) d a -> (d = point /\ In a task) \/ holds l d a).
  { intros d a (vs & [[= <- <-]|I] & J); [auto|]. right. exists vs. auto. }
  destruct (mem point (scene c)) eqn:M.
  - apply mem_In in M. injection E as <- <-. split; [|auto]. constructor; cbn [rv sq cl].
    + intros p t. destruct (Nat.eq_dec p point) as [->|N]; [rewrite put_same|rewrite put_other by auto]; auto.
    + intros p t H. apply Vp. apply holds_app in H. destruct H as [(vs & I & J)|(vs & I & J)]; exists vs; (split; [|auto]); [right|]; apply in_or_app; [left|right]; auto.
    + auto.
    + intros p I. apply Vk. right. auto.
    + auto.
    + intros p T N. destruct (Vt p T N) as [[E|I]|H]; auto; cbn in E; congruence.
    + intros d N H. destruct (Nat.eq_dec d point) as [->|N']; [contradiction|]. rewrite put_other in H by auto. destruct (Vs d N H) as [[E|I]|H']; auto; cbn in E; congruence.
    + intros a x d A X D. destruct (Va a x d A X D) as [H|[H|H]]; auto.
      * right. left. destruct (Nat.eq_dec d point) as [->|N]; [rewrite put_same; unfold ts; apply union_In; auto|rewrite put_other by auto; auto].
      * destruct (HO d a H) as [[-> H']|H']; auto. right. left. rewrite put_same. unfold ts. apply union_In. auto.
  - apply mem_false in M. destruct (hand_down_fold point task ts (depends c point) _ new s' new' E) as (R & Q & L & K & F & P). cbn [rv sq cl] in *.
    assert (QQ : forall x t, In t (sq s' x) <-> (x <> point /\ In t (sq s x)) \/ (In x (depends c point) /\ In t ts)).
    { intros x t. rewrite Q. destruct (Nat.eq_dec x point) as [->|N]; [rewrite put_same|rewrite put_other by auto]; cbn; tauto. }
    assert (LL : forall a x, In x (cl s' a) <-> In x (cl s a) \/ (In a ts /\ x = point)) by (intros a x; rewrite L; apply cl_fold).
    split.
    2:{ intros p I. unfold keys in I. apply in_map_iff in I. destruct I as (q & <- & I). destruct (P q I) as [J|[J _]]; auto. left. unfold keys. apply in_map. auto. }
    assert (NK : forall p, In p (keys (l ++ new)) -> In p (keys (l ++ new'))).
    { intros p. rewrite !keys_app, !in_app_iff. intros [I|I]; auto. }
    constructor.
    + intros p t H. apply QQ in H. destruct H as [[_ H]|[H J]]; [auto|]. destruct (TS t J) as [A B]. split; auto. eapply stretch_via; eauto.
    + intros p t H. apply holds_app in H. destruct H as [(vs & I & J)|(vs & I & J)]; [apply Vp; exists vs; split; auto; right; apply in_or_app; auto|].
      destruct (P _ I) as [I'|[I' E']]; [apply Vp; exists vs; split; auto; right; apply in_or_app; auto|]. cbn in I', E'. subst vs.
      destruct (TS t) as [A B]; [unfold ts; apply union_In; auto|]. split; auto. eapply stretch_via; eauto.
    + intros a x H. apply LL in H. destruct H as [H|[H ->]]; [auto|]. destruct (TS a H). auto.
    + intros p I. rewrite keys_app, in_app_iff in I. destruct I as [I|I]; [apply Vk; right; fold (keys (l ++ new)); rewrite keys_app; apply in_or_app; auto|].
      unfold keys in I. apply in_map_iff in I. destruct I as (q & <- & I). destruct (P q I) as [J|[J _]]; [apply Vk; right; fold (keys (l ++ new)); rewrite keys_app; apply in_or_app; right; apply in_map; auto|eauto].
    + intros p d H. apply R in H. apply Vr, H.
    + intros p T N. destruct (Nat.eq_dec p point) as [->|NP]. { right. right. intros d D H. apply R in H. tauto. }
      destruct (Vt p T N) as [[I|I]|[H|H]]; [cbn in I; congruence|left; apply NK; auto| |].
      * destruct (list_eq_dec Nat.eq_dec (rv s' p) []) as [E'|E']; [|auto]. apply not_nil in H. destruct H as [q H].
        left. rewrite keys_app. apply in_or_app. right. apply F; auto. destruct (in_dec Nat.eq_dec p (depends c point)) as [D|D]; auto.
        exfalso. rewrite nil_no in E'. apply (E' q), R. split; auto. tauto.
      * right. right. intros d D I. apply R in I. apply (H d D). apply I.
    + intros d N H. apply not_nil in H. destruct H as [t H]. apply QQ in H. destruct H as [[NP H]|[D H]].
      * destruct (Vs d N) as [[I|I]|I]; [intros E'; rewrite E' in H; destruct H|cbn in I; congruence|left; apply NK; auto|].
        destruct (list_eq_dec Nat.eq_dec (rv s' d) []) as [E'|E']; [|auto]. apply not_nil in I. destruct I as [q I].
        left. rewrite keys_app. apply in_or_app. right. apply F; auto. destruct (in_dec Nat.eq_dec d (depends c point)) as [D|D]; auto.
        exfalso. rewrite nil_no in E'. apply (E' q), R. split; auto. tauto.
      * destruct (list_eq_dec Nat.eq_dec (rv s' d) []) as [E'|E']; [|auto]. left. rewrite keys_app. apply in_or_app. right. apply F; auto.
    + intros a x d A X D.
      destruct (in_dec Nat.eq_dec a ts) as [I|I].
      * destruct (Nat.eq_dec d point) as [->|ND]; [left; apply LL; auto|].
        assert (X' : x = point \/ (x = a \/ In x (cl s a))) by (destruct X as [X|X]; auto; apply LL in X; destruct X as [X|[_ X]]; auto).
        destruct X' as [->|X']; [right; left; apply QQ; auto|]. destruct (Va a x d A X' D) as [H|[H|H]]; [left; apply LL; auto|right; left; apply QQ; auto|].
        destruct (HO d a H) as [[-> _]|H']; [congruence|auto].
      * assert (X' : x = a \/ In x (cl s a)) by (destruct X as [X|X]; auto; apply LL in X; destruct X as [X|[X _]]; [auto|contradiction]).
        destruct (Va a x d A X' D) as [H|[H|H]]; [left; apply LL; auto| |].
        -- destruct (Nat.eq_dec d point) as [->|ND]; [|right; left; apply QQ; auto]. elim I. unfold ts. apply union_In. auto.
        -- destruct (HO d a H) as [[-> H']|H']; [|auto]. elim I. unfold ts. apply union_In. auto.
Qed.
Lemma level_ok l : forall s new s' new' m, inv s l new -> (forall p, In p (keys l) -> rank p <= m) -> (forall p, In p (keys new) -> rank p < m) ->
  fold_left (do_point c) l (s, new) = (s', new') -> inv s' [] new' /\ forall p, In p (keys new') -> rank p < m.
Proof.
  induction l as [|[point task] l IH]; intros s new s' new' m I A B E; cbn [fold_left] in E; [injection E as <- <-; auto|].
  destruct (do_point c (s, new) (point, task)) as [s1 new1] eqn:E1. assert (PT : In point (tasks c)) by (apply (v_keys _ _ _ I); now left).
  destruct (do_point_ok s l new point task s1 new1 I E1) as [I1 K1].
  apply (IH s1 new1 s' new' m I1); auto; [intros p H; apply A; now right|]. intros p H. destruct (K1 p H) as [H'|H']; auto.
  assert (rank p < rank point) by (apply ranked; auto). assert (rank point <= m) by (apply A; now left). lia.
Qed.
Lemma inv_next s l : inv s [] l -> inv s l [].
Proof.
  intros [Vsq Vp Vcl Vk Vr Vt Vs Va]. cbn [app] in *. constructor; auto; try (rewrite app_nil_r; auto).
  intros a x d A X D. destruct (Va a x d A X D) as [H|[H|(vs & [] & _)]]; auto.
Qed.
Lemma do_points_ok n : forall l s m, inv s l [] -> (forall p, In p (keys l) -> rank p <= m) -> m < n -> exists s', do_points c n l s = Some s' /\ inv s' [] [].
Proof.
  induction n as [|n IH]; intros l s m I A L; [lia|]. cbn [do_points]. destruct (fold_left (do_point c) l (s, [])) as [s1 new1] eqn:E.
  destruct (level_ok l s [] s1 new1 m I A ltac:(intros p []) E) as [I1 K1]. destruct new1 as [|q new1]; [eauto|]. assert (m <> 0).
  { intros ->. specialize (K1 (fst q)). cbn in K1. specialize (K1 (or_introl eq_refl)). lia. }
  apply (IH (q :: new1) s1 (m - 1)); [now apply inv_next| |lia]. intros p H0. specialize (K1 p H0). lia.
Qed.

(** *** The beginning *)
Record start (s : data) (e : points) (done : nat -> nat -> Prop) : Prop := {
  b_sq : sq s = fun _ => []; b_cl : cl s = fun _ => [];
  b_rv : forall x p, In p (rv s x) <-> In p (revdeps c x) /\ ~ done p x;
  b_holds : forall x a, holds e x a <-> done a x;
  b_keys : forall x, In x (keys e) <-> (exists a, done a x) \/ (In x (tasks c) /\ ~ scened x /\ revdeps c x = [])
}.
Lemma start_fold_deps t ds : forall s e done s' e', start s e done -> fold_left (cut_edge t) ds (s, e) = (s', e') ->
  start s' e' (fun a x => done a x \/ (a = t /\ In x ds)).
Proof.
  induction ds as [|d ds IH]; intros s e done s' e' [Bs Bc Br Bh Bk] E; cbn [fold_left] in E.
  - injection E as <- <-. constructor; auto.
    + intros x p. rewrite Br. cbn. tauto.
    + intros x a. rewrite Bh. cbn. tauto.
    + intros x. rewrite Bk. split; (intros [[a H]|H]; [left; exists a; cbn in *; tauto|auto]).
  - cbn [cut_edge] in E.
    assert (S1 : start {| rv := put (rv s) d (del t (rv s d)); sq := sq s; cl := cl s |} (add_to d t e) (fun a x => done a x \/ (a = t /\ x = d))).
    { constructor; cbn [rv sq cl]; auto.
      - intros x p. destruct (Nat.eq_dec x d) as [->|N]; [rewrite put_same, del_In, Br|rewrite put_other, Br by auto]; tauto.
      - intros x a. rewrite add_to_holds, Bh. tauto.
      - intros x. rewrite add_to_keys, Bk. split.
        + intros [->|[[a H]|H]]; eauto.
        + intros [[a [H|[-> ->]]]|H]; eauto. }
    specialize (IH _ _ _ s' e' S1 E). destruct IH as [Cs Cc Cr Ch Ck]. constructor; auto.
    + intros x p. rewrite Cr. cbn [In]. split; intros [A B]; (split; [auto|]); intros H; apply B; intuition.
    + intros x a. rewrite Ch. cbn [In]. intuition.
    + intros x. rewrite Ck. cbn [In]. split; (intros [[a H]|H]; [left; exists a; intuition|auto]).
Qed.
Lemma start_fold l : forall s e done s' e', start s e done -> fold_left (fun a t => fold_left (cut_edge t) (depends c t) a) l (s, e) = (s', e') ->
  start s' e' (fun a x => done a x \/ (In a l /\ In x (depends c a))).
Proof.
  induction l as [|t l IH]; intros s e done s' e' B E; cbn [fold_left] in E.
  - injection E as <- <-. destruct B as [Bs Bc Br Bh Bk]. constructor; auto.
    + intros x p. rewrite Br. cbn. tauto.
    + intros x a. rewrite Bh. cbn. tauto.
    + intros x. rewrite Bk. split; (intros [[a H]|H]; [left; exists a; cbn in *; tauto|auto]).
  - destruct (fold_left (cut_edge t) (depends c t) (s, e)) as [s1 e1] eqn:E1. destruct (IH s1 e1 _ s' e' (start_fold_deps t _ s e done s1 e1 B E1) E) as [Cs Cc Cr Ch Ck].
    assert (Q : forall a x, ((done a x \/ (a = t /\ In x (depends c t))) \/ (In a l /\ In x (depends c a))) <-> (done a x \/ (In a (t :: l) /\ In x (depends c a)))).
    { intros a x. cbn [In]. split; [intros [[H|[-> H]]|[H J]]; auto|intros [H|[[<-|H] J]]; auto]. }
    constructor; auto.
    + intros x p. rewrite Cr, Q. tauto.
    + intros x a. rewrite Ch, Q. tauto.
    + intros x. rewrite Ck. split; (intros [[a H]|H]; [left; exists a; now apply Q|auto]).
Qed.
Lemma cut_edges_ok s e : cut_edges c = (s, e) -> inv s e [].
Proof.
  intros E. unfold cut_edges in E.
  assert (B0 : start (first_data c) (first_points c) (fun _ _ => False)).
  { constructor; cbn; auto; [tauto| |].
    - intros x a. split; [|tauto]. intros (vs & I & J). unfold first_points in I. apply in_map_iff in I. destruct I as (t & [= <- <-] & _). destruct J.
    - intros x. unfold keys, first_points. rewrite map_map. cbn. rewrite map_id, filter_In, andb_true_iff, negb_true_iff, mem_false, is_nil_true. split; [tauto|]. intros [[a []]|H]; tauto. }
  destruct (start_fold _ _ _ _ s e B0 E) as [Bs Bc Br Bh Bk].
  assert (D : forall a x, (False \/ (scened a /\ In x (depends c a))) <-> (scened a /\ In x (depends c a))) by tauto.
  constructor; rewrite ?app_nil_r.
  - rewrite Bs. intros p t [].
  - intros p t H. apply Bh in H. destruct H as [[]|[A H]]. split; auto. now apply stretch_direct.
  - rewrite Bc. intros a x [].
  - intros p I. apply Bk in I. destruct I as [[a [[]|[A H]]]|[H _]]; eauto.
  - intros p d I. apply Br in I. destruct I as [I N]. apply revdeps_In in I. split; [tauto|]. split; [tauto|]. intros S. apply N. tauto.
  - intros p T N. destruct (list_eq_dec Nat.eq_dec (rv s p) []) as [E'|E']; [|auto]. left. apply Bk.
    destruct (revdeps c p) as [|q r] eqn:R; [auto|]. left. exists q. rewrite nil_no in E'. specialize (E' q). rewrite Br in E'.
    destruct (in_dec Nat.eq_dec q (scene c)) as [S|S].
    + right. split; auto. assert (I : In q (revdeps c p)) by (rewrite R; now left). now apply revdeps_In in I.
    + elim E'. rewrite R. split; [now left|]. tauto.
  - rewrite Bs. intros d _ H. now elim H.
  - rewrite Bc. intros a x d A [->|[]] H. right. right. apply Bh. auto.
Qed.

(** *** The end *)
Lemma all_processed s : inv s [] [] -> forall m p, (forall q, In q (tasks c) -> rank q <= m) -> In p (tasks c) -> ~ scened p -> rv s p = [].
Proof.
  intros I m. assert (X : forall k p, (forall q, In q (tasks c) -> rank q <= m) -> In p (tasks c) -> ~ scened p -> m - rank p < k -> rv s p = []).
  { induction k as [|k IH]; intros p B T N L; [lia|]. destruct (rv s p) as [|q r] eqn:E; auto. exfalso.
    assert (J : In q (rv s p)) by (rewrite E; now left). destruct (v_rv _ _ _ I q p J) as (Tq & D & Nq).
    assert (rank p < rank q) by (apply ranked; auto). assert (rank q <= m) by auto.
    destruct (v_todo _ _ _ I q Tq Nq) as [[]|[H1|H1]]; [|apply (H1 p D J)]. apply H1. apply IH; auto. lia. }
  intros p B T N. apply (X (S (m - rank p)) p); auto.
Qed.
Lemma inv_end s : inv s [] [] ->
  (forall p, In p (tasks c) -> ~ scened p -> sq s p = []) /\
  (forall a x, scened a -> (In x (cl s a) <-> ~ scened x /\ stretch a x)) /\
  (forall a b, scened b -> (In a (sq s b) <-> scened a /\ stretch a b)).
Proof.
  intros I. assert (B : forall q, In q (tasks c) -> rank q <= list_max (map rank (tasks c))).
  { intros q Q. apply (proj1 (list_max_le (map rank (tasks c)) _)) with (n := list_max (map rank (tasks c))) in Q || idtac.
    assert (F := proj1 (list_max_le (map rank (tasks c)) (list_max (map rank (tasks c)))) (le_n _)). rewrite Forall_forall in F. apply F. now apply in_map. }
  assert (E : forall p, In p (tasks c) -> ~ scened p -> sq s p = []).
  { intros p T N. destruct (list_eq_dec Nat.eq_dec (sq s p) []) as [|H]; auto. destruct (v_kept _ _ _ I p N H) as [[]|H']. elim H'. eapply all_processed; eauto. }
  assert (T : forall a x, scened a -> stretch a x -> In x (tasks c)).
  { intros a x A H. induction H; eauto. }
  assert (G : forall a x, scened a -> stretch a x -> if in_dec Nat.eq_dec x (scene c) then In a (sq s x) else In x (cl s a)).
  { intros a x A H.
    assert (F : forall y d, y = a \/ In y (cl s a) -> In d (depends c y) -> In d (tasks c) -> if in_dec Nat.eq_dec d (scene c) then In a (sq s d) else In d (cl s a)).
    { intros y d Y D Td. destruct (v_all _ _ _ I a y d A Y D) as [H1|[H1|(vs & [] & _)]]; destruct (in_dec Nat.eq_dec d (scene c)) as [S|S]; auto.
      - apply (v_cl _ _ _ I) in H1. tauto.
      - rewrite (E d Td S) in H1. destruct H1. }
    induction H as [d D|y d H IH N D].
    - apply (F a); eauto.
    - destruct (in_dec Nat.eq_dec y (scene c)) as [S|S]; [contradiction|]. apply (F y); auto. apply (closed y); [apply (T a)|]; auto. }
  split; [auto|]. split.
  - intros a x A. split; [intros H; apply (v_cl _ _ _ I) in H; tauto|]. intros [N H]. specialize (G a x A H). destruct (in_dec Nat.eq_dec x (scene c)); [contradiction|auto].
  - intros a b S. split; [apply (v_sq _ _ _ I)|]. intros [A H]. specialize (G a b A H). destruct (in_dec Nat.eq_dec b (scene c)); [auto|contradiction].
Qed.

Lemma do_points_more n : forall e s s', do_points c n e s = Some s' -> forall m, n <= m -> do_points c m e s = Some s'.
Proof.
  induction n as [|n IH]; intros e s s' H m L; cbn [do_points] in H; [discriminate|]. destruct m as [|m]; [lia|]. cbn [do_points].
  destruct (fold_left (do_point c) e (s, [])) as [s1 [|p new]]; auto. apply (IH _ _ _ H). lia.
Qed.

(** *** Unskippable tasks *)
Lemma round_In u x : In x (unskippable_round c u) -> In x u \/ exists t, In t u /\ ~ scened t /\ In x (depends c t).
Proof.
  unfold unskippable_round. assert (X : forall l acc, In x (fold_left (fun acc t => if mem t (scene c) then acc else union acc (depends c t)) l acc) ->
    In x acc \/ exists t, In t l /\ ~ scened t /\ In x (depends c t)).
  { induction l as [|t l IH]; intros acc H; cbn [fold_left] in H; auto. destruct (IH _ H) as [H'|(q & A & B & D)]; [|right; exists q; split; [now right|auto]].
    destruct (mem t (scene c)) eqn:M; auto. apply union_In in H'. destruct H'; auto. right. exists t. split; [now left|]. split; auto. now apply mem_false. }
  intros H. now apply X in H.
Qed.
Definition missing (u : list nat) : nat := length (filter (fun t => negb (mem t u)) (tasks c)).
Lemma filter_le_length {A} (f : A -> bool) l : length (filter f l) <= length l.
Proof. induction l as [|a l IH]; cbn; auto. destruct (f a); cbn; lia. Qed.
Lemma filter_mono {A} (f g : A -> bool) l : (forall x, In x l -> f x = true -> g x = true) -> length (filter f l) <= length (filter g l).
Proof.
  induction l as [|a l IH]; intros H; cbn; auto. assert (length (filter f l) <= length (filter g l)) by (apply IH; intros x I; apply H; now right).
  destruct (f a) eqn:F; [rewrite (H a (or_introl eq_refl) F); cbn; lia|]. destruct (g a); cbn; lia.
Qed.
Lemma filter_strict {A} (f g : A -> bool) l a : (forall x, In x l -> f x = true -> g x = true) -> In a l -> f a = false -> g a = true -> length (filter f l) < length (filter g l).
Proof.
  induction l as [|b l IH]; intros H I F G; [destruct I|]. cbn. assert (M : length (filter f l) <= length (filter g l)) by (apply filter_mono; intros x J; apply H; now right).
  destruct I as [->|I]; [rewrite F, G; cbn; lia|]. assert (length (filter f l) < length (filter g l)) by (apply IH; auto; intros x J; apply H; now right).
  destruct (f b) eqn:Fb; [rewrite (H b (or_introl eq_refl) Fb); cbn; lia|]. destruct (g b); cbn; lia.
Qed.
Lemma forallb_no (f : nat -> bool) u : forallb f u = false -> exists t, In t u /\ f t = false.
Proof. induction u as [|a u IH]; cbn; [discriminate|]. destruct (f a) eqn:E; cbn; intros C; [destruct (IH C) as (t & A & B); exists t; auto|exists a; auto]. Qed.
Lemma iterate_closed n : forall u, (forall t, In t u -> In t (tasks c)) -> missing u <= n ->
  (forall t, In t (iterate n (unskippable_round c) u) -> In t (tasks c)) /\
  forall t d, In t (iterate n (unskippable_round c) u) -> ~ scened t -> In d (depends c t) -> In d (iterate n (unskippable_round c) u).
Proof.
  assert (ST : forall u, (forall t, In t u -> In t (tasks c)) -> forall t, In t (unskippable_round c u) -> In t (tasks c)).
  { intros u U t H. apply round_In in H. destruct H as [H|(q & A & _ & D)]; eauto. }
  assert (FX : forall n u, (forall t d, In t u -> ~ scened t -> In d (depends c t) -> In d u) -> forall x, In x (iterate n (unskippable_round c) u) <-> In x u).
  { intros k. induction k as [|k IH]; intros u H x; cbn [iterate]; [tauto|].
    assert (Q : forall y, In y (unskippable_round c u) <-> In y u) by (intros y; split; [intros J; apply round_In in J; destruct J as [J|(q & A & B & D)]; eauto|apply round_mono]).
    rewrite IH; [apply Q|]. intros t d T N D. apply Q. apply Q in T. eauto. }
  induction n as [|n IH]; intros u U M.
  - cbn [iterate]. split; auto. intros t d T N D. unfold missing in M. assert (Td : In d (tasks c)) by eauto.
    destruct (mem d u) eqn:E; [now apply mem_In|]. assert (In d (filter (fun t => negb (mem t u)) (tasks c))) by (apply filter_In; split; auto; now rewrite E).
    destruct (filter (fun t => negb (mem t u)) (tasks c)); [contradiction|cbn in M; lia].
  - destruct (forallb (fun t => mem t (scene c) || subset (depends c t) u) u) eqn:C.
    + rewrite forallb_forall in C. assert (Cl : forall t d, In t u -> ~ scened t -> In d (depends c t) -> In d u).
      { intros t d T N D. specialize (C t T). apply orb_true_iff in C. rewrite mem_In in C. destruct C as [C|C]; [contradiction|]. rewrite subset_spec in C. auto. }
      split; [intros t T; apply (FX (S n) u Cl) in T; auto|]. intros t d T N D. apply (FX (S n) u Cl). apply (FX (S n) u Cl) in T. eauto.
    + cbn [iterate]. apply IH; [apply ST; auto|].
      assert (X : exists t d, In t u /\ ~ scened t /\ In d (depends c t) /\ ~ In d u).
      { clear -C. assert (G : exists t, In t u /\ (mem t (scene c) || subset (depends c t) u) = false).
        { exact (forallb_no _ u C). }
        destruct G as (t & T & G). apply orb_false_iff in G. destruct G as [G1 G2]. apply mem_false in G1.
        assert (H : exists d, In d (depends c t) /\ mem d u = false).
        { unfold subset in G2. induction (depends c t) as [|a l IH]; cbn in G2; [discriminate|]. destruct (mem a u) eqn:E; cbn in G2; [destruct (IH G2) as (d & A & B); exists d; split; [now right|auto]|exists a; split; [now left|auto]]. }
        destruct H as (d & A & B). apply mem_false in B. eauto 10. }
      destruct X as (t & d & T & N & D & ND).
      assert (missing (unskippable_round c u) < missing u); [|lia]. unfold missing. apply filter_strict with (a := d).
      * intros x _. rewrite !negb_true_iff, !mem_false. intros H J. apply H. now apply round_mono.
      * eauto.
      * rewrite negb_false_iff. apply mem_In. eapply round_step; eauto.
      * rewrite negb_true_iff. now apply mem_false.
Qed.
Definition tops : list nat := union (filter (fun t => is_nil (revdeps c t)) (tasks c)) (cantskip c).
Lemma tops_top r : In r tops <-> top c r.
Proof.
  unfold tops, top, cantskip. rewrite union_In, filter_In, is_nil_true, nil_no, inter_In, diff_In. split.
  - intros [[T H]|[[T N] R]]; (split; [auto|]); [left|right; auto]. intros t Tt D. apply (H t). now apply revdeps_In.
  - intros [T [H|[I N]]]; [left|right; auto]. split; auto. intros x X. apply revdeps_In in X. destruct X as [X Y]. exact (H x X Y).
Qed.
Lemma unskippable_closed t d : In t (unskippable c) -> ~ scened t -> In d (depends c t) -> In d (unskippable c).
Proof.
  apply iterate_closed; [intros x X; apply (proj1 (tops_top x)) in X; apply X|apply filter_le_length].
Qed.
Lemma unskippable_ok t : In t (unskippable c) <-> indispensable c t.
Proof.
  unfold indispensable. split.
  - change (unskippable c) with (iterate (length (tasks c)) (unskippable_round c) tops). generalize (length (tasks c)) as n.
    assert (X : forall n u, (forall t, In t u -> exists r, top c r /\ (t = r \/ (~ scened r /\ stretch r t))) ->
      forall t, In t (iterate n (unskippable_round c) u) -> exists r, top c r /\ (t = r \/ (~ scened r /\ stretch r t))).
    { induction n as [|n IH]; intros u U x; cbn [iterate]; auto. apply IH. intros y Y. apply round_In in Y. destruct Y as [Y|(q & A & B & D)]; auto.
      destruct (U q A) as (r & R & [->|[N H]]); exists r; (split; [auto|]); right; (split; [auto|]); [now apply stretch_direct|eapply stretch_via; eauto]. }
    intros n. apply X. intros y Y. exists y. split; [now apply tops_top|auto].
  - intros (r & R & H). assert (I : In r (unskippable c)) by (unfold unskippable; apply iterate_mono with (n := length (tasks c)); [apply round_mono|now apply tops_top]).
    destruct H as [->|[N H]]; auto. induction H as [d D|y d H IH NY D]; eapply unskippable_closed; eauto.
Qed.
End Scene.

(** *** Deferred tasks *)
Lemma dget_app k a b : dget k (a ++ b) = match dget k a with Some v => Some v | None => dget k b end.
Proof. unfold dget. induction a as [|[x y] a IH]; cbn [app find]; auto. destruct (Nat.eqb (fst (x, y)) k); auto. Qed.
Lemma dget_one k x y : dget k [(x, y)] = if Nat.eqb x k then Some y else None.
Proof. unfold dget. cbn. destruct (Nat.eqb x k); auto. Qed.
Lemma defer_ok h order : NoDup order ->
  (forall t b, In (t, b) (snd (defer h order)) -> In t order /\ In b order /\ t <> b /\ h t = h b /\ ~ In b (map fst (snd (defer h order)))) /\
  (forall t, In t order -> ~ In t (map fst (snd (defer h order))) -> forall u, In u order -> h u = h t -> u = t \/ In (u, t) (snd (defer h order))).
Proof.
  intros ND. unfold defer.
  set (f := fun '(hashes, deferred) t => match dget (h t) hashes with None => (hashes ++ [(h t, t)], deferred) | Some b => (hashes, deferred ++ [(t, b)]) end).
  assert (X : forall l pre hs df, NoDup (pre ++ l) ->
    (forall k b, dget k hs = Some b -> In b pre /\ h b = k /\ ~ In b (map fst df)) ->
    (forall t b, In (t, b) df -> In t pre /\ dget (h t) hs = Some b /\ t <> b) ->
    (forall t, In t pre -> dget (h t) hs = Some t \/ exists b, In (t, b) df) ->
    forall hs' df', fold_left f l (hs, df) = (hs', df') ->
    (forall k b, dget k hs' = Some b -> In b (pre ++ l) /\ h b = k /\ ~ In b (map fst df')) /\
    (forall t b, In (t, b) df' -> In t (pre ++ l) /\ dget (h t) hs' = Some b /\ t <> b) /\
    (forall t, In t (pre ++ l) -> dget (h t) hs' = Some t \/ exists b, In (t, b) df')).
  { induction l as [|t l IH]; intros pre hs df N A B C hs' df' E; cbn [fold_left] in E; [injection E as <- <-; rewrite app_nil_r in *; auto|].
    assert (NT : ~ In t pre) by (intros I; apply NoDup_remove_2 in N; apply N; apply in_or_app; auto).
    replace (pre ++ t :: l) with ((pre ++ [t]) ++ l) in * by (rewrite <- app_assoc; reflexivity). cbn [f] in E. destruct (dget (h t) hs) as [b|] eqn:G.
    - destruct (A _ _ G) as (Ib & Hb & Nb). apply (IH (pre ++ [t]) hs (df ++ [(t, b)]) N) in E; auto.
      + intros k x K. destruct (A k x K) as (I1 & I2 & I3). split; [apply in_or_app; auto|]. split; auto. rewrite map_app, in_app_iff. cbn. intros [J|[J|[]]]; [auto|]. congruence.
      + intros x y I. apply in_app_iff in I. destruct I as [I|[[= <- <-]|[]]].
        * destruct (B x y I) as (I1 & I2 & I3). split; [apply in_or_app; auto|auto].
        * split; [apply in_or_app; cbn; auto|]. split; auto. intros ->. contradiction.
      + intros x I. apply in_app_iff in I. destruct I as [I|[<-|[]]]; [destruct (C x I) as [H|[y H]]; auto; right; exists y; apply in_or_app; auto|]. right. exists b. apply in_or_app. cbn. auto.
    - apply (IH (pre ++ [t]) (hs ++ [(h t, t)]) df N) in E; auto.
      + intros k x. rewrite dget_app, dget_one. destruct (dget k hs) as [y|] eqn:K.
        * intros [= <-]. destruct (A k y K) as (I1 & I2 & I3). split; [apply in_or_app; auto|auto].
        * destruct (Nat.eqb (h t) k) eqn:Q; [|discriminate]. intros [= <-]. apply Nat.eqb_eq in Q. split; [apply in_or_app; cbn; auto|]. split; auto.
          intros I. apply in_map_iff in I. destruct I as ([x y] & <- & I). destruct (B x y I) as (I1 & _). contradiction.
      + intros x y I. destruct (B x y I) as (I1 & I2 & I3). split; [apply in_or_app; auto|]. split; auto. rewrite dget_app, I2. reflexivity.
      + intros x I. apply in_app_iff in I. destruct I as [I|[<-|[]]].
        * destruct (C x I) as [H|H]; auto. left. rewrite dget_app, H. reflexivity.
        * left. rewrite dget_app, G, dget_one, Nat.eqb_refl. reflexivity. }
  destruct (fold_left f order ([], [])) as [hs df] eqn:E.
  destruct (X order [] [] [] ND ltac:(cbn; discriminate) ltac:(intros t b []) ltac:(intros t []) hs df E) as (A & B & C). cbn [app snd] in *. split.
  - intros t b I. destruct (B t b I) as (I1 & I2 & I3). destruct (A _ _ I2) as (J1 & J2 & J3). auto 10.
  - intros t I N u U H. destruct (C t I) as [G|[b G]]; [|elim N; apply in_map_iff; exists (t, b); auto].
    destruct (C u U) as [G'|[b G']]; [rewrite H in G'; left; congruence|]. right. destruct (B u b G') as (_ & G2 & _). rewrite H in G2. assert (b = t) by congruence. now subst.
Qed.

(** ** What a task that runs was given *)
Section Inputs.
Variable c : cfg.
Hypothesis nohard : forall t, harddeps c t = [].
Hypothesis coll : collapsed c.
Notation scened t := (In t (scene c)).

Definition loud (e : ev) : Prop := match e with Started _ | Skipped _ true => True | _ => False end.
(** every restored task with a setscene variant was restored before it was accepted *)
Fixpoint restored_log (h : list ev) : Prop :=
  match h with [] => True | e :: h => (forall d, e = Skipped d true -> scened d -> restored h d) /\ restored_log h end.
Record G (s : st) : Prop := {
  g_sqr : forall t, In t (sccov s) \/ In t (scnot s) \/ In t (sqlive s) -> In t (sqr s) /\ scened t;
  g_cn : forall t, In t (sccov s) -> ~ In t (scnot s);
  g_cl : forall t, In t (sccov s) -> ~ In t (sqlive s);
  g_nl : forall t, In t (scnot s) -> ~ In t (sqlive s);
  g_def : forall t, In t (map fst (deferred s)) -> ~ In t (scnot s) /\ ~ In t (sqlive s);
  g_nn : forall d, In d (notneeded s) -> In d (sccov s) /\ ~ In d (unskippable c) /\ forall q, In q (sqrev c d) -> In q (sccov s);
  g_hold : needupd s = false -> forall q x, scened q -> ~ In q (sccov s) -> ~ In q (scnot s) -> In x (coveredby c q) -> ~ In x (complete s) -> In x (holdoff s);
  g_skip : forall d, In (Skipped d true) (log s) -> (scened d -> In d (sccov s)) /\ (~ scened d -> ~ In d (unskippable c)) /\
             forall q, scened q -> In d (coveredby c q) -> In q (sccov s);
  g_start : forall t, In (Started t) (log s) -> (In t (unskippable c) /\ ~ scened t) \/ In t (scnot s) \/ exists q, In q (scnot s) /\ In t (coveredby c q);
  g_log : restored_log (log s);
  g_res : forall t, In t (sccov s) -> restored (log s) t;
  g_pend : pending s = []
}.
Record calm (s s' : st) : Prop := {
  l_sqr : sqr s' = sqr s; l_cov : sccov s' = sccov s; l_not : scnot s' = scnot s; l_live : sqlive s' = sqlive s;
  l_nn : notneeded s' = notneeded s; l_pend : pending s' = pending s; l_hold : needupd s' = true \/ (needupd s' = needupd s /\ holdoff s' = holdoff s);
  l_def : forall t, In t (map fst (deferred s')) -> In t (map fst (deferred s));
  l_comp : forall t, In t (complete s) -> In t (complete s');
  l_log : exists l, log s' = l ++ log s /\ Forall (fun e => ~ loud e) l
}.
Lemma calm_refl s : calm s s. Proof. constructor; auto. exists []. split; auto. Qed.
Lemma calm_trans a b d : calm a b -> calm b d -> calm a d.
Proof.
  intros [] []. constructor; try congruence; auto.
  - destruct l_hold1 as [H|[H H']]; auto. destruct l_hold0 as [K|[K K']]; [left|right; split]; congruence.
  - destruct l_log0 as (l & E & F), l_log1 as (l' & E' & F'). exists (l' ++ l). rewrite E', E, app_assoc. split; auto. apply Forall_app; auto.
Qed.
Lemma quiet_log l h : Forall (fun e => ~ loud e) l -> (forall e, In e (l ++ h) -> loud e -> In e h) /\ (restored_log h -> restored_log (l ++ h)).
Proof.
  induction 1 as [|e l N F [IH1 IH2]]; cbn [app]; split; auto.
  - intros e' [<-|I] L; [contradiction|auto].
  - intros R. cbn [restored_log]. split; [|auto]. intros d -> _. elim N. exact I.
Qed.
Lemma calm_G s s' : calm s s' -> G s -> G s'.
Proof.
  intros [Lr Lc Ln Ll Lnn Lp Lh Ld Lco (l & E & F)] [Gr Gcn Gcl Gnl Gd Gnn Gh Gs Gst Gl Gre Gp]. destruct (quiet_log l (log s) F) as [Q1 Q2].
  constructor; rewrite ?Lr, ?Lc, ?Ln, ?Ll, ?Lnn, ?Lp; auto.
  - intros N q x A B D I NC. destruct Lh as [Lh|[Lh Lh']]; [congruence|]. rewrite Lh'. apply (Gh ltac:(congruence) q x); auto.
  - intros d I. apply Gs. rewrite E in I. apply Q1 in I; auto. cbn. auto.
  - intros t I. apply Gst. rewrite E in I. apply Q1 in I; auto. cbn. auto.
  - rewrite E. auto.
  - intros t I. rewrite E. apply restored_mono. auto.
Qed.
Ltac cm := constructor; cbn; auto; try (exists []; split; cbn; auto; fail); try (intros; rewrite ?add_In; auto; fail).

Lemma setbuildable_calm t s : calm s (setbuildable t s). Proof. cm. Qed.
Lemma calm_fold {B} (f : st -> B -> st) l s : (forall s b, calm s (f s b)) -> calm s (fold_left f l s).
Proof. intros H. apply (fold_inv (fun a => calm s a)); [apply calm_refl|]. intros a b _ F. eapply calm_trans; eauto. Qed.
Lemma emit_calm e s : ~ loud e -> calm s (emit e s).
Proof. intros N. cm. exists [e]. split; auto. Qed.
Lemma counters_tail_calm t s : calm s (counters_tail c t s).
Proof. unfold counters_tail. destruct (is_nil (harddeps c t)); cm. Qed.

Lemma counters_tail_true t s : counters_tail c t s = counters_tail c t (set_needupd true s).
Proof. unfold counters_tail. destruct (is_nil (harddeps c t)); reflexivity. Qed.
Lemma fail_G n o t s : G s -> scened t -> ~ In t (sccov s) -> ~ In t (sqlive s) -> ~ In t (map fst (deferred s)) -> G (failoutright c (S n) o t s).
Proof.
  intros [Gr Gcn Gcl Gnl Gd Gnn Gh Gs Gst Gl Gre Gp] S NC NL ND. cbn [failoutright]. rewrite nohard. cbn [fold_left].
  set (s1 := set_scnot _ _). rewrite (counters_tail_true t s1).
  apply (calm_G (set_needupd true s1)); [apply counters_tail_calm|]. constructor; cbn; auto.
  - intros x. rewrite !add_In. intros [H|[[->|H]|H]]; auto; split; try (right; apply Gr; auto); apply Gr; auto.
  - intros x I. rewrite add_In. intros [->|H]; [contradiction|]. exact (Gcn x I H).
  - intros x. rewrite add_In. intros [->|H]; auto.
  - intros x I. rewrite add_In. destruct (Gd x I). split; auto. intros [->|H']; auto.
  - discriminate.
  - intros x I. destruct (Gst x I) as [H|[H|(q & H & H')]]; auto; right; [left; apply add_In; auto|right; exists q; rewrite add_In; auto].
Qed.
Lemma skip_G t s : G s -> scened t -> ~ In t (scnot s) -> ~ In t (sqlive s) -> G (sq_skip c t s).
Proof.
  intros [Gr Gcn Gcl Gnl Gd Gnn Gh Gs Gst Gl Gre Gp] S NN NL. unfold sq_skip, sq_completeoutright. set (s1 := set_sccov _ _).
  rewrite (counters_tail_true t s1).
  apply (calm_G (set_needupd true s1)); [apply counters_tail_calm|]. constructor; cbn; auto.
  - intros x. rewrite !add_In. intros [[->|H]|[H|H]]; auto; split; try (right; apply Gr; auto); apply Gr; auto.
  - intros x. rewrite add_In. intros [->|H]; auto.
  - intros x. rewrite add_In. intros [->|H]; auto.
  - intros x I. destruct (Gnn x I) as (A & B & D). rewrite add_In. split; auto. split; auto. intros q Q. rewrite add_In. auto.
  - discriminate.
  - intros x [I|I]; [discriminate|]. destruct (Gs x I) as (A & B & D). split; [intros H; rewrite add_In; auto|]. split; auto. intros q Q Q'. rewrite add_In. eauto.
  - intros x [I|I]; [discriminate|]. auto.
  - split; auto. intros d [=].
  - intros x. rewrite add_In. intros [->|I]; [right; now left|]. destruct (Gre x I); [left|right]; now right.
Qed.
Lemma skip_keeps t s : scnot (sq_skip c t s) = scnot s /\ sqlive (sq_skip c t s) = sqlive s /\ deferred (sq_skip c t s) = deferred s.
Proof. unfold sq_skip, sq_completeoutright, counters_tail. destruct (is_nil (harddeps c t)); cbn; auto. Qed.
Lemma usd_G o l s : G s -> (forall t, In t l -> scened t /\ ~ In t (scnot s) /\ ~ In t (sqlive s)) ->
  G (update_scene_data c o l s) /\ scnot (update_scene_data c o l s) = scnot s /\ sqlive (update_scene_data c o l s) = sqlive s /\ deferred (update_scene_data c o l s) = deferred s.
Proof.
  intros I L. unfold update_scene_data. match goal with |- context [fold_left ?f l (s, [])] => set (F := f) end.
  assert (K : G (fst (fold_left F l (s, []))) /\ scnot (fst (fold_left F l (s, []))) = scnot s /\ sqlive (fst (fold_left F l (s, []))) = sqlive s /\ deferred (fst (fold_left F l (s, []))) = deferred s).
  { apply (fold_inv (fun a => G (fst a) /\ scnot (fst a) = scnot s /\ sqlive (fst a) = sqlive s /\ deferred (fst a) = deferred s)); auto.
    intros [a tc] t It (A & B & D & E). destruct (L t It) as (L1 & L2 & L3). unfold F. cbn [fst] in *.
    match goal with |- context [set_outright ?x ?y] => set (a1 := set_outright x y) end.
    assert (A1 : G a1) by (apply (calm_G a); auto; unfold a1; cm).
    destruct (noexec c t); [|destruct (o_scstamp o t || o_stamprec o t)]; cbn [fst]; auto.
    - match goal with |- G (sq_skip c t ?x) /\ _ => destruct (skip_keeps t x) as (-> & -> & ->); assert (G x) by (apply (calm_G a1); auto; cm) end.
      split; [|cbn; auto]. apply skip_G; auto; cbn; congruence.
    - match goal with |- G (sq_skip c t ?x) /\ _ => destruct (skip_keeps t x) as (-> & -> & ->); assert (G x) by (apply (calm_G a1); auto; cm) end.
      split; [|cbn; auto]. apply skip_G; auto; cbn; congruence. }
  destruct (fold_left F l (s, [])) as [s1 tc]. cbn [fst] in K. destruct K as (K & K1 & K2 & K3).
  match goal with |- context [fold_left ?f l ?x] => set (F2 := f); set (s2 := x) end.
  assert (M : calm s2 (fold_left F2 l s2)). { apply calm_fold. intros a t. unfold F2. destruct (_ || _); [apply calm_refl|cm]. }
  split; [apply (calm_G s2); auto; apply (calm_G s1); auto; unfold s2; cm|].
  split; [rewrite (l_not _ _ M); auto|]. split; [rewrite (l_live _ _ M); auto|].
  assert (D : forall l a, deferred (fold_left F2 l a) = deferred a). { induction l0 as [|t l0 IH]; intros a; cbn [fold_left]; auto. rewrite IH. unfold F2. destruct (_ || _); auto. }
  rewrite D. auto.
Qed.
Lemma ddel_keys k l t : In t (map fst (ddel k l)) -> In t (map fst l) /\ t <> k.
Proof. intros I. apply in_map_iff in I. destruct I as (p & <- & I). apply ddel_In in I. split; [apply in_map|]; tauto. Qed.
Lemma dset_keys k v l t : In t (map fst (dset k v l)) -> t = k \/ In t (map fst l).
Proof. intros I. apply in_map_iff in I. destruct I as (p & <- & I). apply dset_key in I. destruct I; auto. right. now apply in_map. Qed.
Lemma dget_key k l v : dget k l = Some v -> In k (map fst l).
Proof. unfold dget. destruct (find _ l) as [p|] eqn:F; [|discriminate]. intros _. apply find_some in F. destruct F as [I E]. apply Nat.eqb_eq in E. subst. now apply in_map. Qed.
Lemma dget_none k l : dget k l = None -> ~ In k (map fst l).
Proof.
  unfold dget. destruct (find _ l) as [p|] eqn:F; [discriminate|]. intros _ I. apply in_map_iff in I. destruct I as (p & E & I).
  apply (find_none _ _ F) in I. apply Nat.eqb_neq in I. congruence.
Qed.
Lemma undefer_G o t s : G s -> G (undefer c o t s).
Proof.
  intros I. unfold undefer. apply (fold_inv (fun a => G (snd a))); auto. intros [found b] d Id A. cbn [snd] in *.
  destruct (dget d (deferred b)) as [x|] eqn:E; auto. destruct (Nat.eqb x t); auto. apply dget_key in E. destruct (g_def _ A d E) as [N1 N2]. destruct found as [f|]; cbn [snd].
  - apply (calm_G b); auto. cm. intros y Y. apply dset_keys in Y. destruct Y as [->|Y]; auto.
  - apply usd_G; [|intros y [<-|[]]; cbn; auto]. apply (calm_G b); auto. cm. intros y Y. apply ddel_keys in Y. tauto.
Qed.
Lemma completeoutright_G o t s : G s -> G (completeoutright c o t s).
Proof.
  intros I. rewrite completeoutright_eq. apply undefer_G. apply (calm_G (set_complete (add t (complete s)) s)); [|apply (calm_G s); auto; cm].
  apply calm_fold. intros a r. destruct (mem r (running a)); [apply calm_refl|]. destruct (mem r (buildable a)); [apply calm_refl|]. destruct (subset _ _); [apply setbuildable_calm|apply calm_refl].
Qed.
Lemma waitpid_G o t ok s : G s -> G (waitpid c o t ok s).
Proof.
  intros I. unfold waitpid. set (s0 := set_bstamps _ s). assert (I0 : G s0) by (apply (calm_G s); auto; unfold s0; cm). clearbody s0. clear I s.
  destruct (mem t (sqlive s0)) eqn:M.
  - apply mem_In in M. assert (ST := proj2 (g_sqr _ I0 t (or_intror (or_intror M)))). assert (SR := proj1 (g_sqr _ I0 t (or_intror (or_intror M)))).
    assert (NC : ~ In t (sccov s0)) by (intros H; exact (g_cl _ I0 t H M)). assert (NN : ~ In t (scnot s0)) by (intros H; exact (g_nl _ I0 t H M)).
    assert (ND : ~ In t (map fst (deferred s0))) by (intros H; apply (g_def _ I0 t H); auto).
    destruct I0 as [Gr Gcn Gcl Gnl Gd Gnn Gh Gs Gst Gl Gre Gp].
    assert (EQ : forall s1 s2, calm s1 s2 -> calm (set_sqlive (del t (sqlive s0)) s1) (set_sqlive (del t (sqlive s0)) s2)) by (intros s1 s2 []; constructor; cbn; auto).
    destruct ok.
    + unfold sq_complete, sq_completeoutright. set (s1 := set_sccov _ _).
      rewrite (counters_tail_true t s1).
      assert (LV : sqlive (counters_tail c t (set_needupd true s1)) = sqlive s0) by (unfold counters_tail; destruct (is_nil (harddeps c t)); reflexivity). rewrite LV.
      apply (calm_G (set_sqlive (del t (sqlive s0)) (set_needupd true s1))); [apply EQ, counters_tail_calm|]. constructor; cbn; auto.
      * intros x. rewrite add_In, del_In. intros [[->|H]|[H|[H _]]]; auto.
      * intros x. rewrite add_In. intros [->|H]; auto.
      * intros x. rewrite add_In, del_In. intros [->|H]; [tauto|]. specialize (Gcl x H). tauto.
      * intros x H. rewrite del_In. specialize (Gnl x H). tauto.
      * intros x H. rewrite del_In. specialize (Gd x H). tauto.
      * intros x I. destruct (Gnn x I) as (A & B & D). rewrite add_In. split; auto. split; auto. intros q Q. rewrite add_In. auto.
      * discriminate.
      * intros x [I|I]; [discriminate|]. destruct (Gs x I) as (A & B & D). split; [intros H; rewrite add_In; auto|]. split; auto. intros q Q Q'. rewrite add_In. eauto.
      * intros x [I|I]; [discriminate|]. auto.
      * split; auto. intros d [=].
      * intros x. rewrite add_In. intros [->|I]; [left; now left|]. destruct (Gre x I); [left|right]; now right.
    + unfold sq_fail. rewrite nohard. cbn [fold_left]. set (s1 := emit (SceneFailed t) _).
      rewrite (counters_tail_true t s1).
      assert (LV : sqlive (counters_tail c t (set_needupd true s1)) = sqlive s0) by (unfold counters_tail; destruct (is_nil (harddeps c t)); reflexivity).
      assert (K : G (set_sqlive (del t (sqlive s0)) (counters_tail c t (set_needupd true s1)))).
      { apply (calm_G (set_sqlive (del t (sqlive s0)) (set_needupd true s1))); [apply EQ, counters_tail_calm|]. constructor; cbn; auto.
        * intros x. rewrite add_In, del_In. intros [H|[[->|H]|[H _]]]; auto.
        * intros x H. rewrite add_In. intros [->|H']; auto. exact (Gcn x H H').
        * intros x H. rewrite del_In. specialize (Gcl x H). tauto.
        * intros x. rewrite add_In, del_In. intros [->|H]; [tauto|]. specialize (Gnl x H). tauto.
        * intros x H. rewrite add_In, del_In. specialize (Gd x H). split; [intros [->|H']; tauto|tauto].
        * discriminate.
        * intros x [I|I]; [discriminate|]. auto.
        * intros x [I|I]; [discriminate|]. destruct (Gst x I) as [H|[H|(q & H & H')]]; auto; right; [left; apply add_In; auto|right; exists q; rewrite add_In; auto].
        * split; auto. intros d [=].
        * intros x I. destruct (Gre x I); [left|right]; now right. }
      destruct (allowed c) as [okt|]; [destruct (okt t)|]; cbn [sqlive set_rst]; rewrite LV; auto. match type of K with G ?x => apply (calm_G x); auto; cm end.
  - destruct ok.
    + unfold task_complete. match goal with |- G (set_tasksrun _ ?x) => apply (calm_G x); [cm|] end. apply completeoutright_G.
      match goal with |- G (set_active _ (emit _ ?x)) => apply (calm_G (emit (Succeeded t) x)); [cm|] end. apply (calm_G (set_live (del t (live s0)) s0)); [apply emit_calm; cbn; auto|]. apply (calm_G s0); auto. cm.
    + unfold task_fail. match goal with |- G (if _ then set_rst _ ?x else _) => assert (K : G x) end.
      { match goal with |- G (emit _ ?x) => apply (calm_G x); [apply emit_calm; cbn; auto|] end. apply (calm_G s0); auto. cm. }
      destruct (halt c); auto. match type of K with G ?x => apply (calm_G x); auto; cm end.
Qed.

Lemma task_fail_G t s : G s -> G (task_fail c t s).
Proof.
  intros I. unfold task_fail. match goal with |- G (if _ then set_rst _ ?x else _) => assert (K : G x) end.
  { match goal with |- G (emit _ ?x) => apply (calm_G x); [apply emit_calm; cbn; auto|] end. apply (calm_G s); auto. cm. }
  destruct (halt c); auto. match type of K with G ?x => apply (calm_G x); auto; cm end.
Qed.
Lemma union_fold x l : forall acc, In x (fold_left (fun acc t => union acc (coveredby c t)) l acc) <-> In x acc \/ exists t, In t l /\ In x (coveredby c t).
Proof.
  induction l as [|t l IH]; intros acc; cbn [fold_left]; [split; [auto|intros [H|(t & [] & _)]; auto]|]. rewrite IH, union_In. split.
  - intros [[H|H]|(q & A & B)]; auto; right; [exists t; split; [now left|auto]|exists q; split; [now right|auto]].
  - intros [H|(q & [<-|A] & B)]; auto. right. exists q. auto.
Qed.
Lemma notcov_In x s : In x (notcovered_of c s) <-> (In x (scnot s) \/ In x (cantskip c) \/ (exists q, In q (scnot s) /\ In x (coveredby c q)) \/ (In x (unskippable c) /\ ~ scened x)) /\ In x (tsdone s).
Proof. unfold notcovered_of. rewrite inter_In, union_In, union_fold, union_In, diff_In. tauto. Qed.
Lemma covof_In x s : In x (covered_of c s) <-> (In x (sccov s) \/ exists q, In q (sccov s) /\ In x (coveredby c q)) /\ ~ In x (notcovered_of c s) /\ In x (tsdone s).
Proof. unfold covered_of. rewrite inter_In, diff_In, union_fold. tauto. Qed.
Lemma cantskip_unskippable x : In x (cantskip c) -> In x (unskippable c) /\ ~ scened x.
Proof.
  intros H. split; [|unfold cantskip in H; rewrite inter_In, diff_In in H; tauto]. unfold unskippable. apply iterate_mono; [apply round_mono|]. apply union_In. auto.
Qed.
(** what holds when the scheduler has chosen a task *)
Record chosen (s : st) (t : nat) : Prop := {
  h_cov : tcov s = covered_of c s; h_not : tnot s = notcovered_of c s; h_upd : needupd s = false; h_free : ~ In t (holdoff s);
  h_run : ~ In t (complete s); h_one : In t (tcov s) \/ In t (tnot s)
}.
Lemma accepted_G t s : G s -> chosen s t -> In t (tcov s) -> G (emit (Skipped t true) (set_running (add t (running s)) s)).
Proof.
  intros [Gr Gcn Gcl Gnl Gd Gnn Gh Gs Gst Gl Gre Gp] [Hc Hn Hu Hf Hr Ho] T. rewrite Hc in T. apply covof_In in T. destruct T as (T1 & T2 & T3).
  assert (SC : scened t -> In t (sccov s)).
  { intros S. destruct T1 as [T1|(q & Q & Q')]; auto. apply (c_covers c coll) in Q'; [tauto|]. apply (Gr q). auto. }
  constructor; cbn; auto.
  - intros d [[= <-]|I]; [|auto]. split; [auto|]. split.
    + intros NS U. apply T2, notcov_In. split; auto.
    + intros q S Q. destruct (in_dec Nat.eq_dec q (sccov s)) as [|NC]; auto. exfalso. destruct (in_dec Nat.eq_dec q (scnot s)) as [QN|QN].
      * apply T2, notcov_In. split; auto. right. right. left. eauto.
      * apply Hf. apply (Gh Hu q t); auto.
  - intros x [[=]|I]. auto.
  - split; [|auto]. intros d [= <-] S. auto.
  - intros x I. destruct (Gre x I); [left|right]; now right.
Qed.
Lemma begun_G t s : G s -> chosen s t -> ~ In t (tcov s) -> G (emit (Started t) s).
Proof.
  intros [Gr Gcn Gcl Gnl Gd Gnn Gh Gs Gst Gl Gre Gp] [Hc Hn Hu Hf Hr Ho] T. destruct Ho as [Ho|Ho]; [contradiction|]. rewrite Hn in Ho. apply notcov_In in Ho. destruct Ho as [Ho _].
  constructor; cbn; auto.
  - intros d [[=]|I]. auto.
  - intros x [[= <-]|I]; auto. destruct Ho as [H|[H|[H|H]]]; auto. left. now apply cantskip_unskippable.
  - split; auto. intros d [=].
  - intros x I. destruct (Gre x I); [left|right]; now right.
Qed.
Lemma wind_down_calm o s : calm s (wind_down c o s).
Proof.
  unfold wind_down. destruct (_ || _); [apply calm_refl|]. destruct (deferred s) as [|p r] eqn:E; [|cm; intros t I; rewrite E; now right].
  destruct (negb _); [cm; rewrite E; auto|]. destruct (_ || _); cm; rewrite E; auto.
Qed.
Lemma run_task_G o t s : G s -> chosen s t -> G (run_task c o t s).
Proof.
  intros I H. unfold run_task. destruct (refused c o t s); [now apply task_fail_G|]. destruct (mem t (tcov s)) eqn:M.
  - apply mem_In in M. unfold task_skip. apply completeoutright_G. eapply calm_G; [apply setbuildable_calm|]. now apply accepted_G.
  - apply mem_false in M. destruct (o_stamp o t).
    + match goal with |- G (set_tasksrun _ ?x) => apply (calm_G x); [cm|] end. unfold task_skip. apply completeoutright_G. eapply calm_G; [apply setbuildable_calm|].
      match goal with |- G (emit _ ?x) => apply (calm_G x); [apply emit_calm; cbn; auto|] end. apply (calm_G s); auto. cm.
    + destruct (noexec c t).
      * unfold task_complete. match goal with |- G (set_tasksrun _ ?x) => apply (calm_G x); [cm|] end. apply completeoutright_G.
        match goal with |- G (set_active _ (emit _ ?x)) => apply (calm_G (emit (Noexec t) x)); [cm|]; apply (calm_G x); [apply emit_calm; cbn; auto|] end. apply (calm_G s); auto. cm.
      * match goal with |- G (if _ then ?x else _) => assert (K : G x) end.
        { apply (calm_G (emit (Started t) s)); [|now apply begun_G]. cm. }
        destruct (can_start _ _); auto. apply (calm_G _ _ (wind_down_calm o _) K).
Qed.
Lemma normal_part_G o s : G s -> Good c s -> TC c s -> needupd s = false -> G (normal_part c o s).
Proof.
  intros I GD T N. unfold normal_part. destruct (sceneonly c); [apply (calm_G _ _ (wind_down_calm o _) I)|]. destruct (sched_next c o s) as [[t|] s'] eqn:E.
  - destruct (sched_next_spec c o s _ _ E GD) as (GD' & [X|X] & Y); [discriminate|]. destruct (Y t eq_refl) as (_ & NR & _ & TT & NH & _).
    assert (I' : G s') by (apply (calm_G s); auto; rewrite X; cm). apply run_task_G; auto. destruct (T N) as [T1 T2].
    assert (NC : ~ In t (complete s')) by (intros H; apply NR; destruct GD' as ([] & _); auto).
    subst s'. constructor; cbn in *; auto.
  - assert (I' : G s').
    { unfold sched_next in E. destruct (can_start c s); apply (f_equal snd) in E; cbn [snd] in E; subst s'; auto. apply (calm_G s); auto. cm. }
    apply (calm_G _ _ (wind_down_calm o _) I').
Qed.
Lemma update_holdoff_G s : G s -> G (update_holdoff c s).
Proof.
  intros I. unfold update_holdoff. destruct (negb (needupd s)); auto. match goal with |- context [fold_left ?f ?l s] => assert (M : calm s (fold_left f l s)) end.
  { apply calm_fold. intros a t. destruct (subset _ _); [apply setbuildable_calm|apply calm_refl]. }
  match goal with |- context [fold_left ?f ?l s] => set (s1 := fold_left f l s) in * end. assert (I1 := calm_G _ _ M I). destruct I1 as [Gr Gcn Gcl Gnl Gd Gnn Gh Gs Gst Gl Gre Gp].
  constructor; cbn; auto. intros _ q x S NC NN X NX. unfold holdoff_of. cbn.
  assert (F : forall l h, In q l \/ In x h -> In x (fold_left (fun acc t => fold_left (fun acc d => if mem d (complete s1) then acc else add d acc) (coveredby c t) acc) l h)).
  { assert (F1 : forall l h, In x l \/ In x h -> In x (fold_left (fun acc d => if mem d (complete s1) then acc else add d acc) l h)).
    { induction l as [|y l IH]; intros h [H|H]; cbn [fold_left]; [destruct H|exact H| |]; [destruct H as [H|H]|].
      - subst y. apply IH. right. apply mem_false in NX. rewrite NX. apply add_In. auto.
      - apply IH. auto.
      - apply IH. right. destruct (mem y (complete s1)); auto. apply add_In. auto. }
    induction l as [|y l IH]; intros h [H|H]; cbn [fold_left]; [destruct H|exact H| |]; [destruct H as [<-|H]|]; apply IH; [right|left; exact H|right]; apply F1; auto. }
  apply F. left. apply filter_In. split; auto. unfold processed. cbn. apply negb_true_iff, orb_false_iff. split; now apply mem_false.
Qed.
Lemma after_scene_G o s : G s -> Good c s -> SD c s -> rst s = Running -> G (after_scene c o s).
Proof.
  intros I GD S R. unfold after_scene. assert (I1 := update_holdoff_G s I). assert (GD1 := update_holdoff_Good c s GD). destruct (update_holdoff_SD c s S) as (S1 & N1 & R1 & _).
  set (s1 := update_holdoff c s) in *. assert (R1' : rst s1 = Running) by congruence. destruct (S1 R1') as [T1 _].
  destruct (_ && _); [|now apply normal_part_G]. destruct (scene_errors c o s1); [apply (calm_G s1); auto; cm|]. destruct (sceneonly c); [apply (calm_G s1); auto; cm|].
  destruct (is_nil (tasks c)); [apply (calm_G s1); auto; cm|]. apply normal_part_G; auto; [apply (calm_G s1); auto; cm|now apply set_sqdone_Good].
Qed.
Lemma scan_G o l s : G s -> (forall t, In t l -> scened t) ->
  match scan c o l s with Return s' => G s' | Go x s' => G s' /\ forall t, x = Some t -> scened t /\ ~ In t (sqr s') /\ ~ In t (map fst (deferred s')) end.
Proof.
  revert s. induction l as [|t l IH]; intros s I L; cbn [scan]; [split; [auto|discriminate]|]. assert (St : scened t) by (apply L; now left). assert (L' : forall t, In t l -> scened t) by (intros x X; apply L; now right).
  match goal with |- context [if ?b then _ else scan c o l s] => destruct b eqn:E end; [|now apply IH].
  rewrite !andb_true_iff, !negb_true_iff in E. destruct E as (((_ & NR) & _) & _). apply mem_false in NR.
  assert (NC : ~ In t (sccov s)) by (intros H; apply NR, (g_sqr _ I t); auto). assert (NN : ~ In t (scnot s)) by (intros H; apply NR, (g_sqr _ I t); auto). assert (NL : ~ In t (sqlive s)) by (intros H; apply NR, (g_sqr _ I t); auto).
  match goal with |- context [if ?b then Return _ else _] => destruct b eqn:B end.
  { rewrite !andb_true_iff, !negb_true_iff in B. destruct B as (((((B1 & B2) & B3) & B4) & B5) & B6). apply mem_false in B1. rewrite subset_spec in B4.
    assert (I1 := skip_G t s I St NN NL). assert (SC : forall x, In x (sccov (sq_skip c t s)) <-> x = t \/ In x (sccov s)).
    { intros x. unfold sq_skip, sq_completeoutright. rewrite (l_cov _ _ (counters_tail_calm t _)). cbn. apply add_In. }
    revert I1 SC. generalize (sq_skip c t s). intros s1 [Gr Gcn Gcl Gnl Gd Gnn Gh Gs Gst Gl Gre Gp] SC. constructor; cbn; auto.
    - intros x X. apply ddel_keys in X. apply Gd. tauto.
    - intros d. rewrite add_In. intros [->|D]; [|auto]. split; [apply SC; auto|]. split; auto. intros q Q. apply SC. auto. }
  destruct (negb (forallb (processed s) (hardrev c t))).
  { match goal with |- context [is_nil ?n] => set (new := n) end. match goal with |- context [set_harddef ?a ?b] => set (s1 := set_harddef a b) end.
    assert (I1 : G s1) by (apply (calm_G s); auto; unfold s1; cm). destruct (is_nil new); [now apply IH|auto]. }
  destruct (dget t (deferred s)) as [b|] eqn:D.
  - destruct (negb (mem b (complete s))); [now apply IH|]. set (s1 := set_deferred (ddel t (deferred s)) s).
    assert (I1 : G s1). { apply (calm_G s); auto. unfold s1. cm. intros x X. apply ddel_keys in X. tauto. }
    assert (N1 : ~ In t (map fst (deferred s1))) by (unfold s1; cbn; intros X; apply ddel_keys in X; tauto).
    destruct (negb (o_valid o t)); [now apply fail_G|]. destruct (mem t (outright s1)); [now apply fail_G|]. split; auto. intros x [= <-]. auto.
  - apply dget_none in D. destruct (mem t (outright s)); [now apply fail_G|]. split; auto. intros x [= <-]. auto.
Qed.
Lemma scene_start_G o t s : G s -> scened t -> ~ In t (sqr s) -> ~ In t (map fst (deferred s)) -> G (fst (scene_start c o t s)).
Proof.
  intros I St NR ND. assert (NC : ~ In t (sccov s)) by (intros H; apply NR, (g_sqr _ I t); auto). assert (NN : ~ In t (scnot s)) by (intros H; apply NR, (g_sqr _ I t); auto). assert (NL : ~ In t (sqlive s)) by (intros H; apply NR, (g_sqr _ I t); auto).
  unfold scene_start. destruct (o_stamprec o t); [now apply fail_G|]. destruct (force c && mem t (targets c)); [now apply fail_G|]. destruct (o_scstamp o t); [now apply skip_G|]. destruct (skipscene c); [now apply fail_G|].
  cbn [fst]. destruct I as [Gr Gcn Gcl Gnl Gd Gnn Gh Gs Gst Gl Gre Gp]. constructor; cbn; auto.
  - intros x. rewrite !add_In. intros [H|[H|[->|H]]]; auto; split; try (right; apply Gr; auto); apply Gr; auto.
  - intros x H. rewrite add_In. intros [->|H']; auto. exact (Gcl x H H').
  - intros x H. rewrite add_In. intros [->|H']; auto. exact (Gnl x H H').
  - intros x H. rewrite add_In. destruct (Gd x H). split; auto. intros [->|H']; auto.
  - intros x [I|I]; [discriminate|]. auto.
  - intros x [I|I]; [discriminate|]. auto.
  - split; auto. intros d [=].
  - intros x I. destruct (Gre x I); [left|right]; now right.
Qed.
Lemma execute_G o s : G s -> Good c s -> SD c s -> rst s = Running -> G (execute c o s).
Proof.
  intros I GD S R. unfold execute. destruct (negb (sqdone s) && can_start c s) eqn:E; [|now apply after_scene_G].
  apply andb_true_iff in E. destruct E as [E CS]. apply negb_true_iff in E. pose proof (scan_G o (scene c) s I (fun t H => H)) as H.
  pose proof (scan_Good c o (scene c) s GD) as HG. destruct (scan_SD c o (scene c) s S E) as [HS _]. destruct (scan c o (scene c) s) as [s'|[t|] s']; auto.
  - destruct H as (I1 & H1). destruct (H1 t eq_refl) as (A1 & A2 & A3). destruct HG as (G1 & [B1 B2] & _). destruct HS as (S1 & S2 & S3).
    pose proof (scene_start_G o t s' I1 A1 A2 A3) as I2. destruct (scene_start c o t s') as [s2 b] eqn:SS. cbn [fst] in I2. destruct b; auto.
    destruct (scene_start_SD c o t s' s2 _ SS S1 S2) as [S4 S5]. apply after_scene_G; auto; [|congruence]. eapply scene_start_Good; eauto. unfold can_start in *. now rewrite B1, B2.
  - apply after_scene_G; try tauto. destruct HS as (_ & _ & HS). congruence.
Qed.
Lemma migrations_G o ch s : (forall t, In t ch -> ~ scened t) -> G s -> G (migrations c o ch s).
Proof.
  intros N I. unfold migrations. assert (F : filter (fun t => mem t (scene c)) ch = []).
  { apply nil_no. intros x X. apply filter_In in X. destruct X as [X Y]. apply mem_In in Y. exact (N x X Y). }
  rewrite F. cbn [union fold_left]. cbn [pending set_pending]. rewrite (g_pend _ I). cbn [migrate_loop]. unfold migrate_tail. cbn [fold_left is_nil negb].
  destruct (negb (is_nil ch) || false); apply (calm_G s); auto; cm; rewrite (g_pend _ I); reflexivity.
Qed.
Lemma finish_G s : G s -> G (finish s).
Proof. intros I. unfold finish. repeat match goal with |- context [if ?b then _ else _] => destruct b end; apply (calm_G s); auto; cm. Qed.
Lemma init_G o : G (init c o).
Proof.
  unfold init. match goal with |- context [update_scene_data c o (scene c) ?x] => set (s2 := x) end.
  assert (I2 : G s2).
  { assert (M : calm (blank c) (fold_left (fun s t => if is_nil (depends c t) then setbuildable t s else s) (diff (unskippable c) (scene c)) (blank c))).
    { apply calm_fold. intros a t. destruct (is_nil _); [apply setbuildable_calm|apply calm_refl]. }
    unfold s2. clear s2. revert M. generalize (fold_left (fun s t => if is_nil (depends c t) then setbuildable t s else s) (diff (unskippable c) (scene c)) (blank c)).
    intros s1 [Lr Lc Ln Ll Lnn Lp Lh Ld Lco (l & E & F)]. cbn in *. rewrite app_nil_r in E. destruct (quiet_log l [] F) as [Q1 Q2]. rewrite app_nil_r in *.
    constructor; cbn; rewrite ?Lr, ?Lc, ?Ln, ?Ll, ?Lnn, ?Lp, ?E; cbn; auto; try tauto.
    - intros NU. destruct Lh as [Lh|[Lh _]]; congruence.
    - intros d I. apply Q1 in I; [destruct I|cbn; auto].
    - intros d I. apply Q1 in I; [destruct I|cbn; auto].
    - apply Q2. exact I. }
  assert (K : G (update_scene_data c o (scene c) s2)).
  { apply usd_G; auto. intros t T. split; auto. assert (E : scnot s2 = [] /\ sqlive s2 = []).
    { unfold s2. cbn. assert (M : calm (blank c) (fold_left (fun s t => if is_nil (depends c t) then setbuildable t s else s) (diff (unskippable c) (scene c)) (blank c))).
      { apply calm_fold. intros a x. destruct (is_nil _); [apply setbuildable_calm|apply calm_refl]. }
      split; [exact (l_not _ _ M)|exact (l_live _ _ M)]. }
    destruct E as [-> ->]. cbn. auto. }
  destruct (is_nil (scene c)); auto. match goal with |- G (set_sqdone _ (set_tnot _ ?x)) => apply (calm_G x); [cm|] end.
  apply (calm_G (update_scene_data c o (scene c) s2)); auto. apply calm_fold. intros a x. destruct (is_nil _); [apply setbuildable_calm|apply calm_refl].
Qed.
Notation no_rehash := (no_rehash c).
Lemma step_G e s : (forall ch o, e = Migrate ch o -> forall t, In t ch -> ~ scened t) -> G s -> Good c s -> SD c s -> G (step c e s).
Proof.
  intros N I GD S. destruct e as [t ok o|o|ch o|]; cbn [step].
  - destruct (_ || _); auto. destruct (rst s); auto; now apply waitpid_G.
  - destruct (rst s) eqn:R; auto; [now apply execute_G|now apply finish_G].
  - destruct (rst s); auto. apply migrations_G; eauto.
  - destruct (rst s); auto; now apply finish_G.
Qed.
Lemma run_G o es : sound_graph c -> (0 <= threads c)%Z -> no_rehash es -> G (run c o es).
Proof.
  intros SG T N. unfold run. assert (X : forall es s, no_rehash es -> G s -> Good c s -> SD c s -> G (fold_left (fun s e => step c e s) es s)).
  { induction es0 as [|e es0 IH]; intros s NR I GD S; cbn [fold_left]; auto. apply IH.
    - intros ch o' H. apply (NR ch o'). now right.
    - apply step_G; auto. intros ch o' ->. apply (NR ch o'). now left.
    - now apply step_Good.
    - now apply step_SD. }
  apply X; auto; [apply init_G|now apply init_Good|now apply init_SD].
Qed.
Lemma restored_split h post pre d : restored_log h -> h = post ++ Skipped d true :: pre -> scened d -> restored pre d.
Proof.
  revert h. induction post as [|e post IH]; intros h R E S; cbn [app] in E; subst h; cbn [restored_log] in R; destruct R as [R1 R2]; auto. eapply IH; eauto.
Qed.
Lemma inputs_ok o es t d post pre : sound_graph c -> (0 <= threads c)%Z -> no_rehash es ->
  log (run c o es) = post ++ Started t :: pre -> In d (depends c t) -> In (Skipped d true) pre ->
  In d (scene c) /\ restored pre d /\ ~ In d (notneeded (run c o es)).
Proof.
  intros SG T N E D K. assert (I := run_G o es SG T N). assert (K' : In (Skipped d true) (log (run c o es))) by (rewrite E; apply in_or_app; right; now right).
  assert (S' : In (Started t) (log (run c o es))) by (rewrite E; apply in_or_app; right; now left).
  destruct (g_skip _ I d K') as (A1 & A2 & A3). destruct SG as (CL & rank & RK).
  assert (Q : scened d /\ (In d (notneeded (run c o es)) -> False)).
  { destruct (g_start _ I t S') as [[U NS]|H].
    - assert (U' := unskippable_closed c CL t d U NS D). destruct (in_dec Nat.eq_dec d (scene c)) as [S|S]; [|elim (A2 S U')]. split; auto. intros X. apply (g_nn _ I d X). exact U'.
    - assert (Hq : exists q, In q (scnot (run c o es)) /\ stretch c q d).
      { destruct H as [H|(q & H & H')]; [exists t; split; auto; now apply stretch_direct|]. exists q. split; auto. apply (c_covers c coll) in H'; [|apply (g_sqr _ I q); auto]. eapply stretch_via; [apply H'|apply H'|auto]. }
      destruct Hq as (q & Hq & St). assert (Sq : scened q) by (apply (g_sqr _ I q); auto). assert (NQ : ~ In q (sccov (run c o es))) by (intros X; exact (g_cn _ I q X Hq)).
      destruct (in_dec Nat.eq_dec d (scene c)) as [S|S].
      + split; auto. intros X. apply NQ. apply (g_nn _ I d X). apply (c_rev c coll); auto.
      + elim NQ. apply A3; auto. apply (c_covers c coll); auto. }
  destruct Q as [Q1 Q2]. split; auto. split; auto. apply in_split in K. destruct K as (l1 & l2 & K).
  assert (R : restored l2 d). { eapply (restored_split _ (post ++ Started t :: l1) l2 d (g_log _ I)); auto. rewrite E, K, <- app_assoc. reflexivity. }
  rewrite K. apply restored_mono. destruct R; [left|right]; now right.
Qed.
End Inputs.
