(** Proofs about the permissions of the hash server. *)
From Coq Require Import Ascii String List Bool Arith Lia.
From Verif Require Import Str_Model Str_Proofs Hashperm_Model Hashperm_Spec.
Import ListNotations.
Open Scope list_scope.

Lemma subset_iff : forall a b, subset a b = true <-> forall p, In p a -> In p b.
Proof.
  intros a b. unfold subset. rewrite forallb_forall. split; intros H p I; specialize (H p I); apply mem_str_In; auto.
Qed.
Lemma held_iff : forall held ps, mem_str ALL_PERM held || subset ps held = true <-> covers held ps.
Proof. intros. rewrite orb_true_iff, mem_str_In, subset_iff. reflexivity. Qed.

Lemma anon_no_all : forall ps, anon_allowed ps = true -> ~ In ALL_PERM ps /\ ~ In USER_ADMIN_PERM ps.
Proof.
  intros ps H. unfold anon_allowed in H. rewrite forallb_forall in H.
  split; intros I; apply H in I; vm_compute in I; discriminate.
Qed.

Lemma has_anon : forall s u ps, anon_allowed (anon s) = true ->
  (user_has_permissions s u ps true = true <->
   (forall p, In p ps -> In p (anon s)) \/ exists x, u = Some x /\ covers (perms x) ps).
Proof.
  intros s u ps A. unfold user_has_permissions. cbn [andb].
  destruct (mem_str ALL_PERM (anon s) || subset ps (anon s)) eqn:E.
  - apply held_iff in E. destruct E as [E|E]; [exfalso; apply (proj1 (anon_no_all _ A)); auto|]. tauto.
  - assert (N : ~ forall p, In p ps -> In p (anon s)).
    { intros H. apply subset_iff in H. rewrite H, orb_true_r in E. discriminate. }
    destruct u as [x|].
    + rewrite held_iff. split; [intros H; right; eauto|]. intros [H|(y & Y & H)]; [tauto|]. inversion Y; subst; auto.
    + split; [discriminate|]. intros [H|(y & Y & H)]; [tauto|discriminate].
Qed.
Lemma has_admin : forall s u, user_has_permissions s u [USER_ADMIN_PERM] false = true <->
  exists x, u = Some x /\ administrator x.
Proof.
  intros s u. unfold user_has_permissions. cbn [andb]. destruct u as [x|].
  - rewrite held_iff. unfold covers, administrator. split.
    + intros H. exists x. split; auto. destruct H as [H|H]; auto. left. apply H. left. auto.
    + intros (y & Y & H). inversion Y; subst. destruct H as [H|H]; auto. right. intros p [<-|[]]. auto.
  - split; [discriminate|]. intros (y & Y & _). discriminate.
Qed.

Lemma lookup_in : forall us n x, lookup us n = Some x -> In x us /\ name x = n.
Proof. intros us n x H. unfold lookup in H. apply find_some in H. rewrite seqb_eq in H. auto. Qed.

Lemma handle_const : forall s c r, anon (fst (handle s c r)) = anon s /\ read_only (fst (handle s c r)) = read_only s.
Proof.
  intros s c r. destruct r; cbn [handle]; unfold as_self_or_admin, as_admin;
  repeat match goal with
  | |- context [if ?b then _ else _] => destruct b eqn:?
  | |- context [match ?x with _ => _ end] => destruct x eqn:?
  end; cbn; auto.
Qed.

(** Only logins change sessions *)
Lemma handle_session : forall s c r c', 
  session (fst (handle s c r)) c' = session s c' \/
  (c' = c /\ exists x, session (fst (handle s c r)) c' = Some x /\ lookup (users s) (name x) = Some x /\
     (r = Auth (name x) (token x) \/
      (r = BecomeUser (name x) /\ exists y, session s c = Some y /\ administrator y)) /\
     snd (handle s c r) = Done).
Proof.
  intros s c r c'.
  assert (L : forall x n, lookup (users s) n = Some x -> 
            (r = Auth n (token x) \/ (r = BecomeUser n /\ exists y, session s c = Some y /\ administrator y)) ->
            session (login s c x) c' = session s c' \/
            (c' = c /\ exists x0, session (login s c x) c' = Some x0 /\ lookup (users s) (name x0) = Some x0 /\
             (r = Auth (name x0) (token x0) \/ (r = BecomeUser (name x0) /\ exists y, session s c = Some y /\ administrator y)) /\
             Done = Done)).
  { intros x n F R. cbn. destruct (Nat.eqb c' c) eqn:E; auto. apply Nat.eqb_eq in E. right. split; auto. exists x.
    destruct (lookup_in _ _ _ F) as [_ <-]. auto. }
  destruct r; cbn [handle]; unfold as_self_or_admin, as_admin; auto;
  try (repeat match goal with
  | |- context [if ?b then _ else _] => destruct b
  | |- context [match ?x with _ => _ end] => destruct x
  end; auto; fail).
  - destruct (lookup (users s) n) as [x|] eqn:F; auto. destruct (seqb (token x) tok) eqn:T; auto.
    apply seqb_eq in T. subst tok. cbn [fst snd]. eapply L; eauto.
  - destruct (user_has_permissions s (session s c) [USER_ADMIN_PERM] false) eqn:A; auto. apply has_admin in A.
    destruct (lookup (users s) n) as [x|] eqn:F; auto. cbn [fst snd]. eapply L; eauto.
Qed.

(** A connection without user administration *)
Lemma handle_users : forall s c r,
  (forall u, session s c = Some u -> ~ administrator u) ->
  let us := users s in let us' := users (fst (handle s c r)) in
  (forall x', In x' us' -> exists x, In x us /\ name x = name x' /\ perms x = perms x' /\
     (token x = token x' \/ exists u, session s c = Some u /\ name u = name x)) /\
  (forall x, In x us -> In x us' \/ exists u, session s c = Some u /\ name u = name x).
Proof.
  intros s c r NA us us'.
  assert (TRIV : us' = us -> (forall x', In x' us' -> exists x, In x us /\ name x = name x' /\ perms x = perms x' /\
     (token x = token x' \/ exists u, session s c = Some u /\ name u = name x)) /\
  (forall x, In x us -> In x us' \/ exists u, session s c = Some u /\ name u = name x)).
  { intros ->. split; auto. intros x' I. exists x'. auto. }
  assert (NP : user_has_permissions s (session s c) [USER_ADMIN_PERM] false = false).
  { apply not_true_is_false. intros H. apply has_admin in H. destruct H as (u & U & A). eapply NA; eauto. }
  assert (SS : forall n n', self_service (session s c) n = Some n' -> exists u, session s c = Some u /\ name u = n').
  { intros n n' H. unfold self_service in H. destruct (session s c) as [u|]; [|discriminate]. exists u. split; auto.
    destruct n as [n|]; [|inversion H; auto]. destruct (seqb n (name u)); inversion H; auto. }
  subst us us'. destruct r; cbn [handle] in *; unfold as_self_or_admin, as_admin in *; rewrite ?NP in *; auto.
  - destruct (read_only s && negb (in_readonly k)); auto. destruct (user_has_permissions s (session s c) (required k) true); auto.
  - destruct (lookup (users s) n) as [x|]; auto. destruct (seqb (token x) tok); auto.
  - destruct (read_only s); auto. destruct (self_service (session s c) n) as [n'|] eqn:S; auto.
    apply SS in S. destruct S as (u & U & UN). destruct (lookup (users s) n') as [y|]; auto.
    cbn [fst with_users users] in *. clear TRIV. unfold update. split.
    + intros x' I. apply in_map_iff in I. destruct I as (x & E & I). exists x. split; auto.
      destruct (seqb (name x) n') eqn:Q; subst x'; cbn; auto. apply seqb_eq in Q. split; auto. split; auto. right.
      exists u. split; auto. congruence.
    + intros x I. destruct (seqb (name x) n') eqn:Q.
      * apply seqb_eq in Q. right. exists u. split; auto. congruence.
      * left. apply in_map_iff. exists x. rewrite Q. auto.
  - destruct (read_only s); auto.
  - destruct (self_service (session s c) n) as [n'|]; auto.
  - destruct (read_only s); auto.
  - destruct (read_only s); auto. destruct (self_service (session s c) n) as [n'|] eqn:S; auto.
    apply SS in S. destruct S as (u & U & UN). destruct (lookup (users s) n') as [y|]; auto.
    cbn [fst with_users users] in *. clear TRIV. unfold delete. split.
    + intros x' I. apply filter_In in I. exists x'. tauto.
    + intros x I. destruct (seqb (name x) n') eqn:Q.
      * apply seqb_eq in Q. right. exists u. split; auto. congruence.
      * left. apply filter_In. rewrite Q. auto.
Qed.

(** * Runs *)
Lemma run_cons_snd : forall s c r es, snd (run s ((c, r) :: es)) = snd (run (fst (handle s c r)) es).
Proof. intros. cbn [run]. destruct (handle s c r) as [s' a]. cbn [fst]. destruct (run s' es). auto. Qed.
Lemma run_app_snd : forall es1 es2 s, snd (run s (es1 ++ es2)) = snd (run (snd (run s es1)) es2).
Proof.
  induction es1 as [|[c r] es1 IH]; intros es2 s; auto. cbn [app]. rewrite !run_cons_snd. apply IH.
Qed.
Lemma run_const : forall es s, anon (snd (run s es)) = anon s /\ read_only (snd (run s es)) = read_only s.
Proof.
  induction es as [|[c r] es IH]; intros s; auto. rewrite run_cons_snd. destruct (IH (fst (handle s c r))) as [A B].
  destruct (handle_const s c r). split; congruence.
Qed.
Lemma start_spec : forall an ro us s, start an ro us = Some s ->
  anon s = an /\ read_only s = ro /\ users s = us /\ anon_allowed an = true /\ forall c, session s c = None.
Proof. intros an ro us s H. unfold start in H. destruct (anon_allowed an); inversion H. cbn. auto. Qed.

(** The last login of the connection *)
Lemma run_session : forall es s c u, session s c = None -> session (snd (run s es)) c = Some u ->
  exists es1 r es2, es = es1 ++ (c, r) :: es2 /\
    let s1 := snd (run s es1) in
    snd (handle s1 c r) = Done /\ lookup (users s1) (name u) = Some u /\
    (r = Auth (name u) (token u) \/
     (r = BecomeUser (name u) /\ exists y, session s1 c = Some y /\ administrator y)).
Proof.
  intros es s c u N. revert u. induction es as [|[c' r] es IH] using rev_ind; intros u H.
  - cbn in H. congruence.
  - rewrite run_app_snd, run_cons_snd in H. cbn [run snd] in H.
    destruct (handle_session (snd (run s es)) c' r c) as [E|(-> & x & E & L & R & D)].
    + rewrite E in H. apply IH in H. destruct H as (es1 & r' & es2 & -> & H). exists es1, r', (es2 ++ [(c', r)]).
      rewrite <- app_assoc. split; auto.
    + rewrite E in H. inversion H; subst x. exists es, r, []. auto.
Qed.

(** Nobody becomes an administrator if nobody was *)
Definition within (us0 : list user) (s : server) : Prop :=
  (forall x, In x (users s) -> exists x0, In x0 us0 /\ name x0 = name x /\ perms x0 = perms x) /\
  (forall c x, session s c = Some x -> exists x0, In x0 us0 /\ name x0 = name x /\ perms x0 = perms x).
Lemma within_step : forall us0 s c r, (forall x, In x us0 -> ~ administrator x) ->
  within us0 s -> within us0 (fst (handle s c r)).
Proof.
  intros us0 s c r NA [W1 W2].
  assert (N : forall u, session s c = Some u -> ~ administrator u).
  { intros u U A. apply W2 in U. destruct U as (x0 & I & _ & P). apply (NA x0 I). unfold administrator in *. rewrite P. auto. }
  destruct (handle_users s c r N) as [H1 _]. split.
  - intros x' I. destruct (H1 x' I) as (x & I' & E1 & E2 & _). destruct (W1 x I') as (x0 & I0 & E3 & E4). exists x0.
    split; auto. split; congruence.
  - intros c' x E. destruct (handle_session s c r c') as [Q|(-> & y & Q & L & _)].
    + rewrite Q in E. eapply W2; eauto.
    + rewrite Q in E. inversion E; subst y. apply lookup_in in L. destruct L as [L _]. auto.
Qed.
Lemma within_run : forall us0 es s, (forall x, In x us0 -> ~ administrator x) ->
  within us0 s -> within us0 (snd (run s es)).
Proof.
  intros us0. induction es as [|[c r] es IH]; intros s NA W; auto. rewrite run_cons_snd. apply IH; auto. apply within_step; auto.
Qed.
