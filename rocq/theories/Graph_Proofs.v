(** Lemmas for C91-C95. *)
From Coq Require Import String Ascii List Bool Arith Lia Wellfounded.
From Verif Require Import Str_Model Str_Proofs Graph_Model Graph_Spec.
Import ListNotations.
Open Scope list_scope.

(** ** Sets *)
Lemma teqb_eq a b : teqb a b = true <-> a = b.
Proof. unfold teqb. rewrite andb_true_iff, !seqb_eq. destruct a, b; cbn. split; [intros [-> ->]; auto|]. now intros [= -> ->]. Qed.
Lemma teqb_refl a : teqb a a = true. Proof. now apply teqb_eq. Qed.
Lemma teqb_neq a b : teqb a b = false <-> a <> b.
Proof. rewrite <- not_true_iff_false, teqb_eq. tauto. Qed.
Lemma mem_In x l : mem x l = true <-> In x l.
Proof. unfold mem. rewrite existsb_exists. split; [intros (y & I & E); apply teqb_eq in E; now subst|intros I; exists x; split; auto using teqb_refl]. Qed.
Lemma mem_nIn x l : mem x l = false <-> ~ In x l.
Proof. rewrite <- not_true_iff_false, mem_In. tauto. Qed.
Lemma tid_dec (x y : tid) : {x = y} + {x <> y}.
Proof. destruct (teqb x y) eqn:E; [left; now apply teqb_eq|right; now apply teqb_neq]. Defined.
Lemma add_In l x y : In y (add l x) <-> In y l \/ y = x.
Proof. unfold add. destruct (mem x l) eqn:E; [|rewrite in_app_iff; cbn; intuition auto]. apply mem_In in E. split; [tauto|]. intros [H| ->]; auto. Qed.
Lemma fold_add_In l : forall s y, In y (fold_left add l s) <-> In y s \/ In y l.
Proof. induction l as [|x l IH]; intros s y; cbn; [tauto|]. rewrite IH, add_In. intuition auto. Qed.
Lemma add_NoDup l x : NoDup l -> NoDup (add l x).
Proof.
  intros N. unfold add. destruct (mem x l) eqn:E; auto. apply mem_nIn in E. clear -N E. induction N as [|y l NI N IH]; cbn; [constructor; [intros []|constructor]|].
  constructor; [rewrite in_app_iff; cbn in *; intuition auto|]. apply IH. cbn in E. tauto.
Qed.
Lemma fold_add_NoDup l : forall s, NoDup s -> NoDup (fold_left add l s).
Proof. induction l as [|x l IH]; intros s N; cbn; auto using add_NoDup. Qed.
Lemma fold_add_app l : forall s, exists e, fold_left add l s = s ++ e.
Proof.
  induction l as [|x l IH]; intros s; cbn; [exists []; now rewrite app_nil_r|]. destruct (IH (add s x)) as [e E]. rewrite E. unfold add. destruct (mem x s); [now exists e|].
  rewrite <- app_assoc. now eexists.
Qed.
Lemma sadd_In l x y : In y (sadd l x) <-> In y l \/ y = x.
Proof. unfold sadd. destruct (mem_str x l) eqn:E; [|rewrite in_app_iff; cbn; intuition auto]. apply mem_str_In in E. split; [tauto|]. intros [H| ->]; auto. Qed.
Lemma fold_sadd_In l : forall s y, In y (fold_left sadd l s) <-> In y s \/ In y l.
Proof. induction l as [|x l IH]; intros s y; cbn; [tauto|]. rewrite IH, sadd_In. intuition auto. Qed.
Lemma upd_same {A} (f : tid -> A) k v : upd f k v k = v.
Proof. unfold upd. now rewrite teqb_refl. Qed.
Lemma upd_other {A} (f : tid -> A) k v x : x <> k -> upd f k v x = f x.
Proof. unfold upd. intros N. apply teqb_neq in N. now rewrite N. Qed.
Lemma filter_nil {A} (f : A -> bool) l : filter f l = [] <-> forall x, In x l -> f x = false.
Proof.
  induction l as [|a l IH]; cbn; [tauto|]. destruct (f a) eqn:E.
  - split; [discriminate|]. intros H. rewrite (H a) in E by auto. discriminate.
  - rewrite IH. split; intros H x; [intros [<-|I]; auto|auto].
Qed.
Lemma NoDup_app_inv {A} (l r : list A) : NoDup (l ++ r) -> NoDup l /\ NoDup r /\ forall x, In x l -> ~ In x r.
Proof.
  induction l as [|a l IH]; cbn; intros N; [split; [constructor|split; auto]|]. inversion N as [|? ? NI N']; subst. destruct (IH N') as (N1 & N2 & N3).
  split; [constructor; auto; intros I; apply NI; apply in_or_app; auto|]. split; auto. intros x [<-|I]; [intros J; apply NI; apply in_or_app; auto|auto].
Qed.
Lemma NoDup_app_intro {A} (l r : list A) : NoDup l -> NoDup r -> (forall x, In x l -> ~ In x r) -> NoDup (l ++ r).
Proof.
  intros N1. induction N1 as [|a l NI N IH]; cbn; auto. intros N2 H. constructor; [rewrite in_app_iff; intros [I|I]; [auto|apply (H a); auto]|]. apply IH; auto.
Qed.

(** ** Paths *)
Lemma path_trans R x y z : path R x y -> path R y z -> path R x z.
Proof. induction 1; intros H2; [now apply P_more with y|apply P_more with y; auto]. Qed.
Lemma leads_trans R x y z : leads R x y -> leads R y z -> leads R x z.
Proof. intros [->|H1] [->|H2]; [now left|now right|now right|right; eauto using path_trans]. Qed.
Lemma path_iff (R R' : tid -> tid -> Prop) : (forall x y, R x y <-> R' x y) -> forall x y, path R x y <-> path R' x y.
Proof. intros H x y. split; induction 1; [apply P_one; now apply H|apply P_more with y; [now apply H|auto]|apply P_one; now apply H|apply P_more with y; [now apply H|auto]]. Qed.
Lemma leads_iff (R R' : tid -> tid -> Prop) : (forall x y, R x y <-> R' x y) -> forall x y, leads R x y <-> leads R' x y.
Proof. intros H x y. unfold leads. now rewrite (path_iff R R' H). Qed.
(** Without cycles on a finite set every descent ends *)
Section Finite.
Variable R : tid -> tid -> Prop.
Variable dom : list tid.
Hypothesis into : forall x y, R x y -> In y dom.
Hypothesis acyclic : no_cycle R.
Lemma acc_avoid : forall n (seen : list tid) x, NoDup seen -> (forall y, In y seen -> In y dom) -> length dom - length seen <= n ->
  (forall y, In y seen -> path R y x \/ y = x) -> In x seen -> Acc (fun a b => R b a) x.
Proof.
  induction n as [|n IH]; intros seen x N S L P I.
  - constructor. intros y RY. exfalso. destruct (in_dec tid_dec y seen) as [J|J].
    + destruct (P y J) as [Q| ->]; [apply (acyclic y); apply path_trans with x; auto; now apply P_one|apply (acyclic x); now apply P_one].
    + assert (B : length (y :: seen) <= length dom). { apply NoDup_incl_length; [now constructor|]. intros z [<-|K]; [eauto|auto]. } cbn in B. lia.
  - constructor. intros y RY. destruct (in_dec tid_dec y seen) as [J|J].
    + exfalso. destruct (P y J) as [Q| ->]; [apply (acyclic y); apply path_trans with x; auto; now apply P_one|apply (acyclic x); now apply P_one].
    + apply (IH (y :: seen)); cbn.
      * now constructor.
      * intros z [<-|K]; [eauto|auto].
      * assert (B : length (y :: seen) <= length dom). { apply NoDup_incl_length; [now constructor|]. intros z [<-|K]; [eauto|auto]. } cbn in B. lia.
      * intros z [<-|K]; [now right|]. left. destruct (P z K) as [Q| ->]; [apply path_trans with x; auto; now apply P_one|now apply P_one].
      * now left.
Qed.
Lemma acyclic_acc x : Acc (fun a b => R b a) x.
Proof.
  constructor. intros y RY. apply (acc_avoid (length dom) [y]); cbn.
  - constructor; [intros []|constructor].
  - intros z [<-|[]]. eauto.
  - lia.
  - intros z [<-|[]]. now right.
  - now left.
Qed.
End Finite.

(** ** Direct dependencies *)
Section Direct.
Variable D : data.
Lemma words_flag o w : In w (words o) <-> flag_word o w.
Proof. unfold words, flag_word. destruct o as [l|]; split; [intros I; now exists l|intros (l' & [= <-] & I); auto|intros []|intros (l' & E & _); discriminate]. Qed.
Lemma named_In look ids ws x : In x (named D look ids ws) <-> exists n, In n ids /\ look n = Some (fst x) /\ In (snd x) ws /\ In x (d_tasks D).
Proof.
  unfold named. rewrite in_flat_map. split.
  - intros (n & I & H). destruct (look n) as [f|] eqn:L; [|contradiction]. apply filter_In in H. destruct H as [H M]. apply in_map_iff in H. destruct H as (w & <- & W). apply mem_In in M. exists n. auto.
  - intros (n & I & L & W & M). exists n. split; auto. rewrite L. apply filter_In. split; [|now apply mem_In]. apply in_map_iff. exists (snd x). destruct x; auto.
Qed.
Lemma mc_deps_In mc l r x : mc_deps D mc l = Some r -> In x r <-> exists to n, In (mc, to, n, snd x) l /\ d_build D to n = Some (fst x).
Proof.
  revert r. induction l as [|[[[from to] n] task] l IH]; intros r H; cbn in H.
  - injection H as <-. split; [intros []|intros (? & ? & [] & _)].
  - destruct (seqb mc from) eqn:E.
    + apply seqb_eq in E. subst from. destruct (d_build D to n) as [f|] eqn:B; [|discriminate]. destruct (mc_deps D mc l) as [r'|] eqn:M; [|discriminate]. injection H as <-.
      cbn [In]. rewrite (IH r' eq_refl). split.
      * intros [<-|(to' & n' & I & L)]; [exists to, n; cbn; auto|exists to', n'; auto].
      * intros (to' & n' & [I|I] & L); [left; injection I as -> -> I; destruct x; cbn in *; congruence|right; eauto].
    + rewrite (IH r H). assert (mc <> from) by (intros ->; now rewrite seqb_refl in E). split; intros (to' & n' & I & L); exists to', n'; (split; [|auto]); [now right|].
      destruct I as [I|I]; auto. congruence.
Qed.
Lemma inter_In look skip l r x : inter D look skip l = Some r -> In x r <-> exists n, In (n, snd x) l /\ skip n = false /\ look n = Some (fst x).
Proof.
  revert r. induction l as [|[n task] l IH]; intros r H; cbn in H.
  - injection H as <-. split; [intros []|intros (? & [] & _)].
  - destruct (skip n) eqn:SK; [|destruct (look n) as [f|] eqn:L].
    + rewrite (IH r H). split; intros (n' & I & S & L'); exists n'; (split; [|auto]); [now right|]. destruct I as [I|I]; auto. injection I as -> _. congruence.
    + destruct (mem (f, task) (d_tasks D)); [|discriminate]. destruct (inter D look skip l) as [r'|]; [|discriminate]. cbn in H. injection H as <-. cbn [In]. rewrite (IH r' eq_refl). split.
      * intros [<-|(n' & I & S & L')]; [exists n; cbn; auto|exists n'; auto].
      * intros (n' & [I|I] & S & L'); [left; injection I as -> ->; destruct x; cbn in *; congruence|right; eauto].
    + rewrite (IH r H). split; intros (n' & I & S & L'); exists n'; (split; [|auto]); [now right|]. destruct I as [I|I]; auto. injection I as -> _. congruence.
Qed.
Lemma inter_tasks look skip l r x : inter D look skip l = Some r -> In x r -> In x (d_tasks D).
Proof.
  revert r. induction l as [|[n task] l IH]; intros r H I; cbn in H; [injection H as <-; contradiction|].
  destruct (if skip n then None else look n) as [f|]; [|eauto]. destruct (mem (f, task) (d_tasks D)) eqn:M; [|discriminate]. destruct (inter D look skip l) as [r'|]; [|discriminate].
  cbn in H. injection H as <-. destruct I as [<-|I]; [now apply mem_In|eauto].
Qed.
Lemma mcdepends_In mc q : In q (mcdepends D mc) <-> exists u l, In u (d_tasks D) /\ d_mc D (fst u) = mc /\ d_mcdepends D u = Some l /\ In q l.
Proof.
  unfold mcdepends. rewrite in_flat_map. split.
  - intros (u & I & H). destruct (seqb (d_mc D (fst u)) mc) eqn:E; [|contradiction]. apply seqb_eq in E. destruct (d_mcdepends D u) as [l|] eqn:M; [|contradiction]. exists u, l. auto.
  - intros (u & l & I & E & M & J). exists u. split; auto. rewrite E, seqb_refl, M. exact J.
Qed.
Lemma depends_of_In t ds x : In t (d_tasks D) -> depends_of D t = Some ds -> In x ds <-> direct_dep D t x.
Proof.
  intros IT H. unfold depends_of in H. unfold direct_dep, failed. destruct (mem_str (fst t) (d_failed_fns D)) eqn:F.
  - apply mem_str_In in F. injection H as <-. split; [intros []|tauto].
  - assert (NF : ~ In (fst t) (d_failed_fns D)) by (intros I; apply mem_str_In in I; congruence).
    set (mc := d_mc D (fst t)) in *.
    destruct (match d_mcdepends D t with Some _ => mc_deps D mc (mcdepends D mc) | None => Some [] end) as [m|] eqn:M; [|discriminate].
    destruct (inter D (d_build D mc) (fun n => mem_str n (d_failed_deps D mc)) (d_idepends D t)) as [i|] eqn:I1; [|discriminate].
    destruct (inter D (d_run D mc) (fun _ => false) (d_irdepends D t)) as [ir|] eqn:I2; [|discriminate]. injection H as <-.
    rewrite filter_In, fold_add_In, negb_true_iff, teqb_neq, !in_app_iff.
    rewrite (inter_In _ _ _ _ x I1), (inter_In _ _ _ _ x I2), !named_In.
    assert (MC : In x m <-> exists l u l' to n, d_mcdepends D t = Some l /\ In u (d_tasks D) /\ d_mc D (fst u) = mc /\ d_mcdepends D u = Some l' /\ In (mc, to, n, snd x) l' /\ d_build D to n = Some (fst x)).
    { destruct (d_mcdepends D t) as [l|] eqn:DT.
      - rewrite (mc_deps_In _ _ _ x M). split.
        + intros (to & n & I & L). apply mcdepends_In in I. destruct I as (u & l' & IU & E & DU & J). exists l, u, l', to, n. auto 10.
        + intros (_ & u & l' & to & n & _ & IU & E & DU & J & L). exists to, n. split; auto. apply mcdepends_In. exists u, l'. auto.
      - injection M as <-. split; [intros []|intros (? & ? & ? & ? & ? & E & _); discriminate]. }
    rewrite MC. clear MC. setoid_rewrite words_flag.
    assert (FS : forall n, mem_str n (d_failed_deps D mc) = false <-> ~ In n (d_failed_deps D mc)) by (intros n; rewrite <- not_true_iff_false, mem_str_In; tauto).
    destruct x as [f w]; cbn [fst snd]. split.
    + intros [[[]|H] NE]. split; auto. split; auto. split; auto. destruct H as [H|[H|[H|[H|[H|[H|[H|H]]]]]]].
      * now apply N_task.
      * destruct H as (l & u & l' & to & n & ? & ? & ? & ? & ? & ?). now apply (N_mc D t l u l' to n w f).
      * destruct H as (n & ? & ? & ? & ?). apply (N_dep D t n f w); auto.
      * destruct H as (n & ? & ? & ? & ?). apply (N_rdep D t n f w); auto.
      * destruct H as (n & ? & S & ?). apply FS in S. apply (N_idep D t n w f); auto.
      * destruct H as (n & ? & S & ?). apply (N_irdep D t n w f); auto.
      * destruct H as (n & ? & ? & ? & ?). apply (N_dep D t n f w); auto.
      * destruct H as (n & ? & ? & ? & ?). apply (N_rdep D t n f w); auto.
    + intros (_ & _ & H & NE). split; auto. right. inversion H as [? A|l u l' to n ? ? A1 A2 A3 A4 A5 A6|n ? ? A1 A2 [A3|A3] A4|n ? ? A1 A2 [A3|A3] A4|n ? ? A1 A2 A3|n ? ? A1 A2]; subst.
      * now left.
      * right. left. exists l, u, l', to, n. auto 10.
      * do 2 right; left; exists n; auto.
      * do 6 right; left; exists n; auto.
      * do 3 right; left; exists n; auto.
      * do 7 right; exists n; auto.
      * do 4 right. left. exists n. rewrite FS. auto.
      * do 5 right. left. exists n. auto.
Qed.
Lemma depends_of_NoDup t ds : depends_of D t = Some ds -> NoDup ds.
Proof.
  unfold depends_of. destruct (mem_str (fst t) (d_failed_fns D)); [intros [= <-]; constructor|].
  destruct (match d_mcdepends D t with Some _ => _ | None => _ end); [|discriminate].
  destruct (inter _ _ _ (d_idepends D t)); [|discriminate]. destruct (inter _ _ _ (d_irdepends D t)); [|discriminate].
  intros [= <-]. apply NoDup_filter. apply fold_add_NoDup. constructor.
Qed.
Lemma all_depends_spec l dep : all_depends D l = Some dep -> forall t,
  (In t l -> exists ds, depends_of D t = Some ds /\ dep t = ds /\ forall x, In x ds -> In x (d_tasks D)) /\ (~ In t l -> dep t = []).
Proof.
  revert dep. induction l as [|u l IH]; intros dep H t; cbn in H; [injection H as <-; split; [intros []|auto]|].
  destruct (depends_of D u) as [ds|] eqn:DU; [|discriminate]. destruct (all_depends D l) as [f|] eqn:AL; [|discriminate].
  destruct (forallb (fun x => mem x (d_tasks D)) ds) eqn:FB; [|discriminate]. injection H as <-. destruct (tid_dec t u) as [->|NE].
  - rewrite upd_same. split; [intros _|intros NI; exfalso; apply NI; now left]. exists ds. split; auto. split; auto. intros x I. rewrite forallb_forall in FB. now apply mem_In, FB.
  - rewrite upd_other by auto. destruct (IH f eq_refl t) as [A B]. split; [intros [->|I]; [contradiction|auto]|]. intros NI. apply B. intros I. apply NI. now right.
Qed.
End Direct.

(** ** Recipes below a task *)
Section Chains_proofs.
Variable tasks : list tid.
Variable depends : tid -> list tid.
Hypothesis nodup : NoDup tasks.
Hypothesis closed : forall t x, In x (depends t) -> In x tasks.
Let R x y := In y (depends x).
Definition below_fn (t : tid) (f : str) : Prop := exists y, leads R t y /\ f = fst y.
Lemma revdeps_In t x : In x (revdeps tasks depends t) <-> In x tasks /\ In t (depends x).
Proof. unfold revdeps. now rewrite filter_In, mem_In. Qed.
Lemma visit_fold t l : forall s, NoDup l -> ~ In t l -> let s' := fold_left (visit t) l s in
  (forall x, In x l -> c_deps s' x = filter (fun y => negb (teqb y t)) (c_deps s x) /\ (forall f, In f (c_cum s' x) <-> In f (c_cum s x) \/ f = fst t \/ In f (c_cum s t))) /\
  (forall x, ~ In x l -> c_deps s' x = c_deps s x /\ c_cum s' x = c_cum s x) /\
  (forall x, In x (c_next s') <-> In x (c_next s) \/ In x l /\ filter (fun y => negb (teqb y t)) (c_deps s x) = []) /\
  (NoDup (c_next s) -> NoDup (c_next s')).
Proof.
  induction l as [|u l IH]; intros s N NT; cbn.
  - split; [intros x []|]. split; [auto|]. split; [tauto|auto].
  - inversion N as [|? ? NU N']; subst. cbn in NT. destruct (IH (visit t s u) N' ltac:(tauto)) as (A & B & C & E).
    assert (TU : t <> u) by (intros ->; tauto). split; [|split; [|split]].
    + intros x [<-|I].
      * destruct (B u NU) as [B1 B2]. rewrite B1, B2. cbn. rewrite !upd_same. split; auto. intros f. rewrite fold_sadd_In. rewrite sadd_In. cbn. intuition auto.
      * destruct (A x I) as [A1 A2]. assert (x <> u) by (intros ->; auto). rewrite A1. cbn. rewrite upd_other by auto. split; auto. intros f. rewrite A2. cbn. rewrite !upd_other by auto. tauto.
    + intros x NI. destruct (B x ltac:(tauto)) as [B1 B2]. rewrite B1, B2. cbn. rewrite !upd_other by (intros ->; apply NI; now left). auto.
    + intros x. rewrite C. unfold visit. cbn [c_next c_deps].
      assert (X : forall x, In x (match filter (fun y => negb (teqb y t)) (c_deps s u) with [] => add (c_next s) u | _ => c_next s end) <-> In x (c_next s) \/ x = u /\ filter (fun y => negb (teqb y t)) (c_deps s u) = []).
      { intros y. destruct (filter _ (c_deps s u)); [rewrite add_In; tauto|]. intuition discriminate. }
      rewrite X. destruct (tid_dec x u) as [->|NE].
      * split; [|tauto]. intros [[H|H]|[H _]]; tauto.
      * rewrite upd_other by auto. split; [intros [[H|[H _]]|[H H']]; [tauto|congruence|tauto]|]. intros [H|[[H|H] H']]; [tauto|congruence|tauto].
    + intros ND. apply E. unfold visit. cbn [c_next]. destruct (filter _ (c_deps s u)); auto using add_NoDup.
Qed.
(** P: the tasks that have been visited; todo: those of the present round still to visit *)
Definition inv (P todo : list tid) (s : chain) : Prop :=
  (forall x, c_deps s x = filter (fun y => negb (mem y P)) (depends x)) /\
  (forall x f, In f (c_cum s x) <-> In x tasks /\ exists y, In y (depends x) /\ In y P /\ below_fn y f) /\
  (forall x, In x (P ++ todo ++ c_next s) -> In x tasks /\ c_deps s x = []) /\
  (forall x, In x tasks -> c_deps s x = [] -> In x (P ++ todo ++ c_next s)) /\
  NoDup (P ++ todo ++ c_next s).
Hypothesis outside : forall t, ~ In t tasks -> depends t = [].
Lemma done_deps P todo s t : inv P todo s -> In t todo -> forall y, In y (depends t) -> In y P.
Proof.
  intros (I1 & _ & I3 & _ & _) H y Y. destruct (I3 t ltac:(rewrite !in_app_iff; auto)) as [_ E]. rewrite I1 in E. assert (F := proj1 (filter_nil _ _) E y Y). cbn in F.
  apply negb_false_iff in F. now apply mem_In.
Qed.
Lemma visit_inv P t todo s : inv P (t :: todo) s -> inv (P ++ [t]) todo (visit_all tasks depends s t).
Proof.
  intros I. pose proof I as (I1 & I2 & I3 & I4 & I5). assert (IT : In t tasks) by (apply I3; rewrite !in_app_iff; cbn; auto).
  pose proof (done_deps P (t :: todo) s t I (or_introl eq_refl)) as DT.
  assert (NTP : ~ In t P). { apply NoDup_app_inv in I5. destruct I5 as (_ & _ & N3). intros H. apply (N3 t H). now left. }
  assert (NTT : ~ In t (depends t)) by (intros H; apply DT in H; contradiction).
  destruct (visit_fold t (revdeps tasks depends t) s) as (A & B & C & E).
  { apply NoDup_filter, nodup. } { intros H. apply revdeps_In in H. tauto. }
  unfold visit_all. set (s' := fold_left (visit t) (revdeps tasks depends t) s) in *.
  assert (DP : forall x, c_deps s' x = filter (fun y => negb (mem y (P ++ [t]))) (depends x)).
  { intros x. assert (X : filter (fun y => negb (teqb y t)) (c_deps s x) = filter (fun y => negb (mem y (P ++ [t]))) (depends x)).
    { rewrite I1. clear. induction (depends x) as [|y l IH]; cbn; auto. assert (M : mem y (P ++ [t]) = mem y P || teqb y t). { unfold mem. rewrite existsb_app. cbn. now rewrite orb_false_r. }
      rewrite M. destruct (mem y P); cbn; auto. destruct (teqb y t); cbn; rewrite IH; auto. }
    destruct (in_dec tid_dec x (revdeps tasks depends t)) as [H|H]; [now rewrite (proj1 (A x H))|]. rewrite (proj1 (B x H)). rewrite <- X.
    assert (NX : ~ In t (depends x)). { intros HX. apply H, revdeps_In. split; auto. destruct (in_dec tid_dec x tasks) as [|NI]; auto. rewrite (outside x NI) in HX. contradiction. }
    rewrite I1. clear -NX. induction (depends x) as [|y l IH]; cbn; auto. cbn in NX. destruct (mem y P); cbn; [apply IH; tauto|].
    assert (Y : teqb y t = false) by (apply teqb_neq; intros ->; tauto). rewrite Y. cbn. f_equal. apply IH. tauto. }
  assert (NX : forall x, In x (c_next s') <-> In x (c_next s) \/ In x tasks /\ In t (depends x) /\ c_deps s' x = []).
  { intros x. rewrite C, revdeps_In. destruct (in_dec tid_dec x (revdeps tasks depends t)) as [H|H].
    - rewrite (proj1 (A x H)). tauto.
    - rewrite <- revdeps_In. split; [tauto|]. intros [K|(K1 & K2 & K3)]; [tauto|]. exfalso. apply H, revdeps_In. auto. }
  split; [exact DP|]. split; [|split; [|split]].
  - intros x f.
    assert (CT : In f (c_cum s t) <-> exists y, path R t y /\ f = fst y).
    { rewrite I2. split.
      - intros (_ & y & Y1 & Y2 & z & [<-|Z] & ->); [exists y; split; [now apply P_one|reflexivity]|]. exists z. split; [apply P_more with y; auto|reflexivity].
      - intros (y & PY & ->). split; auto. inversion PY as [? ? RY|? z ? RZ PZ]; subst.
        + exists y. split; auto. split; [now apply DT|]. exists y. split; [now left|reflexivity].
        + exists z. split; auto. split; [now apply DT|]. exists y. split; [now right|reflexivity]. }
    assert (BT : f = fst t \/ In f (c_cum s t) <-> below_fn t f).
    { rewrite CT. unfold below_fn, leads. split; [intros [->|(y & PY & ->)]; [exists t; auto|exists y; auto]|]. intros (y & [<-|PY] & ->); [now left|right; eauto]. }
    destruct (in_dec tid_dec x (revdeps tasks depends t)) as [H|H].
    + rewrite (proj2 (A x H)), I2, BT. apply revdeps_In in H. destruct H as [XT HT]. split.
      * intros [(_ & y & Y1 & Y2 & Y3)|K]; (split; [auto|]); [exists y; rewrite in_app_iff; auto|]. exists t. rewrite in_app_iff. cbn. auto.
      * intros (_ & y & Y1 & Y2 & Y3). apply in_app_or in Y2. destruct Y2 as [Y2|[<-|[]]]; [left; split; auto; exists y; auto|now right].
    + rewrite (proj2 (B x H)), I2. split.
      * intros (XT & y & Y1 & Y2 & Y3). split; auto. exists y. rewrite in_app_iff. auto.
      * intros (XT & y & Y1 & Y2 & Y3). split; auto. apply in_app_or in Y2. destruct Y2 as [Y2|[<-|[]]]; [exists y; auto|]. exfalso. apply H, revdeps_In. auto.
  - intros x H. rewrite <- app_assoc in H. rewrite !in_app_iff in H. rewrite NX in H.
    assert (X : In x (P ++ (t :: todo) ++ c_next s) \/ In x tasks /\ c_deps s' x = []).
    { rewrite !in_app_iff. cbn [In] in H |- *. tauto. }
    destruct X as [X|X]; auto. destruct (I3 x X) as [X1 X2]. split; auto. rewrite DP. rewrite I1 in X2. apply filter_nil. intros y Y. apply negb_false_iff, mem_In.
    assert (Z := proj1 (filter_nil _ _) X2 y Y). apply negb_false_iff, mem_In in Z. apply in_or_app. auto.
  - intros x XT E0. rewrite <- app_assoc, !in_app_iff, NX. cbn. destruct (in_dec tid_dec t (depends x)) as [K|K]; [tauto|].
    assert (E1 : c_deps s x = []).
    { rewrite I1. rewrite DP in E0. apply filter_nil. intros y Y. assert (Z := proj1 (filter_nil _ _) E0 y Y). apply negb_false_iff, mem_In in Z. apply in_app_or in Z. apply negb_false_iff, mem_In.
      destruct Z as [Z|[<-|[]]]; auto. contradiction. }
    specialize (I4 x XT E1). rewrite !in_app_iff in I4. cbn in I4. tauto.
  - rewrite <- app_assoc. cbn [app]. assert (I5' := I5). cbn [app] in I5'. replace (P ++ t :: todo ++ c_next s) with ((P ++ t :: todo) ++ c_next s) in I5' by (now rewrite <- app_assoc).
    apply NoDup_app_inv in I5'. destruct I5' as (N1 & N2 & N3). replace (P ++ t :: todo ++ c_next s') with ((P ++ t :: todo) ++ c_next s') by (now rewrite <- app_assoc).
    apply NoDup_app_intro; auto. intros x H K. apply NX in K. destruct K as [K|(K1 & K2 & K3)]; [now apply (N3 x)|].
    assert (In x (P ++ (t :: todo) ++ c_next s)). { rewrite app_assoc. apply in_or_app. now left. } destruct (I3 x H0) as [_ Z]. rewrite I1 in Z.
    assert (Z' := proj1 (filter_nil _ _) Z t K2). apply negb_false_iff, mem_In in Z'. contradiction.
Qed.
Lemma round_inv todo : forall P s, inv P todo s -> inv (P ++ todo) [] (fold_left (visit_all tasks depends) todo s).
Proof.
  induction todo as [|t todo IH]; intros P s I; cbn; [now rewrite app_nil_r|]. apply visit_inv in I. specialize (IH _ _ I). now rewrite <- app_assoc in IH.
Qed.
Lemma inv_turn P s : inv P [] s -> inv P (c_next s) (mkChain (c_deps s) (c_cum s) []).
Proof. unfold inv. cbn. now rewrite app_nil_r. Qed.
Lemma rounds_inv : forall n P s, inv P [] s -> length tasks - length P < n -> exists P' s', rounds tasks depends n s = Some s' /\ inv P' [] s' /\ c_next s' = [].
Proof.
  induction n as [|n IH]; intros P s I L; [lia|]. cbn [rounds]. destruct (c_next s) as [|t l] eqn:E; [exists P, s; auto|].
  assert (I' := inv_turn P s I). rewrite E in I'. apply round_inv in I'. apply (IH (P ++ t :: l)); auto.
  rewrite app_length. cbn [length]. assert (length (P ++ t :: l) <= length tasks).
  { destruct I as (_ & _ & I3 & _ & I5). cbn in I3, I5. rewrite E in I3, I5. apply NoDup_incl_length; auto. intros x H. now apply I3. }
  rewrite app_length in H. cbn in H. lia.
Qed.
Lemma start_inv : inv [] [] (start tasks depends).
Proof.
  split; [|split; [|split; [|split]]]; cbn.
  - intros x. induction (depends x) as [|y l IH]; cbn; auto. now rewrite <- IH.
  - intros x f. split; [intros []|intros (_ & y & _ & [] & _)].
  - intros x H. apply filter_In in H. destruct H as [H1 H2]. split; auto. now destruct (depends x).
  - intros x H E. apply filter_In. split; auto. now rewrite E.
  - apply NoDup_filter, nodup.
Qed.
Theorem cumulative_total : exists cum, cumulative tasks depends = Some cum.
Proof. destruct (rounds_inv (S (length tasks)) [] (start tasks depends) start_inv ltac:(cbn; lia)) as (P & s & E & _). unfold cumulative. rewrite E. now exists (c_cum s). Qed.
Theorem cumulative_sound cum t f : cumulative tasks depends = Some cum -> In f (cum t) -> exists y, path R t y /\ f = fst y.
Proof.
  destruct (rounds_inv (S (length tasks)) [] (start tasks depends) start_inv ltac:(cbn; lia)) as (P & s & E & (_ & I2 & _) & _). unfold cumulative. rewrite E. intros [= <-] H.
  apply I2 in H. destruct H as (_ & y & Y1 & _ & z & [<-|Z] & ->); [exists y; split; [now apply P_one|auto]|exists z; split; [now apply P_more with y|auto]].
Qed.
Theorem cumulative_complete cum t y : cumulative tasks depends = Some cum -> Acc (fun a b => R b a) t -> path R t y -> In (fst y) (cum t).
Proof.
  destruct (rounds_inv (S (length tasks)) [] (start tasks depends) start_inv ltac:(cbn; lia)) as (P & s & E & (I1 & I2 & I3 & I4 & I5) & NX). unfold cumulative. rewrite E. intros [= <-] AC PY.
  rewrite NX in *. cbn in *. rewrite app_nil_r in *.
  assert (XT : In t tasks). { destruct (in_dec tid_dec t tasks) as [|NI]; auto. inversion PY as [? ? RY|? z ? RZ PZ]; subst; unfold R in *; rewrite (outside t NI) in *; contradiction. }
  assert (DONE : forall x, Acc (fun a b => R b a) x -> In x tasks -> In x P).
  { induction 1 as [x _ IH]. intros HX. apply I4; auto. rewrite I1. apply filter_nil. intros z Z. apply negb_false_iff, mem_In. apply IH; auto. eauto. }
  apply I2. split; auto. inversion AC as [AC']. inversion PY as [? ? RY|? z ? RZ PZ]; subst.
  - exists y. split; auto. split; [apply DONE; auto; eauto|]. exists y. split; [now left|auto].
  - exists z. split; auto. split; [apply DONE; auto; eauto|]. exists y. split; [now right|auto].
Qed.
End Chains_proofs.

(** ** recrdeptask *)
Section Recursive_proofs.
Variable D : data.
Let tasks := d_tasks D.
Lemma recursive_iff t : recursive D t = true <-> recursive_task D t.
Proof.
  unfold recursive, recursive_task, failed. destruct (d_recrdeptask D t) as [l|].
  - rewrite andb_true_iff, negb_true_iff, mem_In, <- not_true_iff_false, mem_str_In. split; [intros [A B]; repeat split; auto; now exists l|tauto].
  - split; [discriminate|intros (_ & _ & l & E); discriminate].
Qed.
Lemma selfref_iff t : selfref D t = true <-> self_recursive D t.
Proof. unfold selfref, self_recursive. rewrite andb_true_iff, recursive_iff, mem_str_In, words_flag. tauto. Qed.
Lemma ritasks_In t i : In i (ritasks D t) <-> recidep D t i.
Proof.
  unfold ritasks, recidep. rewrite in_map_iff. rewrite <- words_flag. split.
  - intros (w & <- & I). auto.
  - intros [E I]. exists (snd i). rewrite <- E. destruct i; auto.
Qed.
Lemma through_In t dep x : In x (through D t dep) <-> flag_word (d_recrdeptask D t) (snd x) /\ In x tasks /\ exists d, In d (dep t) /\ recursive_task D d /\ In x (dep d).
Proof.
  unfold through. rewrite filter_In, andb_true_iff, mem_In, mem_str_In, words_flag, in_flat_map. setoid_rewrite filter_In. setoid_rewrite recursive_iff. split.
  - intros [(d & [A B] & C) [E F]]. split; auto. split; auto. exists d. auto.
  - intros (A & B & d & C & E & F). split; [exists d; auto|auto].
Qed.
Variable cum : tid -> list str.
Lemma below_In t dep x : In x (below D cum t dep) <-> flag_word (d_recrdeptask D t) (snd x) /\ In x tasks /\ x <> t /\
  exists d, (In d (dep t) \/ recidep D t d \/ exists i, recidep D t i /\ In i tasks /\ In d (dep i)) /\ In (fst x) (cum d).
Proof.
  unfold below. rewrite filter_In, andb_true_iff, negb_true_iff, teqb_neq, mem_In, in_flat_map. rewrite <- words_flag. split.
  - intros ((f & I & M) & NE & T). apply in_map_iff in M. destruct M as (w & <- & W). cbn. split; auto. split; auto. split; auto. apply in_flat_map in I. destruct I as (d & I & C).
    exists d. split; auto. rewrite !in_app_iff in I. destruct I as [I|[I|I]]; [auto|right; left; now apply ritasks_In|]. right. right. apply in_flat_map in I. destruct I as (i & J & K).
    apply filter_In in J. destruct J as [J1 J2]. exists i. split; [now apply ritasks_In|]. split; [now apply mem_In|auto].
  - intros (W & T & NE & d & I & C). split; auto. exists (fst x). split; [|apply in_map_iff; exists (snd x); destruct x; auto]. apply in_flat_map. exists d. split; auto.
    rewrite !in_app_iff. destruct I as [I|[I|(i & J & K & L)]]; [auto|right; left; now apply ritasks_In|]. right. right. apply in_flat_map. exists i. split; auto.
    apply filter_In. split; [now apply ritasks_In|now apply mem_In].
Qed.
Definition ext (a b : tid -> list tid) : Prop := forall x, exists e, b x = a x ++ e.
Lemma ext_refl a : ext a a. Proof. intros x. exists []. now rewrite app_nil_r. Qed.
Lemma ext_trans a b c : ext a b -> ext b c -> ext a c.
Proof. intros H1 H2 x. destruct (H1 x) as [e E], (H2 x) as [e' E']. exists (e ++ e'). now rewrite E', E, app_assoc. Qed.
Lemma with_new_ext t dep new : ext dep (with_new t dep new).
Proof. intros x. unfold with_new. destruct (tid_dec x t) as [->|NE]; [rewrite upd_same; apply fold_add_app|rewrite upd_other by auto; exists []; now rewrite app_nil_r]. Qed.
Lemma extend_ext dep t : ext dep (extend D cum dep t).
Proof. unfold extend. eapply ext_trans; apply with_new_ext. Qed.
Lemma extends_ext rs : forall dep, ext dep (fold_left (extend D cum) rs dep).
Proof. induction rs as [|t rs IH]; intros dep; cbn; [apply ext_refl|]. eapply ext_trans; [apply extend_ext|apply IH]. Qed.
Lemma with_new_other t dep new x : x <> t -> with_new t dep new x = dep x.
Proof. intros NE. unfold with_new. now rewrite upd_other. Qed.
Lemma extend_other dep t x : x <> t -> extend D cum dep t x = dep x.
Proof. intros NE. unfold extend. now rewrite !with_new_other. Qed.
Lemma extends_other rs x : forall dep, ~ In x rs -> fold_left (extend D cum) rs dep x = dep x.
Proof. induction rs as [|t rs IH]; intros dep NI; cbn; auto. cbn in NI. rewrite IH by tauto. apply extend_other. intros ->. tauto. Qed.
Lemma size_sum dep l : size dep l = list_sum (map (fun t => length (dep t)) l).
Proof. unfold size. assert (G : forall n, fold_left (fun n t => n + length (dep t)) l n = n + list_sum (map (fun t => length (dep t)) l)). { induction l as [|t l IH]; intros n; cbn; [lia|]. rewrite IH. unfold list_sum. lia. } now rewrite G. Qed.
Lemma ext_size a b l : ext a b -> size a l <= size b l /\ (size b l = size a l -> forall x, In x l -> b x = a x).
Proof.
  intros E. rewrite !size_sum. unfold list_sum. induction l as [|t l [L1 L2]]; cbn; [split; [lia|intros _ x []]|]. destruct (E t) as [e EE]. rewrite EE, app_length. split; [lia|]. intros H x [<-|I].
  - destruct e; [now rewrite EE, app_nil_r|cbn in H; lia].
  - apply L2; auto. lia.
Qed.
Lemma ext_anti a b c : ext a b -> ext b c -> (forall x, c x = a x) -> forall x, b x = a x.
Proof.
  intros H1 H2 H3 x. destruct (H1 x) as [e E], (H2 x) as [e' E']. rewrite H3, E, <- app_assoc in E'. rewrite <- (app_nil_r (a x)) in E' at 1. apply app_inv_head in E'.
  symmetry in E'. apply app_eq_nil in E'. destruct E' as [-> _]. now rewrite E, app_nil_r.
Qed.
(** Nothing more to add for t *)
Definition full (dep : tid -> list tid) (t : tid) : Prop := forall x, In x (below D cum t dep) \/ In x (through D t dep) -> In x (dep t).
Lemma full_same a b t : (forall x, a x = b x) -> full a t -> full b t.
Proof.
  intros E F x H. rewrite <- E. apply F. rewrite below_In, through_In in *. destruct H as [(A & B & C & d & I & J)|(A & B & d & I & J & K)].
  - left. split; auto. split; auto. split; auto. exists d. split; auto. destruct I as [I|[I|(i & I1 & I2 & I3)]]; [left; now rewrite E|auto|]. right. right. exists i. rewrite E. auto.
  - right. split; auto. split; auto. exists d. rewrite !E. auto.
Qed.
Lemma extend_full dep t : (forall x, extend D cum dep t x = dep x) -> full dep t.
Proof.
  intros E. unfold extend in E. set (d1 := with_new t dep (below D cum t dep)) in *.
  assert (S1 : forall x, d1 x = dep x). { apply (ext_anti dep d1 _ (with_new_ext _ _ _) (with_new_ext t d1 (through D t d1)) E). }
  intros x [H|H].
  - rewrite <- S1. unfold d1, with_new. rewrite upd_same. apply fold_add_In. now right.
  - assert (H' : In x (through D t d1)). { rewrite through_In in *. destruct H as (A & B & d & I & J & K). split; auto. split; auto. exists d. rewrite !S1. auto. }
    rewrite <- E. unfold with_new at 1. rewrite upd_same. apply fold_add_In. now right.
Qed.
Lemma extends_full rs : forall dep, (forall x, fold_left (extend D cum) rs dep x = dep x) -> forall t, In t rs -> full dep t.
Proof.
  induction rs as [|u rs IH]; intros dep E t I; [contradiction|]. cbn in E.
  assert (S1 := ext_anti dep _ _ (extend_ext dep u) (extends_ext rs (extend D cum dep u)) E).
  destruct I as [<-|I]; [now apply extend_full|]. apply (full_same (extend D cum dep u)); auto. apply IH; auto. intros x. now rewrite S1.
Qed.
Lemma passes_full n rs : forall dep dep', passes D cum n rs dep = Some dep' -> ext dep dep' /\ (forall t, In t rs -> full dep' t) /\ forall x, ~ In x rs -> dep' x = dep x.
Proof.
  induction n as [|n IH]; intros dep dep' H; cbn in H; [discriminate|]. set (d1 := fold_left (extend D cum) rs dep) in *.
  assert (O : forall x, ~ In x rs -> d1 x = dep x) by (intros x; apply extends_other).
  destruct (size d1 rs =? size dep rs) eqn:E.
  - injection H as <-. split; [apply extends_ext|]. split; [|exact O]. apply Nat.eqb_eq in E.
    assert (S1 : forall x, d1 x = dep x). { intros x. destruct (in_dec tid_dec x rs) as [I|I]; [|auto]. now apply (proj2 (ext_size dep d1 rs (extends_ext rs dep)) E). }
    intros t I. apply (full_same dep); [intros x; now rewrite S1|]. now apply (extends_full rs dep).
  - destruct (IH d1 dep' H) as (A & B & C). split; [eapply ext_trans; [apply extends_ext|exact A]|]. split; auto. intros x I. rewrite C by auto. auto.
Qed.
(** The lists hold each task once, and only tasks *)
Definition tidy (dep : tid -> list tid) : Prop := forall t, NoDup (dep t) /\ forall x, In x (dep t) -> In x tasks.
Lemma with_new_tidy t dep new : tidy dep -> (forall x, In x new -> In x tasks) -> tidy (with_new t dep new).
Proof.
  intros T N u. unfold with_new. destruct (tid_dec u t) as [->|NE]; [rewrite upd_same|rewrite upd_other by auto; apply T].
  destruct (T t) as [T1 T2]. split; [now apply fold_add_NoDup|]. intros x I. apply fold_add_In in I. destruct I; auto.
Qed.
Lemma extend_tidy dep t : tidy dep -> tidy (extend D cum dep t).
Proof.
  intros T. unfold extend. apply with_new_tidy; [apply with_new_tidy; auto|]; intros x I; [apply below_In in I|apply through_In in I]; tauto.
Qed.
Lemma extends_tidy rs : forall dep, tidy dep -> tidy (fold_left (extend D cum) rs dep).
Proof. induction rs as [|t rs IH]; intros dep T; cbn; auto using extend_tidy. Qed.
Lemma tidy_size dep rs : tidy dep -> size dep rs <= length rs * length tasks.
Proof.
  intros T. rewrite size_sum. unfold list_sum. induction rs as [|t rs IH]; cbn; [lia|]. destruct (T t) as [T1 T2]. pose proof (NoDup_incl_length T1 T2). lia.
Qed.
Lemma passes_total n rs : forall dep, tidy dep -> length rs * length tasks - size dep rs < n -> exists dep', passes D cum n rs dep = Some dep'.
Proof.
  induction n as [|n IH]; intros dep T L; [lia|]. cbn. set (d1 := fold_left (extend D cum) rs dep). destruct (size d1 rs =? size dep rs) eqn:E; [now exists d1|].
  apply Nat.eqb_neq in E. pose proof (extends_tidy rs dep T) as T1. fold d1 in T1. pose proof (tidy_size d1 rs T1). pose proof (proj1 (ext_size dep d1 rs (extends_ext rs dep))). fold d1 in H0.
  apply IH; auto. lia.
Qed.
(** Everything that is added is a dependency *)
Hypothesis cum_sound : forall d f, In f (cum d) -> exists y, path (direct_dep D) d y /\ f = fst y.
Definition sound (dep : tid -> list tid) : Prop := forall t x, In x (dep t) -> deep D t x.
Lemma below_sound dep t x : recursive_task D t -> sound dep -> In x (below D cum t dep) -> deep D t x.
Proof.
  intros RT S H. apply below_In in H. destruct H as (W & T & NE & d & I & C). destruct (cum_sound d (fst x) C) as (y & P & E).
  assert (B : below_rec D t d x) by (split; [exact RT|]; split; [exists y; auto|]; auto).
  destruct I as [I|[I|(i & I1 & I2 & I3)]]; [apply D_below with d; auto|now apply D_reci with d|apply D_reci_dep with i d; auto].
Qed.
Lemma extend_sound dep t : recursive_task D t -> sound dep -> sound (extend D cum dep t).
Proof.
  intros RT S. assert (S1 : sound (with_new t dep (below D cum t dep))).
  { intros u x I. unfold with_new in I. destruct (tid_dec u t) as [->|NE]; [|rewrite upd_other in I by auto; auto]. rewrite upd_same in I. apply fold_add_In in I. destruct I as [I|I]; auto. now apply below_sound with dep. }
  unfold extend. set (d1 := with_new t dep (below D cum t dep)) in *. intros u x I. unfold with_new in I. destruct (tid_dec u t) as [->|NE]; [|rewrite upd_other in I by auto; auto].
  rewrite upd_same in I. apply fold_add_In in I. destruct I as [I|I]; auto. apply through_In in I. destruct I as (W & T & d & I1 & I2 & I3). apply D_through with d; auto.
Qed.
Lemma extends_sound rs : forall dep, (forall t, In t rs -> recursive_task D t) -> sound dep -> sound (fold_left (extend D cum) rs dep).
Proof. induction rs as [|t rs IH]; intros dep R S; cbn; auto. apply IH; [intros u I; apply R; now right|]. apply extend_sound; auto. apply R. now left. Qed.
Lemma passes_sound n rs : forall dep dep', (forall t, In t rs -> recursive_task D t) -> sound dep -> passes D cum n rs dep = Some dep' -> sound dep'.
Proof.
  induction n as [|n IH]; intros dep dep' R S H; cbn in H; [discriminate|]. pose proof (extends_sound rs dep R S) as S1. set (d1 := fold_left (extend D cum) rs dep) in *.
  destruct (size d1 rs =? size dep rs); [now injection H as <-|]. now apply (IH d1).
Qed.
(** Everything that is a dependency has been added *)
Lemma full_complete dep : (forall t x, direct_dep D t x -> In x (dep t)) -> (forall t, recursive_task D t -> full dep t) ->
  (forall d y, path (direct_dep D) d y -> In (fst y) (cum d)) -> forall t x, deep D t x -> In x (dep t).
Proof.
  intros H1 H2 H3 t x H. induction H as [t x DD|t d x H IH B|t d x I B|t i d x I J H IH B|t d x RT H IH RD H' IH' W T].
  - auto.
  - destruct B as (RT & (y & P & E) & W & T & NE). apply (H2 t RT). left. apply below_In. split; auto. split; auto. split; auto. exists d. split; auto. rewrite E. auto.
  - destruct B as (RT & (y & P & E) & W & T & NE). apply (H2 t RT). left. apply below_In. split; auto. split; auto. split; auto. exists d. split; auto. rewrite E. auto.
  - destruct B as (RT & (y & P & E) & W & T & NE). apply (H2 t RT). left. apply below_In. split; auto. split; auto. split; auto. exists d. split; [|rewrite E; auto]. right. right. exists i. auto.
  - apply (H2 t RT). right. apply through_In. split; auto. split; auto. exists d. auto.
Qed.
End Recursive_proofs.

(** ** Steps A and B together *)
Section Resolve_proofs.
Variable D : data.
Hypothesis nodup : NoDup (d_tasks D).
Section With_dep.
Variable dep : tid -> list tid.
Hypothesis all : all_depends D (d_tasks D) = Some dep.
Lemma dep_direct t x : In x (dep t) <-> direct_dep D t x.
Proof.
  destruct (all_depends_spec D _ _ all t) as [A B]. destruct (in_dec tid_dec t (d_tasks D)) as [I|I].
  - destruct (A I) as (ds & E & -> & _). now apply depends_of_In.
  - rewrite (B I). split; [intros []|intros (J & _); contradiction].
Qed.
Lemma dep_closed t x : In x (dep t) -> In x (d_tasks D).
Proof.
  destruct (all_depends_spec D _ _ all t) as [A B]. destruct (in_dec tid_dec t (d_tasks D)) as [I|I]; [|rewrite (B I); intros []].
  destruct (A I) as (ds & E & -> & H). auto.
Qed.
Lemma dep_outside t : ~ In t (d_tasks D) -> dep t = [].
Proof. apply (all_depends_spec D _ _ all t). Qed.
Lemma dep_tidy : tidy D dep.
Proof.
  intros t. split; [|apply dep_closed]. destruct (all_depends_spec D _ _ all t) as [A B]. destruct (in_dec tid_dec t (d_tasks D)) as [I|I]; [|rewrite (B I); constructor].
  destruct (A I) as (ds & E & -> & _). now apply depends_of_NoDup with D t.
Qed.
Lemma direct_path x y : path (fun a b => In b (dep a)) x y <-> path (direct_dep D) x y.
Proof. apply path_iff. intros a b. apply dep_direct. Qed.
End With_dep.
Lemma resolve_parts dep' : resolve D = Some dep' -> exists dep cum dep1, all_depends D (d_tasks D) = Some dep /\ cumulative (d_tasks D) dep = Some cum /\
  passes D cum (S (length (filter (recursive D) (d_tasks D)) * length (d_tasks D))) (filter (recursive D) (d_tasks D)) dep = Some dep1 /\ dep' = no_selfref D dep1.
Proof.
  unfold resolve. destruct (all_depends D (d_tasks D)) as [dep|] eqn:A; [|discriminate]. destruct (cumulative (d_tasks D) dep) as [cum|] eqn:C; [|discriminate].
  destruct (passes _ _ _ _ _) as [dep1|] eqn:P; [|discriminate]. cbn. intros [= <-]. now exists dep, cum, dep1.
Qed.
Lemma no_selfref_In dep t x : In x (no_selfref D dep t) <-> In x (dep t) /\ ~ (self_recursive D t /\ self_recursive D x).
Proof.
  unfold no_selfref. destruct (selfref D t) eqn:S.
  - rewrite filter_In, negb_true_iff, <- not_true_iff_false, selfref_iff. apply selfref_iff in S. tauto.
  - assert (~ self_recursive D t) by (rewrite <- selfref_iff; congruence). tauto.
Qed.
Lemma rs_In t : In t (filter (recursive D) (d_tasks D)) <-> recursive_task D t.
Proof. rewrite filter_In, recursive_iff. unfold recursive_task. tauto. Qed.
Lemma resolve_sound dep' t x : resolve D = Some dep' -> In x (dep' t) -> final_dep D t x.
Proof.
  intros H I. destruct (resolve_parts dep' H) as (dep & cum & dep1 & A & C & P & ->). apply no_selfref_In in I. destruct I as [I NS]. split; auto. revert t x I NS.
  assert (S : sound D dep1); [|intros; now apply S]. eapply (passes_sound D cum); [|intros t; apply rs_In| |exact P].
  - intros d f F. destruct (cumulative_sound (d_tasks D) dep nodup (dep_outside dep A) cum d f C F) as (y & Y & E). exists y. split; auto. now apply (direct_path dep A).
  - intros t x I. apply D_direct. now apply (dep_direct dep A).
Qed.
Lemma resolve_complete dep' t x : resolve D = Some dep' -> no_cycle (direct_dep D) -> final_dep D t x -> In x (dep' t).
Proof.
  intros H NC [DE NS]. destruct (resolve_parts dep' H) as (dep & cum & dep1 & A & C & P & ->). apply no_selfref_In. split; auto. destruct (passes_full D cum _ _ _ _ P) as (E & F & O).
  apply (full_complete D cum dep1); auto.
  - intros u y DD. apply (dep_direct dep A) in DD. destruct (E u) as [e ->]. apply in_or_app. now left.
  - intros u RU. apply F. now apply rs_In.
  - intros d y Y. apply (cumulative_complete (d_tasks D) dep nodup (dep_closed dep A) (dep_outside dep A) cum d y C); [|now apply (direct_path dep A)].
    apply (acyclic_acc (fun a b => In b (dep a)) (d_tasks D)); [apply (dep_closed dep A)|]. intros z Z. apply (NC z). now apply (direct_path dep A).
Qed.
Lemma resolve_closed dep' t x : resolve D = Some dep' -> In x (dep' t) -> In t (d_tasks D) /\ In x (d_tasks D).
Proof.
  intros H I. destruct (resolve_parts dep' H) as (dep & cum & dep1 & A & C & P & ->). apply no_selfref_In in I. destruct I as [I _].
  assert (T : tidy D dep1). { clear -P A nodup. pose proof (dep_tidy dep A) as T. revert P T. generalize dep at 1 2 as d0. generalize (S (length (filter (recursive D) (d_tasks D)) * length (d_tasks D))) as n.
    induction n as [|n IH]; intros d0 P T; cbn in P; [discriminate|]. pose proof (extends_tidy D cum (filter (recursive D) (d_tasks D)) d0 T) as T1.
    destruct (size _ _ =? size _ _) in P; [now injection P as <-|eauto]. }
  split; [|now apply (T t)]. destruct (in_dec tid_dec t (d_tasks D)) as [J|J]; auto. destruct (passes_full D cum _ _ _ _ P) as (_ & _ & O).
  rewrite O in I; [rewrite (dep_outside dep A t J) in I; contradiction|]. rewrite filter_In. tauto.
Qed.
Lemma resolve_total : (exists dep, all_depends D (d_tasks D) = Some dep) -> exists dep', resolve D = Some dep'.
Proof.
  intros [dep A]. unfold resolve. rewrite A. destruct (cumulative_total (d_tasks D) dep nodup (dep_outside dep A)) as [cum C]. rewrite C.
  destruct (passes_total D cum (S (length (filter (recursive D) (d_tasks D)) * length (d_tasks D))) (filter (recursive D) (d_tasks D)) dep (dep_tidy dep A)) as [d1 P]; [lia|]. rewrite P. cbn. now eexists.
Qed.
End Resolve_proofs.

(** ** Active tasks *)
Section Mark_proofs.
Variable dep : tid -> list tid.
Variable tasks : list tid.
Hypothesis closed : forall t x, In x (dep t) -> In x tasks.
Let R x y := In y (dep x).
Definition marked (t : tid) (b b' : list tid) : Prop :=
  NoDup b' /\ (forall x, In x b' -> In x tasks) /\ (forall x, In x b -> In x b') /\ In t b' /\
  (forall x, In x b' -> In x b \/ leads R t x) /\ (forall x y, In x b' -> ~ In x b -> In y (dep x) -> In y b').
Lemma mark_list n : (forall t b, In t tasks -> NoDup b -> (forall x, In x b -> In x tasks) -> length tasks < n + length b -> exists b', mark dep n t b = Some b' /\ marked t b b') ->
  forall l b, (forall x, In x l -> In x tasks) -> NoDup b -> (forall x, In x b -> In x tasks) -> length tasks < n + length b ->
  exists b', mark_all dep n l b = Some b' /\ NoDup b' /\ (forall x, In x b' -> In x tasks) /\ (forall x, In x b -> In x b') /\ (forall x, In x l -> In x b') /\
    (forall x, In x b' -> In x b \/ exists t, In t l /\ leads R t x) /\ (forall x y, In x b' -> ~ In x b -> In y (dep x) -> In y b').
Proof.
  intros M. unfold mark_all. induction l as [|t l IH]; intros b HL N B L; cbn.
  - exists b. repeat split; auto; [intros x []|tauto].
  - destruct (M t b (HL t (or_introl eq_refl)) N B L) as (b1 & E & N1 & B1 & S1 & T1 & L1 & C1). rewrite E.
    assert (LE : length b <= length b1) by (apply NoDup_incl_length; auto).
    destruct (IH b1 (fun x I => HL x (or_intror I)) N1 B1 ltac:(lia)) as (b2 & E2 & N2 & B2 & S2 & T2 & L2 & C2). exists b2. split; auto. split; auto. split; auto. split; [auto|]. split; [|split].
    + intros x [<-|I]; auto.
    + intros x I. destruct (L2 x I) as [J|(u & U & J)]; [|right; exists u; auto]. destruct (L1 x J); [now left|right; exists t; auto].
    + intros x y I NI J. destruct (in_dec tid_dec x b1) as [K|K]; [|eauto]. apply S2. eauto.
Qed.
Lemma mark_spec n : forall t b, In t tasks -> NoDup b -> (forall x, In x b -> In x tasks) -> length tasks < n + length b -> exists b', mark dep n t b = Some b' /\ marked t b b'.
Proof.
  induction n as [|n IH]; intros t b T N B L.
  - pose proof (NoDup_incl_length N B). lia.
  - cbn. destruct (mem t b) eqn:M.
    + apply mem_In in M. exists b. split; auto. repeat split; auto. tauto.
    + apply mem_nIn in M.
      destruct (mark_list n IH (dep t) (b ++ [t])) as (b' & E & N' & B' & S' & T' & L' & C').
      * eauto.
      * apply NoDup_app_intro; auto; [constructor; [intros []|constructor]|]. intros x I [<-|[]]. auto.
      * intros x I. apply in_app_or in I. destruct I as [I|[<-|[]]]; auto.
      * rewrite app_length. cbn. lia.
      * exists b'. split; [exact E|]. assert (TB : In t b') by (apply S', in_or_app; right; now left). repeat split; auto.
        -- intros x I. apply S', in_or_app. now left.
        -- intros x I. destruct (L' x I) as [J|(u & U & J)].
           ++ apply in_app_or in J. destruct J as [J|[<-|[]]]; [now left|right; now left].
           ++ right. right. destruct J as [->|J]; [now apply P_one|now apply P_more with u].
        -- intros x y I NI J. destruct (tid_dec x t) as [->|NE]; [auto|]. apply (C' x y); auto. rewrite in_app_iff. cbn. intuition auto.
Qed.
(** From nothing: exactly what the given tasks lead to *)
Lemma mark_all_exact l : (forall x, In x l -> In x tasks) -> exists b, mark_all dep (S (length tasks)) l [] = Some b /\ NoDup b /\ forall x, In x b <-> exists t, In t l /\ leads R t x.
Proof.
  intros HL. destruct (mark_list (S (length tasks)) (mark_spec (S (length tasks))) l [] HL) as (b & E & N & B & _ & T & L & C); [constructor|intros x []|cbn; lia|].
  exists b. split; auto. split; auto. intros x. split; [intros I; destruct (L x I) as [[]|]; auto|]. intros (t & I & [<-|P]); [auto|].
  specialize (T t I). clear I. revert T. induction P as [x y H|x y z H P IH]; intros T; [eapply C; eauto|]. apply IH. eapply C; eauto.
Qed.
End Mark_proofs.

(** ** --runall and --runonly *)
Lemma task_name_iff l n : (exists w, In w l /\ n = task_name w) <-> names_task l n.
Proof.
  unfold names_task, task_name. split; intros (w & I & H); exists w; (split; [exact I|]).
  - destruct (startswith (s_ "do_") w) eqn:S; [left; split; auto; apply startswith_iff in S; destruct S as [s ->]; now exists s|right]. split; auto. intros [s E]. assert (startswith (s_ "do_") w = true) by (apply startswith_iff; now exists s). congruence.
  - destruct H as [[-> H]|[-> H]].
    + destruct H as [s E]. assert (startswith (s_ "do_") w = true) by (apply startswith_iff; now exists s). now rewrite H.
    + destruct (startswith (s_ "do_") w) eqn:S; auto. apply startswith_iff in S. destruct S as [s ->]. destruct H. now exists s.
Qed.
Section Prune_proofs.
Variable tasks : list tid.
Variable dep : tid -> list tid.
Hypothesis closed : forall t x, In x (dep t) -> In x tasks.
Let R x y := In y (dep x).
Lemma wanted_In ns a x : In x (wanted tasks ns a) <-> In x tasks /\ names_task ns (snd x) /\ exists t, In t a /\ fst x = fst t.
Proof.
  unfold wanted. rewrite fold_add_In, filter_In, mem_In, in_flat_map, <- task_name_iff. split.
  - intros [[]|[(n & N & I) T]]. apply in_map_iff in I. destruct I as (t & <- & I). cbn. split; auto. split; [now exists n|exists t; auto].
  - intros (T & (w & W & E) & t & I & F). right. split; auto. exists w. split; auto. apply in_map_iff. exists t. split; auto. destruct x; cbn in *; congruence.
Qed.
Lemma wanted_NoDup ns a : NoDup (wanted tasks ns a).
Proof. apply fold_add_NoDup. constructor. Qed.
Lemma runall_exact (ns : list str) (base : tid -> Prop) : forall n orig active,
  (forall x, In x active -> base x \/ exists r, swept tasks R base ns r /\ leads R r x) ->
  NoDup orig -> (forall x, In x orig -> In x (wanted tasks ns active)) ->
  (forall x, names_task ns (snd x) -> In x tasks -> (exists a, base a /\ fst x = fst a) -> exists t, In t active /\ fst x = fst t) ->
  (orig = [] \/ forall x, In x active <-> exists r, In r orig /\ leads R r x) ->
  length tasks < n + length orig ->
  exists b, runall tasks dep n ns orig active = Some b /\ NoDup b /\ forall x, In x b <-> exists r, swept tasks R base ns r /\ leads R r x.
Proof.
  induction n as [|n IH]; intros orig active SND ND MONO BASE PREV L.
  - assert (length orig <= length tasks). { apply NoDup_incl_length; auto. intros x I. apply MONO, wanted_In in I. tauto. } lia.
  - cbn. set (w := wanted tasks ns active). assert (WT : forall x, In x w -> In x tasks) by (intros x I; apply wanted_In in I; tauto).
    destruct (mark_all_exact dep tasks closed w WT) as (b & E & NB & HB). rewrite E.
    assert (WS : forall x, In x w -> swept tasks R base ns x).
    { intros x I. apply wanted_In in I. destruct I as (T & N & t & J & F). assert (X : x = (fst t, snd x)) by (destruct x; cbn in *; congruence). rewrite X. rewrite X in T. destruct (SND t J) as [K|(r & K1 & K2)].
      - now apply S_base.
      - now apply S_more with r. }
    destruct (forallb (fun x => mem x orig) w) eqn:F.
    + exists b. split; auto. split; auto. intros x. rewrite HB. rewrite forallb_forall in F. assert (WO : forall y, In y w -> In y orig) by (intros y I; apply mem_In; auto).
      split; [intros (t & I & LD); exists t; auto|]. intros (r & SW & LD). enough (In r w) by (exists r; auto). clear LD x.
      induction SW as [a m B M T|r a m SW IHS LD M T].
      * apply wanted_In. cbn. split; auto. split; auto. apply (BASE (fst a, m)); auto. exists a; auto.
      * apply wanted_In. cbn. split; auto. split; auto. destruct PREV as [->|PREV]; [destruct (WO r IHS)|]. exists a. split; auto. apply PREV. exists r. auto.
    + assert (NW : NoDup w) by apply wanted_NoDup.
      destruct (IH w b) as (b' & E' & NB' & HB').
      * intros x I. apply HB in I. destruct I as (t & I & LD). right. exists t. auto.
      * exact NW.
      * intros x I. pose proof I as J. apply wanted_In in I. apply wanted_In. split; [tauto|]. split; [tauto|]. exists x. split; auto. apply HB. exists x. split; auto. now left.
      * intros x N T BA. destruct (BASE x N T BA) as (t & I & FE). assert (In x w) by (apply wanted_In; split; auto; split; auto; exists t; auto). exists x. split; auto. apply HB. exists x. split; auto. now left.
      * now right.
      * assert (length orig < length w); [|lia].
        assert (exists x, In x w /\ ~ In x orig) as (x & XW & XO).
        { assert (G : forall l, forallb (fun x => mem x orig) l = false -> exists x, In x l /\ ~ In x orig).
          { induction l as [|y l IHl]; cbn; [discriminate|]. destruct (mem y orig) eqn:MY; cbn; [intros H; destruct (IHl H) as (x & ? & ?); exists x; auto|]. intros _. exists y. apply mem_nIn in MY. auto. }
          now apply G. }
        assert (length (x :: orig) <= length w); [|cbn in H; lia]. apply NoDup_incl_length; [now constructor|]. intros y [<-|I]; [auto|now apply MONO].
      * exists b'. auto.
Qed.
Lemma runonly_exact ns active : (forall x, In x active -> In x tasks) -> exists b, runonly tasks dep ns active = Some b /\ NoDup b /\ forall x, In x b <-> exists r, In r active /\ names_task ns (snd r) /\ leads R r x.
Proof.
  intros HA. unfold runonly. set (l := flat_map _ ns). assert (HL : forall x, In x l <-> In x active /\ names_task ns (snd x)).
  { intros x. unfold l. rewrite in_flat_map, <- task_name_iff. setoid_rewrite filter_In. setoid_rewrite seqb_eq. split; [intros (n & I & J & K); split; auto; exists n; auto|]. intros (J & n & I & K). exists n. auto. }
  destruct (mark_all_exact dep tasks closed l) as (b & E & N & HB); [intros x I; apply HA; now apply HL|]. exists b. split; auto. split; auto. intros x. rewrite HB. setoid_rewrite HL.
  split; intros (r & A & B); exists r; tauto.
Qed.
End Prune_proofs.
