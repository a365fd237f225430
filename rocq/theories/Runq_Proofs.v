(** Lemmas for Runq_Props. *)
From Coq Require Import List Bool ZArith Arith Lia.
From Verif Require Import Runq_Model Runq_Spec.
Import ListNotations.
Open Scope list_scope.

(** ** Sets as lists *)
Lemma mem_In x l : mem x l = true <-> In x l.
Proof.
  unfold mem. rewrite existsb_exists. split.
  - intros (y & H & E). apply Nat.eqb_eq in E. now subst.
  - intros H. exists x. split; auto. apply Nat.eqb_refl.
Qed.
Lemma mem_false x l : mem x l = false <-> ~ In x l.
Proof. rewrite <- mem_In. destruct (mem x l); split; congruence. Qed.
Lemma add_In x y l : In x (add y l) <-> x = y \/ In x l.
Proof.
  unfold add. destruct (mem y l) eqn:E.
  - apply mem_In in E. split; auto. intros [->|H]; auto.
  - cbn. split; intros [H|H]; auto.
Qed.
Lemma add_NoDup x l : NoDup l -> NoDup (add x l).
Proof.
  unfold add. destruct (mem x l) eqn:E; auto. intros H. constructor; auto. now apply mem_false in E.
Qed.
Lemma add_new x l : ~ In x l -> add x l = x :: l.
Proof. intros H. unfold add. apply mem_false in H. now rewrite H. Qed.
Lemma del_In x y l : In x (del y l) <-> In x l /\ x <> y.
Proof.
  unfold del. rewrite filter_In, negb_true_iff, Nat.eqb_neq. intuition congruence.
Qed.
Lemma del_NoDup x l : NoDup l -> NoDup (del x l).
Proof. apply NoDup_filter. Qed.
Lemma del_notin x l : ~ In x l -> del x l = l.
Proof.
  induction l as [|a l IH]; cbn; auto. intros H. destruct (Nat.eqb_spec x a) as [->|N]; cbn.
  - destruct H; auto.
  - f_equal. apply IH. tauto.
Qed.
Lemma del_length x l : NoDup l -> In x l -> length l = S (length (del x l)).
Proof.
  induction l as [|a l IH]; cbn; [tauto|]. intros ND H. inversion ND as [|? ? N1 N2]; subst.
  destruct (Nat.eqb_spec x a) as [->|N]; cbn; f_equal.
  - fold (del a l). now rewrite del_notin.
  - apply IH; auto. destruct H; congruence.
Qed.
Lemma union_In x a b : In x (union a b) <-> In x a \/ In x b.
Proof.
  unfold union. revert a. induction b as [|y b IH]; cbn; intros a; [tauto|].
  rewrite IH, add_In. intuition.
Qed.
Lemma diff_In x a b : In x (diff a b) <-> In x a /\ ~ In x b.
Proof. unfold diff. rewrite filter_In, negb_true_iff, mem_false. tauto. Qed.
Lemma inter_In x a b : In x (inter a b) <-> In x a /\ In x b.
Proof. unfold inter. rewrite filter_In, mem_In. tauto. Qed.
Lemma subset_spec a b : subset a b = true <-> forall x, In x a -> In x b.
Proof.
  unfold subset. rewrite forallb_forall. setoid_rewrite mem_In. reflexivity.
Qed.
Lemma is_nil_true {A} (l : list A) : is_nil l = true <-> l = [].
Proof. destruct l; cbn; split; congruence. Qed.
Lemma is_nil_false {A} (l : list A) : is_nil l = false <-> l <> [].
Proof. destruct l; cbn; split; congruence. Qed.
Lemma ddel_In p k l : In p (ddel k l) <-> In p l /\ fst p <> k.
Proof. unfold ddel. rewrite filter_In, negb_true_iff, Nat.eqb_neq. tauto. Qed.
Lemma dset_key p k v l : In p (dset k v l) -> fst p = k \/ In p l.
Proof.
  unfold dset. destruct (dget k l).
  - rewrite in_map_iff. intros (q & <- & H). destruct (Nat.eqb_spec (fst q) k); cbn; auto.
  - rewrite in_app_iff. cbn. intros [H|[<-|[]]]; auto.
Qed.

Lemma fold_inv {A B} (P : A -> Prop) (f : A -> B -> A) l a :
  P a -> (forall a b, In b l -> P a -> P (f a b)) -> P (fold_left f l a).
Proof.
  revert a. induction l as [|b l IH]; cbn; intros a H F; auto.
Qed.

(** ** Frame: what the setscene bookkeeping leaves alone *)
Definition scene_ev (e : ev) : Prop := match e with SceneSkip _ => True | _ => False end.
Record frame (s s' : st) : Prop := {
  f_buildable : buildable s' = buildable s;
  f_sbuild : sbuild s' = sbuild s;
  f_running : running s' = running s;
  f_complete : complete s' = complete s;
  f_tasksrun : tasksrun s' = tasksrun s;
  f_failed : failed s' = failed s;
  f_active : active s' = active s;
  f_live : live s' = live s;
  f_sqlive : sqlive s' = sqlive s;
  f_bstamps : bstamps s' = bstamps s;
  f_tcov : tcov s' = tcov s;
  f_tnot : tnot s' = tnot s;
  f_holdoff : holdoff s' = holdoff s;
  f_rst : rst s' = rst s;
  f_sqdone : sqdone s' = sqdone s;
  f_sqr : forall x, In x (sqr s) -> In x (sqr s');
  f_log : exists l, log s' = l ++ log s /\ Forall scene_ev l;
  f_cov : forall x, In x (sccov s') -> In x (sccov s) \/ In (SceneSkip x) (log s')
}.
(** the inputs of update_holdoff changed only if an update is due *)
Definition upd (s s' : st) : Prop :=
  needupd s' = true \/ (needupd s' = needupd s /\ sccov s' = sccov s /\ scnot s' = scnot s /\ tsdone s' = tsdone s).
Lemma frame_refl s : frame s s.
Proof. constructor; auto. exists []. split; auto. Qed.
Lemma frame_trans a b d : frame a b -> frame b d -> frame a d.
Proof.
  intros [] []. constructor; try congruence; auto.
  - destruct f_log0 as (l & E & F), f_log1 as (l' & E' & F'). exists (l' ++ l).
    rewrite E', E, app_assoc. split; auto. apply Forall_app; auto.
  - intros x H. destruct (f_cov1 x H) as [H1|H1]; auto.
    destruct (f_cov0 x H1) as [H2|H2]; auto. right.
    destruct f_log1 as (l' & E' & _). rewrite E'. apply in_or_app; auto.
Qed.
Lemma upd_refl s : upd s s.
Proof. right. auto. Qed.
Lemma upd_trans a b d : upd a b -> upd b d -> upd a d.
Proof.
  unfold upd. intros [U0|(U0 & A0 & B0 & D0)] [U|(U & A & B & D)]; auto.
  - left; congruence.
  - right. repeat split; congruence.
Qed.
Ltac fr := constructor; cbn; auto; try (exists []; split; cbn; auto; fail); try (intros; rewrite ?add_In; auto; fail).

Lemma frame_fold {B} (f : st -> B -> st) l s :
  (forall s b, frame s (f s b)) -> frame s (fold_left f l s).
Proof.
  intros H. apply (fold_inv (fun a => frame s a)); [apply frame_refl|].
  intros a b _ F. eapply frame_trans; eauto.
Qed.
Lemma upd_fold {B} (f : st -> B -> st) l s :
  (forall s b, upd s (f s b)) -> upd s (fold_left f l s).
Proof.
  intros H. apply (fold_inv (fun a => upd s a)); [apply upd_refl|].
  intros a b _ F. eapply upd_trans; eauto.
Qed.

Section P.
Variable c : cfg.

Lemma counters_tail_frame t s : frame s (counters_tail c t s).
Proof. unfold counters_tail. destruct (is_nil (harddeps c t)); fr. Qed.
Lemma counters_tail_upd t s s0 : upd s0 (counters_tail c t s).
Proof. left. reflexivity. Qed.

Lemma failoutright_frame n o t s : frame s (failoutright c n o t s).
Proof.
  revert t s. induction n as [|n IH]; intros t s; cbn [failoutright].
  - fr.
  - eapply frame_trans; [|apply counters_tail_frame].
    eapply frame_trans with (b := set_scnot (add t (scnot s)) (set_sqb (add t (sqb s)) (set_sqr (add t (sqr s)) s))); [fr|].
    apply frame_fold. intros s1 d. destruct (processed s1 d); [apply frame_refl|].
    destruct (scene_stamps c o d); [apply frame_refl|apply IH].
Qed.
Lemma failoutright_upd n o t s s0 : upd s0 (failoutright c (S n) o t s).
Proof. cbn [failoutright]. apply counters_tail_upd. Qed.

Lemma sq_skip_frame t s : frame s (sq_skip c t s).
Proof.
  unfold sq_skip, sq_completeoutright.
  eapply frame_trans; [|apply counters_tail_frame].
  constructor; cbn; auto.
  - intros; rewrite add_In; auto.
  - exists [SceneSkip t]. split; auto. constructor; cbn; auto.
  - intros x. rewrite add_In. intros [->|H]; auto.
Qed.
Lemma sq_skip_upd t s s0 : upd s0 (sq_skip c t s).
Proof. apply counters_tail_upd. Qed.

Lemma update_scene_data_frame o l s : frame s (update_scene_data c o l s) /\ upd s (update_scene_data c o l s).
Proof.
  unfold update_scene_data.
  match goal with |- context [fold_left ?f l (s, [])] => set (F := f) end.
  assert (K : frame s (fst (fold_left F l (s, []))) /\ upd s (fst (fold_left F l (s, [])))).
  { apply (fold_inv (fun a => frame s (fst a) /\ upd s (fst a))).
    - split; [apply frame_refl|apply upd_refl].
    - intros [a tc] t _ [H U]. unfold F. cbn [fst] in *.
      match goal with |- context [set_outright ?x ?y] => set (a1 := set_outright x y) end.
      assert (H1 : frame s a1) by (eapply frame_trans; [exact H|]; unfold a1; fr).
      assert (U1 : upd s a1) by (eapply upd_trans; [exact U|]; unfold a1; right; cbn; auto).
      destruct (noexec c t); [|destruct (o_scstamp o t || o_stamprec o t)]; cbn [fst].
      + split; [|apply sq_skip_upd]. eapply frame_trans; [|apply sq_skip_frame].
        eapply frame_trans; [exact H1|]. fr.
      + split; [|apply sq_skip_upd]. eapply frame_trans; [|apply sq_skip_frame].
        eapply frame_trans; [exact H1|]. fr.
      + auto. }
  destruct (fold_left F l (s, [])) as [s1 tc]. cbn [fst] in K. destruct K as [K U].
  match goal with |- context [set_sqvalid ?x s1] => set (s2 := set_sqvalid x s1) end.
  assert (K2 : frame s s2) by (eapply frame_trans; [exact K|]; unfold s2; fr).
  assert (U2 : upd s s2) by (eapply upd_trans; [exact U|]; unfold s2; right; cbn; auto).
  split.
  - eapply frame_trans; [exact K2|]. apply frame_fold. intros a t.
    match goal with |- context [if ?b then _ else _] => destruct b end; [apply frame_refl|fr].
  - eapply upd_trans; [exact U2|]. apply upd_fold. intros a t.
    match goal with |- context [if ?b then _ else _] => destruct b end; [apply upd_refl|right; cbn; auto].
Qed.

Lemma undefer_frame o t s : frame s (undefer c o t s) /\ upd s (undefer c o t s).
Proof.
  unfold undefer.
  match goal with |- context [fold_left ?f (scene c) ?x] => set (F := f) end.
  enough (K : forall l a, frame s (snd a) /\ upd s (snd a) ->
            frame s (snd (fold_left F l a)) /\ upd s (snd (fold_left F l a))).
  { apply K. cbn. split; [apply frame_refl|apply upd_refl]. }
  intros l a H. apply (fold_inv (fun a => frame s (snd a) /\ upd s (snd a))); auto.
  intros [found b] d _ [H1 H2]. unfold F. cbn [snd] in *.
  destruct (dget d (deferred b)); [|auto]. destruct (Nat.eqb n t); [|auto]. destruct found; cbn [snd].
  - split; [eapply frame_trans; [exact H1|]; fr | eapply upd_trans; [exact H2|]; right; cbn; auto].
  - match goal with |- context [update_scene_data c o ?l ?x] => destruct (update_scene_data_frame o l x) as [A B] end.
    split; [eapply frame_trans; [|exact A]; eapply frame_trans; [exact H1|]; fr
           | eapply upd_trans; [|exact B]; eapply upd_trans; [exact H2|]; right; cbn; auto].
Qed.

(** ** The main invariant *)
Fixpoint ok_log (h : list ev) : Prop :=
  match h with
  | [] => True
  | e :: h =>
    ok_log h /\
    (forall t, takes_up t e -> (forall d, In d (depends c t) -> finished h d) /\
                              (forall e', In e' h -> ~ takes_up t e')) /\
    (forall t, e = Succeeded t -> In (Started t) h /\ ~ In (Succeeded t) h)
  end.
Definition deps_done (s : st) (t : nat) : Prop := forall d, In d (depends c t) -> In d (complete s).
Definition held (s : st) (n : nat) : nat := length (filter (fun r => Nat.eqb (tname c r) n) (diff (running s) (complete s))).

Record Inv (s : st) : Prop := {
  i_build : forall t, In t (buildable s) \/ In t (sbuild s) -> deps_done s t;
  i_qs : forall t, In t (buildable s) -> In t (sbuild s) \/ In t (running s);
  i_run : forall t, In t (running s) -> deps_done s t;
  i_comp : forall t, In t (complete s) -> In t (running s);
  i_live : forall t, In t (live s) -> In t (running s) /\ ~ In t (complete s) /\ In (Started t) (log s) /\ ~ In (Succeeded t) (log s);
  i_livend : NoDup (live s);
  i_done : forall t, In t (complete s) -> finished (log s) t;
  i_fin : forall t, finished (log s) t -> In t (complete s);
  i_log : ok_log (log s);
  i_up : forall t e, In e (log s) -> takes_up t e -> In t (running s);
  i_cases : forall t, In t (running s) -> In t (complete s) \/ In t (live s) \/ In (TaskFailed t) (log s);
  i_sqnd : NoDup (sqlive s);
  i_sqr : forall t, In t (sqlive s) -> In t (sqr s);
  i_stamps : forall p, In p (bstamps s) -> In (fst p) (live s) \/ In (fst p) (sqlive s);
  i_sccov : forall q, In q (sccov s) -> restored (log s) q;
  i_tcov : forall t, In t (tcov s) -> exists q, (q = t \/ In t (coveredby c q)) /\ restored (log s) q;
  i_skip : forall t, In (Skipped t true) (log s) -> exists q, (q = t \/ In t (coveredby c q)) /\ restored (log s) q;
  i_names : forall n k, tlimit c n = Some k -> (1 <= k)%Z -> (Z.of_nat (held s n) <= k)%Z
}.
(** the invariants that the enforce mode (setscene_ignore_tasks) breaks *)
Record InvA (s : st) : Prop := {
  a_active : active s = Z.of_nat (length (live s));
  a_proc : processes (log s) = (Z.of_nat (length (live s)) + Z.of_nat (length (sqlive s)))%Z;
  a_threads : (active s + Z.of_nat (length (sqlive s)) <= threads c)%Z;
  a_failed : forall t, In (TaskFailed t) (log s) -> In t (running s) /\ ~ In t (complete s) /\ ~ In t (live s)
}.
Definition Q2 (s : st) : Prop := forall t, In t (tasks c) -> deps_done s t ->
  depends c t <> [] \/ In t (tcov s) \/ In t (tnot s) -> In t (buildable s) \/ In t (running s).

Lemma scene_ev_facts l h : Forall scene_ev l ->
  (forall e, In e (l ++ h) -> ~ scene_ev e -> In e h) /\
  processes (l ++ h) = processes h /\ (ok_log h -> ok_log (l ++ h)).
Proof.
  induction 1 as [|e l He Hl IH]; cbn.
  - split; [auto|split; auto].
  - destruct IH as (A & B & C). split; [|split].
    + intros x [->|H] N; [contradiction|]. apply A; auto.
    + fold (processes (l ++ h)). destruct e; cbn in He; try contradiction. cbn. lia.
    + intros H. split; [auto|]. destruct e; cbn in He; try contradiction. split.
      * intros t' [E|[E|[b E]]]; discriminate.
      * intros t' E; discriminate.
Qed.
Lemma finished_mono l h t : finished h t -> finished (l ++ h) t.
Proof.
  intros [H|[H|[b H]]]; [left|right;left|right;right;exists b]; apply in_or_app; auto.
Qed.
Lemma restored_mono l h t : restored h t -> restored (l ++ h) t.
Proof. intros [H|H]; [left|right]; apply in_or_app; auto. Qed.
Lemma finished_scene l h t : Forall scene_ev l -> finished (l ++ h) t -> finished h t.
Proof.
  intros F H. destruct (scene_ev_facts l h F) as (A & _ & _).
  destruct H as [H|[H|[b H]]]; [left|right;left|right;right;exists b]; apply A; auto; cbn; tauto.
Qed.

(** changes that do not matter to the invariants *)
Record weak (s s' : st) : Prop := {
  w_buildable : buildable s' = buildable s;
  w_sbuild : sbuild s' = sbuild s;
  w_running : running s' = running s;
  w_complete : complete s' = complete s;
  w_active : active s' = active s;
  w_live : live s' = live s;
  w_sqlive : sqlive s' = sqlive s;
  w_bstamps : forall p, In p (bstamps s') -> In p (bstamps s);
  w_tcov : tcov s' = tcov s;
  w_tnot : tnot s' = tnot s;
  w_sqr : forall x, In x (sqlive s) -> In x (sqr s) -> In x (sqr s');
  w_log : exists l, log s' = l ++ log s /\ Forall scene_ev l;
  w_cov : forall x, In x (sccov s') -> In x (sccov s) \/ In (SceneSkip x) (log s')
}.
Lemma frame_weak s s' : frame s s' -> weak s s'.
Proof. intros []. constructor; auto. now rewrite f_bstamps0. Qed.
Lemma weak_Inv s s' : weak s s' -> Inv s -> Inv s'.
Proof.
  intros F I. destruct F, I. destruct w_log0 as (l & E & FL).
  destruct (scene_ev_facts l (log s) FL) as (LA & LB & LC).
  constructor; unfold deps_done, held in *; rewrite ?w_buildable0, ?w_sbuild0, ?w_running0, ?w_complete0, ?w_live0, ?w_sqlive0, ?w_tcov0 in *; auto.
  - intros t H. destruct (i_live0 t H) as (A & B & D & G). repeat split; auto.
    + rewrite E. apply in_or_app; auto.
    + rewrite E. intros X. apply G, LA; auto.
  - intros t H. rewrite E. apply finished_mono; auto.
  - intros t H. rewrite E in H. apply i_fin0. eapply finished_scene; eauto.
  - rewrite E. auto.
  - intros t e H T. rewrite E in H. apply (i_up0 t e); auto. apply LA; auto.
    destruct T as [->|[->|[b ->]]]; cbn; tauto.
  - intros t H. destruct (i_cases0 t H) as [X|[X|X]]; auto. right; right. rewrite E. apply in_or_app; auto.
  - intros q H. rewrite E. destruct (w_cov0 q H) as [H1|H1]; [apply restored_mono; auto|].
    right. rewrite <- E. auto.
  - intros t H. destruct (i_tcov0 t H) as (q & A & B). exists q. split; auto. rewrite E. apply restored_mono; auto.
  - intros t H. rewrite E in H. apply LA in H; [|cbn; tauto]. destruct (i_skip0 t H) as (q & A & B). exists q. split; auto. rewrite E. apply restored_mono; auto.
Qed.
Lemma weak_InvA s s' : weak s s' -> InvA s -> InvA s'.
Proof.
  intros F I. destruct F, I. destruct w_log0 as (l & E & FL).
  destruct (scene_ev_facts l (log s) FL) as (LA & LB & LC).
  constructor; rewrite ?w_active0, ?w_live0, ?w_sqlive0, ?w_running0, ?w_complete0 in *; auto.
  - rewrite E. congruence.
  - intros t H. rewrite E in H. apply a_failed0, LA; auto.
Qed.
Lemma weak_Q2 s s' : weak s s' -> Q2 s -> Q2 s'.
Proof.
  intros F I. destruct F. unfold Q2, deps_done in *. rewrite w_complete0, w_tcov0, w_tnot0, w_buildable0, w_running0. auto.
Qed.
Definition Good (s : st) : Prop := Inv s /\ Q2 s /\ (allowed c = None -> InvA s).
Lemma weak_Good s s' : weak s s' -> Good s -> Good s'.
Proof.
  intros W (A & B & C). split; [|split].
  - eapply weak_Inv; eauto.
  - eapply weak_Q2; eauto.
  - intros H. eapply weak_InvA; eauto.
Qed.
Lemma frame_Good s s' : frame s s' -> Good s -> Good s'.
Proof. intros. eapply weak_Good; eauto using frame_weak. Qed.

(** ** Marking tasks buildable *)
Lemma setbuildable_Inv t s : deps_done s t -> Inv s -> Inv (setbuildable t s).
Proof.
  intros D I. destruct I. constructor; cbn; auto.
  - intros x. rewrite !add_In. intros [[->|H]|[->|H]]; try exact D; apply i_build0; auto.
  - intros x. rewrite !add_In. intros [->|H]; auto. destruct (i_qs0 x H); auto.
Qed.
Lemma setbuildable_InvA t s : InvA s -> InvA (setbuildable t s).
Proof. intros I. destruct I. constructor; cbn; auto. Qed.
Lemma setbuildable_Q2 t s : Q2 s -> Q2 (setbuildable t s).
Proof. intros Q x A B C. cbn. rewrite add_In. destruct (Q x A B C); auto. Qed.

(** fields no marking touches *)
Record marks (s s' : st) : Prop := {
  m_frame : exists b sb, s' = set_sbuild sb (set_buildable b s);
  m_buildable : forall x, In x (buildable s) -> In x (buildable s')
}.
Lemma marks_refl s : marks s s.
Proof. split; auto. exists (buildable s), (sbuild s). destruct s; reflexivity. Qed.
Lemma marks_set t s : marks s (setbuildable t s).
Proof.
  split; [|cbn; intros; rewrite add_In; auto].
  exists (add t (buildable s)), (add t (sbuild s)). destruct s; reflexivity.
Qed.
Lemma marks_trans a b d : marks a b -> marks b d -> marks a d.
Proof.
  intros [(x & y & E) M] [(x' & y' & E') M']. split; auto.
  exists x', y'. rewrite E', E. destruct a; reflexivity.
Qed.
Lemma mark_fold (f : st -> nat -> st) l s :
  (forall s t, In t l -> Inv s -> (f s t = s \/ (f s t = setbuildable t s /\ deps_done s t))) ->
  Inv s -> Inv (fold_left f l s) /\ marks s (fold_left f l s) /\ (InvA s -> InvA (fold_left f l s)).
Proof.
  intros F I. apply (fold_inv (fun a => Inv a /\ marks s a /\ (InvA s -> InvA a))).
  - auto using marks_refl.
  - intros a t Ht (A & B & C). destruct (F a t Ht A) as [->|[-> D]]; auto.
    split; [|split].
    + apply setbuildable_Inv; auto.
    + eapply marks_trans; eauto using marks_set.
    + intros. apply setbuildable_InvA; auto.
Qed.
Lemma marks_eq s s' : marks s s' -> complete s' = complete s /\ running s' = running s /\ tcov s' = tcov s /\ tnot s' = tnot s
  /\ log s' = log s /\ live s' = live s /\ sqlive s' = sqlive s /\ active s' = active s /\ rst s' = rst s /\ failed s' = failed s
  /\ holdoff s' = holdoff s /\ sccov s' = sccov s /\ scnot s' = scnot s /\ tsdone s' = tsdone s /\ needupd s' = needupd s
  /\ sqdone s' = sqdone s /\ deferred s' = deferred s /\ bstamps s' = bstamps s /\ sqb s' = sqb s /\ sqr s' = sqr s.
Proof. intros [(x & y & ->) _]. cbn. auto 30. Qed.

(** task_completeoutright, after the task was added to the completed ones *)
Definition wake (t : nat) (s : st) : st :=
  fold_left (fun s r =>
     if mem r (running s) then s
     else if mem r (buildable s) then s
     else if subset (depends c r) (complete s) then setbuildable r s else s) (revdeps c t) s.
Lemma wake_ok t s : Inv s -> Inv (wake t s) /\ marks s (wake t s) /\ (InvA s -> InvA (wake t s)).
Proof.
  intros I. apply mark_fold; auto. intros a r _ _.
  destruct (mem r (running a)); auto. destruct (mem r (buildable a)); auto.
  destruct (subset (depends c r) (complete a)) eqn:E; auto.
  right. split; auto. intros d. now apply subset_spec.
Qed.
Lemma wake_Q2 t s0 s : Q2 s0 -> Inv s ->
  complete s = add t (complete s0) -> tcov s = tcov s0 -> tnot s = tnot s0 ->
  (forall x, In x (buildable s0) -> In x (buildable s)) -> (forall x, In x (running s0) -> In x (running s)) ->
  Q2 (wake t s).
Proof.
  intros Q I EC ET EN MB MR. destruct (wake_ok t s I) as (_ & M & _).
  destruct (marks_eq _ _ M) as (E1 & E2 & E3 & E4 & _).
  intros x Hx D K. unfold deps_done in D. rewrite E1 in D. rewrite E3, E4, ET, EN in K.
  destruct (in_dec Nat.eq_dec t (depends c x)) as [Ht|Ht].
  - assert (R : In x (revdeps c t)).
    { unfold revdeps. apply filter_In. split; auto. apply mem_In; auto. }
    clear - R D. unfold wake.
    assert (G : forall l s, In x l -> (forall d, In d (depends c x) -> In d (complete s)) ->
        let s' := fold_left (fun s r => if mem r (running s) then s else if mem r (buildable s) then s
                   else if subset (depends c r) (complete s) then setbuildable r s else s) l s in
        In x (buildable s') \/ In x (running s')).
    { clear. induction l as [|r l IH]; intros s H D; [destruct H|]. cbn [fold_left].
      match goal with |- context [fold_left ?f l ?a] => set (a1 := a); set (F := f) end.
      assert (K : forall l a, (In x (buildable a) \/ In x (running a)) -> In x (buildable (fold_left F l a)) \/ In x (running (fold_left F l a))).
      { intros l0 a H0. apply (fold_inv (fun a => In x (buildable a) \/ In x (running a))); auto.
        intros b r0 _ H1. unfold F. destruct (mem r0 (running b)); auto. destruct (mem r0 (buildable b)); auto.
        destruct (subset (depends c r0) (complete b)); auto. cbn. rewrite add_In. tauto. }
      destruct H as [->|H].
      - apply K. unfold a1. destruct (mem x (running s)) eqn:E1; [apply mem_In in E1; auto|].
        destruct (mem x (buildable s)) eqn:E2; [apply mem_In in E2; auto|].
        replace (subset (depends c x) (complete s)) with true by (symmetry; apply subset_spec; auto).
        cbn. rewrite add_In. auto.
      - apply IH; auto. unfold a1. destruct (mem r (running s)); auto. destruct (mem r (buildable s)); auto.
        destruct (subset (depends c r) (complete s)); auto. }
    apply G; auto.
  - destruct (Q x Hx) as [H|H].
    + intros d Hd. specialize (D d Hd). rewrite EC, add_In in D. destruct D as [->|D]; [contradiction|auto].
    + auto.
    + left. apply M. auto.
    + right. rewrite E2. auto.
Qed.

Lemma held_add_complete r co t n : length (filter (fun r => Nat.eqb (tname c r) n) (diff r (add t co)))
  <= length (filter (fun r => Nat.eqb (tname c r) n) (diff r co)).
Proof.
  unfold diff. induction r as [|x r IH]; cbn [filter]; auto.
  destruct (mem x co) eqn:E1; cbn [negb].
  - assert (E2 : mem x (add t co) = true) by (apply mem_In, add_In; right; now apply mem_In).
    rewrite E2. cbn [negb]. auto.
  - destruct (mem x (add t co)) eqn:E2; cbn [negb filter].
    + destruct (Nat.eqb (tname c x) n); cbn [length]; lia.
    + destruct (Nat.eqb (tname c x) n); cbn [length]; lia.
Qed.
Lemma held_take r co t n : length (filter (fun r => Nat.eqb (tname c r) n) (diff (add t r) (add t co)))
  <= length (filter (fun r => Nat.eqb (tname c r) n) (diff r co)).
Proof.
  unfold add at 1. destruct (mem t r) eqn:E; [apply held_add_complete|].
  cbn. replace (mem t (add t co)) with true by (symmetry; apply mem_In, add_In; auto). cbn.
  apply held_add_complete.
Qed.

(** the task is taken up and finished at once *)
Definition at_once (t : nat) (e : ev) (s : st) : st :=
  set_complete (add t (complete s)) (emit e (set_running (add t (running s)) s)).
Lemma at_once_Inv t e s : Inv s -> ~ In t (running s) -> deps_done s t ->
  e = Noexec t \/ e = Skipped t false \/ (e = Skipped t true /\ In t (tcov s)) -> Inv (at_once t e s).
Proof.
  intros I NR D E. pose proof I as I0. destruct I.
  assert (UP : takes_up t e) by (destruct E as [->|[->|[-> _]]]; unfold takes_up; eauto).
  assert (UPT : forall x, takes_up x e -> x = t).
  { intros x [X|[X|[b X]]]; destruct E as [->|[->|[-> _]]]; congruence. }
  assert (FT : finished (e :: log s) t).
  { destruct E as [->|[->|[-> _]]]; [right; left|right; right; exists false|right; right; exists true]; left; reflexivity. }
  assert (NS : forall x, e <> Succeeded x /\ e <> TaskFailed x /\ e <> Started x).
  { intros x. destruct E as [->|[->|[-> _]]]; repeat split; discriminate. }
  assert (FM : forall x, finished (e :: log s) x -> x = t \/ finished (log s) x).
  { intros x [[X|X]|[[X|X]|[b [X|X]]]]; try (left; apply UPT; unfold takes_up; eauto; fail).
    - destruct (NS x) as (N & _ & _). congruence.
    - right; left; auto.
    - right; right; left; auto.
    - right; right; right; eauto. }
  assert (DM : forall x, deps_done s x -> deps_done (at_once t e s) x).
  { intros x H d Hd. cbn. rewrite add_In. right. now apply H. }
  constructor; cbn [at_once emit set_complete set_log set_running buildable sbuild running complete live log sqlive sqr bstamps sccov tcov]; auto.
  - intros x H. destruct (i_qs0 x H); rewrite ?add_In; auto.
  - intros x. rewrite add_In. intros [->|H]; auto.
  - intros x. rewrite !add_In. intros [->|H]; auto.
  - intros x H. destruct (i_live0 x H) as (A & B & C & G). rewrite !add_In. repeat split; auto.
    + intros [->|X]; auto.
    + right; auto.
    + intros [X|X]; auto. destruct (NS x) as (N & _). congruence.
  - intros x. rewrite add_In. intros [->|H]; auto. apply (finished_mono [e]). auto.
  - intros x H. rewrite add_In. destruct (FM x H); auto.
  - cbn [ok_log]. split; auto. split.
    + intros x H. rewrite (UPT x H). split.
      * intros d Hd. apply i_done0. apply D; auto.
      * intros e' H' T. apply NR. eapply i_up0; eauto.
    + intros x H. destruct (NS x) as (N & _). congruence.
  - intros x e' [<-|H] T; rewrite add_In; [left; auto|right; eauto].
  - intros x. rewrite !add_In. intros [->|H]; auto. destruct (i_cases0 x H) as [X|[X|X]]; auto. right; right; right; auto.
  - intros q H. apply (restored_mono [e]). auto.
  - intros x H. destruct (i_tcov0 x H) as (q & A & B). exists q. split; auto. apply (restored_mono [e]); auto.
  - intros x [H|H].
    + destruct E as [->|[->|[-> TC]]]; try discriminate. injection H as <-.
      destruct (i_tcov0 t TC) as (q & A & B). exists q. split; auto. apply (restored_mono [Skipped t true]); auto.
    + destruct (i_skip0 x H) as (q & A & B). exists q. split; auto. apply (restored_mono [e]); auto.
  - intros n k H1 H2. specialize (i_names0 n k H1 H2).
    pose proof (held_take (running s) (complete s) t n) as L. unfold held in *.
    cbn [at_once emit set_complete set_log set_running running complete]. lia.
Qed.
Lemma at_once_InvA t e s : InvA s -> ~ In t (running s) -> weight e = 0%Z -> (forall x, e <> TaskFailed x) -> InvA (at_once t e s).
Proof.
  intros I NR W NF. destruct I. constructor; cbn; auto.
  - fold (processes (log s)). lia.
  - intros x [H|H]; [congruence|]. destruct (a_failed0 x H) as (A & B & C). rewrite !add_In.
    repeat split; auto. intros [->|X]; auto.
Qed.

(** a worker reported success *)
Definition reported (t : nat) (s : st) : st :=
  set_complete (add t (complete s)) (set_active (active s - 1)%Z (emit (Succeeded t)
    (set_live (del t (live s)) (set_bstamps (ddel t (bstamps s)) s)))).
Lemma reported_Inv t s : Inv s -> In t (live s) -> Inv (reported t s).
Proof.
  intros I L. destruct I. destruct (i_live0 t L) as (LR & LC & LS & LN).
  assert (NU : forall x, ~ takes_up x (Succeeded t)) by (intros x [H|[H|[b H]]]; discriminate).
  assert (DM : forall x, deps_done s x -> deps_done (reported t s) x).
  { intros x H d Hd. cbn. rewrite add_In. right. now apply H. }
  constructor; cbn [reported emit set_complete set_log set_active set_live set_bstamps buildable sbuild running complete live log sqlive sqr bstamps sccov tcov]; auto.
  - intros x. rewrite add_In. intros [->|H]; auto.
  - intros x. rewrite del_In. intros [H N]. destruct (i_live0 x H) as (A & B & C & G). rewrite add_In. repeat split; auto.
    + intros [->|X]; auto.
    + right; auto.
    + intros [X|X]; auto. congruence.
  - now apply del_NoDup.
  - intros x. rewrite add_In. intros [->|H]; [left; left; auto|]. apply (finished_mono [Succeeded t]); auto.
  - intros x [[X|X]|[[X|X]|[b [X|X]]]]; rewrite add_In; try discriminate; try (right; apply i_fin0; unfold finished; eauto; fail).
    left. congruence.
  - cbn [ok_log]. split; auto. split.
    + intros x H. destruct (NU x H).
    + intros x H. injection H as <-. auto.
  - intros x e' [<-|H] T; [destruct (NU x T)|eauto].
  - intros x H. rewrite add_In, del_In. destruct (Nat.eq_dec x t) as [->|N]; auto.
    destruct (i_cases0 x H) as [X|[X|X]]; auto. right; right; right; auto.
  - intros p. rewrite ddel_In, del_In. intros [H N]. destruct (i_stamps0 p H); auto.
  - intros q H. apply (restored_mono [Succeeded t]). auto.
  - intros x H. destruct (i_tcov0 x H) as (q & A & B). exists q. split; auto. apply (restored_mono [Succeeded t]); auto.
  - intros x [H|H]; [discriminate|]. destruct (i_skip0 x H) as (q & A & B). exists q. split; auto. apply (restored_mono [Succeeded t]); auto.
  - intros n k H1 H2. specialize (i_names0 n k H1 H2).
    pose proof (held_add_complete (running s) (complete s) t n) as L1. unfold held in *.
    cbn [reported emit set_complete set_log set_active set_live set_bstamps running complete]. lia.
Qed.
Lemma reported_InvA t s : Inv s -> InvA s -> In t (live s) -> InvA (reported t s).
Proof.
  intros I J L. destruct I, J. pose proof (del_length t (live s) i_livend0 L) as DL.
  constructor; cbn [reported emit set_complete set_log set_active set_live set_bstamps active live sqlive log running complete].
  - lia.
  - change (processes (Succeeded t :: log s)) with (-1 + processes (log s))%Z. lia.
  - lia.
  - intros x [H|H]; [discriminate|]. destruct (a_failed0 x H) as (A & B & C). rewrite add_In, del_In. repeat split; auto.
    + intros [->|X]; auto.
    + intros [X _]; auto.
Qed.

(** a worker reported failure *)
Definition failed_state (t : nat) (s : st) : st :=
  emit (TaskFailed t) (set_failed (failed s ++ [t]) (set_active (active s - 1)%Z
    (set_live (del t (live s)) (set_bstamps (ddel t (bstamps s)) s)))).
Lemma failed_Inv t s : Inv s -> (In t (live s) \/ ~ In t (live s)) -> Inv (failed_state t s).
Proof.
  intros I _. destruct I.
  assert (NU : forall x, ~ takes_up x (TaskFailed t)) by (intros x [H|[H|[b H]]]; discriminate).
  constructor; cbn [failed_state emit set_log set_active set_live set_failed set_bstamps buildable sbuild running complete live log sqlive sqr bstamps sccov tcov]; auto.
  - intros x. rewrite del_In. intros [H N]. destruct (i_live0 x H) as (A & B & C & G). repeat split; auto.
    + right; auto.
    + intros [X|X]; auto. congruence.
  - now apply del_NoDup.
  - intros x H. apply (finished_mono [TaskFailed t]); auto.
  - intros x [[X|X]|[[X|X]|[b [X|X]]]]; try discriminate; apply i_fin0; unfold finished; eauto.
  - cbn [ok_log]. split; auto. split.
    + intros x H. destruct (NU x H).
    + intros x H. discriminate.
  - intros x e' [<-|H] T; [destruct (NU x T)|eauto].
  - intros x H. rewrite del_In. destruct (Nat.eq_dec x t) as [->|N]; [right; right; left; auto|].
    destruct (i_cases0 x H) as [X|[X|X]]; auto. right; right; right; auto.
  - intros p. rewrite ddel_In, del_In. intros [H N]. destruct (i_stamps0 p H); auto.
  - intros q H. apply (restored_mono [TaskFailed t]). auto.
  - intros x H. destruct (i_tcov0 x H) as (q & A & B). exists q. split; auto. apply (restored_mono [TaskFailed t]); auto.
  - intros x [H|H]; [discriminate|]. destruct (i_skip0 x H) as (q & A & B). exists q. split; auto. apply (restored_mono [TaskFailed t]); auto.
Qed.
Lemma failed_InvA t s : Inv s -> InvA s -> In t (live s) -> InvA (failed_state t s).
Proof.
  intros I J L. destruct I, J. pose proof (del_length t (live s) i_livend0 L) as DL.
  destruct (i_live0 t L) as (LR & LC & _).
  constructor; cbn [failed_state emit set_log set_active set_live set_failed set_bstamps active live sqlive log running complete].
  - lia.
  - change (processes (TaskFailed t :: log s)) with (-1 + processes (log s))%Z. lia.
  - lia.
  - intros x [H|H].
    + injection H as <-. repeat split; auto. rewrite del_In. tauto.
    + destruct (a_failed0 x H) as (A & B & C). rewrite del_In. repeat split; auto. intros [X _]; auto.
Qed.
(** a task was refused (setscene enforce mode): nothing but the log and the counter changes *)
Lemma refused_Inv t s : Inv s -> Inv (emit (TaskFailed t) (set_failed (failed s ++ [t]) (set_active (active s - 1)%Z s))).
Proof.
  intros I. destruct I.
  assert (NU : forall x, ~ takes_up x (TaskFailed t)) by (intros x [H|[H|[b H]]]; discriminate).
  constructor; cbn [emit set_log set_active set_live set_failed set_bstamps buildable sbuild running complete live log sqlive sqr bstamps sccov tcov]; auto.
  - intros x H. destruct (i_live0 x H) as (A & B & C & G). repeat split; auto.
    + right; auto.
    + intros [X|X]; auto. congruence.
  - intros x H. apply (finished_mono [TaskFailed t]); auto.
  - intros x [[X|X]|[[X|X]|[b [X|X]]]]; try discriminate; apply i_fin0; unfold finished; eauto.
  - cbn [ok_log]. split; auto. split.
    + intros x H. destruct (NU x H).
    + intros x H. discriminate.
  - intros x e' [<-|H] T; [destruct (NU x T)|eauto].
  - intros x H. destruct (i_cases0 x H) as [X|[X|X]]; auto. right; right; right; auto.
  - intros q H. apply (restored_mono [TaskFailed t]). auto.
  - intros x H. destruct (i_tcov0 x H) as (q & A & B). exists q. split; auto. apply (restored_mono [TaskFailed t]); auto.
  - intros x [H|H]; [discriminate|]. destruct (i_skip0 x H) as (q & A & B). exists q. split; auto. apply (restored_mono [TaskFailed t]); auto.
Qed.

Ltac wk := constructor; cbn; auto; try (exists []; split; cbn; auto; fail).

(** ** The engine's steps *)
Lemma completeoutright_eq o t s :
  completeoutright c o t s = undefer c o t (wake t (set_complete (add t (complete s)) s)).
Proof. reflexivity. Qed.

Lemma wake_Good t s0 s : Inv s -> (allowed c = None -> InvA s) -> Q2 s0 ->
  complete s = add t (complete s0) -> tcov s = tcov s0 -> tnot s = tnot s0 ->
  (forall x, In x (buildable s0) -> In x (buildable s)) -> (forall x, In x (running s0) -> In x (running s)) ->
  Good (wake t s).
Proof.
  intros I J Q E1 E2 E3 E4 E5. destruct (wake_ok t s I) as (A & M & B). split; [|split]; auto.
  eapply wake_Q2; eauto.
Qed.

Lemma task_skip_Good o t b s : Good s -> ~ In t (running s) -> deps_done s t -> (b = true -> In t (tcov s)) ->
  Good (task_skip c o t b s).
Proof.
  intros (I & Q & J) NR D TC. unfold task_skip. rewrite completeoutright_eq.
  eapply frame_Good; [apply undefer_frame|].
  match goal with |- Good (wake t ?x) => set (s1 := x) end.
  assert (E : s1 = setbuildable t (at_once t (Skipped t b) s)) by (unfold s1; destruct s; reflexivity).
  assert (I1 : Inv (at_once t (Skipped t b) s)).
  { apply at_once_Inv; auto. destruct b; auto. }
  apply wake_Good with (s0 := s); auto.
  - rewrite E. apply setbuildable_Inv; auto. intros d Hd. cbn. rewrite add_In. right. auto.
  - intros AL. rewrite E. apply setbuildable_InvA. apply at_once_InvA; auto. discriminate.
  - intros x H. cbn. rewrite add_In. auto.
  - intros x H. cbn. rewrite add_In. auto.
Qed.

Lemma set_tasksrun_Good x s : Good s -> Good (set_tasksrun x s).
Proof. apply weak_Good. wk. Qed.

Lemma noexec_Good o t s : Good s -> ~ In t (running s) -> deps_done s t ->
  Good (task_complete c o t (emit (Noexec t) (set_active (active s + 1)%Z (set_running (add t (running s)) s)))).
Proof.
  intros (I & Q & J) NR D. unfold task_complete. apply set_tasksrun_Good. rewrite completeoutright_eq.
  eapply frame_Good; [apply undefer_frame|].
  match goal with |- Good (wake t ?x) => set (s1 := x) end.
  assert (E : s1 = at_once t (Noexec t) s).
  { unfold s1, at_once, emit. cbn. replace (active s + 1 - 1)%Z with (active s) by lia. destruct s; reflexivity. }
  assert (I1 : Inv (at_once t (Noexec t) s)) by (apply at_once_Inv; auto).
  apply wake_Good with (s0 := s); auto; rewrite E; auto.
  - intros AL. apply at_once_InvA; auto. discriminate.
  - intros x H. cbn. rewrite add_In. auto.
Qed.

Lemma fail_Good t s : Good s -> In t (live s) ->
  Good (task_fail c t (set_live (del t (live s)) (set_bstamps (ddel t (bstamps s)) s))).
Proof.
  intros (I & Q & J) L. unfold task_fail.
  assert (G : Good (failed_state t s)).
  { split; [|split].
    - apply failed_Inv; auto.
    - intros x A B C. apply Q; auto.
    - intros AL. apply failed_InvA; auto. }
  destruct (halt c); [|exact G].
  eapply weak_Good; [|exact G]. wk.
Qed.
Lemma refused_Good t s : Good s -> allowed c <> None -> Good (task_fail c t s).
Proof.
  intros (I & Q & J) AL. unfold task_fail.
  assert (G : Good (emit (TaskFailed t) (set_failed (failed s ++ [t]) (set_active (active s - 1)%Z s)))).
  { split; [|split]; [apply refused_Inv; auto| |contradiction]. intros x A B C. apply Q; auto. }
  destruct (halt c); [|exact G]. eapply weak_Good; [|exact G]. wk.
Qed.

(** ending of a setscene task *)
Lemma sq_end_core t e s : Good s -> In t (sqlive s) -> e = SceneOk t \/ e = SceneFailed t ->
  forall sc, (forall x, In x sc -> In x (sccov s) \/ (x = t /\ e = SceneOk t)) ->
  Good (set_sqlive (del t (sqlive s)) (set_sccov sc (emit e (set_bstamps (ddel t (bstamps s)) s)))).
Proof.
  intros (I & Q & J) L E sc SC. split; [|split].
  - destruct I.
    assert (NU : forall x, ~ takes_up x e) by (intros x [H|[H|[b H]]]; destruct E; congruence).
    constructor; cbn [emit set_sqlive set_sccov set_log set_bstamps buildable sbuild running complete live log sqlive sqr bstamps sccov tcov]; auto.
    + intros x H. destruct (i_live0 x H) as (A & B & C & G). repeat split; auto.
      * right; auto.
      * intros [X|X]; auto. destruct E; congruence.
    + intros x H. apply (finished_mono [e]); auto.
    + intros x [[X|X]|[[X|X]|[b [X|X]]]]; try (apply i_fin0; unfold finished; eauto; fail); destruct E; congruence.
    + cbn [ok_log]. split; auto. split.
      * intros x H. destruct (NU x H).
      * intros x H. destruct E; congruence.
    + intros x e' [<-|H] T; [destruct (NU x T)|eauto].
    + intros x H. destruct (i_cases0 x H) as [X|[X|X]]; auto. right; right; right; auto.
    + now apply del_NoDup.
    + intros x. rewrite del_In. intros [H _]; auto.
    + intros p. rewrite ddel_In, del_In. intros [H N]. destruct (i_stamps0 p H); auto.
    + intros q H. destruct (SC q H) as [X|[-> ->]]; [apply (restored_mono [e]); auto|left; left; auto].
    + intros x H. destruct (i_tcov0 x H) as (q & A & B). exists q. split; auto. apply (restored_mono [e]); auto.
    + intros x [H|H]; [destruct E; congruence|]. destruct (i_skip0 x H) as (q & A & B). exists q. split; auto. apply (restored_mono [e]); auto.
  - intros x A B C. apply Q; auto.
  - intros AL. destruct (J AL), I. pose proof (del_length t (sqlive s) i_sqnd0 L) as DL.
    constructor; cbn [emit set_sqlive set_sccov set_log set_bstamps active running complete live log sqlive]; auto.
    + replace (processes (e :: log s)) with (-1 + processes (log s))%Z by (destruct E; subst; reflexivity). lia.
    + lia.
    + intros x [H|H]; [destruct E; congruence|]. auto.
Qed.

Lemma frame_set_sqlive x a b : frame a b -> frame (set_sqlive x a) (set_sqlive x b).
Proof. intros []. constructor; cbn; auto. Qed.
Lemma set_rst_Good r s : Good s -> Good (set_rst r s).
Proof. apply weak_Good. wk. Qed.
Lemma set_deferred_Good r s : Good s -> Good (set_deferred r s).
Proof. apply weak_Good. wk. Qed.
Lemma set_sqdone_Good r s : Good s -> Good (set_sqdone r s).
Proof. apply weak_Good. wk. Qed.

Definition hard_fail o t s : st := fold_left (fun s d =>
             if processed s d then s else if scene_stamps c o d then s else failoutright c (sq_fuel c) o d s)
             (harddeps c t) s.
Lemma hard_fail_frame o t s : frame s (hard_fail o t s).
Proof.
  apply frame_fold. intros s1 d. destruct (processed s1 d); [apply frame_refl|].
  destruct (scene_stamps c o d); [apply frame_refl|apply failoutright_frame].
Qed.
Lemma waitpid_Good o t ok s : Good s -> In t (sqlive s) \/ In t (live s) -> Good (waitpid c o t ok s).
Proof.
  intros G L. unfold waitpid. cbn [sqlive set_bstamps].
  destruct (mem t (sqlive s)) eqn:M.
  - apply mem_In in M. destruct ok.
    + unfold sq_complete, sq_completeoutright. cbn [set_sccov sccov emit set_log set_bstamps].
      match goal with |- context [counters_tail c t ?x] => pose proof (counters_tail_frame t x) as F end.
      rewrite (f_sqlive _ _ F).
      eapply frame_Good; [apply frame_set_sqlive, F|].
      cbn [sqlive set_sccov emit set_log set_bstamps sccov].
      apply (sq_end_core t (SceneOk t) s G M); auto.
      intros x. rewrite add_In. intros [->|H]; auto.
    + unfold sq_fail.
      set (s1 := emit (SceneFailed t) (set_scnot (add t (scnot (set_bstamps (ddel t (bstamps s)) s))) (set_bstamps (ddel t (bstamps s)) s))).
      change (fold_left _ (harddeps c t) s1) with (hard_fail o t s1).
      assert (F : frame s1 (counters_tail c t (hard_fail o t s1))).
      { eapply frame_trans; [apply hard_fail_frame|apply counters_tail_frame]. }
      assert (K : Good (set_sqlive (del t (sqlive (counters_tail c t (hard_fail o t s1)))) (counters_tail c t (hard_fail o t s1)))).
      { rewrite (f_sqlive _ _ F). eapply frame_Good; [apply frame_set_sqlive, F|]. unfold s1. cbn [sqlive emit set_log set_scnot set_bstamps].
        pose proof (sq_end_core t (SceneFailed t) s G M (or_intror eq_refl) (sccov s) (fun x H => or_introl H)) as K.
        eapply weak_Good; [|exact K]. wk. }
      destruct (allowed c) as [okf|]; [|exact K]. destruct (okf t); [exact K|].
      eapply weak_Good; [|exact K]. wk.
  - apply mem_false in M. destruct L as [L|L]; [contradiction|].
    cbn [live set_bstamps]. destruct ok; [|now apply fail_Good].
    unfold task_complete. apply set_tasksrun_Good. rewrite completeoutright_eq.
    eapply frame_Good; [apply undefer_frame|].
    match goal with |- Good (wake t ?x) => set (s1 := x) end.
    assert (E : s1 = reported t s) by reflexivity.
    destruct G as (I & Q & J).
    apply wake_Good with (s0 := s); auto; rewrite E; auto.
    + now apply reported_Inv.
    + intros AL. apply reported_InvA; auto.
Qed.

Lemma update_holdoff_Good s : Good s -> Good (update_holdoff c s).
Proof.
  intros (I & Q & J). unfold update_holdoff. destruct (needupd s); cbn [negb]; [|split; [|split]; auto].
  set (nc := notcovered_of c s). set (cv := covered_of c s).
  match goal with |- context [fold_left ?f ?l s] => set (F := f); set (L := l) end.
  destruct (mark_fold F L s) as (A & M & B); auto.
  { intros a t _ _. unfold F. destruct (subset (depends c t) (complete a)) eqn:E; auto.
    right. split; auto. intros d. now apply subset_spec. }
  set (s1 := fold_left F L s) in *.
  destruct (marks_eq _ _ M) as (E1 & E2 & E3 & E4 & E5 & E6 & E7 & E8 & E9 & E10 & E11 & E12 & E13 & E14 & _).
  assert (BL : forall t, In t L -> deps_done s t -> In t (buildable s1)).
  { intros t Ht D.
    assert (G : forall l a, complete a = complete s -> In t l \/ In t (buildable a) -> In t (buildable (fold_left F l a))).
    { induction l as [|x l IH]; intros a EA H; cbn [fold_left]; [destruct H as [[]|H]; auto|]. apply IH.
      - unfold F. destruct (subset (depends c x) (complete a)); auto.
      - unfold F. destruct H as [[->|H]|H]; auto.
        + right. rewrite EA. replace (subset (depends c t) (complete s)) with true by (symmetry; apply subset_spec; auto).
          cbn. rewrite add_In. auto.
        + right. destruct (subset (depends c x) (complete a)); auto. cbn. rewrite add_In. auto. }
    apply G; auto. }
  split; [|split].
  - clear B. destruct A. constructor; cbn [set_needupd set_holdoff set_tnot set_tcov buildable sbuild running complete live log sqlive sqr bstamps sccov tcov]; auto.
    intros t Ht. unfold cv, covered_of in Ht. rewrite inter_In, diff_In in Ht. destruct Ht as [[Ht _] _].
    assert (G : forall l a, (forall x, In x a -> exists q, (q = x \/ In x (coveredby c q)) /\ In q (sccov s)) ->
              (forall q, In q l -> In q (sccov s)) ->
              forall x, In x (fold_left (fun acc t => union acc (coveredby c t)) l a) -> exists q, (q = x \/ In x (coveredby c q)) /\ In q (sccov s)).
    { induction l as [|y l IH]; intros a HA HL x Hx; cbn in Hx; [auto|]. apply (IH _) in Hx; auto.
      - intros z. rewrite union_In. intros [Hz|Hz]; auto. exists y. split; auto. apply HL; left; auto.
      - intros q Hq. apply HL; right; auto. }
    destruct (G (sccov s) (sccov s)) with (x := t) as (q & H1 & H2); auto.
    { intros x Hx. exists x. auto. }
    exists q. split; auto. apply i_sccov0. now rewrite E12.
  - intros t Ht D K. cbn [set_needupd set_holdoff set_tnot set_tcov tcov tnot buildable running] in *.
    assert (D0 : deps_done s t) by (unfold deps_done in *; cbn in D; now rewrite E1 in D).
    destruct K as [K|K].
    + destruct (Q t Ht D0 (or_introl K)); [left; apply M; auto|right; now rewrite E2].
    + left. apply BL; auto. unfold L. rewrite union_In. tauto.
  - intros AL. destruct (B (J AL)). constructor; auto.
Qed.

(** ** The scheduler *)
Lemma next_buildable_spec o s t : next_buildable c o s = Some t ->
  In t (candidates s) /\ too_many c s t = false /\ stamp_busy (stampf c t) (bstamps s) = false.
Proof.
  unfold next_buildable. destruct (negb (Z.eqb (active s) 0) && o_pressure o); [discriminate|].
  match goal with |- fold_left ?f ?l None = _ -> _ => set (F := f) end.
  enough (K : forall l b, (forall x, b = Some x -> In x (candidates s) /\ too_many c s x = false /\ stamp_busy (stampf c x) (bstamps s) = false) ->
     (forall x, In x l -> In x (candidates s)) ->
     forall x, fold_left F l b = Some x -> In x (candidates s) /\ too_many c s x = false /\ stamp_busy (stampf c x) (bstamps s) = false).
  { apply K; auto. discriminate. }
  intros l b HB HL. apply (fold_inv (fun b => forall x, b = Some x -> In x (candidates s) /\ too_many c s x = false /\ stamp_busy (stampf c x) (bstamps s) = false)); auto.
  intros [b'|] y Hy H x; unfold F.
  - destruct (Nat.ltb (index y (prio c)) (index b' (prio c))); [|apply H].
    destruct (too_many c s y || stamp_busy (stampf c y) (bstamps s)) eqn:E; [apply H|].
    intros X. injection X as <-. apply orb_false_iff in E. destruct E. auto.
  - destruct (too_many c s y || stamp_busy (stampf c y) (bstamps s)) eqn:E; [discriminate|].
    intros X. injection X as <-. apply orb_false_iff in E. destruct E. auto.
Qed.
Lemma next_buildable_none o s : next_buildable c o s = None -> active s = 0%Z ->
  forall t, In t (candidates s) -> too_many c s t = true \/ stamp_busy (stampf c t) (bstamps s) = true.
Proof.
  unfold next_buildable. intros H A. rewrite A in H. cbn [Z.eqb negb andb] in H.
  revert H. match goal with |- fold_left ?f ?l None = _ -> _ => set (F := f) end.
  enough (K : forall l, (forall b, fold_left F l (Some b) <> None) /\
     (fold_left F l None = None -> forall t, In t l -> too_many c s t = true \/ stamp_busy (stampf c t) (bstamps s) = true)).
  { apply K. }
  induction l as [|y l [IH1 IH2]]; cbn [fold_left]; split.
  - discriminate.
  - intros _ t [].
  - intros b. unfold F at 2. destruct (Nat.ltb (index y (prio c)) (index b (prio c))); auto.
    destruct (too_many c s y || stamp_busy (stampf c y) (bstamps s)); auto.
  - unfold F at 2. destruct (too_many c s y || stamp_busy (stampf c y) (bstamps s)) eqn:E.
    + intros H t [<-|Ht]; auto. now apply orb_true_iff in E.
    + intros H. destruct (IH1 y H).
Qed.

Lemma sched_prune_Good s : Good s -> Good (set_sbuild (diff (sbuild s) (running s)) s).
Proof.
  intros (I & Q & J). split; [|split].
  - destruct I. constructor; cbn [set_sbuild buildable sbuild running complete live log sqlive sqr bstamps sccov tcov]; auto.
    + intros t. rewrite diff_In. intros [H|[H _]]; apply i_build0; auto.
    + intros t H. rewrite diff_In. destruct (in_dec Nat.eq_dec t (running s)); auto.
      destruct (i_qs0 t H); auto.
  - intros x A B C. apply Q; auto.
  - intros AL. destruct (J AL). constructor; auto.
Qed.
Lemma sched_next_spec o s x s' : sched_next c o s = (x, s') -> Good s ->
  Good s' /\ (x = None \/ s' = set_sbuild (diff (sbuild s) (running s)) s) /\
  forall t, x = Some t -> can_start c s = true /\ ~ In t (running s') /\ deps_done s' t /\
     (In t (tcov s') \/ In t (tnot s')) /\ ~ In t (holdoff s') /\ too_many c s' t = false.
Proof.
  unfold sched_next. destruct (can_start c s) eqn:CS; intros E G; injection E as <- <-.
  - pose proof (sched_prune_Good s G) as G1. split; auto. split; [auto|].
    intros t H. apply next_buildable_spec in H. destruct H as (H & TM & SB).
    unfold candidates in H. apply filter_In in H. destruct H as [H HC]. apply diff_In in H. destruct H as [H HH].
    split; auto. split; [|split; [|split; [|split]]]; auto.
    + cbn in H. apply diff_In in H. cbn. tauto.
    + destruct G1 as ([] & _). apply i_build0. auto.
    + apply orb_true_iff in HC. rewrite !mem_In in HC. auto.
  - split; auto. split; auto. discriminate.
Qed.

(** a task is handed to a worker *)
Definition started (t : nat) (s : st) : st :=
  emit (Started t) (set_live (add t (live s)) (set_running (add t (running s)) (set_active (active s + 1)%Z
    (set_bstamps (dset t (stampf c t) (bstamps s)) s)))).
Lemma started_Good t s : Good s -> ~ In t (running s) -> deps_done s t -> can_start c s = true -> too_many c s t = false ->
  Good (started t s).
Proof.
  intros (I & Q & J) NR D CS TM.
  assert (NL : ~ In t (live s)) by (intros X; destruct I; destruct (i_live0 t X); auto).
  split; [|split].
  - destruct I.
    assert (NC : ~ In t (complete s)) by auto.
    assert (NX : ~ In (Succeeded t) (log s)).
    { intros X. apply NC, i_fin0. left; auto. }
    constructor; cbn [started emit set_log set_live set_running set_active set_bstamps buildable sbuild running complete live log sqlive sqr bstamps sccov tcov]; auto.
    + intros x H. rewrite add_In. destruct (i_qs0 x H); auto.
    + intros x. rewrite add_In. intros [->|H]; auto. now apply i_run0.
    + intros x H. rewrite add_In. auto.
    + intros x. rewrite add_In, add_In. intros [->|H].
      * repeat split; auto. left; auto. intros [X|X]; [discriminate|auto].
      * destruct (i_live0 x H) as (A & B & C & G). repeat split; auto. right; auto. intros [X|X]; [discriminate|auto].
    + now apply add_NoDup.
    + intros x H. apply (finished_mono [Started t]); auto.
    + intros x [[X|X]|[[X|X]|[b [X|X]]]]; try discriminate; apply i_fin0; unfold finished; eauto.
    + cbn [ok_log]. split; auto. split.
      * intros x H. assert (x = t) as -> by (destruct H as [H|[H|[b H]]]; congruence). split.
        -- intros d Hd. apply i_done0. now apply D.
        -- intros e' H' T. apply NR. eauto.
      * intros x H; discriminate.
    + intros x e' [<-|H] T; rewrite add_In; [left; destruct T as [T|[T|[b T]]]; congruence|right; eauto].
    + intros x. rewrite !add_In. intros [->|H]; auto. destruct (i_cases0 x H) as [X|[X|X]]; auto. right; right; right; auto.
    + intros p H. rewrite add_In. apply dset_key in H. destruct H as [H|H]; auto. destruct (i_stamps0 p H); auto.
    + intros q H. apply (restored_mono [Started t]). auto.
    + intros x H. destruct (i_tcov0 x H) as (q & A & B). exists q. split; auto. apply (restored_mono [Started t]); auto.
    + intros x [H|H]; [discriminate|]. destruct (i_skip0 x H) as (q & A & B). exists q. split; auto. apply (restored_mono [Started t]); auto.
    + intros n k H1 H2. specialize (i_names0 n k H1 H2). unfold held in *.
      cbn [started emit set_log set_live set_running set_active set_bstamps running complete].
      rewrite (add_new t (running s) NR). unfold diff. cbn [filter].
      replace (mem t (complete s)) with false by (symmetry; now apply mem_false). cbn [negb filter].
      destruct (Nat.eqb_spec (tname c t) n) as [E|E]; [|exact i_names0].
      cbn [length]. fold (diff (running s) (complete s)).
      unfold too_many in TM. rewrite E, H1 in TM. apply andb_false_iff in TM.
      rewrite negb_false_iff, Nat.eqb_eq, Z.leb_gt in TM. destruct TM as [TM|TM]; lia.
  - intros x A B C. cbn. rewrite add_In. destruct (Q x A B C); auto.
  - intros AL. destruct (J AL). constructor; cbn [started emit set_log set_live set_running set_active set_bstamps active running complete live log sqlive].
    + rewrite (add_new t _ NL). cbn [length]. lia.
    + rewrite (add_new t _ NL). change (processes (Started t :: log s)) with (1 + processes (log s))%Z. cbn [length]. lia.
    + unfold can_start in CS. apply Z.ltb_lt in CS. lia.
    + intros x [H|H]; [discriminate|]. destruct (a_failed0 x H) as (A & B & C). rewrite !add_In.
      repeat split; auto. intros [->|X]; auto.
Qed.

Lemma wind_down_Good o s : Good s -> Good (wind_down c o s).
Proof.
  intros G. unfold wind_down.
  repeat match goal with
  | |- Good (if ?b then _ else _) => destruct b
  | |- Good (match ?x with [] => _ | _ :: _ => _ end) => destruct x
  end; auto using set_rst_Good, set_deferred_Good.
Qed.
Lemma run_task_Good o t s : Good s -> ~ In t (running s) -> deps_done s t -> can_start c s = true -> too_many c s t = false ->
  Good (run_task c o t s).
Proof.
  intros G NR D CS TM. unfold run_task.
  destruct (refused c o t s) eqn:R.
  { apply refused_Good; auto. unfold refused in R. destruct (allowed c); [discriminate|discriminate R]. }
  destruct (mem t (tcov s)) eqn:TC.
  { apply mem_In in TC. apply task_skip_Good; auto. }
  destruct (o_stamp o t).
  { apply set_tasksrun_Good, task_skip_Good; auto. discriminate. }
  destruct (noexec c t); [now apply noexec_Good|].
  pose proof (started_Good t s G NR D CS TM) as K.
  change (emit (Started t) _) with (started t s).
  destruct (can_start c (started t s)); auto using wind_down_Good.
Qed.
Lemma normal_part_Good o s : Good s -> Good (normal_part c o s).
Proof.
  intros G. unfold normal_part. destruct (sceneonly c); [now apply wind_down_Good|].
  destruct (sched_next c o s) as [x s1] eqn:E. destruct (sched_next_spec o s x s1 E G) as (G1 & H1 & H2).
  destruct x as [t|]; [|now apply wind_down_Good].
  destruct (H2 t eq_refl) as (CS & NR & D & _ & _ & TM).
  apply run_task_Good; auto.
  destruct H1 as [H1|H1]; [discriminate|]. subst s1. exact CS.
Qed.
Lemma after_scene_Good o s : Good s -> Good (after_scene c o s).
Proof.
  intros G. unfold after_scene. apply update_holdoff_Good in G. revert G. generalize (update_holdoff c s). intros s1 G.
  match goal with |- Good (if ?b then _ else _) => destruct b end; [|now apply normal_part_Good].
  destruct (scene_errors c o s1); [now apply set_rst_Good|].
  destruct (sceneonly c); [now apply set_rst_Good|].
  destruct (is_nil (tasks c)); [now apply set_rst_Good, set_sqdone_Good|].
  now apply normal_part_Good, set_sqdone_Good.
Qed.

(** ** The setscene part *)
Record core_eq (s s' : st) : Prop := { ce_active : active s' = active s; ce_sqlive : sqlive s' = sqlive s }.
Lemma scan_Good o l s : Good s ->
  match scan c o l s with
  | Return s' => Good s'
  | Go x s' => Good s' /\ core_eq s s' /\ forall t, x = Some t -> ~ In t (sqr s')
  end.
Proof.
  revert s. induction l as [|t l IH]; intros s G; cbn [scan].
  { split; auto. split; [split; auto|discriminate]. }
  match goal with |- context [if ?b then _ else scan c o l s] => destruct b eqn:E end; [|apply IH; auto].
  apply andb_true_iff in E. destruct E as [E _]. apply andb_true_iff in E. destruct E as [E _].
  apply andb_true_iff in E. destruct E as [_ E]. apply negb_true_iff, mem_false in E.
  assert (FO : forall s, Good s -> Good (failoutright c (sq_fuel c) o t s)).
  { intros. eapply frame_Good; [apply failoutright_frame|auto]. }
  match goal with |- context [if ?b then Return _ else _] => destruct b end.
  { assert (G1 : Good (sq_skip c t s)) by (eapply frame_Good; [apply sq_skip_frame|auto]).
    revert G1. generalize (sq_skip c t s). intros s1 G1.
    apply set_deferred_Good. eapply weak_Good; [|exact G1]. wk. }
  destruct (negb (forallb (processed s) (hardrev c t))).
  { match goal with |- context [is_nil ?n] => set (new := n) end.
    match goal with |- context [set_harddef ?a ?b] => set (s1 := set_harddef a b) end.
    assert (G1 : Good s1) by (eapply weak_Good; [|exact G]; unfold s1; wk).
    destruct (is_nil new); auto. specialize (IH s1 G1). destruct (scan c o l s1); auto.
    destruct IH as (A & [B1 B2] & D). split; auto. split; [split; auto|auto]. }
  destruct (dget t (deferred s)).
  - destruct (negb (mem n (complete s))); [apply IH; auto|].
    set (s1 := set_deferred (ddel t (deferred s)) s).
    assert (G1 : Good s1) by (now apply set_deferred_Good).
    destruct (negb (o_valid o t)); auto. destruct (mem t (outright s1)); auto.
    split; auto. split; [split; auto|]. intros x X. injection X as <-. exact E.
  - destruct (mem t (outright s)); auto. split; auto. split; [split; auto|]. intros x X. injection X as <-. exact E.
Qed.

Definition scene_started (t : nat) (s : st) : st :=
  emit (SceneStarted t) (set_sqlive (add t (sqlive s)) (set_sqr (add t (sqr s))
    (set_bstamps (dset t (stampq c t) (bstamps s)) s))).
Lemma scene_started_Good t s : Good s -> ~ In t (sqr s) -> can_start c s = true -> Good (scene_started t s).
Proof.
  intros (I & Q & J) NR CS.
  assert (NL : ~ In t (sqlive s)) by (intros X; destruct I; apply NR; auto).
  assert (NU : forall x, ~ takes_up x (SceneStarted t)) by (intros x [H|[H|[b H]]]; discriminate).
  split; [|split].
  - destruct I.
    constructor; cbn [scene_started emit set_log set_sqlive set_sqr set_bstamps buildable sbuild running complete live log sqlive sqr bstamps sccov tcov]; auto.
    + intros x H. destruct (i_live0 x H) as (A & B & C & G). repeat split; auto. right; auto. intros [X|X]; [discriminate|auto].
    + intros x H. apply (finished_mono [SceneStarted t]); auto.
    + intros x [[X|X]|[[X|X]|[b [X|X]]]]; try discriminate; apply i_fin0; unfold finished; eauto.
    + cbn [ok_log]. split; auto. split; [intros x H; destruct (NU x H)|discriminate].
    + intros x e' [<-|H] T; [destruct (NU x T)|eauto].
    + intros x H. destruct (i_cases0 x H) as [X|[X|X]]; auto. right; right; right; auto.
    + now apply add_NoDup.
    + intros x. rewrite !add_In. intros [->|H]; auto.
    + intros p H. rewrite add_In. apply dset_key in H. destruct H as [H|H]; auto. destruct (i_stamps0 p H); auto.
    + intros q H. apply (restored_mono [SceneStarted t]). auto.
    + intros x H. destruct (i_tcov0 x H) as (q & A & B). exists q. split; auto. apply (restored_mono [SceneStarted t]); auto.
    + intros x [H|H]; [discriminate|]. destruct (i_skip0 x H) as (q & A & B). exists q. split; auto. apply (restored_mono [SceneStarted t]); auto.
  - intros x A B C. apply Q; auto.
  - intros AL. destruct (J AL). constructor; cbn [scene_started emit set_log set_sqlive set_sqr set_bstamps active running complete live log sqlive]; auto.
    + rewrite (add_new t _ NL). change (processes (SceneStarted t :: log s)) with (1 + processes (log s))%Z. cbn [length]. lia.
    + rewrite (add_new t _ NL). cbn [length]. unfold can_start in CS. apply Z.ltb_lt in CS. lia.
    + intros x [H|H]; [discriminate|]. auto.
Qed.
Lemma scene_start_Good o t s s' b : scene_start c o t s = (s', b) -> Good s -> ~ In t (sqr s) -> can_start c s = true -> Good s'.
Proof.
  intros E G NR CS. unfold scene_start in E.
  assert (FO : Good (failoutright c (sq_fuel c) o t s)) by (eapply frame_Good; [apply failoutright_frame|auto]).
  destruct (o_stamprec o t); [injection E as <- <-; auto|].
  destruct (force c && mem t (targets c)); [injection E as <- <-; auto|].
  destruct (o_scstamp o t). { injection E as <- <-. eapply frame_Good; [apply sq_skip_frame|auto]. }
  destruct (skipscene c); [injection E as <- <-; auto|].
  injection E as <- <-. now apply scene_started_Good.
Qed.
Lemma execute_Good o s : Good s -> Good (execute c o s).
Proof.
  intros G. unfold execute. destruct (negb (sqdone s) && can_start c s) eqn:E; [|now apply after_scene_Good].
  apply andb_true_iff in E. destruct E as [_ CS].
  pose proof (scan_Good o (scene c) s G) as H. destruct (scan c o (scene c) s) as [s'|[t|] s']; auto.
  - destruct H as (G1 & [B1 B2] & N). destruct (scene_start c o t s') as [s2 b] eqn:SS.
    assert (G2 : Good s2).
    { eapply scene_start_Good; eauto. unfold can_start in *. now rewrite B1, B2. }
    destruct b; auto. now apply after_scene_Good.
  - apply after_scene_Good. tauto.
Qed.

(** ** Migrations *)
Lemma migrate_one_Good o t s : Good s ->
  match migrate_one c o t s with inl (s', _) => Good s' | inr s' => Good s' end.
Proof.
  intros G. unfold migrate_one.
  destruct (mem t (running s) || mem t (sqlive s)) eqn:E. { eapply weak_Good; [|exact G]. wk. }
  apply orb_false_iff in E. destruct E as [_ E]. apply mem_false in E.
  destruct (existsb _ (coveredby c t)); [exact G|].
  match goal with |- context [if ?b then inr _ else _] => destruct b end.
  - eapply weak_Good; [|exact G]. wk.
  - eapply weak_Good; [|exact G]. wk.
    + intros p H. apply ddel_In in H. tauto.
    + intros x H1 H2. apply del_In. split; auto. congruence.
    + intros x H. apply (del_In x t) in H. tauto.
Qed.
Lemma migrate_loop_Good o l s u : Good s ->
  match migrate_loop c o l s u with inl (s', _) => Good s' | inr s' => Good s' end.
Proof.
  revert s u. induction l as [|t l IH]; intros s u G; cbn [migrate_loop]; auto.
  pose proof (migrate_one_Good o t s G) as H. destruct (migrate_one c o t s) as [[s' [|]]|s']; [apply IH|apply IH|]; exact H.
Qed.
Lemma migrations_Good o ch s : Good s -> Good (migrations c o ch s).
Proof.
  intros G. unfold migrations.
  match goal with |- context [migrate_loop c o ?l ?x ?u] => pose proof (migrate_loop_Good o l x u) as H end.
  match type of H with _ -> match ?m with _ => _ end => destruct m as [[s1 u]|s1] end.
  2:{ apply H. eapply weak_Good; [|exact G]. wk. }
  assert (G1 : Good s1) by (apply H; eapply weak_Good; [|exact G]; wk). clear H G s.
  unfold migrate_tail.
  match goal with |- context [fold_left ?f u (s1, [])] => set (F := f) end.
  assert (K : Good (fst (fold_left F u (s1, [])))).
  { apply (fold_inv (fun a => Good (fst a))); auto. intros [a acc] t _ G2. unfold F. cbn [fst] in *.
    set (hf := existsb _ (hardrev c t)).
    set (a1 := if negb hf && forallb (processed a) (sqrev c t) then set_sqb (add t (sqb a)) a else a).
    assert (G3 : Good a1).
    { unfold a1. destruct (negb hf && forallb (processed a) (sqrev c t)); auto. eapply weak_Good; [|exact G2]. wk. }
    destruct (is_nil (sqrev c t)); auto. eapply weak_Good; [|exact G3]. wk. }
  destruct (fold_left F u (s1, [])) as [s2 u2]. cbn [fst] in K.
  match goal with |- context [fold_left ?f u2 ?x] => set (s3 := x); set (F2 := f) end.
  assert (G3 : Good s3).
  { unfold s3. destruct (is_nil u2); auto. eapply frame_Good; [apply update_scene_data_frame|].
    apply (fold_inv Good); [now apply set_sqdone_Good|]. intros a t _ G4. destruct (o_defer o t); auto. now apply set_deferred_Good. }
  assert (G4 : Good (fold_left F2 u2 s3)).
  { apply (fold_inv Good); auto. intros a [t hf] _ G4. unfold F2. destruct hf; auto. eapply frame_Good; [apply failoutright_frame|auto]. }
  match goal with |- Good (if ?b then _ else _) => destruct b end; auto.
  eapply weak_Good; [|exact G4]. wk.
Qed.
Lemma finish_Good s : Good s -> Good (finish s).
Proof.
  intros G. unfold finish. cbn [active sqlive failed set_rst].
  repeat match goal with |- Good (if ?b then _ else _) => destruct b end; auto using set_rst_Good.
Qed.

(** ** The start *)
Lemma blank_Inv : Inv (blank c).
Proof.
  constructor; cbn; try tauto; try (intros; constructor).
  - intros t [[]|[[]|[b []]]].
  - intros n k _ H. unfold held. cbn. lia.
Qed.
Lemma blank_InvA : (0 <= threads c)%Z -> InvA (blank c).
Proof. intros T. constructor; cbn; auto; lia || tauto. Qed.
Lemma nodeps_mark (l : list nat) s : Inv s ->
  let s' := fold_left (fun s t => if is_nil (depends c t) then setbuildable t s else s) l s in
  Inv s' /\ marks s s' /\ (InvA s -> InvA s') /\ (forall t, In t l -> depends c t = [] -> In t (buildable s')).
Proof.
  intros I s'. unfold s'.
  match goal with |- context [fold_left ?f l s] => set (F := f) end.
  destruct (mark_fold F l s) as (A & B & D); auto.
  { intros a t _ _. unfold F. destruct (is_nil (depends c t)) eqn:E; auto.
    right. split; auto. intros d. apply is_nil_true in E. rewrite E. intros []. }
  split; [|split; [|split]]; auto.
  intros t Ht D0.
  assert (G : forall l a, In t l \/ In t (buildable a) -> In t (buildable (fold_left F l a))).
  { clear - D0. induction l as [|x l IH]; intros a H; cbn [fold_left]; [destruct H as [[]|H]; auto|]. apply IH.
    unfold F. destruct H as [[->|H]|H]; auto.
    - right. rewrite D0. cbn. rewrite add_In. auto.
    - right. destruct (is_nil (depends c x)); auto. cbn. rewrite add_In. auto. }
  apply G; auto.
Qed.
Lemma init_Good o : (0 <= threads c)%Z -> Good (init c o).
Proof.
  intros T. unfold init.
  set (s1 := fold_left _ (diff (unskippable c) (scene c)) (blank c)).
  destruct (nodeps_mark (diff (unskippable c) (scene c)) (blank c) blank_Inv) as (A & M & B & _).
  fold s1 in A, M, B. specialize (B (blank_InvA T)).
  destruct (marks_eq _ _ M) as (E1 & E2 & E3 & E4 & E5 & E6 & E7 & _).
  assert (Q : Q2 s1).
  { intros t Ht D [K|K].
    - destruct (depends c t) as [|d l] eqn:E; [congruence|]. exfalso. specialize (D d). rewrite E, E1 in D. apply D. left; auto.
    - rewrite E3, E4 in K. destruct K as [[]|[]]. }
  match goal with |- context [update_scene_data c o (scene c) ?x] => set (s2 := x) end.
  assert (G2 : Good s2).
  { eapply weak_Good with (s := s1); [unfold s2; wk|]. split; [|split]; auto. }
  pose proof (frame_Good _ _ (proj1 (update_scene_data_frame o (scene c) s2)) G2) as G3.
  revert G3. generalize (update_scene_data c o (scene c) s2). intros s3 G3.
  destruct (is_nil (scene c)); auto.
  destruct G3 as (I3 & Q3 & J3).
  destruct (nodeps_mark (tasks c) s3 I3) as (A3 & M3 & B3 & L3).
  set (s4 := fold_left _ (tasks c) s3) in *.
  destruct (marks_eq _ _ M3) as (F1 & F2 & F3 & F4 & _).
  apply set_sqdone_Good. split; [|split].
  - destruct A3. constructor; auto.
  - intros t Ht D K. cbn [set_tnot tcov tnot buildable running] in *.
    destruct (depends c t) as [|d l] eqn:E; [left; apply L3; auto|].
    destruct (Q3 t Ht) as [H|H].
    + intros x Hx. specialize (D x Hx). cbn in D. now rewrite F1 in D.
    + left. rewrite E. discriminate.
    + left. now apply M3.
    + right. now rewrite F2.
  - intros AL. destruct (B3 (J3 AL)). constructor; auto.
Qed.
Lemma step_Good e s : Good s -> Good (step c e s).
Proof.
  intros G. destruct e as [t ok o|o|ch o|]; cbn [step].
  - destruct (mem t (sqlive s) || mem t (live s)) eqn:E; auto.
    apply orb_true_iff in E. rewrite !mem_In in E.
    destruct (rst s); auto using waitpid_Good.
  - destruct (rst s); auto using execute_Good, finish_Good.
  - destruct (rst s); auto using migrations_Good.
  - destruct (rst s); auto using finish_Good.
Qed.
Theorem run_Good o es : (0 <= threads c)%Z -> Good (run c o es).
Proof. intros T. unfold run. apply (fold_inv Good); auto using init_Good, step_Good. Qed.

(** ** The end of the setscene phase *)
Definition TC (s : st) : Prop := needupd s = false -> tcov s = covered_of c s /\ tnot s = notcovered_of c s.
Record SQ (s : st) : Prop := {
  q_def : deferred s = [];
  q_live : sqlive s = [];
  q_proc : forall t, In t (scene c) -> processed s t = true;
  q_cover : forall t, In t (tasks c) -> In t (covered_of c s) \/ In t (notcovered_of c s);
  q_hold : needupd s = false -> holdoff s = []
}.
Definition SD (s : st) : Prop := rst s = Running -> TC s /\ (sqdone s = true -> SQ s).

(** states that agree on everything the setscene bookkeeping reads *)
Record quiet (s s' : st) : Prop := {
  k_tcov : tcov s' = tcov s; k_tnot : tnot s' = tnot s; k_holdoff : holdoff s' = holdoff s;
  k_sccov : sccov s' = sccov s; k_scnot : scnot s' = scnot s; k_tsdone : tsdone s' = tsdone s;
  k_needupd : needupd s' = needupd s \/ needupd s' = true;
  k_sqdone : sqdone s' = sqdone s; k_deferred : deferred s' = deferred s; k_sqlive : sqlive s' = sqlive s;
  k_rst : rst s' = Running -> rst s = Running
}.
Lemma quiet_refl s : quiet s s.
Proof. constructor; auto. Qed.
Lemma covered_eq s s' : sccov s' = sccov s -> scnot s' = scnot s -> tsdone s' = tsdone s ->
  covered_of c s' = covered_of c s /\ notcovered_of c s' = notcovered_of c s /\ forall t, processed s' t = processed s t.
Proof.
  intros A B D. unfold covered_of, notcovered_of, processed. rewrite A, B, D. auto.
Qed.
Lemma quiet_SD s s' : quiet s s' -> SD s -> SD s'.
Proof.
  intros [] H R. destruct (H (k_rst0 R)) as [T Q].
  destruct (covered_eq s s' k_sccov0 k_scnot0 k_tsdone0) as (A & B & D). split.
  - intros N. rewrite k_tcov0, k_tnot0, A, B. apply T. destruct k_needupd0; congruence.
  - intros S. rewrite k_sqdone0 in S. destruct (Q S). constructor; try congruence.
    + intros t Ht. rewrite D. auto.
    + intros t Ht. rewrite A, B. auto.
    + intros N. rewrite k_holdoff0. apply q_hold0. destruct k_needupd0; congruence.
Qed.
(** changes while the setscene phase is on *)
Lemma open_SD s s' : frame s s' -> upd s s' -> sqdone s = false -> SD s -> SD s'.
Proof.
  intros [] U S H R. destruct (H ltac:(congruence)) as [T _]. split; [|congruence].
  intros N. destruct U as [U|(U & A & B & D)]; [congruence|].
  destruct (covered_eq s s' A B D) as (E1 & E2 & _). rewrite f_tcov0, f_tnot0, E1, E2. apply T. congruence.
Qed.
Lemma undefer_nil o t s : deferred s = [] -> undefer c o t s = s.
Proof.
  intros E. unfold undefer.
  match goal with |- snd (fold_left ?f ?l ?a) = s => set (F := f) end.
  enough (K : forall l, fold_left F l (None, s) = (None, s)) by now rewrite K.
  induction l as [|x l IH]; cbn [fold_left]; auto.
  unfold F at 2. rewrite E. cbn [dget find]. apply IH.
Qed.
Lemma undefer_SD o t s : SD s -> SD (undefer c o t s).
Proof.
  intros H. destruct (sqdone s) eqn:E.
  - intros R. rewrite (f_rst _ _ (proj1 (undefer_frame o t s))) in R. destruct (H R) as [T Q].
    specialize (Q E). rewrite undefer_nil by apply Q. split; auto.
  - destruct (undefer_frame o t s). eapply open_SD; eauto.
Qed.
Lemma marks_quiet s s' : marks s s' -> quiet s s'.
Proof.
  intros M. destruct (marks_eq _ _ M) as (E1 & E2 & E3 & E4 & E5 & E6 & E7 & E8 & E9 & E10 & E11 & E12 & E13 & E14 & E15 & E16 & E17 & E18 & E19 & E20).
  constructor; auto. congruence.
Qed.
Ltac qt := constructor; cbn; auto.
Lemma completeoutright_SD o t s : SD s -> SD (completeoutright c o t s).
Proof.
  intros H. rewrite completeoutright_eq. apply undefer_SD.
  apply (quiet_SD s); auto. unfold wake.
  set (s1 := set_complete (add t (complete s)) s).
  assert (K : quiet s s1) by (unfold s1; qt).
  generalize (revdeps c t). intros l. apply (fold_inv (fun a => quiet s a)); auto.
  intros a r _ [].
  destruct (mem r (running a)); [constructor; auto|]. destruct (mem r (buildable a)); [constructor; auto|].
  destruct (subset (depends c r) (complete a)); [|constructor; auto].
  constructor; cbn; auto.
Qed.
Lemma waitpid_SD o t ok s : SD s -> In t (sqlive s) \/ In t (live s) -> SD (waitpid c o t ok s).
Proof.
  intros H L. unfold waitpid. cbn [sqlive set_bstamps live].
  destruct (mem t (sqlive s)) eqn:M.
  - apply mem_In in M.
    assert (NQ : rst s = Running -> sqdone s = false).
    { intros R. destruct (sqdone s) eqn:E; auto. destruct (H R) as [_ Q]. destruct (Q E). rewrite q_live0 in M. destruct M. }
    destruct ok.
    + unfold sq_complete, sq_completeoutright.
      match goal with |- context [counters_tail c t ?x] => pose proof (counters_tail_frame t x) as F end.
      intros R. cbn [rst set_sqlive] in R. rewrite (f_rst _ _ F) in R. cbn in R.
      split; [intros N; discriminate|]. cbn [sqdone set_sqlive]. rewrite (f_sqdone _ _ F). cbn. rewrite NQ; auto. discriminate.
    + unfold sq_fail.
      set (s1 := emit (SceneFailed t) (set_scnot (add t (scnot (set_bstamps (ddel t (bstamps s)) s))) (set_bstamps (ddel t (bstamps s)) s))).
      change (fold_left _ (harddeps c t) s1) with (hard_fail o t s1).
      assert (F : frame s1 (counters_tail c t (hard_fail o t s1))).
      { eapply frame_trans; [apply hard_fail_frame|apply counters_tail_frame]. }
      assert (N : needupd (counters_tail c t (hard_fail o t s1)) = true) by reflexivity.
      revert F N. generalize (counters_tail c t (hard_fail o t s1)). intros s2 F N.
      assert (K : rst s2 = Running -> sqdone s2 = false).
      { rewrite (f_rst _ _ F), (f_sqdone _ _ F). exact NQ. }
      destruct (allowed c) as [okf|]; [destruct (okf t)|]; intros R; cbn in R; try discriminate;
        (split; [intros X; cbn in X; congruence | cbn; rewrite K; auto; discriminate]).
  - destruct ok.
    + unfold task_complete. eapply quiet_SD with (s := completeoutright c o t _); [qt|].
      apply completeoutright_SD. apply (quiet_SD s); auto. qt.
    + unfold task_fail. apply (quiet_SD s); auto. destruct (halt c); qt. discriminate.
Qed.

Lemma holdoff_of_nil s : (forall t, In t (scene c) -> processed s t = true) -> holdoff_of c s = [].
Proof.
  intros H. unfold holdoff_of.
  replace (filter (fun t => negb (processed s t)) (scene c)) with (@nil nat); auto.
  symmetry. apply incl_l_nil. intros t Ht. apply filter_In in Ht. destruct Ht as [A B]. rewrite (H t A) in B. discriminate.
Qed.
Lemma update_holdoff_SD s : SD s -> SD (update_holdoff c s) /\ needupd (update_holdoff c s) = false
  /\ rst (update_holdoff c s) = rst s /\ sqdone (update_holdoff c s) = sqdone s.
Proof.
  intros H. unfold update_holdoff. destruct (needupd s) eqn:NU; cbn [negb]; [|auto].
  set (nc := notcovered_of c s). set (cv := covered_of c s).
  match goal with |- context [fold_left ?f ?l s] => set (F := f); set (L := l) end.
  assert (M : marks s (fold_left F L s)).
  { apply (fold_inv (fun a => marks s a)); auto using marks_refl. intros a t _ Ma. unfold F.
    destruct (subset (depends c t) (complete a)); auto. eapply marks_trans; eauto using marks_set. }
  destruct (marks_eq _ _ M) as (E1 & E2 & E3 & E4 & E5 & E6 & E7 & E8 & E9 & E10 & E11 & E12 & E13 & E14 & E15 & E16 & E17 & E18 & E19 & E20).
  set (s1 := fold_left F L s) in *.
  destruct (covered_eq s s1 E12 E13 E14) as (A & B & D).
  split; [|cbn; auto]. intros R. cbn in R. destruct (H ltac:(congruence)) as [_ Q]. split.
  - intros _. cbn [tcov tnot set_needupd set_holdoff set_tnot set_tcov]. unfold cv, nc. rewrite <- A, <- B. split; reflexivity.
  - cbn [sqdone set_needupd set_holdoff set_tnot set_tcov]. rewrite E16. intros S. destruct (Q S).
    assert (PR : forall t, In t (scene c) -> processed s1 t = true) by (intros; rewrite D; auto).
    constructor; cbn [deferred sqlive set_needupd set_holdoff set_tnot set_tcov needupd holdoff].
    + congruence.
    + congruence.
    + exact PR.
    + intros t Ht. change (In t (covered_of c s1) \/ In t (notcovered_of c s1)). rewrite A, B. auto.
    + intros _. apply holdoff_of_nil. exact PR.
Qed.

Lemma task_skip_SD o t b s : SD s -> SD (task_skip c o t b s).
Proof. intros H. unfold task_skip. apply completeoutright_SD. apply (quiet_SD s); auto. qt. Qed.
Lemma noexec_SD o t s : SD s ->
  SD (task_complete c o t (emit (Noexec t) (set_active (active s + 1)%Z (set_running (add t (running s)) s)))).
Proof.
  intros H. unfold task_complete. eapply quiet_SD with (s := completeoutright c o t _); [qt|].
  apply completeoutright_SD. apply (quiet_SD s); auto. qt.
Qed.
Lemma wind_down_SD o s : SD s -> SD (wind_down c o s).
Proof.
  intros H. unfold wind_down. destruct (Z.ltb 0 (active s) || negb (is_nil (sqlive s))); auto.
  destruct (deferred s) as [|p rest] eqn:E.
  - repeat match goal with |- SD (if ?b then _ else _) => destruct b end; intros R; discriminate.
  - intros R. cbn in R. destruct (H R) as [T Q]. split; auto. intros S. destruct (Q S). congruence.
Qed.
Lemma run_task_SD o t s : SD s -> SD (run_task c o t s).
Proof.
  intros H. unfold run_task.
  destruct (refused c o t s).
  { unfold task_fail. apply (quiet_SD s); auto. destruct (halt c); qt. discriminate. }
  destruct (mem t (tcov s)); [now apply task_skip_SD|].
  destruct (o_stamp o t). { eapply quiet_SD with (s := task_skip c o t false s); [qt|now apply task_skip_SD]. }
  destruct (noexec c t); [now apply noexec_SD|].
  match goal with |- SD (if can_start c ?x then _ else _) => set (s1 := x) end.
  assert (K : SD s1) by (apply (quiet_SD s); auto; unfold s1; qt).
  destruct (can_start c s1); auto using wind_down_SD.
Qed.
Lemma normal_part_SD o s : SD s -> SD (normal_part c o s).
Proof.
  intros H. unfold normal_part. destruct (sceneonly c); [now apply wind_down_SD|].
  destruct (sched_next c o s) as [x s1] eqn:E.
  assert (K : SD s1).
  { unfold sched_next in E. destruct (can_start c s); injection E as <- <-; auto. apply (quiet_SD s); auto. qt. }
  destruct x; auto using run_task_SD, wind_down_SD.
Qed.
(** the state in which the scheduler is asked, when the setscene phase is over *)
Lemma after_scene_SD o s : SD s -> SD (after_scene c o s).
Proof.
  intros H. unfold after_scene. destruct (update_holdoff_SD s H) as (A & N & _ & _).
  revert A N. generalize (update_holdoff c s). intros s1 A N.
  match goal with |- SD (if ?b then _ else _) => destruct b eqn:E end; [|now apply normal_part_SD].
  destruct (scene_errors c o s1) eqn:SE; [intros R; discriminate|].
  destruct (sceneonly c); [intros R; discriminate|].
  destruct (is_nil (tasks c)); [intros R; discriminate|].
  apply normal_part_SD. intros R. cbn in R. destruct (A R) as [T _]. split; [exact T|]. intros _.
  rewrite !andb_true_iff in E. destruct E as ((((E1 & E2) & E3) & E4) & E5).
  unfold scene_errors in SE. rewrite !orb_false_iff in SE. destruct SE as ((((S1 & S2) & S3) & S4) & S5).
  rewrite negb_false_iff, forallb_forall in S4, S5. apply is_nil_true in E1, E3, E5.
  destruct (T N) as [T1 T2].
  constructor; auto.
  - intros t Ht. specialize (S4 t Ht). rewrite !andb_true_iff in S4. tauto.
  - intros t Ht. specialize (S5 t Ht). rewrite !andb_true_iff, orb_true_iff, !mem_In in S5.
    change (In t (covered_of c s1) \/ In t (notcovered_of c s1)). rewrite <- T1, <- T2. tauto.
Qed.
Lemma scan_SD o l s : SD s -> sqdone s = false ->
  match scan c o l s with Return s' => SD s' | Go _ s' => SD s' /\ sqdone s' = false /\ rst s' = rst s end
  /\ match scan c o l s with Return s' => rst s' = rst s | Go _ _ => True end.
Proof.
  revert s. induction l as [|t l IH]; intros s H S; cbn [scan]; [auto|].
  match goal with |- context [if ?b then _ else scan c o l s] => destruct b end; [|apply IH; auto].
  assert (FO : forall s, SD s -> sqdone s = false -> SD (failoutright c (sq_fuel c) o t s) /\ rst (failoutright c (sq_fuel c) o t s) = rst s).
  { intros a Ha Sa. pose proof (failoutright_frame (sq_fuel c) o t a) as F. split; [|apply F].
    eapply open_SD; eauto. apply failoutright_upd. }
  match goal with |- context [if ?b then Return _ else _] => destruct b end.
  { pose proof (sq_skip_frame t s) as F. pose proof (sq_skip_upd t s s) as U.
    revert F U. generalize (sq_skip c t s). intros s1 F U.
    assert (S1 : sqdone s1 = false) by (rewrite (f_sqdone _ _ F); auto).
    pose proof (open_SD s s1 F U S H) as H1. split; [|cbn; apply F].
    intros R. cbn in R. destruct (H1 R) as [T Q]. split; [exact T|]. cbn. congruence. }
  destruct (negb (forallb (processed s) (hardrev c t))).
  { match goal with |- context [is_nil ?n] => set (new := n) end.
    match goal with |- context [set_harddef ?a ?b] => set (s1 := set_harddef a b) end.
    assert (G1 : SD s1) by (apply (quiet_SD s); auto; unfold s1; qt).
    destruct (is_nil new); [|auto].
    destruct (IH s1 G1 S) as [IH1 IH2]. destruct (scan c o l s1); auto. }
  destruct (dget t (deferred s)).
  - destruct (negb (mem n (complete s))); [apply IH; auto|].
    set (s1 := set_deferred (ddel t (deferred s)) s).
    assert (G1 : SD s1).
    { intros R. destruct (H R) as [T Q]. split; [exact T|]. unfold s1. cbn. congruence. }
    destruct (negb (o_valid o t)); [apply (FO s1 G1 S)|]. destruct (mem t (outright s1)); [apply (FO s1 G1 S)|]. auto.
  - destruct (mem t (outright s)); [apply (FO s H S)|]. auto.
Qed.
Lemma scene_start_SD o t s s' b : scene_start c o t s = (s', b) -> SD s -> sqdone s = false -> SD s' /\ rst s' = rst s.
Proof.
  intros E H S. unfold scene_start in E.
  assert (FO : SD (failoutright c (sq_fuel c) o t s) /\ rst (failoutright c (sq_fuel c) o t s) = rst s).
  { pose proof (failoutright_frame (sq_fuel c) o t s) as F. split; [|apply F].
    eapply open_SD; eauto. apply failoutright_upd. }
  destruct (o_stamprec o t); [injection E as <- <-; auto|].
  destruct (force c && mem t (targets c)); [injection E as <- <-; auto|].
  destruct (o_scstamp o t).
  { injection E as <- <-. pose proof (sq_skip_frame t s) as F. split; [|apply F]. eapply open_SD; eauto. apply sq_skip_upd. }
  destruct (skipscene c); [injection E as <- <-; auto|].
  injection E as <- <-. split; auto. intros R. cbn in R. destruct (H R) as [T Q]. split; [exact T|]. cbn. congruence.
Qed.
Lemma execute_SD o s : SD s -> SD (execute c o s).
Proof.
  intros H. unfold execute. destruct (negb (sqdone s) && can_start c s) eqn:E; [|now apply after_scene_SD].
  apply andb_true_iff in E. destruct E as [S _]. apply negb_true_iff in S.
  destruct (scan_SD o (scene c) s H S) as [K _]. destruct (scan c o (scene c) s) as [s'|[t|] s']; auto.
  - destruct K as (G1 & S1 & R1). destruct (scene_start c o t s') as [s2 b] eqn:SS.
    destruct (scene_start_SD o t s' s2 b SS G1 S1) as [G2 _]. destruct b; auto. now apply after_scene_SD.
  - apply after_scene_SD. tauto.
Qed.
Lemma migrate_one_quiet o t s : match migrate_one c o t s with
  | inl (s', true) => sqdone s' = sqdone s
  | inl (s', false) => quiet s s'
  | inr s' => rst s' = CleanUp
  end.
Proof.
  unfold migrate_one. destruct (mem t (running s) || mem t (sqlive s)); [qt|].
  destruct (existsb _ (coveredby c t)); [qt|].
  match goal with |- context [if ?b then inr _ else _] => destruct b end; reflexivity.
Qed.
Lemma quiet_trans a b d : quiet a b -> quiet b d -> quiet a d.
Proof.
  intros [] []. constructor; try congruence; auto.
  destruct k_needupd0, k_needupd1; [left|right|right|right]; congruence.
Qed.
Lemma migrate_loop_quiet o l s u : match migrate_loop c o l s u with
  | inl (s', []) => u = [] /\ quiet s s'
  | inl (s', _) => True
  | inr s' => rst s' = CleanUp
  end.
Proof.
  revert s u. induction l as [|t l IH]; intros s u; cbn [migrate_loop].
  - destruct u; auto using quiet_refl.
  - pose proof (migrate_one_quiet o t s) as H. destruct (migrate_one c o t s) as [[s' [|]]|s']; auto.
    + specialize (IH s' (u ++ [t])). destruct (migrate_loop c o l s' (u ++ [t])) as [[s2 [|]]|s2]; auto.
      destruct IH as [X _]. destruct u; discriminate.
    + specialize (IH s' u). destruct (migrate_loop c o l s' u) as [[s2 [|]]|s2]; auto.
      destruct IH as [X Y]. split; auto. eapply quiet_trans; eauto.
Qed.
Lemma migrations_SD o ch s : SD s -> SD (migrations c o ch s).
Proof.
  intros H. unfold migrations.
  match goal with |- context [migrate_loop c o ?l ?x ?u] => pose proof (migrate_loop_quiet o l x u) as K; set (s0 := x) in * end.
  assert (H0 : SD s0) by (apply (quiet_SD s); auto; unfold s0; qt).
  match type of K with match ?m with _ => _ end => destruct m as [[s1 u]|s1] end.
  2:{ intros R. congruence. }
  unfold migrate_tail. destruct u as [|t u].
  - destruct K as [_ K]. cbn [fold_left is_nil negb]. pose proof (quiet_SD s0 s1 K H0) as H1.
    destruct (negb (is_nil ch) || false); auto. apply (quiet_SD s1); auto. qt.
  - clear K H0.
    match goal with |- context [fold_left ?f (t :: u) (s1, [])] => set (F := f) end.
    assert (NE : exists p q, snd (fold_left F (t :: u) (s1, [])) = p :: q).
    { assert (G : forall l a, snd a <> [] \/ l <> [] -> snd (fold_left F l a) <> []).
      { induction l as [|x l IH]; intros a Ha; cbn [fold_left]; [destruct Ha as [Ha|Ha]; congruence|].
        apply IH. left. unfold F. destruct a as [a1 acc]. cbn [snd]. destruct acc; discriminate. }
      specialize (G (t :: u) (s1, []) ltac:(right; discriminate)).
      destruct (snd (fold_left F (t :: u) (s1, []))) as [|p q]; [congruence|eauto]. }
    destruct (fold_left F (t :: u) (s1, [])) as [s2 u2]. cbn [snd] in NE. destruct NE as (p & q & ->).
    cbn [is_nil negb]. rewrite orb_true_r.
    match goal with |- context [fold_left ?f (p :: q) ?x] => set (s3 := x); set (F2 := f) end.
    assert (S3 : sqdone s3 = false).
    { unfold s3. rewrite (f_sqdone _ _ (proj1 (update_scene_data_frame _ _ _))).
      apply (fold_inv (fun a => sqdone a = false)); auto. intros a x _ Ha. destruct (o_defer o x); auto. }
    assert (S4 : sqdone (fold_left F2 (p :: q) s3) = false).
    { apply (fold_inv (fun a => sqdone a = false)); auto. intros a [x hf] _ Ha. unfold F2. destruct hf; auto.
      rewrite (f_sqdone _ _ (failoutright_frame _ _ _ _)). auto. }
    intros R. split; [intros X; discriminate|]. cbn [sqdone set_needupd set_harddef set_needhard]. congruence.
Qed.

(** ** With no setscene tasks everything is unskippable *)
Lemma round_mono u x : In x u -> In x (unskippable_round c u).
Proof.
  intros H. unfold unskippable_round. apply (fold_inv (fun a => In x a)); auto.
  intros a t _ Ha. destruct (mem t (scene c)); auto. rewrite union_In. auto.
Qed.
Lemma round_step u t d : In t u -> ~ In t (scene c) -> In d (depends c t) -> In d (unskippable_round c u).
Proof.
  intros Hu Ns Hd. unfold unskippable_round.
  enough (G : forall l a, In t l -> In d (fold_left (fun acc t => if mem t (scene c) then acc else union acc (depends c t)) l a)) by (apply G; auto).
  induction l as [|x l IH]; intros a H; [destruct H|]. cbn [fold_left]. destruct H as [->|H]; [|apply IH; auto].
  apply mem_false in Ns. rewrite Ns.
  apply (fold_inv (fun a => In d a)).
  - rewrite union_In. auto.
  - intros b y _ Hb. destruct (mem y (scene c)); auto. rewrite union_In. auto.
Qed.
Lemma iterate_mono n f u x : (forall u x, In x u -> In x (f u)) -> In x u -> In x (iterate n f u).
Proof. intros M. revert u. induction n as [|n IH]; intros u H; cbn [iterate]; auto. Qed.
Lemma iterate_le n m f u x : (forall u x, In x u -> In x (f u)) -> n <= m -> In x (iterate n f u) -> In x (iterate m f u).
Proof.
  intros M L. revert u m L. induction n as [|n IH]; intros u m L H; cbn [iterate] in *.
  - apply iterate_mono; auto.
  - destruct m as [|m]; [lia|]. cbn [iterate]. apply IH; [lia|auto].
Qed.
Lemma iterate_succ n f u : iterate (S n) f u = f (iterate n f u).
Proof. revert u. induction n as [|n IH]; intros u; auto. cbn [iterate] in *. rewrite <- IH. reflexivity. Qed.

Lemma all_unskippable : sound_graph c -> scene c = [] -> forall t, In t (tasks c) -> In t (unskippable c).
Proof.
  intros (CL & rank & RK) NS.
  set (u0 := union (filter (fun t => is_nil (revdeps c t)) (tasks c)) (cantskip c)).
  (* every task is at the end of a chain of distinct tasks from an endpoint *)
  assert (M : exists m, forall t, In t (tasks c) -> rank t <= m).
  { exists (list_max (map rank (tasks c))). intros t Ht.
    assert (F : Forall (fun k => k <= list_max (map rank (tasks c))) (map rank (tasks c))) by (apply list_max_le; auto).
    rewrite Forall_forall in F. apply F. now apply in_map. }
  destruct M as [m HM].
  assert (CH : forall k t, m - rank t <= k -> In t (tasks c) ->
     exists ch, NoDup (t :: ch) /\ (forall x, In x (t :: ch) -> In x (tasks c) /\ rank t <= rank x) /\
                In t (iterate (length ch) (unskippable_round c) u0)).
  { induction k as [|k IH]; intros t K Ht.
    - exists []. assert (E : revdeps c t = []).
      { destruct (revdeps c t) as [|r l] eqn:E; auto. exfalso.
        assert (H : In r (revdeps c t)) by (rewrite E; left; auto).
        unfold revdeps in H. apply filter_In in H. destruct H as [H1 H2]. apply mem_In in H2.
        specialize (RK r t H1 H2). specialize (HM r H1). lia. }
      split; [repeat constructor; auto|]. split.
      + intros x [<-|[]]; auto.
      + cbn. unfold u0. rewrite union_In, filter_In, E. auto.
    - destruct (revdeps c t) as [|r l] eqn:E.
      + exists []. split; [repeat constructor; auto|]. split.
        * intros x [<-|[]]; auto.
        * cbn. unfold u0. rewrite union_In, filter_In, E. auto.
      + assert (H : In r (revdeps c t)) by (rewrite E; left; auto).
        unfold revdeps in H. apply filter_In in H. destruct H as [H1 H2]. apply mem_In in H2.
        pose proof (RK r t H1 H2) as RR. pose proof (HM r H1).
        destruct (IH r) as (ch & ND & AL & IT); auto; [lia|].
        exists (r :: ch). split; [|split].
        * constructor; auto. intros X. destruct (AL t X). lia.
        * intros x [<-|X]; auto. destruct (AL x X). split; auto. lia.
        * change (length (r :: ch)) with (S (length ch)). rewrite iterate_succ. eapply round_step; eauto. rewrite NS. auto. }
  intros t Ht. destruct (CH (m - rank t) t ltac:(lia) Ht) as (ch & ND & AL & IT).
  unfold unskippable. fold u0. apply (iterate_le (length ch)); auto using round_mono.
  assert (L : length (t :: ch) <= length (tasks c)).
  { apply NoDup_incl_length; auto. intros x X. now apply AL. }
  cbn in L. lia.
Qed.
Lemma init_SD o : sound_graph c -> SD (init c o).
Proof.
  intros SG. unfold init.
  set (s1 := fold_left _ (diff (unskippable c) (scene c)) (blank c)).
  assert (M : marks (blank c) s1).
  { apply (fold_inv (fun a => marks (blank c) a)); auto using marks_refl. intros a t _ Ma.
    destruct (is_nil (depends c t)); auto. eapply marks_trans; eauto using marks_set. }
  destruct (marks_eq _ _ M) as (E1 & E2 & E3 & E4 & E5 & E6 & E7 & E8 & E9 & E10 & E11 & E12 & E13 & E14 & E15 & E16 & E17 & E18 & E19 & E20).
  match goal with |- context [update_scene_data c o (scene c) ?x] => set (s2 := x) end.
  destruct (is_nil (scene c)) eqn:NS.
  - apply is_nil_true in NS. replace (update_scene_data c o (scene c) s2) with (set_sqvalid (sqvalid s2) s2).
    2:{ rewrite NS. unfold update_scene_data. cbn [fold_left filter]. reflexivity. }
    set (s3 := set_sqvalid (sqvalid s2) s2).
    set (s4 := fold_left _ (tasks c) s3).
    assert (M4 : marks s3 s4).
    { apply (fold_inv (fun a => marks s3 a)); auto using marks_refl. intros a t _ Ma.
      destruct (is_nil (depends c t)); auto. eapply marks_trans; eauto using marks_set. }
    destruct (marks_eq _ _ M4) as (F1 & F2 & F3 & F4 & F5 & F6 & F7 & F8 & F9 & F10 & F11 & F12 & F13 & F14 & F15 & F16 & F17 & F18 & F19 & F20).
    assert (NU : needupd s4 = true) by (rewrite F15; unfold s3, s2; cbn; rewrite E15; reflexivity).
    intros R. split; [intros X; cbn in X; congruence|]. intros _. constructor.
    + cbn. rewrite F17. unfold s3, s2. cbn. now rewrite NS.
    + cbn. rewrite F7. unfold s3, s2. cbn. now rewrite E7.
    + intros t. rewrite NS. intros [].
    + intros t Ht. right. change (In t (notcovered_of c s4)). unfold notcovered_of.
      rewrite inter_In, union_In, F14. unfold s3, s2. cbn [tsdone set_sqvalid set_deferred set_sqb set_tsdone].
      assert (In t (diff (unskippable c) (scene c))).
      { rewrite diff_In, NS. split; auto. now apply all_unskippable. }
      auto.
    + cbn. congruence.
  - destruct (update_scene_data_frame o (scene c) s2) as [F U]. intros R. split.
    + intros N. destruct U as [U|(U & _)]; [congruence|]. assert (NU : needupd s2 = true) by (unfold s2; cbn; rewrite E15; reflexivity). congruence.
    + rewrite (f_sqdone _ _ F). unfold s2. cbn. rewrite E16. discriminate.
Qed.
Lemma step_SD e s : SD s -> SD (step c e s).
Proof.
  intros G. destruct e as [t ok o|o|ch o|]; cbn [step].
  - destruct (mem t (sqlive s) || mem t (live s)) eqn:E; auto.
    apply orb_true_iff in E. rewrite !mem_In in E.
    destruct (rst s); auto using waitpid_SD.
  - destruct (rst s) eqn:E; auto using execute_SD.
    unfold finish. repeat match goal with |- SD (if ?b then _ else _) => destruct b end; intros R; discriminate.
  - destruct (rst s); auto using migrations_SD.
  - unfold finish. destruct (rst s); auto; repeat match goal with |- SD (if ?b then _ else _) => destruct b end; intros R; discriminate.
Qed.
Lemma run_SD o es : sound_graph c -> SD (run c o es).
Proof. intros T. unfold run. apply (fold_inv SD); auto using init_SD, step_SD. Qed.

(** ** What each step adds to the history, and the run state *)
Definition nofail (e : ev) : Prop := forall f, e <> TaskFailed f.
(** [run_ok s s']: no failure was recorded, the run state stayed, completed tasks stay so *)
Record same (s s' : st) : Prop := {
  g_rst : rst s' = rst s;
  g_failed : failed s' = failed s;
  g_complete : forall t, In t (complete s) -> In t (complete s');
  g_log : exists l, log s' = l ++ log s /\ Forall nofail l
}.
Lemma same_refl s : same s s.
Proof. constructor; auto. exists []. auto. Qed.
Lemma same_trans a b d : same a b -> same b d -> same a d.
Proof.
  intros [A B C (l & E & F)] [A' B' C' (l' & E' & F')]. constructor; try congruence; auto.
  exists (l' ++ l). rewrite E', E, app_assoc. split; auto. apply Forall_app; auto.
Qed.
Lemma frame_same s s' : frame s s' -> same s s'.
Proof.
  intros []. constructor; auto. { intros t; now rewrite f_complete0. }
  destruct f_log0 as (l & E & F). exists l. split; auto. eapply Forall_impl; [|exact F].
  intros e H f X. subst e. destruct H.
Qed.
Lemma marks_same s s' : marks s s' -> same s s'.
Proof.
  intros M. destruct (marks_eq _ _ M) as (E1 & E2 & E3 & E4 & E5 & E6 & E7 & E8 & E9 & E10 & _).
  constructor; auto. { intros t; now rewrite E1. } exists []. auto.
Qed.
Lemma wake_marks t s : marks s (wake t s).
Proof.
  unfold wake. apply (fold_inv (fun a => marks s a)); auto using marks_refl. intros a r _ M.
  destruct (mem r (running a)); auto. destruct (mem r (buildable a)); auto.
  destruct (subset (depends c r) (complete a)); auto. eapply marks_trans; eauto using marks_set.
Qed.
Lemma completeoutright_same o t s : same s (completeoutright c o t s) /\ In t (complete (completeoutright c o t s)).
Proof.
  rewrite completeoutright_eq.
  assert (K : same (set_complete (add t (complete s)) s) (undefer c o t (wake t (set_complete (add t (complete s)) s)))).
  { eapply same_trans; [apply marks_same, wake_marks|apply frame_same, undefer_frame]. }
  split.
  - eapply same_trans; [|exact K]. constructor; cbn; auto.
    + intros x H. rewrite add_In. auto.
    + exists []. auto.
  - apply K. cbn. rewrite add_In. auto.
Qed.
Ltac sm := constructor; cbn; auto; try (exists []; split; cbn; auto; fail).
Lemma task_skip_same o t b s : same s (task_skip c o t b s).
Proof.
  unfold task_skip. eapply same_trans; [|apply completeoutright_same]. sm.
  exists [Skipped t b]. split; auto. constructor; auto. intros f; discriminate.
Qed.
Lemma noexec_same o t s :
  same s (task_complete c o t (emit (Noexec t) (set_active (active s + 1)%Z (set_running (add t (running s)) s)))).
Proof.
  unfold task_complete. eapply same_trans; [|eapply same_trans; [apply completeoutright_same with (o := o) (t := t)|sm]].
  sm. exists [Noexec t]. split; auto. constructor; auto. intros f; discriminate.
Qed.
Lemma started_same t s : same s (started t s).
Proof. sm. exists [Started t]. split; auto. constructor; auto. intros f; discriminate. Qed.
Lemma scene_started_same t s : same s (scene_started t s).
Proof. sm. exists [SceneStarted t]. split; auto. constructor; auto. intros f; discriminate. Qed.
Lemma update_holdoff_same s : same s (update_holdoff c s).
Proof.
  unfold update_holdoff. destruct (needupd s); cbn [negb]; [|apply same_refl].
  match goal with |- context [fold_left ?f ?l s] => set (F := f); set (L := l) end.
  assert (M : marks s (fold_left F L s)).
  { apply (fold_inv (fun a => marks s a)); auto using marks_refl. intros a t _ Ma. unfold F.
    destruct (subset (depends c t) (complete a)); auto. eapply marks_trans; eauto using marks_set. }
  eapply same_trans; [apply marks_same, M|]. sm.
Qed.
(** how an engine call may end *)
Inductive ends (o : oracle) (s s' : st) : Prop :=
  | ends_same : same s s' -> ends o s s'
  | ends_refused t l : log s' = TaskFailed t :: l ++ log s -> Forall nofail l -> failed s' <> [] -> (rst s' = if halt c then CleanUp else rst s) ->
      (forall x, In x (complete s) -> In x (complete s')) -> allowed c <> None -> ends o s s'
  | ends_over r : (r = Failed \/ r = Complete) -> rst s' = r ->
      (exists a, same s a /\ log s' = log a /\ failed s' = failed a /\ complete s' = complete a) ->
      (r = Complete -> sceneonly c = false -> forall t, In t (tasks c) -> In t (complete s')) -> ends o s s'.
Lemma wind_down_ends o s a : same s a -> ends o s (wind_down c o a).
Proof.
  intros S. unfold wind_down. destruct (Z.ltb 0 (active a) || negb (is_nil (sqlive a))); [now apply ends_same|].
  destruct (deferred a).
  2:{ apply ends_same. eapply same_trans; [exact S|]. sm. }
  destruct (negb (is_nil (failed a))).
  { eapply ends_over with (r := Failed); auto; [|discriminate]. exists a. cbn. auto. }
  match goal with |- context [if ?b then _ else _] => destruct b eqn:E end.
  { eapply ends_over with (r := Failed); auto; [|discriminate]. exists a. cbn. auto. }
  eapply ends_over with (r := Complete); auto.
  { exists a. cbn. auto. }
  intros _ _ t Ht. cbn. apply orb_false_iff in E. destruct E as [_ E]. apply negb_false_iff in E.
  rewrite forallb_forall in E. specialize (E t Ht). rewrite !andb_true_iff, !mem_In in E. tauto.
Qed.
Lemma ends_pre o s a b : same s a -> ends o a b -> ends o s b.
Proof.
  intros S E. destruct E as [H|t l0 L FL F R C AL|r Hr R (x & X1 & X2 & X3 & X4) C].
  - apply ends_same. eapply same_trans; eauto.
  - destruct S as [S1 S2 S3 (l & S4 & S5)].
    apply ends_refused with (t := t) (l := l0 ++ l); auto.
    + rewrite L, S4, app_assoc. auto.
    + apply Forall_app; auto.
    + rewrite R, S1. auto.
  - apply ends_over with (r := r); auto. exists x. split; auto. eapply same_trans; eauto.
Qed.
Lemma run_task_ends o t s : ends o s (run_task c o t s).
Proof.
  unfold run_task. destruct (refused c o t s) eqn:RF.
  { apply ends_refused with (t := t) (l := []); auto.
    - unfold task_fail. destruct (halt c); reflexivity.
    - unfold task_fail. destruct (halt c); cbn; destruct (failed s); discriminate.
    - unfold task_fail. destruct (halt c); reflexivity.
    - unfold task_fail. destruct (halt c); auto.
    - unfold refused in RF. destruct (allowed c); discriminate. }
  destruct (mem t (tcov s)); [apply ends_same, task_skip_same|].
  destruct (o_stamp o t). { apply ends_same. eapply same_trans; [apply task_skip_same|sm]. }
  destruct (noexec c t); [apply ends_same, noexec_same|].
  change (emit (Started t) _) with (started t s).
  destruct (can_start c (started t s)); [apply ends_same, started_same|apply wind_down_ends, started_same].
Qed.
Lemma sched_next_same o s x s' : sched_next c o s = (x, s') -> same s s'.
Proof. unfold sched_next. destruct (can_start c s); intros E; injection E as <- <-; [sm|apply same_refl]. Qed.
Lemma normal_part_ends o s : ends o s (normal_part c o s).
Proof.
  unfold normal_part. destruct (sceneonly c); [apply wind_down_ends, same_refl|].
  destruct (sched_next c o s) as [x s1] eqn:E. pose proof (sched_next_same o s x s1 E) as S.
  destruct x; [eapply ends_pre; [exact S|apply run_task_ends]|apply wind_down_ends; auto].
Qed.
Lemma after_scene_ends o s : ends o s (after_scene c o s).
Proof.
  unfold after_scene. pose proof (update_holdoff_same s) as S. revert S. generalize (update_holdoff c s). intros s1 S.
  assert (OV : forall r x, r = Failed \/ r = Complete -> (r = Complete -> sceneonly c = false -> forall t, In t (tasks c) -> In t (complete x)) ->
     same s x -> ends o s (set_rst r x)).
  { intros r x Hr Hc Sx. apply ends_over with (r := r); auto. exists x. cbn. auto. }
  match goal with |- context [if ?b then _ else _] => destruct b end; [|eapply ends_pre; [exact S|apply normal_part_ends]].
  destruct (scene_errors c o s1); [apply OV; auto; discriminate|].
  destruct (sceneonly c) eqn:SO; [apply OV; auto; discriminate|].
  destruct (is_nil (tasks c)) eqn:TN.
  - apply OV; auto. { intros _ _ t. apply is_nil_true in TN. rewrite TN. intros []. }
    eapply same_trans; [exact S|]. sm.
  - eapply ends_pre; [|apply normal_part_ends]. eapply same_trans; [exact S|]. sm.
Qed.
Lemma scan_same o l s : match scan c o l s with Return s' => same s s' | Go _ s' => same s s' end.
Proof.
  revert s. induction l as [|t l IH]; intros s; cbn [scan]; [apply same_refl|].
  match goal with |- context [if ?b then _ else scan c o l s] => destruct b end; [|apply IH; auto].
  assert (FO : forall a, same s a -> same s (failoutright c (sq_fuel c) o t a)).
  { intros a Ha. eapply same_trans; [exact Ha|apply frame_same, failoutright_frame]. }
  match goal with |- context [if ?b then Return _ else _] => destruct b end.
  { eapply same_trans; [apply frame_same, (sq_skip_frame t s)|]. generalize (sq_skip c t s). intros s1. sm. }
  destruct (negb (forallb (processed s) (hardrev c t))).
  { match goal with |- context [is_nil ?n] => set (new := n) end.
    match goal with |- context [set_harddef ?a ?b] => set (s1 := set_harddef a b) end.
    assert (G1 : same s s1) by (unfold s1; sm).
    destruct (is_nil new); [|auto]. specialize (IH s1). destruct (scan c o l s1); eapply same_trans; eauto. }
  destruct (dget t (deferred s)).
  - destruct (negb (mem n (complete s))); [apply IH; auto|].
    set (s1 := set_deferred (ddel t (deferred s)) s).
    assert (G1 : same s s1) by (unfold s1; sm).
    destruct (negb (o_valid o t)); [now apply FO|]. destruct (mem t (outright s1)); [now apply FO|]. exact G1.
  - destruct (mem t (outright s)); [apply FO, same_refl|apply same_refl].
Qed.
Lemma scene_start_same o t s : same s (fst (scene_start c o t s)).
Proof.
  unfold scene_start.
  assert (FO : same s (failoutright c (sq_fuel c) o t s)) by (apply frame_same, failoutright_frame).
  destruct (o_stamprec o t); auto. destruct (force c && mem t (targets c)); auto.
  destruct (o_scstamp o t); [apply frame_same, sq_skip_frame|]. destruct (skipscene c); auto.
  cbn [fst]. exact (scene_started_same t s).
Qed.
Lemma execute_ends o s : ends o s (execute c o s).
Proof.
  unfold execute. destruct (negb (sqdone s) && can_start c s); [|apply after_scene_ends].
  pose proof (scan_same o (scene c) s) as H. destruct (scan c o (scene c) s) as [s'|[t|] s'].
  - now apply ends_same.
  - pose proof (scene_start_same o t s') as K. destruct (scene_start c o t s') as [s2 b]. cbn [fst] in K.
    assert (S2 : same s s2) by (eapply same_trans; eauto).
    destruct b; [now apply ends_same|]. eapply ends_pre; [exact S2|apply after_scene_ends].
  - eapply ends_pre; [exact H|apply after_scene_ends].
Qed.
Lemma migrations_same o ch s : 
  same s (migrations c o ch s) \/
  (rst (migrations c o ch s) = CleanUp /\ failed (migrations c o ch s) <> [] /\ log (migrations c o ch s) = log s
   /\ complete (migrations c o ch s) = complete s).
Proof.
  unfold migrations.
  match goal with |- context [migrate_loop c o ?l ?x ?u] => set (s0 := x) end.
  assert (K : forall l a u, same s a -> log a = log s -> complete a = complete s ->
     match migrate_loop c o l a u with
     | inl (s', _) => same s s'
     | inr s' => rst s' = CleanUp /\ failed s' <> [] /\ log s' = log s /\ complete s' = complete s end).
  { induction l as [|t l IH]; intros a u S L C; cbn [migrate_loop]; auto.
    unfold migrate_one. destruct (mem t (running a) || mem t (sqlive a)).
    { apply IH; auto. eapply same_trans; [exact S|sm]. }
    destruct (existsb _ (coveredby c t)); [apply IH; auto|].
    match goal with |- context [if ?b then inr _ else _] => destruct b end.
    - cbn. repeat split; auto. destruct (failed a); discriminate.
    - apply IH; auto. eapply same_trans; [exact S|sm]. }
  specialize (K (pending s0) s0 []). destruct (migrate_loop c o (pending s0) s0 []) as [[s1 u]|s1].
  2:{ right. apply K; auto. unfold s0; sm. }
  left. assert (S1 : same s s1) by (apply K; auto; unfold s0; sm).
  clear K s0. eapply same_trans; [exact S1|]. unfold migrate_tail.
  match goal with |- context [fold_left ?f u (s1, [])] => set (F := f) end.
  assert (K : same s1 (fst (fold_left F u (s1, [])))).
  { apply (fold_inv (fun a => same s1 (fst a))); [apply same_refl|]. intros [a acc] t _ S2. unfold F. cbn [fst] in *.
    set (hf := existsb _ (hardrev c t)).
    set (a1 := if negb hf && forallb (processed a) (sqrev c t) then set_sqb (add t (sqb a)) a else a).
    assert (S3 : same s1 a1).
    { unfold a1. destruct (negb hf && forallb (processed a) (sqrev c t)); auto. eapply same_trans; [exact S2|sm]. }
    destruct (is_nil (sqrev c t)); auto. eapply same_trans; [exact S3|sm]. }
  destruct (fold_left F u (s1, [])) as [s2 u2]. cbn [fst] in K.
  match goal with |- context [fold_left ?f u2 ?x] => set (s3 := x); set (F2 := f) end.
  assert (S3 : same s1 s3).
  { unfold s3. destruct (is_nil u2); auto. eapply same_trans; [|apply frame_same, update_scene_data_frame].
    apply (fold_inv (fun a => same s1 a)); [eapply same_trans; [exact K|sm]|]. intros a t _ Sa. destruct (o_defer o t); auto.
    eapply same_trans; [exact Sa|sm]. }
  assert (S4 : same s1 (fold_left F2 u2 s3)).
  { apply (fold_inv (fun a => same s1 a)); auto. intros a [t hf] _ Sa. unfold F2. destruct hf; auto.
    eapply same_trans; [exact Sa|apply frame_same, failoutright_frame]. }
  revert S4. generalize (fold_left F2 u2 s3). intros s4 S4.
  match goal with |- context [if ?b then _ else _] => destruct b end; auto.
  eapply same_trans; [exact S4|]. sm.
Qed.

(** worker reports *)
Definition launches (e : ev) : Prop := (exists t, takes_up t e) \/ exists t, e = SceneStarted t.
Definition ending (e : ev) : Prop := ~ launches e.
Lemma scene_ev_ending l : Forall scene_ev l -> Forall ending l.
Proof.
  apply Forall_impl. intros e H [(t & X)|(t & X)]; destruct e; try contradiction; [destruct X as [X|[X|[b X]]]|]; discriminate.
Qed.
Lemma completeoutright_log o t s : exists l, log (completeoutright c o t s) = l ++ log s /\ Forall scene_ev l.
Proof.
  rewrite completeoutright_eq.
  destruct (f_log _ _ (proj1 (undefer_frame o t (wake t (set_complete (add t (complete s)) s))))) as (l & A & B).
  exists l. split; auto. rewrite A.
  destruct (marks_eq _ _ (wake_marks t (set_complete (add t (complete s)) s))) as (_ & _ & _ & _ & W & _).
  rewrite W. reflexivity.
Qed.
Lemma waitpid_log o t ok s : exists l, log (waitpid c o t ok s) = l ++ log s /\ Forall ending l /\
  (forall x, In x (complete s) -> In x (complete (waitpid c o t ok s))) /\
  ((Forall nofail l /\ failed (waitpid c o t ok s) = failed s /\ (rst (waitpid c o t ok s) = rst s \/ (allowed c <> None /\ rst (waitpid c o t ok s) = CleanUp)))
   \/ (l = [TaskFailed t] /\ failed (waitpid c o t ok s) <> [] /\ rst (waitpid c o t ok s) = if halt c then CleanUp else rst s)).
Proof.
  unfold waitpid. cbn [sqlive set_bstamps live].
  assert (E1 : forall e, (forall x, ~ takes_up x e) -> (forall x, e <> SceneStarted x) -> ending e).
  { intros e A B [(x & X)|(x & X)]; [eapply A|eapply B]; eauto. }
  assert (NF : forall l, Forall scene_ev l -> Forall nofail l).
  { intros l. apply Forall_impl. intros e H f X. subst. destruct H. }
  destruct (mem t (sqlive s)) eqn:M.
  - destruct ok.
    + unfold sq_complete, sq_completeoutright.
      match goal with |- context [counters_tail c t ?x] => pose proof (counters_tail_frame t x) as F end.
      revert F. match goal with |- frame _ ?x -> _ => generalize x end. intros s2 F. destruct F. cbn in *.
      destruct f_log0 as (l & L1 & L2). exists (l ++ [SceneOk t]). rewrite L1, <- app_assoc. split; auto. split.
      { apply Forall_app. split; [now apply scene_ev_ending|]. constructor; auto. apply E1; [intros x [X|[X|[b X]]]|]; discriminate. }
      split; [rewrite f_complete0; auto|]. left. split; auto. apply Forall_app. split; auto. constructor; auto. intros f; discriminate.
    + unfold sq_fail.
      set (s1 := emit (SceneFailed t) (set_scnot (add t (scnot (set_bstamps (ddel t (bstamps s)) s))) (set_bstamps (ddel t (bstamps s)) s))).
      change (fold_left _ (harddeps c t) s1) with (hard_fail o t s1).
      assert (F : frame s1 (counters_tail c t (hard_fail o t s1))).
      { eapply frame_trans; [apply hard_fail_frame|apply counters_tail_frame]. }
      revert F. generalize (counters_tail c t (hard_fail o t s1)). intros s2 F. destruct F. unfold s1 in *. cbn in *.
      destruct f_log0 as (l & L1 & L2). exists (l ++ [SceneFailed t]).
      assert (E2 : Forall ending (l ++ [SceneFailed t])).
      { apply Forall_app. split; [now apply scene_ev_ending|]. constructor; auto. apply E1; [intros x [X|[X|[b X]]]|]; discriminate. }
      assert (E3 : Forall nofail (l ++ [SceneFailed t])).
      { apply Forall_app. split; auto. constructor; auto. intros f; discriminate. }
      assert (E4 : forall x, In x (complete s) -> In x (complete s2)) by (rewrite f_complete0; auto).
      destruct (allowed c) as [okf|] eqn:AL; [destruct (okf t)|]; cbn;
        (split; [rewrite L1, <- app_assoc; reflexivity|]); (split; [exact E2|]); (split; [exact E4|]); left;
        (split; [exact E3|]); (split; [exact f_failed0|]); auto. right. split; [discriminate|auto].
  - destruct ok.
    + unfold task_complete. cbn [log set_tasksrun complete rst failed].
      match goal with |- context [completeoutright c o t ?x] =>
        pose proof (proj1 (completeoutright_same o t x)) as S; pose proof (completeoutright_log o t x) as CL;
        revert S CL; generalize (completeoutright c o t x) end.
      intros s2 S (l & S4 & FL). destruct S as [S1 S2 S3 _]. cbn in S1, S2, S3, S4.
      exists (l ++ [Succeeded t]). split; [rewrite S4, <- app_assoc; reflexivity|]. split; [|split; auto].
      * apply Forall_app. split; [now apply scene_ev_ending|]. constructor; auto. apply E1; [intros x [X|[X|[b X]]]|]; discriminate.
      * left. split; auto. apply Forall_app. split; auto. constructor; auto. intros f; discriminate.
    + exists [TaskFailed t]. unfold task_fail. split; [destruct (halt c); reflexivity|]. split; [|split].
      * constructor; auto. apply E1; [intros x [X|[X|[b X]]]|]; discriminate.
      * destruct (halt c); auto.
      * right. split; auto. split; [destruct (halt c); cbn; destruct (failed s); discriminate|destruct (halt c); reflexivity].
Qed.

(** ** A build reported as successful has done everything *)
Definition CL (s : st) : Prop :=
  (rst s = CleanUp -> failed s <> []) /\ (rst s = Complete -> forall t, In t (tasks c) -> In t (complete s)).
Lemma same_CL s s' : same s s' -> CL s -> CL s'.
Proof.
  intros [A B C _] [H1 H2]. split.
  - rewrite A, B. exact H1.
  - rewrite A. intros R t Ht. apply C. auto.
Qed.
Lemma step_CL e s : allowed c = None -> sceneonly c = false -> e <> Interrupt -> CL s -> CL (step c e s).
Proof.
  intros AL SO NI H. destruct e as [t ok o|o|ch o|]; cbn [step]; [| | |congruence].
  - destruct (mem t (sqlive s) || mem t (live s)); auto.
    assert (K : CL (waitpid c o t ok s)).
    { destruct (waitpid_log o t ok s) as (l & _ & _ & C & [(_ & F & R)|(_ & F & R)]).
      - destruct R as [R|[X _]]; [|contradiction]. destruct H as [H1 H2]. split.
        + rewrite R, F. exact H1.
        + rewrite R. intros Q x Hx. apply C. auto.
      - destruct H as [H1 H2]. split; auto. rewrite R. destruct (halt c); [discriminate|]. intros Q x Hx. apply C; auto. }
    destruct (rst s); auto.
  - destruct (rst s) eqn:RS; auto.
    + destruct (execute_ends o s) as [S|t l L FL F R C X|r Hr R _ C].
      * eapply same_CL; eauto.
      * contradiction.
      * split; rewrite R; intros Q; subst r; [destruct Hr; congruence|auto].
    + unfold finish. cbn [active sqlive failed set_rst]. destruct H as [H1 H2]. specialize (H1 RS).
      destruct (Z.ltb 0 (active s + Z.of_nat (length (sqlive s)))); [split; [auto|discriminate]|].
      destruct (failed s); [congruence|]. cbn [is_nil negb]. split; discriminate.
  - destruct (rst s) eqn:RS; auto.
    destruct (migrations_same o ch s) as [S|(R & F & _)]; [eapply same_CL; eauto|].
    split; [auto|]. rewrite R. discriminate.
Qed.
Lemma init_rst o : rst (init c o) = Running /\ exists l, log (init c o) = l /\ Forall nofail l.
Proof.
  unfold init. set (s1 := fold_left _ (diff (unskippable c) (scene c)) (blank c)).
  assert (M : marks (blank c) s1).
  { apply (fold_inv (fun a => marks (blank c) a)); auto using marks_refl. intros a t _ Ma.
    destruct (is_nil (depends c t)); auto. eapply marks_trans; eauto using marks_set. }
  match goal with |- context [update_scene_data c o (scene c) ?x] => set (s2 := x) end.
  assert (S2 : same (blank c) (update_scene_data c o (scene c) s2)).
  { eapply same_trans; [apply marks_same, M|]. eapply same_trans; [|apply frame_same, update_scene_data_frame].
    unfold s2. sm. }
  revert S2. generalize (update_scene_data c o (scene c) s2). intros s3 S3.
  assert (K : forall x, same (blank c) x -> rst x = Running /\ exists l, log x = l /\ Forall nofail l).
  { intros x [A _ _ (l & E & F)]. split; auto. exists l. split; auto. rewrite E. apply app_nil_r. }
  destruct (is_nil (scene c)); [|now apply K].
  set (s4 := fold_left _ (tasks c) s3).
  assert (M4 : marks s3 s4).
  { apply (fold_inv (fun a => marks s3 a)); auto using marks_refl. intros a t _ Ma.
    destruct (is_nil (depends c t)); auto. eapply marks_trans; eauto using marks_set. }
  apply K. eapply same_trans; [exact S3|]. eapply same_trans; [apply marks_same, M4|]. sm.
Qed.
Lemma run_CL o es : allowed c = None -> sceneonly c = false -> no_interrupt es -> CL (run c o es).
Proof.
  intros AL SO NI. unfold run. apply (fold_inv CL).
  - destruct (init_rst o) as [R _]. split; rewrite R; discriminate.
  - intros a e He Ha. apply step_CL; auto. intros ->. auto.
Qed.

(** ** Nothing is launched after a failure unless told to continue *)
Definition quiet_after (h : list ev) : Prop := forall post f pre, h = post ++ TaskFailed f :: pre -> Forall ending post.
Definition HL (s : st) : Prop := (rst s = Running -> Forall nofail (log s)) /\ quiet_after (log s).
Lemma nofail_quiet h : Forall nofail h -> quiet_after h.
Proof.
  intros F post f pre E. exfalso. rewrite Forall_forall in F. apply (F (TaskFailed f)) with (f := f); auto.
  rewrite E. apply in_or_app. right. left. auto.
Qed.
Lemma ending_quiet l h : Forall ending l -> quiet_after h -> quiet_after (l ++ h).
Proof.
  induction l as [|e l IH]; intros F Q; cbn; auto. inversion F as [|? ? F1 F2]; subst.
  intros post f pre E. destruct post as [|x post]; [constructor|]. injection E as <- E. constructor; auto.
  eapply IH; eauto.
Qed.
Lemma one_fail_quiet t l : Forall nofail l -> quiet_after (TaskFailed t :: l).
Proof.
  intros F post f pre E. destruct post as [|x post]; [constructor|]. injection E as _ E.
  exfalso. rewrite Forall_forall in F. apply (F (TaskFailed f)) with (f := f); auto. rewrite E. apply in_or_app. right; left; auto.
Qed.
Lemma step_HL e s : halt c = true -> HL s -> HL (step c e s).
Proof.
  intros HA [H1 H2]. assert (H : HL s) by (split; auto). destruct e as [t ok o|o|ch o|]; cbn [step].
  - destruct (mem t (sqlive s) || mem t (live s)); auto.
    assert (K : HL (waitpid c o t ok s)).
    { destruct (waitpid_log o t ok s) as (l & L & E & C & [(F & _ & R)|(F & _ & R)]).
      - split.
        + intros Q. rewrite L. apply Forall_app. split; auto. apply H1. destruct R as [R|[_ R]]; congruence.
        + rewrite L. apply ending_quiet; auto.
      - rewrite HA in R. split; [congruence|]. rewrite L. apply ending_quiet; auto. }
    destruct (rst s); auto.
  - destruct (rst s) eqn:RS; auto.
    + specialize (H1 eq_refl).
      destruct (execute_ends o s) as [[A B C (l & L & F)]|t l L FL F R C X|r Hr R (a & [A _ _ (l & L & F)] & L2 & _) C].
      * assert (Forall nofail (log (execute c o s))) by (rewrite L; apply Forall_app; auto). split; auto. now apply nofail_quiet.
      * rewrite HA in R. split; [congruence|]. rewrite L. apply one_fail_quiet. apply Forall_app; auto.
      * assert (Forall nofail (log (execute c o s))) by (rewrite L2, L; apply Forall_app; auto). split; auto. now apply nofail_quiet.
    + unfold finish. cbn [active sqlive failed set_rst].
      repeat match goal with |- HL (if ?b then _ else _) => destruct b end; split; cbn; try discriminate; auto.
  - destruct (rst s) eqn:RS; auto. specialize (H1 eq_refl).
    destruct (migrations_same o ch s) as [[A B C (l & L & F)]|(R & F & L & _)].
    + assert (Forall nofail (log (migrations c o ch s))) by (rewrite L; apply Forall_app; auto). split; auto. now apply nofail_quiet.
    + split; [congruence|]. now rewrite L.
  - assert (K : HL (finish s)).
    { unfold finish. cbn [active sqlive failed set_rst].
      repeat match goal with |- HL (if ?b then _ else _) => destruct b end; split; cbn; try discriminate; auto. }
    destruct (rst s); auto.
Qed.
Lemma run_HL o es : halt c = true -> HL (run c o es).
Proof.
  intros HA. unfold run. apply (fold_inv HL).
  - destruct (init_rst o) as [R (l & L & F)]. split; [intros _; now rewrite L|]. rewrite L. now apply nofail_quiet.
  - intros a e _ Ha. now apply step_HL.
Qed.

(** ** When the queue winds down every task that can be done is done *)
Lemma started_wind o t s : InvA s -> ~ In t (live s) -> wind_down c o (started t s) = started t s.
Proof.
  intros A NL. unfold wind_down. replace (Z.ltb 0 (active (started t s))) with true; auto.
  symmetry. apply Z.ltb_lt. cbn. destruct A. lia.
Qed.
Lemma run_task_running o t s : allowed c = None -> Inv s -> InvA s -> rst s = Running -> ~ In t (running s) ->
  rst (run_task c o t s) = Running.
Proof.
  intros AL I A R NR. unfold run_task, refused. rewrite AL.
  destruct (mem t (tcov s)); [rewrite (g_rst _ _ (task_skip_same o t true s)); auto|].
  destruct (o_stamp o t); [cbn; rewrite (g_rst _ _ (task_skip_same o t false s)); auto|].
  destruct (noexec c t); [rewrite (g_rst _ _ (noexec_same o t s)); auto|].
  change (emit (Started t) _) with (started t s).
  rewrite started_wind; auto.
  - destruct (can_start c (started t s)); auto.
  - intros X. destruct I. destruct (i_live0 t X); auto.
Qed.
Lemma all_settled o s s1 : allowed c = None -> (forall n, tlimit c n = None) -> (1 <= threads c)%Z -> sound_graph c ->
  Good s -> SD s -> needupd s = false -> sqdone s = true -> rst s = Running ->
  sched_next c o s = (None, s1) -> active s1 = 0%Z -> sqlive s1 = [] ->
  forall t, In t (tasks c) -> In t (complete s1) \/ In (TaskFailed t) (log s1) \/
     exists f, needs c t f /\ In (TaskFailed f) (log s1).
Proof.
  intros AL TL TH (CLO & rank & RK) G SDs NU SQs R E A0 L0.
  destruct (sched_next_spec o s None s1 E G) as (G1 & _ & _).
  assert (S1 : s1 = set_sbuild (diff (sbuild s) (running s)) s /\ next_buildable c o s1 = None).
  { unfold sched_next in E. assert (CS : can_start c s = true).
    { unfold can_start. apply Z.ltb_lt. destruct (can_start c s); inversion E; subst s1; cbn in A0, L0; rewrite A0, L0; cbn; lia. }
    rewrite CS in E. injection E as E1 E2. subst s1. auto. }
  destruct S1 as [ES NB].
  destruct (SDs R) as [T Q]. destruct (T NU) as [T1 T2]. destruct (Q SQs) as [Q1 Q2' Q3 Q4 Q5]. specialize (Q5 NU).
  destruct G1 as (I & QQ & J). specialize (J AL).
  assert (LV : live s1 = []).
  { destruct J as [JA _ _ _]. rewrite A0 in JA. destruct (live s1); auto. cbn in JA. lia. }
  assert (BS : bstamps s1 = []).
  { destruct I. destruct (bstamps s1) as [|p l] eqn:B; auto. destruct (i_stamps0 p) as [X|X]; [left; auto|rewrite LV in X|rewrite L0 in X]; destruct X. }
  assert (NC : candidates s1 = []).
  { destruct (candidates s1) as [|x l] eqn:CA; auto. exfalso.
    destruct (next_buildable_none o s1 NB A0 x) as [X|X]; [rewrite CA; left; auto| |].
    - unfold too_many in X. rewrite TL in X. discriminate.
    - rewrite BS in X. discriminate. }
  assert (ST : forall t, In t (tasks c) -> deps_done s1 t -> In t (complete s1) \/ In (TaskFailed t) (log s1)).
  { intros t Ht D.
    assert (CV : In t (tcov s1) \/ In t (tnot s1)).
    { rewrite ES. cbn. rewrite T1, T2. auto. }
    assert (RU : In t (running s1)).
    { destruct (QQ t Ht D) as [X|X]; auto. destruct I. destruct (i_qs0 t X) as [Y|Y]; auto.
      exfalso. assert (Z : In t (candidates s1)); [|rewrite NC in Z; destruct Z].
      unfold candidates. apply filter_In. rewrite diff_In. split; [split; auto|].
      - rewrite ES. cbn. rewrite Q5. auto.
      - apply orb_true_iff. rewrite !mem_In. exact CV. }
    destruct I. destruct (i_cases0 t RU) as [X|[X|X]]; auto. rewrite LV in X. destruct X. }
  assert (K : forall n t, rank t <= n -> In t (tasks c) -> In t (complete s1) \/ In (TaskFailed t) (log s1) \/
     exists f, needs c t f /\ In (TaskFailed f) (log s1)).
  { induction n as [n IH] using lt_wf_ind. intros t Hn Ht.
    assert (DD : (forall d, In d (depends c t) -> In d (complete s1)) \/ exists d, In d (depends c t) /\ ~ In d (complete s1)).
    { clear - c. induction (depends c t) as [|d l IHl]; [left; intros d []|].
      destruct (in_dec Nat.eq_dec d (complete s1)) as [Y|N]; [|right; exists d; split; [left|]; auto].
      destruct IHl as [A|(x & A & B)]; [left; intros y [<-|Hy]; auto|right; exists x; split; [right|]; auto]. }
    destruct DD as [DD|(d & Hd & ND)].
    - destruct (ST t Ht DD); auto.
    - right; right. pose proof (RK t d Ht Hd) as RD.
      destruct (IH (rank d) ltac:(lia) d (le_n _) (CLO t d Ht Hd)) as [X|[X|(f & X & Y)]]; [contradiction| |].
      + exists d. split; auto. now apply needs_direct.
      + exists f. split; auto. eapply needs_trans; eauto. }
  intros t Ht. apply (K (rank t) t); auto.
Qed.
Definition settled (s : st) : Prop := forall t, In t (tasks c) -> In t (complete s) \/ In (TaskFailed t) (log s) \/
     exists f, needs c t f /\ In (TaskFailed f) (log s).
Lemma wind_down_core o s : complete (wind_down c o s) = complete s /\ log (wind_down c o s) = log s /\ sqdone (wind_down c o s) = sqdone s
  /\ (rst (wind_down c o s) = rst s \/ ((active s <= 0)%Z /\ sqlive s = [])).
Proof.
  unfold wind_down. destruct (Z.ltb 0 (active s) || negb (is_nil (sqlive s))) eqn:E; auto.
  apply orb_false_iff in E. destruct E as [E1 E2]. apply Z.ltb_ge in E1. apply negb_false_iff, is_nil_true in E2.
  destruct (deferred s); [|cbn; repeat split; auto].
  repeat match goal with |- context [if ?b then _ else _] => destruct b end; cbn; repeat split; auto.
Qed.
Lemma normal_part_settled o s : allowed c = None -> (forall n, tlimit c n = None) -> (1 <= threads c)%Z -> sound_graph c -> sceneonly c = false ->
  Good s -> SD s -> needupd s = false -> sqdone s = true -> rst s = Running ->
  rst (normal_part c o s) = Failed \/ rst (normal_part c o s) = Complete -> settled (normal_part c o s).
Proof.
  intros AL TL TH SG SO G SDs NU SQs R. unfold normal_part. rewrite SO.
  destruct (sched_next c o s) as [x s1] eqn:E. destruct (sched_next_spec o s x s1 E G) as ((I1 & Q1 & J1) & _ & N1).
  pose proof (sched_next_same o s x s1 E) as SM.
  assert (R1 : rst s1 = Running) by (rewrite (g_rst _ _ SM); auto).
  destruct x as [t|].
  - destruct (N1 t eq_refl) as (_ & NR & _). rewrite run_task_running; auto. intros [X|X]; discriminate.
  - destruct (wind_down_core o s1) as (W1 & W2 & _ & W4). intros RR.
    destruct W4 as [W4|[W4 W5]]; [rewrite W4, R1 in RR; destruct RR; discriminate|].
    unfold settled. rewrite W1, W2. eapply all_settled; eauto.
    destruct (J1 AL). lia.
Qed.
Lemma normal_part_sqdone o s : rst s = Running -> Good s -> allowed c = None ->
  rst (normal_part c o s) = Failed \/ rst (normal_part c o s) = Complete -> sqdone (normal_part c o s) = sqdone s.
Proof.
  intros R G AL. unfold normal_part. destruct (sceneonly c); [intros _; apply wind_down_core|].
  destruct (sched_next c o s) as [x s1] eqn:E. destruct (sched_next_spec o s x s1 E G) as ((I1 & Q1 & J1) & _ & N1).
  pose proof (sched_next_same o s x s1 E) as SM.
  assert (R1 : rst s1 = Running) by (rewrite (g_rst _ _ SM); auto).
  destruct x as [t|].
  - destruct (N1 t eq_refl) as (_ & NR & _). rewrite run_task_running; auto. intros [X|X]; discriminate.
  - intros _. destruct (wind_down_core o s1) as (_ & _ & W & _). rewrite W.
    unfold sched_next in E. destruct (can_start c s); inversion E; subst s1; reflexivity.
Qed.
Lemma after_scene_settled o s : allowed c = None -> (forall n, tlimit c n = None) -> (1 <= threads c)%Z -> sound_graph c -> sceneonly c = false ->
  Good s -> SD s -> rst s = Running ->
  rst (after_scene c o s) = Failed \/ rst (after_scene c o s) = Complete -> sqdone (after_scene c o s) = true ->
  settled (after_scene c o s).
Proof.
  intros AL TL TH SG SO G H R. unfold after_scene.
  pose proof (update_holdoff_Good s G) as G1. destruct (update_holdoff_SD s H) as (A & N & R1 & _).
  revert G1 A N R1. generalize (update_holdoff c s). intros s1 G1 A N R1. rewrite R in R1.
  match goal with |- context [if ?b then _ else _] => destruct b eqn:E end.
  - rewrite SO. rewrite !andb_true_iff in E. destruct E as ((((E1 & E2) & E3) & E4) & E5). apply negb_true_iff in E2.
    destruct (scene_errors c o s1) eqn:SE; [cbn; congruence|].
    destruct (is_nil (tasks c)) eqn:TN.
    { intros _ _ t. apply is_nil_true in TN. rewrite TN. intros []. }
    intros X _. apply normal_part_settled; auto.
    + now apply set_sqdone_Good.
    + pose proof (after_scene_SD o s1) as _.
      intros R2. cbn in R2. destruct (A R2) as [T _]. split; [exact T|]. intros _.
      unfold scene_errors in SE. rewrite !orb_false_iff in SE. destruct SE as ((((S1 & S2) & S3) & S4) & S5).
      rewrite negb_false_iff, forallb_forall in S4, S5. apply is_nil_true in E1, E3, E5.
      destruct (T N) as [T1 T2].
      constructor; auto.
      * intros t Ht. specialize (S4 t Ht). rewrite !andb_true_iff in S4. tauto.
      * intros t Ht. specialize (S5 t Ht). rewrite !andb_true_iff, orb_true_iff, !mem_In in S5.
        change (In t (covered_of c s1) \/ In t (notcovered_of c s1)). rewrite <- T1, <- T2. tauto.
  - intros X S. rewrite normal_part_sqdone in S; auto. apply normal_part_settled; auto.
Qed.
Lemma execute_settled o s : allowed c = None -> (forall n, tlimit c n = None) -> (1 <= threads c)%Z -> sound_graph c -> sceneonly c = false ->
  Good s -> SD s -> rst s = Running ->
  rst (execute c o s) = Failed \/ rst (execute c o s) = Complete -> sqdone (execute c o s) = true ->
  settled (execute c o s).
Proof.
  intros AL TL TH SG SO G H R. unfold execute.
  destruct (negb (sqdone s) && can_start c s) eqn:E; [|now apply after_scene_settled].
  apply andb_true_iff in E. destruct E as [S CS]. apply negb_true_iff in S.
  pose proof (scan_Good o (scene c) s G) as SG1. destruct (scan_SD o (scene c) s H S) as [K1 K2].
  destruct (scan c o (scene c) s) as [s'|[t|] s'].
  - rewrite K2, R. intros [X|X]; discriminate.
  - destruct K1 as (D1 & S1 & R1). destruct SG1 as (G1 & [B1 B2] & NR).
    destruct (scene_start c o t s') as [s2 b] eqn:SS.
    destruct (scene_start_SD o t s' s2 b SS D1 S1) as [D2 R2].
    assert (G2 : Good s2).
    { eapply scene_start_Good; eauto. unfold can_start in *. now rewrite B1, B2. }
    destruct b; [rewrite R2, R1, R; intros [X|X]; discriminate|]. apply after_scene_settled; auto. congruence.
  - destruct K1 as (D1 & S1 & R1). destruct SG1 as (G1 & _). apply after_scene_settled; auto. congruence.
Qed.
End P.
