(** Theorems C91-C95. *)
From Coq Require Import String Ascii List Bool Arith Lia.
From Verif Require Import Str_Model Str_Proofs Graph_Model Graph_Spec Graph_Proofs.
Import ListNotations.
Open Scope list_scope.

(** ** C91: direct dependencies *)
(** The direct dependencies of a task are exactly those named by its recipe, without the task itself. *)
Theorem direct_exact : forall D dep, all_depends D (d_tasks D) = Some dep -> forall t x, In x (dep t) <-> direct_dep D t x.
Proof. intros D dep H t x. now apply dep_direct. Qed.
(** All dependencies exist, and every multiconfig dependency has a provider. *)
Definition complete (D : data) : Prop := forall t, In t (d_tasks D) -> ~ failed D t ->
  (forall x, names D t x -> In x (d_tasks D)) /\
  (forall l u l' to n task, d_mcdepends D t = Some l -> In u (d_tasks D) -> d_mc D (fst u) = d_mc D (fst t) -> d_mcdepends D u = Some l' ->
     In (d_mc D (fst t), to, n, task) l' -> exists f, d_build D to n = Some f).
Lemma inter_ok D look skip l : (forall n w f, In (n, w) l -> skip n = false -> look n = Some f -> In (f, w) (d_tasks D)) <-> exists r, inter D look skip l = Some r.
Proof.
  induction l as [|[n w] l IH]; cbn; [split; [intros _; now exists []|intros _ n w f []]|]. destruct (skip n) eqn:SK; [|destruct (look n) as [f|] eqn:L].
  - rewrite <- IH. split; intros H n' w' f' I; [apply H; now right|]. destruct I as [I|I]; [injection I as <- <-; congruence|now apply H].
  - destruct (mem (f, w) (d_tasks D)) eqn:M.
    + assert (X : (exists r, option_map (cons (f, w)) (inter D look skip l) = Some r) <-> exists r, inter D look skip l = Some r).
      { destruct (inter D look skip l); cbn; split; intros [r H]; try discriminate; eauto. }
      rewrite X, <- IH. apply mem_In in M. split; intros H n' w' f' I; [apply H; now right|]. destruct I as [I|I]; [injection I as <- <-; intros _ LF; replace f' with f by congruence; exact M|now apply H].
    + apply mem_nIn in M. split; [intros H; exfalso; apply M, (H n w f); auto|intros [r H]; discriminate].
  - rewrite <- IH. split; intros H n' w' f' I; [apply H; now right|]. destruct I as [I|I]; [injection I as <- <-; congruence|now apply H].
Qed.
Lemma mc_ok D mc l : (forall to n task, In (mc, to, n, task) l -> exists f, d_build D to n = Some f) <-> exists r, mc_deps D mc l = Some r.
Proof.
  induction l as [|[[[from to] n] task] l IH]; cbn; [split; [intros _; now exists []|intros _ ? ? ? []]|]. destruct (seqb mc from) eqn:E.
  - apply seqb_eq in E. subst from. destruct (d_build D to n) as [f|] eqn:B.
    + assert (X : (exists r, match mc_deps D mc l with Some r => Some ((f, task) :: r) | None => None end = Some r) <-> exists r, mc_deps D mc l = Some r).
      { destruct (mc_deps D mc l); split; intros [r H]; try discriminate; eauto. }
      rewrite X, <- IH. split; intros H to' n' t' I; [apply (H to' n' t'); now right|]. destruct I as [I|I]; [injection I as <- <- _; now exists f|now apply (H to' n' t')].
    + split; [intros H; destruct (H to n task) as [f F]; [now left|congruence]|intros [r H]; discriminate].
  - assert (mc <> from) by (intros ->; now rewrite seqb_refl in E). rewrite <- IH. split; intros H' to' n' t' I; [apply (H' to' n' t'); now right|]. destruct I as [I|I]; [congruence|now apply (H' to' n' t')].
Qed.
Lemma depends_ok D t : In t (d_tasks D) -> ~ failed D t ->
  ((forall x, names D t x -> In x (d_tasks D)) /\ (forall l u l' to n task, d_mcdepends D t = Some l -> In u (d_tasks D) -> d_mc D (fst u) = d_mc D (fst t) -> d_mcdepends D u = Some l' ->
     In (d_mc D (fst t), to, n, task) l' -> exists f, d_build D to n = Some f)) <->
  exists ds, depends_of D t = Some ds /\ forall x, In x ds -> In x (d_tasks D).
Proof.
  intros IT NF. split.
  - intros [HN HM]. assert (X : exists ds, depends_of D t = Some ds).
    { unfold depends_of. destruct (mem_str (fst t) (d_failed_fns D)); [eauto|]. set (mc := d_mc D (fst t)) in *.
      assert (exists m, match d_mcdepends D t with Some _ => mc_deps D mc (mcdepends D mc) | None => Some [] end = Some m) as [m ->].
      { destruct (d_mcdepends D t) as [l|] eqn:E; [|eauto]. apply mc_ok. intros to n task I. apply mcdepends_In in I. destruct I as (u & l' & A & B & C & F). eapply HM; eauto. }
      assert (exists i, inter D (d_build D mc) (fun n => mem_str n (d_failed_deps D mc)) (d_idepends D t) = Some i) as [i ->].
      { apply inter_ok. intros n w f I S L. apply HN. apply (N_idep D t n w f); auto. intros J. apply mem_str_In in J. unfold mc in S. congruence. }
      assert (exists i, inter D (d_run D mc) (fun _ => false) (d_irdepends D t) = Some i) as [ir ->].
      { apply inter_ok. intros n w f I S L. apply HN. now apply (N_irdep D t n w f). }
      eauto. }
    destruct X as [ds E]. exists ds. split; auto. intros x I. apply (depends_of_In D t ds x IT E) in I. destruct I as (_ & _ & N & _). auto.
  - intros (ds & E & C). split.
    + intros x N. destruct (tid_dec x t) as [->|NE]; auto. apply C. apply (depends_of_In D t ds x IT E). split; auto.
    + intros l u l' to n task A B1 B2 B3 B4. unfold depends_of in E. destruct (mem_str (fst t) (d_failed_fns D)) eqn:F; [apply mem_str_In in F; contradiction|]. rewrite A in E.
      destruct (mc_deps D (d_mc D (fst t)) (mcdepends D (d_mc D (fst t)))) as [m|] eqn:M; [|discriminate].
      apply (proj2 (mc_ok D _ _) (ex_intro _ m M) to n task). apply mcdepends_In. exists u, l'. auto.
Qed.
(** Preparing a build fails in this step exactly if a dependency does not exist; the search for the dependencies of
    recrdeptask always ends. *)
Theorem resolve_succeeds : forall D, NoDup (d_tasks D) -> (exists dep, resolve D = Some dep) <-> complete D.
Proof.
  intros D ND. split.
  - intros [dep' H]. destruct (resolve_parts D dep' H) as (dep & _ & _ & A & _). intros t IT NF. apply depends_ok; auto.
    destruct (all_depends_spec D _ _ A t) as [B _]. destruct (B IT) as (ds & E & _ & C). eauto.
  - intros C. apply resolve_total; auto. assert (G : forall l, (forall t, In t l -> In t (d_tasks D)) -> exists dep, all_depends D l = Some dep); [|now apply G].
    induction l as [|t l IH]; intros HL; cbn; [eauto|]. destruct IH as [f F]; [intros u I; apply HL; now right|].
    assert (exists ds, depends_of D t = Some ds /\ forall x, In x ds -> In x (d_tasks D)) as (ds & E & HD).
    { destruct (mem_str (fst t) (d_failed_fns D)) eqn:FF.
      - exists []. unfold depends_of. rewrite FF. split; auto. intros x [].
      - apply depends_ok; [apply HL; now left| |apply C; [apply HL; now left|]]; intros I; apply mem_str_In in I; congruence. }
    rewrite E, F. replace (forallb (fun x => mem x (d_tasks D)) ds) with true; [eauto|]. symmetry. apply forallb_forall. intros x I. now apply mem_In, HD.
Qed.

(** ** C92: recrdeptask *)
(** Without circular dependencies, the dependencies of each task after recrdeptask has been resolved are exactly those
    the rules give. *)
Theorem recrdeptask_exact : forall D dep, NoDup (d_tasks D) -> resolve D = Some dep -> no_cycle (direct_dep D) -> forall t x, In x (dep t) <-> final_dep D t x.
Proof. intros D dep N H NC t x. split; [now apply resolve_sound|now apply resolve_complete]. Qed.
(** With them, still nothing else is added, and nothing direct is lost except between tasks that name themselves. *)
Theorem recrdeptask_nothing_else : forall D dep, NoDup (d_tasks D) -> resolve D = Some dep -> forall t x, In x (dep t) -> final_dep D t x.
Proof. intros D dep N H t x. now apply resolve_sound. Qed.
Theorem direct_kept : forall D dep, NoDup (d_tasks D) -> resolve D = Some dep -> forall t x, direct_dep D t x -> ~ (self_recursive D t /\ self_recursive D x) -> In x (dep t).
Proof.
  intros D dep' N H t x DD NS. destruct (resolve_parts D dep' H) as (dep & cum & dep1 & A & C & P & ->). apply no_selfref_In. split; auto.
  destruct (passes_full D cum _ _ _ _ P) as (E & _). apply (dep_direct D dep A) in DD. destruct (E t) as [e ->]. apply in_or_app. now left.
Qed.
(** In words: a task t with recrdeptask waits for task w of each recipe that has a task anywhere below something t
    depends on. *)
Theorem recrdeptask_waits : forall D dep, NoDup (d_tasks D) -> resolve D = Some dep -> no_cycle (direct_dep D) ->
  forall t d y w, recursive_task D t -> direct_dep D t d -> path (direct_dep D) d y -> flag_word (d_recrdeptask D t) w -> In (fst y, w) (d_tasks D) ->
  (fst y, w) <> t -> ~ flag_word (d_recrdeptask D t) (snd t) -> In (fst y, w) (dep t).
Proof.
  intros D dep N H NC t d y w RT DD P W T NE NS. apply recrdeptask_exact with D; auto. split.
  - apply D_below with d; [now apply D_direct|]. split; auto. split; [exists y; auto|]. auto.
  - intros [[_ S] _]. auto.
Qed.

(** ** C93, C94: the tasks of a build *)
Lemma endswith_dash s : endswith (s_ "-") s = true <-> exists t, s = t ++ s_ "-".
Proof. apply endswith_iff. Qed.
Lemma roots_exact D dep g r : roots D dep g = Some r -> forall x, In x r <-> asks D (fun a b => In b (dep a)) g x.
Proof.
  unfold roots, asks. intros H x. destruct (d_build D (g_mc g) (g_name g)) as [f|]; [|injection H as <-; split; [intros []|intros ([f F] & _); discriminate]].
  destruct (mem_str (g_name g) (d_failed_deps D (g_mc g))) eqn:F1; cbn [orb] in H; [apply mem_str_In in F1; injection H as <-; split; [intros []|tauto]|].
  destruct (mem_str (g_fn g) (d_failed_fns D)) eqn:F2; [apply mem_str_In in F2; injection H as <-; split; [intros []|tauto]|].
  assert (N1 : ~ In (g_name g) (d_failed_deps D (g_mc g))) by (intros I; apply mem_str_In in I; congruence).
  assert (N2 : ~ In (g_fn g) (d_failed_fns D)) by (intros I; apply mem_str_In in I; congruence).
  destruct (endswith (s_ "-") (g_task g)) eqn:E; (destruct (mem _ (d_tasks D)) eqn:M; [|discriminate]); injection H as <-.
  - apply endswith_dash in E. destruct E as [s E]. rewrite E. change (s_ "-") with ["-"%char] in *. rewrite removelast_last. split.
    + intros I. split; [eauto|]. split; [auto|]. split; [auto|]. right. exists s. auto.
    + intros (_ & _ & _ & [[NX _]|(s' & E' & I)]); [exfalso; apply NX; now exists s|]. apply app_inj_tail in E'. destruct E' as [-> _]. exact I.
  - assert (NE : ~ exists s, g_task g = s ++ s_ "-") by (rewrite <- endswith_dash; congruence). split.
    + intros [<-|[]]. split; [eauto|]. split; [auto|]. split; [auto|]. left. auto.
    + intros (_ & _ & _ & [[_ ->]|(s & E' & _)]); [now left|]. destruct NE. now exists s.
Qed.
Lemma roots_tasks D dep g r : roots D dep g = Some r -> (forall t x, In x (dep t) -> In x (d_tasks D)) -> forall x, In x r -> In x (d_tasks D).
Proof.
  unfold roots. destruct (match d_build D (g_mc g) (g_name g) with None => true | Some _ => _ end); [intros [= <-] _ x []|].
  destruct (mem _ (d_tasks D)) eqn:M; [|discriminate]. apply mem_In in M. destruct (endswith (s_ "-") (g_task g)); intros [= <-] C x; [apply C|]. intros [<-|[]]. exact M.
Qed.
Lemma all_roots_exact D dep l : forall r, all_roots D dep l = Some r -> (forall t x, In x (dep t) -> In x (d_tasks D)) ->
  (forall x, In x r -> In x (d_tasks D)) /\ forall x, In x r <-> exists g, In g l /\ asks D (fun a b => In b (dep a)) g x.
Proof.
  induction l as [|g l IH]; intros r H C; cbn in H; [injection H as <-; split; [intros x []|]; intros x; split; [intros []|intros (g & [] & _)]|].
  destruct (roots D dep g) as [a|] eqn:A; [|discriminate]. destruct (all_roots D dep l) as [b|]; [|discriminate]. injection H as <-. destruct (IH b eq_refl C) as [IH1 IH2]. split.
  - intros x I. apply in_app_or in I. destruct I as [I|I]; [|auto]. now apply (roots_tasks D dep g a A C).
  - intros x. rewrite in_app_iff, (roots_exact D dep g a A), IH2. split.
    + intros [I|(g' & I & J)]; [exists g; cbn; auto|exists g'; cbn; auto].
    + intros (g' & [->|I] & J); [now left|right; exists g'; auto].
Qed.
(** The tasks of a build are exactly those that are requested and everything they depend on, directly or not, changed
    by --runall and --runonly as these say. *)
Theorem build_exact : forall D targets runalls runonlys active dep, NoDup (d_tasks D) -> prepare D targets runalls runonlys = Some (active, dep) ->
  let R x y := In y (dep x) in
  resolve D = Some dep /\ NoDup active /\
  forall x, In x active <-> only_of R (all_of (d_tasks D) R (requested D R targets) runalls) runonlys x.
Proof.
  intros D ts ra ro active dep N H R. unfold prepare in H. destruct (resolve D) as [dep0|] eqn:RS; [|discriminate].
  assert (CL : forall t x, In x (dep0 t) -> In x (d_tasks D)) by (intros t x I; now apply (resolve_closed D dep0 t x RS)).
  destruct (all_roots D dep0 ts) as [rt|] eqn:AR; [|discriminate]. destruct (all_roots_exact D dep0 ts rt AR CL) as [RT RX].
  destruct (mark_all_exact dep0 (d_tasks D) CL rt RT) as (a & MA & NA & HA). rewrite MA in H.
  assert (HB : forall x, In x a <-> requested D (fun p q => In q (dep0 p)) ts x).
  { intros x. rewrite HA. unfold requested. split; [intros (t & I & L); apply RX in I; destruct I as (g & G & I); exists g, t; auto|]. intros (g & t & G & I & L). exists t. split; auto. apply RX. exists g. auto. }
  set (R0 := fun p q => In q (dep0 p)) in *. set (base := requested D R0 ts) in *.
  destruct (match ra with [] => Some a | _ => runall (d_tasks D) dep0 (S (S (length (d_tasks D)))) ra [] a end) as [b|] eqn:RA; [|discriminate].
  assert (HA2 : NoDup b /\ forall x, In x b <-> all_of (d_tasks D) R0 base ra x).
  { destruct ra as [|n0 ra].
    - injection RA as <-. split; auto. intros x. rewrite HB. unfold all_of. split; [auto|]. intros [[_ B]|[NE _]]; [exact B|congruence].
    - destruct (runall_exact (d_tasks D) dep0 CL (n0 :: ra) base (S (S (length (d_tasks D)))) [] a) as (b' & E & NB & HX).
      + intros x I. left. now apply HB.
      + constructor.
      + intros x [].
      + intros x _ _ (y & B & F). exists y. split; auto. now apply HB.
      + now left.
      + cbn. lia.
      + rewrite E in RA. injection RA as ->. split; auto. intros x. rewrite HX. unfold all_of. split; [intros I; right; split; [discriminate|exact I]|]. intros [[NE _]|[_ I]]; [discriminate|exact I]. }
  destruct HA2 as [NB HB2].
  assert (BT : forall x, In x b -> In x (d_tasks D)).
  { assert (LT : forall r x, leads R0 r x -> In r (d_tasks D) -> In x (d_tasks D)). { intros r x [<-|P] I; auto. clear I. induction P as [p q Q|p q z Q P IH]; auto. now apply CL with p. }
    intros x I. apply HB2 in I. destruct I as [[_ I]|[_ (r & SW & L)]].
    - apply HB in I. apply HA in I. destruct I as (t & I & L). apply (LT t); auto.
    - apply (LT r); auto. destruct SW; auto. }
  destruct (match ro with [] => Some b | _ => runonly (d_tasks D) dep0 ro b end) as [c|] eqn:RO; [|discriminate].
  assert (HC : NoDup c /\ forall x, In x c <-> only_of R0 (all_of (d_tasks D) R0 base ra) ro x).
  { destruct ro as [|n0 ro].
    - injection RO as <-. split; auto. intros x. rewrite HB2. unfold only_of. split; [auto|]. intros [[_ B]|[NE _]]; [exact B|congruence].
    - destruct (runonly_exact (d_tasks D) dep0 CL (n0 :: ro) b BT) as (c' & E & NC & HX). rewrite E in RO. injection RO as ->. split; auto. intros x. rewrite HX. unfold only_of. setoid_rewrite HB2.
      split; [intros I; right; split; [discriminate|exact I]|]. intros [[NE _]|[_ I]]; [discriminate|exact I]. }
  destruct c as [|c0 c]; [discriminate|]. injection H as <- <-. split; [reflexivity|]. exact HC.
Qed.
(** Everything a task of the build depends on is in the build, and what is asked for without options is built. *)
Theorem build_closed : forall D targets runalls runonlys active dep, NoDup (d_tasks D) -> prepare D targets runalls runonlys = Some (active, dep) ->
  forall t x, In t active -> In x (dep t) -> In x active.
Proof.
  intros D ts ra ro active dep N H t x I J. destruct (build_exact D ts ra ro active dep N H) as (_ & _ & B). apply B. apply B in I.
  assert (ST : forall r y z, leads (fun a b => In b (dep a)) r y -> In z (dep y) -> leads (fun a b => In b (dep a)) r z).
  { intros r y z L Z. apply leads_trans with y; auto. right. now apply P_one. }
  assert (AL : all_of (d_tasks D) (fun a b => In b (dep a)) (requested D (fun a b => In b (dep a)) ts) ra t -> all_of (d_tasks D) (fun a b => In b (dep a)) (requested D (fun a b => In b (dep a)) ts) ra x).
  { intros [[-> (g & r & G & A & L)]|[NE (r & SW & L)]]; [left; split; auto; exists g, r; eauto|right; split; auto; exists r; eauto]. }
  destruct I as [[-> I]|[NE (r & A & W & L)]]; [left; split; auto|right; split; auto; exists r; eauto].
Qed.
Theorem needed_exact : forall D targets active dep, NoDup (d_tasks D) -> prepare D targets [] [] = Some (active, dep) ->
  forall x, In x active <-> requested D (fun a b => In b (dep a)) targets x.
Proof.
  intros D ts active dep N H x. destruct (build_exact D ts [] [] active dep N H) as (_ & _ & B). rewrite B. unfold only_of, all_of. split.
  - intros [[_ [[_ I]|[NE _]]]|[NE _]]; [exact I|congruence|congruence].
  - intros I. left. split; auto.
Qed.
(** The build is refused exactly if a dependency or a requested task does not exist or nothing is to be done. *)
Definition task_exists (D : data) (g : target) : Prop :=
  (exists f, d_build D (g_mc g) (g_name g) = Some f) -> ~ In (g_name g) (d_failed_deps D (g_mc g)) -> ~ In (g_fn g) (d_failed_fns D) ->
  (~ (exists s, g_task g = s ++ s_ "-") -> In (g_fn g, g_task g) (d_tasks D)) /\ (forall s, g_task g = s ++ s_ "-" -> In (g_fn g, s) (d_tasks D)).
Lemma roots_ok D dep g : (exists r, roots D dep g = Some r) <-> task_exists D g.
Proof.
  unfold roots, task_exists. destruct (d_build D (g_mc g) (g_name g)) as [f|]; [|split; [intros _ [f F]; discriminate|eauto]].
  destruct (mem_str (g_name g) (d_failed_deps D (g_mc g))) eqn:F1; cbn [orb]; [apply mem_str_In in F1; split; [tauto|intros _; eexists; reflexivity]|].
  destruct (mem_str (g_fn g) (d_failed_fns D)) eqn:F2; [apply mem_str_In in F2; split; [tauto|intros _; eexists; reflexivity]|].
  assert (N1 : ~ In (g_name g) (d_failed_deps D (g_mc g))) by (intros I; apply mem_str_In in I; congruence).
  assert (N2 : ~ In (g_fn g) (d_failed_fns D)) by (intros I; apply mem_str_In in I; congruence).
  set (t := (g_fn g, if endswith (s_ "-") (g_task g) then removelast (g_task g) else g_task g)).
  assert (X : (exists r, (if mem t (d_tasks D) then Some (if endswith (s_ "-") (g_task g) then dep t else [t]) else None) = Some r) <-> In t (d_tasks D)).
  { destruct (mem t (d_tasks D)) eqn:M; [apply mem_In in M|apply mem_nIn in M]; split; eauto; [intros [r H]; discriminate|contradiction]. }
  rewrite X. unfold t. clear X t. destruct (endswith (s_ "-") (g_task g)) eqn:E.
  - apply endswith_dash in E. destruct E as [s E]. rewrite E. change (s_ "-") with ["-"%char] in *. rewrite removelast_last. split.
    + intros I _ _ _. split; [intros NX; exfalso; apply NX; now exists s|]. intros s' E'. apply app_inj_tail in E'. destruct E' as [<- _]. exact I.
    + intros H. apply H; eauto.
  - assert (NE : ~ exists s, g_task g = s ++ s_ "-") by (rewrite <- endswith_dash; congruence). split.
    + intros I _ _ _. split; [auto|]. intros s E'. destruct NE. now exists s.
    + intros H. apply (proj1 (H (ex_intro _ f eq_refl) N1 N2)), NE.
Qed.
Theorem build_accepted : forall D targets runalls runonlys, NoDup (d_tasks D) ->
  (exists r, prepare D targets runalls runonlys = Some r) <->
  complete D /\ Forall (task_exists D) targets /\
  exists dep x, resolve D = Some dep /\ only_of (fun a b => In b (dep a)) (all_of (d_tasks D) (fun a b => In b (dep a)) (requested D (fun a b => In b (dep a)) targets) runalls) runonlys x.
Proof.
  intros D ts ra ro N. split.
  - intros [[active dep] H]. destruct (build_exact D ts ra ro active dep N H) as (RS & _ & B). split; [apply resolve_succeeds; eauto|].
    unfold prepare in H. rewrite RS in H. split.
    + destruct (all_roots D dep ts) as [rt|] eqn:AR; [|discriminate]. clear -AR. revert rt AR. induction ts as [|g ts IH]; intros rt AR; [constructor|]. cbn in AR.
      destruct (roots D dep g) as [a|] eqn:A; [|discriminate]. destruct (all_roots D dep ts) as [b|]; [|discriminate]. constructor; [apply (roots_ok D dep); eauto|eauto].
    + destruct (all_roots D dep ts); [|discriminate]. destruct (mark_all _ _ _ _); [|discriminate]. destruct (match ra with [] => _ | _ => _ end); [|discriminate].
      destruct (match ro with [] => _ | _ => _ end) as [[|x c]|]; try discriminate. injection H as <-. exists dep, x. split; auto. apply B. now left.
  - intros (_ & TE & dep & x & RS & O). unfold prepare. rewrite RS.
    assert (CL : forall t x, In x (dep t) -> In x (d_tasks D)) by (intros t y I; now apply (resolve_closed D dep t y RS)).
    assert (exists rt, all_roots D dep ts = Some rt) as [rt AR].
    { clear O. induction TE as [|g ts G TE IH]; cbn; [eauto|]. apply (roots_ok D dep) in G. destruct G as [a ->], IH as [b ->]. eauto. }
    rewrite AR. destruct (all_roots_exact D dep ts rt AR CL) as [RT RX]. destruct (mark_all_exact dep (d_tasks D) CL rt RT) as (a & MA & NA & HA). rewrite MA.
    set (R0 := fun p q => In q (dep p)) in *.
    assert (HB : forall x, In x a <-> requested D R0 ts x).
    { intros y. rewrite HA. unfold requested. split; [intros (t & I & L); apply RX in I; destruct I as (g & G & I); exists g, t; auto|]. intros (g & t & G & I & L). exists t. split; auto. apply RX. exists g. auto. }
    assert (exists b, match ra with [] => Some a | _ => runall (d_tasks D) dep (S (S (length (d_tasks D)))) ra [] a end = Some b /\ forall y, In y b <-> all_of (d_tasks D) R0 (requested D R0 ts) ra y) as (b & EB & HB2).
    { destruct ra as [|n0 ra].
      - exists a. split; auto. intros y. rewrite HB. unfold all_of. split; [auto|]. intros [[_ B]|[NE _]]; [exact B|congruence].
      - destruct (runall_exact (d_tasks D) dep CL (n0 :: ra) (requested D R0 ts) (S (S (length (d_tasks D)))) [] a) as (b' & E & NB & HX).
        + intros y I. left. now apply HB.
        + constructor.
        + intros y [].
        + intros y _ _ (z & B & F). exists z. split; auto. now apply HB.
        + now left.
        + cbn. lia.
        + exists b'. split; auto. intros y. rewrite HX. unfold all_of. split; [intros I; right; split; [discriminate|exact I]|]. intros [[NE _]|[_ I]]; [discriminate|exact I]. }
    rewrite EB.
    assert (BT : forall y, In y b -> In y (d_tasks D)).
    { assert (LT : forall r y, leads R0 r y -> In r (d_tasks D) -> In y (d_tasks D)). { intros r y [<-|P] I; auto. clear I. induction P as [p q Q|p q z Q P IH]; auto. now apply CL with p. }
      intros y I. apply HB2 in I. destruct I as [[_ I]|[_ (r & SW & L)]].
      - apply HB in I. apply HA in I. destruct I as (t & I & L). apply (LT t); auto.
      - apply (LT r); auto. destruct SW; auto. }
    assert (exists c, match ro with [] => Some b | _ => runonly (d_tasks D) dep ro b end = Some c /\ In x c) as (c & EC & HC).
    { destruct ro as [|n0 ro].
      - exists b. split; auto. apply HB2. destruct O as [[_ O]|[NE _]]; [exact O|congruence].
      - destruct (runonly_exact (d_tasks D) dep CL (n0 :: ro) b BT) as (c' & E & NC & HX). exists c'. split; auto. apply HX. destruct O as [[NE _]|[_ (r & A & B)]]; [discriminate|]. exists r. split; [now apply HB2|exact B]. }
    rewrite EC. destruct c; [contradiction|]. eauto.
Qed.

(** ** C95: versions of a recipe *)
(** The check passes if and only if no two recipe files of the build in the same multiconfig share the name of the
    recipe and something they provide, except for names that are exempt. *)
Lemma distinct_iff l : forall seen, distinct seen l = true <-> NoDup l /\ forall x, In x l -> ~ In x seen.
Proof.
  induction l as [|p l IH]; intros seen; cbn; [split; [intros _; split; [constructor|intros x []]|auto]|]. rewrite andb_true_iff, negb_true_iff, IH, <- not_true_iff_false, mem_str_In. split.
  - intros (A & B & C). split; [constructor; auto; intros I; apply (C p I); now left|]. intros x [<-|I]; auto. intros J. apply (C x I). now right.
  - intros [A B]. inversion A as [|? ? NI ND]; subst. split; [apply B; now left|]. split; auto. intros x I [<-|J]; [auto|]. apply (B x); auto.
Qed.
Lemma NoDup_map_iff {A B} (f : A -> B) l : NoDup l -> NoDup (map f l) <-> forall x y, In x l -> In y l -> x <> y -> f x <> f y.
Proof.
  intros N. induction N as [|a l NI N IH]; cbn; [split; [intros _ x y []|constructor]|]. split.
  - intros H x y IX IY NE E. inversion H as [|? ? NI' N']; subst. destruct IX as [<-|IX], IY as [<-|IY]; [congruence|apply NI'; rewrite E; now apply in_map|apply NI'; rewrite <- E; now apply in_map|].
    revert E. apply IH; auto.
  - intros H. constructor; [|apply IH; intros x y IX IY; apply H; auto]. intros I. apply in_map_iff in I. destruct I as (y & E & IY). apply (H y a); auto. intros ->. auto.
Qed.
Lemma fold_sadd_NoDup l : forall s, NoDup s -> NoDup (fold_left sadd l s).
Proof.
  induction l as [|x l IH]; intros s N; cbn; auto. apply IH. unfold sadd. destruct (mem_str x s) eqn:E; auto. assert (NI : ~ In x s) by (intros I; apply mem_str_In in I; congruence).
  apply NoDup_app_intro; auto; [constructor; [intros []|constructor]|]. intros y I [<-|[]]. auto.
Qed.
Theorem versions_exact : forall D provides pn allowed mc active, versions_ok D provides pn allowed mc active = true <->
  forall t u p, In t active -> In u active -> d_mc D (fst t) = mc -> d_mc D (fst u) = mc -> fst t <> fst u -> In p (provides (fst t)) -> In p (provides (fst u)) -> ~ In p allowed ->
    pn (fst t) <> pn (fst u).
Proof.
  intros D provides pn allowed mc active. unfold versions_ok, one_version. set (fns := fold_left sadd _ []).
  assert (F : forall f, In f fns <-> exists t, In t active /\ fst t = f /\ d_mc D f = mc).
  { intros f. unfold fns. rewrite fold_sadd_In, filter_In, in_map_iff, seqb_eq. split; [intros [[]|[(t & E & I) M]]; exists t; auto|]. intros (t & I & E & M). right. split; [exists t|]; auto. }
  assert (ND : NoDup fns) by (apply fold_sadd_NoDup; constructor). rewrite forallb_forall. setoid_rewrite orb_true_iff. setoid_rewrite distinct_iff. split.
  - intros H t u p IT IU MT MU NE PT PU NA. assert (FT : In (fst t) fns) by (apply F; exists t; auto). assert (FU : In (fst u) fns) by (apply F; exists u; auto).
    destruct (H p) as [A|[A _]]; [apply in_flat_map; exists (fst t); auto|apply mem_str_In in A; contradiction|].
    apply (proj1 (NoDup_map_iff pn _ (NoDup_filter _ ND)) A); auto; apply filter_In; (split; [assumption|now apply mem_str_In]).
  - intros H p I. destruct (mem_str p allowed) eqn:AL; [now left|right]. assert (NA : ~ In p allowed) by (intros J; apply mem_str_In in J; congruence). split; [|intros x _ []].
    apply NoDup_map_iff; [now apply NoDup_filter|]. intros x y IX IY NE. apply filter_In in IX, IY. destruct IX as [IX PX], IY as [IY PY]. apply mem_str_In in PX, PY.
    apply F in IX, IY. destruct IX as (t & T1 & <- & T2), IY as (u & U1 & <- & U2). now apply (H t u p).
Qed.
(** Since every recipe provides its own name, two versions of a recipe are never built together. *)
Theorem one_version_built : forall D provides pn allowed mc active, versions_ok D provides pn allowed mc active = true -> (forall f, In (pn f) (provides f)) ->
  forall t u, In t active -> In u active -> d_mc D (fst t) = mc -> d_mc D (fst u) = mc -> pn (fst t) = pn (fst u) -> ~ In (pn (fst t)) allowed -> fst t = fst u.
Proof.
  intros D provides pn allowed mc active H P t u IT IU MT MU E NA. destruct (seqb (fst t) (fst u)) eqn:S; [now apply seqb_eq|]. exfalso.
  assert (NE : fst t <> fst u) by (intros X; rewrite X, seqb_refl in S; discriminate).
  apply (proj1 (versions_exact D provides pn allowed mc active) H t u (pn (fst t)) IT IU MT MU NE); auto. rewrite E. apply P.
Qed.

(** ** Cases *)
Definition at_ {A} (l : list (tid * A)) (d : A) (t : tid) : A := match find (fun p => teqb (fst p) t) l with Some p => snd p | None => d end.
Definition of_ {A} (l : list (str * A)) (d : A) (n : str) : A := match find (fun p => seqb (fst p) n) l with Some p => snd p | None => d end.
Definition t_ (f t : string) : tid := (s_ f, s_ t).
(** image needs app, app needs lib (by name), do_image of image waits for do_deploy everywhere below *)
Definition demo : data := {|
  d_tasks := [t_ "image.bb" "do_fetch"; t_ "image.bb" "do_build"; t_ "image.bb" "do_image"; t_ "app.bb" "do_build"; t_ "app.bb" "do_deploy"; t_ "lib.bb" "do_build"; t_ "lib.bb" "do_deploy"; t_ "lib.bb" "do_test"; t_ "other.bb" "do_build"];
  d_mc := fun _ => [];
  d_tdepends := at_ [(t_ "image.bb" "do_build", [t_ "image.bb" "do_fetch"]); (t_ "image.bb" "do_image", [t_ "image.bb" "do_build"]); (t_ "lib.bb" "do_test", [t_ "lib.bb" "do_build"])] [];
  d_build := fun _ => of_ [(s_ "image", Some (s_ "image.bb")); (s_ "app", Some (s_ "app.bb")); (s_ "lib", Some (s_ "lib.bb")); (s_ "other", Some (s_ "other.bb"))] None;
  d_run := fun _ _ => None;
  d_depids := of_ [(s_ "image.bb", [s_ "app"])] [];
  d_rdepids := fun _ => [];
  d_deptask := at_ [(t_ "image.bb" "do_build", Some [s_ "do_build"])] None;
  d_rdeptask := fun _ => None;
  d_recrdeptask := at_ [(t_ "image.bb" "do_image", Some [s_ "do_deploy"])] None;
  d_recideptask := fun _ => None;
  d_idepends := at_ [(t_ "app.bb" "do_build", [(s_ "lib", s_ "do_build")])] [];
  d_irdepends := fun _ => [];
  d_failed_deps := fun _ => [];
  d_failed_fns := [];
  d_mcdepends := fun _ => None |}.
Definition dep_of (D : data) : tid -> list tid := match resolve D with Some dep => dep | None => fun _ => [] end.
Lemma NoDup_dec (l : list tid) : (fix nd l := match l with [] => true | x :: r => negb (mem x r) && nd r end) l = true -> NoDup l.
Proof. induction l as [|x l IH]; [constructor|]. intros H. apply andb_true_iff in H. destruct H as [A B]. apply negb_true_iff, mem_nIn in A. constructor; auto. Qed.
Lemma ranked_no_cycle D dep (rank : tid -> nat) : all_depends D (d_tasks D) = Some dep -> forallb (fun t => forallb (fun x => rank x <? rank t) (dep t)) (d_tasks D) = true -> no_cycle (direct_dep D).
Proof.
  intros A F x P. assert (G : forall a b, path (direct_dep D) a b -> rank b < rank a).
  { assert (S : forall a b, direct_dep D a b -> rank b < rank a). { intros a b DD. pose proof DD as (T & _). apply (dep_direct D dep A) in DD. rewrite forallb_forall in F. specialize (F a T). rewrite forallb_forall in F. now apply Nat.ltb_lt, F. }
    induction 1; [auto|]. specialize (S _ _ H). lia. }
  specialize (G x x P). lia.
Qed.
Definition demo_rank : tid -> nat := at_ [(t_ "lib.bb" "do_test", 2); (t_ "lib.bb" "do_build", 1); (t_ "app.bb" "do_build", 3); (t_ "image.bb" "do_build", 4); (t_ "image.bb" "do_image", 5)] 0.
Example demo_acyclic : no_cycle (direct_dep demo).
Proof. destruct (all_depends demo (d_tasks demo)) as [dep|] eqn:E; [|vm_compute in E; discriminate]. apply (ranked_no_cycle demo dep demo_rank E). vm_compute in E. injection E as <-. vm_compute. reflexivity. Qed.
Example demo_nodup : NoDup (d_tasks demo). Proof. apply NoDup_dec. vm_compute. reflexivity. Qed.
Example demo_resolved : exists dep, resolve demo = Some dep /\ dep (t_ "image.bb" "do_image") = [t_ "image.bb" "do_build"; t_ "app.bb" "do_deploy"; t_ "lib.bb" "do_deploy"].
Proof. destruct (resolve demo) as [dep|] eqn:E; [|vm_compute in E; discriminate]. exists dep. split; auto. vm_compute in E. injection E as <-. vm_compute. reflexivity. Qed.
Example demo_complete : complete demo.
Proof. apply resolve_succeeds; [apply demo_nodup|]. destruct demo_resolved as (dep & E & _). eauto. Qed.
(** lib is two steps below the image: its do_deploy is waited for *)
Example demo_waits : exists dep, resolve demo = Some dep /\ In (t_ "lib.bb" "do_deploy") (dep (t_ "image.bb" "do_image")).
Proof.
  destruct demo_resolved as (dep & E & _). exists dep. split; auto.
  assert (S : forall x y, In y (match all_depends demo (d_tasks demo) with Some d => d x | None => [] end) -> direct_dep demo x y).
  { intros x y I. destruct (all_depends demo (d_tasks demo)) as [d|] eqn:A; [|contradiction]. now apply (dep_direct demo d A). }
  apply (recrdeptask_waits demo dep demo_nodup E demo_acyclic (t_ "image.bb" "do_image") (t_ "image.bb" "do_build") (t_ "lib.bb" "do_build") (s_ "do_deploy")).
  - split; [apply mem_In; reflexivity|]. split; [intros []|]. exists [s_ "do_deploy"]. reflexivity.
  - apply S. apply mem_In. vm_compute. reflexivity.
  - apply P_more with (t_ "app.bb" "do_build"); [|apply P_one]; apply S; apply mem_In; vm_compute; reflexivity.
  - exists [s_ "do_deploy"]. split; [reflexivity|now left].
  - apply mem_In. reflexivity.
  - discriminate.
  - intros (l & E' & I). injection E' as <-. destruct I as [I|[]]. discriminate I.
Qed.
Definition names_of (r : option (list tid * (tid -> list tid))) : list tid := match r with Some (l, _) => l | None => [] end.
Definition target_ (n t : string) : target := mkTarget [] (s_ n) (s_ t) (s_ n ++ s_ ".bb").
Example demo_build : names_of (prepare demo [target_ "image" "do_image"] [] []) =
  [t_ "image.bb" "do_image"; t_ "image.bb" "do_build"; t_ "image.bb" "do_fetch"; t_ "app.bb" "do_build"; t_ "lib.bb" "do_build"; t_ "app.bb" "do_deploy"; t_ "lib.bb" "do_deploy"].
Proof. vm_compute. reflexivity. Qed.
Example demo_dash : names_of (prepare demo [target_ "image" "do_build-"] [] []) = [t_ "image.bb" "do_fetch"; t_ "app.bb" "do_build"; t_ "lib.bb" "do_build"].
Proof. vm_compute. reflexivity. Qed.
Example demo_runall : names_of (prepare demo [target_ "app" "do_build"] [s_ "deploy"] []) = [t_ "app.bb" "do_deploy"; t_ "lib.bb" "do_deploy"].
Proof. vm_compute. reflexivity. Qed.
Example demo_runonly : names_of (prepare demo [target_ "image" "do_image"] [] [s_ "fetch"]) = [t_ "image.bb" "do_fetch"].
Proof. vm_compute. reflexivity. Qed.
Example demo_refused : prepare demo [target_ "image" "do_nothing"] [] [] = None /\ prepare demo [target_ "image" "do_image"] [] [s_ "do_test"] = None.
Proof. split; vm_compute; reflexivity. Qed.
Example demo_needed : exists active dep, prepare demo [target_ "image" "do_image"] [] [] = Some (active, dep) /\ forall x, In x active <-> requested demo (fun a b => In b (dep a)) [target_ "image" "do_image"] x.
Proof.
  destruct (prepare demo [target_ "image" "do_image"] [] []) as [[a dep]|] eqn:E; [|vm_compute in E; discriminate]. exists a, dep. split; auto. now apply needed_exact; [apply demo_nodup|].
Qed.
Example demo_versions : versions_ok demo (fun f => [s_ "x"; f]) (fun f => s_ "p" ++ f) [] [] (d_tasks demo) = true /\ versions_ok demo (fun f => [s_ "x"; f]) (fun f => s_ "p") [] [] (d_tasks demo) = false /\
  versions_ok demo (fun f => [s_ "p"]) (fun f => s_ "p") [s_ "p"] [] (d_tasks demo) = true.
Proof. repeat split; vm_compute; reflexivity. Qed.

Example demo_one_version : forall t u, In t (d_tasks demo) -> In u (d_tasks demo) -> s_ "p" ++ fst t = s_ "p" ++ fst u -> fst t = fst u.
Proof.
  intros t u IT IU E. apply (one_version_built demo (fun f => [s_ "p" ++ f]) (fun f => s_ "p" ++ f) [] [] (d_tasks demo)); try reflexivity; auto. intros f. now left.
Qed.

Definition two_mc : data := {|
  d_tasks := [t_ "a.bb" "do_x"; t_ "b.bb" "do_y"; t_ "mc:m:p.bb" "do_z"; t_ "mc:m:q.bb" "do_z"];
  d_mc := fun f => if startswith (s_ "mc:m:") f then s_ "m" else []; d_tdepends := fun _ => [];
  d_build := fun mc => if seqb mc (s_ "m") then of_ [(s_ "p", Some (s_ "mc:m:p.bb")); (s_ "q", Some (s_ "mc:m:q.bb"))] None else fun _ => None;
  d_run := fun _ _ => None; d_depids := fun _ => []; d_rdepids := fun _ => []; d_deptask := fun _ => None; d_rdeptask := fun _ => None;
  d_recrdeptask := fun _ => None; d_recideptask := fun _ => None; d_idepends := fun _ => []; d_irdepends := fun _ => []; d_failed_deps := fun _ => []; d_failed_fns := [];
  d_mcdepends := at_ [(t_ "a.bb" "do_x", Some [([], s_ "m", s_ "p", s_ "do_z")]); (t_ "b.bb" "do_y", Some [([], s_ "m", s_ "q", s_ "do_z")])] None |}.
(** C91, refuted: a task with mcdepends waits for what it names there only.  It also waits for what every other task of
    its multiconfig names: here a:do_x waits for q:do_z, which only b:do_y asks for. *)
Theorem mcdepends_of_others_refuted : dep_of two_mc (t_ "a.bb" "do_x") = [t_ "mc:m:p.bb" "do_z"; t_ "mc:m:q.bb" "do_z"] /\ d_mcdepends two_mc (t_ "a.bb" "do_x") = Some [([], s_ "m", s_ "p", s_ "do_z")].
Proof. split; vm_compute; reflexivity. Qed.
Definition own_recipe : data := {|
  d_tasks := [t_ "a.bb" "do_a"; t_ "x.bb" "do_b"; t_ "x.bb" "do_c"]; d_mc := fun _ => []; d_tdepends := fun _ => [];
  d_build := fun _ => of_ [(s_ "x", Some (s_ "x.bb"))] None;
  d_run := fun _ _ => None; d_depids := fun _ => []; d_rdepids := fun _ => []; d_deptask := fun _ => None; d_rdeptask := fun _ => None;
  d_recrdeptask := at_ [(t_ "a.bb" "do_a", Some [s_ "do_c"])] None; d_recideptask := fun _ => None;
  d_idepends := at_ [(t_ "a.bb" "do_a", [(s_ "x", s_ "do_b")])] []; d_irdepends := fun _ => []; d_failed_deps := fun _ => []; d_failed_fns := []; d_mcdepends := fun _ => None |}.
(** C92, refuted: do_a with recrdeptask do_c waits for do_c of all recipes it depends on.  If it depends on task do_b of
    recipe x (inter-task dependency) and do_b has no dependencies itself, it does not wait for do_c of x. *)
Theorem recrdeptask_direct_refuted : dep_of own_recipe (t_ "a.bb" "do_a") = [t_ "x.bb" "do_b"] /\ In (t_ "x.bb" "do_c") (d_tasks own_recipe).
Proof. split; [vm_compute; reflexivity|cbn; tauto]. Qed.
Definition circular : data := {|
  d_tasks := [t_ "a.bb" "do_a"; t_ "a.bb" "do_z"; t_ "b.bb" "do_a"; t_ "b.bb" "do_z"; t_ "x.bb" "do_c"; t_ "r.bb" "do_r"]; d_mc := fun _ => []; d_tdepends := fun _ => [];
  d_build := fun _ => of_ [(s_ "x", Some (s_ "x.bb")); (s_ "a", Some (s_ "a.bb"))] None;
  d_run := fun _ => of_ [(s_ "a", Some (s_ "a.bb")); (s_ "b", Some (s_ "b.bb"))] None;
  d_depids := fun _ => []; d_rdepids := of_ [(s_ "a.bb", [s_ "b"]); (s_ "b.bb", [s_ "a"])] []; d_deptask := fun _ => None; d_rdeptask := fun _ => None;
  d_recrdeptask := at_ [(t_ "a.bb" "do_a", Some [s_ "do_a"]); (t_ "b.bb" "do_a", Some [s_ "do_a"]); (t_ "r.bb" "do_r", Some [s_ "do_z"])] None; d_recideptask := fun _ => None;
  d_idepends := at_ [(t_ "x.bb" "do_c", [(s_ "a", s_ "do_a")]); (t_ "r.bb" "do_r", [(s_ "x", s_ "do_c")])] []; d_irdepends := fun _ => []; d_failed_deps := fun _ => []; d_failed_fns := []; d_mcdepends := fun _ => None |}.
(** C92, refuted for circular runtime dependencies: packages a and b need each other at run time, which is accepted for
    tasks that name themselves in recrdeptask.  A task r:do_r that depends on x:do_c, which depends on a:do_a, waits for
    do_z of no recipe: the circle hides a and everything behind it.  The build itself has no circle left. *)
Theorem recrdeptask_circular_refuted : dep_of circular (t_ "r.bb" "do_r") = [t_ "x.bb" "do_c"] /\ dep_of circular (t_ "x.bb" "do_c") = [t_ "a.bb" "do_a"] /\
  dep_of circular (t_ "a.bb" "do_a") = [] /\ dep_of circular (t_ "b.bb" "do_a") = [] /\ final_dep circular (t_ "r.bb" "do_r") (t_ "a.bb" "do_z").
Proof.
  split; [vm_compute; reflexivity|]. split; [vm_compute; reflexivity|]. split; [vm_compute; reflexivity|]. split; [vm_compute; reflexivity|].
  assert (S : forall x y, In y (match all_depends circular (d_tasks circular) with Some d => d x | None => [] end) -> direct_dep circular x y).
  { intros x y I. destruct (all_depends circular (d_tasks circular)) as [d|] eqn:A; [|contradiction]. now apply (dep_direct circular d A). }
  split.
  - apply D_below with (t_ "x.bb" "do_c"); [apply D_direct, S, mem_In; vm_compute; reflexivity|]. split; [|split; [|split; [|split]]].
    + split; [apply mem_In; reflexivity|]. split; [intros []|]. exists [s_ "do_z"]. reflexivity.
    + exists (t_ "a.bb" "do_a"). split; [|reflexivity]. apply P_one, S, mem_In. vm_compute. reflexivity.
    + exists [s_ "do_z"]. split; [reflexivity|now left].
    + apply mem_In. reflexivity.
    + discriminate.
  - intros [[_ (l & E & I)] _]. injection E as <-. destruct I as [I|[]]. discriminate I.
Qed.

Print Assumptions direct_exact.
Print Assumptions resolve_succeeds.
Print Assumptions recrdeptask_exact.
Print Assumptions recrdeptask_nothing_else.
Print Assumptions direct_kept.
Print Assumptions recrdeptask_waits.
Print Assumptions build_exact.
Print Assumptions build_closed.
Print Assumptions needed_exact.
Print Assumptions build_accepted.
Print Assumptions versions_exact.
Print Assumptions one_version_built.
Print Assumptions mcdepends_of_others_refuted.
Print Assumptions recrdeptask_direct_refuted.
Print Assumptions recrdeptask_circular_refuted.
