(** C189, C190: the monitor of disk space. *)
From Coq Require Import Ascii String List Bool ZArith NArith Lia.
From Verif Require Import Str_Model Str_Proofs Data_Model Diskmon_Model Diskmon_Spec Diskmon_Proofs.
Import ListNotations.
Open Scope list_scope.

(** C189: with HALT and with STOPTASKS the build is told to finish at the first check that finds too little space (or too few inodes, on
    a file system that counts them), at once with HALT and after the running tasks with STOPTASKS, and it is told so once. *)
Theorem diskmon_stops : forall si ii b e before s after, sensible e -> steady b (before ++ s :: after) -> e_action e <> Warn ->
  (forall x, In x before -> ~ low b e x) -> low b e s ->
  exists es1 es es2, checks si ii (fresh e) (before ++ s :: after) = es1 ++ es :: es2 /\ length es1 = length before /\
    (forall x, In x (concat es1) -> is_finish x = false) /\ (forall x, In x (concat es2) -> is_finish x = false) /\
    ((e_action e = Halt /\ filter is_finish es = [Finish true]) \/ (e_action e = Stoptasks /\ filter is_finish es = [Finish false])).
Proof.
  intros si ii b e before s after SE ST A NB LS. assert (NF : forall l, filter is_finish l = [] -> forall x, In x l -> is_finish x = false).
  { intros l F x I. destruct (is_finish x) eqn:E; [|reflexivity]. assert (J : In x (filter is_finish l)) by (apply filter_In; auto). rewrite F in J. destruct J. }
  assert (G : belongs b e (fresh e)) by (unfold belongs, fresh; cbn; auto).
  assert (S1 : steady b before) by (intros x X; apply ST; apply in_or_app; now left). assert (S2 : steady b after) by (intros x X; apply ST; apply in_or_app; right; now right).
  assert (H1 : forall x, In x before -> lowb b e x = false). { intros x X. destruct (lowb b e x) eqn:E; [|reflexivity]. apply lowb_iff in E; [|exact SE]. destruct (NB x X E). }
  destruct (checks_app si ii (fresh e) before (s :: after)) as (m & -> & M). destruct (checks_high si ii b e before (fresh e) G S1 H1) as [F1 K]. rewrite <- M in K. cbn in K.
  assert (GM : belongs b e m) by (rewrite M; apply fold_belongs; auto).
  destruct (check_spec si ii b e m s GM) as (G2 & F2 & K2); [apply ST; apply in_or_app; right; now left|]. cbn [checks]. destruct (check si ii m s) as [es m2]. cbn [fst snd] in *.
  apply (lowb_iff b e s SE) in LS. rewrite LS, K in F2. rewrite LS, K in K2. assert (SA : stops (e_action e) = true) by (destruct (e_action e); auto; contradiction). rewrite SA in F2, K2. cbn in F2, K2.
  exists (checks si ii (fresh e) before), es, (checks si ii m2 after). split; [reflexivity|]. split; [apply checks_length|]. split; [apply NF; exact F1|]. split; [apply NF; apply (checks_done si ii b e); auto|]. destruct (e_action e); auto. contradiction.
Qed.
(** C189: with WARN the build is never told to finish. *)
Theorem diskmon_warn_only : forall si ii b e l es x, steady b l -> e_action e = Warn -> In es (checks si ii (fresh e) l) -> In x es -> is_finish x = false.
Proof.
  intros si ii b e l es x ST A I J. destruct (is_finish x) eqn:E; [|reflexivity]. assert (G : belongs b e (fresh e)) by (unfold belongs, fresh; cbn; auto).
  assert (K : In x (filter is_finish (concat (checks si ii (fresh e) l)))) by (apply filter_In; split; [apply in_concat; exists es; auto|exact E]).
  pose proof (checks_warn si ii b e l (fresh e) G ST A) as F. unfold fin in F. rewrite F in K. destruct K.
Qed.
(** C189: as long as nothing runs low, nothing is said or done. *)
Theorem diskmon_quiet : forall si ii b e l es, sensible e -> steady b l -> (forall s, In s l -> ~ low b e s) -> In es (checks si ii (fresh e) l) -> es = [].
Proof.
  intros si ii b e l es SE ST N I. assert (G : belongs b e (fresh e)) by (unfold belongs, fresh; cbn; auto).
  destruct (checks_quiet si ii b e l (fresh e) G ST) as (Q & _). { intros x X. destruct (lowb b e x) eqn:E; [|reflexivity]. apply lowb_iff in E; [|exact SE]. destruct (N x X E). }
  destruct es as [|x es]; [reflexivity|]. assert (J : In x (concat (checks si ii (fresh e) l))) by (apply in_concat; exists (x :: es); split; [exact I|now left]). rewrite Q in J. destruct J.
Qed.
(** C189: the first check that finds too little warns: of the space if it is the space, of the inodes if it is the inodes. *)
Theorem diskmon_warns : forall si ii b e before s, sensible e -> steady b (before ++ [s]) -> (forall x, In x before -> ~ low b e x) ->
  exists es1 es, checks si ii (fresh e) (before ++ [s]) = es1 ++ [es] /\ length es1 = length before /\
    (In WarnSpace es <-> low_space e s) /\ (In WarnInode es <-> b = true /\ low_inode e s).
Proof.
  intros si ii b e before s SE ST NB. assert (G : belongs b e (fresh e)) by (unfold belongs, fresh; cbn; auto).
  assert (S1 : steady b before) by (intros x X; apply ST; apply in_or_app; now left).
  assert (H1 : forall x, In x before -> lowb b e x = false). { intros x X. destruct (lowb b e x) eqn:E; [|reflexivity]. apply lowb_iff in E; [|exact SE]. destruct (NB x X E). }
  destruct (checks_app si ii (fresh e) before [s]) as (m & -> & M). destruct (checks_quiet si ii b e before (fresh e) G S1 H1) as (_ & P1 & P2). rewrite <- M in P1, P2. cbn in P1, P2.
  assert (GM : belongs b e m) by (rewrite M; apply fold_belongs; auto). assert (CB : counts s <-> b = true) by (apply ST; apply in_or_app; right; now left).
  exists (checks si ii (fresh e) before), (fst (check si ii m s)). split; [cbn [checks]; destruct (check si ii m s); reflexivity|]. split; [apply checks_length|].
  destruct SE as [A B]. pose proof (below_iff (e_space e) (free_space s) A) as B1. pose proof (below_iff (e_inode e) (free_inode s) B) as B2. fold (low_space e s) in B1. fold (low_inode e s) in B2. rewrite <- B1, <- B2. clear B1 B2.
  assert (D : Z.eqb (files s) 0 || Z.eqb (free_inode s) (-1) = negb b).
  { unfold counts in CB. destruct (Z.eqb_spec (files s) 0), (Z.eqb_spec (free_inode s) (-1)), b; cbn; try reflexivity; exfalso; intuition. }
  assert (AS : forall m0, ~ In WarnSpace (fst (act m0)) /\ ~ In WarnInode (fst (act m0))). { intro m0. unfold act. destruct (m_action m0), (m_checked m0); cbn; split; intuition discriminate. }
  assert (PI : forall m0, m_pre_i (snd (act m0)) = m_pre_i m0 /\ m_inode (snd (act m0)) = m_inode m0). { intro m0. unfold act. destruct (m_action m0), (m_checked m0) eqn:?; cbn; auto. }
  destruct GM as (_ & Q2 & Q3). unfold check.
  assert (SP : exists e1 m1, check_space si s m = (e1, m1) /\ (In WarnSpace e1 <-> below (e_space e) (free_space s) = true) /\ ~ In WarnInode e1 /\ m_pre_i m1 = 0%Z /\ m_inode m1 = m_inode m).
  { unfold check_space. rewrite Q2. destruct (below (e_space e) (free_space s)); [|exists [], m; cbn; repeat split; auto; try discriminate; intros []].
    unfold warns. rewrite P1. cbn [Z.eqb orb]. set (m0 := Monitor _ _ _ _ _ _). destruct (AS m0) as [_ N2]. destruct (PI m0) as [I1 I2]. destruct (act m0) as [es m1]. cbn [fst snd] in *. eexists _, m1. split; [reflexivity|]. cbn. repeat split; auto; [|rewrite I1; exact P2]. intros [X|X]; [discriminate|auto]. }
  destruct SP as (e1 & m1 & -> & W1 & N1 & Z1 & I1).
  assert (SI : exists e2 m2, check_inode ii s m1 = (e2, m2) /\ ~ In WarnSpace e2 /\ (In WarnInode e2 <-> b = true /\ below (e_inode e) (free_inode s) = true)).
  { unfold check_inode. rewrite D, I1. destruct Q3 as [->|[-> ->]]; [|exists [], m1; cbn; intuition discriminate]. destruct (below (e_inode e) (free_inode s)); [|exists [], m1; cbn; intuition discriminate]. destruct b; cbn [negb]; [|eexists [], _; split; [reflexivity|]; cbn; intuition discriminate].
    unfold warns. rewrite Z1. cbn [Z.eqb orb]. set (m0 := Monitor _ _ _ _ _ _). destruct (AS m0) as [N2 _]. destruct (act m0) as [es m2]. cbn [fst snd] in *. eexists _, m2. split; [reflexivity|]. cbn. split; [intros [X|X]; [discriminate|auto]|]. intuition. }
  destruct SI as (e2 & m2 & -> & N2 & W2). cbn [fst]. rewrite !in_app_iff. tauto.
Qed.
(** C189: with WARN, after a warning at [s] there is another one as soon as the space has fallen by more than the interval. *)
Theorem diskmon_warns_again : forall si ii b e before s mid t, sensible e -> steady b (before ++ s :: mid ++ [t]) -> e_action e = Warn ->
  (forall x, In x before -> ~ low b e x) -> low_space e s -> free_space s <> 0%Z ->
  (forall x, In x mid -> low_space e x -> (free_space s - free_space x <= si)%Z) -> low_space e t ->
  exists es1 es, checks si ii (fresh e) (before ++ s :: mid ++ [t]) = es1 ++ [es] /\
    (In WarnSpace es <-> (free_space s - free_space t > si)%Z).
Proof.
  intros si ii b e before s mid t SE ST A NB LS NZ MI LT. assert (G : belongs b e (fresh e)) by (unfold belongs, fresh; cbn; auto).
  assert (S1 : steady b before) by (intros x X; apply ST; apply in_or_app; now left).
  assert (H1 : forall x, In x before -> lowb b e x = false). { intros x X. destruct (lowb b e x) eqn:E; [|reflexivity]. apply lowb_iff in E; [|exact SE]. destruct (NB x X E). }
  destruct (checks_app si ii (fresh e) before (s :: mid ++ [t])) as (m & -> & M). destruct (checks_quiet si ii b e before (fresh e) G S1 H1) as (_ & P1 & _). rewrite <- M in P1. cbn in P1.
  assert (GM : belongs b e m) by (rewrite M; apply fold_belongs; auto). destruct (checks_high si ii b e before (fresh e) G S1 H1) as [_ K]. rewrite <- M in K. cbn in K. clear M G S1 H1 NB ST.
  pose proof (fun x => below_iff (e_space e) (free_space x) (proj1 SE)) as BI.
  assert (B1 : below (e_space e) (free_space s) = true) by (apply BI; exact LS). assert (B2 : below (e_space e) (free_space t) = true) by (apply BI; exact LT). destruct GM as (Q1 & Q2 & _). rewrite A in Q1.
  destruct (warn_step si ii e m s Q1 Q2 K) as (P & _ & A1 & S1 & K1). rewrite B1, P1 in P. cbn [andb Z.eqb orb] in P.
  cbn [checks]. destruct (check si ii m s) as [es0 m1]. cbn [snd] in *. clear m Q1 Q2 K P1.
  assert (X : exists es1 es, checks si ii m1 (mid ++ [t]) = es1 ++ [es] /\ (In WarnSpace es <-> (free_space s - free_space t > si)%Z)).
  { revert m1 P A1 S1 K1. induction mid as [|x mid IH]; intros m1 P A1 S1 K1.
    - cbn [app checks]. destruct (warn_step si ii e m1 t A1 S1 K1) as (_ & W & _). exists [], (fst (check si ii m1 t)). destruct (check si ii m1 t) as [es m2]. cbn [fst] in *. split; [reflexivity|]. rewrite W, B2, P. rewrite (proj2 (Z.eqb_neq _ _) NZ). cbn [andb orb]. rewrite Z.ltb_lt. lia.
    - destruct (warn_step si ii e m1 x A1 S1 K1) as (P' & _ & A2 & S2 & K2). cbn [app checks]. destruct (check si ii m1 x) as [es m2]. cbn [snd] in *. destruct (IH ltac:(intros y Y; apply MI; now right) m2) as (es1 & el & -> & Y); auto; [|exists (es :: es1), el; auto].
      rewrite P', P. rewrite (proj2 (Z.eqb_neq _ _) NZ). cbn [orb]. destruct (below (e_space e) (free_space x)) eqn:BX; [|reflexivity]. cbn [andb]. destruct (Z.ltb_spec si (free_space s - free_space x)) as [C|C]; [|reflexivity]. exfalso. pose proof (MI x (or_introl eq_refl) (proj1 (BI x) BX)). lia. }
  destruct X as (es1 & es & -> & Y). exists (checks si ii (fresh e) before ++ es0 :: es1), es. split; [now rewrite <- app_assoc|exact Y].
Qed.
(** C189: with WARN, the same holds of the inodes: there is another warning as soon as their number has fallen by more than the interval. *)
Theorem diskmon_warns_again_inodes : forall si ii e before s mid t, sensible e -> steady true (before ++ s :: mid ++ [t]) -> e_action e = Warn ->
  (forall x, In x before -> ~ low true e x) -> low_inode e s -> free_inode s <> 0%Z ->
  (forall x, In x mid -> low_inode e x -> (free_inode s - free_inode x <= ii)%Z) -> low_inode e t ->
  exists es1 es, checks si ii (fresh e) (before ++ s :: mid ++ [t]) = es1 ++ [es] /\
    (In WarnInode es <-> (free_inode s - free_inode t > ii)%Z).
Proof.
  intros si ii e before s mid t SE ST A NB LS NZ MI LT. assert (G : belongs true e (fresh e)) by (unfold belongs, fresh; cbn; auto).
  assert (S1 : steady true before) by (intros x X; apply ST; apply in_or_app; now left).
  assert (H1 : forall x, In x before -> lowb true e x = false). { intros x X. destruct (lowb true e x) eqn:E; [|reflexivity]. apply lowb_iff in E; [|exact SE]. destruct (NB x X E). }
  destruct (checks_app si ii (fresh e) before (s :: mid ++ [t])) as (m & -> & M). destruct (checks_quiet si ii true e before (fresh e) G S1 H1) as (_ & _ & P1). rewrite <- M in P1. cbn in P1.
  assert (GM : belongs true e m) by (rewrite M; apply fold_belongs; auto). destruct (checks_high si ii true e before (fresh e) G S1 H1) as [_ K]. rewrite <- M in K. cbn in K. clear M G S1 H1 NB.
  pose proof (fun x => below_iff (e_inode e) (free_inode x) (proj2 SE)) as BI.
  assert (B1 : below (e_inode e) (free_inode s) = true) by (apply BI; exact LS). assert (B2 : below (e_inode e) (free_inode t) = true) by (apply BI; exact LT). destruct GM as (Q1 & _ & Q2). assert (Q3 : m_inode m = e_inode e) by (destruct Q2 as [Q2|[Q2 _]]; [exact Q2|discriminate]). clear Q2. rename Q3 into Q2. rewrite A in Q1.
  destruct (warn_step_i si ii e m s Q1 Q2 K (proj2 (ST s ltac:(apply in_or_app; right; now left)) eq_refl)) as (P & _ & A1 & S1 & K1). rewrite B1, P1 in P. cbn [andb Z.eqb orb] in P.
  cbn [checks]. destruct (check si ii m s) as [es0 m1]. cbn [snd] in *. clear m Q1 Q2 K P1.
  assert (X : exists es1 es, checks si ii m1 (mid ++ [t]) = es1 ++ [es] /\ (In WarnInode es <-> (free_inode s - free_inode t > ii)%Z)).
  { assert (CT : counts t) by (apply ST; [apply in_or_app; right; right; apply in_or_app; right; now left|reflexivity]). assert (CM : forall x, In x mid -> counts x) by (intros x I; apply ST; [apply in_or_app; right; right; apply in_or_app; now left|reflexivity]). clear ST. revert m1 P A1 S1 K1. induction mid as [|x mid IH]; intros m1 P A1 S1 K1.
    - cbn [app checks]. destruct (warn_step_i si ii e m1 t A1 S1 K1 CT) as (_ & W & _). exists [], (fst (check si ii m1 t)). destruct (check si ii m1 t) as [es m2]. cbn [fst] in *. split; [reflexivity|]. rewrite W, B2, P. rewrite (proj2 (Z.eqb_neq _ _) NZ). cbn [andb orb]. rewrite Z.ltb_lt. lia.
    - destruct (warn_step_i si ii e m1 x A1 S1 K1 (CM x (or_introl eq_refl))) as (P' & _ & A2 & S2 & K2). cbn [app checks]. destruct (check si ii m1 x) as [es m2]. cbn [snd] in *. destruct (IH ltac:(intros y Y; apply MI; now right) ltac:(intros y Y; apply CM; now right) m2) as (es1 & el & -> & Y); auto; [|exists (es :: es1), el; auto].
      rewrite P', P. rewrite (proj2 (Z.eqb_neq _ _) NZ). cbn [orb]. destruct (below (e_inode e) (free_inode x)) eqn:BX; [|reflexivity]. cbn [andb]. destruct (Z.ltb_spec ii (free_inode s - free_inode x)) as [C|C]; [|reflexivity]. exfalso. pose proof (MI x (or_introl eq_refl) (proj1 (BI x) BX)). lia. }
  destruct X as (es1 & es & -> & Y). exists (checks si ii (fresh e) before ++ es0 :: es1), es. split; [now rewrite <- app_assoc|exact Y].
Qed.
(** C189 is violated in one place: on a disk that is entirely full the warning comes with every check, although nothing has changed
    since the last one: the free space at the last warning, 0, is taken for "no warning yet". *)
Theorem diskmon_full_refuted : ~ (forall si ii e s, sensible e -> e_action e = Warn -> (0 <= si)%Z -> (0 <= free_space s)%Z ->
  forall es1 es2, checks si ii (fresh e) [s; s] = [es1; es2] -> ~ In WarnSpace es2).
Proof.
  intro H. specialize (H 0%Z 0%Z (Entry (s_ "/tmp") Warn (Some 5%Z) None) (Sample 0 0 0)). refine (H _ eq_refl ltac:(lia) ltac:(cbn; lia) _ _ eq_refl _); [|left; reflexivity].
  split; cbn; intros n E; [injection E as <-; lia|discriminate].
Qed.
(** C190: a limit is a positive number with the unit K, M or G (of 1024), or without one; nothing given is no limit,
    and anything else is an error. *)
Theorem diskmon_limit : forall t v, limit t = Some v <-> written t v.
Proof. intros t v. split; [apply limit_written_only|apply limit_written]. Qed.
(** C190: an entry reads as it is written: action, path, space and inodes, of which one at least is given; the comma before
    the inodes can be left out with them. *)
Theorem diskmon_entry : forall real at_ a p st sp it ino, action_name at_ a -> ~ In comma p -> written st sp -> written it ino -> (sp <> None \/ ino <> None) ->
  parse_entry real (at_ ++ comma :: p ++ comma :: st ++ comma :: it) = Some (Entry (real p) a sp ino) /\
  (ino = None -> parse_entry real (at_ ++ comma :: p ++ comma :: st) = Some (Entry (real p) a sp None)).
Proof.
  intros real at_ a p st sp it ino NA NP WS WI NN.
  assert (NCA : no_char comma at_). { apply no_char_In. destruct a; cbn in NA; [destruct NA as [->| ->]| subst| subst]; cbn; intuition discriminate. }
  assert (AO : action_of at_ = Some a) by (destruct a; cbn in NA; [destruct NA as [->| ->]| subst| subst]; reflexivity).
  assert (NCP : no_char comma p) by (apply no_char_In; exact NP). assert (NCS : no_char comma st) by (apply no_char_In; exact (written_nocomma st sp WS)).
  unfold parse_entry. rewrite !(cut_at_some comma at_) by exact NCA. rewrite !(cut_at_some comma p) by exact NCP. rewrite (cut_at_some comma st) by exact NCS. rewrite (cut_at_none comma st) by exact NCS.
  rewrite AO, (limit_written st sp WS), (limit_written it ino WI). cbn [limit]. split; [|intro IN]; destruct sp; try reflexivity; destruct ino; try reflexivity; try discriminate; destruct NN; congruence.
Qed.
(** C190: nothing else is read as an entry. *)
Theorem diskmon_entry_only : forall real w e, parse_entry real w = Some e ->
  exists at_ p st it, action_name at_ (e_action e) /\ ~ In comma p /\ e_path e = real p /\ written st (e_space e) /\ written it (e_inode e) /\
    (w = at_ ++ comma :: p ++ comma :: st ++ comma :: it \/ (it = [] /\ w = at_ ++ comma :: p ++ comma :: st)).
Proof.
  intros real w e. unfold parse_entry. destruct (cut_at comma w) as [a [w1|]] eqn:C1; [|discriminate]. destruct (cut_at comma w1) as [p [w2|]] eqn:C2; [|discriminate]. destruct (cut_at comma w2) as [s i] eqn:C3. destruct (action_of a) as [ac|] eqn:AO; [|discriminate].
  apply cut_at_spec in C1. apply cut_at_spec in C2. apply cut_at_spec in C3. destruct C1 as [_ ->], C2 as [NP ->], C3 as [_ C3].
  assert (NA : action_name a ac). { unfold action_of in AO. destruct (_ || _) eqn:E1; [apply orb_true_iff in E1; rewrite !seqb_eq in E1; injection AO as <-; cbn; tauto|]. destruct (seqb a (s_ "STOPTASKS")) eqn:E2; [apply seqb_eq in E2; injection AO as <-; exact E2|]. destruct (seqb a (s_ "WARN")) eqn:E3; [apply seqb_eq in E3; injection AO as <-; exact E3|discriminate]. }
  set (it := match i with Some i => i | None => [] end). destruct (limit s) as [sp|] eqn:L1; [|discriminate]. destruct (limit it) as [ino|] eqn:L2; [|destruct sp; discriminate].
  intro H. assert (E : e = Entry (real p) ac sp ino) by (destruct sp, ino; try discriminate; injection H as <-; auto). subst e. cbn [e_action e_path e_space e_inode].
  exists a, p, s, it. split; [exact NA|]. split; [apply no_char_In; exact NP|]. split; [reflexivity|]. split; [now apply limit_written_only|]. split; [now apply limit_written_only|]. destruct i as [i|]; subst w2; [now left|right; auto].
Qed.
(** C190: what is read has positive limits, and one at least. *)
Theorem diskmon_entry_sensible : forall real w e, parse_entry real w = Some e -> sensible e /\ (e_space e <> None \/ e_inode e <> None).
Proof.
  intros real w e. unfold parse_entry. destruct (cut_at comma w) as [a [w1|]]; [|discriminate]. destruct (cut_at comma w1) as [p [w2|]]; [|discriminate]. destruct (cut_at comma w2) as [s i]. destruct (action_of a) as [ac|]; [|discriminate].
  set (it := match i with Some i => i | None => [] end). clearbody it. destruct (limit s) as [sp|] eqn:L1; [|discriminate]. destruct (limit it) as [ino|] eqn:L2; [|destruct sp; discriminate].
  intro H. assert (E : e = Entry (real p) ac sp ino /\ (sp <> None \/ ino <> None)) by (destruct sp, ino; try discriminate; injection H as <-; split; auto; first [left; discriminate|right; discriminate]). destruct E as [-> NN]. split; [|exact NN].
  split; intros n E; [exact (limit_pos s sp n L1 E)|exact (limit_pos it ino n L2 E)].
Qed.
(** C190: one bad entry turns off the monitor for all of them; otherwise the last entry for a path and an action is what is watched. *)
Theorem diskmon_watched : forall real ws,
  (disk_data real ws [] = None <-> exists w, In w ws /\ parse_entry real w = None) /\
  forall r, disk_data real ws [] = Some r -> forall x, In x r <->
    exists before w after, ws = before ++ w :: after /\ parse_entry real w = Some x /\
      forall w' y, In w' after -> parse_entry real w' = Some y -> ~ (e_path y = e_path x /\ e_action y = e_action x).
Proof.
  intros real ws. split.
  - generalize (@nil entry). induction ws as [|w ws IH]; intro l; cbn [disk_data]; [split; [discriminate|intros (w & [] & _)]|]. destruct (parse_entry real w) as [e|] eqn:E.
    + rewrite IH. split; intros (v & V & P); [exists v; split; [now right|exact P]|]. destruct V as [<-|V]; [congruence|]. exists v. auto.
    + split; [|reflexivity]. intros _. exists w. split; [now left|exact E].
  - intros r D x. split.
    + revert r D. induction ws as [|w ws IH] using rev_ind; intros r D I; [injection D as <-; destruct I|]. rewrite disk_data_app in D. destruct (disk_data real ws []) as [l|] eqn:E; [|discriminate]. cbn [disk_data] in D. destruct (parse_entry real w) as [e|] eqn:PE; [|discriminate]. injection D as <-.
      destruct (same_key x e) eqn:SK.
      * assert (Q : x = e). { apply same_key_iff in SK. apply (watch_same l e x); [apply (disk_data_nodup real ws [] l E); constructor|exact I|exact SK]. } subst x. exists ws, w, []. repeat split; auto.
      * apply watch_in in I. destruct I as [->|I]; [assert (same_key e e = true) by (apply same_key_iff; auto); congruence|]. destruct (IH l eq_refl I) as (b & v & a & -> & PV & NL). exists b, v, (a ++ [w]). split; [now rewrite <- app_assoc|]. split; [exact PV|]. intros w' y W P. apply in_app_or in W. destruct W as [W|[<-|[]]]; [now apply (NL w')|]. rewrite PE in P. injection P as <-. intros [A B]. assert (same_key x e = true) by (apply same_key_iff; auto). congruence.
    + intros (b & w & a & -> & P & NL). rewrite disk_data_app in D. destruct (disk_data real b []) as [l|]; [|discriminate]. cbn [disk_data] in D. rewrite P in D. apply (disk_data_keeps real a _ _ x D); [apply watch_has|]. intros w' e W' PE. destruct (same_key x e) eqn:SK; [|reflexivity]. apply same_key_iff in SK. destruct SK as [A B]. exfalso. apply (NL w' e W' PE). auto.
Qed.

(** ** The hypotheses are met *)
Definition ex_e : entry := Entry (s_ "/tmp") Stoptasks (Some 100%Z) (Some 10%Z).
Example diskmon_example : sensible ex_e /\ steady true [Sample 200 20 50; Sample 150 5 50; Sample 50 5 50] /\
  checks 10 1 (fresh ex_e) [Sample 200 20 50; Sample 150 5 50; Sample 50 5 50] = [[]; [WarnInode; Finish false]; [WarnSpace]] /\
  ~ low true ex_e (Sample 200 20 50) /\ low true ex_e (Sample 150 5 50).
Proof.
  split; [split; cbn; intros n E; injection E as <-; lia|]. split; [intros s [<-|[<-|[<-|[]]]]; unfold counts; cbn; intuition discriminate|]. split; [reflexivity|]. split.
  - intros [(n & E & L)|(_ & n & E & L)]; cbn in E; injection E as <-; cbn in L; lia.
  - right. split; [reflexivity|]. exists 10%Z. split; [reflexivity|cbn; lia].
Qed.
Example diskmon_btrfs_example : checks 10 1 (fresh ex_e) [Sample 200 0 0; Sample 50 0 0; Sample 40 0 0] = [[]; [WarnSpace; Finish false]; []].
Proof. reflexivity. Qed.
Example diskmon_again_example : checks 10 1 (fresh (Entry (s_ "/t") Warn (Some 100%Z) None)) [Sample 200 0 0; Sample 90 0 0; Sample 85 0 0; Sample 79 0 0] = [[]; [WarnSpace]; []; [WarnSpace]].
Proof. reflexivity. Qed.
Example diskmon_entries_example :
  disk_data (fun p => p) [s_ "STOPTASKS,/tmp,1G,100K"; s_ "HALT,/tmp,100M"; s_ "WARN,/b,,5"; s_ "ABORT,/tmp,7"] [] =
  Some [Entry (s_ "/tmp") Stoptasks (Some 1073741824%Z) (Some 102400%Z); Entry (s_ "/tmp") Halt (Some 7%Z) None; Entry (s_ "/b") Warn None (Some 5%Z)].
Proof. vm_compute. reflexivity. Qed.
Example diskmon_bad_example : disk_data (fun p => p) [s_ "STOPTASKS,/tmp,1G"; s_ "HALT,/tmp,0G"] [] = None /\ disk_data (fun p => p) [s_ "STOP,/tmp,1G"] [] = None /\ disk_data (fun p => p) [s_ "HALT,/tmp,,"] [] = None.
Proof. vm_compute. auto. Qed.

Print Assumptions diskmon_stops.
Print Assumptions diskmon_warn_only.
Print Assumptions diskmon_quiet.
Print Assumptions diskmon_warns.
Print Assumptions diskmon_warns_again.
Print Assumptions diskmon_warns_again_inodes.
Print Assumptions diskmon_full_refuted.
Print Assumptions diskmon_limit.
Print Assumptions diskmon_entry.
Print Assumptions diskmon_entry_only.
Print Assumptions diskmon_entry_sensible.
Print Assumptions diskmon_watched.
