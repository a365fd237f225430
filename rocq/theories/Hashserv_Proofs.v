(** Proofs about the hash equivalence server. *)
From Coq Require Import Ascii String List Bool Arith ZArith Lia.
From Verif Require Import Str_Model Str_Proofs Hashserv_Model Hashserv_Spec.
Import ListNotations.
Open Scope list_scope.

Lemma u_key_iff : forall m t r, u_key m t r = true <-> u_method r = m /\ u_task r = t.
Proof. intros. unfold u_key. rewrite andb_true_iff, !seqb_eq. tauto. Qed.

Definition uuniq (d : db) : Prop :=
  forall r1 r2, In r1 (unihashes d) -> In r2 (unihashes d) ->
    u_method r1 = u_method r2 -> u_task r1 = u_task r2 -> r1 = r2.

Lemma ge_in : forall d m t u, get_equivalent d m t = Some u -> has_unihash d m t u.
Proof.
  intros d m t u H. unfold get_equivalent in H. destruct (find (u_key m t) (unihashes d)) as [r|] eqn:E; [|discriminate].
  apply find_some in E. destruct E as [I K]. apply u_key_iff in K. destruct K as [K1 K2].
  inversion H; subst. exists (u_mark r). destruct r; auto.
Qed.
Lemma ge_none : forall d m t, get_equivalent d m t = None <-> forall u, ~ has_unihash d m t u.
Proof.
  intros d m t. unfold get_equivalent. destruct (find (u_key m t) (unihashes d)) as [r|] eqn:E.
  - split; [discriminate|]. intros H. exfalso. apply find_some in E. destruct E as [I K]. apply u_key_iff in K.
    destruct K as [K1 K2]. apply (H (u_uni r)). exists (u_mark r). subst. destruct r; auto.
  - split; auto. intros _ u (mk & I). apply (find_none _ _ E) in I.
    assert (Q : u_key m t (mkU m t u mk) = true) by (apply u_key_iff; auto). congruence.
Qed.
Lemma ge_iff : forall d m t u, uuniq d -> (get_equivalent d m t = Some u <-> has_unihash d m t u).
Proof.
  intros d m t u U. split; [apply ge_in|]. intros (mk & I).
  destruct (get_equivalent d m t) as [u'|] eqn:E.
  - apply ge_in in E. destruct E as (mk' & I'). assert (Q := U _ _ I I' eq_refl eq_refl). inversion Q. auto.
  - rewrite ge_none in E. exfalso. apply (E u). exists mk. auto.
Qed.

(** * get_equivalent along the operations *)
Lemma find_app : forall {A} (f : A -> bool) l1 l2,
  find f (l1 ++ l2) = match find f l1 with Some x => Some x | None => find f l2 end.
Proof. intros A f l1 l2. induction l1 as [|x l1 IH]; auto. cbn. destruct (f x); auto. Qed.

Lemma ge_insert_same : forall d m t u, get_equivalent (insert_unihash d m t u) m t =
  match get_equivalent d m t with Some x => Some x | None => Some u end.
Proof.
  intros d m t u. unfold insert_unihash. destruct (get_equivalent d m t) as [x|] eqn:E; auto.
  unfold get_equivalent in *. cbn [unihashes]. rewrite find_app.
  destruct (find (u_key m t) (unihashes d)) as [r|]; [discriminate|]. cbn.
  replace (u_key m t (mkU m t u (mark_text d))) with true by (symmetry; apply u_key_iff; auto). auto.
Qed.
Lemma ge_insert_keep : forall d m t u m' t' x, get_equivalent d m' t' = Some x ->
  get_equivalent (insert_unihash d m t u) m' t' = Some x.
Proof.
  intros d m t u m' t' x H. unfold insert_unihash. destruct (get_equivalent d m t); auto.
  unfold get_equivalent in *. cbn [unihashes]. rewrite find_app.
  destruct (find (u_key m' t') (unihashes d)); auto. discriminate.
Qed.
Lemma ge_ext : forall d d' m t, unihashes d = unihashes d' -> get_equivalent d m t = get_equivalent d' m t.
Proof. intros. unfold get_equivalent. rewrite H. auto. Qed.
Lemma insert_outhash_uni : forall st d r, unihashes (fst (insert_outhash st d r)) = unihashes d.
Proof. intros. unfold insert_outhash. destruct (existsb _ _); auto. Qed.
Lemma insert_outhash_mark : forall st d r, mark (fst (insert_outhash st d r)) = mark d.
Proof. intros. unfold insert_outhash. destruct (existsb _ _); auto. Qed.
Lemma insert_unihash_out : forall d m t u, outhashes (insert_unihash d m t u) = outhashes d.
Proof. intros. unfold insert_unihash. destruct (get_equivalent d m t); auto. Qed.
Lemma insert_unihash_mark : forall d m t u, mark (insert_unihash d m t u) = mark d.
Proof. intros. unfold insert_unihash. destruct (get_equivalent d m t); auto. Qed.
Lemma ge_gc_mark : forall d mk cond m t, get_equivalent (gc_mark d mk cond) m t = get_equivalent d m t.
Proof.
  intros. unfold get_equivalent, gc_mark. cbn [unihashes]. destruct (where_of ucols cond); auto.
  set (f := fun r => _). assert (F : forall r, u_key m t (f r) = u_key m t r /\ u_uni (f r) = u_uni r).
  { intros r. unfold f. destruct (holds _ _); auto. }
  induction (unihashes d) as [|r l' IH]; auto. cbn [map find]. destruct (F r) as [F1 F2]. rewrite F1.
  destruct (u_key m t r); auto. rewrite F2. auto.
Qed.

(** * Uniqueness *)
Lemma uuniq_insert : forall d m t u, uuniq d -> uuniq (insert_unihash d m t u).
Proof.
  intros d m t u U. unfold insert_unihash. destruct (get_equivalent d m t) eqn:E; auto.
  rewrite ge_none in E. intros r1 r2 I1 I2 K1 K2. cbn [unihashes] in *.
  apply in_app_or in I1. apply in_app_or in I2.
  destruct I1 as [I1|[<-|[]]], I2 as [I2|[<-|[]]]; auto.
  - exfalso. cbn in *. apply (E (u_uni r1)). exists (u_mark r1). rewrite <- K1, <- K2. destruct r1; auto.
  - exfalso. cbn in *. apply (E (u_uni r2)). exists (u_mark r2). rewrite K1, K2. destruct r2; auto.
Qed.
Lemma uuniq_ext : forall d d', unihashes d = unihashes d' -> uuniq d -> uuniq d'.
Proof. intros d d' E U. unfold uuniq in *. rewrite <- E. auto. Qed.
Lemma uuniq_sub : forall d d', (forall r, In r (unihashes d') -> In r (unihashes d)) -> uuniq d -> uuniq d'.
Proof. intros d d' H U r1 r2 I1 I2. apply U; auto. Qed.
Lemma uuniq_gc_mark : forall d mk cond, uuniq d -> uuniq (gc_mark d mk cond).
Proof.
  intros d mk cond U. unfold gc_mark, uuniq. cbn [unihashes]. destruct (where_of ucols cond) as [|kv w]; [exact U|].
  intros r1 r2 I1 I2 K1 K2. apply in_map_iff in I1. apply in_map_iff in I2.
  destruct I1 as (x1 & E1 & I1). destruct I2 as (x2 & E2 & I2).
  assert (x1 = x2).
  { apply U; auto.
    - destruct (holds (ucol x1) _) in E1; destruct (holds (ucol x2) _) in E2; subst r1 r2; auto.
    - destruct (holds (ucol x1) _) in E1; destruct (holds (ucol x2) _) in E2; subst r1 r2; auto. }
  subst x2. congruence.
Qed.

Lemma handle_uuniq : forall st up d r, uuniq d -> uuniq (fst (handle st up d r)).
Proof.
  intros st up d r U.
  assert (IO : forall x, uuniq (fst (insert_outhash st d x))).
  { intros x. eapply uuniq_ext; [symmetry; apply insert_outhash_uni|auto]. }
  destruct r; cbn [handle]; auto.
  - destruct with_unihash; auto.
  - destruct rw; auto. specialize (IO (mkO m t o now extra)).
    destruct (insert_outhash st d (mkO m t o now extra)) as [d1 n]. cbn [fst] in IO. destruct n; auto.
    destruct (get_equivalent_for_outhash d1 m o t) as [[? u']|]; cbn [fst]; auto using uuniq_insert.
    destruct up; cbn [fst]; auto using uuniq_insert.
  - cbn [fst]. auto using uuniq_insert.
  - cbn [fst]. eapply uuniq_sub; [|exact U]. unfold remove, do_remove. cbn [unihashes].
    destruct (where_of ucols cond); auto. intros r I. apply filter_In in I. tauto.
  - cbn [fst]. apply uuniq_gc_mark. auto.
  - destruct (mark d) as [[|ch l]|] eqn:M; auto. destruct (seqb mk (ch :: l)); auto. cbn [fst].
    eapply uuniq_sub; [|exact U]. unfold gc_sweep. cbn [unihashes]. rewrite M. intros r I. apply filter_In in I. tauto.
Qed.
Lemma resume_uuniq : forall st up d w rep, uuniq d -> uuniq (fst (resume st up d w rep)).
Proof.
  intros st up d w rep U.
  assert (UU : forall r, uuniq (update_unified st d r)).
  { intros r. unfold update_unified. eapply uuniq_ext; [symmetry; apply insert_outhash_uni|]. apply uuniq_insert. auto. }
  destruct w; destruct rep; cbn [resume fst]; auto using uuniq_insert.
Qed.
Lemma step_db : forall st up s e, 
  (exists c r, e = EReq c r /\ database (fst (step st up s e)) = fst (handle st up (database s) r) /\
     find (fun p => Nat.eqb (fst p) c) (waiting s) = None) \/
  (exists c rep w, e = EReply c rep /\ database (fst (step st up s e)) = fst (resume st up (database s) w rep)) \/
  (exists r, e = EBackfill (Some r) /\
     database (fst (step st up s e)) = insert_unihash (database s) (up_method r) (up_task r) (up_uni r)) \/
  database (fst (step st up s e)) = database s.
Proof.
  intros st up s e. destruct e as [c r|c rep|[r|]]; cbn [step].
  - destruct (find _ (waiting s)) eqn:F; [right; right; right; auto|]. left. exists c, r.
    destruct (handle st up (database s) r) as [d o]. split; auto. split; auto. destruct o; auto.
  - destruct (find _ (waiting s)) as [[c' w]|]; [|right; right; right; auto]. right. left. exists c, rep, w.
    destruct (resume st up (database s) w rep) as [d o]. split; auto. destruct o; auto.
  - right. right. left. exists r. auto.
  - right. right. right. auto.
Qed.
Lemma step_uuniq : forall st up s e, uuniq (database s) -> uuniq (database (fst (step st up s e))).
Proof.
  intros st up s e U. destruct (step_db st up s e) as [(c & r & _ & -> & _)|[(c & rep & w & _ & ->)|[(r & _ & ->)| ->]]];
    auto using handle_uuniq, resume_uuniq, uuniq_insert.
Qed.

(** * Entries stay unless deleted *)
Lemma handle_keep : forall st up d r m t u, get_equivalent d m t = Some u ->
  (forall cond, r <> Remove cond) -> (forall mk, r <> GcSweep mk) ->
  get_equivalent (fst (handle st up d r)) m t = Some u.
Proof.
  intros st up d r m t u H NR NS.
  destruct r as [m' t'|m' t'|m' t'|m' o' t' wu|rw m' t' o' u' now extra|m' t' u'|cond|mk cond|mk|now ma]; cbn [handle]; auto.
  - destruct wu; auto.
  - destruct rw; auto. set (x := mkO m' t' o' now extra).
    assert (IO : get_equivalent (fst (insert_outhash st d x)) m t = Some u).
    { rewrite <- H. apply ge_ext. apply insert_outhash_uni. }
    destruct (insert_outhash st d x) as [d1 n]. cbn [fst] in IO. destruct n; auto.
    destruct (get_equivalent_for_outhash d1 m' o' t') as [[? u2]|]; cbn [fst]; auto using ge_insert_keep.
    destruct up; cbn [fst]; auto using ge_insert_keep.
  - cbn [fst]. auto using ge_insert_keep.
  - exfalso. eapply NR. eauto.
  - cbn [fst]. rewrite ge_gc_mark. auto.
  - exfalso. eapply NS. eauto.
Qed.
Lemma resume_keep : forall st up d w rep m t u, get_equivalent d m t = Some u ->
  get_equivalent (fst (resume st up d w rep)) m t = Some u.
Proof.
  intros st up d w rep m t u H.
  assert (UU : forall r, get_equivalent (update_unified st d r) m t = Some u).
  { intros r. unfold update_unified. rewrite <- (ge_insert_keep d (up_method r) (up_task r) (up_uni r) m t u H).
    apply ge_ext. apply insert_outhash_uni. }
  destruct w; destruct rep; cbn [resume fst]; auto using ge_insert_keep.
Qed.
Lemma step_keep : forall st up s e m t u, ~ deletes e -> get_equivalent (database s) m t = Some u ->
  get_equivalent (database (fst (step st up s e))) m t = Some u.
Proof.
  intros st up s e m t u ND H.
  destruct (step_db st up s e) as [(c & r & E & -> & _)|[(c & rep & w & _ & ->)|[(r & _ & ->)| ->]]];
    auto using resume_keep, ge_insert_keep.
  apply handle_keep; auto.
  - intros cond ->. apply ND. exists c. left. eauto.
  - intros mk ->. apply ND. exists c. right. eauto.
Qed.

(** * Runs *)
Lemma run_app : forall st up es1 es2 s,
  run st up s (es1 ++ es2) =
  (fst (run st up s es1) ++ fst (run st up (snd (run st up s es1)) es2),
   snd (run st up (snd (run st up s es1)) es2)).
Proof.
  intros st up. induction es1 as [|e es1 IH]; intros es2 s; cbn [app run fst snd].
  - destruct (run st up s es2). auto.
  - destruct (step st up s e) as [s' ans]. rewrite IH.
    destruct (run st up s' es1) as [tr s'']. cbn [fst snd].
    destruct (run st up s'' es2) as [tr2 s3]. cbn [fst snd app]. auto.
Qed.
Lemma run_cons_snd : forall st up e es s,
  snd (run st up s (e :: es)) = snd (run st up (fst (step st up s e)) es).
Proof.
  intros. cbn [run]. destruct (step st up s e) as [s' ans]. cbn [fst]. destruct (run st up s' es). auto.
Qed.
Lemma run_at : forall st up es s i e ans, nth_error (fst (run st up s es)) i = Some (e, ans) ->
  exists es1 es2, es = es1 ++ e :: es2 /\ length es1 = i /\
    snd (step st up (snd (run st up s es1)) e) = ans.
Proof.
  intros st up. induction es as [|e0 es IH]; intros s i e ans H.
  - destruct i; discriminate.
  - cbn [run] in H. destruct (step st up s e0) as [s' ans0] eqn:S.
    destruct (run st up s' es) as [tr s''] eqn:R. cbn [fst] in H. destruct i as [|i].
    + cbn in H. inversion H; subst. exists [], es. split; auto. split; auto. cbn. rewrite S. auto.
    + cbn in H. replace tr with (fst (run st up s' es)) in H by (rewrite R; auto).
      apply IH in H. destruct H as (es1 & es2 & -> & L & A).
      exists (e0 :: es1), es2. split; auto. split; [cbn; auto|]. rewrite run_cons_snd, S. auto.
Qed.
Lemma run_two : forall st up es s i j e1 ans1 e2 ans2, (i < j)%nat ->
  nth_error (fst (run st up s es)) i = Some (e1, ans1) ->
  nth_error (fst (run st up s es)) j = Some (e2, ans2) ->
  exists es1 es2 es3, es = es1 ++ e1 :: es2 ++ e2 :: es3 /\ length es1 = i /\
    j = (i + 1 + length es2)%nat /\
    let s1 := snd (run st up s es1) in
    let s2 := snd (run st up (fst (step st up s1 e1)) es2) in
    snd (step st up s1 e1) = ans1 /\ snd (step st up s2 e2) = ans2.
Proof.
  intros st up es s i j e1 ans1 e2 ans2 L H1 H2.
  apply run_at in H1. destruct H1 as (es1 & rest & E & L1 & A1).
  apply run_at in H2. destruct H2 as (esj & es3 & E' & L2 & A2).
  assert (D : exists es2, esj = es1 ++ e1 :: es2).
  { subst i j. rewrite E in E'. clear - E' L. revert es1 L E'. induction esj as [|x esj IH]; intros es1 L E'.
    - cbn in L. lia.
    - destruct es1 as [|y es1].
      + cbn in E'. inversion E'; subst. exists esj. auto.
      + cbn in E'. inversion E'; subst. destruct (IH es1) as (es2 & ->); auto.
        * cbn in L. lia.
        * exists es2. auto. }
  destruct D as (es2 & ->). exists es1, es2, es3. split; [rewrite E'; rewrite <- app_assoc; auto|].
  split; auto. split; [rewrite <- L2, app_length; cbn; lia|]. split; auto.
  rewrite run_app in A2. cbn [snd] in A2. rewrite run_cons_snd in A2. exact A2.
Qed.
Lemma run_uuniq : forall st up es s, uuniq (database s) -> uuniq (database (snd (run st up s es))).
Proof.
  intros st up. induction es as [|e es IH]; intros s U; auto. rewrite run_cons_snd. apply IH, step_uuniq. auto.
Qed.
Lemma run_keep : forall st up es s m t u, Forall (fun e => ~ deletes e) es ->
  get_equivalent (database s) m t = Some u ->
  get_equivalent (database (snd (run st up s es))) m t = Some u.
Proof.
  intros st up es s m t u F. revert s. induction F; intros s H1; auto. rewrite run_cons_snd. apply IHF.
  apply step_keep; auto.
Qed.
Lemma fresh_uuniq : uuniq (database fresh).
Proof. intros r1 r2 []. Qed.

(** Joined rows carry the unihash of their task *)
Lemma joined_in : forall d p r u, In (r, u) (joined d p) <->
  In r (outhashes d) /\ p r = true /\ get_equivalent d (o_method r) (o_task r) = Some u.
Proof.
  intros d p r u. unfold joined. rewrite in_flat_map. split.
  - intros (x & I & H). destruct (p x) eqn:P; [|destruct H].
    destruct (get_equivalent d (o_method x) (o_task x)) eqn:G; [|destruct H]. destruct H as [H|[]].
    inversion H; subst. auto.
  - intros (I & P & G). exists r. split; auto. rewrite P, G. left. auto.
Qed.
Lemma fold_older : forall {A} (l : list (orow * A)) x,
  In (fold_left older l x) (x :: l) /\
  (forall y, In y (x :: l) -> (o_created (fst (fold_left older l x)) <= o_created (fst y))%Z).
Proof.
  intros A. induction l as [|z l IH]; intros x; cbn [fold_left].
  - split; [left; auto|]. intros y [<-|[]]. lia.
  - destruct (IH (older x z)) as [I M]. unfold older in *.
    destruct (o_created (fst z) <? o_created (fst x))%Z eqn:C.
    + apply Z.ltb_lt in C. split.
      * destruct I as [I|I]; [right; left; auto|right; right; auto].
      * intros y [<-|[<-|Y]].
        -- specialize (M z (or_introl eq_refl)). lia.
        -- apply M. left. auto.
        -- apply M. right. auto.
    + apply Z.ltb_ge in C. split.
      * destruct I as [I|I]; [left; auto|right; right; auto].
      * intros y [<-|[<-|Y]].
        -- apply M. left. auto.
        -- specialize (M x (or_introl eq_refl)). lia.
        -- apply M. right. auto.
Qed.
Lemma oldest_spec : forall {A} (l : list (orow * A)),
  match oldest l with
  | None => l = []
  | Some x => In x l /\ forall y, In y l -> (o_created (fst x) <= o_created (fst y))%Z
  end.
Proof. intros A [|x l]; cbn; auto. apply fold_older. Qed.

(** * Answers *)
Definition covered (d : db) : Prop :=
  forall r, In r (outhashes d) -> get_equivalent d (o_method r) (o_task r) <> None.

Lemma existsb_key : forall m t o l, existsb (o_key m t o) l = true ->
  exists r, In r l /\ o_method r = m /\ o_task r = t.
Proof.
  intros m t o l H. apply existsb_exists in H. destruct H as (r & I & K). exists r. split; auto.
  unfold o_key in K. rewrite !andb_true_iff, !seqb_eq in K. tauto.
Qed.

Lemma get_unihash_stored : forall up d m t fb u, get_equivalent d m t <> None ->
  get_unihash up d m t fb = Answer (AUni (Some u)) -> get_equivalent d m t = Some u.
Proof.
  intros up d m t fb u N H. unfold get_unihash in H. destruct (get_equivalent d m t); [|congruence].
  inversion H. auto.
Qed.

(** What is answered at once is what is stored *)
Lemma answer_stored : forall st up d r m t u, asks m t r ->
  st = true \/ up = true \/ covered d ->
  snd (handle st up d r) = Answer (AUni (Some u)) ->
  get_equivalent (fst (handle st up d r)) m t = Some u.
Proof.
  intros st up d r m t u A C H.
  destruct A as [->|[->|[->|[(u0 & ->)|(o & u0 & now & ex & ->)]]]]; cbn [handle] in *.
  - cbn [fst snd] in *. unfold get_unihash in H. destruct (get_equivalent d m t); [inversion H; auto|].
    destruct up; inversion H.
  - cbn [fst snd] in *. destruct (get_unihash_by_taskhash_full d m t) as [[r' u']|] eqn:E.
    + inversion H; subst. unfold get_unihash_by_taskhash_full in E.
      match type of E with oldest ?l = _ => pose proof (oldest_spec l) as O end. rewrite E in O.
      destruct O as [O _]. apply joined_in in O. destruct O as (_ & P & G). apply andb_true_iff in P.
      rewrite !seqb_eq in P. destruct P as [P1 P2]. subst. auto.
    + destruct up; inversion H.
  - cbn [fst snd] in *. destruct (get_equivalent d m t); [inversion H; auto|]. destruct up; inversion H.
  - cbn [fst snd] in *. destruct (get_equivalent (insert_unihash d m t u0) m t); inversion H; auto.
  - set (x := mkO m t o now ex) in *. pose proof (insert_outhash_uni st d x) as IU.
    destruct (insert_outhash st d x) as [d1 n] eqn:IO. cbn [fst] in IU. destruct n.
    + destruct (get_equivalent_for_outhash d1 m o t) as [[? u']|]; cbn [fst snd] in *.
      * apply get_unihash_stored in H; auto. rewrite ge_insert_same. destruct (get_equivalent d1 m t); congruence.
      * destruct up; cbn [fst snd] in *; [discriminate|].
        apply get_unihash_stored in H; auto. rewrite ge_insert_same. destruct (get_equivalent d1 m t); congruence.
    + cbn [fst snd] in *. unfold insert_outhash in IO.
      destruct (existsb (o_key (o_method x) (o_task x) (o_out x)) (outhashes d)) eqn:EX; [|inversion IO].
      inversion IO; subst d1 st. destruct C as [C|[C|C]]; [discriminate| |].
      * subst up. unfold get_unihash in H. destruct (get_equivalent d m t); [inversion H; auto|discriminate].
      * apply get_unihash_stored in H; auto. cbn in EX. apply existsb_key in EX. destruct EX as (r' & I & K1 & K2).
        specialize (C r' I). rewrite K1, K2 in C. auto.
Qed.

Lemma stored_answer : forall st up d r m t u u', asks m t r -> get_equivalent d m t = Some u ->
  snd (handle st up d r) = Answer (AUni (Some u')) -> u' = u.
Proof.
  intros st up d r m t u u' A G H.
  assert (K : get_equivalent (fst (handle st up d r)) m t = Some u).
  { apply handle_keep; auto.
    - intros cond ->. destruct A as [A|[A|[A|[(?&A)|(?&?&?&?&A)]]]]; discriminate.
    - intros mk ->. destruct A as [A|[A|[A|[(?&A)|(?&?&?&?&A)]]]]; discriminate. }
  destruct A as [->|[->|[->|[(u0 & ->)|(o & u0 & now & ex & ->)]]]]; cbn [handle] in *.
  - cbn [snd] in H. unfold get_unihash in H. rewrite G in H. inversion H; auto.
  - cbn [fst snd] in *. destruct (get_unihash_by_taskhash_full d m t) as [[r' u1]|] eqn:E.
    + inversion H; subst. unfold get_unihash_by_taskhash_full in E.
      match type of E with oldest ?l = _ => pose proof (oldest_spec l) as O end. rewrite E in O.
      destruct O as [O _]. apply joined_in in O. destruct O as (_ & P & G'). apply andb_true_iff in P.
      rewrite !seqb_eq in P. destruct P as [P1 P2]. subst. congruence.
    + destruct up; inversion H.
  - cbn [snd] in H. rewrite G in H. inversion H; auto.
  - cbn [fst snd] in *. rewrite K in H. inversion H; auto.
  - set (x := mkO m t o now ex) in *.
    destruct (insert_outhash st d x) as [d1 n]. destruct n.
    + destruct (get_equivalent_for_outhash d1 m o t) as [[? u1]|]; cbn [fst snd] in *.
      * unfold get_unihash in H. rewrite K in H. inversion H; auto.
      * destruct up; cbn [fst snd] in *; [discriminate|]. unfold get_unihash in H. rewrite K in H. inversion H; auto.
    + cbn [fst snd] in *. unfold get_unihash in H. rewrite K in H. inversion H; auto.
Qed.

Lemma step_answer : forall st up s c r a, snd (step st up s (EReq c r)) = Some a ->
  snd (handle st up (database s) r) = Answer a /\
  database (fst (step st up s (EReq c r))) = fst (handle st up (database s) r).
Proof.
  intros st up s c r a H. cbn [step] in *. destruct (find _ (waiting s)); [discriminate|].
  destruct (handle st up (database s) r) as [d o]. destruct o; cbn in *; [inversion H; auto|discriminate].
Qed.

(** Without deletions every recorded task has a unihash (no upstream) *)
Lemma covered_insert : forall d m t u, covered d -> covered (insert_unihash d m t u).
Proof.
  intros d m t u C r I. rewrite insert_unihash_out in I. specialize (C r I).
  destruct (get_equivalent d (o_method r) (o_task r)) as [x|] eqn:E; [|congruence].
  rewrite (ge_insert_keep _ _ _ _ _ _ _ E). discriminate.
Qed.
Lemma covered_handle : forall st d r, covered d ->
  (forall cond, r <> Remove cond) -> (forall mk, r <> GcSweep mk) -> covered (fst (handle st false d r)).
Proof.
  intros st d r C NR NS.
  destruct r as [m' t'|m' t'|m' t'|m' o' t' wu|rw m' t' o' u' now extra|m' t' u'|cond|mk cond|mk|now ma]; cbn [handle]; auto.
  - destruct wu; auto.
  - destruct rw; auto. set (x := mkO m' t' o' now extra).
    assert (IO : forall r u, In r (outhashes (fst (insert_outhash st d x))) ->
      get_equivalent (insert_unihash (fst (insert_outhash st d x)) m' t' u) (o_method r) (o_task r) <> None).
    { intros r u I. unfold insert_outhash in *.
      destruct (existsb _ (outhashes d)); cbn [fst outhashes] in *.
      - apply covered_insert; auto. rewrite insert_unihash_out. auto.
      - apply in_app_or in I. destruct I as [I|[<-|[]]].
        + specialize (C r I). destruct (get_equivalent d (o_method r) (o_task r)) as [y|] eqn:E; [|congruence].
          rewrite (ge_insert_keep _ _ _ _ _ _ y); [discriminate|]. exact E.
        + cbn. rewrite ge_insert_same. destruct (get_equivalent _ m' t'); discriminate. }
    destruct (insert_outhash st d x) as [d1 n] eqn:IE. cbn [fst] in IO. destruct n.
    + destruct (get_equivalent_for_outhash d1 m' o' t') as [[? u2]|]; cbn [fst];
        intros r I; rewrite insert_unihash_out in I; auto.
    + cbn [fst]. unfold insert_outhash in IE. destruct (existsb _ (outhashes d)); inversion IE; subst; auto.
  - cbn [fst]. apply covered_insert. auto.
  - exfalso. eapply NR. eauto.
  - cbn [fst]. intros r I. rewrite ge_gc_mark. apply C. exact I.
  - exfalso. eapply NS. eauto.
  - cbn [fst]. intros r I. unfold clean_unused in I. cbn [outhashes] in I. apply filter_In in I.
    apply (C r). tauto.
Qed.
Lemma no_wait_step : forall st s e, waiting s = [] -> waiting (fst (step st false s e)) = [].
Proof.
  intros st s e W. destruct e as [c r|c rep|[r|]]; cbn [step]; rewrite ?W; cbn; auto.
  assert (A : exists a, snd (handle st false (database s) r) = Answer a).
  { destruct r as [m' t'|m' t'|m' t'|m' o' t' wu|rw m' t' o' u' now extra|m' t' u'|cond|mk cond|mk|now ma]; cbn [handle]; eauto.
    - cbn. unfold get_unihash. destruct (get_equivalent _ m' t'); eauto.
    - cbn. destruct (get_unihash_by_taskhash_full _ m' t') as [[? ?]|]; eauto.
    - cbn. destruct (get_equivalent _ m' t'); eauto.
    - destruct wu; cbn; unfold get_outhash.
      + destruct (get_unihash_by_outhash _ m' o') as [[? ?]|]; eauto.
      + destruct (get_outhash_row _ m' o') as [[? ?]|]; eauto.
    - destruct rw.
      + destruct (insert_outhash st (database s) _) as [d1 n]. destruct n.
        * destruct (get_equivalent_for_outhash d1 m' o' t') as [[? ?]|]; cbn; unfold get_unihash;
            match goal with |- context [get_equivalent ?d m' t'] => destruct (get_equivalent d m' t'); eauto end.
        * cbn. unfold get_unihash. destruct (get_equivalent _ m' t'); eauto.
      + cbn. unfold get_outhash. destruct (get_unihash_by_outhash _ m' o') as [[? ?]|]; eauto.
    - cbn. destruct (get_equivalent _ m' t'); eauto.
    - cbn. eauto.
    - cbn. eauto.
    - destruct (mark (database s)) as [[|ch l]|]; cbn; eauto. destruct (seqb mk (ch :: l)); cbn; eauto.
    - cbn. eauto. }
  destruct A as (a & A). destruct (handle st false (database s) r) as [d o]. cbn in A. subst o. cbn. auto.
Qed.
Lemma covered_run : forall st es s, Forall (fun e => ~ deletes e) es -> waiting s = [] -> covered (database s) ->
  covered (database (snd (run st false s es))) /\ waiting (snd (run st false s es)) = [].
Proof.
  intros st es s F. revert s. induction F as [|e es ND F IH]; intros s W C; auto. rewrite run_cons_snd. apply IH.
  - apply no_wait_step. auto.
  - destruct e as [c r|c rep|[r|]]; cbn [step]; rewrite ?W; cbn [find]; auto.
    + destruct (handle st false (database s) r) as [d o] eqn:H.
      assert (Q : covered d).
      { replace d with (fst (handle st false (database s) r)) by (rewrite H; auto). apply covered_handle; auto.
        - intros cond ->. apply ND. exists c. left. eauto.
        - intros mk ->. apply ND. exists c. right. eauto. }
      destruct o; auto.
    + cbn. apply covered_insert. auto.
Qed.

Lemma never_changes : forall st up es i j m t u u', (i < j)%nat ->
  let tr := fst (run st up fresh es) in
  st = true \/ up = true \/ Forall (fun e => ~ deletes e) es ->
  (forall k e a, (i < k < j)%nat -> nth_error tr k = Some (e, a) -> ~ deletes e) ->
  told tr i m t u -> told tr j m t u' -> u = u'.
Proof.
  intros st up es i j m t u u' L tr C ND (c1 & r1 & A1 & T1) (c2 & r2 & A2 & T2). unfold tr in *.
  destruct (run_two _ _ _ _ _ _ _ _ _ _ L T1 T2) as (es1 & es2 & es3 & -> & L1 & -> & H1 & H2).
  set (s1 := snd (run st up fresh es1)) in *.
  destruct (step_answer _ _ _ _ _ _ H1) as [B1 D1].
  assert (G1 : get_equivalent (database (fst (step st up s1 (EReq c1 r1)))) m t = Some u).
  { rewrite D1. apply answer_stored; auto. destruct C as [C|[C|C]]; auto. destruct (bool_dec up true) as [UP|UP]; auto.
    apply not_true_is_false in UP. unfold s1. rewrite UP. right. right. apply Forall_app in C. destruct C as [C _].
    destruct (covered_run st es1 fresh C) as [Q _]; auto. intros r []. }
  destruct (step_answer _ _ _ _ _ _ H2) as [B2 D2].
  symmetry. refine (stored_answer st up _ r2 m t u u' A2 _ B2). apply run_keep; auto.
  apply Forall_forall. intros e I. apply In_nth_error in I. destruct I as (k & K).
  assert (LK : (k < length es2)%nat) by (apply nth_error_Some; congruence).
  assert (EV : forall es s, map fst (fst (run st up s es)) = es).
  { clear. induction es as [|e es IH]; intros s; cbn [run]; auto. destruct (step st up s e) as [s' a].
    specialize (IH s'). destruct (run st up s' es). cbn in *. congruence. }
  set (es := es1 ++ EReq c1 r1 :: es2 ++ EReq c2 r2 :: es3) in *.
  assert (NE : nth_error es (i + 1 + k) = Some e).
  { unfold es. subst i. rewrite nth_error_app2 by lia. replace (length es1 + 1 + k - length es1)%nat with (S k) by lia.
    cbn. rewrite nth_error_app1; auto. }
  rewrite <- (EV es fresh) in NE. rewrite nth_error_map in NE.
  destruct (nth_error (fst (run st up fresh es)) (i + 1 + k)) as [[e' a]|] eqn:Q; [|discriminate].
  cbn in NE. inversion NE; subst e'. eapply ND; [|exact Q]. lia.
Qed.

(** * Joining *)
Lemma report_new : forall st d m t o u now ex, uuniq d ->
  (forall x, ~ has_unihash d m t x) -> (forall r, In r (outhashes d) -> o_key m t o r = false) ->
  let r := Report true m t o u now ex in
  exists a, snd (handle st false d r) = Answer (AUni (Some a)) /\ has_unihash (fst (handle st false d r)) m t a /\
    ((exists x, other_record d m t o x a /\
        forall x' u', other_record d m t o x' u' -> (o_created x <= o_created x')%Z) \/
     (a = u /\ forall x' u', ~ other_record d m t o x' u')).
Proof.
  intros st d m t o u now ex U NU NO r. subst r. cbn [handle]. unfold insert_outhash. cbn [o_method o_task o_out].
  replace (existsb (o_key m t o) (outhashes d)) with false.
  2: { symmetry. apply not_true_is_false. intros H. apply existsb_exists in H. destruct H as (x & I & K).
       rewrite NO in K; auto. discriminate. }
  set (d1 := mkDb (unihashes d) (outhashes d ++ [mkO m t o now ex]) (mark d)).
  assert (G1 : forall m' t', get_equivalent d1 m' t' = get_equivalent d m' t') by (intros; apply ge_ext; auto).
  assert (GN : get_equivalent d1 m t = None) by (rewrite G1; apply ge_none; auto).
  assert (J : forall x u', In (x, u') (joined d1 (fun r => seqb (o_method r) m && seqb (o_out r) o && negb (seqb (o_task r) t)))
                <-> other_record d m t o x u').
  { intros x u'. rewrite joined_in, G1. unfold other_record. rewrite !andb_true_iff, negb_true_iff, !seqb_eq, (ge_iff d) by auto.
    unfold d1. cbn [outhashes]. rewrite in_app_iff. cbn [In]. split.
    - intros ([I|[<-|[]]] & [[M O] T] & G).
      + subst m. split; auto. split; auto. split; auto. split; auto. intros E. rewrite E, seqb_refl in T. discriminate.
      + cbn in T. rewrite seqb_refl in T. discriminate.
    - intros (I & M & O & T & G). subst m. split; auto. split; auto. split; auto.
      apply not_true_is_false. rewrite seqb_eq. auto. }
  unfold get_equivalent_for_outhash.
  match goal with |- context [oldest ?l] => pose proof (oldest_spec l) as OS; destruct (oldest l) as [[x u']|] end.
  - destruct OS as [OI OM]. cbn [fst snd]. exists u'. unfold get_unihash. rewrite ge_insert_same, GN. split; auto. split.
    + apply ge_in. rewrite ge_insert_same, GN. auto.
    + left. exists x. split; [apply J; auto|]. intros x' u2 H. apply J in H. apply (OM _ H).
  - cbn [fst snd]. exists u. unfold get_unihash. rewrite ge_insert_same, GN. split; auto. split.
    + apply ge_in. rewrite ge_insert_same, GN. auto.
    + right. split; auto. intros x' u2 H. apply J in H. rewrite OS in H. destruct H.
Qed.

(** * Garbage collection *)
Lemma mem_ucols : forall k, mem_str k ucols = true <-> exists r x, ucol r k = Some x.
Proof.
  intros k. unfold ucols. rewrite mem_str_In. split.
  - intros [<-|[<-|[<-|[<-|[]]]]]; exists (mkU [] [] [] []), []; reflexivity.
  - intros (r & x & H). unfold ucol in H. cbn [In].
    destruct (seqb k (s_ "method")) eqn:E1; [apply seqb_eq in E1; auto|].
    destruct (seqb k (s_ "taskhash")) eqn:E2; [apply seqb_eq in E2; auto|].
    destruct (seqb k (s_ "unihash")) eqn:E3; [apply seqb_eq in E3; auto|].
    destruct (seqb k (s_ "gc_mark")) eqn:E4; [apply seqb_eq in E4; auto 6|]. discriminate.
Qed.
Lemma ucol_some_any : forall r r' k x, ucol r k = Some x -> exists y, ucol r' k = Some y.
Proof.
  intros r r' k x H. unfold ucol in *.
  destruct (seqb k (s_ "method")); eauto. destruct (seqb k (s_ "taskhash")); eauto.
  destruct (seqb k (s_ "unihash")); eauto. destruct (seqb k (s_ "gc_mark")); eauto.
Qed.

Lemma selects_iff : forall cond r,
  selects cond r <-> where_of ucols cond <> [] /\ holds (ucol r) (where_of ucols cond) = true.
Proof.
  intros cond r. unfold selects. fold (ucol r). 
  assert (W : forall k v, In (k, v) (where_of ucols cond) <-> In (k, v) cond /\ ucol r k <> None).
  { intros k v. unfold where_of. rewrite filter_In. cbn [fst]. rewrite mem_ucols. split.
    - intros [I (r' & x & H)]. split; auto. destruct (ucol_some_any r' r k x H) as (y & ->). discriminate.
    - intros [I H]. split; auto. destruct (ucol r k) as [x|] eqn:E; [eauto|congruence]. }
  split.
  - intros [(k & v & I & N) H]. split.
    + assert (J : In (k, v) (where_of ucols cond)) by (apply W; auto). intros E. rewrite E in J. destruct J.
    + unfold holds. apply forallb_forall. intros [k' v'] J. apply W in J. destruct J as [J1 J2]. cbn [fst snd].
      destruct (ucol r k') as [x|] eqn:E; [|congruence]. apply seqb_eq. eapply H; eauto.
  - intros [N H]. split.
    + destruct (where_of ucols cond) as [|[k v] w] eqn:E; [congruence|].
      assert (J : In (k, v) (where_of ucols cond)) by (rewrite E; left; auto).
      rewrite <- E in W. exists k, v. apply W. rewrite E. left. auto.
    + intros k v x I E. unfold holds in H. rewrite forallb_forall in H.
      assert (J : In (k, v) (where_of ucols cond)) by (apply W; split; auto; unfold ucol; rewrite E; discriminate).
      specialize (H _ J). cbn [fst snd] in H. unfold ucol in H. rewrite E in H. apply seqb_eq in H. auto.
Qed.

Lemma gc_mark_rows : forall d mk cond r', In r' (unihashes (gc_mark d mk cond)) <->
  exists r, In r (unihashes d) /\ u_method r = u_method r' /\ u_task r = u_task r' /\ u_uni r = u_uni r' /\
    ((selects cond r /\ u_mark r' = mk) \/ (~ selects cond r /\ u_mark r' = u_mark r)).
Proof.
  intros d mk cond r'. unfold gc_mark. cbn [unihashes].
  destruct (where_of ucols cond) as [|kv w] eqn:E.
  - assert (N : forall r, ~ selects cond r) by (intros r S; apply selects_iff in S; rewrite E in S; tauto).
    split.
    + intros I. exists r'. auto 10.
    + intros (r & I & E1 & E2 & E3 & [[S _]|[_ E4]]); [exfalso; eapply N; eauto|].
      destruct r, r'. cbn in *. subst. auto.
  - rewrite in_map_iff. rewrite <- E.
    assert (S : forall r, holds (ucol r) (where_of ucols cond) = true <-> selects cond r).
    { intros r. rewrite selects_iff. split; [intros H; split; auto; rewrite E; discriminate|tauto]. }
    split.
    + intros (r & Q & I). exists r. split; auto. destruct (holds (ucol r) (where_of ucols cond)) eqn:H.
      * subst r'. cbn. repeat split; auto. left. split; auto. apply S. auto.
      * subst r'. repeat split; auto. right. split; auto. intros X. apply S in X. congruence.
    + intros (r & I & E1 & E2 & E3 & [[X M]|[X M]]).
      * exists r. split; auto. apply S in X. rewrite X. destruct r, r'. cbn in *. subst. auto.
      * exists r. split; auto. destruct (holds (ucol r) (where_of ucols cond)) eqn:H; [apply S in H; tauto|].
        destruct r, r'. cbn in *. subst. auto.
Qed.

(** Rows only added, with the current mark *)
Definition grown (mk : str) (d0 d : db) : Prop :=
  exists new, unihashes d = unihashes d0 ++ new /\ 
    Forall (fun r => u_mark r = mk /\
      forall r0, In r0 (unihashes d0) -> ~ (u_method r0 = u_method r /\ u_task r0 = u_task r)) new /\ mark d = Some mk.
Lemma grown_insert : forall mk d0 d m t u, grown mk d0 d -> grown mk d0 (insert_unihash d m t u).
Proof.
  intros mk d0 d m t u (new & E & F & M). unfold insert_unihash. destruct (get_equivalent d m t) eqn:GN.
  - exists new. auto.
  - exists (new ++ [mkU m t u (mark_text d)]). cbn [unihashes mark]. split; [rewrite E, app_assoc; auto|].
    split; auto. apply Forall_app. split; auto. constructor; auto. cbn. unfold mark_text. rewrite M. split; auto.
    intros r0 I0 [K1 K2]. rewrite ge_none in GN. apply (GN (u_uni r0)). exists (u_mark r0). rewrite E.
    apply in_or_app. left. subst m t. destruct r0; auto.
Qed.
Lemma grown_ext : forall mk d0 d d', unihashes d' = unihashes d -> mark d' = mark d -> grown mk d0 d -> grown mk d0 d'.
Proof. intros mk d0 d d' E1 E2 (new & E & F & M). exists new. rewrite E1, E2. auto. Qed.
Lemma grown_step : forall st up mk d0 s e, ordinary e -> grown mk d0 (database s) ->
  grown mk d0 (database (fst (step st up s e))).
Proof.
  intros st up mk d0 s e O G.
  assert (IO : forall d r, grown mk d0 d -> grown mk d0 (fst (insert_outhash st d r))).
  { intros d r H. eapply grown_ext; [apply insert_outhash_uni|apply insert_outhash_mark|auto]. }
  destruct (step_db st up s e) as [(c & r & E & -> & _)|[(c & rep & w & _ & ->)|[(r & _ & ->)| ->]]];
    auto using grown_insert.
  - subst e. destruct (O c) as (O1 & O2 & O3).
    destruct r as [m' t'|m' t'|m' t'|m' o' t' wu|rw m' t' o' u' now extra|m' t' u'|cond|mk' cond|mk'|now ma]; cbn [handle]; auto.
    + destruct wu; auto.
    + destruct rw; auto. specialize (IO (database s) (mkO m' t' o' now extra) G).
      destruct (insert_outhash st (database s) (mkO m' t' o' now extra)) as [d1 n]. cbn [fst] in IO. destruct n; auto.
      destruct (get_equivalent_for_outhash d1 m' o' t') as [[? u2]|]; cbn [fst]; auto using grown_insert.
      destruct up; cbn [fst]; auto using grown_insert.
    + cbn [fst]. auto using grown_insert.
    + exfalso. eapply O1. eauto.
    + exfalso. eapply O3. eauto.
    + exfalso. eapply O2. eauto.
  - assert (UU : forall r, grown mk d0 (update_unified st (database s) r)).
    { intros r. unfold update_unified. apply IO. apply grown_insert. auto. }
    destruct w; destruct rep; cbn [resume fst]; auto using grown_insert.
Qed.
Lemma grown_run : forall st up mk d0 es s, Forall ordinary es -> grown mk d0 (database s) ->
  grown mk d0 (database (snd (run st up s es))).
Proof.
  intros st up mk d0 es s F. revert s. induction F; intros s G; auto. rewrite run_cons_snd. apply IHF.
  apply grown_step; auto.
Qed.

Lemma sweep_step : forall st up s c mk, find (fun p => Nat.eqb (fst p) c) (waiting s) = None ->
  mk <> [] -> mark (database s) = Some mk ->
  step st up s (EReq c (GcSweep mk)) =
    (mkServer (mkDb (filter (fun r => seqb (u_mark r) mk) (unihashes (database s))) (outhashes (database s)) None)
       (waiting s), Some AOk).
Proof.
  intros st up s c mk W N M. cbn [step handle]. rewrite W, M. destruct mk as [|ch l]; [congruence|].
  rewrite seqb_refl. unfold gc_sweep. rewrite M. reflexivity.
Qed.

Lemma sweep_handle : forall st up d mk,
  (snd (handle st up d (GcSweep mk)) = Answer AOk <-> mk <> [] /\ mark d = Some mk) /\
  (snd (handle st up d (GcSweep mk)) = Answer AOk \/ snd (handle st up d (GcSweep mk)) = Answer AFail) /\
  (snd (handle st up d (GcSweep mk)) = Answer AFail -> fst (handle st up d (GcSweep mk)) = d) /\
  (snd (handle st up d (GcSweep mk)) = Answer AOk ->
     (forall r, In r (unihashes (fst (handle st up d (GcSweep mk)))) <-> In r (unihashes d) /\ u_mark r = mk) /\
     outhashes (fst (handle st up d (GcSweep mk))) = outhashes d).
Proof.
  intros st up d mk. cbn [handle]. destruct (mark d) as [[|ch l]|] eqn:M; cbn [fst snd].
  - split; [split; [discriminate|intros [N E]; inversion E; congruence]|]. split; auto. split; auto. discriminate.
  - destruct (seqb mk (ch :: l)) eqn:E; cbn [fst snd].
    + apply seqb_eq in E. subst mk. split; [split; auto; split; congruence|]. split; auto. split; [discriminate|].
      intros _. unfold gc_sweep. rewrite M. cbn [unihashes outhashes]. split; auto. intros r. rewrite filter_In, seqb_eq. tauto.
    + split; [split; [discriminate|intros [N Q]; inversion Q; subst; rewrite seqb_refl in E; discriminate]|].
      split; auto. split; auto. discriminate.
  - split; [split; [discriminate|intros [N E]; discriminate]|]. split; auto. split; auto. discriminate.
Qed.

Lemma gc_cycle : forall st up s c1 c2 mk cond es,
  uuniq (database s) -> mk <> [] -> Forall ordinary es ->
  find (fun p => Nat.eqb (fst p) c1) (waiting s) = None ->
  let s1 := fst (step st up s (EReq c1 (GcMark mk cond))) in
  let s2 := snd (run st up s1 es) in
  find (fun p => Nat.eqb (fst p) c2) (waiting s2) = None ->
  let s3 := fst (step st up s2 (EReq c2 (GcSweep mk))) in
  snd (step st up s2 (EReq c2 (GcSweep mk))) = Some AOk /\
  (forall m t u, has_unihash (database s3) m t u <->
     (exists r, In r (unihashes (database s)) /\ u_method r = m /\ u_task r = t /\ u_uni r = u /\
                (selects cond r \/ u_mark r = mk)) \/
     (has_unihash (database s2) m t u /\ forall u', ~ has_unihash (database s) m t u')).
Proof.
  intros st up s c1 c2 mk cond es U N F W1 s1 s2 W2 s3.
  assert (E1 : database s1 = gc_mark (database s) mk cond).
  { unfold s1. cbn [step handle]. rewrite W1. reflexivity. }
  assert (G : grown mk (gc_mark (database s) mk cond) (database s2)).
  { unfold s2. apply grown_run; auto. rewrite E1. exists []. rewrite app_nil_r. auto. }
  assert (U2 : uuniq (database s2)).
  { unfold s2. apply run_uuniq. rewrite E1. apply uuniq_gc_mark. auto. }
  destruct G as (new & GE & GF & GM).
  assert (SW := sweep_step st up s2 c2 mk W2 N GM). unfold s3. rewrite SW. cbn [fst snd database]. split; auto.
  intros m t u. unfold has_unihash at 1. cbn [unihashes]. split.
  - intros (mk' & I). apply filter_In in I. cbn [u_mark] in I. destruct I as [I E]. apply seqb_eq in E. subst mk'.
    rewrite GE in I. apply in_app_or in I. destruct I as [I|I].
    + left. apply gc_mark_rows in I. cbn in I. destruct I as (r & I & Q1 & Q2 & Q3 & Q). exists r.
      split; auto. split; auto. split; auto. split; auto. destruct Q as [[Q _]|[_ Q]]; auto.
    + right. split; [exists mk; rewrite GE; apply in_or_app; auto|].
      intros u' (mk' & I'). 
      assert (I0 : exists mk0, In (mkU m t u' mk0) (unihashes (gc_mark (database s) mk cond))).
      { set (r0 := mkU m t u' mk').
        assert (D : selects cond r0 \/ ~ selects cond r0).
        { rewrite selects_iff. destruct (where_of ucols cond) as [|kv w]; [right; tauto|].
          destruct (holds (ucol r0) (kv :: w)); [left; split; congruence|right; intros [_ X]; discriminate]. }
        destruct D as [D|D]; [exists mk|exists mk']; apply gc_mark_rows; exists r0; cbn; auto 10. }
      destruct I0 as (mk0 & I0).
      rewrite Forall_forall in GF. destruct (GF _ I) as [_ Q]. apply (Q _ I0). auto.
  - intros [(r & I & Q1 & Q2 & Q3 & Q)|[(mk' & I) NO]].
    + exists mk. apply filter_In. split; [|cbn; apply seqb_refl]. rewrite GE. apply in_or_app. left.
      apply gc_mark_rows. exists r. cbn. split; auto. split; auto. split; auto. split; auto.
      assert (D : selects cond r \/ ~ selects cond r).
      { rewrite selects_iff. destruct (where_of ucols cond) as [|kv w]; [right; tauto|].
        destruct (holds (ucol r) (kv :: w)); [left; split; congruence|right; intros [_ X]; discriminate]. }
      destruct D as [D|D]; auto. destruct Q as [Q|Q]; [tauto|]. right. auto.
    + rewrite GE in I. apply in_app_or in I. destruct I as [I|I].
      * exfalso. apply gc_mark_rows in I. cbn in I. destruct I as (r & I & Q1 & Q2 & Q3 & _).
        apply (NO (u_uni r)). exists (u_mark r). rewrite <- Q1, <- Q2. destruct r; auto.
      * rewrite Forall_forall in GF. destruct (GF _ I) as [Q _]. cbn in Q. subst mk'. exists mk. apply filter_In.
        split; [rewrite GE; apply in_or_app; auto|]. cbn. apply seqb_refl.
Qed.
