(** C15-C17, C49: the hash equivalence server. *)
From Coq Require Import Ascii String List Bool Arith ZArith Lia.
From Verif Require Import Str_Model Str_Proofs Hashserv_Model Hashserv_Spec Hashserv_Proofs.
Import ListNotations.
Open Scope list_scope.

(** C15: once a client was told the unihash of a task, every later answer for that
    task is the same, as long as no entry is deleted in between.  Missing: answers
    that had to wait for the upstream server (see the refutations below), and, with
    the row-id behaviour of old Python versions, histories with deletions. *)
Theorem hash_unihash_never_changes_partial : forall stale up es i j m t u u', (i < j)%nat ->
  let tr := fst (run stale up fresh es) in
  stale = true \/ up = true \/ Forall (fun e => ~ deletes e) es ->
  (forall k e a, (i < k < j)%nat -> nth_error tr k = Some (e, a) -> ~ deletes e) ->
  told tr i m t u -> told tr j m t u' -> u = u'.
Proof. exact never_changes. Qed.

(** C15, the stored side, with upstream replies arriving in any order: an entry
    stays and no second one appears *)
Theorem hash_entry_stays : forall stale up es0 es m t u,
  Forall (fun e => ~ deletes e) es ->
  let s := snd (run stale up fresh es0) in
  has_unihash (database s) m t u ->
  forall u', has_unihash (database (snd (run stale up s es))) m t u' <-> u' = u.
Proof.
  intros stale up es0 es m t u F s H u'.
  assert (U : uuniq (database s)) by (apply run_uuniq, fresh_uuniq).
  apply (ge_iff _ m t u U) in H. assert (K := run_keep stale up es s m t u F H).
  rewrite <- ge_iff by (apply run_uuniq; auto). rewrite K. split; congruence.
Qed.

Definition m0 := s_ "method". Definition t1 := s_ "t1". Definition t2 := s_ "t2".
Definition o1 := s_ "o1". Definition u1 := s_ "u1". Definition u2 := s_ "u2". Definition u3 := s_ "u3".

Example hash_unihash_case :
  let es := [EReq 1 (Report true m0 t1 o1 u1 5 []); EReq 2 (Report true m0 t2 o1 u2 6 []); EReq 1 (Equiv m0 t1 u3);
             EReq 3 (Get m0 t2); EReq 3 (GetAll m0 t1)] in
  map snd (fst (run true false fresh es)) = repeat (Some (AUni (Some u1))) 5 /\
  told (fst (run true false fresh es)) 1 m0 t2 u1 /\ told (fst (run true false fresh es)) 3 m0 t2 u1 /\
  Forall (fun e => ~ deletes e) es.
Proof.
  vm_compute. split; auto. split; [|split].
  - exists 2. eexists. split; [|reflexivity]. right. right. right. right. repeat eexists.
  - exists 3. eexists. split; [|reflexivity]. left. auto.
  - repeat constructor; intros (c & [(? & E)|(? & E)]); discriminate.
Qed.

(** C15 fails for answers that waited for the upstream server: between the local
    lookup and the reply another client registers the task, the reply is passed on
    although another unihash is stored (server.py 344-346) *)
Theorem hash_upstream_race_refuted : exists es m t,
  Forall (fun e => ~ deletes e) es /\
  map snd (fst (run true true fresh es)) =
    [None; Some (AUni (Some u1)); Some (AUni (Some u2)); Some (AUni (Some u1))] /\
  map fst (fst (run true true fresh es)) =
    [EReq 1 (Get m t); EReq 2 (Equiv m t u1); EReply 1 (Some (mkUp m t u2 o1 0)); EReq 1 (Get m t)].
Proof.
  exists [EReq 1 (Get m0 t1); EReq 2 (Equiv m0 t1 u1); EReply 1 (Some (mkUp m0 t1 u2 o1 0)); EReq 1 (Get m0 t1)], m0, t1.
  split; [repeat constructor; intros (c & [(? & E)|(? & E)]); discriminate|]. vm_compute. auto.
Qed.

(** A client that may not report (or any client of a read-only server) is told the
    unihash of the output it reports, even if the task has another one stored
    (server.py 447-462) *)
Theorem hash_readonly_report_refuted : exists es,
  Forall (fun e => ~ deletes e) es /\
  fst (run true false fresh es) =
    [(EReq 1 (Report true m0 t1 o1 u1 5 []), Some (AUni (Some u1)));
     (EReq 1 (Report true m0 t2 (s_ "o2") u2 6 []), Some (AUni (Some u2)));
     (EReq 2 (Report false m0 t1 (s_ "o2") u3 7 []), Some (AUni (Some u2)));
     (EReq 2 (Get m0 t1), Some (AUni (Some u1)))].
Proof.
  exists [EReq 1 (Report true m0 t1 o1 u1 5 []); EReq 1 (Report true m0 t2 (s_ "o2") u2 6 []);
          EReq 2 (Report false m0 t1 (s_ "o2") u3 7 []); EReq 2 (Get m0 t1)].
  split; [repeat constructor; intros (c & [(? & E)|(? & E)]); discriminate|]. vm_compute. auto.
Qed.

(** With the row-id behaviour of old Python versions a task whose entry was removed
    is told unihashes that are not stored *)
Theorem hash_unsaved_answer_refuted : exists es i j m t u u',
  let tr := fst (run false false fresh es) in
  (i < j)%nat /\ told tr i m t u /\ told tr j m t u' /\ u <> u' /\
  (forall k e a, (i < k < j)%nat -> nth_error tr k = Some (e, a) -> ~ deletes e).
Proof.
  exists [EReq 1 (Report true m0 t1 o1 u1 5 []); EReq 1 (Remove [(s_ "unihash", u1)]);
          EReq 1 (Report true m0 t1 o1 u2 6 []); EReq 1 (Equiv m0 t1 u3)], 2, 3, m0, t1, u2, u3.
  cbv zeta. split; [lia|]. split; [|split; [|split]].
  - exists 1, (Report true m0 t1 o1 u2 6 []). split; [right; right; right; right; repeat eexists|vm_compute; auto].
  - exists 1, (Equiv m0 t1 u3). split; [right; right; right; left; eauto|vm_compute; auto].
  - discriminate.
  - intros k e a L. lia.
Qed.

(** A query for a task that neither server knows fails instead of answering "no
    unihash" when an upstream server is configured (server.py 345-346) *)
Theorem hash_get_unknown_with_upstream_refuted : forall stale es c m t,
  let s := snd (run stale true fresh es) in
  find (fun p => Nat.eqb (fst p) c) (waiting s) = None ->
  (forall u, ~ has_unihash (database s) m t u) ->
  map snd (fst (run stale true s [EReq c (Get m t); EReply c None])) = [None; Some AFail].
Proof.
  intros stale es c m t s W N. apply ge_none in N. cbn [run step handle]. rewrite W. unfold get_unihash. rewrite N.
  cbn [finish waiting find fst]. rewrite Nat.eqb_refl. cbn. auto.
Qed.
Example hash_get_unknown_case :
  map snd (fst (run true true fresh [EReq 1 (Get m0 t1); EReply 1 None])) = [None; Some AFail].
Proof. vm_compute. auto. Qed.

(** C16: a report for a task that has no unihash yet and whose output was not
    recorded before is answered with the unihash of the oldest record of another
    task with the same output, or with the proposed one if there is none; that
    answer is then the task's stored unihash *)
Theorem hash_report_joins_oldest : forall stale es m t o u now ex,
  let d := database (snd (run stale false fresh es)) in
  (forall x, ~ has_unihash d m t x) ->
  (forall r, In r (outhashes d) -> ~ (o_method r = m /\ o_task r = t /\ o_out r = o)) ->
  let r := Report true m t o u now ex in
  exists a, snd (handle stale false d r) = Answer (AUni (Some a)) /\
    (forall x, has_unihash (fst (handle stale false d r)) m t x <-> x = a) /\
    ((exists x, other_record d m t o x a /\
        forall x' u', other_record d m t o x' u' -> (o_created x <= o_created x')%Z) \/
     (a = u /\ forall x' u', ~ other_record d m t o x' u')).
Proof.
  intros stale es m t o u now ex d NU NO r.
  assert (U : uuniq d) by (apply run_uuniq, fresh_uuniq).
  destruct (report_new stale d m t o u now ex U NU) as (a & A & B & C).
  - intros x I. unfold o_key. specialize (NO x I). apply not_true_is_false. rewrite !andb_true_iff, !seqb_eq. tauto.
  - exists a. split; auto. split; auto. intros x.
    assert (U' : uuniq (fst (handle stale false d r))) by (apply handle_uuniq; auto).
    apply (ge_iff _ m t a U') in B. rewrite <- (ge_iff _ m t x U'), B. split; congruence.
Qed.
Example hash_report_case :
  let d := database (snd (run true false fresh
     [EReq 1 (Report true m0 (s_ "a") o1 u1 9 []); EReq 1 (Report true m0 (s_ "b") (s_ "o2") u2 3 []);
      EReq 1 (Report true m0 (s_ "b") o1 u3 4 [])])) in
  snd (handle true false d (Report true m0 t1 o1 u3 10 [])) = Answer (AUni (Some u2)) /\
  snd (handle true false d (Report true m0 t1 (s_ "o9") u3 10 [])) = Answer (AUni (Some u3)).
Proof. vm_compute. auto. Qed.

(** The unihashes of two tasks that reported the same output may still differ, if
    both were known before *)
Theorem hash_same_output_distinct_unihash_refuted : exists es,
  fst (run true false fresh es) =
    [(EReq 1 (Equiv m0 t1 u1), Some (AUni (Some u1))); (EReq 1 (Equiv m0 t2 u2), Some (AUni (Some u2)));
     (EReq 1 (Report true m0 t1 o1 u3 5 []), Some (AUni (Some u1)));
     (EReq 1 (Report true m0 t2 o1 u3 5 []), Some (AUni (Some u2)))].
Proof.
  exists [EReq 1 (Equiv m0 t1 u1); EReq 1 (Equiv m0 t2 u2); EReq 1 (Report true m0 t1 o1 u3 5 []);
          EReq 1 (Report true m0 t2 o1 u3 5 [])]. vm_compute. auto.
Qed.

(** C17: a sweep is carried out exactly when it names the current, non-empty mark;
    then exactly the entries with that mark stay; a refused sweep changes nothing *)
Theorem hash_sweep_exact : forall stale up es mk,
  let d := database (snd (run stale up fresh es)) in
  (snd (handle stale up d (GcSweep mk)) = Answer AOk <-> mk <> [] /\ mark d = Some mk) /\
  (snd (handle stale up d (GcSweep mk)) = Answer AOk \/ snd (handle stale up d (GcSweep mk)) = Answer AFail) /\
  (snd (handle stale up d (GcSweep mk)) = Answer AFail -> fst (handle stale up d (GcSweep mk)) = d) /\
  (snd (handle stale up d (GcSweep mk)) = Answer AOk ->
     (forall r, In r (unihashes (fst (handle stale up d (GcSweep mk)))) <-> In r (unihashes d) /\ u_mark r = mk) /\
     outhashes (fst (handle stale up d (GcSweep mk))) = outhashes d).
Proof. intros. apply sweep_handle. Qed.

(** C17, a whole collection: mark, any requests of other clients and upstream
    replies in between, sweep.  What stays is: entries selected by the mark, entries
    that already carried that mark, and everything added since the mark was set. *)
Theorem hash_collection_keeps_marked_and_new : forall stale up es0 c1 c2 mk cond es,
  let s := snd (run stale up fresh es0) in
  mk <> [] -> Forall ordinary es ->
  find (fun p => Nat.eqb (fst p) c1) (waiting s) = None ->
  let s1 := fst (step stale up s (EReq c1 (GcMark mk cond))) in
  let s2 := snd (run stale up s1 es) in
  find (fun p => Nat.eqb (fst p) c2) (waiting s2) = None ->
  let s3 := fst (step stale up s2 (EReq c2 (GcSweep mk))) in
  snd (step stale up s2 (EReq c2 (GcSweep mk))) = Some AOk /\
  (forall m t u, has_unihash (database s3) m t u <->
     (exists r, In r (unihashes (database s)) /\ u_method r = m /\ u_task r = t /\ u_uni r = u /\
                (selects cond r \/ u_mark r = mk)) \/
     (has_unihash (database s2) m t u /\ forall u', ~ has_unihash (database s) m t u')).
Proof. intros. apply gc_cycle; auto. apply run_uuniq, fresh_uuniq. Qed.
Example hash_collection_case :
  let s := snd (run true false fresh
     [EReq 1 (Equiv m0 t1 u1); EReq 1 (Equiv m0 t2 u2); EReq 1 (GcMark (s_ "k") [(s_ "unihash", u2)]);
      EReq 2 (Equiv m0 (s_ "t3") u3); EReq 1 (GcSweep (s_ "k"))]) in
  map u_task (unihashes (database s)) = [t2; s_ "t3"].
Proof. vm_compute. auto. Qed.

(** C49: removing unused output records never removes a record of a task that has a
    unihash, and touches no unihash *)
Theorem hash_clean_unused_keeps_used : forall stale up es now age,
  let d := database (snd (run stale up fresh es)) in
  let d' := fst (handle stale up d (CleanUnused now age)) in
  unihashes d' = unihashes d /\ mark d' = mark d /\
  forall r, In r (outhashes d') <-> In r (outhashes d) /\
     ((exists u, has_unihash d (o_method r) (o_task r) u) \/ (now + age <= o_created r)%Z).
Proof.
  intros stale up es now age d d'. split; auto. split; auto. intros r. unfold d'. cbn [handle fst].
  unfold clean_unused. cbn [outhashes]. rewrite filter_In. 
  destruct (get_equivalent d (o_method r) (o_task r)) as [u|] eqn:G.
  - rewrite andb_false_r. cbn. split; [|tauto]. intros [I _]. split; auto. left. exists u. apply ge_in. auto.
  - rewrite ge_none in G. rewrite andb_true_r, negb_true_iff, Z.ltb_ge. split.
    + intros [I L]. split; auto. right. lia.
    + intros [I [(u & H)|L]]; [exfalso; eapply G; eauto|]. split; auto. lia.
Qed.
(** ... but the age limit has the wrong sign (server.py 616): records younger than
    the limit are removed, for every positive limit *)
Theorem hash_clean_unused_removes_young_refuted : forall stale up d r now age,
  In r (outhashes d) -> (forall u, ~ has_unihash d (o_method r) (o_task r) u) ->
  (0 < age)%Z -> o_created r = now ->
  ~ In r (outhashes (fst (handle stale up d (CleanUnused now age)))).
Proof.
  intros stale up d r now age I N A C H. cbn [handle fst] in H. unfold clean_unused in H. cbn [outhashes] in H.
  apply filter_In in H. destruct H as [_ H]. apply ge_none in N. rewrite N in H.
  rewrite andb_true_r, negb_true_iff, Z.ltb_ge in H. lia.
Qed.
Example hash_clean_case :
  let d := database (snd (run true true fresh
     [EReq 1 (Report true m0 t1 o1 u1 100 []); EReq 2 (Equiv m0 t2 u2); EReq 2 (Report true m0 t2 o1 u2 90 [])])) in
  map o_task (outhashes d) = [t1; t2] /\
  map o_task (outhashes (fst (handle true true d (CleanUnused 100 3600)))) = [t2].
Proof. vm_compute. auto. Qed.

Print Assumptions hash_unihash_never_changes_partial.
Print Assumptions hash_entry_stays.
Print Assumptions hash_report_joins_oldest.
Print Assumptions hash_collection_keeps_marked_and_new.
Print Assumptions hash_clean_unused_keeps_used.

(** C16 with an upstream server: a first report whose output no task here has is
    put on hold; whatever the other clients do meanwhile, when the upstream server
    has answered the task gets its unihash from upstream, or the reported one if
    upstream knows none, unless it has got one in the meantime. *)
Definition idle (s : server) (c : nat) : Prop := forall w, ~ In (c, w) (waiting s).
Lemma idle_find : forall s c, idle s c -> find (fun p => Nat.eqb (fst p) c) (waiting s) = None.
Proof.
  intros s c I. destruct (find _ (waiting s)) as [[c' w]|] eqn:F; auto. apply find_some in F. destruct F as [A B].
  apply Nat.eqb_eq in B. cbn in B. subst. exfalso. eapply I. exact A.
Qed.
Lemma find_other : forall c c0 (l : list (nat * wait)), c0 <> c ->
  find (fun p => Nat.eqb (fst p) c) (filter (fun p => negb (Nat.eqb (fst p) c0)) l) =
  find (fun p => Nat.eqb (fst p) c) l.
Proof.
  intros c c0 l N. induction l as [|[x w] l IH]; auto. cbn [filter fst]. destruct (Nat.eqb x c0) eqn:E; cbn [negb find fst].
  - apply Nat.eqb_eq in E. subst. destruct (Nat.eqb c0 c) eqn:F; [apply Nat.eqb_eq in F; congruence|exact IH].
  - destruct (Nat.eqb x c); auto.
Qed.
Lemma step_waits : forall st up s e c p, (forall rep, e <> EReply c rep) ->
  find (fun q => Nat.eqb (fst q) c) (waiting s) = Some p ->
  find (fun q => Nat.eqb (fst q) c) (waiting (fst (step st up s e))) = Some p.
Proof.
  intros st up s e c p N F. destruct e as [c0 r|c0 rep|[r|]]; cbn [step]; auto.
  - destruct (Nat.eq_dec c0 c) as [->|NE]; [now rewrite F|].
    destruct (find (fun q => Nat.eqb (fst q) c0) (waiting s)); auto.
    destruct (handle st up (database s) r) as [d [a|w]]; cbn [finish fst waiting find]; auto.
    apply Nat.eqb_neq in NE. now rewrite NE.
  - assert (NE : c0 <> c) by (intros ->; eapply N; reflexivity).
    destruct (find (fun q => Nat.eqb (fst q) c0) (waiting s)) as [[x w]|]; auto.
    destruct (resume st up (database s) w rep) as [d [a|w']]; cbn [finish fst waiting find].
    + now rewrite find_other.
    + assert (NE' := NE). apply Nat.eqb_neq in NE'. rewrite NE'. now rewrite find_other.
Qed.
Lemma run_waits : forall st up es s c p, Forall (fun e => forall rep, e <> EReply c rep) es ->
  find (fun q => Nat.eqb (fst q) c) (waiting s) = Some p ->
  find (fun q => Nat.eqb (fst q) c) (waiting (snd (run st up s es))) = Some p.
Proof.
  intros st up es s c p F. revert s. induction F as [|e es N F IH]; intros s H; auto.
  rewrite run_cons_snd. apply IH, step_waits; auto.
Qed.
Theorem hash_report_asks_upstream : forall stale es0 c m t o u now ex es rep,
  let s := snd (run stale true fresh es0) in
  idle s c ->
  (forall r, In r (outhashes (database s)) -> ~ (o_method r = m /\ o_task r = t /\ o_out r = o)) ->
  (forall r x, ~ other_record (database s) m t o r x) ->
  Forall (fun e => forall r, e <> EReply c r) es ->
  let report := EReq c (Report true m t o u now ex) in
  let s2 := snd (run stale true s (report :: es)) in
  let s3 := fst (step stale true s2 (EReply c rep)) in
  snd (step stale true s report) = None /\
  exists a, snd (step stale true s2 (EReply c rep)) = Some (AUni (Some a)) /\
    (forall x, has_unihash (database s3) m t x <-> x = a) /\
    (has_unihash (database s2) m t a \/
     (forall x, ~ has_unihash (database s2) m t x) /\ a = match rep with Some r => up_uni r | None => u end).
Proof.
  intros stale es0 c m t o u now ex es rep s I NO NR F report s2 s3.
  assert (U : uuniq (database s)) by (apply run_uuniq, fresh_uuniq).
  assert (FI := idle_find s c I).
  assert (NK : existsb (o_key m t o) (outhashes (database s)) = false).
  { destruct (existsb _ _) eqn:E; auto. apply existsb_exists in E. destruct E as (r & IN & K). exfalso. apply (NO r IN).
    unfold o_key in K. rewrite !andb_true_iff, !seqb_eq in K. tauto. }
  set (d1 := mkDb (unihashes (database s)) (outhashes (database s) ++ [mkO m t o now ex]) (mark (database s))).
  assert (GE : get_equivalent_for_outhash d1 m o t = None).
  { unfold get_equivalent_for_outhash.
    match goal with |- oldest ?l = None => pose proof (oldest_spec l) as OS; destruct (oldest l) as [[r x]|] end; auto.
    destruct OS as [IN _]. apply joined_in in IN. destruct IN as (IN & P & G). exfalso.
    rewrite !andb_true_iff, negb_true_iff, !seqb_eq in P. destruct P as [[P1 P2] P3]. cbn [outhashes d1] in IN.
    assert (P4 : o_task r <> t) by (intros Q; rewrite Q, seqb_refl in P3; discriminate).
    apply in_app_or in IN. destruct IN as [IN|[<-|[]]]; [|apply P4; reflexivity].
    apply (NR r x). split; auto. split; auto. split; auto. split; auto.
    rewrite P1 in G. rewrite (ge_ext d1 (database s)) in G by reflexivity. apply ge_in. exact G. }
  assert (H : handle stale true (database s) (Report true m t o u now ex) = (d1, Suspend (WReport m t u))).
  { cbn [handle]. unfold insert_outhash. cbn [o_method o_task o_out]. rewrite NK. fold d1. rewrite GE. reflexivity. }
  assert (ST : step stale true s report = (mkServer d1 ((c, WReport m t u) :: waiting s), None)).
  { unfold report. cbn [step]. rewrite FI, H. reflexivity. }
  split; [now rewrite ST|].
  assert (W : find (fun q => Nat.eqb (fst q) c) (waiting s2) = Some (c, WReport m t u)).
  { unfold s2. rewrite run_cons_snd. apply run_waits; auto. rewrite ST. cbn [fst waiting find]. now rewrite Nat.eqb_refl. }
  assert (U2 : uuniq (database s2)).
  { unfold s2. rewrite run_cons_snd. apply run_uuniq, step_uuniq. exact U. }
  set (u' := match rep with Some r => up_uni r | None => u end).
  set (d2 := insert_unihash (database s2) m t u').
  assert (G2 : get_equivalent d2 m t = match get_equivalent (database s2) m t with Some x => Some x | None => Some u' end)
    by apply ge_insert_same.
  assert (UD : uuniq d2) by (apply uuniq_insert; exact U2).
  assert (R : resume stale true (database s2) (WReport m t u) rep = (d2, get_unihash true d2 m t (Some u))).
  { destruct rep; reflexivity. }
  assert (SS : forall a, get_equivalent d2 m t = Some a ->
    database s3 = d2 /\ snd (step stale true s2 (EReply c rep)) = Some (AUni (Some a))).
  { intros a G. unfold s3. cbn [step]. rewrite W, R. unfold get_unihash. rewrite G. split; reflexivity. }
  destruct (get_equivalent (database s2) m t) as [x|] eqn:G.
  - destruct (SS x G2) as [D A]. exists x. split; auto. split.
    + intros y. rewrite D, <- ge_iff by exact UD. rewrite G2. split; congruence.
    + left. apply ge_in. exact G.
  - destruct (SS u' G2) as [D A]. exists u'. split; auto. split.
    + intros y. rewrite D, <- ge_iff by exact UD. rewrite G2. split; congruence.
    + right. split; auto. apply ge_none. exact G.
Qed.
Example hash_report_upstream_example :
  map snd (fst (run true true fresh
    [EReq 1 (Report true m0 t1 o1 u1 5 []); EReq 2 (Equiv m0 t2 u3); EReq 1 (Get m0 t1);
     EReply 1 (Some (mkUp m0 t1 u2 o1 0)); EReq 2 (Get m0 t1)])) =
  [None; Some (AUni (Some u3)); None; Some (AUni (Some u2)); Some (AUni (Some u2))].
Proof. vm_compute. auto. Qed.
Print Assumptions hash_report_asks_upstream.

(** C17: the status request tells beforehand what a sweep does: how many entries
    it keeps and how many it removes. *)
Theorem hash_gc_status_predicts_sweep : forall stale up es mk,
  let d := database (snd (run stale up fresh es)) in
  mk <> [] -> mark d = Some mk ->
  let '(keep, drop, current) := gc_status d in
  current = Some mk /\ keep = length (unihashes (fst (handle stale up d (GcSweep mk)))) /\
  (keep + drop)%nat = length (unihashes d).
Proof.
  intros stale up es mk d N M. unfold gc_status. split; auto.
  assert (T : mark_text d = mk) by (unfold mark_text; now rewrite M). rewrite T. split.
  - cbn [handle]. rewrite M. destruct mk as [|x mk]; [congruence|]. rewrite seqb_refl. unfold gc_sweep. cbn [fst unihashes].
    now rewrite M.
  - induction (unihashes d) as [|r l IH]; auto. cbn [filter]. destruct (seqb (u_mark r) mk); cbn [negb length]; lia.
Qed.
Example hash_gc_status_example :
  gc_status (database (snd (run true false fresh
    [EReq 1 (Equiv m0 t1 u1); EReq 1 (Equiv m0 t2 u2); EReq 1 (GcMark (s_ "g") [(s_ "taskhash", t1)]);
     EReq 1 (Equiv m0 (s_ "t3") u3)]))) = (2, 1, Some (s_ "g")).
Proof. vm_compute. auto. Qed.
Print Assumptions hash_gc_status_predicts_sweep.

(** ** Further cases that meet the hypotheses *)
Lemma unihash_in d m t u : existsb (fun r => seqb (u_method r) m && seqb (u_task r) t && seqb (u_uni r) u) (unihashes d) = true <-> has_unihash d m t u.
Proof.
  rewrite existsb_exists. split.
  - intros ([a b c k] & I & E). cbn in E. apply andb_true_iff in E. destruct E as [E C]. apply andb_true_iff in E. destruct E as [A B]. apply seqb_eq in A, B, C. subst. now exists k.
  - intros [k I]. exists (mkU m t u k). split; auto. cbn. now rewrite !seqb_refl.
Qed.
Definition met_db := database (snd (run true false fresh
     [EReq 1 (Report true m0 (s_ "a") o1 u1 9 []); EReq 1 (Report true m0 (s_ "b") (s_ "o2") u2 3 []); EReq 1 (Report true m0 (s_ "b") o1 u3 4 [])])).
Example report_joins_met : (forall x, ~ has_unihash met_db m0 t1 x) /\ (forall r, In r (outhashes met_db) -> ~ (o_method r = m0 /\ o_task r = t1 /\ o_out r = o1)) /\
  exists r, other_record met_db m0 t1 o1 r u2.
Proof.
  split; [|split].
  - intros x H. apply unihash_in in H. vm_compute in H. discriminate H.
  - intros r I (A & B & C). vm_compute in I. repeat destruct I as [<-|I]; try destruct I; discriminate B.
  - eexists (mkO m0 (s_ "b") o1 4 []). split; [|repeat split; [discriminate|]].
    + vm_compute. tauto.
    + apply unihash_in. vm_compute. reflexivity.
Qed.
Example collection_met : Forall ordinary [EReq 2 (Equiv m0 (s_ "t3") u3); EReq 1 (Report true m0 t1 o1 u1 5 []); EReply 1 None].
Proof. repeat constructor; discriminate. Qed.
Example asks_upstream_met : let s := snd (run true true fresh [EReq 2 (Equiv m0 t2 u3)]) in
  idle s 1 /\ (forall r, In r (outhashes (database s)) -> ~ (o_method r = m0 /\ o_task r = t1 /\ o_out r = o1)) /\
  (forall r x, ~ other_record (database s) m0 t1 o1 r x) /\ Forall (fun e => forall r, e <> EReply 1 r) [EReq 3 (Get m0 t2); EReply 2 None].
Proof.
  split; [|split; [|split]].
  - intros w I. vm_compute in I. exact I.
  - intros r I. vm_compute in I. destruct I.
  - intros r x (I & _). vm_compute in I. exact I.
  - repeat constructor; discriminate.
Qed.

