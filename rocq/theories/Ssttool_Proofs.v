(** Proofs about isar-sstate upload and clean. *)
From Coq Require Import Ascii String List Bool Arith ZArith Lia.
From Verif Require Import Str_Model Str_Proofs Sstname_Model Sstname_Spec Sstname_Proofs Ssttool_Model Ssttool_Spec.
Import ListNotations.
Open Scope list_scope.

Lemma peqb_eq : forall a b, peqb a b = true <-> a = b.
Proof.
  induction a as [|x a IH]; destruct b as [|y b]; cbn; try (split; congruence).
  rewrite andb_true_iff, seqb_eq, IH. split; [intros [-> ->]|intros [= -> ->]]; auto.
Qed.
Lemma peqb_refl : forall a, peqb a a = true.
Proof. intros. apply peqb_eq. auto. Qed.
Lemma peqb_false : forall a b, peqb a b = false <-> a <> b.
Proof. intros. rewrite <- peqb_eq. destruct (peqb a b); split; congruence. Qed.
Lemma path_eq_dec : forall a b : path, {a = b} + {a <> b}.
Proof. intros. destruct (peqb a b) eqn:E; [left; apply peqb_eq|right; apply peqb_false]; auto. Qed.

Lemma is_file_iff : forall t p, is_file t p = true <-> In p (map fst (files t)).
Proof.
  intros. unfold is_file. rewrite existsb_exists, in_map_iff. split; intros (f & A & B).
  - exists f. apply peqb_eq in B. auto.
  - exists f. split; auto. apply peqb_eq. auto.
Qed.
Lemma mem_dirs : forall p l, existsb (peqb p) l = true <-> In p l.
Proof.
  intros. rewrite existsb_exists. split.
  - intros (x & A & B). apply peqb_eq in B. subst. auto.
  - intros I. exists p. split; auto. apply peqb_refl.
Qed.
Lemma is_dir_iff : forall t p, is_dir t p = true <-> p = [] \/ In p (dirs t).
Proof. intros. unfold is_dir. rewrite orb_true_iff, mem_dirs, peqb_eq. tauto. Qed.

Lemma prefixes_from_iff : forall p done q, In q (prefixes_from done p) <->
  exists a b, a <> [] /\ p = a ++ b /\ q = done ++ a.
Proof.
  induction p as [|x p IH]; intros done q; cbn [prefixes_from In].
  - split; [tauto|]. intros (a & b & N & E & _). destruct a; [congruence|discriminate].
  - rewrite IH. split.
    + intros [<-|(a & b & N & -> & ->)].
      * exists [x], p. split; [discriminate|]. auto.
      * exists (x :: a), b. split; [discriminate|]. rewrite <- app_assoc. auto.
    + intros (a & b & N & E & ->). destruct a as [|y a]; [congruence|]. inversion E; subst. destruct a as [|z a].
      * left. auto.
      * right. exists (z :: a), b. split; [discriminate|]. split; auto. rewrite <- app_assoc. auto.
Qed.
Lemma prefixes_iff : forall p q, In q (prefixes p) <-> q <> [] /\ exists r, p = q ++ r.
Proof.
  intros. unfold prefixes. rewrite prefixes_from_iff. cbn. split.
  - intros (a & b & N & E & ->). eauto.
  - intros (N & r & ->). exists q, r. auto.
Qed.

Lemma removelast_prefix : forall (p q r : path), p = q ++ r -> r <> [] -> exists r', removelast p = q ++ r'.
Proof. intros p q r -> N. rewrite removelast_app by auto. eauto. Qed.
Lemma removelast_app_snoc : forall (p : path) x, removelast (p ++ [x]) = p.
Proof. intros. rewrite removelast_app by discriminate. cbn. apply app_nil_r. Qed.

(** In a proper tree all directories above a directory are there *)
Lemma proper_ancestor : forall t d q r, proper t -> In d (dirs t) -> d = q ++ r -> q <> [] -> In q (dirs t).
Proof.
  intros t d q r (_ & _ & P) I E N. revert d E I. induction r as [|x r IH] using rev_ind; intros d E I.
  - rewrite app_nil_r in E. subst. auto.
  - destruct (P d I) as [_ [Q|Q]].
    + subst d. rewrite app_assoc, removelast_app_snoc in Q. apply app_eq_nil in Q. tauto.
    + apply (IH (removelast d)); auto. subst d. rewrite app_assoc, removelast_app_snoc. auto.
Qed.

Lemma makedirs_spec : forall t d t1, proper t -> makedirs t d = Some t1 ->
  proper t1 /\ files t1 = files t /\ is_dir t1 d = true /\
  (forall q, In q (dirs t1) <-> In q (dirs t) \/ (q <> [] /\ exists r, d = q ++ r)).
Proof.
  intros t d t1 P M. unfold makedirs in M. destruct (existsb (is_file t) (prefixes d)) eqn:X; [discriminate|].
  inversion M; subst t1; clear M.
  assert (NF : forall q, In q (prefixes d) -> ~ In q (map fst (files t))).
  { intros q I F. apply is_file_iff in F. assert (Y : existsb (is_file t) (prefixes d) = true) by (apply existsb_exists; eauto).
    congruence. }
  assert (D : forall q, In q (dirs t ++ filter (fun d0 => negb (is_dir t d0)) (prefixes d)) <->
              In q (dirs t) \/ (q <> [] /\ exists r, d = q ++ r)).
  { intros q. rewrite in_app_iff, filter_In, negb_true_iff, prefixes_iff. split.
    - intros [I|[I _]]; auto.
    - intros [I|I]; auto. destruct (is_dir t q) eqn:E; auto. apply is_dir_iff in E. destruct E as [E|E]; auto. tauto. }
  destruct P as (P1 & P2 & P3).
  split; [|split; [|split]]; auto.
  - split; [auto|]. cbn [files dirs]. split.
    + intros p I. destruct (P2 p I) as (A & B & C). split; auto. split.
      * rewrite D. intros [J|J]; [tauto|]. apply (NF p); auto. apply prefixes_iff. auto.
      * destruct C as [C|C]; auto. right. apply D. auto.
    + intros q I. apply D in I. destruct I as [I|(N & r & E)].
      * destruct (P3 q I) as [A [C|C]]; split; auto. right. apply D. auto.
      * split; auto. destruct (removelast q) as [|y l] eqn:R; auto. right. apply D. right. split; [discriminate|].
        rewrite <- R. assert (Q := app_removelast_last [] N). exists ([last q []] ++ r). rewrite app_assoc, E. f_equal. exact Q.
  - apply is_dir_iff. destruct d as [|x d]; auto. right. apply D. right. split; [discriminate|]. exists []. rewrite app_nil_r. auto.
Qed.

Lemma NoDup_app_snoc : forall (A : Type) (l : list A) x, NoDup l -> ~ In x l -> NoDup (l ++ [x]).
Proof.
  intros A l x N I. apply NoDup_Add with (a := x) (l := l).
  - replace l with (l ++ []) at 1 by apply app_nil_r. apply Add_app.
  - auto.
Qed.

Lemma put_new : forall p x l, ~ In p (map fst l) -> put p x l = l ++ [(p, x)].
Proof.
  intros p x l N. unfold put. destruct (existsb (fun f => peqb (fst f) p) l) eqn:E; auto. exfalso. apply N.
  apply existsb_exists in E. destruct E as (f & A & B). apply peqb_eq in B. apply in_map_iff. eauto.
Qed.

Lemma l_path_dir : forall f, removelast (l_path f) = l_dir f.
Proof. intros. unfold l_path. apply removelast_app_snoc. Qed.
Lemma snoc_prefix_absurd : forall (d : path) x r, d = (d ++ [x]) ++ r -> False.
Proof. intros d x r E. apply (f_equal (@length str)) in E. rewrite !app_length in E. cbn in E. lia. Qed.

Lemma exists_iff : forall t p, exists_ t p = true <-> In p (map fst (files t)) \/ p = [] \/ In p (dirs t).
Proof. intros. unfold exists_. rewrite orb_true_iff, is_file_iff, is_dir_iff. tauto. Qed.

(** one upload *)
Lemma push_one : forall t f x, proper t -> exists_ t (l_path f) = false ->
  (~ blocked t f -> exists t2,
     copy_to (match makedirs t (l_dir f) with Some t1 => t1 | None => t end) (l_path f) x = Some t2 /\
     proper t2 /\ files t2 = files t ++ [(l_path f, x)] /\
     (forall q, In q (dirs t2) <-> In q (dirs t) \/ (q <> [] /\ exists r, l_dir f = q ++ r))) /\
  (blocked t f -> makedirs t (l_dir f) = None /\ copy_to t (l_path f) x = None).
Proof.
  intros t f x P NE.
  assert (NE' : ~ (In (l_path f) (map fst (files t)) \/ l_path f = [] \/ In (l_path f) (dirs t))).
  { rewrite <- exists_iff. congruence. }
  split.
  - intros NB. destruct (makedirs t (l_dir f)) as [t1|] eqn:M.
    + destruct (makedirs_spec t (l_dir f) t1 P M) as (P1 & F1 & D1 & DI).
      assert (ND : ~ In (l_path f) (dirs t1)).
      { rewrite DI. intros [I|(_ & r & E)]; [tauto|]. unfold l_path in E. eapply snoc_prefix_absurd; eauto. }
      unfold copy_to. replace (is_dir t1 (l_path f)) with false.
      2: { symmetry. apply not_true_is_false. rewrite is_dir_iff. intros [E|E]; [tauto|tauto]. }
      rewrite l_path_dir, D1. rewrite put_new by (rewrite F1; tauto). eexists. split; [reflexivity|]. cbn [files dirs].
      split; [|split; [rewrite F1; auto|exact DI]].
      destruct P1 as (Q1 & Q2 & Q3). split; [|split].
      * cbn. rewrite map_app. apply NoDup_app_snoc; [auto|]. cbn. rewrite F1. tauto.
      * cbn [files dirs]. rewrite map_app. intros p I. apply in_app_or in I. destruct I as [I|[<-|[]]]; auto. cbn.
        split; [|split; auto].
        -- intros E. rewrite E in NE'. tauto.
        -- rewrite l_path_dir. apply is_dir_iff in D1. auto.
      * auto.
    + exfalso. apply NB. unfold makedirs in M. destruct (existsb (is_file t) (prefixes (l_dir f))) eqn:X; [|discriminate].
      apply existsb_exists in X. destruct X as (q & I & F). apply prefixes_iff in I. destruct I as (N & r & E).
      apply is_file_iff in F. apply in_map_iff in F. destruct F as ((q' & y) & E' & F). cbn in E'. subst q'.
      exists q, r, y. auto.
  - intros (q & r & y & E & H). 
    assert (QF : In q (map fst (files t))) by (apply in_map_iff; exists (q, y); auto).
    assert (N : q <> []) by (destruct P as (_ & P & _); apply (P q QF)).
    split.
    + unfold makedirs. replace (existsb (is_file t) (prefixes (l_dir f))) with true; auto. symmetry. apply existsb_exists.
      exists q. split; [apply prefixes_iff; eauto|apply is_file_iff; auto].
    + unfold copy_to. replace (is_dir t (l_path f)) with false.
      2: { symmetry. apply not_true_is_false. rewrite is_dir_iff. tauto. }
      rewrite l_path_dir. replace (is_dir t (l_dir f)) with false; auto. symmetry. apply not_true_is_false. rewrite is_dir_iff.
      intros [D|D]; [rewrite D in E; destruct q; [congruence|discriminate]|].
      pose proof P as (_ & P2 & _). apply (P2 q QF). eapply (proper_ancestor t (l_dir f) q r); eauto.
Qed.

Lemma holds_exists : forall t p x, holds t p x -> exists_ t p = true.
Proof. intros t p x H. apply exists_iff. left. apply in_map_iff. exists (p, x). auto. Qed.

(** Pushing a set of files none of which exists in the target *)
Lemma push_spec : forall fs t, proper t -> source_tree fs ->
  (forall f, In f fs -> exists_ t (l_path f) = false) ->
  let r := push fs t in
  proper (fst r) /\
  (forall p x, holds t p x -> holds (fst r) p x) /\
  (forall p x, holds (fst r) p x -> holds t p x \/ exists f, In f fs /\ p = l_path f /\ l_data f = Some x) /\
  (snd r = true -> forall f, In f fs -> exists x, l_data f = Some x /\ holds (fst r) (l_path f) x) /\
  (snd r = true <-> forall f, In f fs -> l_data f <> None /\ ~ blocked t f).
Proof.
  induction fs as [|f fs IH]; intros t P (ND & ST) NE r; subst r.
  { cbn. split; auto. split; auto. split; auto. split; [tauto|]. split; [tauto|auto]. }
  cbn [push].
  assert (ND' := ND). cbn in ND'. inversion ND' as [|? ? NI ND2]; subst.
  assert (M1 : forall t1, makedirs t (l_dir f) = Some t1 -> proper t1 /\ files t1 = files t).
  { intros t1 E. destruct (makedirs_spec t (l_dir f) t1 P E) as (A & B & _). auto. }
  assert (FAIL : forall t1, t1 = match makedirs t (l_dir f) with Some t1 => t1 | None => t end ->
                 proper t1 /\ files t1 = files t).
  { intros t1 ->. destruct (makedirs t (l_dir f)); auto. }
  destruct (l_data f) as [x|] eqn:LD.
  2: { destruct (FAIL _ eq_refl) as (P1 & F1). cbn [fst snd]. unfold holds in *. rewrite F1.
       split; auto. split; auto. split; auto. split; [discriminate|]. split; [discriminate|].
       intros H. exfalso. apply (proj1 (H f (or_introl eq_refl))). auto. }
  destruct (push_one t f x P (NE f (or_introl eq_refl))) as (OK & BAD).
  destruct (copy_to (match makedirs t (l_dir f) with Some t1 => t1 | None => t end) (l_path f) x) as [t2|] eqn:C.
  2: { destruct (FAIL _ eq_refl) as (P1 & F1). cbn [fst snd]. unfold holds in *. rewrite F1.
       split; auto. split; auto. split; auto. split; [discriminate|]. split; [discriminate|].
       intros H. exfalso. destruct (OK (proj2 (H f (or_introl eq_refl)))) as (t2 & E & _). congruence. }
  assert (NB : ~ blocked t f).
  { intros B. destruct (BAD B) as (E1 & E2). rewrite E1 in C. congruence. }
  destruct (OK NB) as (t2' & E & P2 & F2 & D2). assert (t2' = t2) by congruence. subst t2'. clear E.
  assert (NE2 : forall g, In g fs -> exists_ t2 (l_path g) = false).
  { intros g I. apply not_true_is_false. rewrite exists_iff, F2, map_app, D2, in_app_iff. cbn.
    assert (N := NE g (or_intror I)). apply not_true_iff_false in N. rewrite exists_iff in N.
    intros [[H|[H|[]]]|[H|[H|(_ & r & H)]]]; try tauto.
    - apply NI. rewrite H. apply in_map. auto.
    - unfold l_path in H. apply (ST g f r); [right; auto|left; auto|auto]. }
  assert (ST2 : source_tree fs).
  { split; auto. intros a b r A B. apply (ST a b r); right; auto. }
  specialize (IH t2 P2 ST2 NE2). cbn in IH. destruct IH as (I1 & I2 & I3 & I4 & I5).
  assert (BB : forall g, In g fs -> (blocked t2 g <-> blocked t g)).
  { intros g I. unfold blocked, holds. split.
    - intros (q & r & y & E & H). rewrite F2 in H. apply in_app_or in H. destruct H as [H|[H|[]]]; [eauto|].
      exfalso. inversion H; subst. apply (ST f g r); [left; auto|right; auto|auto].
    - intros (q & r & y & E & H). exists q, r, y. split; auto. rewrite F2. apply in_or_app. auto. }
  split; auto. split.
  { intros p y H. apply I2. unfold holds in *. rewrite F2. apply in_or_app. auto. }
  split.
  { intros p y H. destruct (I3 p y H) as [J|(g & J & K)].
    - unfold holds in J. rewrite F2 in J. apply in_app_or in J. destruct J as [J|[J|[]]]; auto.
      inversion J; subst. right. exists f. cbn. auto.
    - right. exists g. cbn. auto. }
  split.
  { intros S g [<-|I]; [|auto]. exists x. split; auto. apply I2. unfold holds. rewrite F2. apply in_or_app. right. left. auto. }
  rewrite I5. split.
  - intros H g [<-|I]; [split; [congruence|auto]|]. split; [apply H; auto|]. rewrite <- BB by auto. apply H; auto.
  - intros H g I. split; [apply H; right; auto|]. rewrite BB by auto. apply H; right; auto.
Qed.

Lemma source_tree_filter : forall k src, source_tree src -> source_tree (filter k src).
Proof.
  intros k src (ND & ST). split.
  - clear ST. induction src as [|f src IH]; cbn; auto. cbn in ND. inversion ND as [|? ? A B]; subst.
    destruct (k f); cbn; auto. constructor; auto. intros I. apply A. apply in_map_iff in I. destruct I as (g & E & I).
    apply filter_In in I. rewrite <- E. apply in_map. tauto.
  - intros f g r A B. apply filter_In in A, B. apply ST; tauto.
Qed.

(** * clean *)
Lemma rmdirs_files : forall ds t, files (rmdirs ds t) = files t.
Proof.
  induction ds as [|d ds IH]; intros t; cbn; auto.
  destruct (existsb (peqb d) (dirs t)); [destruct (nonempty_dir t d); auto; rewrite IH; auto|].
  destruct (is_file t d); auto.
Qed.
Lemma child_of_iff : forall d p, child_of d p = true <-> p <> [] /\ removelast p = d.
Proof. intros d p. unfold child_of. destruct p as [|x p]; [split; [discriminate|tauto]|]. rewrite peqb_eq. split; [split; [discriminate|auto]|tauto]. Qed.
Lemma nonempty_dir_iff : forall t d, nonempty_dir t d = true <->
  exists p, (In p (map fst (files t)) \/ In p (dirs t)) /\ p <> [] /\ removelast p = d.
Proof.
  intros. unfold nonempty_dir. rewrite orb_true_iff, !existsb_exists. split.
  - intros [(f & I & C)|(p & I & C)]; apply child_of_iff in C.
    + exists (fst f). split; auto. left. apply in_map. auto.
    + exists p. auto.
  - intros (p & [I|I] & C).
    + left. apply in_map_iff in I. destruct I as (f & E & I). exists f. split; auto. apply child_of_iff. rewrite E. auto.
    + right. exists p. split; auto. apply child_of_iff. auto.
Qed.

Lemma remove_empty_dir_proper : forall t d, proper t -> nonempty_dir t d = false ->
  proper (mkTree (files t) (filter (fun x => negb (peqb x d)) (dirs t))).
Proof.
  intros t d (P1 & P2 & P3) E.
  assert (NE : forall p, (In p (map fst (files t)) \/ In p (dirs t)) -> p <> [] -> removelast p <> d).
  { intros p I N R. assert (X : nonempty_dir t d = true) by (apply nonempty_dir_iff; eauto). congruence. }
  split; [auto|]. split; cbn [files dirs].
  - intros p I. destruct (P2 p I) as (A & B & C). split; auto. split.
    + rewrite filter_In. tauto.
    + destruct C as [C|C]; auto. right. apply filter_In. split; auto. apply negb_true_iff. apply peqb_false. auto.
  - intros q I. apply filter_In in I. destruct I as [I _]. destruct (P3 q I) as [A C]. split; auto.
    destruct C as [C|C]; auto. right. apply filter_In. split; auto. apply negb_true_iff. apply peqb_false. auto.
Qed.
Lemma rmdirs_proper : forall ds t, proper t -> proper (rmdirs ds t).
Proof.
  induction ds as [|d ds IH]; intros t P; cbn; auto.
  destruct (existsb (peqb d) (dirs t)); [|destruct (is_file t d); auto].
  destruct (nonempty_dir t d) eqn:E; auto. apply IH. apply remove_empty_dir_proper; auto.
Qed.
Lemma remove_file_proper : forall t p, proper t ->
  proper (mkTree (filter (fun f => negb (peqb (fst f) p)) (files t)) (dirs t)).
Proof.
  intros t p (P1 & P2 & P3). split; [|split]; cbn [files dirs]; auto.
  - clear P2 P3. induction (files t) as [|f l IH]; cbn; auto. cbn in P1. inversion P1 as [|? ? A B]; subst.
    destruct (negb (peqb (fst f) p)); cbn; auto. constructor; auto. intros I. apply A. apply in_map_iff in I.
    destruct I as (g & E & I). apply filter_In in I. rewrite <- E. apply in_map. tauto.
  - intros q I. apply P2. apply in_map_iff in I. destruct I as (g & E & I). apply filter_In in I. rewrite <- E. apply in_map. tauto.
Qed.
Lemma delete_proper : forall p t, proper t -> proper (delete p t).
Proof. intros. unfold delete. apply rmdirs_proper. apply remove_file_proper. auto. Qed.
Lemma delete_holds : forall p t q x, holds (delete p t) q x <-> holds t q x /\ q <> p.
Proof.
  intros. unfold holds, delete. rewrite rmdirs_files. cbn [files]. rewrite filter_In. cbn [fst].
  rewrite negb_true_iff, peqb_false. tauto.
Qed.
Lemma delete_all_holds : forall (l : list entry) t q x,
  holds (fold_left (fun t e => delete (e_path e) t) l t) q x <-> holds t q x /\ ~ In q (map e_path l).
Proof.
  induction l as [|e l IH]; intros t q x; cbn [fold_left map In]; [tauto|].
  rewrite IH, delete_holds. split; intros H; repeat split; try tauto.
  - intros [E|I]; [|tauto]. apply (proj2 (proj1 H)). auto.
  - intros E. apply (proj2 H). auto.
Qed.
Lemma delete_all_proper : forall (l : list entry) t, proper t -> proper (fold_left (fun t e => delete (e_path e) t) l t).
Proof. induction l as [|e l IH]; intros t P; cbn; auto. apply IH. apply delete_proper. auto. Qed.

Lemma list_all_In : forall age t e, In e (list_all age t) <->
  exists x, holds t (e_path e) x /\ sstate_regex (pjoin (e_path e)) = Some (e_fields e) /\ e_age e = age (e_path e).
Proof.
  intros age t e. unfold list_all. rewrite in_flat_map. split.
  - intros ((p & x) & I & J). cbn [fst] in J. destruct (sstate_regex (pjoin p)) as [m|] eqn:R; [|destruct J].
    destruct J as [<-|[]]. exists x. cbn. auto.
  - intros (x & H & R & A). exists (e_path e, x). split; auto. cbn [fst]. rewrite R. left. destruct e; cbn in *. congruence.
Qed.

Lemma apply_filters_In : forall flt arch l e, In e (apply_filters flt arch l) <-> In e l /\ chosen flt arch (e_fields e).
Proof.
  intros flt arch l e. unfold apply_filters, chosen.
  assert (A : forall l', In e (match arch with Some (c :: a) => filter (fun e => seqb (f_arch (e_fields e)) (c :: a)) l' | _ => l' end)
              <-> In e l' /\ (forall a, arch = Some a -> a <> [] -> f_arch (e_fields e) = a)).
  { intros l'. destruct arch as [[|c a]|].
    - split; [|tauto]. intros I. split; auto. intros a [= <-]. congruence.
    - rewrite filter_In, seqb_eq. split; intros [I H]; split; auto. intros b [= <-] _. auto. apply H; congruence.
    - split; [|tauto]. intros I. split; auto. intros a [=]. }
  rewrite A. destruct flt as [m|].
  - rewrite filter_In. split; intros H; repeat split; try tauto.
    + intros m' [= <-]. tauto.
    + destruct H as (_ & H & _). apply H. auto.
  - split; intros H; repeat split; try tauto. intros m [=].
Qed.

Lemma archive_suffix_iff : forall f, archive_suffix (f_suffix f) = true <-> archive f.
Proof. intros. unfold archive_suffix, archive. rewrite mem_str_In. cbn. intuition congruence. Qed.

Lemma to_delete_In : forall flt arch a b all e, In e (to_delete flt arch a b all) <->
  In e all /\ chosen flt arch (e_fields e) /\
  ((archive (e_fields e) /\ (Z.of_N a <= e_age e)%Z) \/ (Z.of_N b <= e_age e)%Z \/
   exists g, In g all /\ chosen flt arch (e_fields g) /\ archive (e_fields g) /\ (Z.of_N a <= e_age g)%Z /\
             f_hash (e_fields g) = f_hash (e_fields e)).
Proof.
  intros. unfold to_delete. rewrite in_app_iff, !filter_In, !apply_filters_In, filter_In, orb_true_iff, !Z.leb_le, mem_str_In, archive_suffix_iff, in_map_iff.
  split.
  - intros [H|(H & [K|(g & E & K)])]; [tauto|tauto|].
    apply filter_In in K. destruct K as [K L]. apply apply_filters_In in K. destruct K as [K M]. apply filter_In in K.
    destruct K as [K O]. apply archive_suffix_iff in O. apply Z.leb_le in L.
    split; [tauto|]. split; [tauto|]. right. right. exists g. auto.
  - intros (I & C & [H|[H|(g & J & K & L & M & E)]]); [tauto|tauto|].
    right. split; auto. right. exists g. split; auto. apply filter_In. split; [|apply Z.leb_le; auto].
    apply apply_filters_In. split; auto. apply filter_In. split; auto. apply archive_suffix_iff. auto.
Qed.

Lemma selected_iff : forall flt arch f, selected flt arch (l_name f) = true <-> picked flt arch f.
Proof.
  intros flt arch f. unfold picked.
  assert (N : forall parts, selected flt arch (l_name f) = true -> split_on ":" (l_name f) = parts ->
     (forall m pn, flt = Some m -> nth_error parts 1 = Some pn -> m pn = true) /\
     (forall a b, arch = Some a -> a <> [] -> nth_error parts 5 = Some b -> b = a)).
  { intros parts S E. unfold selected in S. rewrite E in S. apply andb_true_iff in S. destruct S as [A B]. split.
    - intros m pn -> H. apply negb_true_iff, andb_false_iff in A. rewrite negb_false_iff in A.
      pose proof (nth_error_nth _ _ (@nil ascii) H) as Q; unfold str in *; rewrite Q in A. destruct A as [A|A]; auto. apply Nat.ltb_ge in A.
      assert (X : nth_error parts 1 <> None) by congruence. apply nth_error_Some in X. lia.
    - intros a b -> NE H. destruct a as [|c a]; [congruence|]. apply negb_true_iff, andb_false_iff in B. rewrite negb_false_iff in B.
      pose proof (nth_error_nth _ _ (@nil ascii) H) as Q; unfold str in *; rewrite Q in B. destruct B as [B|B]; [|apply seqb_eq; auto]. apply Nat.ltb_ge in B.
      assert (X : nth_error parts 5 <> None) by congruence. apply nth_error_Some in X. lia. }
  split.
  - intros S. destruct (split_on_spec ":" (l_name f)) as (A & B & C). exists (split_on ":" (l_name f)).
    split; [auto|]. split; [|split; [auto|apply N; auto]]. intros w I. apply no_char_In. rewrite Forall_forall in A. auto.
  - intros (parts & E & NC & NE & F1 & F2). unfold selected. rewrite E.
    change (s_ ":") with [":"%char]. rewrite split_on_join.
    2: auto. 2: { apply Forall_forall. intros w I. apply no_char_In. auto. }
    apply andb_true_iff. split; apply negb_true_iff.
    + destruct flt as [m|]; auto. destruct (1 <? length parts) eqn:L; auto. apply Nat.ltb_lt in L. cbn [andb].
      apply negb_false_iff. apply (F1 m _ eq_refl). apply nth_error_nth'. auto.
    + destruct arch as [[|c a]|]; auto. destruct (5 <? length parts) eqn:L; auto. apply Nat.ltb_lt in L. cbn [andb].
      apply negb_false_iff. apply seqb_eq. apply (F2 _ _ eq_refl); [discriminate|]. apply nth_error_nth'. auto.
Qed.

(** ** directories emptied by clean *)
Lemma prefixes_from_snoc : forall p done x, prefixes_from done (p ++ [x]) = prefixes_from done p ++ [done ++ p ++ [x]].
Proof.
  induction p as [|y p IH]; intros done x; [reflexivity|]. change ((y :: p) ++ [x]) with (y :: (p ++ [x])). cbn [prefixes_from].
  rewrite IH. cbn [app]. rewrite <- !app_assoc. auto.
Qed.
Lemma rev_prefixes_snoc : forall p x, rev (prefixes (p ++ [x])) = (p ++ [x]) :: rev (prefixes p).
Proof. intros. unfold prefixes. rewrite prefixes_from_snoc, rev_app_distr. reflexivity. Qed.

Lemma rmdirs_nonempty : forall p t0 t, (forall d, In d (dirs t) -> d <> []) ->
  (forall d, In d (dirs t) -> nonempty_dir t0 d = true -> nonempty_dir t d = true \/ d = p) ->
  forall d, In d (dirs (rmdirs (rev (prefixes p)) t)) -> nonempty_dir t0 d = true ->
            nonempty_dir (rmdirs (rev (prefixes p)) t) d = true.
Proof.
  induction p as [|x p IH] using rev_ind; intros t0 t NE H d I N.
  - cbn in *. destruct (H d I N) as [A|A]; auto. exfalso. apply (NE d I A).
  - rewrite rev_prefixes_snoc in *. cbn [rmdirs] in *. destruct (existsb (peqb (p ++ [x])) (dirs t)) eqn:E.
    + destruct (nonempty_dir t (p ++ [x])) eqn:E2.
      * destruct (H d I N) as [A|A]; auto. rewrite A. auto.
      * apply (IH t0); auto; cbn [dirs]; intros q J; apply filter_In in J; destruct J as [J K].
        -- auto.
        -- intros M. apply negb_true_iff, peqb_false in K. destruct (H q J M) as [A|A]; [|congruence].
           apply nonempty_dir_iff in A. destruct A as (c & C1 & C2 & C3).
           destruct (path_eq_dec c (p ++ [x])) as [->|D].
           ++ right. rewrite removelast_app_snoc in C3. auto.
           ++ left. apply nonempty_dir_iff. exists c. split; auto. cbn [files dirs]. destruct C1 as [C1|C1]; auto.
              right. apply filter_In. split; auto. apply negb_true_iff, peqb_false. auto.
    + assert (X : ~ In (p ++ [x]) (dirs t)) by (rewrite <- mem_dirs; congruence).
      destruct (is_file t (p ++ [x])).
      * destruct (H d I N) as [A|A]; auto. subst. tauto.
      * apply (IH t0); auto. intros q J M. destruct (H q J M) as [A|A]; auto. subst. tauto.
Qed.

Lemma rmdirs_dirs : forall ds t q, In q (dirs (rmdirs ds t)) -> In q (dirs t).
Proof.
  induction ds as [|d ds IH]; intros t q; cbn; auto.
  destruct (existsb (peqb d) (dirs t)); [destruct (nonempty_dir t d); auto|destruct (is_file t d); auto].
  intros I. apply IH in I. cbn in I. apply filter_In in I. tauto.
Qed.

Lemma delete_nonempty : forall p t d, proper t -> p <> [] -> In d (dirs (delete p t)) -> nonempty_dir t d = true ->
  nonempty_dir (delete p t) d = true.
Proof.
  intros p t d (P1 & P2 & P3) NP I N. unfold delete in *. apply (rmdirs_nonempty (removelast p) t); auto; cbn [dirs].
  - intros q J. exact (proj1 (P3 q J)).
  - intros q J M. destruct (path_eq_dec q (removelast p)) as [->|D]; auto. left.
    apply nonempty_dir_iff in M. destruct M as (c & C1 & C2 & C3). apply nonempty_dir_iff. exists c. split; auto.
    cbn [files dirs]. destruct C1 as [C1|C1]; auto. left. apply in_map_iff in C1. destruct C1 as (f & <- & C1).
    apply in_map. apply filter_In. split; auto. apply negb_true_iff, peqb_false. intros E. apply D. congruence.
Qed.

Lemma delete_all_nonempty : forall (l : list entry) t d, proper t -> (forall e, In e l -> e_path e <> []) ->
  In d (dirs (fold_left (fun t e => delete (e_path e) t) l t)) -> nonempty_dir t d = true ->
  nonempty_dir (fold_left (fun t e => delete (e_path e) t) l t) d = true.
Proof.
  induction l as [|e l IH]; intros t d P NP I N; cbn in *; auto.
  assert (D : forall l t, In d (dirs (fold_left (fun t e => delete (e_path e) t) l t)) -> In d (dirs t)).
  { clear. induction l as [|e l IH]; intros t; cbn; auto. intros I. apply IH in I. unfold delete in I. apply rmdirs_dirs in I. auto. }
  apply IH; auto.
  - apply delete_proper. auto.
  - apply delete_nonempty; auto. apply (D l). auto.
Qed.
