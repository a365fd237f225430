(** Proofs about shared-state manifests. *)
From Coq Require Import Ascii String List Bool Arith Lia Sorted.
From Verif Require Import Str_Model Str_Proofs Sstman_Model Sstman_Spec.
Import ListNotations.
Open Scope list_scope.

Lemma kind_eqb_eq : forall a b, kind_eqb a b = true <-> a = b.
Proof. destruct a, b; cbn; split; congruence. Qed.
Lemma has_iff : forall t p k, has t p k = true <-> In (p, k) t.
Proof.
  intros. unfold has. rewrite existsb_exists. split.
  - intros ((q & k') & I & E). cbn in E. apply andb_true_iff in E. destruct E as [A B].
    apply seqb_eq in A. apply kind_eqb_eq in B. subst. auto.
  - intros I. exists (p, k). split; auto. cbn. rewrite seqb_refl. apply kind_eqb_eq. auto.
Qed.
Lemma remove_path_In : forall p t q k, In (q, k) (remove_path p t) <-> In (q, k) t /\ q <> p.
Proof. intros. unfold remove_path. rewrite filter_In. cbn [fst]. rewrite negb_true_iff, seqb_neq. tauto. Qed.

Lemma is_child_iff : forall d p, is_child d p = true <->
  exists name, p = d ++ s_ "/" ++ name /\ name <> [] /\ ~ In "/"%char name.
Proof.
  intros d p. unfold is_child. rewrite andb_true_iff, startswith_iff. split.
  - intros ((r & ->) & H). rewrite <- app_assoc in *. exists r. split; auto.
    replace (skipn (length d + 1) (d ++ s_ "/" ++ r)) with r in H.
    + apply andb_true_iff in H. destruct H as [A B]. apply negb_true_iff in A, B. apply seqb_neq in A. split; auto.
      intros I. assert (X : existsb (aeqb "/") r = true).
      { apply existsb_exists. eexists. split; [exact I|apply aeqb_refl]. }
      congruence.
    + rewrite skipn_app. rewrite skipn_all2 by lia. replace (length d + 1 - length d) with 1 by lia. reflexivity.
  - intros (r & -> & N & I). split; [exists r; rewrite <- app_assoc; auto|].
    replace (skipn (length d + 1) (d ++ s_ "/" ++ r)) with r.
    + apply andb_true_iff. split; apply negb_true_iff; [apply seqb_neq; auto|]. apply not_true_is_false. intros X.
      apply existsb_exists in X. destruct X as (c & C & E). apply aeqb_eq in E. subst. auto.
    + rewrite skipn_app. rewrite skipn_all2 by lia. replace (length d + 1 - length d) with 1 by lia. reflexivity.
Qed.
Lemma populated_iff : forall t d, populated t d = true <->
  exists name k, In (d ++ s_ "/" ++ name, k) t /\ name <> [] /\ ~ In "/"%char name.
Proof.
  intros. unfold populated. rewrite existsb_exists. split.
  - intros ((p & k) & I & C). apply is_child_iff in C. cbn [fst] in C. destruct C as (r & -> & A & B). exists r, k. auto.
  - intros (r & k & I & A & B). exists (d ++ s_ "/" ++ r, k). split; auto. apply is_child_iff. exists r. auto.
Qed.

(** the first component below d of a path below d *)
Lemma app_slash_split : forall d r d' (name : str), d ++ s_ "/" ++ r = d' ++ s_ "/" ++ name -> ~ In "/"%char name ->
  (d = d' /\ r = name) \/ below d d'.
Proof.
  induction d as [|c d IH]; intros r d' name E N.
  - destruct d' as [|c' d'].
    + cbn in E. inversion E. auto.
    + cbn in E. inversion E; subst. right. exists d'. auto.
  - destruct d' as [|c' d'].
    + cbn in E. inversion E; subst. exfalso. apply N. apply in_or_app. right. left. auto.
    + cbn in E. inversion E; subst. destruct (IH r d' name H1 N) as [[-> ->]|(x & ->)]; auto. right. exists x. auto.
Qed.

Lemma first_component : forall t, sane_fs t -> forall n p k d, length p <= n -> In (p, k) t -> below d p ->
  exists name kc, In (d ++ s_ "/" ++ name, kc) t /\ name <> [] /\ ~ In "/"%char name /\
    (p = d ++ s_ "/" ++ name \/ (kc = KDir /\ below (d ++ s_ "/" ++ name) p)).
Proof.
  intros t (ND & S). induction n as [|n IH]; intros p k d L I (r & E).
  { rewrite E in L. rewrite app_length in L. cbn in L. lia. }
  destruct (S p k I) as (d' & name & E' & NE & NS & PD). rewrite E in E'.
  destruct (app_slash_split d r d' name E' NS) as [[-> ->]|B].
  - exists name, k. rewrite E in I. auto.
  - destruct PD as [->|PD]. { destruct B as (x & B). destruct d; discriminate. }
    assert (LL : length d' <= n). { rewrite E, E' in L. rewrite app_length in L. cbn in L. lia. }
    destruct (IH d' KDir d LL PD B) as (nm & kc & A1 & A2 & A3 & A4). exists nm, kc. split; auto. split; auto. split; auto.
    right. destruct A4 as [A4|(A4 & x & A5)].
    + split.
      * rewrite <- A4 in A1. clear -ND A1 PD. induction t as [|(q & kq) t IH]; [destruct A1|].
        cbn in ND. inversion ND; subst. destruct A1 as [A1|A1], PD as [PD|PD]; try congruence.
        -- inversion A1; subst. exfalso. apply H1. apply in_map_iff. exists (d', KDir). auto.
        -- inversion PD; subst. exfalso. apply H1. apply in_map_iff. exists (d', kc). auto.
        -- auto.
      * exists name. rewrite E, E', A4. auto.
    + split; auto. exists (x ++ s_ "/" ++ name). rewrite E, E', A5. rewrite <- !app_assoc. auto.
Qed.

Lemma kind_unique : forall (t : fs) p k k', NoDup (map fst t) -> In (p, k) t -> In (p, k') t -> k = k'.
Proof.
  induction t as [|(q & kq) t IH]; intros p k k' ND A B; [destruct A|].
  cbn in ND. inversion ND; subst. destruct A as [A|A], B as [B|B]; try congruence.
  - inversion A; subst. exfalso. apply H1. apply in_map_iff. exists (p, k'). auto.
  - inversion B; subst. exfalso. apply H1. apply in_map_iff. exists (p, k). auto.
  - eauto.
Qed.

(** * removing directories, longest first *)
Definition rmd (t : fs) (d : str) : fs := if has t d KDir && negb (populated t d) then remove_path d t else t.

Lemma strongly_split : forall (R : str -> str -> Prop) a x b, StronglySorted R (a ++ x :: b) -> Forall (R x) b.
Proof. induction a as [|y a IH]; intros x b H; cbn in H; inversion H; subst; auto. Qed.

Lemma below_length : forall d p, below d p -> length d < length p.
Proof. intros d p (r & ->). rewrite !app_length. cbn. lia. Qed.

Lemma dir_phase : forall t0 L, sane_fs t0 -> (forall d, In d L -> In (d, KDir) t0) ->
  StronglySorted (fun x y => length y <= length x) L ->
  forall todo done, L = done ++ todo ->
  forall p k, In (p, k) (fold_left rmd done t0) <->
    In (p, k) t0 /\ ~ (In p done /\ forall q kq, In (q, kq) t0 -> below p q -> In q L).
Proof.
  intros t0 L SN DL SO todo done. revert todo. induction done as [|d done IH] using rev_ind; intros todo E p k.
  { cbn. tauto. }
  rewrite <- app_assoc in E. cbn in E. specialize (IH (d :: todo) E).
  rewrite fold_left_app. cbn [fold_left]. set (tk := fold_left rmd done t0) in *.
  assert (TD : forall x, In x todo -> length x <= length d).
  { rewrite E in SO. apply strongly_split in SO. rewrite Forall_forall in SO. auto. }
  assert (DIN : In (d, KDir) t0) by (apply DL; rewrite E; apply in_or_app; right; left; auto).
  assert (ND : NoDup (map fst t0)) by apply SN.
  (* nothing left in d iff everything below d is listed *)
  assert (EMPTY : populated tk d = false <-> (forall q kq, In (q, kq) t0 -> below d q -> In q L)).
  { split.
    - intros NP q kq I B.
      destruct (first_component t0 SN (length q) q kq d (le_n _) I B) as (nm & kc & C1 & C2 & C3 & C4).
      assert (CN : ~ In (d ++ s_ "/" ++ nm, kc) tk).
      { intros X. assert (Y : populated tk d = true) by (apply populated_iff; eauto). congruence. }
      assert (CR : In (d ++ s_ "/" ++ nm) done /\ forall q kq, In (q, kq) t0 -> below (d ++ s_ "/" ++ nm) q -> In q L).
      { destruct (in_dec str_eq_dec (d ++ s_ "/" ++ nm) done) as [J|J].
        - split; auto. intros x kx X1 X2. destruct (in_dec str_eq_dec x L) as [|NI]; auto. exfalso. apply CN. apply IH. split; auto.
          intros (_ & Q). apply NI. apply (Q x kx); auto.
        - exfalso. apply CN. apply IH. split; auto. tauto. }
      destruct CR as [R1 R2]. destruct C4 as [->|[_ C4]].
      + rewrite E. apply in_or_app. auto.
      + apply (R2 q kq); auto.
    - intros A. apply not_true_is_false. intros P. apply populated_iff in P. destruct P as (nm & kc & P1 & P2 & P3).
      apply IH in P1. destruct P1 as [P1 P4]. apply P4. clear P4.
      assert (B : below d (d ++ s_ "/" ++ nm)) by (exists nm; auto).
      split.
      + assert (X := A _ _ P1 B). rewrite E in X. apply in_app_or in X. destruct X as [X|[X|X]]; auto.
        * apply below_length in B. rewrite <- X in B. lia.
        * apply below_length in B. apply TD in X. lia.
      + intros q kq Q1 Q2. apply (A q kq); auto. destruct Q2 as (r & ->). exists (nm ++ s_ "/" ++ r). rewrite <- !app_assoc. auto. }
  unfold rmd. destruct (has tk d KDir && negb (populated tk d)) eqn:C.
  - apply andb_true_iff in C. destruct C as [C1 C2]. apply negb_true_iff in C2. rewrite EMPTY in C2.
    rewrite remove_path_In, IH, in_app_iff. cbn [In].
    destruct (str_eq_dec p d) as [->|N]; [|intuition congruence].
    split; [tauto|]. intros [_ X]. exfalso. apply X. split; auto.
  - rewrite IH, in_app_iff. cbn [In]. apply andb_false_iff in C. rewrite negb_false_iff in C.
    split; intros [A B]; split; auto; intros [D F]; apply B; clear B; split; auto.
    destruct D as [D|[<-|[]]]; auto. destruct (in_dec str_eq_dec d done) as [J|J]; auto. exfalso. destruct C as [C|C].
    + assert (X : ~ In (d, KDir) tk) by (rewrite <- has_iff; congruence). apply X. apply IH. tauto.
    + assert (X : populated tk d = false) by (apply EMPTY; auto). congruence.
Qed.

(** * texts *)
Lemma readlines_aux_line : forall x cur rest, ~ In nl x ->
  readlines_aux cur (x ++ nl :: rest) = (rev cur ++ x ++ [nl]) :: readlines_aux [] rest.
Proof.
  induction x as [|c x IH]; intros cur rest N; cbn [app readlines_aux].
  - rewrite aeqb_refl. reflexivity.
  - replace (aeqb c nl) with false.
    2: { symmetry. apply aeqb_neq. intros ->. apply N. left. auto. }
    rewrite IH by (intros I; apply N; right; auto). cbn [rev]. rewrite <- app_assoc. reflexivity.
Qed.
Lemma readlines_concat : forall ls, (forall l, In l ls -> ~ In nl l) ->
  readlines (concat (map (fun f => f ++ [nl]) ls)) = map (fun f => f ++ [nl]) ls.
Proof.
  unfold readlines. induction ls as [|l ls IH]; intros N; [reflexivity|]. cbn [map concat]. rewrite <- app_assoc. cbn [app].
  rewrite readlines_aux_line by (apply N; left; auto). cbn [rev app]. f_equal. apply IH. intros x I. apply N. right. auto.
Qed.

Lemma replace_aux_none : forall p t s, (forall a b, s <> a ++ p ++ b) -> replace_aux p t 0 s = s.
Proof.
  induction s as [|c s IH]; intros N; cbn; auto.
  assert (S : startswith p (c :: s) = false).
  { apply not_true_is_false. rewrite startswith_iff. intros (r & E). apply (N [] r). auto. }
  cbn in S. rewrite S. f_equal. apply IH. intros a b E. apply (N (c :: a) b). rewrite E. auto.
Qed.
Lemma replace_aux_skip : forall p t x s, replace_aux p t (length x) (x ++ s) = replace_aux p t 0 s.
Proof. induction x as [|c x IH]; intros s; cbn; auto. Qed.
Lemma replace_once : forall p t s, p <> [] -> (forall a b, s <> a ++ p ++ b) -> replace_str p t (p ++ s) = t ++ s.
Proof.
  intros p t s NE N. unfold replace_str. destruct p as [|c p]; [congruence|]. cbn [app replace_aux].
  replace (startswith (c :: p) (c :: p ++ s)) with true.
  2: { symmetry. apply startswith_iff. exists s. auto. }
  cbn [length]. replace (S (length p) - 1) with (length p) by lia. rewrite replace_aux_skip, replace_aux_none; auto.
Qed.

Lemma strip_line : forall c m l, is_space c = false -> is_space l = false -> strip ((c :: m ++ [l]) ++ [nl]) = c :: m ++ [l].
Proof.
  intros c m l C L. unfold strip. cbn [app lstrip]. rewrite C. unfold rstrip.
  cbn [rev]. rewrite !rev_app_distr. cbn [rev app lstrip]. replace (is_space nl) with true by reflexivity. cbn [lstrip].
  rewrite L. cbn [rev app]. rewrite rev_app_distr. cbn. rewrite rev_involutive. auto.
Qed.

(** * sorting *)
Lemma insert_len_In : forall x l y, In y (insert_len x l) <-> y = x \/ In y l.
Proof.
  induction l as [|z l IH]; intros y; cbn [insert_len In]; [intuition congruence|].
  destruct (length x <? length z); cbn [In]; rewrite ?IH; intuition congruence.
Qed.
Lemma insert_len_sorted : forall x l, StronglySorted (fun a b => length a <= length b) l ->
  StronglySorted (fun a b : str => length a <= length b) (insert_len x l).
Proof.
  induction l as [|y l IH]; intros S; cbn [insert_len].
  - constructor; constructor.
  - inversion S as [|? ? A B]; subst. destruct (length x <? length y) eqn:C.
    + apply Nat.ltb_lt in C. constructor; auto. constructor; [lia|]. eapply Forall_impl; [|exact B]. cbn. intros. lia.
    + apply Nat.ltb_ge in C. constructor; auto. apply Forall_forall. intros z I. apply insert_len_In in I.
      destruct I as [->|I]; auto. rewrite Forall_forall in B. auto.
Qed.
Lemma sort_len_spec : forall l, StronglySorted (fun a b : str => length a <= length b) (sort_len l) /\
  forall y, In y (sort_len l) <-> In y l.
Proof.
  intros l. unfold sort_len.
  enough (H : forall l acc, StronglySorted (fun a b : str => length a <= length b) acc ->
    StronglySorted (fun a b : str => length a <= length b) (fold_left (fun acc x => insert_len x acc) l acc) /\
    forall y, In y (fold_left (fun acc x => insert_len x acc) l acc) <-> In y acc \/ In y l).
  { destruct (H l [] ltac:(constructor)) as [A B]. split; auto. intros y. rewrite B. cbn. tauto. }
  clear l. induction l as [|x l IH]; intros acc S; cbn [fold_left].
  - split; auto. intros y. cbn. tauto.
  - destruct (IH (insert_len x acc) (insert_len_sorted x acc S)) as [A B]. split; auto. intros y.
    rewrite B, insert_len_In. cbn [In]. intuition congruence.
Qed.
Lemma strongly_snoc : forall (R : str -> str -> Prop) l x, StronglySorted R l -> Forall (fun y => R y x) l -> StronglySorted R (l ++ [x]).
Proof.
  induction l as [|y l IH]; intros x S F; cbn.
  - constructor; constructor.
  - inversion S; subst. inversion F; subst. constructor; auto. apply Forall_app. split; auto.
Qed.
Lemma rev_sorted : forall l, StronglySorted (fun a b : str => length a <= length b) l ->
  StronglySorted (fun a b : str => length b <= length a) (rev l).
Proof.
  induction l as [|x l IH]; intros S; cbn.
  - constructor.
  - inversion S; subst. apply strongly_snoc; auto. apply Forall_rev. auto.
Qed.
Lemma sorted_removelast : forall l, StronglySorted (fun a b : str => length b <= length a) l ->
  StronglySorted (fun a b : str => length b <= length a) (map (@removelast ascii) l).
Proof.
  assert (L : forall x : str, length (removelast x) = length x - 1).
  { intros x. destruct x as [|c x] using rev_ind; auto. rewrite removelast_last, app_length. cbn. lia. }
  induction l as [|x l IH]; intros S; cbn; [constructor|]. inversion S as [|? ? A B]; subst. constructor; auto.
  apply Forall_map. eapply Forall_impl; [|exact B]. cbn. intros y H. rewrite !L. lia.
Qed.

(** * the phases of clean_manifest *)
Lemma file_phase : forall cr F t, (forall f, In f F -> exists c m l, f = c :: m ++ [l] /\ is_space c = false /\ is_space l = false /\ l <> "/"%char) ->
  (forall f, In f F -> ~ In (f, KDir) t) ->
  forall p k, In (p, k) (fold_left (clean_entry cr) (map (fun f => f ++ [nl]) F) t) <-> In (p, k) t /\ ~ In p F.
Proof.
  induction F as [|f F IH]; intros t SH ND p k; cbn [map fold_left In]; [tauto|].
  assert (ST : clean_entry cr t (f ++ [nl]) = if has t f KFile || has t f KLink then remove_path f t else t).
  { destruct (SH f (or_introl eq_refl)) as (c & m & l & -> & C & L & NS). unfold clean_entry. rewrite strip_line by auto.
    replace (endswith (s_ "/") (c :: m ++ [l])) with false; auto. symmetry. apply not_true_is_false. rewrite endswith_iff.
    intros (x & E). change (c :: m ++ [l]) with ((c :: m) ++ [l]) in E. change (s_ "/") with ["/"%char] in E.
    apply app_inj_tail in E. tauto. }
  rewrite ST.
  assert (EQ : forall q kq, In (q, kq) (if has t f KFile || has t f KLink then remove_path f t else t) <-> In (q, kq) t /\ q <> f).
  { intros q kq. destruct (has t f KFile || has t f KLink) eqn:H; [apply remove_path_In|]. split; [|tauto]. intros I. split; auto. intros ->.
    apply orb_false_iff in H. destruct H as [H1 H2]. destruct kq.
    - apply has_iff in I. congruence.
    - apply has_iff in I. congruence.
    - apply (ND f (or_introl eq_refl) I). }
  rewrite IH.
  - rewrite EQ. intuition congruence.
  - intros g I. apply SH. right. auto.
  - intros g I J. apply EQ in J. apply (ND g (or_intror I)). tauto.
Qed.

Lemma rmd_sub : forall ds t x, In x (fold_left rmd ds t) -> In x t.
Proof.
  induction ds as [|d ds IH]; intros t x; cbn; auto. intros I. apply IH in I. unfold rmd in I.
  destruct (has t d KDir && negb (populated t d)); auto. destruct x as (q & k). apply remove_path_In in I. tauto.
Qed.

Lemma dir_lines : forall ds t, (forall d, In d ds -> exists c m, d = c :: m /\ is_space c = false) ->
  (forall d, In d ds -> ~ In (d, KLink) t) ->
  fold_left (clean_entry false) (map (fun f => f ++ [nl]) (map (fun d => d ++ s_ "/") ds)) t = fold_left rmd ds t /\
  fold_left (clean_entry true) (map (fun f => f ++ [nl]) (map (fun d => d ++ s_ "/") ds)) t = t.
Proof.
  induction ds as [|d ds IH]; intros t SH NL; [split; reflexivity|]. cbn [map fold_left].
  assert (E : forall cr, clean_entry cr t ((d ++ s_ "/") ++ [nl]) = if cr then t else rmd t d).
  { intros cr. destruct (SH d (or_introl eq_refl)) as (c & m & E & C). unfold clean_entry.
    assert (S : strip ((d ++ s_ "/") ++ [nl]) = d ++ s_ "/") by (subst d; apply (strip_line c m "/"); auto). rewrite S.
    rewrite endswith_app. change (s_ "/") with ["/"%char]. rewrite removelast_last.
    replace (has t d KLink) with false.
    2: { symmetry. apply not_true_is_false. rewrite has_iff. apply NL. left. auto. }
    unfold rmd. destruct (has t d KDir && negb (populated t d)), cr; auto. }
  rewrite (E false), (E true).
  destruct (IH (rmd t d)) as [A _].
  - intros x I. apply SH. right. auto.
  - intros x I J. apply (NL x (or_intror I)). apply (rmd_sub [d] t). auto.
  - destruct (IH t) as [_ B].
    + intros x I. apply SH. right. auto.
    + intros x I. apply NL. right. auto.
    + auto.
Qed.

(** * what is written into a manifest *)
Lemma recorded_is : forall s rel, recordable s rel -> recorded s rel = st_dst s ++ rel.
Proof. intros s rel (A & B & _). apply replace_once; auto. Qed.

Definition all_recordable (ss : list staged) : Prop :=
  forall s rel k, In s ss -> In (rel, k) (st_tree s) -> recordable s rel.

Lemma shared_files_In : forall ss f, all_recordable ss ->
  (In f (shared_files ss) <-> exists k, k <> KDir /\ staged_path ss f k).
Proof.
  intros ss f R. unfold shared_files, staged_path. rewrite in_flat_map. split.
  - intros (s & I & J). apply in_flat_map in J. destruct J as ((rel & k) & J & K). cbn [fst snd] in K.
    assert (RR := R s rel k I J). rewrite (recorded_is s rel RR) in K. destruct k.
    + destruct K as [<-|[]]. exists KFile. split; [discriminate|]. exists s, rel. auto.
    + destruct K as [<-|[]]. exists KLink. split; [discriminate|]. exists s, rel. auto.
    + destruct K.
  - intros (k & N & s & rel & I & J & ->). exists s. split; auto. apply in_flat_map. exists (rel, k). split; auto.
    cbn [fst snd]. rewrite (recorded_is s rel (R s rel k I J)). destruct k; try congruence; left; auto.
Qed.
Lemma shared_dirs_In : forall ss x, all_recordable ss ->
  (In x (shared_dirs ss) <-> exists d, x = d ++ s_ "/" /\ staged_path ss d KDir).
Proof.
  intros ss x R. unfold shared_dirs, staged_path. rewrite in_flat_map.
  assert (NS : forall s rel, recordable s rel -> endswith (s_ "/") (st_dst s ++ rel) = false).
  { intros s rel (_ & _ & _ & c & m & l & E & _ & _ & N). apply not_true_is_false. rewrite endswith_iff. intros (y & E').
    rewrite E in E'. change (c :: m ++ [l]) with ((c :: m) ++ [l]) in E'. change (s_ "/") with ["/"%char] in E'.
    apply app_inj_tail in E'. tauto. }
  split.
  - intros (s & I & J). apply in_flat_map in J. destruct J as ((rel & k) & J & K). cbn [fst snd] in K.
    assert (RR := R s rel k I J). destruct k; try (destruct K; fail). rewrite (recorded_is s rel RR), (NS s rel RR) in K.
    destruct K as [<-|[]]. exists (st_dst s ++ rel). split; auto. exists s, rel. auto.
  - intros (d & -> & s & rel & I & J & ->). exists s. split; auto. apply in_flat_map. exists (rel, KDir). split; auto.
    cbn [fst snd]. assert (RR := R s rel KDir I J). rewrite (recorded_is s rel RR), (NS s rel RR). left. auto.
Qed.

Lemma sane_fs_minus_files : forall t t1 (F : str -> Prop), sane_fs t ->
  (forall p k, In (p, k) t1 <-> In (p, k) t /\ ~ F p) -> (forall p, F p -> ~ In (p, KDir) t) ->
  NoDup (map fst t1) -> sane_fs t1.
Proof.
  intros t t1 F (ND & S) E FD ND1. split; auto. intros p k I. apply E in I. destruct I as [I N].
  destruct (S p k I) as (d & name & A & B & C & D). exists d, name. split; auto. split; auto. split; auto.
  destruct D as [D|D]; auto. right. apply E. split; auto. intros X. apply (FD d X D).
Qed.
Lemma clean_entry_NoDup : forall cr ls t, NoDup (map fst t) -> NoDup (map fst (fold_left (clean_entry cr) ls t)).
Proof.
  assert (R : forall p (t : fs), NoDup (map fst t) -> NoDup (map fst (remove_path p t))).
  { intros p t. unfold remove_path. induction t as [|e t IH]; cbn; auto. intros N. inversion N as [|? ? A B]; subst.
    destruct (negb (seqb (fst e) p)); cbn; auto. constructor; auto. intros I. apply A. apply in_map_iff in I.
    destruct I as (x & E & I). apply filter_In in I. rewrite <- E. apply in_map. tauto. }
  induction ls as [|l ls IH]; intros t N; cbn; auto. apply IH. unfold clean_entry.
  destruct (endswith (s_ "/") (strip l)); [destruct (has t (removelast (strip l)) KLink); auto|].
  - destruct (has t (removelast (strip l)) KDir && negb (populated t (removelast (strip l))) && negb cr); auto.
  - destruct (has t (strip l) KFile || has t (strip l) KLink); auto.
Qed.

Lemma clean_manifest_spec : forall ss t, sane_fs t -> all_recordable ss ->
  (forall p k, staged_path ss p k -> In (p, k) t) ->
  (forall p k, In (p, k) (clean_manifest false (manifest_text ss) t) <->
     In (p, k) t /\ ~ (exists k', k' <> KDir /\ staged_path ss p k') /\
     ~ (staged_path ss p KDir /\ forall q kq, In (q, kq) t -> below p q -> exists k', staged_path ss q k')) /\
  (forall p k, In (p, k) (clean_manifest true (manifest_text ss) t) <->
     In (p, k) t /\ ~ (exists k', k' <> KDir /\ staged_path ss p k')).
Proof.
  intros ss t SN R ST.
  set (F := shared_files ss). set (D := rev (sort_len (shared_dirs ss))). set (L := map (@removelast ascii) D).
  assert (FI : forall f, In f F <-> exists k, k <> KDir /\ staged_path ss f k) by (intros; apply shared_files_In; auto).
  assert (DI : forall x, In x D <-> exists d, x = d ++ s_ "/" /\ staged_path ss d KDir).
  { intros x. unfold D. rewrite <- in_rev. rewrite (proj2 (sort_len_spec _)). apply shared_dirs_In. auto. }
  assert (LI : forall d, In d L <-> staged_path ss d KDir).
  { intros d. unfold L. rewrite in_map_iff. split.
    - intros (x & E & I). apply DI in I. destruct I as (d' & -> & I). change (s_ "/") with ["/"%char] in E. rewrite removelast_last in E. subst. auto.
    - intros S. exists (d ++ s_ "/"). change (s_ "/") with ["/"%char]. rewrite removelast_last. split; auto. apply DI. exists d. auto. }
  assert (DL : D = map (fun d => d ++ s_ "/") L).
  { unfold L. rewrite map_map. rewrite <- (map_id D) at 1. apply map_ext_in. intros x I. apply DI in I. destruct I as (d & -> & _).
    change (s_ "/") with ["/"%char]. rewrite removelast_last. auto. }
  assert (RS : forall p k, staged_path ss p k -> ~ In nl p /\ exists c m l, p = c :: m ++ [l] /\ is_space c = false /\ is_space l = false /\ l <> "/"%char).
  { intros p k (s & rel & I & J & ->). destruct (R s rel k I J) as (_ & _ & A & B). auto. }
  assert (RL : readlines (manifest_text ss) = map (fun f => f ++ [nl]) F ++ map (fun f => f ++ [nl]) D).
  { unfold manifest_text. fold F. fold D. rewrite readlines_concat. { apply map_app. }
    intros l I. apply in_app_or in I. destruct I as [I|I].
    - apply FI in I. destruct I as (k & _ & I). apply (RS l k I).
    - apply DI in I. destruct I as (d & -> & I). intros X. apply in_app_or in X. destruct X as [X|[X|[]]]; [|discriminate].
      apply (proj1 (RS d KDir I) X). }
  assert (FND : forall f, In f F -> ~ In (f, KDir) t).
  { intros f I J. apply FI in I. destruct I as (k & N & I). apply N. apply (kind_unique t f k KDir (proj1 SN)); auto. }
  assert (FP : forall cr p k, In (p, k) (fold_left (clean_entry cr) (map (fun f => f ++ [nl]) F) t) <-> In (p, k) t /\ ~ In p F).
  { intros cr. apply file_phase; auto. intros f I. apply FI in I. destruct I as (k & _ & I). apply (RS f k I). }
  unfold clean_manifest. rewrite RL. rewrite !fold_left_app, DL.
  set (t1 := fold_left (clean_entry false) (map (fun f => f ++ [nl]) F) t) in *.
  set (t2 := fold_left (clean_entry true) (map (fun f => f ++ [nl]) F) t) in *.
  assert (FP1 : forall p k, In (p, k) t1 <-> In (p, k) t /\ ~ In p F) by exact (FP false).
  assert (FP2 : forall p k, In (p, k) t2 <-> In (p, k) t /\ ~ In p F) by exact (FP true).
  assert (LSH : forall d, In d L -> exists c m, d = c :: m /\ is_space c = false).
  { intros d I. apply LI in I. destruct (RS d KDir I) as (_ & c & m & l & E & C & _). exists c, (m ++ [l]). auto. }
  assert (LNL : forall u, (forall p k, In (p, k) u <-> In (p, k) t /\ ~ In p F) -> forall d, In d L -> ~ In (d, KLink) u).
  { intros u E d I J. apply E in J. apply LI in I. apply ST in I. destruct J as [J _].
    assert (X := kind_unique t d KLink KDir (proj1 SN) J I). discriminate. }
  split.
  - match goal with |- forall p k, In (p, k) ?x <-> _ =>
      replace x with (fold_left rmd L t1) by (symmetry; exact (proj1 (dir_lines L t1 LSH (LNL t1 FP1)))) end.
    assert (SN1 : sane_fs t1).
    { apply (sane_fs_minus_files t t1 (fun p => In p F)); auto. unfold t1. apply clean_entry_NoDup. apply SN. }
    assert (SO : StronglySorted (fun x y : str => length y <= length x) L).
    { unfold L, D. apply sorted_removelast. apply rev_sorted. apply sort_len_spec. }
    assert (LD : forall d, In d L -> In (d, KDir) t1).
    { intros d I. apply LI in I. apply FP1. split; [apply ST; auto|]. intros J. apply (FND d J). apply ST. auto. }
    intros p k. rewrite (dir_phase t1 L SN1 LD SO [] L (eq_sym (app_nil_r L))), FP1, FI, LI.
    assert (EQ : (forall q kq, In (q, kq) t1 -> below p q -> In q L) <->
                 (forall q kq, In (q, kq) t -> below p q -> exists k', staged_path ss q k')).
    { split; intros H q kq I B.
      - destruct (in_dec str_eq_dec q F) as [J|J].
        + apply FI in J. destruct J as (k' & _ & J). eauto.
        + exists KDir. apply LI. apply (H q kq); auto. apply FP1. auto.
      - apply FP1 in I. destruct I as [I J]. destruct (H q kq I B) as (k' & K). apply LI.
        destruct k'; auto; exfalso; apply J; apply FI; eexists; (split; [|exact K]); discriminate. }
    rewrite EQ. tauto.
  - match goal with |- forall p k, In (p, k) ?x <-> _ =>
      replace x with t2 by (symmetry; exact (proj2 (dir_lines L t2 LSH (LNL t2 FP2)))) end.
    intros p k. rewrite FP2, FI. tauto.
Qed.

(** * the index *)
Lemma plain_word_word : forall w, plain_word w <-> word w.
Proof. intros w. unfold plain_word, word. rewrite Forall_forall. split; intros [A B]; split; auto. Qed.
Lemma iline_words : forall l, plain_line l -> split_ws (iline_text l) = [i_stamp l; i_manifest l; i_workdir l].
Proof.
  intros l (A & B & C). apply plain_word_word in A, B, C. unfold iline_text. change (s_ " ") with [" "%char]. cbn [app].
  rewrite split_ws_word by auto. rewrite split_ws_word by auto. rewrite split_ws_word by auto. reflexivity.
Qed.
Lemma iline_text_inj : forall a b, plain_line a -> plain_line b -> iline_text a = iline_text b -> a = b.
Proof.
  intros a b A B E. apply (f_equal split_ws) in E. rewrite !iline_words in E by auto. destruct a, b. cbn in E. congruence.
Qed.
Lemma plain_no_nl : forall w, plain_word w -> ~ In nl w.
Proof. intros w [_ H] I. apply H in I. discriminate. Qed.
Lemma index_lines : forall ls, (forall l, In l ls -> plain_line l) -> readlines (index_file ls) = map iline_text ls.
Proof.
  intros ls P. unfold index_file.
  set (body := fun l => i_stamp l ++ s_ " " ++ i_manifest l ++ s_ " " ++ i_workdir l).
  assert (E : forall l, iline_text l = body l ++ [nl]).
  { intros l. unfold iline_text, body. rewrite <- !app_assoc. auto. }
  replace (map iline_text ls) with (map (fun f => f ++ [nl]) (map body ls)).
  - rewrite readlines_concat; auto. intros x I. apply in_map_iff in I. destruct I as (l & <- & I).
    destruct (P l I) as (A & B & C). apply plain_no_nl in A, B, C. unfold body. rewrite !in_app_iff. cbn. intros H.
    assert (N : nl <> " "%char) by discriminate. intuition congruence.
  - rewrite map_map. apply map_ext. intros l. symmetry. apply E.
Qed.

Fixpoint part (seen : list str) (xs : list iline) : list iline * list iline :=
  match xs with
  | [] => ([], [])
  | x :: xs' => if mem_str (i_manifest x) seen
                then let '(f, n) := part seen xs' in (f, x :: n)
                else let '(f, n) := part (i_manifest x :: seen) xs' in (x :: f, n)
  end.

Definition staleb (stamps preserve machine : list str) (x : iline) : bool :=
  negb (mem_str (i_stamp x) stamps) && negb (mem_str (i_stamp x) preserve) && mem_str (i_stamp x) machine.

Lemma scan_part : forall st pr ma xs seen T I, (forall l, In l xs -> plain_line l) ->
  scan st pr ma seen (map iline_text xs) T I =
  Some (T ++ map iline_text (filter (staleb st pr ma) (fst (part seen xs))), I ++ map iline_text (snd (part seen xs))).
Proof.
  induction xs as [|x xs IH]; intros seen T I P; cbn [map scan part].
  - cbn. rewrite !app_nil_r. auto.
  - rewrite (iline_words x) by (apply P; left; auto).
    assert (P' : forall l, In l xs -> plain_line l) by (intros; apply P; right; auto).
    destruct (mem_str (i_manifest x) seen) eqn:M.
    + rewrite IH by auto. destruct (part seen xs) as [f n]. cbn [fst snd map]. rewrite <- app_assoc. auto.
    + rewrite IH by auto. destruct (part (i_manifest x :: seen) xs) as [f n]. cbn [fst snd filter].
      fold (staleb st pr ma x). destruct (staleb st pr ma x); cbn [map]; rewrite <- ?app_assoc; auto.
Qed.

Lemma part_fst : forall xs seen x, In x (fst (part seen xs)) <->
  exists a b, xs = a ++ x :: b /\ ~ In (i_manifest x) seen /\ forall y, In y a -> i_manifest y <> i_manifest x.
Proof.
  induction xs as [|z xs IH]; intros seen x; cbn [part].
  - cbn. split; [tauto|]. intros (a & b & E & _). destruct a; discriminate.
  - destruct (mem_str (i_manifest z) seen) eqn:M.
    + specialize (IH seen x). destruct (part seen xs) as [f n]. cbn [fst] in *. rewrite IH. apply mem_str_In in M. split.
      * intros (a & b & -> & A & B). exists (z :: a), b. split; auto. split; auto. intros y [<-|I]; auto. congruence.
      * intros (a & b & E & A & B). destruct a as [|y a]; inversion E; subst; [tauto|]. exists a, b. split; auto. split; auto.
        intros w I. apply B. right. auto.
    + specialize (IH (i_manifest z :: seen) x). destruct (part (i_manifest z :: seen) xs) as [f n]. cbn [fst In] in *. rewrite IH.
      apply mem_str_false in M. split.
      * intros [<-|(a & b & -> & A & B)].
        -- exists [], xs. auto.
        -- exists (z :: a), b. split; auto. split; [tauto|]. intros y [<-|I]; auto. 
      * intros (a & b & E & A & B). destruct a as [|y a]; inversion E; subst; auto. right. exists a, b. split; auto. split.
        -- intros [C|C]; auto. apply (B y); auto. left. auto.
        -- intros w I. apply B. right. auto.
Qed.
Lemma part_union : forall xs seen x, In x xs <-> In x (fst (part seen xs)) \/ In x (snd (part seen xs)).
Proof.
  induction xs as [|z xs IH]; intros seen x; cbn [part].
  - cbn. tauto.
  - destruct (mem_str (i_manifest z) seen).
    + specialize (IH seen x). destruct (part seen xs). cbn [fst snd In] in *. tauto.
    + specialize (IH (i_manifest z :: seen) x). destruct (part (i_manifest z :: seen) xs). cbn [fst snd In] in *. tauto.
Qed.
Lemma part_disjoint : forall xs seen, NoDup xs -> NoDup (fst (part seen xs)) /\ forall x, In x (fst (part seen xs)) -> In x (snd (part seen xs)) -> False.
Proof.
  induction xs as [|z xs IH]; intros seen N; cbn [part].
  - cbn. split; [constructor|tauto].
  - inversion N as [|? ? A B]; subst. destruct (mem_str (i_manifest z) seen).
    + destruct (IH seen B) as [C D]. pose proof (part_union xs seen) as U. destruct (part seen xs). cbn [fst snd In] in *.
      split; auto. intros x I [<-|J]; eauto. apply A. apply U. auto.
    + destruct (IH (i_manifest z :: seen) B) as [C D]. pose proof (part_union xs (i_manifest z :: seen)) as U.
      destruct (part (i_manifest z :: seen) xs). cbn [fst snd In] in *.
      split; [constructor; auto; intros I; apply A; apply U; auto|]. intros x [<-|I] J; eauto. apply A. apply U. auto.
Qed.

Lemma remove_first_filter : forall x l, NoDup l -> remove_first x l = filter (fun y => negb (seqb y x)) l.
Proof.
  induction l as [|y l IH]; intros N; cbn; auto. inversion N as [|? ? A B]; subst. destruct (seqb y x) eqn:E; cbn.
  - apply seqb_eq in E. subst. symmetry. clear -A. induction l as [|z l IH]; auto. cbn. destruct (seqb z x) eqn:E.
    + apply seqb_eq in E. subst. exfalso. apply A. left. auto.
    + cbn. f_equal. apply IH. intros I. apply A. right. auto.
  - f_equal. auto.
Qed.
Lemma remove_all_filter : forall R l, NoDup l ->
  fold_left (fun ls r => remove_first r ls) R l = filter (fun y => negb (mem_str y R)) l.
Proof.
  induction R as [|r R IH]; intros l N; cbn [fold_left].
  - symmetry. clear. induction l as [|y l IH]; cbn; auto. f_equal. auto.
  - rewrite remove_first_filter by auto. rewrite IH by (apply NoDup_filter; auto).
    unfold mem_str. clear. induction l as [|y l IH]; cbn [filter existsb]; auto. destruct (seqb y r); cbn [negb orb filter]; auto.
    destruct (existsb (seqb y) R); cbn [negb]; rewrite IH; auto.
Qed.

Lemma newest_part : forall ls x, In x (fst (part [] (rev ls))) <-> newest ls x.
Proof.
  intros ls x. rewrite part_fst. unfold newest. split.
  - intros (a & b & E & _ & H). exists (rev b), (rev a). split.
    + rewrite <- (rev_involutive ls), E, rev_app_distr. cbn. rewrite <- app_assoc. auto.
    + intros y I. apply H. apply in_rev. auto.
  - intros (a & b & -> & H). exists (rev b), (rev a). split.
    + rewrite rev_app_distr. cbn. rewrite <- app_assoc. auto.
    + split; [tauto|]. intros y I. apply H. apply in_rev. auto.
Qed.

Definition stale (stamps preserve machine : list str) (x : iline) : Prop :=
  ~ In (i_stamp x) stamps /\ ~ In (i_stamp x) preserve /\ In (i_stamp x) machine.
Lemma staleb_iff : forall st pr ma x, staleb st pr ma x = true <-> stale st pr ma x.
Proof.
  intros. unfold staleb, stale. rewrite !andb_true_iff, !negb_true_iff, mem_str_In.
  rewrite <- !not_true_iff_false, !mem_str_In. tauto.
Qed.

Lemma map_iline_In : forall ls xs x, (forall l, In l ls -> plain_line l) -> (forall l, In l xs -> In l ls) -> In x ls ->
  (mem_str (iline_text x) (map iline_text xs) = true <-> In x xs).
Proof.
  intros ls xs x P S I. rewrite mem_str_In, in_map_iff. split.
  - intros (y & E & J). apply iline_text_inj in E; auto. congruence.
  - intros J. exists x. auto.
Qed.

Lemma clean_index_spec : forall st pr ma ls, (forall l, In l ls -> plain_line l) -> NoDup ls ->
  exists rem keep, clean_index st pr ma (index_file ls) = Some (mkCleanup (map iline_text rem) (map iline_text (filter keep ls))) /\
  NoDup rem /\ (forall x, In x rem <-> newest ls x /\ stale st pr ma x) /\
  (forall x, In x ls -> (keep x = true <-> newest ls x /\ ~ stale st pr ma x)).
Proof.
  intros st pr ma ls P N. unfold clean_index. rewrite index_lines by auto. rewrite <- map_rev.
  rewrite scan_part by (intros l I; apply P; apply in_rev; auto). cbn [app].
  set (X := part [] (rev ls)).
  assert (NR : NoDup (rev ls)) by (apply NoDup_rev; auto).
  destruct (part_disjoint (rev ls) [] NR) as [NF DJ]. fold X in NF, DJ.
  assert (U : forall x, In x ls <-> In x (fst X) \/ In x (snd X)).
  { intros x. rewrite in_rev. apply part_union. }
  set (rem := filter (staleb st pr ma) (fst X)).
  assert (NL : NoDup (map iline_text ls)).
  { clear -P N. induction ls as [|l ls IH]; cbn; [constructor|]. inversion N; subst. constructor.
    - intros I. apply in_map_iff in I. destruct I as (y & E & I). apply iline_text_inj in E; [congruence|apply P; right; auto|apply P; left; auto].
    - apply IH; auto. intros; apply P; right; auto. }
  rewrite remove_all_filter by auto.
  exists rem, (fun x => negb (mem_str (iline_text x) (map iline_text rem)) && negb (mem_str (iline_text x) (map iline_text (snd X)))).
  split; [|split; [|split]].
  - f_equal. f_equal. generalize (map iline_text rem) as ra, (map iline_text (snd X)) as sx. clear. intros ra sx.
    induction ls as [|l ls IH]; cbn [map filter]; auto.
    destruct (mem_str (iline_text l) ra); cbn [negb filter andb]; auto.
    destruct (mem_str (iline_text l) sx); cbn [negb map filter]; rewrite IH; auto.
  - apply NoDup_filter. auto.
  - intros x. unfold rem. rewrite filter_In, staleb_iff. unfold X. rewrite newest_part. tauto.
  - intros x I. rewrite andb_true_iff, !negb_true_iff. rewrite <- !not_true_iff_false.
    rewrite (map_iline_In ls rem x), (map_iline_In ls (snd X) x); auto.
    + unfold rem. rewrite filter_In, staleb_iff. assert (NP := newest_part ls x). fold X in NP. specialize (U x). specialize (DJ x). tauto.
    + intros l J. apply U. auto.
    + intros l J. unfold rem in J. apply filter_In in J. apply U. tauto.
Qed.

(** * a manifest acts on what it lists only *)
Lemma clean_entry_only : forall cr t line p k,
  (endswith (s_ "/") (strip line) = true -> removelast (strip line) <> p) ->
  (endswith (s_ "/") (strip line) = false -> strip line <> p) ->
  (In (p, k) (clean_entry cr t line) <-> In (p, k) t).
Proof.
  intros cr t line p k A B. unfold clean_entry. destruct (endswith (s_ "/") (strip line)).
  - specialize (A eq_refl). destruct (has t (removelast (strip line)) KLink).
    + rewrite remove_path_In. intuition congruence.
    + destruct (has t (removelast (strip line)) KDir && negb (populated t (removelast (strip line))) && negb cr); [|tauto].
      rewrite remove_path_In. intuition congruence.
  - specialize (B eq_refl). destruct (has t (strip line) KFile || has t (strip line) KLink); [|tauto].
    rewrite remove_path_In. intuition congruence.
Qed.
Lemma manifest_lines : forall ss line, all_recordable ss -> In line (readlines (manifest_text ss)) ->
  (exists f k, line = f ++ [nl] /\ strip line = f /\ endswith (s_ "/") f = false /\ k <> KDir /\ staged_path ss f k) \/
  (exists d, line = (d ++ s_ "/") ++ [nl] /\ strip line = d ++ s_ "/" /\ staged_path ss d KDir).
Proof.
  intros ss line R I.
  assert (RS : forall p k, staged_path ss p k -> ~ In nl p /\ exists c m l, p = c :: m ++ [l] /\ is_space c = false /\ is_space l = false /\ l <> "/"%char).
  { intros p k (s & rel & I' & J & ->). destruct (R s rel k I' J) as (_ & _ & A & B). auto. }
  assert (FI := fun f => shared_files_In ss f R).
  assert (DI : forall x, In x (rev (sort_len (shared_dirs ss))) <-> exists d, x = d ++ s_ "/" /\ staged_path ss d KDir).
  { intros x. rewrite <- in_rev. rewrite (proj2 (sort_len_spec _)). apply shared_dirs_In. auto. }
  unfold manifest_text in I. rewrite readlines_concat in I.
  - apply in_map_iff in I. destruct I as (x & <- & I). apply in_app_or in I. destruct I as [I|I].
    + left. apply FI in I. destruct I as (k & N & I). exists x, k. split; auto.
      destruct (RS x k I) as (_ & c & m & l & -> & C & L & NS). rewrite strip_line by auto. split; auto. split; auto.
      apply not_true_is_false. rewrite endswith_iff. intros (y & E'). change (c :: m ++ [l]) with ((c :: m) ++ [l]) in E'.
      change (s_ "/") with ["/"%char] in E'. apply app_inj_tail in E'. tauto.
    + right. apply DI in I. destruct I as (d & -> & I). exists d. split; auto. split; auto.
      destruct (RS d KDir I) as (_ & c & m & l & -> & C & L & NS). apply (strip_line c (m ++ [l]) "/"); auto.
  - intros l J. apply in_app_or in J. destruct J as [J|J].
    + apply FI in J. destruct J as (k & _ & J). apply (RS l k J).
    + apply DI in J. destruct J as (d & -> & J). intros X. apply in_app_or in X. destruct X as [X|[X|[]]]; [|discriminate].
      apply (proj1 (RS d KDir J) X).
Qed.
Lemma clean_manifest_only : forall cr ss t p k, all_recordable ss -> (forall k', ~ staged_path ss p k') ->
  (In (p, k) (clean_manifest cr (manifest_text ss) t) <-> In (p, k) t).
Proof.
  intros cr ss t p k R N. unfold clean_manifest. assert (ML := manifest_lines ss). revert t.
  assert (H : forall line, In line (readlines (manifest_text ss)) ->
     (endswith (s_ "/") (strip line) = true -> removelast (strip line) <> p) /\
     (endswith (s_ "/") (strip line) = false -> strip line <> p)).
  { intros line I. destruct (ML line R I) as [(f & k' & _ & -> & E & _ & S)|(d & _ & -> & S)].
    - rewrite E. split; [discriminate|]. intros _ ->. apply (N k' S).
    - rewrite endswith_app. split; [|discriminate]. intros _. change (s_ "/") with ["/"%char]. rewrite removelast_last.
      intros ->. apply (N KDir S). }
  revert H. generalize (readlines (manifest_text ss)) as ls. induction ls as [|l ls IH]; intros H t; cbn [fold_left]; [tauto|].
  rewrite IH by (intros x I; apply H; right; auto). apply clean_entry_only; apply (H l); left; auto.
Qed.

(** * installing *)
Lemma copy_fold_In : forall (es t : fs) p k, In (p, k) (fold_left (fun t e => if existsb (fun f => seqb (fst f) (fst e)) t then t else t ++ [e]) es t) ->
  In (p, k) t \/ In (p, k) es.
Proof.
  induction es as [|e es IH]; intros t p k I; cbn [fold_left] in I; auto.
  apply IH in I. destruct I as [I|I]; [|right; right; auto].
  destruct (existsb (fun f => seqb (fst f) (fst e)) t); auto. apply in_app_or in I. destruct I as [I|[I|[]]]; auto. right. left. auto.
Qed.
Lemma copy_fold_keeps : forall (es t : fs) x, In x t ->
  In x (fold_left (fun t e => if existsb (fun f => seqb (fst f) (fst e)) t then t else t ++ [e]) es t).
Proof.
  induction es as [|e es IH]; intros t x I; cbn [fold_left]; auto. apply IH.
  destruct (existsb (fun f => seqb (fst f) (fst e)) t); auto. apply in_or_app. auto.
Qed.
Lemma copy_tree_staged : forall ss t p k, In (p, k) (copy_tree ss t) -> In (p, k) t \/ staged_path ss p k.
Proof.
  intros ss t p k I. unfold copy_tree in I. apply copy_fold_In in I. destruct I as [I|I]; auto. right.
  apply in_flat_map in I. destruct I as (s & I & J). apply in_map_iff in J. destruct J as ((rel & k') & E & J). cbn in E.
  inversion E; subst. exists s, rel. auto.
Qed.
Lemma copy_tree_keeps : forall ss t x, In x t -> In x (copy_tree ss t).
Proof. intros. unfold copy_tree. apply copy_fold_keeps. auto. Qed.
