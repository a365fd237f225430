(** Lemmas on moves and copies of files. *)
From Coq Require Import Ascii String List Bool Arith Lia.
From Verif Require Import Str_Model Str_Proofs Moves_Model Moves_Spec.
Import ListNotations.
Open Scope list_scope.

Definition triple (Pre : fs -> Prop) (prog : world -> bool * world) (P : fs -> Prop) (Q : bool -> fs -> Prop) : Prop :=
  forall w, Pre (w_fs w) -> exists b w' l, prog w = (b, w') /\ w_seen w' = w_seen w ++ l /\ Forall P l /\ Q b (w_fs w') /\ (w_faults w = [] -> w_faults w' = []).
(** without failing operations it succeeds *)
Definition goes (Pre : fs -> Prop) (prog : world -> bool * world) (Q : fs -> Prop) : Prop :=
  forall w, w_faults w = [] -> Pre (w_fs w) -> exists w', prog w = (true, w') /\ w_faults w' = [] /\ Q (w_fs w').
Lemma triple_act (Pre P : fs -> Prop) f (Q : bool -> fs -> Prop) : (forall s, Pre s -> Q false s) -> (forall s s', Pre s -> f s = Some s' -> P s' /\ Q true s') -> triple Pre (act f) P Q.
Proof.
  intros F T w H. unfold act. destruct (hd false (w_faults w)) eqn:HD.
  - exists false, (mkWorld (w_fs w) (w_seen w) (tl (w_faults w))), []. split; [reflexivity|]. split; [symmetry; apply app_nil_r|]. split; [constructor|]. split; [exact (F _ H)|]. intro E. cbn. rewrite E. reflexivity.
  - destruct (f (w_fs w)) as [s'|] eqn:E.
    + destruct (T _ _ H E) as [P' Q']. exists true, (mkWorld s' (w_seen w ++ [s']) (tl (w_faults w))), [s']. split; [reflexivity|]. split; [reflexivity|]. split; [constructor; [exact P'|constructor]|]. split; [exact Q'|]. intro Z. cbn. rewrite Z. reflexivity.
    + exists false, (mkWorld (w_fs w) (w_seen w) (tl (w_faults w))), []. split; [reflexivity|]. split; [symmetry; apply app_nil_r|]. split; [constructor|]. split; [exact (F _ H)|]. intro Z. cbn. rewrite Z. reflexivity.
Qed.
Lemma triple_seq (Pre P : fs -> Prop) a b (Q1 Q : bool -> fs -> Prop) : triple Pre a P Q1 -> triple (Q1 true) b P Q -> (forall s, Q1 false s -> Q false s) ->
  triple Pre (fun w => match a w with (true, w) => b w | (false, w) => pair false w end) P Q.
Proof.
  intros A B F w H. destruct (A w H) as (b1 & w1 & l1 & E1 & S1 & P1 & Q1' & F1). destruct b1.
  - destruct (B w1 Q1') as (b2 & w2 & l2 & E2 & S2 & P2 & Q2 & F2). exists b2, w2, (l1 ++ l2). rewrite E1. split; [exact E2|]. split; [rewrite S2, S1, app_assoc; reflexivity|]. split; [apply Forall_app; split; assumption|]. split; [exact Q2|]. intro Z. apply F2, F1, Z.
  - exists false, w1, l1. rewrite E1. split; [reflexivity|]. split; [exact S1|]. split; [exact P1|]. split; [exact (F _ Q1')|exact F1].
Qed.
Lemma triple_write (P : fs -> Prop) p (I : str -> fs -> Prop) : (forall d c s s', I d s -> append p c s = Some s' -> P s' /\ I (d ++ [c]) s') ->
  forall data d, triple (I d) (write p data) P (fun b s => if b then I (d ++ data) s else exists d, I d s).
Proof.
  intro A. induction data as [|c data IH]; intros d w H.
  - exists true, w, []. rewrite !app_nil_r. split; [reflexivity|]. split; [reflexivity|]. split; [constructor|]. split; [exact H|exact (fun Z => Z)].
  - cbn [write]. assert (T : triple (I d) (act (append p c)) P (fun b s => if b then I (d ++ [c]) s else I d s)) by (apply triple_act; [intros s X; exact X|intros s s' X E; exact (A d c s s' X E)]).
    pose proof (triple_seq (I d) P (act (append p c)) (write p data) (fun b s => if b then I (d ++ [c]) s else I d s) (fun b s => if b then I (d ++ c :: data) s else exists d, I d s) T) as X. apply X; [|intros s Y; exists d; exact Y|exact H].
    specialize (IH (d ++ [c])). rewrite <- app_assoc in IH. exact IH.
Qed.
Lemma goes_act (Pre Q : fs -> Prop) f : (forall s, Pre s -> exists s', f s = Some s' /\ Q s') -> goes Pre (act f) Q.
Proof. intros T w F H. destruct (T _ H) as (s' & E & Q'). unfold act. rewrite F. cbn [hd tl]. rewrite E. eexists. split; [reflexivity|]. split; [reflexivity|exact Q']. Qed.
Lemma goes_seq (Pre Q1 Q : fs -> Prop) a b c : goes Pre a Q1 -> goes Q1 b Q -> goes Pre (fun w => match a w with (true, w) => b w | (false, w) => c w end) Q.
Proof. intros A B w F H. destruct (A w F H) as (w1 & E1 & F1 & H1). rewrite E1. exact (B w1 F1 H1). Qed.
Lemma goes_write p (I : str -> fs -> Prop) : (forall d c s, I d s -> exists s', append p c s = Some s' /\ I (d ++ [c]) s') -> forall data d, goes (I d) (write p data) (I (d ++ data)).
Proof.
  intro A. induction data as [|c data IH]; intros d w F H.
  - exists w. rewrite app_nil_r. split; [reflexivity|]. split; [exact F|exact H].
  - cbn [write]. destruct (goes_act (I d) (I (d ++ [c])) (append p c) (fun s X => A d c s X) w F H) as (w1 & E1 & F1 & H1). rewrite E1. specialize (IH (d ++ [c]) w1 F1 H1). rewrite <- app_assoc in IH. exact IH.
Qed.

Lemma name_own s p i : names (set_name s p i) p = i. Proof. cbn. rewrite seqb_refl. reflexivity. Qed.
Lemma name_other s p i q : q <> p -> names (set_name s p i) q = names s q. Proof. intro N. cbn. rewrite (proj2 (seqb_neq q p) N). reflexivity. Qed.
Lemma new_ne p : p <> new_of p.
Proof. unfold new_of. intro E. assert (L : length p = length (p ++ s_ "#new")) by (rewrite <- E; reflexivity). rewrite app_length in L. cbn in L. lia. Qed.

Section Facts.
Variables me umask_mode now : nat.
Variables (src : str) (i : nat) (c : str) (m : meta).
(** One of the names, at [N], stands for the file [j] that is written; all else is as in
    [s1]. *)
Variable s1 : fs.
Definition wr (N : str) (j : nat) (d : str) (s : fs) : Prop :=
  (forall q, q <> N -> names s q = names s1 q) /\ names s N = Some j /\ (forall k, k <> j -> nodes s k = nodes s1 k) /\ (exists m', nodes s j = File d m').
(** After the rename of [N] to [D]. *)
Definition mv (N D : str) (j : nat) (Qm : meta -> Prop) (s : fs) : Prop :=
  (forall q, q <> N -> q <> D -> names s q = names s1 q) /\ names s N = None /\ names s D = Some j /\ (forall k, k <> j -> nodes s k = nodes s1 k) /\ (exists m', nodes s j = File c m' /\ Qm m').
(** And after the source is removed. *)
Definition un (N D : str) (j : nat) (Qm : meta -> Prop) (s : fs) : Prop :=
  (forall q, q <> N -> q <> D -> q <> src -> names s q = names s1 q) /\ names s N = None /\ names s src = None /\ names s D = Some j /\ (forall k, k <> j -> nodes s k = nodes s1 k) /\ (exists m', nodes s j = File c m' /\ Qm m').
Lemma wr_append N j d x s s' : wr N j d s -> append N x s = Some s' -> wr N j (d ++ [x]) s'.
Proof.
  intros (A & B & C & m' & E) H. unfold append in H. rewrite B, E in H. injection H as <-. split; [exact A|]. split; [exact B|]. split.
  - intros k K. cbn. rewrite (proj2 (Nat.eqb_neq k j) K). exact (C k K).
  - exists m'. cbn. rewrite Nat.eqb_refl. reflexivity.
Qed.
Lemma wr_append_goes N j d x s : wr N j d s -> exists s', append N x s = Some s' /\ wr N j (d ++ [x]) s'.
Proof. intros W. assert (E : exists s', append N x s = Some s') by (destruct W as (_ & B & _ & m' & E); unfold append; rewrite B, E; eexists; reflexivity). destruct E as [s' E]. exists s'. split; [exact E|exact (wr_append N j d x s s' W E)]. Qed.
Lemma wr_create N s' : create me umask_mode now N s1 = Some s' -> wr N (match names s1 N with Some j => j | None => fresh s1 end) [] s'.
Proof.
  unfold create. destruct (names s1 N) as [j|] eqn:NN.
  - destruct (nodes s1 j) as [d m'| | |] eqn:J; try discriminate. intro H. injection H as <-. split; [reflexivity|]. split; [exact NN|]. split.
    + intros k K. cbn. rewrite (proj2 (Nat.eqb_neq k j) K). reflexivity.
    + eexists. cbn. rewrite Nat.eqb_refl. reflexivity.
  - intro H. injection H as <-. split; [intros q Q; cbn; rewrite (proj2 (seqb_neq q N) Q); reflexivity|]. split; [cbn; rewrite seqb_refl; reflexivity|]. split.
    + intros k K. cbn. rewrite (proj2 (Nat.eqb_neq k (fresh s1)) K). reflexivity.
    + eexists. cbn. rewrite Nat.eqb_refl. reflexivity.
Qed.
Lemma wr_create_goes N : (match names s1 N with None => True | Some j => exists c m, nodes s1 j = File c m end) -> exists s', create me umask_mode now N s1 = Some s'.
Proof. unfold create. destruct (names s1 N) as [j|]; [intros (d & m' & ->)|intros _]; eexists; reflexivity. Qed.
Lemma wr_rename N D j s s' : N <> D -> names s1 D <> Some j -> wr N j c s -> os_rename N D s = Some s' -> mv N D j (fun _ => True) s'.
Proof.
  intros ND DJ (A & B & C & m' & E) H. unfold os_rename in H. rewrite B in H. rewrite <- (A D (fun Z => ND (eq_sym Z))) in DJ.
  assert (G : s' = set_name (set_name s N None) D (Some j)).
  { unfold look in H. destruct (names s D) as [k|] eqn:K; cbn [option_map] in H; [|congruence]. assert (KJ : Nat.eqb j k = false) by (apply Nat.eqb_neq; congruence). rewrite KJ in H. destruct (nodes s k); congruence. }
  subst s'. split; [intros q Q1 Q2; rewrite name_other by exact Q2; rewrite name_other by exact Q1; exact (A q Q1)|]. split; [rewrite name_other by exact ND; apply name_own|]. split; [apply name_own|]. split; [exact C|]. exists m'. split; [exact E|exact I].
Qed.
Lemma wr_rename_goes N D j s : N <> D -> (forall k, names s1 D = Some k -> nodes s1 k <> Dir) -> names s1 D <> Some j -> wr N j c s -> exists s', os_rename N D s = Some s' /\ mv N D j (fun _ => True) s'.
Proof.
  intros ND DD DJ W. assert (E : exists s', os_rename N D s = Some s').
  { destruct W as (A & B & C & m' & E). unfold os_rename, look. rewrite B, (A D (fun Z => ND (eq_sym Z))). destruct (names s1 D) as [k|] eqn:K; cbn [option_map]; [|eexists; reflexivity]. assert (KJ : k <> j) by congruence. rewrite (C k KJ). pose proof (DD k eq_refl). destruct (nodes s1 k); try congruence; destruct (Nat.eqb j k); eexists; reflexivity. }
  destruct E as [s' E]. exists s'. split; [exact E|exact (wr_rename N D j s s' ND DJ W E)].
Qed.
Lemma mv_change N D j (Q1 Q2 : meta -> Prop) f s s' : (forall x, Q1 x -> Q2 (f x)) -> mv N D j Q1 s -> change D f s = Some s' -> mv N D j Q2 s'.
Proof.
  intros F (A & B & C & K & m' & E & Q) H. unfold change in H. rewrite C, E in H. injection H as <-. split; [exact A|]. split; [exact B|]. split; [exact C|]. split.
  - intros k X. cbn. rewrite (proj2 (Nat.eqb_neq k j) X). exact (K k X).
  - exists (f m'). cbn. rewrite Nat.eqb_refl. split; [reflexivity|exact (F _ Q)].
Qed.
Lemma mv_change_goes N D j (Q1 Q2 : meta -> Prop) f s : (forall x, Q1 x -> Q2 (f x)) -> mv N D j Q1 s -> exists s', change D f s = Some s' /\ mv N D j Q2 s'.
Proof. intros F M. assert (E : exists s', change D f s = Some s') by (destruct M as (_ & _ & C & _ & m' & E & _); unfold change; rewrite C, E; eexists; reflexivity). destruct E as [s' E]. exists s'. split; [exact E|exact (mv_change N D j Q1 Q2 f s s' F M E)]. Qed.
Lemma un_change N D j (Q1 Q2 : meta -> Prop) f s s' : (forall x, Q1 x -> Q2 (f x)) -> un N D j Q1 s -> change D f s = Some s' -> un N D j Q2 s'.
Proof.
  intros F (A & B & B2 & C & K & m' & E & Q) H. unfold change in H. rewrite C, E in H. injection H as <-. split; [exact A|]. split; [exact B|]. split; [exact B2|]. split; [exact C|]. split.
  - intros k X. cbn. rewrite (proj2 (Nat.eqb_neq k j) X). exact (K k X).
  - exists (f m'). cbn. rewrite Nat.eqb_refl. split; [reflexivity|exact (F _ Q)].
Qed.
Lemma un_change_goes N D j (Q1 Q2 : meta -> Prop) f s : (forall x, Q1 x -> Q2 (f x)) -> un N D j Q1 s -> exists s', change D f s = Some s' /\ un N D j Q2 s'.
Proof. intros F M. assert (E : exists s', change D f s = Some s') by (destruct M as (_ & _ & _ & C & _ & m' & E & _); unfold change; rewrite C, E; eexists; reflexivity). destruct E as [s' E]. exists s'. split; [exact E|exact (un_change N D j Q1 Q2 f s s' F M E)]. Qed.
Lemma mv_unlink N D j Qm s s' : src <> D -> mv N D j Qm s -> unlink src s = Some s' -> un N D j Qm s'.
Proof.
  intros SD (A & B & C & K & E) H. assert (G : s' = set_name s src None) by (unfold unlink in H; destruct (look s src) as [[| | |]|]; congruence). subst s'. split; [intros q Q1 Q2 Q3; rewrite name_other by exact Q3; exact (A q Q1 Q2)|]. split; [destruct (str_eq_dec N src) as [->|NS]; [apply name_own|rewrite name_other by exact NS; exact B]|]. split; [apply name_own|]. split; [rewrite name_other by congruence; exact C|]. split; [exact K|exact E].
Qed.
Lemma mv_unlink_goes N D j Qm s : src <> D -> src <> N -> names s1 src = Some i -> nodes s1 i = File c m -> i <> j -> mv N D j Qm s -> exists s', unlink src s = Some s' /\ un N D j Qm s'.
Proof.
  intros SD SN NS NI IJ M. assert (E : exists s', unlink src s = Some s') by (destruct M as (A & _ & _ & K & _); unfold unlink, look; rewrite (A src SN SD), NS; cbn [option_map]; rewrite (K i IJ), NI; eexists; reflexivity). destruct E as [s' E]. exists s'. split; [exact E|exact (mv_unlink N D j Qm s s' SD M E)].
Qed.
(** where the content is *)
Lemma wr_src N j d s : src <> N -> names s1 src = Some i -> nodes s1 i = File c m -> i <> j -> wr N j d s -> look s src = Some (File c m).
Proof. intros SN NS NI IJ (A & _ & C & _). unfold look. rewrite (A src SN), NS. cbn [option_map]. rewrite (C i IJ), NI. reflexivity. Qed.
Lemma wr_look N j d s q : q <> N -> names s1 q <> Some j -> wr N j d s -> look s q = look s1 q.
Proof. intros QN QJ (A & _ & C & _). unfold look. rewrite (A q QN). destruct (names s1 q) as [k|]; [|reflexivity]. cbn [option_map]. rewrite C by congruence. reflexivity. Qed.
Lemma mv_look N D j Qm s q : q <> N -> q <> D -> names s1 q <> Some j -> mv N D j Qm s -> look s q = look s1 q.
Proof. intros QN QD QJ (A & _ & _ & C & _). unfold look. rewrite (A q QN QD). destruct (names s1 q) as [k|]; [|reflexivity]. cbn [option_map]. rewrite C by congruence. reflexivity. Qed.
Lemma un_look N D j Qm s q : q <> N -> q <> D -> q <> src -> names s1 q <> Some j -> un N D j Qm s -> look s q = look s1 q.
Proof. intros QN QD QS QJ (A & _ & _ & _ & C & _). unfold look. rewrite (A q QN QD QS). destruct (names s1 q) as [k|]; [|reflexivity]. cbn [option_map]. rewrite C by congruence. reflexivity. Qed.
Lemma mv_dest N D j Qm s : mv N D j Qm s -> exists m', look s D = Some (File c m') /\ Qm m'.
Proof. intros (_ & _ & C & _ & m' & E & Q). exists m'. unfold look. rewrite C. cbn [option_map]. rewrite E. split; [reflexivity|exact Q]. Qed.
Lemma un_dest N D j Qm s : un N D j Qm s -> exists m', look s D = Some (File c m') /\ Qm m'.
Proof. intros (_ & _ & _ & C & _ & m' & E & Q). exists m'. unfold look. rewrite C. cbn [option_map]. rewrite E. split; [reflexivity|exact Q]. Qed.
End Facts.

(** ** Moves *)
Section Moves.
Variables me umask_mode now : nat.
Variables (src dst : str) (i : nat) (c : str) (m : meta).
Variable s1 : fs.
Let D := dst.
Let N := new_of D.
Let j := match names s1 N with Some j => j | None => fresh s1 end.
Hypothesis src_name : names s1 src = Some i.
Hypothesis src_node : nodes s1 i = File c m.
Hypothesis is_sound : sound s1.
Hypothesis is_spare : spare s1 N.
Hypothesis src_new : src <> N.
Hypothesis src_dest : src <> D.
Hypothesis not_same : names s1 D <> Some i.
Lemma j_other q : q <> N -> names s1 q <> Some j.
Proof.
  intros Q E. subst j. unfold spare in is_spare. destruct (names s1 N) as [k|] eqn:K.
  - destruct is_spare as [_ U]. exact (Q (U q E)).
  - apply is_sound in E. lia.
Qed.
Lemma i_not_j : i <> j. Proof. intro E. apply (j_other src src_new). rewrite src_name, E. reflexivity. Qed.
Lemma n_not_d : N <> D. Proof. intro E. exact (new_ne D (eq_sym E)). Qed.
(** on one device *)
Lemma rename_exact s' : os_rename src D s1 = Some s' -> mv c s1 src D i (eq m) s'.
Proof using src_name src_node src_dest not_same.
  intro H. unfold os_rename in H. rewrite src_name in H. assert (G : s' = set_name (set_name s1 src None) D (Some i)).
  { unfold look in H. destruct (names s1 D) as [k|] eqn:K; cbn [option_map] in H; [|congruence]. assert (KJ : Nat.eqb i k = false) by (apply Nat.eqb_neq; congruence). rewrite KJ in H. destruct (nodes s1 k); congruence. }
  subst s'. split; [intros q Q1 Q2; rewrite name_other by exact Q2; rewrite name_other by exact Q1; reflexivity|]. split; [rewrite name_other by exact src_dest; apply name_own|]. split; [apply name_own|]. split; [reflexivity|]. exists m. split; [exact src_node|reflexivity].
Qed.
Variable P : fs -> Prop.
Hypothesis p_wr : forall d s, wr s1 N j d s -> P s.
Hypothesis p_mv : forall N' j' Q s, mv c s1 N' D j' Q s -> P s.
Hypothesis p_un : forall Q s, un src c s1 N D j Q s -> P s.
Notation copying := (shutil_copyfile me umask_mode now).
Lemma copy_triple : triple (fun s => s = s1) (copying src N) P (fun b s => if b then wr s1 N j c s else True).
Proof using src_name src_node is_sound is_spare src_new p_wr.
  intros w H. unfold shutil_copyfile. assert (LS : look (w_fs w) src = Some (File c m)) by (rewrite H; unfold look; rewrite src_name; cbn; rewrite src_node; reflexivity). rewrite LS.
  assert (NS : (match names (w_fs w) src, names (w_fs w) N with Some a, Some b => Nat.eqb a b | _, _ => false end) = false).
  { rewrite H, src_name. pose proof i_not_j as IJ. unfold j in IJ. revert IJ. case (names s1 N); [intros k IJ; apply Nat.eqb_neq; exact IJ|intros _; reflexivity]. }
  rewrite NS. assert (T : triple (fun s => s = s1) (act (create me umask_mode now N)) P (fun b s => if b then wr s1 N j [] s else True)).
  { apply triple_act; [intros s _; exact I|]. intros s s' -> E. pose proof (wr_create me umask_mode now s1 N s' E) as W. split; [exact (p_wr _ _ W)|exact W]. }
  refine (triple_seq _ P _ _ _ (fun b s => if b then wr s1 N j c s else True) T _ _ w H); [|intros s _; exact I].
  intros w1 W1. destruct (triple_write P N (wr s1 N j) (fun d x s s' A B => conj (p_wr _ _ (wr_append s1 N j d x s s' A B)) (wr_append s1 N j d x s s' A B)) c [] w1 W1) as (b & w' & l & A1 & A2 & A3 & A4 & A5). exists b, w', l. split; [exact A1|]. split; [exact A2|]. split; [exact A3|]. split; [destruct b; [exact A4|exact I]|exact A5].
Qed.
Lemma copy_goes : goes (fun s => s = s1) (copying src N) (wr s1 N j c).
Proof using src_name src_node is_sound is_spare src_new.
  intros w F H. unfold shutil_copyfile. assert (LS : look (w_fs w) src = Some (File c m)) by (rewrite H; unfold look; rewrite src_name; cbn; rewrite src_node; reflexivity). rewrite LS.
  assert (NS : (match names (w_fs w) src, names (w_fs w) N with Some a, Some b => Nat.eqb a b | _, _ => false end) = false).
  { rewrite H, src_name. pose proof i_not_j as IJ. unfold j in IJ. revert IJ. case (names s1 N); [intros k IJ; apply Nat.eqb_neq; exact IJ|intros _; reflexivity]. }
  rewrite NS. refine (goes_seq (fun s => s = s1) (wr s1 N j []) _ _ _ _ _ _ w F H).
  - apply goes_act. intros s ->. destruct (wr_create_goes me umask_mode now s1 N) as [s' E]; [generalize is_spare; unfold spare; case (names s1 N); [intros k SP; exact (proj1 SP)|intros _; exact I]|]. exists s'. split; [exact E|exact (wr_create me umask_mode now s1 N s' E)].
  - apply (goes_write N (wr s1 N j)). intros d x s. apply wr_append_goes.
Qed.
Definition owned (x : meta) : Prop := m_owner x = m_owner m.
Definition alike (x : meta) : Prop := m_owner x = m_owner m /\ m_mode x = m_mode m.
Definition alike_at (t : nat) (x : meta) : Prop := x = mkMeta (m_owner m) (m_mode m) t.
Lemma over_triple : triple (wr s1 N j c) (act (os_rename N D)) P (fun b s => if b then mv c s1 N D j (fun _ => True) s else True).
Proof. apply triple_act; [intros; exact I|]. intros s s' W E. pose proof (wr_rename c s1 N D j s s' n_not_d (j_other D (fun Z => n_not_d (eq_sym Z))) W E) as M. split; [exact (p_mv _ _ _ _ M)|exact M]. Qed.
Lemma cross_triple : triple (fun s => s = s1) (fun w => match copying src N w with (true, w) => (fun w => match act (os_rename N D) w with (true, w) => (fun w => match chown D (m_owner m) w with (true, w) => (fun w => match chmod D (m_mode m) w with (true, w) => act (unlink src) w | (false, w) => pair false w end) w | (false, w) => pair false w end) w | (false, w) => pair false w end) w | (false, w) => pair false w end) P
  (fun b s => if b then un src c s1 N D j alike s else True).
Proof.
  eapply triple_seq; [exact copy_triple| |intros; exact I]. eapply triple_seq; [exact over_triple| |intros; exact I].
  eapply (triple_seq _ P _ _ (fun b s => if b then mv c s1 N D j owned s else True)); [| |intros; exact I].
  - apply triple_act; [intros; exact I|]. intros s s' M E. assert (M' : mv c s1 N D j owned s') by (refine (mv_change c s1 N D j _ owned _ s s' _ M E); intros x _; reflexivity). split; [exact (p_mv _ _ _ _ M')|exact M'].
  - eapply (triple_seq _ P _ _ (fun b s => if b then mv c s1 N D j alike s else True)); [| |intros; exact I].
    + apply triple_act; [intros; exact I|]. intros s s' M E. assert (M' : mv c s1 N D j alike s') by (refine (mv_change c s1 N D j owned alike _ s s' _ M E); intros x X; split; [exact X|reflexivity]). split; [exact (p_mv _ _ _ _ M')|exact M'].
    + apply triple_act; [intros; exact I|]. intros s s' M E. pose proof (mv_unlink src c s1 N D j alike s s' src_dest M E) as U. split; [exact (p_un _ _ U)|exact U].
Qed.
Hypothesis dest_no_dir : forall k, names s1 D = Some k -> nodes s1 k <> Dir.
Lemma over_goes : goes (wr s1 N j c) (act (os_rename N D)) (mv c s1 N D j (fun _ => True)).
Proof. apply goes_act. intros s W. exact (wr_rename_goes c s1 N D j s n_not_d dest_no_dir (j_other D (fun Z => n_not_d (eq_sym Z))) W). Qed.
Lemma cross_goes : goes (fun s => s = s1) (fun w => match copying src N w with (true, w) => (fun w => match act (os_rename N D) w with (true, w) => (fun w => match chown D (m_owner m) w with (true, w) => (fun w => match chmod D (m_mode m) w with (true, w) => act (unlink src) w | (false, w) => pair false w end) w | (false, w) => pair false w end) w | (false, w) => pair false w end) w | (false, w) => pair false w end)
  (un src c s1 N D j alike).
Proof.
  eapply goes_seq; [exact copy_goes|]. eapply goes_seq; [exact over_goes|].
  eapply (goes_seq _ (mv c s1 N D j owned)); [apply goes_act; intros s M; refine (mv_change_goes c s1 N D j _ owned _ s _ M); intros x _; reflexivity|].
  eapply (goes_seq _ (mv c s1 N D j alike)); [apply goes_act; intros s M; refine (mv_change_goes c s1 N D j owned alike _ s _ M); intros x X; split; [exact X|reflexivity]|].
  apply goes_act. intros s M. exact (mv_unlink_goes src i c m s1 N D j alike s src_dest src_new src_name src_node i_not_j M).
Qed.
Lemma rename_goes : exists s', os_rename src D s1 = Some s'.
Proof using src_name dest_no_dir. unfold os_rename, look. rewrite src_name. generalize dest_no_dir. case (names s1 D); [|intros _; eexists; reflexivity]. intros k DN. cbn [option_map]. pose proof (DN k eq_refl). destruct (nodes s1 k); try congruence; destruct (Nat.eqb i k); eexists; reflexivity. Qed.
End Moves.
Lemma seen_in (P : fs -> Prop) l l' : Forall P l -> Forall P l' -> forall s, In s (l ++ l') -> P s.
Proof. intros A B s I. rewrite Forall_forall in A, B. apply in_app_iff in I. destruct I as [I|I]; [exact (A s I)|exact (B s I)]. Qed.
(** the state after a link at dest was removed, or not *)
Lemma clear_spec dest s faults : exists s1 l f, clear_dest dest (start s faults) = mkWorld s1 (s :: l) f /\ (faults = [] -> f = []) /\
  ((s1 = s /\ l = []) \/ (exists t, look s dest = Some (Link t)) /\ s1 = set_name s dest None /\ l = [s1]) /\ ((forall t, look s dest <> Some (Link t)) -> s1 = s) /\ (faults = [] -> (exists t, look s dest = Some (Link t)) -> s1 = set_name s dest None).
Proof.
  unfold clear_dest, start. cbn [w_fs]. destruct (look s dest) as [n|] eqn:L.
  - destruct n as [c m|t| |].
    + exists s, [], faults. split; [reflexivity|]. split; [exact (fun H => H)|]. split; [left; split; reflexivity|]. split; [reflexivity|]. intros _ [t T]. discriminate T.
    + unfold act. cbn [w_faults w_fs w_seen]. destruct (hd false faults) eqn:H.
      * exists s, [], (tl faults). split; [reflexivity|]. split; [intros ->; reflexivity|]. split; [left; split; reflexivity|]. split; [reflexivity|]. intros ->. discriminate H.
      * unfold unlink. rewrite L. exists (set_name s dest None), [set_name s dest None], (tl faults). split; [reflexivity|]. split; [intros ->; reflexivity|]. split; [right; split; [exists t; reflexivity|split; reflexivity]|]. split; [intro Z; exfalso; exact (Z t eq_refl)|reflexivity].
    + exists s, [], faults. split; [reflexivity|]. split; [exact (fun H => H)|]. split; [left; split; reflexivity|]. split; [reflexivity|]. intros _ [t T]. discriminate T.
    + exists s, [], faults. split; [reflexivity|]. split; [exact (fun H => H)|]. split; [left; split; reflexivity|]. split; [reflexivity|]. intros _ [t T]. discriminate T.
  - exists s, [], faults. split; [reflexivity|]. split; [exact (fun H => H)|]. split; [left; split; reflexivity|]. split; [reflexivity|]. intros _ [t T]. discriminate T.
Qed.
Section Whole.
Variables me umask_mode now : nat.
Variables (src dest : str) (newmtime : nat) (c : str) (m : meta).
Variable s : fs.
Let D := target s src dest.
Hypothesis is_sound : sound s.
Hypothesis src_file : look s src = Some (File c m).
Hypothesis src_apart : apart s src D.
Hypothesis src_new : src <> new_of D.
Hypothesis is_spare : spare s (new_of D).
Definition stamp : nat := match newmtime with 0 => m_time m | _ => newmtime end.
Lemma src_not_dest : src <> dest.
Proof. intro E. destruct src_apart as [A _]. unfold D, target in A. rewrite E in src_file. destruct (look s dest) as [[| | |]|]; try congruence. Qed.
Lemma cleared s1 : (s1 = s \/ (exists t, look s dest = Some (Link t)) /\ s1 = set_name s dest None) ->
  exists i, names s1 src = Some i /\ nodes s1 i = File c m /\ sound s1 /\ spare s1 (new_of D) /\ names s1 D <> Some i /\ isdir s1 dest = (match look s dest with Some Dir => true | _ => false end) /\
    (forall q, q <> dest -> names s1 q = names s q) /\ nodes s1 = nodes s.
Proof.
  pose proof src_not_dest as SND. pose proof src_file as SF. unfold look in SF. destruct (names s src) as [i|] eqn:NI; [|discriminate SF]. cbn [option_map] in SF. injection SF as SF. destruct src_apart as [_ AP]. specialize (AP i NI).
  intros [->|[[t L] ->]]; exists i.
  - repeat (split; [assumption|]). split; [reflexivity|]. split; reflexivity.
  - assert (DD : D = dest) by (unfold D, target; rewrite L; reflexivity). split; [rewrite name_other by exact SND; exact NI|]. split; [exact SF|]. split; [|split; [|split; [|split; [|split]]]].
    + intros p k. cbn. destruct (seqb p dest); [discriminate|]. apply is_sound.
    + unfold spare in *. rewrite name_other by (rewrite DD; intro Z; exact (new_ne dest (eq_sym Z))). destruct (names s (new_of D)) as [k|]; [|exact I]. destruct is_spare as [A B]. split; [exact A|]. intros q. cbn. destruct (seqb q dest); [discriminate|]. apply B.
    + rewrite DD, name_own. discriminate.
    + unfold isdir, look. rewrite name_own. cbn. unfold look in L. rewrite L. reflexivity.
    + intros q Q. apply name_other. exact Q.
    + reflexivity.
Qed.
(** the place computed by the code *)
Lemma place_is s1 : isdir s1 dest = (match look s dest with Some Dir => true | _ => false end) -> (if isdir s1 dest then dest ++ s_ "/" ++ basename_of src else dest) = D.
Proof. intros ->. unfold D, target. destruct (look s dest) as [[| | |]|]; reflexivity. Qed.
(** the last step *)
Lemma finish_spec (X : (meta -> Prop) -> fs -> Prop) (P : fs -> Prop) :
  (forall (Q1 Q2 : meta -> Prop) (f : meta -> meta) (x x' : fs), (forall y, Q1 y -> Q2 (f y)) -> X Q1 x -> change D f x = Some x' -> X Q2 x') ->
  (forall (Q1 Q2 : meta -> Prop) (f : meta -> meta) (x : fs), (forall y, Q1 y -> Q2 (f y)) -> X Q1 x -> exists x', change D f x = Some x' /\ X Q2 x') ->
  forall Q : meta -> Prop, (forall y, Q y -> m_owner y = m_owner m /\ m_mode y = m_mode m) -> (forall Q x, X Q x -> P x) ->
  forall w, X Q (w_fs w) -> exists r w' l, finish D newmtime m w = (r, w') /\ w_seen w' = w_seen w ++ l /\ Forall P l /\ (forall t, r = Time t -> t = stamp /\ X (alike_at m stamp) (w_fs w')) /\ r <> Stat /\ (w_faults w = [] -> r = Time stamp).
Proof.
  intros XC XG Q QA PX w H. unfold finish, utime. fold stamp.
  assert (QF : forall y, Q y -> alike_at m stamp (mkMeta (m_owner y) (m_mode y) stamp)) by (intros y Y; destruct (QA y Y) as [A B]; unfold alike_at; rewrite A, B; reflexivity).
  assert (T : triple (X Q) (act (change D (fun y => mkMeta (m_owner y) (m_mode y) stamp))) P (fun b x => if b then X (alike_at m stamp) x else True)).
  { apply triple_act; [intros; exact I|]. intros x x' A B. pose proof (XC Q (alike_at m stamp) _ x x' QF A B) as Y. split; [exact (PX _ _ Y)|exact Y]. }
  destruct (T w H) as (b & w' & l & A1 & A2 & A3 & A4 & A5). rewrite A1.
  assert (GO : w_faults w = [] -> b = true).
  { intro F. destruct (goes_act (X Q) (X (alike_at m stamp)) _ (fun x A => XG Q (alike_at m stamp) _ x QF A) w F H) as (w2 & E & _). congruence. }
  destruct b.
  - exists (Time stamp), w', l. split; [reflexivity|]. split; [exact A2|]. split; [exact A3|]. split; [intros t E; injection E as <-; split; [reflexivity|exact A4]|]. split; [discriminate|reflexivity].
  - exists Raised, w', l. split; [reflexivity|]. split; [exact A2|]. split; [exact A3|]. split; [discriminate|]. split; [discriminate|]. intro F. discriminate (GO F).
Qed.
Variable same_device : bool.
Definition others (s' : fs) : Prop := forall q, apart s src q -> q <> D -> q <> new_of D -> look s' q = look s q.
Definition post (s' : fs) : Prop := look s' D = Some (File c (mkMeta (m_owner m) (m_mode m) stamp)) /\ look s' src = None /\ others s' /\ (same_device = false -> names s' (new_of D) = None).
Lemma move_spec (P : fs -> Prop) faults : P s ->
  (forall s1, (exists t, look s dest = Some (Link t)) -> s1 = set_name s dest None -> P s1) ->
  (forall s1 d j s', (s1 = s \/ (exists t, look s dest = Some (Link t)) /\ s1 = set_name s dest None) -> (forall q, q <> new_of D -> names s1 q <> Some j) -> wr s1 (new_of D) j d s' -> P s') ->
  (forall s', holds s' D c -> P s') ->
  exists r w, movefile me umask_mode now false same_device src dest newmtime (start s faults) = (r, w) /\ Forall P (w_seen w) /\ (forall t, r = Time t -> t = stamp /\ post (w_fs w)) /\ (r <> Stat) /\
    (faults = [] -> look s D <> Some Dir -> r = Time stamp).
Proof.
  intros P0 P1 PW PH. destruct (clear_spec dest s faults) as (s1 & l1 & f & CE & CF & CC & CN & CL).
  assert (S1 : s1 = s \/ (exists t, look s dest = Some (Link t)) /\ s1 = set_name s dest None) by (destruct CC as [[-> _]|(T & -> & _)]; [left; reflexivity|right; split; [exact T|reflexivity]]).
  assert (PL : Forall P (s :: l1)) by (constructor; [exact P0|]; destruct CC as [[_ ->]|(T & E & ->)]; constructor; [exact (P1 s1 T E)|constructor]).
  destruct (cleared s1 S1) as (i & NI & NN & SS & SP & ND & IS & NO & NE).
  unfold movefile. rewrite src_file || (change (w_fs (start s faults)) with s; rewrite src_file). cbn [w_fs start]. rewrite CE. cbn [w_fs]. rewrite (place_is s1 IS).
  assert (SD : src <> D) by exact (proj1 src_apart).
  assert (NDIR : look s D <> Some Dir -> forall k, names s1 D = Some k -> nodes s1 k <> Dir).
  { intros X k K Z. apply X. unfold look. rewrite NE in Z. destruct S1 as [->|[[t T] ->]]; [rewrite K; cbn [option_map]; rewrite Z; reflexivity|]. assert (DD : D = dest) by (unfold D, target; rewrite T; reflexivity). rewrite DD, name_own in K. discriminate K. }
  assert (OTH : forall q, apart s src q -> q <> D -> q <> new_of D -> look s1 q = look s q).
  { intros q AQ QD QN. unfold look. rewrite NE. destruct S1 as [->|[[t T] ->]]; [reflexivity|]. assert (DD : D = dest) by (unfold D, target; rewrite T; reflexivity). rewrite NO by congruence. reflexivity. }
  assert (QI : forall q, apart s src q -> q <> D -> names s1 q <> Some i).
  { intros q [AQ BQ] QD. assert (NS : names s src = Some i) by (rewrite <- NO by exact src_not_dest; exact NI). destruct S1 as [->|[[t T] ->]]; [exact (BQ i NS)|]. assert (DD : D = dest) by (unfold D, target; rewrite T; reflexivity). rewrite NO by congruence. exact (BQ i NS). }
  destruct same_device eqn:SAME.
  - unfold bb_rename.
    assert (T : triple (fun x => x = s1) (act (os_rename src D)) P (fun b x => if b then mv c s1 src D i (eq m) x else True)).
    { apply triple_act; [intros; exact I|]. intros x x' -> E. pose proof (rename_exact src D i c m s1 NI NN SD ND x' E) as M. split; [|exact M]. destruct (mv_dest c s1 src D i _ x' M) as (m' & L & _). apply PH. exists m'. exact L. }
    destruct (T (mkWorld s1 (s :: l1) f) eq_refl) as (b & w' & l & A1 & A2 & A3 & A4 & A5). cbn [w_seen w_faults] in A2, A5.
    assert (GO : faults = [] -> look s D <> Some Dir -> b = true).
    { intros FE DE. destruct (rename_goes src D i s1 NI (NDIR DE)) as [s' E]. destruct (goes_act (fun x => x = s1) (fun _ => True) (os_rename src D)) with (w := mkWorld s1 (s :: l1) f) as (w2 & E2 & _); [intros x ->; exists s'; split; [exact E|exact I]|exact (CF FE)|reflexivity|]. congruence. }
    rewrite A1. destruct b.
    + destruct (finish_spec (mv c s1 src D i) P (fun Q1 Q2 ff x x' => mv_change c s1 src D i Q1 Q2 ff x x') (fun Q1 Q2 ff x => mv_change_goes c s1 src D i Q1 Q2 ff x) (eq m) (fun x H => conj (f_equal m_owner (eq_sym H)) (f_equal m_mode (eq_sym H)))) with (w := w') as (r & w2 & l2 & B1 & B2 & B3 & B4 & B5 & B6); [|exact A4|].
      { intros Q x M. destruct (mv_dest c s1 src D i Q x M) as (m' & L & _). apply PH. exists m'. exact L. }
      exists r, w2. split; [exact B1|]. split; [rewrite B2, A2; apply Forall_app; split; [apply Forall_app; split; [exact PL|exact A3]|exact B3]|]. split; [|split; [exact B5|intros FE _; exact (B6 (A5 (CF FE)))]].
      intros t RT. destruct (B4 t RT) as [-> M]. split; [reflexivity|]. destruct (mv_dest c s1 src D i _ _ M) as (m' & L & ->). split; [exact L|]. split; [destruct M as (_ & M & _); unfold look; rewrite M; reflexivity|]. split; [|intro Z; rewrite SAME in Z; discriminate Z].
      intros q AQ QD QN. rewrite <- (OTH q AQ QD QN). eapply (mv_look c s1 src D i _ _ q); [exact (fun Z => proj1 AQ (eq_sym Z))|exact QD|exact (QI q AQ QD)|exact M].
    + exists No, w'. split; [reflexivity|]. split; [rewrite A2; apply Forall_app; split; [exact PL|exact A3]|]. split; [discriminate|]. split; [discriminate|]. intros FE DE. discriminate (GO FE DE).
  - set (j := match names s1 (new_of D) with Some j => j | None => fresh s1 end).
    pose proof (j_other D s1 SS SP) as JO. fold j in JO.
    assert (PMV : forall N' j' Q x, mv c s1 N' D j' Q x -> P x) by (intros N' j' Q x M; destruct (mv_dest c s1 N' D j' Q x M) as (m' & L & _); apply PH; exists m'; exact L).
    assert (PUN : forall Q x, un src c s1 (new_of D) D j Q x -> P x) by (intros Q x M; destruct (un_dest src c s1 (new_of D) D j Q x M) as (m' & L & _); apply PH; exists m'; exact L).
    pose proof (cross_triple me umask_mode now src D i c m s1 NI NN SS SP src_new SD P (fun d x W => PW s1 d j x S1 JO W) PMV PUN) as T.
    destruct (T (mkWorld s1 (s :: l1) f) eq_refl) as (b & w' & l & A1 & A2 & A3 & A4 & A5). cbn [w_seen w_faults] in A2, A5.
    assert (GO : faults = [] -> look s D <> Some Dir -> b = true).
    { intros FE DE. destruct (cross_goes me umask_mode now src D i c m s1 NI NN SS SP src_new SD (NDIR DE) (mkWorld s1 (s :: l1) f) (CF FE) eq_refl) as (w2 & E2 & _). congruence. }
    rewrite A1. destruct b.
    + destruct (finish_spec (un src c s1 (new_of D) D j) P (fun Q1 Q2 ff x x' => un_change src c s1 (new_of D) D j Q1 Q2 ff x x') (fun Q1 Q2 ff x => un_change_goes src c s1 (new_of D) D j Q1 Q2 ff x) (alike m) (fun x H => H)) with (w := w') as (r & w2 & l2 & B1 & B2 & B3 & B4 & B5 & B6); [exact PUN|exact A4|].
      exists r, w2. split; [exact B1|]. split; [rewrite B2, A2; apply Forall_app; split; [apply Forall_app; split; [exact PL|exact A3]|exact B3]|]. split; [|split; [exact B5|intros FE _; exact (B6 (A5 (CF FE)))]].
      intros t RT. destruct (B4 t RT) as [-> M]. split; [reflexivity|]. destruct (un_dest src c s1 (new_of D) D j _ _ M) as (m' & L & ->). split; [exact L|]. pose proof M as (_ & M1 & M2 & _). split; [unfold look; rewrite M2; reflexivity|]. split; [|intros _; exact M1].
      intros q AQ QD QN. rewrite <- (OTH q AQ QD QN). eapply (un_look src c s1 (new_of D) D j _ _ q); [exact QN|exact QD|exact (fun Z => proj1 AQ (eq_sym Z))|exact (JO q QN)|exact M].
    + exists No, w'. split; [reflexivity|]. split; [rewrite A2; apply Forall_app; split; [exact PL|exact A3]|]. split; [discriminate|]. split; [discriminate|]. intros FE DE. discriminate (GO FE DE).
Qed.
End Whole.
(** ** The way of shutil.move *)
Lemma wr_change s1 N j d f s s' : wr s1 N j d s -> change N f s = Some s' -> wr s1 N j d s'.
Proof.
  intros (A & B & C & m' & E) H. unfold change in H. rewrite B, E in H. injection H as <-. split; [exact A|]. split; [exact B|]. split.
  - intros k K. cbn. rewrite (proj2 (Nat.eqb_neq k j) K). exact (C k K).
  - exists (f m'). cbn. rewrite Nat.eqb_refl. reflexivity.
Qed.
Lemma wr_holds s1 N j d s : wr s1 N j d s -> holds s N d.
Proof. intros (_ & B & _ & m' & E). exists m'. unfold look. rewrite B. cbn. rewrite E. reflexivity. Qed.
Lemma holds_change s N d f s' : holds s N d -> change N f s = Some s' -> holds s' N d.
Proof.
  intros (m & L) H. unfold look in L. unfold change in H. destruct (names s N) as [j|] eqn:B; [|discriminate H]. cbn [option_map] in L. injection L as L. rewrite L in H. injection H as <-. exists (f m). unfold look. cbn. rewrite B. cbn. rewrite Nat.eqb_refl. reflexivity.
Qed.
Lemma holds_unlink s N d p s' : p <> N -> holds s N d -> unlink p s = Some s' -> holds s' N d.
Proof.
  intros NE (m & L) H. assert (G : s' = set_name s p None) by (unfold unlink in H; destruct (look s p) as [[| | |]|]; congruence). subst s'. exists m. unfold look. rewrite name_other by congruence. exact L.
Qed.
Section Across.
Variables me umask_mode now : nat.
Variables (src D : str) (i : nat) (c : str) (m : meta).
Variable s1 : fs.
Hypothesis src_name : names s1 src = Some i.
Hypothesis src_node : nodes s1 i = File c m.
Hypothesis is_sound : sound s1.
Hypothesis src_dest : src <> D.
Hypothesis not_same : names s1 D <> Some i.
Definition kept (s : fs) : Prop := look s src = Some (File c m) \/ holds s D c.
Lemma across_triple : triple (fun s => s = s1) (bb_rename me umask_mode now true src D) kept (fun b s => if b then holds s D c else True).
Proof.
  set (j := match names s1 D with Some j => j | None => fresh s1 end).
  assert (IJ : i <> j) by (unfold j; destruct (names s1 D) eqn:E; [congruence|intro Z; apply is_sound in src_name; lia]).
  assert (KW : forall d s, wr s1 D j d s -> kept s) by (intros d s W; left; exact (wr_src src i c m s1 D j d s src_dest src_name src_node IJ W)).
  intros w H. assert (LS : look (w_fs w) src = Some (File c m)) by (rewrite H; unfold look; rewrite src_name; cbn; rewrite src_node; reflexivity). unfold bb_rename. rewrite LS.
  revert w H LS. assert (G : triple (fun s => s = s1) (fun w => match shutil_copyfile me umask_mode now src D w with (true, w) => (fun w => match utime D (m_time m) w with (true, w) => (fun w => match chmod D (m_mode m) w with (true, w) => act (unlink src) w | (false, w) => pair false w end) w | (false, w) => pair false w end) w | (false, w) => pair false w end) kept (fun b s => if b then holds s D c else True)); [|intros w H _; exact (G w H)].
  eapply (triple_seq _ kept _ _ (fun b s => if b then wr s1 D j c s else True)); [| |intros; exact I].
  - intros w H. unfold shutil_copyfile. assert (LS : look (w_fs w) src = Some (File c m)) by (rewrite H; unfold look; rewrite src_name; cbn; rewrite src_node; reflexivity). rewrite LS.
    assert (NS : (match names (w_fs w) src, names (w_fs w) D with Some a, Some b => Nat.eqb a b | _, _ => false end) = false).
    { rewrite H, src_name. revert IJ. unfold j. case (names s1 D); [intros k IJ; apply Nat.eqb_neq; exact IJ|reflexivity]. }
    rewrite NS. assert (T : triple (fun s => s = s1) (act (create me umask_mode now D)) kept (fun b s => if b then wr s1 D j [] s else True)).
    { apply triple_act; [intros s _; exact I|]. intros s s' -> E. pose proof (wr_create me umask_mode now s1 D s' E) as W. split; [exact (KW _ _ W)|exact W]. }
    refine (triple_seq _ kept _ _ _ (fun b s => if b then wr s1 D j c s else True) T _ _ w H); [|intros s _; exact I].
    intros w1 W1. destruct (triple_write kept D (wr s1 D j) (fun d x s s' A B => conj (KW _ _ (wr_append s1 D j d x s s' A B)) (wr_append s1 D j d x s s' A B)) c [] w1 W1) as (b & w' & l & A1 & A2 & A3 & A4 & A5). exists b, w', l. split; [exact A1|]. split; [exact A2|]. split; [exact A3|]. split; [destruct b; [exact A4|exact I]|exact A5].
  - eapply (triple_seq _ kept _ _ (fun b s => if b then wr s1 D j c s else True)); [| |intros; exact I].
    + apply triple_act; [intros; exact I|]. intros s s' W E. pose proof (wr_change s1 D j c _ s s' W E) as X. split; [exact (KW _ _ X)|exact X].
    + eapply (triple_seq _ kept _ _ (fun b s => if b then wr s1 D j c s else True)); [| |intros; exact I].
      * apply triple_act; [intros; exact I|]. intros s s' W E. pose proof (wr_change s1 D j c _ s s' W E) as X. split; [exact (KW _ _ X)|exact X].
      * apply triple_act; [intros; exact I|]. intros s s' W E. pose proof (holds_unlink s D c src s' src_dest (wr_holds _ _ _ _ _ W) E) as X. split; [right; exact X|exact X].
Qed.
Lemma across_finish newmtime w : holds (w_fs w) D c -> exists r w' l, finish D newmtime m w = (r, w') /\ w_seen w' = w_seen w ++ l /\ Forall kept l.
Proof.
  intro H. unfold finish, utime. set (t := match newmtime with 0 => m_time m | _ => newmtime end).
  assert (T : triple (fun s => holds s D c) (act (change D (fun y => mkMeta (m_owner y) (m_mode y) t))) kept (fun _ _ => True)).
  { apply triple_act; [intros; exact I|]. intros s s' A E. split; [right; exact (holds_change s D c _ s' A E)|exact I]. }
  destruct (T w H) as (b & w' & l & A1 & A2 & A3 & _). rewrite A1. destruct b; [exists (Time t), w', l|exists Raised, w', l]; (split; [reflexivity|split; assumption]).
Qed.
End Across.
Lemma across_move me umask_mode now src dest newmtime c m s faults :
  sound s -> look s src = Some (File c m) -> apart s src (target s src dest) -> spare s (new_of (target s src dest)) ->
  forall r w, movefile me umask_mode now true true src dest newmtime (start s faults) = (r, w) -> Forall (kept src (target s src dest) c m) (w_seen w).
Proof.
  intros SO SF AP SP r w E. set (D := target s src dest) in *. destruct (clear_spec dest s faults) as (s1 & l1 & f & CE & CF & CC & CN & CL).
  assert (S1 : s1 = s \/ (exists t, look s dest = Some (Link t)) /\ s1 = set_name s dest None) by (destruct CC as [[-> _]|(T & -> & _)]; [left; reflexivity|right; split; [exact T|reflexivity]]).
  destruct (cleared src dest c m s SO SF AP SP s1 S1) as (i & NI & NN & SS & _ & ND & IS & NO & NE).
  assert (L1 : look s1 src = Some (File c m)) by (unfold look; rewrite NI; cbn; rewrite NN; reflexivity).
  assert (PL : Forall (kept src D c m) (s :: l1)) by (constructor; [left; exact SF|]; destruct CC as [[_ ->]|(T & E1 & ->)]; constructor; [left; exact L1|constructor]).
  unfold movefile in E. change (w_fs (start s faults)) with s in E. rewrite SF in E. rewrite CE in E. cbn [w_fs] in E. rewrite (place_is src dest s s1 IS) in E. fold D in E.
  destruct (across_triple me umask_mode now src D i c m s1 NI NN SS (proj1 AP) ND (mkWorld s1 (s :: l1) f) eq_refl) as (b & w' & l & A1 & A2 & A3 & A4 & A5). cbn [w_seen] in A2. rewrite A1 in E. destruct b.
  - destruct (across_finish src D c m newmtime w' A4) as (r' & w2 & l2 & B1 & B2 & B3). rewrite B1 in E. injection E as <- <-. rewrite B2, A2. apply Forall_app. split; [apply Forall_app; split; [exact PL|exact A3]|exact B3].
  - injection E as <- <-. rewrite A2. apply Forall_app. split; [exact PL|exact A3].
Qed.
(** ** Copies *)
Section Copies.
Variables me umask_mode now : nat.
Variables (src dest : str) (newmtime : nat) (c : str) (m : meta).
Variable s : fs.
Hypothesis is_sound : sound s.
Hypothesis src_file : look s src = Some (File c m).
Hypothesis src_new : src <> new_of dest.
Hypothesis is_spare : spare s (new_of dest).
Let S1 (s1 : fs) : Prop := s1 = s \/ (exists t, look s dest = Some (Link t)) /\ s1 = set_name s dest None.
Lemma cleared_copy s1 : S1 s1 -> exists i, names s1 src = Some i /\ nodes s1 i = File c m /\ sound s1 /\ spare s1 (new_of dest) /\ (forall q, q <> dest -> names s1 q = names s q) /\ nodes s1 = nodes s.
Proof.
  pose proof src_file as SF. unfold look in SF. destruct (names s src) as [i|] eqn:NI; [|discriminate SF]. cbn [option_map] in SF. injection SF as SF.
  intros [->|[[t L] ->]]; exists i.
  - repeat (split; [assumption|]). split; reflexivity.
  - assert (SND : src <> dest) by (intro Z; rewrite Z in src_file; congruence). split; [rewrite name_other by exact SND; exact NI|]. split; [exact SF|]. split; [|split; [|split; [intros q Q; apply name_other; exact Q|reflexivity]]].
    + intros p k. cbn. destruct (seqb p dest); [discriminate|]. apply is_sound.
    + unfold spare in *. rewrite name_other by (intro Z; exact (new_ne dest (eq_sym Z))). destruct (names s (new_of dest)) as [k|]; [|exact I]. destruct is_spare as [A B]. split; [exact A|]. intros q. cbn. destruct (seqb q dest); [discriminate|]. apply B.
Qed.
Definition copied (s' : fs) : Prop := look s' dest = Some (File c (mkMeta (m_owner m) (m_mode m) (stamp newmtime m))) /\ names s' (new_of dest) = None /\
  (forall q, q <> dest -> q <> new_of dest -> look s' q = look s q) /\ (forall q, names s' q = names s' dest -> q = dest).
Lemma copy_spec (P : fs -> Prop) faults : P s -> (forall s1, S1 s1 -> P s1) ->
  (forall s1 d j s', S1 s1 -> (forall q, q <> new_of dest -> names s1 q <> Some j) -> wr s1 (new_of dest) j d s' -> P s') ->
  (forall s1 j Q s', S1 s1 -> (forall q, q <> new_of dest -> names s1 q <> Some j) -> mv c s1 (new_of dest) dest j Q s' -> P s') ->
  exists r w, copyfile me umask_mode now true src dest newmtime (start s faults) = (r, w) /\ Forall P (w_seen w) /\ (forall t, r = Time t -> t = stamp newmtime m /\ copied (w_fs w)) /\ r <> Stat /\
    (faults = [] -> look s dest <> Some Dir -> r = Time (stamp newmtime m)).
Proof.
  intros P0 P1 PW PM. destruct (clear_spec dest s faults) as (s1 & l1 & f & CE & CF & CC & CN & CL).
  assert (HS : S1 s1) by (destruct CC as [[-> _]|(T & -> & _)]; [left; reflexivity|right; split; [exact T|reflexivity]]).
  assert (PL : Forall P (s :: l1)) by (constructor; [exact P0|]; destruct CC as [[_ ->]|(T & E & ->)]; constructor; [exact (P1 s1 HS)|constructor]).
  destruct (cleared_copy s1 HS) as (i & NI & NN & SS & SP & NO & NE).
  set (N := new_of dest) in *. set (j := match names s1 N with Some j => j | None => fresh s1 end).
  pose proof (j_other dest s1 SS SP) as JO. fold N in JO. fold j in JO.
  assert (NDIR : look s dest <> Some Dir -> forall k, names s1 dest = Some k -> nodes s1 k <> Dir).
  { intros X k K Z. apply X. unfold look. rewrite NE in Z. destruct HS as [->|[[t T] ->]]; [rewrite K; cbn [option_map]; rewrite Z; reflexivity|]. rewrite name_own in K. discriminate K. }
  assert (ND : N <> dest) by (intro Z; exact (new_ne dest (eq_sym Z))).
  unfold copyfile. change (w_fs (start s faults)) with s. rewrite src_file. rewrite CE. fold N.
  assert (PMV : forall Q x, mv c s1 N dest j Q x -> P x) by (intros Q x M; exact (PM s1 j Q x HS JO M)).
  assert (T : triple (fun x => x = s1) (fun w => match shutil_copyfile me umask_mode now src N w with (true, w) => act (os_rename N dest) w | (false, w) => pair false w end) P (fun b x => if b then mv c s1 N dest j (fun _ => True) x else True)).
  { eapply triple_seq; [exact (copy_triple me umask_mode now src dest i c m s1 NI NN SS SP src_new P (fun d x W => PW s1 d j x HS JO W))| |intros; exact I].
    apply triple_act; [intros; exact I|]. intros x x' W E. pose proof (wr_rename c s1 N dest j x x' ND (JO dest (fun Z => ND (eq_sym Z))) W E) as M. split; [exact (PMV _ _ M)|exact M]. }
  destruct (T (mkWorld s1 (s :: l1) f) eq_refl) as (b & w1 & la & A1 & A2 & A3 & A4 & A5). cbn [w_seen w_faults] in A2, A5.
  assert (GO : faults = [] -> look s dest <> Some Dir -> b = true).
  { intros FE DE. destruct (goes_seq _ _ _ _ _ (pair false) (copy_goes me umask_mode now src dest i c m s1 NI NN SS SP src_new) (over_goes dest c s1 SS SP (NDIR DE)) (mkWorld s1 (s :: l1) f) (CF FE) eq_refl) as (w2 & E2 & _). fold N in E2. congruence. }
  rewrite A1. destruct b.
  - assert (T2 : triple (mv c s1 N dest j (fun _ => True)) (chown dest (m_owner m)) P (fun b x => if b then mv c s1 N dest j (owned m) x else True)).
    { apply triple_act; [intros; exact I|]. intros x x' M E. assert (M' : mv c s1 N dest j (owned m) x') by (refine (mv_change c s1 N dest j _ (owned m) _ x x' _ M E); intros y _; reflexivity). split; [exact (PMV _ _ M')|exact M']. }
    assert (T3 : triple (mv c s1 N dest j (owned m)) (chmod dest (m_mode m)) P (fun b x => if b then mv c s1 N dest j (alike m) x else True)).
    { apply triple_act; [intros; exact I|]. intros x x' M E. assert (M' : mv c s1 N dest j (alike m) x') by (refine (mv_change c s1 N dest j (owned m) (alike m) _ x x' _ M E); intros y Y; split; [exact Y|reflexivity]). split; [exact (PMV _ _ M')|exact M']. }
    assert (G2 : goes (mv c s1 N dest j (fun _ => True)) (chown dest (m_owner m)) (mv c s1 N dest j (owned m))) by (apply goes_act; intros x M; refine (mv_change_goes c s1 N dest j _ (owned m) _ x _ M); intros y _; reflexivity).
    assert (G3 : goes (mv c s1 N dest j (owned m)) (chmod dest (m_mode m)) (mv c s1 N dest j (alike m))) by (apply goes_act; intros x M; refine (mv_change_goes c s1 N dest j (owned m) (alike m) _ x _ M); intros y Y; split; [exact Y|reflexivity]).
    destruct (T2 w1 A4) as (b2 & w2 & lb & B1 & B2 & B3 & B4 & B5). rewrite B1. destruct b2.
    + destruct (T3 w2 B4) as (b3 & w3 & lc & C1 & C2 & C3 & C4 & C5). rewrite C1. destruct b3.
      * assert (T4 : triple (mv c s1 N dest j (alike m)) (utime dest (stamp newmtime m)) P (fun b x => if b then mv c s1 N dest j (alike_at m (stamp newmtime m)) x else True)).
        { apply triple_act; [intros; exact I|]. intros x x' M E. assert (M' : mv c s1 N dest j (alike_at m (stamp newmtime m)) x') by (refine (mv_change c s1 N dest j (alike m) (alike_at m (stamp newmtime m)) _ x x' _ M E); intros y [Y Z]; unfold alike_at; rewrite Y, Z; reflexivity). split; [exact (PMV _ _ M')|exact M']. }
        assert (G4 : goes (mv c s1 N dest j (alike m)) (utime dest (stamp newmtime m)) (fun _ => True)).
        { apply goes_act. intros x M. destruct (mv_change_goes c s1 N dest j (alike m) (fun _ => True) (fun y => mkMeta (m_owner y) (m_mode y) (stamp newmtime m)) x (fun _ _ => I) M) as (x' & E & _). exists x'. split; [exact E|exact I]. }
        unfold finish. fold (stamp newmtime m). destruct (T4 w3 C4) as (b4 & w4 & ld & D1 & D2 & D3 & D4 & D5). rewrite D1.
        assert (SEEN : Forall P (w_seen w4)) by (rewrite D2, C2, B2, A2; repeat (apply Forall_app; split; [|assumption]); exact PL).
        destruct b4.
        -- exists (Time (stamp newmtime m)), w4. split; [reflexivity|]. split; [exact SEEN|]. split; [|split; [discriminate|reflexivity]].
           intros t E. injection E as <-. split; [reflexivity|]. destruct (mv_dest c s1 N dest j _ _ D4) as (m' & L & ->). split; [exact L|]. pose proof D4 as (M1 & M2 & M3 & _). split; [exact M2|]. split.
           ++ intros q QD QN. rewrite (mv_look c s1 N dest j _ _ q QN QD (JO q QN) D4). unfold look. rewrite NE, NO by exact QD. reflexivity.
           ++ intros q E. rewrite M3 in E. destruct (str_eq_dec q dest) as [|QD]; [assumption|]. exfalso. destruct (str_eq_dec q N) as [->|QN]; [congruence|]. rewrite (M1 q QN QD) in E. exact (JO q QN E).
        -- exists Raised, w4. split; [reflexivity|]. split; [exact SEEN|]. split; [discriminate|]. split; [discriminate|]. intros FE _. destruct (G4 w3 (C5 (B5 (A5 (CF FE)))) C4) as (w5 & E5 & _). congruence.
      * exists No, w3. split; [reflexivity|]. split; [rewrite C2, B2, A2; repeat (apply Forall_app; split; [|assumption]); exact PL|]. split; [discriminate|]. split; [discriminate|]. intros FE _. destruct (G3 w2 (B5 (A5 (CF FE))) B4) as (w5 & E5 & _). congruence.
    + exists No, w2. split; [reflexivity|]. split; [rewrite B2, A2; repeat (apply Forall_app; split; [|assumption]); exact PL|]. split; [discriminate|]. split; [discriminate|]. intros FE _. destruct (G2 w1 (A5 (CF FE)) A4) as (w5 & E5 & _). congruence.
  - exists No, w1. split; [reflexivity|]. split; [rewrite A2; apply Forall_app; split; [exact PL|exact A3]|]. split; [discriminate|]. split; [discriminate|]. intros FE DE. discriminate (GO FE DE).
Qed.
End Copies.

(** ** A source that cannot be read *)
Section Unreadable.
Variables me umask_mode now : nat.
Variables (src dest : str) (c : str) (i : nat).
Hypothesis src_new : src <> new_of dest.
Hypothesis src_dest : src <> dest.
Definition inv (mm : meta) (s : fs) : Prop := names s src = Some i /\ nodes s i = File c mm /\ i < fresh s /\ names s (new_of dest) <> Some i.
Lemma inv_change mm f : triple (inv mm) (act (change src f)) (fun _ => True) (fun b => if b then inv (f mm) else inv mm).
Proof.
  apply triple_act; [intros s H; exact H|]. intros s s' (A & B & C & D) E. split; [exact I|]. unfold change in E. rewrite A, B in E. injection E as <-. split; [exact A|]. split; [cbn; rewrite Nat.eqb_refl; reflexivity|]. split; [exact C|exact D].
Qed.
Lemma inv_node mm s k n : k <> i -> inv mm s -> inv mm (set_node s k n).
Proof. intros K (A & B & C & D). split; [exact A|]. split; [cbn; rewrite (proj2 (Nat.eqb_neq i k)) by congruence; exact B|]. split; [exact C|exact D]. Qed.
Lemma inv_copy mm : triple (inv mm) (shutil_copyfile me umask_mode now src (new_of dest)) (fun _ => True) (fun _ => inv mm).
Proof.
  intros w H. pose proof H as (A & B & C & D). unfold shutil_copyfile. unfold look. rewrite A. cbn [option_map]. rewrite B. destruct (match names (w_fs w) (new_of dest) with Some j => Nat.eqb i j | None => false end) eqn:Q.
  - exists false, w, []. split; [reflexivity|]. split; [symmetry; apply app_nil_r|]. split; [constructor|]. split; [exact H|exact (fun Z => Z)].
  - clear Q. assert (T1 : triple (inv mm) (act (create me umask_mode now (new_of dest))) (fun _ => True) (fun _ => inv mm)).
    { apply triple_act; [intros s X; exact X|]. intros s s' X E. split; [exact I|]. unfold create in E. destruct (names s (new_of dest)) as [k|] eqn:K.
      - destruct (nodes s k); try discriminate E. injection E as <-. apply inv_node; [|exact X]. destruct X as (_ & _ & _ & Z). congruence.
      - injection E as <-. destruct X as (A' & B' & C' & D'). unfold inv. cbn [names nodes fresh]. rewrite (proj2 (seqb_neq src (new_of dest)) src_new), seqb_refl. split; [exact A'|]. split; [rewrite (proj2 (Nat.eqb_neq i (fresh s))) by lia; exact B'|]. split; [lia|]. intro Z. injection Z as Z. lia. }
    assert (T2 : forall data d, triple (inv mm) (write (new_of dest) data) (fun _ => True) (fun b s => if b then (fun _ : str => inv mm) (d ++ data) s else exists d, (fun _ : str => inv mm) d s)).
    { intros data d. apply (fun A => triple_write (fun _ => True) (new_of dest) (fun _ => inv mm) A data d). intros _ x s s' X E. split; [exact I|]. unfold append in E. destruct (names s (new_of dest)) as [k|] eqn:K; [|discriminate E]. destruct (nodes s k); try discriminate E. injection E as <-. apply inv_node; [|exact X]. destruct X as (_ & _ & _ & Z). congruence. }
    apply (triple_seq (inv mm) (fun _ => True) _ _ (fun _ => inv mm) (fun _ => inv mm)); [exact T1| |auto|exact H].
    intros w1 H1. destruct (T2 c [] w1 H1) as (b & w' & l & X1 & X2 & X3 & X4 & X5). exists b, w', l. repeat (split; [assumption|]). split; [|exact X5]. destruct b; [exact X4|destruct X4 as [_ X4]; exact X4].
Qed.
Lemma inv_over mm : triple (inv mm) (act (os_rename (new_of dest) dest)) (fun _ => True) (fun b s => inv mm s /\ (b = true -> names s dest <> Some i)).
Proof.
  apply triple_act; [intros s H; split; [exact H|discriminate]|]. intros s s' X E. split; [exact I|]. pose proof X as (A & B & C & D). unfold os_rename in E. destruct (names s (new_of dest)) as [k|] eqn:K; [|discriminate E].
  assert (KI : k <> i) by congruence. assert (G : inv mm (set_name (set_name s (new_of dest) None) dest (Some k)) /\ (true = true -> names (set_name (set_name s (new_of dest) None) dest (Some k)) dest <> Some i)).
  { split; [|intros _; rewrite name_own; congruence]. split; [rewrite !name_other by congruence; exact A|]. split; [exact B|]. split; [exact C|]. rewrite name_other by (intro Z; exact (new_ne dest (eq_sym Z))). rewrite name_own. discriminate. }
  destruct (look s dest) as [n|] eqn:L; [destruct n; try discriminate E|]; (destruct (names s dest) as [j|] eqn:J; [destruct (Nat.eqb k j) eqn:KJ|]; injection E as <-; [apply Nat.eqb_eq in KJ; subst j; split; [exact X|intros _; rewrite J; congruence]|exact G|exact G]) || (injection E as <-; exact G).
Qed.
Lemma inv_dest mm f : triple (fun s => inv mm s /\ names s dest <> Some i) (act (change dest f)) (fun _ => True) (fun _ s => inv mm s /\ names s dest <> Some i).
Proof.
  apply triple_act; [intros s H; exact H|]. intros s s' [X Y] E. split; [exact I|]. unfold change in E. destruct (names s dest) as [k|] eqn:K; [|discriminate E]. destruct (nodes s k); try discriminate E. injection E as <-. split; [apply inv_node; [congruence|exact X]|]. cbn. rewrite K. exact Y.
Qed.
End Unreadable.
