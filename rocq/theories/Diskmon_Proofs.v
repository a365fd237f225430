(** Lemmas about the monitor of disk space. *)
From Coq Require Import Ascii String List Bool ZArith NArith Lia.
From Verif Require Import Str_Model Str_Proofs Data_Model Parse_Proofs Diskmon_Model Diskmon_Spec.
Import ListNotations.
Open Scope list_scope.

Lemma below_iff m now : (forall n, m = Some n -> (0 < n)%Z) -> (below m now = true <-> exists n, m = Some n /\ (now < n)%Z).
Proof.
  intro P. unfold below. destruct m as [n|]; [|split; [discriminate|intros (n & H & _); discriminate]]. specialize (P n eq_refl). rewrite andb_true_iff, negb_true_iff, Z.eqb_neq, Z.ltb_lt. split.
  - intros [_ H]. exists n. auto.
  - intros (k & E & H). injection E as <-. split; [lia|exact H].
Qed.
(** The state belongs to the entry *)
Definition belongs (b : bool) (e : entry) (m : monitor) : Prop :=
  m_action m = e_action e /\ m_space m = e_space e /\ (m_inode m = e_inode e \/ (b = false /\ m_inode m = None)).
Definition stops (a : action) : bool := match a with Warn => false | _ => true end.
Definition now_of (a : action) : bool := match a with Halt => true | _ => false end.
Definition lowb (b : bool) (e : entry) (s : sample) : bool := below (e_space e) (free_space s) || (b && below (e_inode e) (free_inode s)).
Lemma lowb_iff b e s : sensible e -> (lowb b e s = true <-> low b e s).
Proof. intros [A B]. unfold lowb, low. rewrite orb_true_iff, andb_true_iff, (below_iff _ _ A), (below_iff _ _ B). reflexivity. Qed.
Definition fin (es : list event) : list event := filter is_finish es.
Lemma act_spec b e m : belongs b e m ->
  belongs b e (snd (act m)) /\ fin (fst (act m)) = (if stops (e_action e) && negb (m_checked m) then [Finish (now_of (e_action e))] else []) /\
  m_checked (snd (act m)) = m_checked m || stops (e_action e).
Proof.
  intros (A & B & C). unfold act, belongs, fin. rewrite A. destruct (e_action e) eqn:EA, (m_checked m) eqn:K; cbn; rewrite ?K, ?A, ?EA; (split; [split; [reflexivity|split; [exact B|exact C]]|split; reflexivity]).
Qed.
Lemma space_spec si b e m s : belongs b e m ->
  let r := check_space si s m in let l := below (e_space e) (free_space s) in
  belongs b e (snd r) /\ fin (fst r) = (if l && stops (e_action e) && negb (m_checked m) then [Finish (now_of (e_action e))] else []) /\
  m_checked (snd r) = m_checked m || (l && stops (e_action e)).
Proof.
  intros G. cbv zeta. unfold check_space. destruct G as (A & B & C). rewrite B. destruct (below (e_space e) (free_space s)); [|cbn; rewrite orb_false_r; repeat split; auto].
  set (w := warns _ _ _ _). set (m1 := if w then _ else m).
  assert (G1 : belongs b e m1) by (unfold m1, belongs; destruct w; cbn; auto). assert (K : m_checked m1 = m_checked m) by (unfold m1; destruct w; reflexivity).
  destruct (act_spec b e m1 G1) as (X & Y & Z). destruct (act m1) as [es m2]. cbn [fst snd] in *. unfold fin in *. rewrite filter_app, Y, Z, K. cbn [andb]. destruct w; auto.
Qed.
Lemma inode_spec ii b e m s : belongs b e m -> (counts s <-> b = true) ->
  let r := check_inode ii s m in let l := b && below (e_inode e) (free_inode s) in
  belongs b e (snd r) /\ fin (fst r) = (if l && stops (e_action e) && negb (m_checked m) then [Finish (now_of (e_action e))] else []) /\
  m_checked (snd r) = m_checked m || (l && stops (e_action e)).
Proof.
  intros G CB. cbv zeta. unfold check_inode. destruct G as (A & B & C).
  assert (D : Z.eqb (files s) 0 || Z.eqb (free_inode s) (-1) = negb b).
  { unfold counts in CB. destruct (Z.eqb_spec (files s) 0), (Z.eqb_spec (free_inode s) (-1)), b; cbn; try reflexivity; exfalso; intuition. }
  rewrite D. destruct C as [C|[-> C]]; rewrite C.
  - destruct (below (e_inode e) (free_inode s)); [|rewrite andb_false_r; cbn; rewrite orb_false_r; repeat split; auto]. destruct b; cbn [negb andb].
    + set (w := warns _ _ _ _). set (m1 := if w then _ else m).
      assert (G1 : belongs true e m1) by (unfold m1, belongs; destruct w; cbn; auto). assert (K : m_checked m1 = m_checked m) by (unfold m1; destruct w; reflexivity).
      destruct (act_spec true e m1 G1) as (X & Y & Z). destruct (act m1) as [es m2]. cbn [fst snd] in *. unfold fin in *. rewrite filter_app, Y, Z, K. destruct w; auto.
    + cbn. rewrite orb_false_r. repeat split; auto.
  - cbn. rewrite orb_false_r. repeat split; auto.
Qed.
Lemma check_spec si ii b e m s : belongs b e m -> (counts s <-> b = true) ->
  let r := check si ii m s in
  belongs b e (snd r) /\ fin (fst r) = (if lowb b e s && stops (e_action e) && negb (m_checked m) then [Finish (now_of (e_action e))] else []) /\
  m_checked (snd r) = m_checked m || (lowb b e s && stops (e_action e)).
Proof.
  intros G CB. cbv zeta. unfold check. destruct (space_spec si b e m s G) as (G1 & F1 & K1). destruct (check_space si s m) as [e1 m1]. cbn [fst snd] in *.
  destruct (inode_spec ii b e m1 s G1 CB) as (G2 & F2 & K2). destruct (check_inode ii s m1) as [e2 m2]. cbn [fst snd] in *. unfold fin in *. split; [exact G2|]. rewrite filter_app, F1, F2, K2, K1. unfold lowb.
  destruct (below (e_space e) _), (b && below (e_inode e) _), (stops (e_action e)), (m_checked m); auto.
Qed.
Lemma checks_app si ii m a c : exists m', checks si ii m (a ++ c) = checks si ii m a ++ checks si ii m' c /\ m' = fold_left (fun m s => snd (check si ii m s)) a m.
Proof.
  revert m. induction a as [|s a IH]; intro m; cbn [app checks fold_left]; [exists m; auto|]. destruct (check si ii m s) as [es m1] eqn:E. cbn [snd]. destruct (IH m1) as (m' & -> & M). exists m'. split; [reflexivity|]. rewrite M. reflexivity.
Qed.
Lemma checks_length si ii l : forall m, length (checks si ii m l) = length l.
Proof. induction l as [|s l IH]; intro m; cbn [checks]; [reflexivity|]. destruct (check si ii m s). cbn. now rewrite IH. Qed.
Lemma fold_belongs si ii b e l : forall m, belongs b e m -> steady b l -> belongs b e (fold_left (fun m s => snd (check si ii m s)) l m).
Proof. induction l as [|s l IH]; intros m G S; cbn [fold_left]; [exact G|]. apply IH; [apply (check_spec si ii b e m s G); apply S; now left|]. intros x X. apply S. now right. Qed.
(** Once checked, nothing more is finished *)
Lemma checks_done si ii b e l : forall m, belongs b e m -> steady b l -> m_checked m = true -> fin (concat (checks si ii m l)) = [].
Proof.
  induction l as [|s l IH]; intros m G S K; cbn [checks]; [reflexivity|]. destruct (check_spec si ii b e m s G) as (G1 & F & K1); [apply S; now left|]. destruct (check si ii m s) as [es m1]. cbn [fst snd concat] in *. unfold fin in *. rewrite filter_app, F, K, andb_false_r. cbn [app].
  apply IH; [exact G1|intros x X; apply S; now right|rewrite K1, K; reflexivity].
Qed.
(** Nothing low: nothing happens to the finishing, and the state of it stays *)
Lemma checks_high si ii b e l : forall m, belongs b e m -> steady b l -> (forall s, In s l -> lowb b e s = false) ->
  fin (concat (checks si ii m l)) = [] /\ m_checked (fold_left (fun m s => snd (check si ii m s)) l m) = m_checked m.
Proof.
  induction l as [|s l IH]; intros m G S L; cbn [checks fold_left]; [auto|]. destruct (check_spec si ii b e m s G) as (G1 & F & K1); [apply S; now left|]. destruct (check si ii m s) as [es m1]. cbn [fst snd concat] in *.
  rewrite (L s (or_introl eq_refl)) in F, K1. cbn [andb] in F, K1. rewrite orb_false_r in K1. destruct (IH m1 G1) as [A B]; [intros x X; apply S; now right|intros x X; apply L; now right|]. unfold fin in *. rewrite filter_app, F, A, B. auto.
Qed.
Lemma checks_warn si ii b e l : forall m, belongs b e m -> steady b l -> e_action e = Warn -> fin (concat (checks si ii m l)) = [].
Proof.
  induction l as [|s l IH]; intros m G S W; cbn [checks]; [reflexivity|]. destruct (check_spec si ii b e m s G) as (G1 & F & K1); [apply S; now left|]. destruct (check si ii m s) as [es m1]. cbn [fst snd concat] in *. unfold fin in *. rewrite filter_app, F, W, andb_false_r. cbn [andb app].
  apply IH; [exact G1|intros x X; apply S; now right|exact W].
Qed.
(** Nothing low: no event at all, and no change but for inodes that are not counted *)
Lemma check_quiet si ii b e m s : belongs b e m -> (counts s <-> b = true) -> lowb b e s = false ->
  fst (check si ii m s) = [] /\ m_pre_s (snd (check si ii m s)) = m_pre_s m /\ m_pre_i (snd (check si ii m s)) = m_pre_i m.
Proof.
  intros (A & B & C) CB L. unfold lowb in L. apply orb_false_iff in L. destruct L as [L1 L2]. unfold check, check_space. rewrite B, L1. unfold check_inode.
  assert (D : Z.eqb (files s) 0 || Z.eqb (free_inode s) (-1) = negb b).
  { unfold counts in CB. destruct (Z.eqb_spec (files s) 0), (Z.eqb_spec (free_inode s) (-1)), b; cbn; try reflexivity; exfalso; intuition. }
  rewrite D. destruct C as [C|[-> C]]; rewrite C; [|cbn; auto]. destruct (below (e_inode e) (free_inode s)); [|cbn; auto]. destruct b; [discriminate|]. cbn. auto.
Qed.
Lemma checks_quiet si ii b e l : forall m, belongs b e m -> steady b l -> (forall s, In s l -> lowb b e s = false) ->
  concat (checks si ii m l) = [] /\ m_pre_s (fold_left (fun m s => snd (check si ii m s)) l m) = m_pre_s m /\ m_pre_i (fold_left (fun m s => snd (check si ii m s)) l m) = m_pre_i m.
Proof.
  induction l as [|s l IH]; intros m G S L; cbn [checks fold_left]; [auto|]. assert (CB : counts s <-> b = true) by (apply S; now left).
  destruct (check_quiet si ii b e m s G CB (L s (or_introl eq_refl))) as (Q & P1 & P2). destruct (check_spec si ii b e m s G CB) as (G1 & _). destruct (check si ii m s) as [es m1]. cbn [fst snd concat] in *. subst es.
  destruct (IH m1 G1) as (A & B & C); [intros x X; apply S; now right|intros x X; apply L; now right|]. rewrite A, B, C. auto.
Qed.
(** ** Limits *)
Lemma convert_written n u k : (0 < n)%N -> unit_size u k -> convert (dec n ++ u) = Some (Z.of_N n * k)%Z.
Proof.
  intros P U. destruct (dec_spec n) as (NE & DS & V & NZ). unfold convert.
  assert (E : span is_digit (dec n ++ u) = (dec n, u)).
  { apply span_app; [exact DS|destruct U as [[-> _]|[[[->| ->] _]|[[[->| ->] _]|[[->| ->] _]]]]; first [exact I|reflexivity]]. }
  rewrite E. destruct (dec n) as [|d ds] eqn:D; [contradiction|]. assert (Z0 : aeqb d "0"%char = false).
  { destruct (aeqb d "0"%char) eqn:Q; [|reflexivity]. apply aeqb_eq in Q. subst d. destruct ds as [|d2 ds]; [cbn in V; lia|]. exfalso. apply (NZ _ _ eq_refl); [discriminate|reflexivity]. }
  rewrite Z0, V. destruct U as [[-> ->]|[[[->| ->] ->]|[[[->| ->] ->]|[[->| ->] ->]]]]; cbn -[Z.mul Z.pow Z.of_N]; f_equal; lia.
Qed.
Lemma dec_val_pos ds : forall a, (0 < a)%N -> (0 < fold_left (fun a c => (a * 10 + digit_val c)%N) ds a)%N.
Proof. induction ds as [|d ds IH]; intros a A; cbn [fold_left]; [exact A|]. apply IH. lia. Qed.
Lemma convert_pos s n : convert s = Some n -> (0 < n)%Z.
Proof.
  unfold convert. pose proof (span_spec is_digit s) as (_ & F & _). destruct (span is_digit s) as [ds u]. cbn [fst] in F. destruct ds as [|d ds]; [discriminate|]. destruct (aeqb d "0"%char) eqn:Z0; [discriminate|].
  assert (P : (0 < Z.of_N (dec_val (d :: ds)))%Z).
  { assert (0 < dec_val (d :: ds))%N; [|lia]. unfold dec_val. cbn [fold_left]. apply dec_val_pos. inversion F as [|? ? DD _]; subst. unfold is_digit in DD. apply andb_true_iff in DD. destruct DD as [D1 _]. apply N.leb_le in D1. unfold digit_val.
    assert (N_of_ascii d <> 48%N); [|lia]. intro Q. assert (d = "0"%char); [|subst; discriminate]. rewrite <- (ascii_N_embedding d), Q. reflexivity. }
  set (v := Z.of_N _) in *. clearbody v. intro H. destruct u as [|u [|]]; [injection H as <-; exact P| |discriminate]. repeat (destruct (_ || _); [injection H as <-; lia|]). discriminate.
Qed.
Lemma limit_pos s v n : limit s = Some v -> v = Some n -> (0 < n)%Z.
Proof. unfold limit. destruct s as [|c s]; [congruence|]. destruct (convert (c :: s)) eqn:E; [|discriminate]. intros H ->. injection H as ->. exact (convert_pos _ _ E). Qed.
Lemma limit_written t v : written t v -> limit t = Some v.
Proof.
  intros [[-> ->]|(n & u & k & P & -> & U & ->)]; [reflexivity|]. unfold limit. rewrite (convert_written n u k P U). destruct (dec_spec n) as (NE & _). destruct (dec n); [contradiction|reflexivity].
Qed.
Lemma written_nocomma t v : written t v -> ~ In comma t.
Proof.
  intros [[-> _]|(n & u & k & P & -> & U & _)]; [intros []|]. intro I. apply in_app_or in I. destruct I as [I|I].
  - destruct (dec_spec n) as (_ & D & _). rewrite Forall_forall in D. specialize (D _ I). discriminate.
  - destruct U as [[-> _]|[[[->| ->] _]|[[[->| ->] _]|[[->| ->] _]]]]; cbn in I; intuition discriminate.
Qed.
Lemma action_eqb_iff a b : action_eqb a b = true <-> a = b.
Proof. destruct a, b; cbn; split; congruence. Qed.
Lemma same_key_iff a b : same_key a b = true <-> e_path a = e_path b /\ e_action a = e_action b.
Proof. unfold same_key. rewrite andb_true_iff, seqb_eq, action_eqb_iff. reflexivity. Qed.
Lemma watch_in l e x : In x (watch l e) -> x = e \/ In x l.
Proof. induction l as [|y l IH]; cbn [watch]; [intros [<-|[]]; auto|]. destruct (same_key y e); intros [<-|I]; cbn; auto. destruct (IH I); auto. Qed.
Lemma watch_has l e : In e (watch l e).
Proof. induction l as [|y l IH]; cbn [watch]; [now left|]. destruct (same_key y e); [now left|now right]. Qed.
Lemma watch_keeps l e x : In x l -> same_key x e = false -> In x (watch l e).
Proof. induction l as [|y l IH]; intros I K; [destruct I|]. cbn [watch]. destruct I as [->|I]; [rewrite K; now left|]. destruct (same_key y e); right; auto. Qed.
Lemma disk_data_keeps real ws : forall l r x, disk_data real ws l = Some r -> In x l -> (forall w e, In w ws -> parse_entry real w = Some e -> same_key x e = false) -> In x r.
Proof.
  induction ws as [|w ws IH]; intros l r x D I N; cbn [disk_data] in D; [congruence|]. destruct (parse_entry real w) as [e|] eqn:E; [|discriminate]. apply (IH _ _ _ D); [apply watch_keeps; [exact I|apply (N w e (or_introl eq_refl) E)]|]. intros w' e' W'. apply N. now right.
Qed.
Lemma disk_data_from real ws : forall l r x, disk_data real ws l = Some r -> In x r -> In x l \/ exists w, In w ws /\ parse_entry real w = Some x.
Proof.
  induction ws as [|w ws IH]; intros l r x D I; cbn [disk_data] in D; [injection D as <-; now left|]. destruct (parse_entry real w) as [e|] eqn:E; [|discriminate]. destruct (IH _ _ _ D I) as [H|(w' & W & P)]; [|right; exists w'; split; [now right|exact P]].
  apply watch_in in H. destruct H as [->|H]; [right; exists w; split; [now left|exact E]|now left].
Qed.
Lemma disk_data_app real a b : forall l, disk_data real (a ++ b) l = match disk_data real a l with Some l' => disk_data real b l' | None => None end.
Proof. induction a as [|w a IH]; intro l; cbn [app disk_data]; [reflexivity|]. destruct (parse_entry real w); [apply IH|reflexivity]. Qed.
(** One check with WARN *)
Lemma warn_step si ii e m x : m_action m = Warn -> m_space m = e_space e -> m_checked m = false ->
  let c := below (e_space e) (free_space x) && (Z.eqb (m_pre_s m) 0 || Z.ltb si (m_pre_s m - free_space x)) in
  let r := check si ii m x in
  m_pre_s (snd r) = (if c then free_space x else m_pre_s m) /\ (In WarnSpace (fst r) <-> c = true) /\
  m_action (snd r) = Warn /\ m_space (snd r) = e_space e /\ m_checked (snd r) = false.
Proof.
  intros A B C. cbv zeta. set (c := below _ _ && _).
  assert (SP : exists e1 m1, check_space si x m = (e1, m1) /\ m_pre_s m1 = (if c then free_space x else m_pre_s m) /\ (In WarnSpace e1 <-> c = true) /\ m_action m1 = Warn /\ m_space m1 = e_space e /\ m_checked m1 = false).
  { unfold check_space, c, warns. rewrite B, C. destruct (below _ _); [|eexists _, _; split; [reflexivity|]; cbn; intuition discriminate]. cbn [andb negb]. rewrite andb_true_r.
    destruct (_ || _); unfold act; cbn; rewrite A; eexists _, _; (split; [reflexivity|]); cbn; repeat split; auto; intros; try discriminate; contradiction. }
  unfold check. clearbody c. destruct SP as (e1 & m1 & -> & P & W & A1 & B1 & C1).
  assert (SI : exists e2 m2, check_inode ii x m1 = (e2, m2) /\ m_pre_s m2 = m_pre_s m1 /\ ~ In WarnSpace e2 /\ m_action m2 = Warn /\ m_space m2 = e_space e /\ m_checked m2 = false).
  { unfold check_inode. destruct (below _ _); [|eexists _, _; split; [reflexivity|]; cbn; intuition]. destruct (_ || _); [eexists _, _; split; [reflexivity|]; cbn; intuition|].
    unfold act. destruct (warns _ _ _ _); cbn; rewrite A1; eexists _, _; (split; [reflexivity|]); cbn; repeat split; auto; intuition discriminate. }
  destruct SI as (e2 & m2 & -> & P2 & N2 & A2 & B2 & C2). cbn [fst snd]. rewrite in_app_iff, P2, P. repeat split; auto; try tauto.
Qed.
(** One entry for each path and action *)
Definition distinct (l : list entry) : Prop := NoDup (map (fun e => (e_path e, e_action e)) l).
Lemma watch_map l e : map (fun e => (e_path e, e_action e)) (watch l e) = map (fun e => (e_path e, e_action e)) l \/ 
  (map (fun e => (e_path e, e_action e)) (watch l e) = map (fun e => (e_path e, e_action e)) l ++ [(e_path e, e_action e)] /\ ~ In (e_path e, e_action e) (map (fun e => (e_path e, e_action e)) l)).
Proof.
  induction l as [|x l IH]; cbn [watch map]; [right; split; [reflexivity|intros []]|]. destruct (same_key x e) eqn:K; cbn [map].
  - left. apply same_key_iff in K. destruct K as [-> ->]. reflexivity.
  - destruct IH as [->|[-> N]]; [now left|]. right. split; [reflexivity|]. intros [Q|Q]; [|auto]. injection Q as Q1 Q2. assert (same_key x e = true) by (apply same_key_iff; auto). congruence.
Qed.
Lemma NoDup_snoc {A} (l : list A) x : NoDup l -> ~ In x l -> NoDup (l ++ [x]).
Proof. intros N I. induction N as [|y l Y _ IH]; cbn; [constructor; [intros []|constructor]|]. constructor; [|apply IH; intro; apply I; now right]. intro H. apply in_app_or in H. destruct H as [H|[H|[]]]; [contradiction|]. apply I. now left. Qed.
Lemma watch_distinct l e : distinct l -> distinct (watch l e).
Proof. unfold distinct. intro D. destruct (watch_map l e) as [->|[-> N]]; [exact D|]. apply NoDup_snoc; auto. Qed.
Lemma disk_data_nodup real ws : forall l r, disk_data real ws l = Some r -> distinct l -> distinct r.
Proof. induction ws as [|w ws IH]; intros l r D N; cbn [disk_data] in D; [congruence|]. destruct (parse_entry real w); [|discriminate]. apply (IH _ _ D). now apply watch_distinct. Qed.
Lemma distinct_key l : distinct l -> forall x y, In x l -> In y l -> e_path x = e_path y -> e_action x = e_action y -> x = y.
Proof.
  unfold distinct. induction l as [|z l IH]; intros D x y X Y P A; [destruct X|]. cbn [map] in D. apply NoDup_cons_iff in D. destruct D as [N D]. destruct X as [->|X], Y as [->|Y]; auto.
  - exfalso. apply N. apply in_map_iff. exists y. split; [congruence|exact Y].
  - exfalso. apply N. apply in_map_iff. exists x. split; [congruence|exact X].
Qed.
Lemma watch_same l e x : distinct l -> In x (watch l e) -> e_path x = e_path e /\ e_action x = e_action e -> x = e.
Proof. intros D I [P A]. apply (distinct_key (watch l e)); auto using watch_distinct, watch_has. Qed.
(** A number has one way to be written *)
Definition canon (ds : str) : Prop := Forall (fun c => is_digit c = true) ds /\ match ds with d :: _ => d <> "0"%char | [] => True end.
Lemma dec_val_snoc ds d : dec_val (ds ++ [d]) = (dec_val ds * 10 + digit_val d)%N.
Proof. unfold dec_val. rewrite fold_left_app. reflexivity. Qed.
Lemma digit_lt d : is_digit d = true -> (digit_val d < 10)%N /\ N_of_ascii d = (digit_val d + 48)%N.
Proof. unfold is_digit, digit_val. rewrite andb_true_iff, !N.leb_le. cbn. lia. Qed.
Lemma digit_inj c d : is_digit c = true -> is_digit d = true -> digit_val c = digit_val d -> c = d.
Proof. intros C D E. apply digit_lt in C. apply digit_lt in D. rewrite <- (ascii_N_embedding c), <- (ascii_N_embedding d). f_equal. lia. Qed.
Lemma canon_pos d ds : canon (d :: ds) -> (0 < dec_val (d :: ds))%N.
Proof.
  intros [F N]. inversion F as [|? ? D _]; subst. unfold dec_val. cbn [fold_left]. apply dec_val_pos. assert (digit_val d <> 0%N); [|lia]. intro Z. apply N. apply digit_inj; auto.
Qed.
Lemma canon_front ds d : canon (ds ++ [d]) -> canon ds /\ is_digit d = true.
Proof.
  intros [F N]. apply Forall_app in F. destruct F as [F1 F2]. inversion F2; subst. split; [|assumption]. split; [exact F1|]. destruct ds; cbn in N; auto.
Qed.
Lemma canon_unique a : forall b, canon a -> canon b -> dec_val a = dec_val b -> a = b.
Proof.
  induction a as [|d a IH] using rev_ind; intros b A B E.
  - destruct b as [|x b]; [reflexivity|]. apply canon_pos in B. rewrite <- E in B. discriminate B.
  - assert (P : (0 < dec_val (a ++ [d]))%N) by (destruct a as [|x a]; [exact (canon_pos d [] A)|exact (canon_pos x (a ++ [d]) A)]).
    destruct b as [|e b _] using rev_ind; [rewrite E in P; discriminate P|]. apply canon_front in A. apply canon_front in B. destruct A as [A D], B as [B X]. rewrite !dec_val_snoc in E. pose proof (digit_lt d D) as [D1 _]. pose proof (digit_lt e X) as [D2 _].
    assert (Q : dec_val a = dec_val b /\ digit_val d = digit_val e) by lia. destruct Q as [Q1 Q2]. rewrite (IH b A B Q1), (digit_inj d e D X Q2). reflexivity.
Qed.
Lemma dec_canon n : (0 < n)%N -> canon (dec n).
Proof.
  intro P. destruct (dec_spec n) as (NE & DS & V & NZ). split; [exact DS|]. destruct (dec n) as [|d ds] eqn:D; [exact I|]. intros ->. destruct ds as [|x ds]; [vm_compute in V; subst n; discriminate P|]. apply (NZ _ _ eq_refl); [discriminate|reflexivity].
Qed.
Lemma limit_written_only t v : limit t = Some v -> written t v.
Proof.
  unfold limit. destruct t as [|c t]; [intro H; injection H as <-; now left|]. destruct (convert (c :: t)) as [n|] eqn:C; [|discriminate]. intro H. injection H as <-. right. unfold convert in C.
  pose proof (span_spec is_digit (c :: t)) as (S1 & F & _). destruct (span is_digit (c :: t)) as [ds u]. cbn [fst snd] in *. destruct ds as [|d ds]; [discriminate|]. destruct (aeqb d "0"%char) eqn:Z0; [discriminate|].
  assert (CA : canon (d :: ds)) by (split; [exact F|intros ->; discriminate]). pose proof (canon_pos d ds CA) as P.
  assert (E : d :: ds = dec (dec_val (d :: ds))). { apply canon_unique; [exact CA|apply dec_canon; exact P|]. destruct (dec_spec (dec_val (d :: ds))) as (_ & _ & V & _). now rewrite V. }
  exists (dec_val (d :: ds)), u. rewrite S1. destruct u as [|x [|]]; [|destruct (_ || _) eqn:G; [|destruct (aeqb x "m"%char || _) eqn:M; [|destruct (aeqb x "k"%char || _) eqn:K; [|discriminate]]]|discriminate]; injection C as <-.
  - exists 1%Z. split; [exact P|]. split; [now rewrite <- E|]. split; [left; auto|f_equal; lia].
  - exists (1024 * 1024 * 1024)%Z. split; [exact P|]. split; [now rewrite <- E|]. split; [right; right; right|reflexivity]. apply orb_true_iff in G. rewrite !aeqb_eq in G. split; [|reflexivity]. destruct G as [->| ->]; [now left|now right].
  - exists (1024 * 1024)%Z. split; [exact P|]. split; [now rewrite <- E|]. split; [right; right; left|reflexivity]. apply orb_true_iff in M. rewrite !aeqb_eq in M. split; [|reflexivity]. destruct M as [->| ->]; [now left|now right].
  - exists 1024%Z. split; [exact P|]. split; [now rewrite <- E|]. split; [right; left|reflexivity]. apply orb_true_iff in K. rewrite !aeqb_eq in K. split; [|reflexivity]. destruct K as [->| ->]; [now left|now right].
Qed.
(** One check of the inodes with WARN *)
Lemma warn_step_i si ii e m x : m_action m = Warn -> m_inode m = e_inode e -> m_checked m = false -> counts x ->
  let c := below (e_inode e) (free_inode x) && (Z.eqb (m_pre_i m) 0 || Z.ltb ii (m_pre_i m - free_inode x)) in
  let r := check si ii m x in
  m_pre_i (snd r) = (if c then free_inode x else m_pre_i m) /\ (In WarnInode (fst r) <-> c = true) /\
  m_action (snd r) = Warn /\ m_inode (snd r) = e_inode e /\ m_checked (snd r) = false.
Proof.
  intros A B C [F1 F2]. cbv zeta. set (c := below _ _ && _).
  assert (SP : exists e1 m1, check_space si x m = (e1, m1) /\ m_pre_i m1 = m_pre_i m /\ ~ In WarnInode e1 /\ m_action m1 = Warn /\ m_inode m1 = e_inode e /\ m_checked m1 = false).
  { unfold check_space. destruct (below (m_space m) _); [|eexists _, _; split; [reflexivity|]; cbn; intuition].
    unfold act. destruct (warns _ _ _ _); cbn; rewrite A; eexists _, _; (split; [reflexivity|]); cbn; repeat split; auto; intuition discriminate. }
  unfold check. destruct SP as (e1 & m1 & -> & P & N & A1 & B1 & C1).
  assert (SI : exists e2 m2, check_inode ii x m1 = (e2, m2) /\ m_pre_i m2 = (if c then free_inode x else m_pre_i m1) /\ (In WarnInode e2 <-> c = true) /\ m_action m2 = Warn /\ m_inode m2 = e_inode e /\ m_checked m2 = false).
  { unfold check_inode, c, warns. rewrite B1, C1, P, (proj2 (Z.eqb_neq _ _) F1), (proj2 (Z.eqb_neq _ _) F2). cbn [orb]. destruct (below _ _); [|eexists _, _; split; [reflexivity|]; cbn; intuition discriminate]. cbn [andb negb]. rewrite andb_true_r.
    destruct (_ || _); unfold act; cbn; rewrite A1; eexists _, _; (split; [reflexivity|]); cbn; repeat split; auto; intros; try discriminate; contradiction. }
  clearbody c. destruct SI as (e2 & m2 & -> & P2 & W & A2 & B2 & C2). cbn [fst snd]. rewrite in_app_iff, P2, P. repeat split; auto; try tauto.
Qed.
