(** Lemmas for C47. *)
From Coq Require Import Ascii String List Bool NArith ZArith Arith Lia Permutation.
From Verif Require Import Str_Model Str_Proofs Imgtypes_Model Imgtypes_Proofs Deps_Spec Deps_Proofs Aptsrc_Spec Aptsrc_Proofs Words_Model Words_Spec.
Import ListNotations.
Open Scope list_scope.

Lemma cut_word (s : str) : (exists w c r, s = w ++ c :: r /\ Forall (fun c => is_space c = false) w /\ is_space c = true) \/ Forall (fun c => is_space c = false) s.
Proof.
  induction s as [|x s IH]; [right; constructor|]. destruct (is_space x) eqn:X; [left; exists [], x, s; auto|].
  destruct IH as [(w & c & r & -> & W & C)|F]; [left; exists (x :: w), c, r; auto|right; auto].
Qed.
Lemma has_word_iff w s : In w (split_ws s) <-> has_word s w.
Proof.
  split.
  - remember (length s) as n eqn:L. revert s L. induction n as [n IH] using lt_wf_ind. intros s L I.
    destruct (cut_word s) as [(v & c & r & -> & W & C)|F].
    + assert (E : split_ws (v ++ c :: r) = split_ws v ++ split_ws r) by now apply split_ws_app. rewrite E in I. apply in_app_or in I. destruct I as [I|I].
      * destruct v as [|x v]; [contradiction|]. assert (WV : word (x :: v)) by (split; [discriminate|auto]). rewrite split_ws_single in I by auto. destruct I as [<-|[]].
        split; auto. exists [], (c :: r). repeat split; auto. right. eauto.
      * assert (LT : length r < n) by (subst n; rewrite app_length; cbn; lia). destruct (IH _ LT r eq_refl I) as (WW & a & b & E2 & A & B). split; auto. exists (v ++ c :: a), b. split; [rewrite E2, <- app_assoc; reflexivity|]. split; auto.
        right. destruct A as [->|(a' & d & -> & D)]; [exists v, c; auto|exists (v ++ c :: a'), d; split; [now rewrite <- app_assoc|auto]].
    + destruct s as [|x s]; [contradiction|]. assert (WV : word (x :: s)) by (split; [discriminate|auto]). rewrite split_ws_single in I by auto. destruct I as [<-|[]].
      split; auto. exists [], []. rewrite app_nil_r. auto.
  - intros (W & a & b & -> & A & B).
    assert (T : In w (split_ws (w ++ b))). { destruct B as [->|(c & b' & -> & C)]; [rewrite app_nil_r, split_ws_single by auto; now left|]. rewrite split_ws_word by auto. now left. }
    destruct A as [->|(a' & c & -> & C)]; auto. rewrite <- app_assoc. cbn [app]. rewrite split_ws_app by auto. apply in_or_app. now right.
Qed.
Lemma mem_word s w : mem_str w (split_ws s) = true <-> has_word s w.
Proof. rewrite mem_str_In. apply has_word_iff. Qed.
Lemma var_has_value v w : var_has v w <-> has_word (value v) w.
Proof.
  split; [intros (s & -> & H); auto|]. intros H. destruct v as [s|]; [exists s; auto|]. exfalso. destruct H as ((N & _) & a & b & E & _). cbn in E. destruct a; [destruct w; [congruence|discriminate]|discriminate].
Qed.
Lemma no_value_none v w : no_value v = true -> ~ var_has v w.
Proof. intros N H. apply var_has_value in H. apply has_word_iff in H. destruct v as [[|c s]|]; try discriminate; contradiction. Qed.

(** ** Sorted sets *)
Lemma ascending_pairs l : ascending l <-> ForallOrdPairs str_lt l.
Proof.
  split.
  - intros A. induction l as [|y l IH]; [constructor|]. constructor; [|apply IH; intros a u b v c E; apply (A (y :: a) u b v c); cbn; now rewrite E].
    apply Forall_forall. intros z Z. apply in_split in Z. destruct Z as (b & c & Z). apply (A [] y b z c). cbn. now rewrite Z.
  - intros K a. revert l K. induction a as [|z a IH]; intros l K x b y c ->; cbn [app] in K; inversion K as [|? ? F K']; subst; [|eapply IH; eauto]. rewrite Forall_forall in F. apply F. apply in_or_app. right. now left.
Qed.
Lemma insert_pairs x l : ForallOrdPairs str_lt l -> ForallOrdPairs str_lt (insert_str x l).
Proof.
  intros K. induction K as [|y ys F K IH]; cbn [insert_str]; [repeat constructor|]. destruct (seqb x y) eqn:E; [now constructor|]. apply seqb_neq in E.
  destruct (str_leb x y) eqn:L.
  - assert (Lt : str_lt x y). { destruct (str_trichotomy x y) as [H|[H|H]]; auto; [congruence|]. apply str_leb_lt in H. destruct H. congruence. }
    constructor; [|now constructor]. constructor; auto. rewrite Forall_forall in *. intros z Z. eapply str_lt_trans; eauto.
  - assert (Lt : str_lt y x). { destruct (str_trichotomy x y) as [H|[H|H]]; auto; [|congruence]. apply str_leb_lt in H. destruct H. congruence. }
    constructor; auto. apply Forall_forall. intros z Z. apply insert_str_in in Z. destruct Z as [->|Z]; auto. rewrite Forall_forall in F. auto.
Qed.
Lemma sorted_set_pairs l : ForallOrdPairs str_lt (sorted_set l).
Proof. induction l as [|x l IH]; [constructor|]. change (sorted_set (x :: l)) with (insert_str x (sorted_set l)). now apply insert_pairs. Qed.
Lemma str_lt_irrefl s : ~ str_lt s s.
Proof. intros H. destruct (str_leb_lt _ _ H). congruence. Qed.
Lemma pairs_nodup l : ForallOrdPairs str_lt l -> NoDup l.
Proof. induction 1 as [|x l F K IH]; constructor; auto. intros I. rewrite Forall_forall in F. apply (str_lt_irrefl x). auto. Qed.
Lemma pairs_unique l : forall l', ForallOrdPairs str_lt l -> ForallOrdPairs str_lt l' -> (forall x, In x l <-> In x l') -> l = l'.
Proof.
  induction l as [|x l IH]; intros [|y l'] K K' E; auto.
  - exfalso. apply (E y). now left.
  - exfalso. apply (E x). now left.
  - inversion K as [|? ? F K1]; subst. inversion K' as [|? ? F' K1']; subst. rewrite Forall_forall in F, F'.
    assert (x = y). { destruct (proj1 (E x) (or_introl eq_refl)) as [->|I]; auto. destruct (proj2 (E y) (or_introl eq_refl)) as [->|J]; auto. exfalso. apply (str_lt_irrefl x). eapply str_lt_trans; [apply F, J|apply F', I]. }
    subst y. f_equal. apply IH; auto. intros z. split; intros I.
    + destruct (proj1 (E z) (or_intror I)) as [->|?]; auto. exfalso. apply (str_lt_irrefl z). auto.
    + destruct (proj2 (E z) (or_intror I)) as [->|?]; auto. exfalso. apply (str_lt_irrefl z). auto.
Qed.
Lemma sorted_set_ext l l' : (forall x, In x l <-> In x l') -> sorted_set l = sorted_set l'.
Proof. intros E. apply pairs_unique; try apply sorted_set_pairs. intros x. rewrite !sorted_set_in. auto. Qed.
Lemma subset_words l s : (forall x, In x l -> In x (split_ws s)) -> Forall word l.
Proof. intros H. apply Forall_forall. intros x I. pose proof (split_ws_words s) as F. rewrite Forall_forall in F. auto. Qed.

(** ** Text *)
Lemma drop_end_app a b : drop_end (length b) (a ++ b) = a.
Proof. unfold drop_end. rewrite app_length. replace (length a + length b - length b) with (length a) by lia. rewrite firstn_app, firstn_all, Nat.sub_diag, firstn_O. apply app_nil_r. Qed.
Lemma firstn_join n l : n <> 0 -> exists t, join (s_ ".") l = join (s_ ".") (firstn n l) ++ t.
Proof.
  revert n. induction l as [|x l IH]; intros n N; [exists []; destruct n; reflexivity|]. destruct n as [|n]; [congruence|]. cbn [firstn].
  destruct n as [|n]; [cbn [firstn]; destruct l as [|y l]; [exists []; cbn; now rewrite app_nil_r|exists (s_ "." ++ join (s_ ".") (y :: l)); reflexivity]|].
  destruct l as [|y l]; [exists []; cbn; now rewrite app_nil_r|]. destruct (IH (S n) ltac:(discriminate)) as [t T]. exists t. rewrite join_cons by discriminate. rewrite (join_cons _ x) by (cbn; discriminate). rewrite T, <- !app_assoc. reflexivity.
Qed.
Lemma no_dots n s : Forall (no_char "."%char) (firstn n (split_on "."%char s)).
Proof. destruct (split_on_spec "."%char s) as (F & _). apply Forall_forall. intros x I. rewrite Forall_forall in F. apply F. rewrite <- (firstn_skipn n). apply in_or_app. now left. Qed.

Lemma sub_blanks_words s : forall b, split_ws (sub_blanks b s) = split_ws s.
Proof.
  intros b. remember (length s) as n eqn:L. revert s L b. induction n as [n IH] using lt_wf_ind. intros s L b.
  destruct s as [|c s]; [reflexivity|]. cbn [sub_blanks]. destruct (is_space c) eqn:C.
  - assert (LT : length s < n) by (subst; cbn; lia). rewrite (split_ws_space c) by auto. destruct b; [now apply (IH _ LT)|]. rewrite split_ws_space by reflexivity. now apply (IH _ LT).
  - assert (G : forall t u, Forall (fun c => is_space c = false) t -> sub_blanks false (t ++ u) = t ++ sub_blanks false u) by (induction t as [|x t IHt]; intros u F; auto; inversion F as [|? ? X F']; subst; cbn [app sub_blanks]; rewrite X; now rewrite IHt).
    destruct (cut_word s) as [(w & d & r & -> & W & D)|F].
    + rewrite G by auto. cbn [sub_blanks]. rewrite D. assert (WW : word (c :: w)) by (split; [discriminate|auto]).
      change (c :: w ++ " "%char :: sub_blanks true r) with ((c :: w) ++ " "%char :: sub_blanks true r). change (c :: w ++ d :: r) with ((c :: w) ++ d :: r). rewrite !split_ws_word by auto. f_equal.
      assert (LT : length r < n) by (subst; cbn; rewrite app_length; cbn; lia). now apply (IH _ LT).
    + rewrite <- (app_nil_r s) at 1. rewrite G by auto. cbn [sub_blanks]. now rewrite app_nil_r.
Qed.
(** No two blanks in a row and only ordinary blanks. *)
Inductive spaced : bool -> str -> Prop :=
| sp_nil b : spaced b []
| sp_blank s : spaced true s -> spaced false (" "%char :: s)
| sp_char b c s : is_space c = false -> spaced false s -> spaced b (c :: s).
Lemma sub_blanks_spaced s : forall b, spaced b (sub_blanks b s).
Proof. induction s as [|c s IH]; intros b; cbn [sub_blanks]; [constructor|]. destruct (is_space c) eqn:C; [destruct b; auto; apply sp_blank; apply IH|]. now apply sp_char. Qed.
Lemma spaced_prefix a : forall b x, spaced x (a ++ b) -> spaced x a.
Proof. induction a as [|c a IH]; intros b x S; [constructor|]. cbn [app] in S. inversion S; subst; [apply sp_blank|apply sp_char]; eauto. Qed.
Lemma spaced_join s : spaced true s -> (forall a c, s = a ++ [c] -> is_space c = false) -> s = join (s_ " ") (split_ws s).
Proof.
  remember (length s) as n eqn:L. revert s L. induction n as [n IH] using lt_wf_ind. intros s L S E. destruct s as [|c s]; [reflexivity|].
  inversion S as [| |? ? ? C S']; subst. destruct (cut_word s) as [(w & d & r & -> & W & D)|F].
  - assert (G : forall t, Forall (fun c => is_space c = false) t -> spaced false (t ++ d :: r) -> d = " "%char /\ spaced true r).
    { induction t as [|x t IHt]; intros FT ST; cbn [app] in ST; inversion ST; subst; auto; try congruence. inversion FT; subst. match goal with H : is_space " " = false |- _ => discriminate end. inversion FT; subst. auto. }
    destruct (G w W S') as (-> & R). assert (WW : word (c :: w)) by (split; [discriminate|auto]). change (c :: w ++ " "%char :: r) with ((c :: w) ++ " "%char :: r). rewrite split_ws_word by auto.
    assert (R' : r = join (s_ " ") (split_ws r)). { apply (IH (length r)); auto; [cbn; rewrite app_length; cbn; lia|]. intros a x ->. apply (E (c :: w ++ " "%char :: a) x). cbn. now rewrite <- app_assoc. }
    assert (NR : split_ws r <> []). { intros Z. rewrite Z in R'. cbn in R'. subst r. specialize (E (c :: w) " "%char eq_refl). discriminate. }
    rewrite join_cons by auto. rewrite <- R'. reflexivity.
  - assert (WW : word (c :: s)) by (split; [discriminate|auto]). now rewrite split_ws_single.
Qed.
Lemma squash_is s : squashspaces s = join (s_ " ") (split_ws s).
Proof.
  unfold squashspaces. pose proof (sub_blanks_spaced s false) as S. pose proof (sub_blanks_words s false) as W. set (t := sub_blanks false s) in *. rewrite <- W, <- (words_strip t).
  apply spaced_join.
  - unfold strip. assert (SL : spaced true (lstrip t)). { clear W. clearbody t. inversion S as [|u U|? c u C U]; subst; [constructor| |cbn [lstrip]; rewrite C; now apply sp_char]. cbn [lstrip]. change (is_space " ") with true. cbn match. inversion U as [| |? c v C V]; subst; [constructor|]. cbn [lstrip]. rewrite C. now apply sp_char. }
    destruct (rstrip_spec (lstrip t)) as (b & E & _). rewrite E in SL. eapply spaced_prefix, SL.
  - intros a c E. unfold strip in E. destruct (rstrip_spec (lstrip t)) as (b & _ & _ & [R|(d & u & R & D)]); [rewrite R in E; destruct a; discriminate|]. rewrite R in E. apply app_inj_tail in E. destruct E as [_ <-]. auto.
Qed.
