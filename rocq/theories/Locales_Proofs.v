From Coq Require Import String Ascii List Bool Arith Lia.
From Verif Require Import Str_Model Str_Proofs Imgtypes_Model Imgtypes_Proofs Deps_Spec Words_Proofs Sigtask_Proofs Changelog_Proofs Locales_Model Locales_Spec.
Import ListNotations.
Open Scope list_scope.

(** ** Splitting *)
Lemma bn_aux_item i : contains_sub (s_ "\n") i = false -> forall cur rest, split_bn_aux cur (i ++ s_ "\n" ++ rest) = rev (rev i ++ cur) :: split_bn_aux [] rest.
Proof.
  induction i as [|c i IH]; intros C cur rest.
  - reflexivity.
  - assert (C' : contains_sub (s_ "\n") i = false) by (cbn [contains_sub] in C; apply orb_false_iff in C; tauto).
    assert (X : split_bn_aux cur ((c :: i) ++ s_ "\n" ++ rest) = split_bn_aux (c :: cur) (i ++ s_ "\n" ++ rest)).
    { cbn [app]. destruct i as [|d i].
      - cbn [app s_ list_ascii_of_string]. cbn [split_bn_aux]. change (aeqb "\" "n") with false. now rewrite andb_false_r.
      - cbn [app]. cbn [split_bn_aux]. destruct (aeqb c "\" && aeqb d "n") eqn:E; auto. exfalso. apply andb_true_iff in E. destruct E as [E F]. apply aeqb_eq in E, F. subst c d. cbn in C. discriminate. }
    rewrite X, IH by exact C'. cbn [rev]. now rewrite <- app_assoc.
Qed.
Lemma bn_aux_last i : contains_sub (s_ "\n") i = false -> forall cur, split_bn_aux cur i = [rev (rev i ++ cur)].
Proof.
  induction i as [|c i IH]; intros C cur; [reflexivity|].
  assert (C' : contains_sub (s_ "\n") i = false) by (cbn [contains_sub] in C; apply orb_false_iff in C; tauto).
  destruct i as [|d i]; [reflexivity|].
  assert (X : split_bn_aux cur (c :: d :: i) = split_bn_aux (c :: cur) (d :: i)).
  { cbn [split_bn_aux]. destruct (aeqb c "\" && aeqb d "n") eqn:E; auto. exfalso. apply andb_true_iff in E. destruct E as [E F]. apply aeqb_eq in E, F. subst c d. cbn in C. discriminate. }
  rewrite X, IH by exact C'. cbn [rev]. now rewrite <- !app_assoc.
Qed.
Lemma split_bn_join items : items <> [] -> Forall (fun i => contains_sub (s_ "\n") i = false) items -> split_bn (join (s_ "\n") items) = items.
Proof.
  intros NE F. unfold split_bn. induction F as [|i items C F IH]; [congruence|]. destruct items as [|j items].
  - cbn [join]. rewrite bn_aux_last by exact C. now rewrite app_nil_r, rev_involutive.
  - rewrite (join_cons (s_ "\n") i (j :: items)) by discriminate. rewrite bn_aux_item by exact C. rewrite app_nil_r, rev_involutive. f_equal. apply IH. discriminate.
Qed.

(** ** Parts *)
Lemma strip_trimmed i : trimmed i (strip i).
Proof.
  destruct (lstrip_spec i) as (a & E & A & _). destruct (rstrip_spec (lstrip i)) as (b & E' & B & _). unfold strip.
  exists a, b. split; [rewrite <- E'; exact E|]. split; [exact A|]. split; [exact B|].
  assert (H1 : forall c r, rstrip (lstrip i) = c :: r -> is_space c = false).
  { intros c r X. pose proof (lstrip_head i) as Y. rewrite X in E'. cbn in E'. rewrite E' in Y. exact Y. }
  split; [exact H1|]. intros r c X.
  assert (Y : rev (rstrip (lstrip i)) = c :: rev r) by (rewrite X; now rewrite rev_app_distr). unfold rstrip in Y. rewrite rev_involutive in Y.
  pose proof (lstrip_head (rev (lstrip i))) as Z. rewrite Y in Z. exact Z.
Qed.
Lemma trimmed_unique i t t' : trimmed i t -> trimmed i t' -> t = t'.
Proof.
  assert (P : forall t, trimmed i t -> strip i = t).
  { intros u (a & b & -> & A & B & H1 & H2). unfold strip. rewrite lstrip_blanks by exact A. destruct u as [|c u].
    - cbn [app]. rewrite (lstrip_nil_all_space b B). reflexivity.
    - cbn [app]. rewrite lstrip_nospace by (eapply H1; reflexivity). change (c :: u ++ b) with ((c :: u) ++ b). rewrite rstrip_blanks by exact B.
      destruct (exists_last (l := c :: u)) as (r & d & E); [discriminate|]. rewrite E. apply rstrip_snoc. eapply H2. exact E. }
  intros T T'. rewrite <- (P t T). apply P. exact T'.
Qed.
Lemma split_ws_blank s : blank_string s -> split_ws s = [].
Proof. induction 1 as [|c s C F IH]; auto. now rewrite split_ws_space. Qed.
Lemma split_ws_blanks a s : blank_string a -> split_ws (a ++ s) = split_ws s.
Proof. induction 1 as [|c a C F IH]; auto. cbn [app]. now rewrite split_ws_space. Qed.
Lemma first_word i w : locale_of i w -> hd [] (split_ws i) = w /\ strip i <> [].
Proof.
  intros (W & a & b & -> & A & B). split.
  - rewrite split_ws_blanks by exact A. destruct b as [|c b].
    + rewrite app_nil_r, split_ws_single by exact W. reflexivity.
    + rewrite split_ws_word; [reflexivity|exact W|eapply B; reflexivity].
  - intros E. pose proof (strip_trimmed (a ++ w ++ b)) as T. rewrite E in T. destruct T as (x & y & T & X & Y & _). cbn [app] in T.
    destruct W as [N F]. destruct w as [|c w]; [congruence|]. inversion F as [|? ? Fc _]; subst.
    assert (Z : blank_string (a ++ (c :: w) ++ b)) by (rewrite T; apply Forall_app; auto). apply Forall_app in Z. destruct Z as [_ Z]. inversion Z. congruence.
Qed.
Lemma has_first_word i : strip i <> [] -> exists w, locale_of i w.
Proof.
  intros N. destruct (lstrip_spec i) as (a & E & A & _). pose proof (lstrip_head i) as H. unfold strip in N. destruct (lstrip i) as [|c r] eqn:L; [exfalso; apply N; reflexivity|].
  assert (P : forall s, exists w b, s = w ++ b /\ Forall (fun c => is_space c = false) w /\ forall c r, b = c :: r -> is_space c = true).
  { clear. induction s as [|c s (w & b & -> & W & B)]; [exists [], []; repeat split; auto; discriminate|]. destruct (is_space c) eqn:C.
    - exists [], (c :: w ++ b). repeat split; auto. intros d r E. now injection E as <- _.
    - exists (c :: w), b. repeat split; auto. }
  destruct (P r) as (w & b & -> & W & B). exists (c :: w). split; [split; [discriminate|now constructor]|]. exists a, b. auto.
Qed.
Lemma before_part c w : part_before c w (before c w).
Proof.
  unfold before. destruct (cut_at c w) as [p o] eqn:E. pose proof (cut_at_spec c w p o E) as S. destruct o as [r|].
  - destruct S as [S ->]. rewrite split_on_cons by exact S. cbn [hd]. split; [now apply no_char_In|]. right. eauto.
  - destruct S as [S ->]. rewrite split_on_single by exact S. cbn [hd]. split; [now apply no_char_In|]. now left.
Qed.
Lemma part_unique c w p q : part_before c w p -> part_before c w q -> p = q.
Proof.
  intros [P P'] [Q Q'].
  assert (G : forall (p q : str) r s, ~ In c p -> ~ In c q -> p ++ c :: r = q ++ c :: s -> p = q).
  { clear. induction p as [|x p IH]; intros [|y q] r s P Q E; auto; cbn in E; injection E as E1 E2.
    - subst y. exfalso. apply Q. now left.
    - subst x. exfalso. apply P. now left.
    - subst y. f_equal. eapply IH; eauto; intros X; [apply P|apply Q]; now right. }
  destruct P' as [->|(r & ->)], Q' as [->|(s & E)]; auto.
  - exfalso. apply P. rewrite E. apply in_or_app. right. now left.
  - exfalso. apply Q. apply in_or_app. right. now left.
  - eauto.
Qed.
Lemma strip_nospace w : Forall (fun c => is_space c = false) w -> strip w = w.
Proof.
  intros F. apply (trimmed_unique w); [apply strip_trimmed|]. exists [], []. rewrite app_nil_r. repeat split; try constructor.
  - intros c r ->. now inversion F.
  - intros r c ->. apply Forall_app in F. destruct F as [_ F]. now inversion F.
Qed.
Lemma part_nospace c w p : part_before c w p -> Forall (fun c => is_space c = false) w -> Forall (fun c => is_space c = false) p.
Proof. intros [_ [->|(r & ->)]] F; auto. now apply Forall_app in F. Qed.

(** ** Lines *)
Lemma join_nl_lines ls : Forall (no_char nl) ls -> ls <> [] -> split_on nl (join [nl] ls ++ [nl]) = ls ++ [[]].
Proof.
  intros F NE. rewrite split_on_app. cbn [app]. rewrite split_on_join by auto. reflexivity.
Qed.
Lemma split_on_ne c s : split_on c s <> [].
Proof.
  unfold split_on. assert (G : forall s cur, split_aux c cur s <> []).
  { clear. induction s as [|x s IH]; intros cur; cbn [split_aux]; [discriminate|]. destruct (aeqb x c); [discriminate|apply IH]. }
  apply G.
Qed.
Lemma lines_snoc f : lines (f ++ [nl]) = split_on nl f.
Proof. unfold lines. rewrite split_on_app. change (split_on nl []) with [@nil ascii]. apply removelast_last. Qed.
Lemma lines_app f g : f = [] \/ (exists h, f = h ++ [nl]) -> lines (f ++ g) = lines f ++ lines g.
Proof.
  intros [->|(h & ->)]; [reflexivity|]. rewrite lines_snoc. rewrite <- app_assoc. cbn [app]. unfold lines. rewrite split_on_app.
  apply removelast_app. apply split_on_ne.
Qed.
Lemma strip_no_char c i : no_char c i -> no_char c (strip i).
Proof. destruct (strip_trimmed i) as (a & b & E & _). intros N. rewrite E in N. apply Forall_app in N. destruct N as [_ N]. now apply Forall_app in N. Qed.
