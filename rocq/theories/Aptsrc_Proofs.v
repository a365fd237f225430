From Coq Require Import Ascii String List Bool Arith Lia.
From Verif Require Import Str_Model Str_Proofs Sstname_Model Sstname_Proofs Url_Proofs Aptsrc_Model Aptsrc_Spec.
Import ListNotations.
Open Scope list_scope.

(** ** Blanks and words *)
Lemma words_blank_l b s : blanks b -> split_ws (b ++ s) = split_ws s.
Proof. induction 1 as [|c b C B IH]; auto. cbn [app]. now rewrite split_ws_space. Qed.
Lemma words_blank_r s b : blanks b -> split_ws (s ++ b) = split_ws s.
Proof.
  intros B. destruct B as [|c b C B]; [now rewrite app_nil_r|]. rewrite split_ws_app by auto. rewrite <- (app_nil_r b), words_blank_l by auto. now rewrite app_nil_r.
Qed.
Lemma words_gap s b t : gap b -> split_ws (s ++ b ++ t) = split_ws s ++ split_ws t.
Proof. intros [N B]. destruct B as [|c b C B]; [congruence|]. cbn [app]. rewrite split_ws_app by auto. now rewrite words_blank_l. Qed.
Lemma words_strip s : split_ws (strip s) = split_ws s.
Proof.
  unfold strip. destruct (lstrip_spec s) as (a & E & A & _). destruct (rstrip_spec (lstrip s)) as (b & E' & B & _). rewrite E at 2. rewrite words_blank_l by auto. rewrite E' at 2. now rewrite words_blank_r.
Qed.
Lemma span_out p (s a b : str) : span p s = (a, b) -> s = a ++ b /\ Forall (fun c => p c = true) a /\ match b with [] => True | c :: _ => p c = false end.
Proof.
  intros E. destruct (span_spec p s a b E) as (-> & F & G). split; auto. split; auto. now apply Forall_forall.
Qed.
Lemma span_is p (a b : str) : Forall (fun c => p c = true) a -> match b with [] => True | c :: _ => p c = false end -> span p (a ++ b) = (a, b).
Proof. intros A B. apply span_all; [rewrite Forall_forall in A; auto|]. destruct b; auto. Qed.
Lemma nonspace_iff c : nonspace c = true <-> is_space c = false.
Proof. unfold nonspace. apply negb_true_iff. Qed.
Lemma nonspace_false c : nonspace c = false <-> is_space c = true.
Proof. unfold nonspace. apply negb_false_iff. Qed.
Lemma skip_blanks s : exists b, blanks b /\ s = b ++ snd (span is_space s) /\ (starts_space s = true -> b <> []).
Proof.
  destruct (span is_space s) as [b r] eqn:E. apply span_out in E. destruct E as (-> & B & R). exists b. split; [exact B|]. split; auto. intros S ->. cbn [app] in S. destruct r; [discriminate|]. cbn in S. congruence.
Qed.
Lemma split1_words s w r : split1 s = Some (w, r) -> Forall (fun c => is_space c = false) w /\ starts_space r = false /\ exists g, gap g /\ s = w ++ g ++ r.
Proof.
  unfold split1. destruct (span nonspace s) as [w' r'] eqn:E. apply span_out in E. destruct E as (-> & W & R). destruct r' as [|c r']; [discriminate|]. apply nonspace_false in R.
  destruct (skip_blanks (c :: r')) as (b & B & E & NB). destruct (span is_space (c :: r')) as [b' t] eqn:S. cbn [snd] in *. apply span_out in S. destruct S as (_ & _ & T). intros X.
  assert (XW : w' = w) by congruence. assert (XR : t = r) by congruence. subst w' r. split; [eapply Forall_impl; [|exact W]; intros; now apply nonspace_iff|]. split; [destruct t; auto|].
  exists b. split; [split; [now apply NB|exact B]|]. now rewrite E.
Qed.
Lemma close_rest w r x : close_options w r = Some x -> exists a g, gap g /\ w ++ r = a ++ g ++ x.
Proof.
  unfold close_options. destruct (skip_blanks r) as (b & B & E & NB). destruct (span nonspace (snd (span is_space r))) as [w' r'] eqn:S. apply span_out in S. destruct S as (E' & _ & _).
  destruct (key_value w && seqb w' (s_ "]") && starts_space r') eqn:K.
  - intros X. injection X as <-. apply andb_true_iff in K. destruct K as [_ ST]. destruct (skip_blanks r') as (g & G & EG & NG). exists (w ++ b ++ w'), g. split; [split; auto|].
    rewrite E, E'. rewrite EG at 1. now rewrite <- !app_assoc.
  - destruct (endswith (s_ "]") w && key_value (removelast w) && starts_space r) eqn:K2; [|discriminate]. intros X. injection X as <-. apply andb_true_iff in K2. destruct K2 as [_ ST].
    exists w, b. split; [split; auto|]. now rewrite E at 1.
Qed.
Lemma options_rest_words s x : options_rest s = Some x -> exists a g, gap g /\ s = a ++ g ++ x.
Proof.
  unfold options_rest. destruct s as [|c r]; [discriminate|]. destruct (aeqb c "["); [|discriminate].
  destruct (skip_blanks r) as (b & B & E & _). destruct (span nonspace (snd (span is_space r))) as [w1 r1] eqn:S. apply span_out in S. destruct S as (E' & _ & _). rewrite E' in E.
  assert (ONE : close_options w1 r1 = Some x -> exists a g, gap g /\ c :: r = a ++ g ++ x).
  { intros K. destruct (close_rest _ _ _ K) as (a & g & G & EA). exists (c :: b ++ a), g. split; auto. rewrite E, EA. cbn [app]. now rewrite <- app_assoc. }
  destruct (key_value w1 && starts_space r1); [|auto].
  destruct (skip_blanks r1) as (b1 & B1 & E1 & _). destruct (span nonspace (snd (span is_space r1))) as [w2 r2] eqn:S. apply span_out in S. destruct S as (E1' & _ & _). rewrite E1' in E1.
  destruct (close_options w2 r2) as [y|] eqn:K; [|auto]. intros X. injection X as ->. destruct (close_rest _ _ _ K) as (a & g & G & EA). exists (c :: b ++ w1 ++ b1 ++ a), g. split; auto. rewrite E, E1, EA. cbn [app]. now rewrite <- !app_assoc.
Qed.
Lemma words_five a b c d e : split_ws (join (s_ " ") [a; b; c; d; e]) = split_ws a ++ split_ws b ++ split_ws c ++ split_ws d ++ split_ws e.
Proof.
  rewrite !join_cons by discriminate. change (join (s_ " ") [e]) with e.
  assert (G : gap (s_ " ")) by (split; [discriminate|repeat constructor]). now rewrite !words_gap by auto.
Qed.
Lemma words_join_words s : split_ws (join (s_ " ") (split_ws s)) = split_ws s.
Proof. apply split_ws_join, split_ws_words. Qed.
Lemma parse_words line t o u s c : parse_line line = Source t o u s c -> split_ws line = split_ws t ++ split_ws o ++ split_ws u ++ split_ws s ++ split_ws c.
Proof.
  unfold parse_line. rewrite <- (words_strip line). set (x := strip line). destruct (match x with [] => true | _ => startswith (s_ "#") x end); [discriminate|].
  destruct (split1 x) as [[ty r]|] eqn:S1; [|discriminate]. apply split1_words in S1. destruct S1 as (_ & _ & g1 & G1 & E1). destruct (negb _); [discriminate|].
  destruct (match options_rest r with Some rest => (strip (firstn (length r - length rest) r), rest) | None => ([], r) end) as [op r2] eqn:O.
  assert (W : split_ws r = split_ws op ++ split_ws r2).
  { destruct (options_rest r) as [rest|] eqn:OR; injection O as <- <-; [|reflexivity]. destruct (options_rest_words _ _ OR) as (a & g & G & E). rewrite words_strip. rewrite E at 1. rewrite words_gap by auto. f_equal.
    rewrite E. rewrite app_assoc, app_length. replace (length (a ++ g) + length rest - length rest) with (length (a ++ g)) by lia. rewrite firstn_app, firstn_all, Nat.sub_diag, firstn_O, app_nil_r. symmetry. apply words_blank_r, G. }
  destruct (split1 r2) as [[src r3]|] eqn:S2; [|discriminate]. apply split1_words in S2. destruct S2 as (_ & _ & g2 & G2 & E2).
  destruct (startswith (s_ "/") r3).
  - intros X. injection X as <- <- <- <- <-. rewrite E1, words_gap, W, E2, words_gap, words_join_words by auto. change (split_ws []) with (@nil str). cbn [app]. reflexivity.
  - destruct (split1 r3) as [[su r4]|] eqn:S3; [|discriminate]. apply split1_words in S3. destruct S3 as (_ & _ & g3 & G3 & E3). intros X. injection X as <- <- <- <- <-.
    rewrite E1, words_gap, W, E2, words_gap, E3, words_gap, words_join_words by auto. rewrite <- ?app_assoc; reflexivity.
Qed.

(** ** Well-formed lines *)
Lemma word_nonspace w : word w -> Forall (fun c => nonspace c = true) w.
Proof. intros [_ F]. eapply Forall_impl; [|exact F]. intros. now apply nonspace_iff. Qed.
Lemma gap_head g s : gap g -> match g ++ s with [] => True | c :: _ => nonspace c = false end.
Proof. intros [N B]. destruct B as [|c b C B]; [congruence|]. cbn. now apply nonspace_false. Qed.
Lemma word_head w s : word w -> match w ++ s with [] => True | c :: _ => is_space c = false end.
Proof. intros [N B]. destruct B as [|c b C B]; [congruence|]. exact C. Qed.
Lemma span_word w g s : word w -> gap g -> span nonspace (w ++ g ++ s) = (w, g ++ s).
Proof. intros W G. apply span_is; [now apply word_nonspace|now apply gap_head]. Qed.
Lemma span_gap g w s : blanks g -> word w -> span is_space (g ++ w ++ s) = (g, w ++ s).
Proof. intros G W. apply span_is; [exact G|now apply word_head]. Qed.
Lemma split1_is w g v s : word w -> gap g -> word v -> split1 (w ++ g ++ v ++ s) = Some (w, v ++ s).
Proof.
  intros W G V. unfold split1. rewrite span_word by auto. destruct (g ++ v ++ s) as [|c r] eqn:E; [destruct G as [N _]; destruct g; [congruence|discriminate]|]. rewrite <- E, span_gap; auto. apply G.
Qed.
Lemma starts_space_gap g s : gap g -> starts_space (g ++ s) = true.
Proof. intros [N B]. destruct B as [|c b C B]; [congruence|]. exact C. Qed.
Lemma key_value_setting w : setting w -> key_value w = true.
Proof.
  intros (_ & _ & k & v & -> & K & V). destruct k as [|x k]; [congruence|]. cbn [app key_value]. apply existsb_exists. exists "="%char. split; [|reflexivity].
  assert (NV : "="%char :: v <> []) by discriminate. destruct v as [|y v] using rev_ind; [congruence|]. rewrite app_comm_cons, app_assoc, removelast_last. apply in_or_app. right. now left.
Qed.
Lemma ends_bracket w : endswith (s_ "]") (w ++ s_ "]") = true.
Proof. apply endswith_app. Qed.
Lemma no_end_bracket w : ~ In "]"%char w -> endswith (s_ "]") w = false.
Proof. intros N. destruct (endswith (s_ "]") w) eqn:E; auto. apply endswith_iff in E. destruct E as [t ->]. exfalso. apply N. apply in_or_app. right. now left. Qed.
Lemma word_bracket w : setting w -> word (w ++ s_ "]").
Proof. intros [[N F] _]. split; [destruct w; [congruence|discriminate]|]. apply Forall_app. split; auto. repeat constructor. Qed.
(** options closed by a bracket of their own or at the end of the last option *)
Lemma close_is o b g u s : setting o -> blanks b -> gap g -> plain u -> starts_space s = true ->
  exists w r, span nonspace (o ++ b ++ s_ "]" ++ g ++ u ++ s) = (w, r) /\ word w /\ close_options w r = Some (u ++ s) /\
    (b = [] -> w = o ++ s_ "]" /\ r = g ++ u ++ s) /\ (b <> [] -> w = o /\ r = b ++ s_ "]" ++ g ++ u ++ s).
Proof.
  intros O B G (U & _ & U2) SS. destruct b as [|c b].
  - cbn [app]. exists (o ++ s_ "]"), (g ++ u ++ s). rewrite app_assoc. split; [now apply span_word; [apply word_bracket|]|]. split; [now apply word_bracket|]. split; [|split; [auto|congruence]].
    unfold close_options. rewrite span_gap by (auto; apply G). cbn [snd]. destruct s as [|x s]; [discriminate|]. cbn in SS.
    rewrite (span_is nonspace u (x :: s)); [|now apply word_nonspace|now apply nonspace_false].
    assert (X : seqb u (s_ "]") = false) by (apply seqb_neq; intros ->; apply U2; now left). rewrite X, andb_false_r. cbn [andb].
    rewrite ends_bracket. change (removelast (o ++ s_ "]")) with (removelast (o ++ ["]"%char])). rewrite removelast_last, key_value_setting, starts_space_gap by auto. reflexivity.
  - exists o, ((c :: b) ++ s_ "]" ++ g ++ u ++ s). assert (GB : gap (c :: b)) by (split; [discriminate|auto]). assert (WB : word (s_ "]")) by (split; [discriminate|repeat constructor]).
    split; [apply span_word; auto; apply O|]. split; [apply O|]. split; [|split; [discriminate|auto]]. unfold close_options. rewrite span_gap by auto. cbn [snd]. rewrite span_word by auto. rewrite key_value_setting, seqb_refl, starts_space_gap by auto. cbn [andb].
    rewrite span_gap by (auto; apply G). reflexivity.
Qed.
Lemma no_close u g v s : plain u -> gap g -> plain v -> starts_space s = true -> close_options u (g ++ v ++ s) = None.
Proof.
  intros (_ & _ & U) G (V & _ & V2) SS. unfold close_options. rewrite span_gap by (auto; apply G). cbn [snd]. destruct s as [|x s]; [discriminate|]. cbn in SS. rewrite (span_is nonspace v (x :: s)); [|now apply word_nonspace|now apply nonspace_false].
  assert (X : seqb v (s_ "]") = false) by (apply seqb_neq; intros ->; apply V2; now left). rewrite X, andb_false_r. cbn [andb]. now rewrite no_end_bracket by auto.
Qed.
Lemma snd_blanks b w s : blanks b -> word w -> snd (span is_space (b ++ w ++ s)) = w ++ s.
Proof. intros B W. now rewrite span_gap. Qed.
Lemma options_is o text u g v s : written_options o text -> plain u -> gap g -> plain v -> starts_space s = true ->
  options_rest (text ++ u ++ g ++ v ++ s) = match o with [] => None | _ => Some (u ++ g ++ v ++ s) end.
Proof.
  intros W U G V SS. assert (SG : starts_space (g ++ v ++ s) = true) by now apply starts_space_gap. destruct W as [|b1 o b2 g' B1 O B2 G'|b1 o1 g1 o2 b2 g' B1 O1 G1 O2 B2 G'].
  - cbn [app]. destruct U as (U & U1 & _). destruct u as [|c u]; [destruct U; congruence|]. cbn [app options_rest]. destruct (aeqb c "[") eqn:E; auto. apply aeqb_eq in E. exfalso. apply U1. left. auto.
  - assert (FORM : ((s_ "[" ++ b1 ++ o ++ b2 ++ s_ "]") ++ g') ++ u ++ g ++ v ++ s = "["%char :: b1 ++ o ++ (b2 ++ s_ "]" ++ g' ++ u ++ g ++ v ++ s)) by (rewrite <- !app_assoc; reflexivity).
    rewrite FORM. change (match s_ "[" ++ b1 ++ o ++ b2 ++ s_ "]" with [] => None | _ => Some (u ++ g ++ v ++ s) end) with (Some (u ++ g ++ v ++ s)). unfold options_rest. cbn [aeqb]. change (aeqb "[" "[") with true. cbv iota.
    rewrite snd_blanks by (auto; apply O). destruct (close_is o b2 g' u (g ++ v ++ s) O B2 G' U SG) as (w & r & -> & WW & C & CN & CB). rewrite C.
    assert (TWO : (let (w2, r2) := span nonspace (snd (span is_space r)) in close_options w2 r2) = None).
    { destruct b2 as [|c b2].
      - destruct (CN eq_refl) as [_ ->]. rewrite snd_blanks by (apply G' || apply U). rewrite span_word by (auto; apply U). now apply no_close.
      - destruct CB as [_ ->]; [discriminate|]. assert (WB : word (s_ "]")) by (split; [discriminate|repeat constructor]). rewrite snd_blanks by auto. rewrite span_word by auto.
        unfold close_options. destruct (span nonspace (snd (span is_space (g' ++ u ++ g ++ v ++ s)))) as [w' r']. reflexivity. }
    rewrite TWO. now destruct (_ && _).
  - assert (FORM : ((s_ "[" ++ b1 ++ o1 ++ g1 ++ o2 ++ b2 ++ s_ "]") ++ g') ++ u ++ g ++ v ++ s = "["%char :: b1 ++ o1 ++ g1 ++ o2 ++ (b2 ++ s_ "]" ++ g' ++ u ++ g ++ v ++ s)) by (rewrite <- !app_assoc; reflexivity).
    rewrite FORM. match goal with |- _ = ?X => change X with (Some (u ++ g ++ v ++ s)) end. unfold options_rest. change (aeqb "[" "[") with true. cbv iota.
    rewrite snd_blanks by (auto; apply O1). rewrite span_word by (auto; apply O1). rewrite key_value_setting, starts_space_gap by auto. cbn [andb]. rewrite snd_blanks by (apply G1 || apply O2).
    destruct (close_is o2 b2 g' u (g ++ v ++ s) O2 B2 G' U SG) as (w & r & -> & WW & C & _). now rewrite C.
Qed.
Lemma written_strip o text : written_options o text -> exists g, blanks g /\ text = o ++ g /\ (o = [] -> text = []) /\ strip (o ++ g) = o /\ (o <> [] -> gap g).
Proof.
  assert (ST : forall m g, blanks g -> strip ((s_ "[" ++ m ++ s_ "]") ++ g) = s_ "[" ++ m ++ s_ "]").
  { intros m g G. unfold strip. replace (lstrip ((s_ "[" ++ m ++ s_ "]") ++ g)) with ((s_ "[" ++ m ++ s_ "]") ++ g) by reflexivity.
    unfold rstrip. rewrite rev_app_distr. assert (L : forall x t, blanks x -> lstrip (x ++ t) = lstrip t) by (induction 1 as [|c x C X IH]; auto; cbn [app lstrip]; now rewrite C).
    rewrite L by now apply Forall_rev. rewrite app_assoc, rev_app_distr. change (rev (s_ "]")) with ["]"%char]. cbn [app lstrip]. change (is_space "]") with false. cbv iota. cbn [rev]. rewrite rev_involutive. now rewrite <- app_assoc. }
  intros W. destruct W as [|b1 o b2 g' B1 O B2 G'|b1 o1 g1 o2 b2 g' B1 O1 G1 O2 B2 G'].
  - exists []. split; [constructor|]. repeat split; auto; congruence.
  - exists g'. split; [apply G'|]. split; [reflexivity|]. split; [discriminate|]. split; [|auto]. specialize (ST (b1 ++ o ++ b2) g' (proj2 G')). rewrite <- !app_assoc in *. exact ST.
  - exists g'. split; [apply G'|]. split; [reflexivity|]. split; [discriminate|]. split; [|auto]. specialize (ST (b1 ++ o1 ++ g1 ++ o2 ++ b2) g' (proj2 G')). rewrite <- !app_assoc in *. exact ST.
Qed.
Lemma strip_words a w s v b : blanks a -> word w -> word v -> blanks b -> strip (a ++ w ++ s ++ v ++ b) = w ++ s ++ v.
Proof.
  intros A W V B. assert (L : forall x t, blanks x -> lstrip (x ++ t) = lstrip t) by (induction 1 as [|c x C X IH]; auto; cbn [app lstrip]; now rewrite C).
  assert (LW : forall w t, word w -> lstrip (w ++ t) = w ++ t) by (intros x t [N F]; destruct F as [|c x C F]; [congruence|]; cbn [app lstrip]; now rewrite C).
  unfold strip. rewrite L, LW by auto. unfold rstrip. rewrite !rev_app_distr, <- !app_assoc. rewrite L by now apply Forall_rev. 
  assert (RV : word (rev v)) by (destruct V as [N F]; split; [intros E; apply N; rewrite <- (rev_involutive v), E; reflexivity|now apply Forall_rev]).
  rewrite LW by auto. rewrite !rev_app_distr, !rev_involutive. now rewrite <- !app_assoc.
Qed.
Lemma split1_text w g t : word w -> gap g -> starts_space t = false -> split1 (w ++ g ++ t) = Some (w, t).
Proof.
  intros W G T. unfold split1. rewrite span_word by auto. destruct (g ++ t) as [|c r] eqn:E; [destruct G as [N _]; destruct g; [congruence|discriminate]|]. rewrite <- E.
  rewrite (span_is is_space g t); [reflexivity|apply G|]. destruct t; auto.
Qed.
Lemma starts_word w s : word w -> starts_space (w ++ s) = false.
Proof. intros [N F]. destruct F as [|c w C F]; [congruence|]. exact C. Qed.
Lemma rstrip_text y : y <> [] -> starts_space y = false -> exists z, rstrip y <> [] /\ y = rstrip y ++ z /\ blanks z /\ split_ws (rstrip y) = split_ws y /\ forall x, rstrip (x ++ y) = x ++ rstrip y.
Proof.
  intros N S. destruct (rstrip_spec y) as (b & E & B & [R|(c & t & R & C)]).
  - exfalso. rewrite R in E. cbn [app] in E. subst b. destruct y as [|c y]; [congruence|]. inversion B; subst. cbn in S. congruence.
  - exists b. assert (NE : rstrip y <> []) by (rewrite R; destruct t; discriminate). repeat split; auto.
    + rewrite E at 2. now rewrite words_blank_r.
    + intros x. rewrite R in *. rewrite E. unfold rstrip. rewrite rev_app_distr, rev_app_distr. assert (L : forall u v, blanks u -> lstrip (u ++ v) = lstrip v) by (induction 1 as [|d u D U IH]; auto; cbn [app lstrip]; now rewrite D).
      rewrite <- app_assoc. rewrite L by now apply Forall_rev. rewrite rev_app_distr. cbn [rev app lstrip]. rewrite C. cbn [rev]. rewrite rev_app_distr, !rev_involutive. now rewrite <- app_assoc.
Qed.
Lemma rstrip_starts y : y <> [] -> starts_space y = false -> starts_space (rstrip y) = false.
Proof. intros N S. destruct (rstrip_text y N S) as (z & NE & E & _). destruct (rstrip y) as [|c r]; [congruence|]. rewrite E in S. exact S. Qed.
Lemma strip_line b0 ty rest : blanks b0 -> word ty -> forall mid y, rest = mid ++ y -> y <> [] -> starts_space y = false -> strip (b0 ++ ty ++ rest) = ty ++ mid ++ rstrip y.
Proof.
  intros B T mid y -> N S. unfold strip. assert (L : forall x t, blanks x -> lstrip (x ++ t) = lstrip t) by (induction 1 as [|c x C X IH]; auto; cbn [app lstrip]; now rewrite C).
  rewrite L by auto. replace (lstrip (ty ++ mid ++ y)) with (ty ++ mid ++ y) by (destruct T as [NT F]; destruct F as [|c w C F]; [congruence|]; cbn [app lstrip]; now rewrite C).
  destruct (rstrip_text y N S) as (z & _ & _ & _ & _ & X). rewrite app_assoc, X. now rewrite <- app_assoc.
Qed.
