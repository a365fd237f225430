(** Lemmas about the string functions. *)
From Coq Require Import Ascii String List Bool NArith Arith Lia.
From Verif Require Import Str_Model.
Import ListNotations.
Open Scope list_scope.

Lemma aeqb_eq : forall a b, aeqb a b = true <-> a = b.
Proof. intros. apply Ascii.eqb_eq. Qed.
Lemma aeqb_refl : forall a, aeqb a a = true.
Proof. intros. apply aeqb_eq. auto. Qed.
Lemma aeqb_neq : forall a b, aeqb a b = false <-> a <> b.
Proof. intros. apply Ascii.eqb_neq. Qed.

Lemma seqb_eq : forall a b, seqb a b = true <-> a = b.
Proof.
  induction a as [|x a IH]; destruct b as [|y b]; cbn; try (split; congruence).
  rewrite andb_true_iff, aeqb_eq, IH. split; [intros [-> ->]|intros [= -> ->]]; auto.
Qed.
Lemma seqb_refl : forall a, seqb a a = true.
Proof. intros. apply seqb_eq. auto. Qed.
Lemma seqb_neq : forall a b, seqb a b = false <-> a <> b.
Proof. intros. rewrite <- seqb_eq. destruct (seqb a b); split; congruence. Qed.
Lemma seqb_sym : forall a b, seqb a b = seqb b a.
Proof.
  intros. destruct (seqb a b) eqn:E, (seqb b a) eqn:F; auto;
    rewrite ?seqb_eq, ?seqb_neq in *; congruence.
Qed.
Lemma str_eq_dec : forall a b : str, {a = b} + {a <> b}.
Proof. intros. destruct (seqb a b) eqn:E; [left; apply seqb_eq|right; apply seqb_neq]; auto. Qed.

Lemma mem_str_In : forall x l, mem_str x l = true <-> In x l.
Proof.
  intros. unfold mem_str. rewrite existsb_exists. split.
  - intros [y [I E]]. apply seqb_eq in E. subst. auto.
  - intros I. exists x. split; auto. apply seqb_refl.
Qed.
Lemma mem_str_false : forall x l, mem_str x l = false <-> ~ In x l.
Proof. intros. rewrite <- mem_str_In. destruct (mem_str x l); split; congruence. Qed.

Lemma startswith_iff : forall p s, startswith p s = true <-> exists t, s = p ++ t.
Proof.
  induction p as [|x p IH]; intros s; cbn.
  - split; [exists s; auto|auto].
  - destruct s as [|y s]; [split; [congruence|intros [t E]; discriminate]|].
    rewrite andb_true_iff, aeqb_eq, IH. split.
    + intros [-> [t ->]]. exists t. auto.
    + intros [t [= -> ->]]. split; eauto.
Qed.
Lemma startswith_app : forall p s, startswith p (p ++ s) = true.
Proof. intros. apply startswith_iff. eauto. Qed.
Lemma endswith_iff : forall p s, endswith p s = true <-> exists t, s = t ++ p.
Proof.
  intros. unfold endswith. rewrite startswith_iff. split.
  - intros [t E]. exists (rev t). rewrite <- (rev_involutive s), E, rev_app_distr, rev_involutive. auto.
  - intros [t ->]. exists (rev t). apply rev_app_distr.
Qed.
Lemma endswith_app : forall p s, endswith p (s ++ p) = true.
Proof. intros. apply endswith_iff. eauto. Qed.

Lemma contains_sub_iff : forall sub s, contains_sub sub s = true <-> exists a b, s = a ++ sub ++ b.
Proof.
  intros sub. induction s as [|c s IH]; cbn [contains_sub].
  - rewrite orb_false_r, startswith_iff. split.
    + intros [t E]. exists [], t. auto.
    + intros [a [b E]]. destruct a; [exists b; auto|discriminate].
  - rewrite orb_true_iff, startswith_iff, IH. split.
    + intros [[t E]|[a [b E]]]; [exists [], t; auto|exists (c :: a), b; cbn; congruence].
    + intros [a [b E]]. destruct a as [|x a]; [left; exists b; auto|].
      right. exists a, b. cbn in E. congruence.
Qed.

(* ------------- whitespace splitting ------------- *)

(** A word: non-empty and without white space. *)
Definition word (w : str) : Prop := w <> [] /\ Forall (fun c => is_space c = false) w.

Lemma split_ws_aux_nospace : forall w cur rest,
  Forall (fun c => is_space c = false) w ->
  split_ws_aux cur (w ++ rest) = split_ws_aux (rev w ++ cur) rest.
Proof.
  induction w as [|c w IH]; intros cur rest F; [reflexivity|].
  inversion F; subst. cbn. rewrite H1, IH by auto. rewrite <- app_assoc. reflexivity.
Qed.

Lemma split_ws_aux_flush : forall cur c s, cur <> [] -> is_space c = true ->
  split_ws_aux cur (c :: s) = rev cur :: split_ws s.
Proof. intros. cbn. rewrite H0. destruct cur; [congruence|reflexivity]. Qed.

Lemma split_ws_word : forall w c s, word w -> is_space c = true ->
  split_ws (w ++ c :: s) = w :: split_ws s.
Proof.
  intros w c s [N F] S. unfold split_ws at 1. rewrite split_ws_aux_nospace by auto.
  rewrite app_nil_r, split_ws_aux_flush; auto.
  - rewrite rev_involutive. reflexivity.
  - intros E. apply N. rewrite <- (rev_involutive w), E. reflexivity.
Qed.
Lemma split_ws_single : forall w, word w -> split_ws w = [w].
Proof.
  intros w [N F]. unfold split_ws. rewrite <- (app_nil_r w) at 1.
  rewrite split_ws_aux_nospace by auto. rewrite app_nil_r. cbn.
  destruct (rev w) eqn:E.
  - exfalso. apply N. rewrite <- (rev_involutive w), E. reflexivity.
  - rewrite <- E, rev_involutive. reflexivity.
Qed.
Lemma split_ws_space : forall c s, is_space c = true -> split_ws (c :: s) = split_ws s.
Proof. intros. unfold split_ws. cbn. rewrite H. reflexivity. Qed.

Lemma split_ws_aux_words : forall s cur, Forall (fun c => is_space c = false) cur ->
  Forall word (split_ws_aux cur s).
Proof.
  induction s as [|c s IH]; intros cur F; cbn.
  - destruct cur; constructor; auto. split.
    + intros E. apply (f_equal (@length _)) in E. rewrite rev_length in E. discriminate.
    + apply Forall_rev. auto.
  - destruct (is_space c) eqn:E.
    + destruct cur; [apply IH; constructor|]. constructor; [|apply IH; constructor].
      split; [|apply Forall_rev; auto].
      intros X. apply (f_equal (@length _)) in X. rewrite rev_length in X. discriminate.
    + apply IH. constructor; auto.
Qed.
Lemma split_ws_words : forall s, Forall word (split_ws s).
Proof. intros. apply split_ws_aux_words. constructor. Qed.

Lemma is_space_sp : is_space " "%char = true.
Proof. reflexivity. Qed.

Lemma split_ws_join : forall ws, Forall word ws -> split_ws (join (s_ " ") ws) = ws.
Proof.
  induction ws as [|w ws IH]; intros F; [reflexivity|].
  inversion F; subst. destruct ws as [|w2 ws].
  - apply split_ws_single; auto.
  - change (join (s_ " ") (w :: w2 :: ws)) with (w ++ " "%char :: join (s_ " ") (w2 :: ws)).
    rewrite split_ws_word by auto. rewrite IH by auto. reflexivity.
Qed.

(** Concatenation with white space in between concatenates the word lists. *)
Lemma split_ws_app : forall s c t, is_space c = true ->
  split_ws (s ++ c :: t) = split_ws s ++ split_ws t.
Proof.
  intros s c t S. unfold split_ws at 1 2. generalize (@nil ascii) as cur.
  induction s as [|x s IH]; intros cur; cbn.
  - rewrite S. destruct cur; reflexivity.
  - destruct (is_space x); [destruct cur|]; rewrite IH; reflexivity.
Qed.

(* ------------- splitting at a character ------------- *)

Definition no_char (c : ascii) (s : str) : Prop := Forall (fun x => aeqb x c = false) s.

Lemma no_char_In : forall c s, no_char c s <-> ~ In c s.
Proof.
  intros. unfold no_char. rewrite Forall_forall. split.
  - intros H I. apply H in I. rewrite aeqb_refl in I. discriminate.
  - intros H x I. apply aeqb_neq. intros ->. auto.
Qed.

Lemma split_aux_nosep : forall sep w cur rest, no_char sep w ->
  split_aux sep cur (w ++ rest) = split_aux sep (rev w ++ cur) rest.
Proof.
  induction w as [|c w IH]; intros cur rest F; [reflexivity|].
  inversion F; subst. cbn. rewrite H1, IH by auto. rewrite <- app_assoc. reflexivity.
Qed.
Lemma split_on_cons : forall sep w rest, no_char sep w ->
  split_on sep (w ++ sep :: rest) = w :: split_on sep rest.
Proof.
  intros. unfold split_on at 1. rewrite split_aux_nosep by auto. rewrite app_nil_r.
  cbn. rewrite aeqb_refl, rev_involutive. reflexivity.
Qed.
Lemma split_on_single : forall sep w, no_char sep w -> split_on sep w = [w].
Proof.
  intros. unfold split_on. rewrite <- (app_nil_r w) at 1. rewrite split_aux_nosep by auto.
  rewrite app_nil_r. cbn. rewrite rev_involutive. reflexivity.
Qed.
Lemma split_on_join : forall sep ws, ws <> [] -> Forall (no_char sep) ws ->
  split_on sep (join [sep] ws) = ws.
Proof.
  intros sep ws. induction ws as [|w ws IH]; intros N F; [congruence|].
  inversion F; subst. destruct ws as [|w2 ws].
  - apply split_on_single; auto.
  - change (join [sep] (w :: w2 :: ws)) with (w ++ sep :: join [sep] (w2 :: ws)).
    rewrite split_on_cons by auto. rewrite IH by (auto; congruence). reflexivity.
Qed.

Lemma split_aux_spec : forall sep s cur, no_char sep cur ->
  Forall (no_char sep) (split_aux sep cur s) /\ split_aux sep cur s <> [] /\
  join [sep] (split_aux sep cur s) = rev cur ++ s.
Proof.
  induction s as [|c s IH]; intros cur F; cbn.
  - split; [|split]; [|congruence|rewrite app_nil_r; auto].
    constructor; [apply Forall_rev; auto|constructor].
  - destruct (aeqb c sep) eqn:E.
    + apply aeqb_eq in E. subst. destruct (IH [] (Forall_nil _)) as (A & B & C).
      split; [constructor; [apply Forall_rev; auto|auto]|]. split; [congruence|].
      destruct (split_aux sep [] s) as [|w ws] eqn:G; [congruence|].
      change (join [sep] (rev cur :: w :: ws)) with (rev cur ++ sep :: join [sep] (w :: ws)).
      rewrite C. reflexivity.
    + destruct (IH (c :: cur)) as (A & B & C).
      { constructor; auto. }
      split; [auto|]. split; [auto|]. rewrite C. cbn. rewrite <- app_assoc. reflexivity.
Qed.
Lemma split_on_spec : forall sep s,
  Forall (no_char sep) (split_on sep s) /\ split_on sep s <> [] /\
  join [sep] (split_on sep s) = s.
Proof. intros. apply (split_aux_spec sep s []). constructor. Qed.

Lemma join_cons : forall sep x l, l <> [] -> join sep (x :: l) = x ++ sep ++ join sep l.
Proof. intros. destruct l; [congruence|reflexivity]. Qed.

Lemma cut_at_none : forall sep s, no_char sep s -> cut_at sep s = (s, None).
Proof.
  induction s as [|c s IH]; intros F; [reflexivity|]. inversion F; subst.
  cbn. rewrite H1, IH by auto. reflexivity.
Qed.
Lemma cut_at_some : forall sep a b, no_char sep a -> cut_at sep (a ++ sep :: b) = (a, Some b).
Proof.
  induction a as [|c a IH]; intros b F; cbn.
  - rewrite aeqb_refl. reflexivity.
  - inversion F; subst. rewrite H1, IH by auto. reflexivity.
Qed.
Lemma cut_at_spec : forall sep s a b, cut_at sep s = (a, b) ->
  no_char sep a /\ match b with None => s = a | Some t => s = a ++ sep :: t end.
Proof.
  induction s as [|c s IH]; intros a b E; cbn in E.
  - injection E as <- <-. split; [constructor|auto].
  - destruct (aeqb c sep) eqn:F.
    + injection E as <- <-. apply aeqb_eq in F. subst. split; [constructor|auto].
    + destruct (cut_at sep s) as [a' b'] eqn:G. injection E as <- <-.
      destruct (IH _ _ eq_refl) as [A B]. split; [constructor; auto|].
      destruct b'; cbn; congruence.
Qed.

(* ------------- stripping ------------- *)
Lemma lstrip_nospace : forall c s, is_space c = false -> lstrip (c :: s) = c :: s.
Proof. intros. cbn. rewrite H. reflexivity. Qed.
Lemma rstrip_snoc : forall c s, is_space c = false -> rstrip (s ++ [c]) = s ++ [c].
Proof.
  intros. unfold rstrip. rewrite rev_app_distr. cbn [rev app]. rewrite lstrip_nospace by auto.
  cbn. rewrite rev_involutive. reflexivity.
Qed.
Lemma lstrip_spec : forall s, exists a, s = a ++ lstrip s /\ Forall (fun c => is_space c = true) a /\
  (lstrip s = [] \/ exists c t, lstrip s = c :: t /\ is_space c = false).
Proof.
  induction s as [|c s IH].
  - exists []. cbn. auto.
  - cbn. destruct (is_space c) eqn:E.
    + destruct IH as [a (A & B & C)]. exists (c :: a). split; [cbn; congruence|]. split; auto.
    + exists []. split; [auto|]. split; [auto|]. right. eauto.
Qed.
Lemma rstrip_spec : forall s, exists b, s = rstrip s ++ b /\ Forall (fun c => is_space c = true) b /\
  (rstrip s = [] \/ exists c t, rstrip s = t ++ [c] /\ is_space c = false).
Proof.
  intros s. destruct (lstrip_spec (rev s)) as [a (A & B & C)]. exists (rev a). unfold rstrip.
  split; [rewrite <- rev_app_distr, <- A, rev_involutive; auto|].
  split; [apply Forall_rev; auto|].
  destruct C as [->|(c & t & -> & E)]; [left; auto|right]. exists c, (rev t). auto.
Qed.
Lemma lstrip_nil_all_space : forall s, Forall (fun c => is_space c = true) s -> lstrip s = [].
Proof. induction s; intros F; [auto|]. inversion F; subst. cbn. rewrite H1. auto. Qed.

(* ------------- decimal numbers ------------- *)
Lemma fold_dec_app : forall a b acc,
  fold_left (fun a c => (a * 10 + digit_val c)%N) (a ++ b) acc =
  fold_left (fun a c => (a * 10 + digit_val c)%N) b (fold_left (fun a c => (a * 10 + digit_val c)%N) a acc).
Proof. intros. apply fold_left_app. Qed.

Lemma digit_char : forall d, (d < 10)%N ->
  is_digit (ascii_of_N (48 + d)) = true /\ digit_val (ascii_of_N (48 + d)) = d.
Proof.
  intros d H. unfold is_digit, digit_val. rewrite N_ascii_embedding by lia. split.
  - apply andb_true_iff. split; apply N.leb_le; lia.
  - lia.
Qed.

Lemma dec_aux_spec : forall fuel n acc, (n < 10 ^ N.of_nat fuel)%N -> fuel <> 0 ->
  exists ds, dec_aux fuel n acc = ds ++ acc /\ ds <> [] /\ Forall (fun c => is_digit c = true) ds /\
    dec_val ds = n /\ (forall d ds', ds = d :: ds' -> ds' <> [] -> digit_val d <> 0%N).
Proof.
  induction fuel as [|f IH]; intros n acc L NZ; [congruence|].
  cbn [dec_aux].
  assert (D : (n mod 10 < 10)%N) by (apply N.mod_lt; lia).
  destruct (digit_char _ D) as [D1 D2].
  destruct (n / 10 =? 0)%N eqn:E.
  - apply N.eqb_eq in E. exists [ascii_of_N (48 + n mod 10)]. split; [auto|]. split; [congruence|].
    split; [auto|]. split.
    + unfold dec_val. cbn [fold_left]. rewrite D2. pose proof (N.div_mod n 10). lia.
    + intros d ds' [= <- <-]. congruence.
  - apply N.eqb_neq in E.
    destruct (IH (n / 10)%N (ascii_of_N (48 + n mod 10) :: acc)) as (ds & A & B & C & V & Z0).
    { apply N.div_lt_upper_bound; [lia|]. rewrite <- N.pow_succ_r'.
      replace (N.succ (N.of_nat f)) with (N.of_nat (S f)) by lia. auto. }
    { intros ->. cbn in L. assert (n / 10 = 0)%N by (apply N.div_small; lia). congruence. }
    exists (ds ++ [ascii_of_N (48 + n mod 10)]). split; [rewrite A, <- app_assoc; auto|].
    split; [intros X; apply app_eq_nil in X; destruct X; congruence|].
    split; [apply Forall_app; auto|]. split.
    + unfold dec_val. rewrite fold_dec_app. fold (dec_val ds). rewrite V. cbn [fold_left]. rewrite D2.
      pose proof (N.div_mod n 10). lia.
    + intros d ds' X Y. destruct ds as [|e ds]; [congruence|]. cbn in X. injection X as <- <-.
      destruct ds as [|e' ds].
      * unfold dec_val in V. cbn in V. lia.
      * apply (Z0 e (e' :: ds)); congruence.
Qed.

Lemma dec_fuel : forall n, (n < 10 ^ N.of_nat (S (N.to_nat (N.log2 n))))%N.
Proof.
  intros n. replace (N.of_nat (S (N.to_nat (N.log2 n)))) with (N.succ (N.log2 n)) by lia.
  destruct (N.eq_dec n 0) as [->|Z]; [cbn; lia|].
  pose proof (N.log2_spec n ltac:(lia)) as [_ H].
  eapply N.lt_le_trans; [exact H|]. apply N.pow_le_mono_l. lia.
Qed.

Lemma dec_spec : forall n, dec n <> [] /\ Forall (fun c => is_digit c = true) (dec n) /\ dec_val (dec n) = n /\
  (forall d ds', dec n = d :: ds' -> ds' <> [] -> digit_val d <> 0%N).
Proof.
  intros n. unfold dec.
  destruct (dec_aux_spec (S (N.to_nat (N.log2 n))) n [] (dec_fuel n) ltac:(congruence))
    as (ds & A & B & C & D & E).
  rewrite A, app_nil_r. auto.
Qed.
Lemma dec_inj : forall a b, dec a = dec b -> a = b.
Proof. intros a b E. pose proof (dec_spec a). pose proof (dec_spec b). destruct H as (_&_&<-&_), H0 as (_&_&<-&_). congruence. Qed.

Lemma digit_not_space : forall c, is_digit c = true -> is_space c = false.
Proof.
  intros c. unfold is_digit, is_space. set (n := N_of_ascii c). intros H.
  apply andb_true_iff in H. destruct H as [A B]. apply N.leb_le in A, B.
  repeat (apply orb_false_iff; split); try (apply andb_false_iff);
    rewrite ?N.leb_gt, ?N.eqb_neq; lia.
Qed.
