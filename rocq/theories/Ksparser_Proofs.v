(** Proofs about kickstart argument types. *)
From Coq Require Import Ascii String List Bool NArith ZArith Lia.
From Verif Require Import Str_Model Str_Proofs Ksparser_Model Ksparser_Spec.
Import ListNotations.
Open Scope list_scope.

(** The characters that may occur inside a literal's body. *)
Definition plain (c : ascii) : Prop := is_space c = false /\ c <> "+"%char /\ c <> "-"%char.

Section Digits.
  Variable dig : ascii -> option N.
  Variable digR : ascii -> N -> Prop.
  Variable base : N.
  Hypothesis dig_ok : forall c v, dig c = Some v <-> digR c v.
  Hypothesis dig_us : dig "_"%char = None.
  Hypothesis dig_plain : forall c v, dig c = Some v -> plain c.

  Lemma join_us_cons : forall c g gs, join (s_ "_") ((c :: g) :: gs) = c :: join (s_ "_") (g :: gs).
  Proof. intros. destruct gs; reflexivity. Qed.
  Lemma join_us_nil : forall g gs, join (s_ "_") ([] :: g :: gs) = "_"%char :: join (s_ "_") (g :: gs).
  Proof. reflexivity. Qed.

  Lemma digits_spec : forall s acc prev n,
    digits dig base acc prev s = Some n <->
    exists g0 gs vs, (prev = false -> g0 <> []) /\ Forall (fun g => g <> []) gs /\
      s = join (s_ "_") (g0 :: gs) /\ Forall2 digR (g0 ++ concat gs) vs /\
      n = fold_left (fun a v => (a * base + v)%N) vs acc.
  Proof.
    induction s as [|c s IH]; intros acc prev n.
    - cbn. split.
      + destruct prev; [|discriminate]. intros [= <-]. exists [], [], [].
        split; [congruence|]. split; [constructor|]. split; [reflexivity|]. split; constructor.
      + intros (g0 & gs & vs & P & F & E & D & ->).
        destruct g0; [|destruct gs; discriminate].
        destruct prev; [|exfalso; apply P; auto].
        destruct gs; [|discriminate]. inversion D; subst. reflexivity.
    - cbn [digits]. split.
      + destruct (dig c) as [d|] eqn:G.
        * intros H. apply IH in H. destruct H as (g0 & gs & vs & P & F & E & D & ->).
          exists (c :: g0), gs, (d :: vs). split; [congruence|]. split; [auto|].
          split; [rewrite join_us_cons; congruence|]. split; [|reflexivity].
          cbn. constructor; auto. apply dig_ok; auto.
        * destruct (aeqb c "_"%char && prev) eqn:U; [|discriminate].
          apply andb_true_iff in U. destruct U as [U ->]. apply aeqb_eq in U. subst c.
          intros H. apply IH in H. destruct H as (g0 & gs & vs & P & F & E & D & ->).
          exists [], (g0 :: gs), vs. split; [congruence|].
          split; [constructor; auto|]. split; [rewrite join_us_nil; congruence|]. split; auto.
      + intros (g0 & gs & vs & P & F & E & D & ->).
        destruct g0 as [|x g0].
        * destruct gs as [|g1 gs]; [discriminate|].
          rewrite join_us_nil in E. injection E as -> ->. rewrite dig_us.
          destruct prev; [|exfalso; apply P; auto]. cbn [aeqb andb]. rewrite aeqb_refl. cbn [andb].
          apply IH. inversion F; subst. exists g1, gs, vs. auto.
        * rewrite join_us_cons in E. injection E as -> ->. cbn in D.
          inversion D as [|? v ? vs' V D']; subst. apply dig_ok in V. rewrite V.
          apply IH. exists g0, gs, vs'. split; [congruence|]. auto.
  Qed.

  Lemma digits_top : forall s n,
    digits dig base 0 false s = Some n <-> digit_groups digR base s n.
  Proof.
    intros. rewrite digits_spec. unfold digit_groups. split.
    - intros (g0 & gs & vs & P & F & E & D & N). exists (g0 :: gs), vs.
      split; [congruence|]. split; [constructor; auto|]. auto.
    - intros (gs & vs & P & F & E & D & N). destruct gs as [|g0 gs]; [congruence|].
      inversion F; subst. exists g0, gs, vs. auto.
  Qed.

  Lemma digits_plain : forall s acc prev n, digits dig base acc prev s = Some n ->
    Forall plain s /\ (prev = false -> s <> []).
  Proof.
    induction s as [|c s IH]; intros acc prev n H; cbn in H.
    - split; [constructor|]. intros ->. discriminate.
    - split; [|congruence]. destruct (dig c) eqn:G.
      + constructor; [eapply dig_plain; eauto|]. eapply IH; eauto.
      + destruct (aeqb c "_"%char && prev) eqn:U; [|discriminate].
        apply andb_true_iff in U. destruct U as [U ->]. apply aeqb_eq in U. subst c.
        constructor; [repeat split; [discriminate|discriminate]|]. eapply IH; eauto.
  Qed.
End Digits.

Lemma strip_exact : forall a t b, blank a -> blank b -> t <> [] -> Forall (fun c => is_space c = false) t ->
  strip (a ++ t ++ b) = t.
Proof.
  intros a t b A B N F. unfold strip.
  assert (L : lstrip (a ++ t ++ b) = t ++ b).
  { induction A; cbn.
    - destruct t as [|c t]; [congruence|]. inversion F; subst. cbn. rewrite H1. reflexivity.
    - rewrite H. auto. }
  rewrite L. unfold rstrip. rewrite rev_app_distr.
  assert (R : lstrip (rev b ++ rev t) = rev t).
  { apply Forall_rev in B. induction B; cbn.
    - destruct (rev t) as [|c u] eqn:E; [reflexivity|].
      assert (is_space c = false). { apply Forall_rev in F. rewrite E in F. inversion F; auto. }
      cbn. rewrite H. reflexivity.
    - rewrite H. auto. }
  rewrite R. apply rev_involutive.
Qed.

Lemma strip_decomp : forall s, exists a b, s = a ++ strip s ++ b /\ blank a /\ blank b.
Proof.
  intros s. destruct (lstrip_spec s) as (a & A & B & _). destruct (rstrip_spec (lstrip s)) as (b & C & D & _).
  exists a, b. split; [|auto]. unfold strip. rewrite <- C. exact A.
Qed.

Lemma signed_spec : forall f body s z,
  (forall ds n, f ds = Some n <-> body ds n) ->
  (forall ds n, f ds = Some n -> Forall plain ds /\ ds <> []) ->
  signed f (strip s) = Some z <-> signed_literal body s z.
Proof.
  intros f body s z OK PL. split.
  - intros H. destruct (strip_decomp s) as (a & b & E & A & B).
    unfold signed in H. destruct (strip s) as [|c t] eqn:T; [discriminate|].
    destruct (aeqb c "-"%char) eqn:M; [|destruct (aeqb c "+"%char) eqn:P].
    + apply aeqb_eq in M. subst c. destruct (f t) as [n|] eqn:F; [|discriminate].
      injection H as <-. exists a, (s_ "-"), t, b, n.
      split; [auto|]. split; [auto|]. split; [exact E|]. split; [apply OK; auto|auto].
    + apply aeqb_eq in P. subst c. destruct (f t) as [n|] eqn:F; [|discriminate].
      injection H as <-. exists a, (s_ "+"), t, b, n.
      split; [auto|]. split; [auto|]. split; [exact E|]. split; [apply OK; auto|auto].
    + destruct (f (c :: t)) as [n|] eqn:F; [|discriminate].
      injection H as <-. exists a, [], (c :: t), b, n.
      split; [auto|]. split; [auto|]. split; [exact E|]. split; [apply OK; auto|auto].
  - intros (a & sg & ds & b & n & A & B & E & D & Z).
    apply OK in D. destruct (PL _ _ D) as [P N].
    assert (NS : Forall (fun c => is_space c = false) ds).
    { eapply Forall_impl; [|exact P]. intros c [H _]. exact H. }
    rewrite E, app_assoc, <- app_assoc.
    replace (sg ++ ds ++ b) with ((sg ++ ds) ++ b) by (rewrite app_assoc; auto).
    rewrite strip_exact; auto.
    + destruct Z as [[-> ->]|[[-> ->]|[-> ->]]]; cbn.
      * destruct ds as [|c ds]; [congruence|]. inversion P as [|? ? [_ [X Y]] _]; subst.
        unfold signed. apply aeqb_neq in X, Y. rewrite X, Y, D. reflexivity.
      * rewrite D. reflexivity.
      * rewrite D. reflexivity.
    + destruct Z as [[-> _]|[[-> _]|[-> _]]]; cbn; congruence.
    + apply Forall_app. split; auto.
      destruct Z as [[-> _]|[[-> _]|[-> _]]]; repeat constructor.
Qed.

Lemma ascii_bound : forall c, (N_of_ascii c < 256)%N.
Proof. apply N_ascii_bounded. Qed.

Lemma dec_digit_ok : forall c v, dec_digit c = Some v <-> dec_digit_is c v.
Proof.
  intros c v. unfold dec_digit, dec_digit_is. split.
  - destruct (is_digit c) eqn:D; [|discriminate]. intros [= <-].
    unfold is_digit in D. apply andb_true_iff in D. destruct D as [A B]. apply N.leb_le in A, B.
    unfold digit_val. split; [lia|].
    replace (48 + (N_of_ascii c - 48))%N with (N_of_ascii c) by lia. symmetry. apply ascii_N_embedding.
  - intros [L ->]. destruct (digit_char v L) as [A B]. rewrite A, B. reflexivity.
Qed.

Lemma plain_range : forall c, let n := N_of_ascii c in
  (48 <= n <= 57 \/ 65 <= n <= 70 \/ 97 <= n <= 102)%N -> plain c.
Proof.
  intros c n H. subst n. unfold plain. split.
  - unfold is_space.
    repeat (apply orb_false_iff; split); try (apply andb_false_iff);
    rewrite ?N.leb_gt, ?N.eqb_neq; lia.
  - split; intros ->; cbn in H; lia.
Qed.
Lemma dec_digit_plain : forall c v, dec_digit c = Some v -> plain c.
Proof.
  intros c v H. apply plain_range. unfold dec_digit, is_digit in H.
  destruct ((48 <=? _)%N && _) eqn:D; [|discriminate]. apply andb_true_iff in D.
  destruct D as [A B]. apply N.leb_le in A, B. lia.
Qed.

Lemma py_int_spec : forall s z, py_int s = Some z <-> int_literal s z.
Proof.
  intros. unfold py_int, int_literal. apply signed_spec.
  - intros. apply digits_top; [exact dec_digit_ok|reflexivity].
  - intros ds n H. destruct (digits_plain dec_digit 10 dec_digit_plain ds 0%N false n H). auto.
Qed.

Ltac nb := repeat match goal with
  | H : (_ && _) = true |- _ => apply andb_true_iff in H; destruct H
  | H : (_ <=? _)%N = true |- _ => apply N.leb_le in H
  | H : (_ <=? _)%N = false |- _ => apply N.leb_gt in H
  end.

Lemma hex_digit_ok : forall c v, hex_digit c = Some v <-> hex_digit_is c v.
Proof.
  intros c v. unfold hex_digit, hex_digit_is, is_digit. split.
  - pose proof (ascii_N_embedding c) as EM.
    destruct ((48 <=? N_of_ascii c)%N && (N_of_ascii c <=? 57)%N) eqn:D;
     [|destruct ((97 <=? N_of_ascii c)%N && (N_of_ascii c <=? 102)%N) eqn:D2;
       [|destruct ((65 <=? N_of_ascii c)%N && (N_of_ascii c <=? 70)%N) eqn:D3; [|discriminate]]];
     intros [= <-]; nb.
    + left. split; [lia|]. replace (48 + (N_of_ascii c - 48))%N with (N_of_ascii c) by lia. auto.
    + right. split; [lia|]. left. replace (87 + (N_of_ascii c - 87))%N with (N_of_ascii c) by lia. auto.
    + right. split; [lia|]. right. replace (55 + (N_of_ascii c - 55))%N with (N_of_ascii c) by lia. auto.
  - intros [[L ->]|[L [->| ->]]]; rewrite N_ascii_embedding by lia.
    + replace ((48 <=? 48 + v)%N && (48 + v <=? 57)%N) with true;
       [f_equal; lia|symmetry; apply andb_true_iff; rewrite !N.leb_le; lia].
    + replace ((48 <=? 87 + v)%N && (87 + v <=? 57)%N) with false;
       [|symmetry; apply andb_false_iff; right; apply N.leb_gt; lia].
      replace ((97 <=? 87 + v)%N && (87 + v <=? 102)%N) with true;
       [f_equal; lia|symmetry; apply andb_true_iff; rewrite !N.leb_le; lia].
    + replace ((48 <=? 55 + v)%N && (55 + v <=? 57)%N) with false;
       [|symmetry; apply andb_false_iff; right; apply N.leb_gt; lia].
      replace ((97 <=? 55 + v)%N && (55 + v <=? 102)%N) with false;
       [|symmetry; apply andb_false_iff; left; apply N.leb_gt; lia].
      replace ((65 <=? 55 + v)%N && (55 + v <=? 70)%N) with true;
       [f_equal; lia|symmetry; apply andb_true_iff; rewrite !N.leb_le; lia].
Qed.
Lemma hex_digit_plain : forall c v, hex_digit c = Some v -> plain c.
Proof.
  intros c v H. apply plain_range. unfold hex_digit, is_digit in H.
  destruct ((48 <=? N_of_ascii c)%N && (N_of_ascii c <=? 57)%N) eqn:D;
     [|destruct ((97 <=? N_of_ascii c)%N && (N_of_ascii c <=? 102)%N) eqn:D2;
       [|destruct ((65 <=? N_of_ascii c)%N && (N_of_ascii c <=? 70)%N) eqn:D3; [|discriminate]]];
  nb; lia.
Qed.

Lemma digits_x : forall x s acc prev, (x = "x" \/ x = "X")%char ->
  digits hex_digit 16 acc prev (x :: s) = None.
Proof. intros x s acc prev [->| ->]; reflexivity. Qed.

Lemma hex_body_ok : forall ds n, hex_body ds = Some n <->
  (digit_groups hex_digit_is 16 ds n \/
     exists p t, (p = s_ "0x" \/ p = s_ "0X" \/ p = s_ "0x_" \/ p = s_ "0X_") /\
                 ds = p ++ t /\ digit_groups hex_digit_is 16 t n).
Proof.
  pose proof (digits_top hex_digit hex_digit_is 16 hex_digit_ok eq_refl) as T.
  intros ds n. split.
  - intros H. unfold hex_body in H.
    destruct ds as [|c [|x s']]; [left; apply T; auto|left; apply T; auto|].
    destruct (aeqb c "0"%char && (aeqb x "x"%char || aeqb x "X"%char)) eqn:E; [|left; apply T; auto].
    apply andb_true_iff in E. destruct E as [C X]. apply aeqb_eq in C. subst c.
    apply orb_true_iff in X. right. destruct s' as [|u s'']; [discriminate|].
    destruct (aeqb u "_"%char) eqn:U.
    + apply aeqb_eq in U. subst u. apply T in H.
      destruct X as [X|X]; apply aeqb_eq in X; subst x.
      * exists (s_ "0x_"), s''. auto.
      * exists (s_ "0X_"), s''. auto.
    + apply T in H. destruct X as [X|X]; apply aeqb_eq in X; subst x.
      * exists (s_ "0x"), (u :: s''). auto.
      * exists (s_ "0X"), (u :: s''). auto.
  - intros [H|(p & t & P & -> & H)].
    + apply T in H. unfold hex_body. destruct ds as [|c [|x s']]; auto.
      destruct (aeqb c "0"%char && (aeqb x "x"%char || aeqb x "X"%char)) eqn:E; auto.
      exfalso. apply andb_true_iff in E. destruct E as [C X]. apply aeqb_eq in C. subst c.
      cbn [digits] in H. change (hex_digit "0") with (Some 0%N) in H.
      apply orb_true_iff in X. rewrite !aeqb_eq in X. 
      destruct X as [->| ->]; cbn in H; discriminate.
    + apply T in H.
      assert (NU : forall u t', t = u :: t' -> aeqb u "_"%char = false).
      { intros u t' ->. destruct (aeqb u "_"%char) eqn:U; auto. apply aeqb_eq in U. subst u. discriminate. }
      destruct P as [->|[->|[->| ->]]]; cbn.
      * destruct t as [|u t]; [discriminate|]. rewrite (NU _ _ eq_refl). auto.
      * destruct t as [|u t]; [discriminate|]. rewrite (NU _ _ eq_refl). auto.
      * auto.
      * auto.
Qed.

Lemma hex_body_plain : forall ds n, hex_body ds = Some n -> Forall plain ds /\ ds <> [].
Proof.
  intros ds n H.
  pose proof (digits_plain hex_digit 16 hex_digit_plain) as P.
  unfold hex_body in H. destruct ds as [|c [|x s']].
  - discriminate.
  - split; [|congruence]. eapply P; eauto.
  - split; [|congruence].
    destruct (aeqb c "0"%char && (aeqb x "x"%char || aeqb x "X"%char)) eqn:E; [|eapply P; eauto].
    apply andb_true_iff in E. destruct E as [C X]. apply aeqb_eq in C. subst c.
    apply orb_true_iff in X. rewrite !aeqb_eq in X.
    assert (plain "0"%char) by (repeat split; discriminate).
    assert (plain x) by (destruct X as [->| ->]; repeat split; discriminate).
    constructor; auto. constructor; auto.
    destruct s' as [|u s'']; [constructor|]. destruct (aeqb u "_"%char) eqn:U.
    + apply aeqb_eq in U. subst u. constructor; [repeat split; discriminate|]. eapply P; eauto.
    + eapply P; eauto.
Qed.

Lemma py_int16_spec : forall s z, py_int16 s = Some z <-> hex_literal s z.
Proof.
  intros. unfold py_int16, hex_literal. apply signed_spec; [exact hex_body_ok|exact hex_body_plain].
Qed.

Lemma apply_suffix_spec : forall ib suffix n v,
  apply_suffix ib suffix n = Some v <->
  exists c u, suffix = [c] /\ unit_bytes ib c u /\ (v * (if ib then 1 else 1024) = n * u)%Z.
Proof.
  intros ib suffix n v. unfold apply_suffix, unit_bytes. split.
  - destruct ib; cbn [andb].
    + destruct (seqb suffix (s_ "s") || seqb suffix (s_ "S")) eqn:A.
      { intros [= <-]. apply orb_true_iff in A. rewrite !seqb_eq in A.
        destruct A as [->| ->]; eexists; exists 512%Z; (split; [reflexivity|]); split;
          try (left; auto; fail); lia. }
      destruct (seqb suffix (s_ "k") || seqb suffix (s_ "K")) eqn:B.
      { intros [= <-]. apply orb_true_iff in B. rewrite !seqb_eq in B.
        destruct B as [->| ->]; eexists; exists 1024%Z; (split; [reflexivity|]); split;
          try (right; left; auto; fail); lia. }
      destruct (seqb suffix (s_ "M")) eqn:C.
      { intros [= <-]. apply seqb_eq in C. subst. eexists; exists (1024*1024)%Z.
        split; [reflexivity|]. split; [right; right; left; auto|lia]. }
      destruct (seqb suffix (s_ "G")) eqn:D; [|discriminate].
      intros [= <-]. apply seqb_eq in D. subst. eexists; exists (1024*1024*1024)%Z.
      split; [reflexivity|]. split; [right; right; right; auto|lia].
    + destruct (seqb suffix (s_ "k") || seqb suffix (s_ "K")) eqn:B.
      { intros [= <-]. apply orb_true_iff in B. rewrite !seqb_eq in B.
        destruct B as [->| ->]; eexists; exists 1024%Z; (split; [reflexivity|]); split;
          try (right; left; auto; fail); lia. }
      destruct (seqb suffix (s_ "M")) eqn:C.
      { intros [= <-]. apply seqb_eq in C. subst. eexists; exists (1024*1024)%Z.
        split; [reflexivity|]. split; [right; right; left; auto|lia]. }
      destruct (seqb suffix (s_ "G")) eqn:D; [|discriminate].
      intros [= <-]. apply seqb_eq in D. subst. eexists; exists (1024*1024*1024)%Z.
      split; [reflexivity|]. split; [right; right; right; auto|lia].
  - intros (c & u & -> & U & V).
    destruct U as [(-> & [->| ->] & ->)|[([->| ->] & ->)|[(-> & ->)|(-> & ->)]]];
      try destruct ib; cbn; f_equal; lia.
Qed.

Lemma sizetype_spec : forall d ib arg v,
  sizetype [d] ib arg = Some v <->
  exists n c u,
    ((int_literal arg n /\ c = d) \/
     ((forall m, ~ int_literal arg m) /\ exists num, arg = num ++ [c] /\ int_literal num n)) /\
    unit_bytes ib c u /\ (v * (if ib then 1 else 1024) = n * u)%Z.
Proof.
  intros d ib arg v. unfold sizetype. destruct (py_int arg) as [n0|] eqn:P.
  - rewrite apply_suffix_spec. split.
    + intros (c & u & [= <-] & U & V). exists n0, d, u. split; [left; split; auto; apply py_int_spec; auto|auto].
    + intros (n & c & u & [[L ->]|[N _]] & U & V).
      * apply py_int_spec in L. assert (n = n0) by congruence. subst. exists d, u. auto.
      * exfalso. apply (N n0). apply py_int_spec; auto.
  - assert (NL : forall m, ~ int_literal arg m).
    { intros m L. apply py_int_spec in L. congruence. }
    destruct (rev arg) as [|c0 r] eqn:R.
    + assert (arg = []) by (rewrite <- (rev_involutive arg), R; auto). subst.
      cbn. split; [discriminate|]. intros (n & c & u & [[L _]|[_ (num & E & _)]] & _).
      * apply NL in L. contradiction.
      * destruct num; discriminate.
    + assert (A : arg = rev r ++ [c0]) by (rewrite <- (rev_involutive arg), R; auto).
      rewrite A, removelast_last. rewrite <- A. destruct (py_int (rev r)) as [n0|] eqn:Q.
      * rewrite apply_suffix_spec. split.
        { intros (c & u & [= <-] & U & V). exists n0, c0, u. split; [|auto].
          right. split; [auto|]. exists (rev r). split; [auto|apply py_int_spec; auto]. }
        { intros (n & c & u & [[L _]|[_ (num & E & L)]] & U & V); [apply NL in L; contradiction|].
          rewrite A in E. apply app_inj_tail in E. destruct E as [<- <-].
          apply py_int_spec in L. assert (n = n0) by congruence. subst. exists c0, u. auto. }
      * split; [discriminate|].
        intros (n & c & u & [[L _]|[_ (num & E & L)]] & U & V); [apply NL in L; contradiction|].
        rewrite A in E. apply app_inj_tail in E. destruct E as [<- <-].
        apply py_int_spec in L. congruence.
Qed.

Lemma systemid_spec : forall arg r, systemidtype arg = Some r <->
  r = arg /\ exists n, hex_literal arg n /\ (1 <= n <= 255)%Z.
Proof.
  intros. unfold systemidtype. destruct (py_int16 arg) as [n|] eqn:P.
  - split.
    + destruct ((n <=? 0)%Z || (255 <? n)%Z) eqn:E; [discriminate|]. intros [= <-].
      apply orb_false_iff in E. destruct E as [A B]. apply Z.leb_gt in A. apply Z.ltb_ge in B.
      split; [auto|]. exists n. split; [apply py_int16_spec; auto|lia].
    + intros [-> [m [L B]]]. apply py_int16_spec in L. assert (m = n) by congruence. subst.
      replace ((n <=? 0)%Z || (255 <? n)%Z) with false; auto.
      symmetry. apply orb_false_iff. rewrite Z.leb_gt, Z.ltb_ge. lia.
  - split; [discriminate|]. intros [-> [m [L B]]]. apply py_int16_spec in L. congruence.
Qed.

(** The decimal representation of a number is a literal for it. *)
Lemma dec_literal : forall n, int_literal (dec n) (Z.of_N n).
Proof.
  intros n. destruct (dec_spec n) as (A & B & C & _).
  exists [], [], (dec n), [], n. split; [constructor|]. split; [constructor|].
  split; [rewrite app_nil_r; auto|]. split; [|auto].
  exists [dec n], (map digit_val (dec n)). split; [congruence|]. split; [auto|]. split; [auto|].
  split.
  - clear - B. generalize dependent (dec n). intros l B. cbn [concat]. rewrite app_nil_r.
    induction B; cbn [map]; constructor; auto.
    apply dec_digit_ok. unfold dec_digit. rewrite H. reflexivity.
  - rewrite <- C at 1. unfold dec_val.
    assert (G : forall l acc, fold_left (fun a c => (a * 10 + digit_val c)%N) l acc =
       fold_left (fun a v => (a * 10 + v)%N) (map digit_val l) acc).
    { induction l; intros; cbn; auto. }
    apply G.
Qed.
Lemma int_literal_fun : forall s a b, int_literal s a -> int_literal s b -> a = b.
Proof. intros s a b A B. apply py_int_spec in A, B. congruence. Qed.

Lemma suffixed_not_literal : forall num c m, is_digit c = false -> is_space c = false ->
  ~ int_literal (num ++ [c]) m.
Proof.
  intros num c m D S (a & sg & ds & b & n & A & B & E & G & _).
  destruct G as (gs & vs & G1 & G2 & G3 & G4 & _).
  destruct (rev b) as [|x rb] eqn:RB.
  - assert (b = []) by (rewrite <- (rev_involutive b), RB; auto). subst b. rewrite app_nil_r in E.
    (* the last character of ds is a digit *)
    assert (exists ds' x, ds = ds' ++ [x] /\ is_digit x = true) as (ds' & x & -> & X).
    { clear E A B. subst ds. revert vs G2 G4. induction gs as [|g gs IH]; intros vs G2 G4; [congruence|].
      inversion G2; subst. destruct gs as [|g2 gs].
      - cbn in *. rewrite app_nil_r in G4.
        destruct (rev g) as [|x r] eqn:R; [exfalso; apply H1; rewrite <- (rev_involutive g), R; auto|].
        exists (rev r), x. assert (Eg : g = rev r ++ [x]) by (rewrite <- (rev_involutive g), R; auto).
        split; [auto|]. rewrite Eg in G4. apply Forall2_app_inv_l in G4.
        destruct G4 as (v1 & v2 & _ & F & _). inversion F; subst. destruct H3 as [L ->].
        apply digit_char; auto.
      - cbn [concat] in G4. apply Forall2_app_inv_l in G4. destruct G4 as (v1 & v2 & _ & F & _).
        destruct (IH ltac:(congruence) v2 H2 F) as (ds' & x & E & X).
        exists (g ++ s_ "_" ++ ds'), x. split; [|auto].
        rewrite join_cons by congruence. rewrite E, !app_assoc. reflexivity. }
    rewrite !app_assoc in E. apply app_inj_tail in E. destruct E as [_ <-]. congruence.
  - assert (b = rev rb ++ [x]) by (rewrite <- (rev_involutive b), RB; auto). subst b.
    rewrite !app_assoc in E. apply app_inj_tail in E. destruct E as [_ <-].
    apply Forall_app in B. destruct B as [_ B]. inversion B; subst. congruence.
Qed.
