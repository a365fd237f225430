(** Proofs about version comparison. *)
From Coq Require Import Ascii String List Bool NArith ZArith Lia.
From Verif Require Import Str_Model Str_Proofs Ksparser_Model Vercmp_Model Vercmp_Spec.
Import ListNotations.
Open Scope list_scope.

Lemma nascii_inj : forall a b, N_of_ascii a = N_of_ascii b -> a = b.
Proof. intros a b H. rewrite <- (ascii_N_embedding a), <- (ascii_N_embedding b), H. reflexivity. Qed.

Ltac nx := repeat match goal with
  | H : (_ <? _)%N = true |- _ => apply N.ltb_lt in H
  | H : (_ <? _)%N = false |- _ => apply N.ltb_ge in H
  | H : aeqb _ _ = true |- _ => apply aeqb_eq in H
  | H : aeqb _ _ = false |- _ => apply aeqb_neq in H
  end.

Lemma str_ltb_irrefl : forall a, str_ltb a a = false.
Proof. induction a; cbn; auto. rewrite N.ltb_irrefl, aeqb_refl. auto. Qed.
Lemma str_ltb_trans : forall a b c, str_ltb a b = true -> str_ltb b c = true -> str_ltb a c = true.
Proof.
  induction a as [|x a IH]; destruct b as [|y b], c as [|z c]; cbn; try congruence.
  intros H1 H2.
  destruct (N_of_ascii x <? N_of_ascii y)%N eqn:A; destruct (N_of_ascii y <? N_of_ascii z)%N eqn:B; nx.
  - replace (N_of_ascii x <? N_of_ascii z)%N with true; auto. symmetry. apply N.ltb_lt. lia.
  - destruct (aeqb y z) eqn:E; [|congruence]. nx. subst.
    replace (N_of_ascii x <? N_of_ascii z)%N with true; auto. symmetry. apply N.ltb_lt. lia.
  - destruct (aeqb x y) eqn:E; [|congruence]. nx. subst.
    replace (N_of_ascii y <? N_of_ascii z)%N with true; auto. symmetry. apply N.ltb_lt. lia.
  - destruct (aeqb x y) eqn:E; [|congruence]. destruct (aeqb y z) eqn:F; [|congruence]. nx. subst.
    rewrite N.ltb_irrefl, aeqb_refl. eauto.
Qed.
Lemma str_ltb_total : forall a b, str_ltb a b = false -> str_ltb b a = false -> a = b.
Proof.
  induction a as [|x a IH]; destruct b as [|y b]; cbn; try congruence.
  intros H1 H2.
  destruct (N_of_ascii x <? N_of_ascii y)%N eqn:A; [congruence|].
  destruct (N_of_ascii y <? N_of_ascii x)%N eqn:B; [congruence|]. nx.
  assert (x = y) by (apply nascii_inj; lia). subst. rewrite aeqb_refl in *. f_equal. auto.
Qed.
Lemma str_ltb_asym : forall a b, str_ltb a b = true -> str_ltb b a = false.
Proof.
  intros a b H. destruct (str_ltb b a) eqn:E; auto.
  pose proof (str_ltb_trans _ _ _ H E). rewrite str_ltb_irrefl in *. congruence.
Qed.

(** content_ltb is a strict total order on tokens of the same kind. *)
Definition samekind (a b : tok) : Prop := tord (Some a) = tord (Some b).
Lemma content_irrefl : forall a, content_ltb a a = false.
Proof. intros [|x|x|x]; cbn [content_ltb]; auto using str_ltb_irrefl, N.ltb_irrefl. Qed.
Lemma content_trans : forall a b c,
  content_ltb a b = true -> content_ltb b c = true -> content_ltb a c = true.
Proof.
  intros [|x|x|x] [|y|y|y] [|z|z|z]; cbn [content_ltb]; try congruence; eauto using str_ltb_trans;
    intros; nx; apply N.ltb_lt; lia.
Qed.
Lemma content_total : forall a b, samekind a b ->
  content_ltb a b = false -> content_ltb b a = false -> a = b.
Proof.
  intros [|x|x|x] [|y|y|y]; unfold samekind; cbn [content_ltb tord]; try discriminate; auto; intros; f_equal; nx.
  - lia.
  - apply str_ltb_total; auto.
  - apply nascii_inj. lia.
Qed.
Lemma content_asym : forall a b, content_ltb a b = true -> content_ltb b a = false.
Proof.
  intros a b H. destruct (content_ltb b a) eqn:E; auto.
  pose proof (content_trans _ _ _ H E). rewrite content_irrefl in *. congruence.
Qed.
Lemma content_samekind : forall a b, content_ltb a b = true -> samekind a b.
Proof. intros [|x|x|x] [|y|y|y]; cbn [content_ltb]; try discriminate; reflexivity. Qed.

(** A three-way comparison of two positions. *)
Definition lt_tok (a b : option tok) : Prop :=
  (tord a < tord b)%Z \/
  (tord a = tord b /\ match a, b with
                      | None, Some _ => True
                      | Some x, Some y => content_ltb x y = true
                      | _, _ => False
                      end).

Lemma lt_tok_trans : forall a b c, lt_tok a b -> lt_tok b c -> lt_tok a c.
Proof.
  unfold lt_tok. intros a b c [H|[H1 H2]] [K|[K1 K2]]; try (left; lia).
  right. split; [lia|]. destruct a, b, c; try contradiction; auto. eapply content_trans; eauto.
Qed.
Lemma lt_tok_irrefl : forall a, ~ lt_tok a a.
Proof.
  unfold lt_tok. intros a [H|[_ H]]; [lia|]. destruct a; [rewrite content_irrefl in H|]; congruence.
Qed.
Lemma lt_tok_total : forall a b, lt_tok a b \/ a = b \/ lt_tok b a.
Proof.
  intros a b. unfold lt_tok.
  destruct (Z.lt_trichotomy (tord a) (tord b)) as [H|[H|H]]; auto.
  destruct a as [x|], b as [y|]; auto.
  destruct (content_ltb x y) eqn:E; auto. destruct (content_ltb y x) eqn:F; auto.
  right. left. f_equal. apply content_total; auto.
Qed.

Lemma cmp_tok_spec : forall a b,
  (cmp_tok a b = Some (-1)%Z /\ lt_tok a b) \/
  (cmp_tok a b = Some 1%Z /\ lt_tok b a) \/
  (a = b /\ cmp_tok a b = match a with None => Some 0%Z | Some _ => None end).
Proof.
  intros a b.
  assert (CASE : (a = None /\ b = None) \/ (cmp_tok a b =
      (if (tord a <? tord b)%Z then Some (-1)%Z
      else if (tord b <? tord a)%Z then Some 1%Z
      else match a, b with
           | None, _ => Some (-1)%Z
           | _, None => Some 1%Z
           | Some x, Some y => if content_ltb x y then Some (-1)%Z
                               else if content_ltb y x then Some 1%Z else None
           end) /\ (a <> None \/ b <> None))).
  { destruct a, b; auto; right; split; auto; try (left; congruence); right; congruence. }
  destruct CASE as [[-> ->]|[-> NN]]; [right; right; auto|].
  unfold lt_tok.
  destruct (Z.ltb_spec (tord a) (tord b)) as [H|H]; [left; auto|].
  destruct (Z.ltb_spec (tord b) (tord a)) as [K|K]; [right; left; auto|].
  assert (tord a = tord b) by lia.
  destruct a as [x|], b as [y|].
  - destruct (content_ltb x y) eqn:E; [left; auto|].
    destruct (content_ltb y x) eqn:F; [right; left; split; auto|].
    right. right. split; auto. f_equal. apply content_total; auto.
  - right. left. split; auto.
  - left. auto.
  - destruct NN; congruence.
Qed.

(** Comparison of the padded sequences. *)
Definition hd_ (l : list tok) : option tok := match l with [] => None | x :: _ => Some x end.
Lemma cmp_toks_eq : forall a b,
  cmp_toks a b = match cmp_tok (hd_ a) (hd_ b) with Some r => r | None => cmp_toks (tl a) (tl b) end.
Proof.
  intros a b. destruct a as [|x a], b as [|y b]; cbn [cmp_toks hd_ tl]; auto.
  - destruct (cmp_tok None (Some y)) eqn:E; auto.
    destruct (cmp_tok_spec None (Some y)) as [[A _]|[[A _]|[A _]]]; congruence.
  - destruct (cmp_tok (Some x) None) eqn:E; auto. 
    destruct (cmp_tok_spec (Some x) None) as [[A _]|[[A _]|[A _]]]; congruence.
Qed.

Lemma cmp_toks_range : forall a b, cmp_toks a b = (-1)%Z \/ cmp_toks a b = 0%Z \/ cmp_toks a b = 1%Z.
Proof.
  induction a as [|x a IH]; intros b; rewrite cmp_toks_eq.
  - destruct (cmp_tok_spec (hd_ []) (hd_ b)) as [[-> _]|[[-> _]|[A ->]]]; auto.
  - destruct (cmp_tok_spec (hd_ (x :: a)) (hd_ b)) as [[-> _]|[[-> _]|[A ->]]]; auto.
    cbn. apply IH.
Qed.

Lemma cmp_toks_zero : forall a b, cmp_toks a b = 0%Z <-> a = b.
Proof.
  induction a as [|x a IH]; intros b; rewrite cmp_toks_eq.
  - destruct (cmp_tok_spec (hd_ []) (hd_ b)) as [[-> L]|[[-> L]|[A ->]]]; cbn in *.
    + split; [discriminate|]. intros <-. apply lt_tok_irrefl in L. contradiction.
    + split; [discriminate|]. intros <-. apply lt_tok_irrefl in L. contradiction.
    + split; auto. intros _. destruct b; [auto|discriminate].
  - destruct (cmp_tok_spec (hd_ (x :: a)) (hd_ b)) as [[-> L]|[[-> L]|[A ->]]]; cbn in *.
    + split; [discriminate|]. intros <-. apply lt_tok_irrefl in L. contradiction.
    + split; [discriminate|]. intros <-. apply lt_tok_irrefl in L. contradiction.
    + destruct b as [|y b]; [discriminate|]. injection A as ->. cbn. rewrite IH. split; congruence.
Qed.

Lemma cmp_toks_opp : forall a b, cmp_toks b a = (- cmp_toks a b)%Z.
Proof.
  induction a as [|x a IH]; intros b; rewrite (cmp_toks_eq b), (cmp_toks_eq _ b).
  - destruct (cmp_tok_spec (hd_ []) (hd_ b)) as [[-> L]|[[-> L]|[A ->]]];
    destruct (cmp_tok_spec (hd_ b) (hd_ [])) as [[-> M]|[[-> M]|[B ->]]]; auto;
      try (exfalso; eapply lt_tok_irrefl; eapply lt_tok_trans; eauto; fail);
      try (rewrite A in *; exfalso; eapply lt_tok_irrefl; eauto; fail);
      try (rewrite B in *; exfalso; eapply lt_tok_irrefl; eauto; fail).
    rewrite B. auto.
  - destruct (cmp_tok_spec (hd_ (x :: a)) (hd_ b)) as [[-> L]|[[-> L]|[A ->]]];
    destruct (cmp_tok_spec (hd_ b) (hd_ (x :: a))) as [[-> M]|[[-> M]|[B ->]]]; auto;
      try (exfalso; eapply lt_tok_irrefl; eapply lt_tok_trans; eauto; fail);
      try (rewrite A in *; exfalso; eapply lt_tok_irrefl; eauto; fail);
      try (rewrite B in *; exfalso; eapply lt_tok_irrefl; eauto; fail).
    rewrite B. cbn. apply IH.
Qed.

Lemma cmp_toks_lt_trans : forall a b c,
  cmp_toks a b = (-1)%Z -> cmp_toks b c = (-1)%Z -> cmp_toks a c = (-1)%Z.
Proof.
  induction a as [|x a IH]; intros b c H K;
    rewrite cmp_toks_eq in H; rewrite cmp_toks_eq in K; rewrite cmp_toks_eq.
  - destruct (cmp_tok_spec (hd_ []) (hd_ b)) as [[E L]|[[E L]|[A E]]]; rewrite E in H; try discriminate.
    destruct (cmp_tok_spec (hd_ b) (hd_ c)) as [[F M]|[[F M]|[B F]]]; rewrite F in K; try discriminate.
    + destruct (cmp_tok_spec (hd_ []) (hd_ c)) as [[-> _]|[[_ N]|[C _]]]; auto; exfalso.
      * apply (lt_tok_irrefl (hd_ [])). eapply lt_tok_trans; [|exact N]. eapply lt_tok_trans; eauto.
      * rewrite C in *. apply (lt_tok_irrefl (hd_ c)). eapply lt_tok_trans; eauto.
    + rewrite <- B. rewrite E. auto.
  - destruct (cmp_tok_spec (hd_ (x :: a)) (hd_ b)) as [[E L]|[[E L]|[A E]]]; rewrite E in H; try discriminate.
    + destruct (cmp_tok_spec (hd_ b) (hd_ c)) as [[F M]|[[F M]|[B F]]]; rewrite F in K; try discriminate.
      * destruct (cmp_tok_spec (hd_ (x :: a)) (hd_ c)) as [[-> _]|[[_ N]|[C _]]]; auto; exfalso.
        { apply (lt_tok_irrefl (hd_ (x :: a))). eapply lt_tok_trans; [|exact N]. eapply lt_tok_trans; eauto. }
        { rewrite C in *. apply (lt_tok_irrefl (hd_ c)). eapply lt_tok_trans; eauto. }
      * rewrite <- B, E. auto.
    + cbn in H. rewrite A. destruct (cmp_tok_spec (hd_ b) (hd_ c)) as [[F M]|[[F M]|[B F]]];
        rewrite F in *; try discriminate; auto.
      rewrite <- A in *. cbn in *. eapply IH; eauto.
Qed.

Lemma vercmp_part_refl : forall a, vercmp_part a a = 0%Z.
Proof. intros. unfold vercmp_part. apply cmp_toks_zero. auto. Qed.

Lemma vercmp_opp_ : forall a b, vercmp b a = (- vercmp a b)%Z.
Proof.
  intros a b. unfold vercmp, vercmp_part.
  rewrite (cmp_toks_opp (explode_version (v_version a)) (explode_version (v_version b))).
  rewrite (cmp_toks_opp (explode_version (v_rev a)) (explode_version (v_rev b))).
  destruct (v_epoch a - v_epoch b =? 0)%Z eqn:E.
  - apply Z.eqb_eq in E. replace (v_epoch b - v_epoch a)%Z with 0%Z by lia. cbn [Z.eqb].
    destruct (cmp_toks (explode_version (v_version a)) _ =? 0)%Z eqn:F.
    + apply Z.eqb_eq in F. rewrite F. reflexivity.
    + apply Z.eqb_neq in F.
      replace (- cmp_toks (explode_version (v_version a)) (explode_version (v_version b)) =? 0)%Z with false; auto.
      symmetry. apply Z.eqb_neq. lia.
  - rewrite E. apply Z.eqb_neq in E.
    replace (v_epoch b - v_epoch a =? 0)%Z with false by (symmetry; apply Z.eqb_neq; lia).
    replace (v_epoch b - v_epoch a =? 0)%Z with false by (symmetry; apply Z.eqb_neq; lia).
    lia.
Qed.

Lemma vercmp_cases : forall a b,
  (v_epoch a <> v_epoch b /\ vercmp a b = (v_epoch a - v_epoch b)%Z) \/
  (v_epoch a = v_epoch b /\ explode_version (v_version a) <> explode_version (v_version b) /\
   vercmp a b = vercmp_part (v_version a) (v_version b) /\ vercmp a b <> 0%Z) \/
  (v_epoch a = v_epoch b /\ explode_version (v_version a) = explode_version (v_version b) /\
   vercmp a b = vercmp_part (v_rev a) (v_rev b)).
Proof.
  intros a b. unfold vercmp. destruct (v_epoch a - v_epoch b =? 0)%Z eqn:E.
  - apply Z.eqb_eq in E. right.
    destruct (vercmp_part (v_version a) (v_version b) =? 0)%Z eqn:F.
    + apply Z.eqb_eq in F. right. split; [lia|]. split; [apply cmp_toks_zero; auto|auto].
    + apply Z.eqb_neq in F. left. split; [lia|]. split; [|auto].
      intros X. apply F. apply cmp_toks_zero. auto.
  - rewrite E. apply Z.eqb_neq in E. left. split; [lia|auto].
Qed.

Lemma part_range : forall a b, vercmp_part a b = (-1)%Z \/ vercmp_part a b = 0%Z \/ vercmp_part a b = 1%Z.
Proof. intros. apply cmp_toks_range. Qed.

Lemma vercmp_trans_ : forall a b c, (vercmp a b <= 0)%Z -> (vercmp b c <= 0)%Z -> (vercmp a c <= 0)%Z.
Proof.
  intros a b c H K.
  assert (T : forall x y z, (vercmp_part x y <= 0)%Z -> (vercmp_part y z <= 0)%Z ->
              (vercmp_part x z <= 0)%Z /\
              (vercmp_part x z = 0%Z -> explode_version x = explode_version y /\ explode_version y = explode_version z)).
  { intros x y z A B. unfold vercmp_part in *.
    destruct (part_range x y) as [E|[E|E]]; unfold vercmp_part in E; [| |lia];
    destruct (part_range y z) as [F|[F|F]]; unfold vercmp_part in F; try lia.
    - rewrite (cmp_toks_lt_trans _ _ _ E F). split; [lia|]. discriminate.
    - apply cmp_toks_zero in F. rewrite <- F, E. split; [lia|discriminate].
    - apply cmp_toks_zero in E. rewrite E, F. split; [lia|discriminate].
    - apply cmp_toks_zero in E, F. rewrite E, F. split; auto.
      rewrite (proj2 (cmp_toks_zero _ _) eq_refl). lia. }
  destruct (vercmp_cases a b) as [[A1 A2]|[(A1 & A2 & A3 & A4)|(A1 & A2 & A3)]];
  destruct (vercmp_cases b c) as [[B1 B2]|[(B1 & B2 & B3 & B4)|(B1 & B2 & B3)]];
  destruct (vercmp_cases a c) as [[C1 C2]|[(C1 & C2 & C3 & C4)|(C1 & C2 & C3)]]; try lia.
  - rewrite C3. apply (T _ (v_version b)); lia.
  - exfalso. rewrite A3 in *. rewrite B3 in *.
    destruct (T _ _ _ H K) as [_ Q].
    apply A2. apply Q. apply cmp_toks_zero; auto.
  - rewrite C3. unfold vercmp_part. rewrite <- B2. fold (vercmp_part (v_version a) (v_version b)). lia.
  - exfalso. apply A2. congruence.
  - rewrite C3. unfold vercmp_part. rewrite A2. fold (vercmp_part (v_version b) (v_version c)). lia.
  - exfalso. apply B2. congruence.
  - exfalso. apply C2. congruence.
  - rewrite C3. apply (T _ (v_rev b)); lia.
Qed.

(** Equal in the comparison: same epoch, same tokens. *)
Lemma vercmp_zero : forall a b, vercmp a b = 0%Z <->
  v_epoch a = v_epoch b /\ explode_version (v_version a) = explode_version (v_version b) /\
  explode_version (v_rev a) = explode_version (v_rev b).
Proof.
  intros a b. destruct (vercmp_cases a b) as [[A1 A2]|[(A1 & A2 & A3 & A4)|(A1 & A2 & A3)]].
  - split; [lia|]. tauto.
  - split; [lia|]. tauto.
  - rewrite A3. unfold vercmp_part. rewrite cmp_toks_zero. tauto.
Qed.

(* ---------------- tokens of a string ---------------- *)

Lemma span_spec : forall p s a b, span p s = (a, b) ->
  s = a ++ b /\ Forall (fun c => p c = true) a /\ match b with [] => True | c :: _ => p c = false end.
Proof.
  induction s as [|c s IH]; intros a b H; cbn in H.
  - injection H as <- <-. auto.
  - destruct (p c) eqn:E.
    + destruct (span p s) as [x y]. injection H as <- <-. destruct (IH _ _ eq_refl) as (-> & F & G). auto.
    + injection H as <- <-. auto.
Qed.
Lemma span_app : forall p a b, Forall (fun c => p c = true) a ->
  match b with [] => True | c :: _ => p c = false end -> span p (a ++ b) = (a, b).
Proof.
  induction a as [|c a IH]; intros b F G; cbn.
  - destruct b as [|x b]; [auto|]. cbn. rewrite G. auto.
  - inversion F; subst. rewrite H1, IH; auto.
Qed.

Lemma explode_fuel_enough : forall n m s, length s <= n -> length s <= m ->
  explode_fuel n s = explode_fuel m s.
Proof.
  induction n as [|n IH]; intros m s A B.
  - destruct s; [|cbn in A; lia]. destruct m; reflexivity.
  - destruct m as [|m]; [destruct s; [reflexivity|cbn in B; lia]|].
    destruct s as [|c s]; [reflexivity|]. cbn [explode_fuel]. cbn [length] in A, B.
    destruct (is_digit c) eqn:D.
    + destruct (span is_digit (c :: s)) as [a b] eqn:S. f_equal.
      cbn in S. rewrite D in S. destruct (span is_digit s) as [x y] eqn:S2. injection S as <- <-.
      apply span_spec in S2. destruct S2 as (E & _). apply (f_equal (@length _)) in E. rewrite app_length in E.
      apply IH; lia.
    + destruct (is_alpha c) eqn:AL.
      * destruct (span is_alpha (c :: s)) as [a b] eqn:S. f_equal.
        cbn in S. rewrite AL in S. destruct (span is_alpha s) as [x y] eqn:S2. injection S as <- <-.
        apply span_spec in S2. destruct S2 as (E & _). apply (f_equal (@length _)) in E. rewrite app_length in E.
        apply IH; lia.
      * destruct (aeqb c "~"%char); f_equal; apply IH; lia.
Qed.

(** Defining equations of the tokenizer. *)
Lemma explode_nil : explode_version [] = [].
Proof. reflexivity. Qed.
Lemma explode_digits : forall ds r, ds <> [] -> Forall (fun c => is_digit c = true) ds ->
  match r with [] => True | c :: _ => is_digit c = false end ->
  explode_version (ds ++ r) = TNum (dec_val ds) :: explode_version r.
Proof.
  intros ds r N F G. unfold explode_version. destruct ds as [|c ds]; [congruence|].
  inversion F; subst. cbn [app length explode_fuel]. rewrite H1.
  change (c :: ds ++ r) with ((c :: ds) ++ r). rewrite span_app by auto. f_equal.
  apply explode_fuel_enough; rewrite ?app_length; lia.
Qed.
Lemma explode_alpha : forall ds r, ds <> [] -> Forall (fun c => is_alpha c = true) ds ->
  match r with [] => True | c :: _ => is_alpha c = false end ->
  explode_version (ds ++ r) = TAlpha ds :: explode_version r.
Proof.
  intros ds r N F G. unfold explode_version. destruct ds as [|c ds]; [congruence|].
  inversion F; subst. cbn [app length explode_fuel]. rewrite H1.
  assert (is_digit c = false).
  { unfold is_alpha, is_upper, is_lower, is_digit in *. apply orb_true_iff in H1.
    apply andb_false_iff. right. apply N.leb_gt.
    destruct H1 as [H1|H1]; apply andb_true_iff in H1; destruct H1 as [H1 _]; apply N.leb_le in H1; lia. }
  rewrite H. change (c :: ds ++ r) with ((c :: ds) ++ r). rewrite span_app by auto. f_equal.
  apply explode_fuel_enough; rewrite ?app_length; lia.
Qed.
Definition is_other (c : ascii) : bool := negb (is_digit c) && negb (is_alpha c).
Lemma explode_other : forall c r, is_other c = true ->
  explode_version (c :: r) = (if aeqb c "~"%char then TTilde else TChar c) :: explode_version r.
Proof.
  intros c r H. unfold is_other in H. apply andb_true_iff in H. destruct H as [A B].
  apply negb_true_iff in A, B. unfold explode_version. cbn [length explode_fuel]. rewrite A, B.
  destruct (aeqb c "~"%char); reflexivity.
Qed.

(** A boundary between [a] and [b]: no number or word continues across it. *)
Definition boundary (a b : str) : Prop :=
  match rev a, b with
  | x :: _, y :: _ => (is_digit x && is_digit y) = false /\ (is_alpha x && is_alpha y) = false
  | _, _ => True
  end.

Lemma explode_app_fuel : forall n a b, length a <= n -> boundary a b ->
  explode_version (a ++ b) = explode_version a ++ explode_version b.
Proof.
  induction n as [|n IH]; intros a b L B.
  - destruct a; [reflexivity|cbn in L; lia].
  - destruct a as [|c a]; [reflexivity|].
    assert (REST : forall x y, c :: a = x ++ y -> x <> [] ->
              explode_version (y ++ b) = explode_version y ++ explode_version b).
    { intros x y E NX. destruct y as [|y0 y]; [reflexivity|]. apply IH.
      - apply (f_equal (@length _)) in E. rewrite app_length in E. destruct x; [congruence|].
        cbn [length] in *. lia.
      - unfold boundary in *. rewrite E, rev_app_distr in B.
        destruct (rev (y0 :: y)) as [|z zs] eqn:R.
        { apply (f_equal (@length _)) in R. rewrite rev_length in R. discriminate. }
        exact B. }
    assert (GEN : forall p (t : str -> tok),
       (forall ds r, ds <> [] -> Forall (fun c => p c = true) ds ->
          match r with [] => True | c :: _ => p c = false end ->
          explode_version (ds ++ r) = t ds :: explode_version r) ->
       (forall x y xs ys, rev (c :: a) = x :: xs -> b = y :: ys -> p x = true -> p y = true -> False) ->
       p c = true ->
       explode_version ((c :: a) ++ b) = explode_version (c :: a) ++ explode_version b).
    { intros p t EQ BD PC. destruct (span p (c :: a)) as [x y] eqn:S.
      pose proof (span_spec _ _ _ _ S) as (E & F & G).
      assert (NX : x <> []). { cbn in S. rewrite PC in S. destruct (span p a). injection S as <- <-. congruence. }
      rewrite E. rewrite <- app_assoc. rewrite (EQ x y) by auto. rewrite EQ; auto.
      - cbn. f_equal. apply (REST x y); auto.
      - destruct y as [|y0 y]; [|exact G]. rewrite app_nil_r in E. cbn. destruct b as [|b0 b]; [auto|].
        destruct (p b0) eqn:PB; auto. exfalso.
        destruct (rev (c :: a)) as [|z zs] eqn:R.
        { apply (f_equal (@length _)) in R. rewrite rev_length in R. discriminate. }
        apply (BD z b0 zs b eq_refl eq_refl); auto.
        rewrite E in R. apply Forall_rev in F. rewrite R in F. inversion F; auto. }
    destruct (is_digit c) eqn:D; [|destruct (is_alpha c) eqn:AL].
    + apply (GEN is_digit (fun ds => TNum (dec_val ds))); auto.
      * intros. apply explode_digits; auto.
      * intros x y xs ys R -> PX PY. unfold boundary in B. rewrite R, PX, PY in B. destruct B. discriminate.
    + apply (GEN is_alpha TAlpha); auto.
      * intros. apply explode_alpha; auto.
      * intros x y xs ys R -> PX PY. unfold boundary in B. rewrite R, PX, PY in B. destruct B. discriminate.
    + assert (O : is_other c = true) by (unfold is_other; rewrite D, AL; auto).
      cbn [app]. rewrite !explode_other by auto. cbn. f_equal. apply (REST [c] a); [auto|congruence].
Qed.
Lemma explode_app : forall a b, boundary a b ->
  explode_version (a ++ b) = explode_version a ++ explode_version b.
Proof. intros. eapply explode_app_fuel; eauto. Qed.

Lemma cmp_toks_prefix : forall p a b, cmp_toks (p ++ a) (p ++ b) = cmp_toks a b.
Proof.
  induction p as [|t p IH]; intros; [reflexivity|]. cbn [app]. rewrite cmp_toks_eq. cbn [hd_ tl].
  destruct (cmp_tok_spec (Some t) (Some t)) as [[_ L]|[[_ L]|[_ ->]]];
    try (apply lt_tok_irrefl in L; contradiction). apply IH.
Qed.

Lemma boundary_nil_r : forall a, boundary a [].
Proof. intros. unfold boundary. destruct (rev a); auto. Qed.

Lemma vercmp_tilde_ : forall a x, vercmp_part (a ++ "~"%char :: x) a = (-1)%Z.
Proof.
  intros. unfold vercmp_part. rewrite explode_app.
  - rewrite <- (app_nil_r (explode_version a)) at 2. rewrite cmp_toks_prefix.
    rewrite explode_other by reflexivity. reflexivity.
  - unfold boundary. destruct (rev a); auto. split; apply andb_false_r.
Qed.

Lemma str_ltb_prefix : forall a x b, str_ltb a (a ++ x :: b) = true.
Proof. induction a as [|c a IH]; intros; cbn; [auto|]. rewrite N.ltb_irrefl, aeqb_refl. auto. Qed.

Lemma explode_cons_split : forall y ys, exists t ts, explode_version (y :: ys) = t :: ts /\
  (t = TTilde <-> y = "~"%char).
Proof.
  intros y ys. destruct (is_digit y) eqn:D; [|destruct (is_alpha y) eqn:A].
  - destruct (span is_digit (y :: ys)) as [a b] eqn:S. pose proof (span_spec _ _ _ _ S) as (E & F & G).
    assert (a <> []). { cbn in S. rewrite D in S. destruct (span is_digit ys). injection S as <- <-. congruence. }
    rewrite E, explode_digits by auto. eexists. eexists. split; [reflexivity|]. split; [discriminate|].
    intros ->. discriminate.
  - destruct (span is_alpha (y :: ys)) as [a b] eqn:S. pose proof (span_spec _ _ _ _ S) as (E & F & G).
    assert (a <> []). { cbn in S. rewrite A in S. destruct (span is_alpha ys). injection S as <- <-. congruence. }
    rewrite E, explode_alpha by auto. eexists. eexists. split; [reflexivity|]. split; [discriminate|].
    intros ->. discriminate.
  - rewrite explode_other by (unfold is_other; rewrite D, A; auto).
    eexists. eexists. split; [reflexivity|]. destruct (aeqb y "~"%char) eqn:T; nx; split; congruence.
Qed.

Lemma cmp_nil_cons : forall t ts, t <> TTilde -> cmp_toks [] (t :: ts) = (-1)%Z.
Proof. intros t ts H. destruct t; cbn; auto. congruence. Qed.

(** Splitting a string before its trailing run of letters. *)
Lemma trailing_alpha : forall a, exists p w, a = p ++ w /\ Forall (fun c => is_alpha c = true) w /\
  match rev p with [] => True | c :: _ => is_alpha c = false end.
Proof.
  intros a. destruct (span is_alpha (rev a)) as [w p] eqn:S. pose proof (span_spec _ _ _ _ S) as (E & F & G).
  exists (rev p), (rev w). split; [rewrite <- rev_app_distr, <- E, rev_involutive; auto|].
  split; [apply Forall_rev; auto|]. rewrite rev_involutive. exact G.
Qed.

Lemma vercmp_longer_ : forall a c x, c <> "~"%char -> (ends_with_digit a -> is_digit c = false) ->
  vercmp_part a (a ++ c :: x) = (-1)%Z.
Proof.
  intros a c x NT ND.
  destruct (rev a) as [|z zs] eqn:R.
  - assert (a = []) by (rewrite <- (rev_involutive a), R; auto). subst. cbn [app].
    unfold vercmp_part. destruct (explode_cons_split c x) as (t & ts & E & T). rewrite E.
    apply cmp_nil_cons. tauto.
  - assert (A : a = rev zs ++ [z]) by (rewrite <- (rev_involutive a), R; auto).
    assert (NDz : is_digit z && is_digit c = false).
    { destruct (is_digit z) eqn:Z; auto. cbn. apply ND. exists z, (rev zs). auto. }
    destruct (is_alpha z && is_alpha c) eqn:AZ.
    + (* the last word grows *)
      apply andb_true_iff in AZ. destruct AZ as [AZ AC].
      destruct (trailing_alpha a) as (p & w & E & F & G).
      assert (NW : w <> []).
      { intros ->. rewrite app_nil_r in E. subst p. rewrite R in G. congruence. }
      destruct (span is_alpha (c :: x)) as [w2 rest] eqn:S.
      pose proof (span_spec _ _ _ _ S) as (E2 & F2 & G2).
      assert (exists w3, w2 = c :: w3) as [w3 ->].
      { cbn in S. rewrite AC in S. destruct (span is_alpha x). injection S as <- <-. eauto. }
      assert (BD : forall r, (match r with [] => True | y :: _ => is_alpha y = true end) -> boundary p r).
      { intros r HR. unfold boundary. destruct (rev p); auto. destruct r as [|y r]; auto. rewrite G. split; auto.
        assert (is_digit y = false); [|rewrite H; apply andb_false_r].
        unfold is_alpha, is_upper, is_lower, is_digit in *. apply orb_true_iff in HR.
        apply andb_false_iff. right. apply N.leb_gt.
        destruct HR as [H1|H1]; apply andb_true_iff in H1; destruct H1 as [H1 _]; apply N.leb_le in H1; lia. }
      rewrite E2, E. unfold vercmp_part. rewrite <- app_assoc.
      rewrite (explode_app p w) by (apply BD; destruct w; [auto|inversion F; auto]).
      rewrite (explode_app p) by (apply BD; destruct w; [congruence|inversion F; auto]).
      rewrite cmp_toks_prefix. rewrite app_assoc.
      rewrite explode_alpha with (r := rest); auto.
      * rewrite <- (app_nil_r w) at 1. rewrite explode_alpha by auto. cbn [cmp_toks].
        destruct (cmp_tok_spec (Some (TAlpha w)) (Some (TAlpha (w ++ c :: w3)))) as [[-> _]|[[_ L]|[Q _]]]; auto.
        { exfalso. destruct L as [L|[_ L]]; [cbn in L; lia|]. cbn in L.
          pose proof (str_ltb_asym _ _ L). rewrite str_ltb_prefix in H. congruence. }
        { exfalso. injection Q as Q. apply (f_equal (@length _)) in Q. rewrite app_length in Q. cbn in Q. lia. }
      * intros Q. apply app_eq_nil in Q. destruct Q. congruence.
      * apply Forall_app. auto.
    + (* a new token *)
      unfold vercmp_part. rewrite explode_app.
      * rewrite <- (app_nil_r (explode_version a)) at 1. rewrite cmp_toks_prefix.
        destruct (explode_cons_split c x) as (t & ts & E & T). rewrite E.
        apply cmp_nil_cons. tauto.
      * unfold boundary. rewrite R. auto.
Qed.

Lemma vercmp_numeric_ : forall p d1 d2 r1 r2,
  ~ ends_with_digit p -> all_digits d1 -> all_digits d2 ->
  ~ starts_with_digit r1 -> ~ starts_with_digit r2 ->
  vercmp_part (p ++ d1 ++ r1) (p ++ d2 ++ r2) =
  match (dec_val d1 ?= dec_val d2)%N with
  | Lt => (-1)%Z | Gt => 1%Z | Eq => vercmp_part r1 r2
  end.
Proof.
  intros p d1 d2 r1 r2 NP [N1 F1] [N2 F2] S1 S2. unfold vercmp_part.
  assert (BD : forall d r, d <> [] -> Forall (fun c => is_digit c = true) d -> boundary p (d ++ r)).
  { intros d r N F. unfold boundary. destruct (rev p) as [|x xs] eqn:R; auto.
    destruct d as [|y d]; [congruence|]. inversion F; subst. cbn.
    assert (is_digit x = false).
    { destruct (is_digit x) eqn:X; auto. exfalso. apply NP. exists x, (rev xs). split; auto.
      rewrite <- (rev_involutive p), R. auto. }
    rewrite H. split; auto.
    assert (is_alpha y = false); [|rewrite H0; apply andb_false_r].
    clear - H1. unfold is_alpha, is_upper, is_lower, is_digit in *. apply andb_true_iff in H1.
    destruct H1 as [_ H1]. apply N.leb_le in H1. apply orb_false_iff.
    split; apply andb_false_iff; left; apply N.leb_gt; lia. }
  rewrite (explode_app p (d1 ++ r1)), (explode_app p (d2 ++ r2)) by auto. rewrite cmp_toks_prefix.
  assert (NS : forall r, ~ starts_with_digit r -> match r with [] => True | c :: _ => is_digit c = false end).
  { intros [|c r] H; auto. destruct (is_digit c) eqn:D; auto. exfalso. apply H. exists c, r. auto. }
  rewrite (explode_digits d1 r1 N1 F1 (NS r1 S1)), (explode_digits d2 r2 N2 F2 (NS r2 S2)). cbn [cmp_toks].
  unfold cmp_tok. cbn [tord Z.ltb Z.compare content_ltb].
  destruct (N.compare_spec (dec_val d1) (dec_val d2)) as [E|L|G].
  - rewrite E, N.ltb_irrefl. reflexivity.
  - apply N.ltb_lt in L. rewrite L. reflexivity.
  - replace (dec_val d1 <? dec_val d2)%N with false by (symmetry; apply N.ltb_ge; lia).
    apply N.ltb_lt in G. rewrite G. reflexivity.
Qed.
