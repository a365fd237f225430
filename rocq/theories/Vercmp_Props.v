(** Properties C08, C09: version comparison. *)
From Coq Require Import Ascii String List Bool NArith ZArith Lia.
From Verif Require Import Str_Model Str_Proofs Ksparser_Model Vercmp_Model Vercmp_Spec Vercmp_Proofs.
Import ListNotations.
Open Scope list_scope.

(** C08. *)
Theorem vercmp_reflexive : forall a, vercmp a a = 0%Z.
Proof. intros. apply vercmp_zero. auto. Qed.
Theorem vercmp_antisymmetric : forall a b, vercmp b a = (- vercmp a b)%Z.
Proof. exact vercmp_opp_. Qed.
Theorem vercmp_transitive : forall a b c,
  (vercmp a b <= 0)%Z -> (vercmp b c <= 0)%Z -> (vercmp a c <= 0)%Z.
Proof. exact vercmp_trans_. Qed.
(** Strict version: if one of the steps is strict, so is the result. *)
Theorem vercmp_transitive_strict : forall a b c,
  (vercmp a b <= 0)%Z -> (vercmp b c <= 0)%Z -> (vercmp a b < 0 \/ vercmp b c < 0)%Z ->
  (vercmp a c < 0)%Z.
Proof.
  intros a b c H K S. pose proof (vercmp_trans_ a b c H K) as T.
  destruct (Z.eq_dec (vercmp a c) 0) as [E|E]; [|lia]. exfalso.
  assert (R : (vercmp c a <= 0)%Z) by (rewrite vercmp_opp_; lia).
  pose proof (vercmp_trans_ b c a K R). pose proof (vercmp_trans_ c a b R H).
  pose proof (vercmp_opp_ a b). pose proof (vercmp_opp_ b c). lia.
Qed.
Example vercmp_order_example :
  (vercmp (Ver 0 (s_ "1.2~rc1") (s_ "r0")) (Ver 0 (s_ "1.2") (s_ "r0")) < 0)%Z /\
  (vercmp (Ver 0 (s_ "1.2") (s_ "r0")) (Ver 0 (s_ "1.10") (s_ "r0")) < 0)%Z /\
  (vercmp (Ver 0 (s_ "1.10") (s_ "r9")) (Ver 0 (s_ "1.10") (s_ "r10")) < 0)%Z /\
  (vercmp (Ver 0 (s_ "9") (s_ "")) (Ver 1 (s_ "1") (s_ "")) < 0)%Z.
Proof. vm_compute. auto. Qed.
Print Assumptions vercmp_reflexive.
Print Assumptions vercmp_antisymmetric.
Print Assumptions vercmp_transitive.
Print Assumptions vercmp_transitive_strict.

(** C08 for version strings and operators: the operators are the six relations
    of one total preorder. *)
Theorem version_operators_consistent :
  forall a b, vercmp_string a b <> None ->
    exists lt eq gt : bool,
      vercmp_string_op a b (s_ "<") = Some lt /\ vercmp_string_op a b (s_ "=") = Some eq /\
      vercmp_string_op a b (s_ ">") = Some gt /\
      vercmp_string_op a b (s_ "<=") = Some (lt || eq) /\
      vercmp_string_op a b (s_ ">=") = Some (gt || eq) /\
      vercmp_string_op a b (s_ "!=") = Some (negb eq) /\
      vercmp_string_op b a (s_ ">") = Some lt /\ vercmp_string_op b a (s_ "<") = Some gt /\
      vercmp_string_op b a (s_ "=") = Some eq /\
      (* exactly one holds *)
      ((lt = true /\ eq = false /\ gt = false) \/ (lt = false /\ eq = true /\ gt = false) \/
       (lt = false /\ eq = false /\ gt = true)).
Proof.
  intros a b H. unfold vercmp_string_op. unfold vercmp_string in *.
  destruct (split_version a) as [x|]; [|congruence]. destruct (split_version b) as [y|]; [|congruence].
  rewrite (vercmp_opp_ x y). set (r := vercmp x y). cbn [seqb s_ list_ascii_of_string orb].
  exists (r <? 0)%Z, (r =? 0)%Z, (0 <? r)%Z.
  assert (T : (r < 0 \/ r = 0 \/ 0 < r)%Z) by lia.
  destruct T as [T|[T|T]].
  - repeat split; cbn; try (f_equal; rewrite ?(proj2 (Z.ltb_lt _ _)), ?(proj2 (Z.eqb_neq _ _)) by lia);
    repeat match goal with |- context [(?u <? ?v)%Z] => destruct (Z.ltb_spec u v); try lia
           | |- context [(?u <=? ?v)%Z] => destruct (Z.leb_spec u v); try lia
           | |- context [(?u =? ?v)%Z] => destruct (Z.eqb_spec u v); try lia end; auto.
  - repeat split; cbn;
    repeat match goal with |- context [(?u <? ?v)%Z] => destruct (Z.ltb_spec u v); try lia
           | |- context [(?u <=? ?v)%Z] => destruct (Z.leb_spec u v); try lia
           | |- context [(?u =? ?v)%Z] => destruct (Z.eqb_spec u v); try lia end; auto.
  - repeat split; cbn;
    repeat match goal with |- context [(?u <? ?v)%Z] => destruct (Z.ltb_spec u v); try lia
           | |- context [(?u <=? ?v)%Z] => destruct (Z.leb_spec u v); try lia
           | |- context [(?u =? ?v)%Z] => destruct (Z.eqb_spec u v); try lia end; auto.
Qed.
Example version_operators_example :
  vercmp_string (s_ "1:2.3-r4") (s_ ">= 1:2.3-r10") = Some (-1)%Z /\
  vercmp_string_op (s_ "1:2.3-r4") (s_ "2.4") (s_ ">>") = Some true.
Proof. vm_compute. auto. Qed.
Print Assumptions version_operators_consistent.

(** C09.  Numbers by value, leading zeros irrelevant, then the rest decides. *)
Theorem version_numbers_by_value :
  forall p d1 d2 r1 r2,
    ~ ends_with_digit p -> all_digits d1 -> all_digits d2 ->
    ~ starts_with_digit r1 -> ~ starts_with_digit r2 ->
    vercmp_part (p ++ d1 ++ r1) (p ++ d2 ++ r2) =
    match (dec_val d1 ?= dec_val d2)%N with
    | Lt => (-1)%Z | Gt => 1%Z | Eq => vercmp_part r1 r2
    end.
Proof. exact vercmp_numeric_. Qed.
Example version_numbers_example :
  vercmp_part (s_ "1.010b") (s_ "1.9b") = 1%Z /\ vercmp_part (s_ "1.09b") (s_ "1.9c") = (-1)%Z.
Proof. vm_compute. auto. Qed.
Print Assumptions version_numbers_by_value.

(** C09.  '~' sorts before the end of the version. *)
Theorem version_tilde_before_end :
  forall a x, vercmp_part (a ++ "~"%char :: x) a = (-1)%Z.
Proof. exact vercmp_tilde_. Qed.
Print Assumptions version_tilde_before_end.

(** C09.  Any other continuation (letters in particular) sorts after the end. *)
Theorem version_longer_is_newer :
  forall a c x, c <> "~"%char -> (ends_with_digit a -> is_digit c = false) ->
    vercmp_part a (a ++ c :: x) = (-1)%Z.
Proof. exact vercmp_longer_. Qed.
Example version_longer_example :
  vercmp_part (s_ "1.0") (s_ "1.0a") = (-1)%Z /\ vercmp_part (s_ "1.0a") (s_ "1.0ab") = (-1)%Z /\
  vercmp_part (s_ "1.0") (s_ "1.0.") = (-1)%Z.
Proof. vm_compute. auto. Qed.
Print Assumptions version_longer_is_newer.

(** Finding: the order is not dpkg's.  A longer word beats a shorter one even if
    a separator follows the shorter one (dpkg: letters sort before other
    characters). *)
Theorem version_order_is_not_dpkg_refuted :
  exists a b, deb_cmp 10 a b = Some (-1)%Z /\ vercmp_part a b = 1%Z.
Proof. exists (s_ "1ab"), (s_ "1a.b"). vm_compute. auto. Qed.
Print Assumptions version_order_is_not_dpkg_refuted.

(** Finding: text after a second ':' is dropped, so different versions compare
    equal. *)
Theorem version_second_colon_refuted :
  exists a b, a <> b /\ vercmp_string a b = Some 0%Z /\ split_version a = split_version b.
Proof. exists (s_ "1:2:3"), (s_ "1:2:4"). vm_compute. repeat split. discriminate. Qed.
Print Assumptions version_second_colon_refuted.

(** C09.  '~' sorts before numbers, numbers before words, words before other characters. *)
Lemma continues_boundary : forall p c x, ~ continues p c -> boundary p (c :: x).
Proof.
  intros p c x N. unfold boundary. destruct (rev p) as [|d r] eqn:R; auto.
  assert (E : p = rev r ++ [d]) by (rewrite <- (rev_involutive p), R; reflexivity).
  split; apply andb_false_iff.
  - destruct (is_digit d) eqn:A; auto. destruct (is_digit c) eqn:B; auto. exfalso. apply N. exists d, (rev r). auto.
  - destruct (is_alpha d) eqn:A; auto. destruct (is_alpha c) eqn:B; auto. exfalso. apply N. exists d, (rev r). auto.
Qed.
Lemma digit_not_alpha : forall c, is_digit c = true -> is_alpha c = false.
Proof.
  intros c H. unfold is_alpha, is_upper, is_lower, is_digit in *. apply andb_true_iff in H. destruct H as [_ H]. apply N.leb_le in H. apply orb_false_iff.
  split; apply andb_false_iff; left; apply N.leb_gt; lia.
Qed.
Lemma explode_head : forall c x, exists t ts, explode_version (c :: x) = t :: ts /\
  match kind c with 0 => t = TTilde | 1 => exists n, t = TNum n | 2 => exists w, t = TAlpha w | _ => t = TChar c end.
Proof.
  intros c x. unfold kind. destruct (is_digit c) eqn:D; [|destruct (is_alpha c) eqn:A].
  - destruct (aeqb c "~"%char) eqn:T; [apply aeqb_eq in T; subst; discriminate|]. unfold explode_version. cbn [length explode_fuel]. rewrite D.
    destruct (span is_digit (c :: x)) as [a b]. eexists. eexists. split; [reflexivity|eauto].
  - destruct (aeqb c "~"%char) eqn:T; [apply aeqb_eq in T; subst; discriminate|]. unfold explode_version. cbn [length explode_fuel]. rewrite D, A.
    destruct (span is_alpha (c :: x)) as [a b]. eexists. eexists. split; [reflexivity|eauto].
  - rewrite explode_other by (unfold is_other; now rewrite D, A). destruct (aeqb c "~"%char); eexists; eexists; split; reflexivity.
Qed.
Theorem version_kinds_ordered : forall p a x b y, ~ continues p a -> ~ continues p b -> kind a < kind b ->
  vercmp_part (p ++ a :: x) (p ++ b :: y) = (-1)%Z.
Proof.
  intros p a x b y NA NB K. unfold vercmp_part. rewrite !explode_app by now apply continues_boundary. rewrite cmp_toks_prefix.
  destruct (explode_head a x) as (t & ts & -> & T). destruct (explode_head b y) as (u & us & -> & U).
  assert (KA : kind a <= 3) by (unfold kind; destruct (aeqb a "~"%char), (is_digit a), (is_alpha a); lia).
  assert (KB : kind b <= 3) by (unfold kind; destruct (aeqb b "~"%char), (is_digit b), (is_alpha b); lia).
  destruct (kind a) as [|[|[|[|?]]]]; [| | |lia|lia]; (destruct (kind b) as [|[|[|[|?]]]]; [lia| | | |lia]); try lia;
    repeat match goal with H : exists _, _ |- _ => destruct H end; subst; reflexivity.
Qed.
Example version_kinds_example : ~ continues (s_ "1.") "a"%char /\ ~ continues (s_ "1.") "+"%char /\ kind "a"%char < kind "+"%char /\ vercmp_part (s_ "1.a") (s_ "1.+") = (-1)%Z.
Proof.
  assert (N : forall c, ~ continues (s_ "1.") c).
  { intros c (d & t & E & H). change (s_ "1.") with (["1"%char] ++ ["."%char]) in E. apply app_inj_tail in E. destruct E as [_ <-]. destruct H as [[H _]|[H _]]; discriminate H. }
  split; [apply N|]. split; [apply N|]. split; [vm_compute; lia|reflexivity].
Qed.
Print Assumptions version_kinds_ordered.

(** C09.  Words are compared alphabetically as a whole, other characters by code point. *)
Lemma earlier_ltb : forall a b, earlier a b -> str_ltb a b = true /\ str_ltb b a = false.
Proof.
  induction 1 as [c s|c d a b L|c a b H IH]; cbn; auto.
  - assert (E : (N_of_ascii c <? N_of_ascii d)%N = true) by now apply N.ltb_lt. rewrite E. split; auto.
    assert (F : (N_of_ascii d <? N_of_ascii c)%N = false) by (apply N.ltb_ge; lia). rewrite F. destruct (aeqb d c) eqn:G; auto. apply aeqb_eq in G. subst. lia.
  - rewrite N.ltb_irrefl, aeqb_refl. auto.
Qed.
Lemma letters_boundary : forall p w r, (forall c, is_alpha c = true -> ~ continues p c) -> all_letters w -> boundary p (w ++ r).
Proof. intros p w r H [N F]. destruct w as [|c w]; [congruence|]. inversion F; subst. cbn. apply continues_boundary. auto. Qed.
Lemma not_letter_first : forall r, ~ starts_with_letter r -> match r with [] => True | c :: _ => is_alpha c = false end.
Proof. intros [|c r] H; auto. destruct (is_alpha c) eqn:D; auto. exfalso. apply H. exists c, r. auto. Qed.
Theorem version_words_alphabetical : forall p w v x y,
  (forall c, is_alpha c = true -> ~ continues p c) -> all_letters w -> all_letters v -> ~ starts_with_letter x -> ~ starts_with_letter y ->
  (earlier w v -> vercmp_part (p ++ w ++ x) (p ++ v ++ y) = (-1)%Z) /\ (w = v -> vercmp_part (p ++ w ++ x) (p ++ v ++ y) = vercmp_part x y).
Proof.
  intros p w v x y P W V X Y. unfold vercmp_part. rewrite (explode_app p (w ++ x)), (explode_app p (v ++ y)) by now apply letters_boundary. rewrite cmp_toks_prefix.
  rewrite (explode_alpha w x (proj1 W) (proj2 W) (not_letter_first x X)), (explode_alpha v y (proj1 V) (proj2 V) (not_letter_first y Y)).
  split.
  - intros E. destruct (earlier_ltb _ _ E) as [A B]. cbn [cmp_toks]. unfold cmp_tok. cbn [tord Z.ltb Z.compare Pos.compare Pos.compare_cont content_ltb]. now rewrite A.
  - intros ->. cbn [cmp_toks]. unfold cmp_tok. cbn [tord Z.ltb Z.compare Pos.compare Pos.compare_cont content_ltb]. now rewrite str_ltb_irrefl.
Qed.
Theorem version_other_characters : forall p c d x y, kind c = 3 -> kind d = 3 ->
  ((N_of_ascii c < N_of_ascii d)%N -> vercmp_part (p ++ c :: x) (p ++ d :: y) = (-1)%Z) /\ (c = d -> vercmp_part (p ++ c :: x) (p ++ d :: y) = vercmp_part x y).
Proof.
  assert (N : forall p c, kind c = 3 -> ~ continues p c /\ is_other c = true /\ aeqb c "~"%char = false).
  { intros p c K. unfold kind in K. unfold is_other. destruct (aeqb c "~"%char); [discriminate|]. destruct (is_digit c) eqn:D; [discriminate|]. destruct (is_alpha c) eqn:A; [discriminate|].
    split; [|auto]. intros (e & t & _ & [[_ H]|[_ H]]); congruence. }
  intros p c d x y C D. destruct (N p c C) as (C1 & C2 & C3), (N p d D) as (D1 & D2 & D3).
  unfold vercmp_part. rewrite !explode_app by now apply continues_boundary. rewrite cmp_toks_prefix, (explode_other c x C2), (explode_other d y D2), C3, D3. split.
  - intros L. apply N.ltb_lt in L. cbn [cmp_toks]. unfold cmp_tok. cbn [tord Z.ltb Z.compare Pos.compare Pos.compare_cont content_ltb]. now rewrite L.
  - intros ->. cbn [cmp_toks]. unfold cmp_tok. cbn [tord Z.ltb Z.compare Pos.compare Pos.compare_cont content_ltb]. now rewrite N.ltb_irrefl.
Qed.
Example version_words_example : vercmp_part (s_ "1.alpha2") (s_ "1.beta1") = (-1)%Z /\ earlier (s_ "alpha") (s_ "beta").
Proof. split; [reflexivity|]. apply earlier_char. vm_compute. reflexivity. Qed.
Print Assumptions version_words_alphabetical.
Print Assumptions version_other_characters.

(** C09.  The parts of a version string: epoch before ':' (0 when missing), revision
    after the last '-' (empty when missing), blanks and relation signs around it dropped. *)
Definition edge (c : ascii) : bool := char c " <>=".
Lemma strip_edges : forall b s a, Forall (fun c => edge c = true) b -> Forall (fun c => edge c = true) a ->
  match s with [] => False | c :: _ => edge c = false end -> edge (last s " "%char) = false -> strip_chars " <>=" (b ++ s ++ a) = s.
Proof.
  intros b s a B A H L. unfold strip_chars.
  set (go := fix go (s : str) := match s with c :: s' => if char c " <>=" then go s' else s | [] => [] end).
  assert (G : forall u v, Forall (fun c => edge c = true) u -> match v with [] => False | c :: _ => edge c = false end -> go (u ++ v) = v).
  { induction u as [|c u IH]; intros v U V; cbn [app].
    - destruct v as [|c v]; [destruct V|]. cbn [go]. unfold edge in V. now rewrite V.
    - inversion U; subst. cbn [go]. unfold edge in H2. rewrite H2. now apply IH. }
  rewrite G; auto.
  - rewrite rev_app_distr. rewrite G; [now rewrite rev_involutive| |].
    + now apply Forall_rev.
    + destruct s as [|c s]; [destruct H|]. destruct (rev (c :: s)) as [|z r] eqn:R.
      * apply (f_equal (@length ascii)) in R. rewrite rev_length in R. discriminate.
      * assert (E : c :: s = rev r ++ [z]) by (rewrite <- (rev_involutive (c :: s)), R; reflexivity). rewrite E, last_last in L. exact L.
  - destruct s as [|c s]; [destruct H|exact H].
Qed.
Lemma rcut_some : forall v r, ~ In "-"%char r -> rcut_at "-"%char (v ++ "-"%char :: r) = (v, Some r).
Proof.
  intros v r N. unfold rcut_at. replace (rev (v ++ "-"%char :: r)) with (rev r ++ "-"%char :: rev v) by (rewrite rev_app_distr; cbn; now rewrite <- app_assoc).
  rewrite cut_at_some by (apply no_char_In; rewrite <- in_rev; exact N). now rewrite !rev_involutive.
Qed.
Lemma rcut_none : forall v, ~ In "-"%char v -> rcut_at "-"%char v = (v, None).
Proof. intros v N. unfold rcut_at. rewrite cut_at_none; auto. apply no_char_In. now rewrite <- in_rev. Qed.
(** The text of a version: epoch (if any), version, revision (if any). *)
Definition version_text (epoch : option str) (v : str) (rev_ : option str) : str :=
  match epoch with Some e => e ++ s_ ":" | None => [] end ++ v ++ match rev_ with Some r => s_ "-" ++ r | None => [] end.
Theorem version_string_parts : forall b a epoch v rev_ n,
  Forall (fun c => edge c = true) b -> Forall (fun c => edge c = true) a ->
  let t := version_text epoch v rev_ in
  match t with [] => False | c :: _ => edge c = false end -> edge (last t " "%char) = false ->
  ~ In ":"%char v ->
  match rev_ with Some r => ~ In "-"%char r /\ ~ In ":"%char r | None => ~ In "-"%char v end ->
  match epoch with Some e => ~ In ":"%char e /\ py_int e = Some n | None => n = 0%Z end ->
  split_version (b ++ t ++ a) = Some (Ver n v (match rev_ with Some r => r | None => [] end)).
Proof.
  intros b a epoch v rev_ n B A t H L V R E. unfold split_version. rewrite strip_edges by auto.
  assert (NC : forall x, no_char ":"%char x <-> ~ In ":"%char x) by (intros; apply no_char_In).
  set (body := v ++ match rev_ with Some r => s_ "-" ++ r | None => [] end).
  assert (NB : no_char ":"%char body).
  { apply NC. unfold body. rewrite in_app_iff. intros [X|X]; [auto|]. destruct rev_ as [r|]; [|destruct X]. cbn in X. destruct X as [X|X]; [discriminate|tauto]. }
  assert (F : forall z, (let finish (e : Z) (s : str) := match rcut_at "-"%char s with (v, Some r) => Ver e v r | (v, None) => Ver e v [] end in finish z body) = Ver z v (match rev_ with Some r => r | None => [] end)).
  { intros z. cbv zeta. unfold body. destruct rev_ as [r|].
    - change (s_ "-" ++ r) with ("-"%char :: r). rewrite rcut_some by tauto. reflexivity.
    - rewrite app_nil_r, rcut_none by auto. reflexivity. }
  unfold t, version_text. fold body. destruct epoch as [e|].
  - destruct E as [E1 E2]. rewrite <- app_assoc. change (s_ ":" ++ body) with (":"%char :: body). rewrite split_on_cons by now apply NC.
    rewrite split_on_single by auto. rewrite E2. cbn [option_map]. f_equal. apply F.
  - cbn [app]. rewrite split_on_single by auto. subst n. f_equal. apply F.
Qed.
Example version_parts_example :
  split_version (s_ ">= 2:1.0-3") = Some (Ver 2 (s_ "1.0") (s_ "3")) /\ split_version (s_ "1.0-a-b") = Some (Ver 0 (s_ "1.0-a") (s_ "b"))
  /\ version_text (Some (s_ "2")) (s_ "1.0") (Some (s_ "3")) = s_ "2:1.0-3".
Proof. repeat split. Qed.
Print Assumptions version_string_parts.

(** C09.  The epoch decides first, then the version, then the revision. *)
Theorem version_lexicographic : forall a b,
  ((v_epoch a < v_epoch b)%Z -> (vercmp a b < 0)%Z) /\
  ((v_epoch b < v_epoch a)%Z -> (0 < vercmp a b)%Z) /\
  (v_epoch a = v_epoch b -> vercmp_part (v_version a) (v_version b) <> 0%Z ->
     vercmp a b = vercmp_part (v_version a) (v_version b)) /\
  (v_epoch a = v_epoch b -> vercmp_part (v_version a) (v_version b) = 0%Z ->
     vercmp a b = vercmp_part (v_rev a) (v_rev b)).
Proof.
  intros a b. unfold vercmp. cbv zeta. repeat apply conj.
  - intros L. assert (E : (v_epoch a - v_epoch b =? 0)%Z = false) by (apply Z.eqb_neq; lia). rewrite !E. lia.
  - intros L. assert (E : (v_epoch a - v_epoch b =? 0)%Z = false) by (apply Z.eqb_neq; lia). rewrite !E. lia.
  - intros -> N. rewrite Z.sub_diag. cbn [Z.eqb]. apply Z.eqb_neq in N. now rewrite N.
  - intros -> N. rewrite Z.sub_diag. cbn [Z.eqb]. now rewrite N.
Qed.
Example version_lexicographic_example :
  vercmp_string (s_ "2:1.0-1") (s_ "1:9.0-9") = Some 1%Z /\
  vercmp_string (s_ "1:1.0-9") (s_ "1:1.1-1") = Some (-1)%Z /\
  vercmp_string (s_ "1:1.0-2") (s_ "1:1.0-10") = Some (-1)%Z.
Proof. vm_compute. auto. Qed.
Print Assumptions version_lexicographic.

(** ** Further cases that meet the hypotheses *)
Example numbers_met : vercmp_part (s_ "1." ++ s_ "010" ++ s_ "b") (s_ "1." ++ s_ "9" ++ s_ "b") = 1%Z.
Proof.
  rewrite (version_numbers_by_value (s_ "1.") (s_ "010") (s_ "9") (s_ "b") (s_ "b")); [reflexivity| | | | |].
  - intros (c & t & E & D). destruct t as [|? [|? [|? t]]]; try discriminate E. injection E as <- <-. discriminate D.
  - split; [discriminate|repeat constructor].
  - split; [discriminate|repeat constructor].
  - intros (c & t & E & D). injection E as <- _. discriminate D.
  - intros (c & t & E & D). injection E as <- _. discriminate D.
Qed.
Example words_met : vercmp_part (s_ "1." ++ s_ "alpha" ++ s_ "2") (s_ "1." ++ s_ "beta" ++ s_ "1") = (-1)%Z.
Proof.
  apply (version_words_alphabetical (s_ "1.") (s_ "alpha") (s_ "beta") (s_ "2") (s_ "1")).
  - intros c A (d & t & E & D). destruct t as [|? [|? [|? t]]]; try discriminate E. injection E as <- <-. destruct D as [[D _]|[D _]]; discriminate D.
  - split; [discriminate|repeat constructor].
  - split; [discriminate|repeat constructor].
  - intros (c & t & E & D). injection E as <- _. discriminate D.
  - intros (c & t & E & D). injection E as <- _. discriminate D.
  - apply version_words_example.
Qed.

