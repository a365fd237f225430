(** Lemmas for C88-C90. *)
From Coq Require Import String Ascii List Bool Arith NArith Lia.
From Verif Require Import Str_Model Str_Proofs Data_Model Parse_Model Parse_Spec Parse_Proofs Tasks_Model Tasks_Proofs Bbfile_Model Bbfile_Spec.
Import ListNotations.
Open Scope list_scope.

(** ** Characters *)
Lemma wordly_iff c : word_char c = true <-> wordly c.
Proof. unfold word_char, wordly, alnum. rewrite !orb_true_iff, aeqb_eq. tauto. Qed.
Lemma func_char_iff c : func_char c = true <-> wordly c \/ In c (s_ ".-+{}$:").
Proof.
  unfold func_char. rewrite orb_true_iff, wordly_iff. assert (existsb (aeqb c) (s_ ".-+{}$:") = true <-> In c (s_ ".-+{}$:")); [|tauto].
  rewrite existsb_exists. split; [intros (x & I & E); apply aeqb_eq in E; now subst|intros I; exists c; split; auto; apply aeqb_refl].
Qed.
Definition all_chars : list ascii := map ascii_of_nat (seq 0 256).
Lemma in_all_chars c : In c all_chars.
Proof. apply in_map_iff. exists (nat_of_ascii c). split; [apply ascii_nat_embedding|]. apply in_seq. pose proof (nat_ascii_bounded c). lia. Qed.
Lemma for_chars (p : ascii -> bool) : forallb p all_chars = true -> forall c, p c = true.
Proof. intros H c. rewrite forallb_forall in H. apply H, in_all_chars. Qed.
Lemma space_not_func c : is_space c = true -> func_char c = false.
Proof.
  intros H. assert (X : implb (is_space c) (negb (func_char c)) = true) by (revert c H; intros c _; revert c; apply for_chars; vm_compute; reflexivity).
  rewrite H in X. now apply negb_true_iff in X.
Qed.
Lemma func_not_space c : func_char c = true -> is_space c = false.
Proof. intros H. destruct (is_space c) eqn:E; auto. apply space_not_func in E. congruence. Qed.
Lemma word_not_space c : word_char c = true -> is_space c = false.
Proof. intros H. apply func_not_space. unfold func_char. now rewrite H. Qed.

(** ** Headers *)
Definition calls (T : str) : Prop := exists (w2 w3 : str), T = s_ "(" ++ w2 ++ s_ ")" ++ w3 ++ s_ "{" /\ spaces w2 /\ spaces w3.
Lemma opening_iff s : opening s = true <-> exists w1 T, s = w1 ++ T /\ spaces w1 /\ calls T.
Proof.
  unfold opening. split.
  - destruct (lstrip_split s) as (w1 & E & W1). destruct (lstrip s) as [|a s']; [discriminate|]. intros H. apply andb_true_iff in H. destruct H as [A H]. apply aeqb_eq in A. subst a.
    destruct (lstrip_split s') as (w2 & E2 & W2). destruct (lstrip s') as [|b s'']; [discriminate|]. apply andb_true_iff in H. destruct H as [B H]. apply aeqb_eq in B. subst b.
    apply seqb_eq in H. destruct (lstrip_split s'') as (w3 & E3 & W3). rewrite H in E3. exists w1, ("("%char :: s'). split; auto. split; auto. exists w2, w3. split; auto.
    rewrite E2, E3. cbn [s_ list_ascii_of_string app]. reflexivity.
  - intros (w1 & T & -> & W1 & w2 & w3 & -> & W2 & W3). rewrite lstrip_app; [|auto|reflexivity]. cbn [s_ list_ascii_of_string app].
    rewrite aeqb_refl. cbn [andb]. rewrite lstrip_app; [|auto|reflexivity]. rewrite aeqb_refl. cbn [andb]. rewrite (lstrip_app w3 ["{"%char]); auto.
Qed.
(** the text does not start with one of the words *)
Definition no_word (T : str) : Prop :=
  (forall c r, T = s_ "python" ++ c :: r -> is_space c = false /\ c <> "("%char) /\
  (forall c r, T = s_ "fakeroot" ++ c :: r -> is_space c = false).
Lemma keywords_stop fuel T py fr : no_word T -> keywords fuel T py fr = (py, fr, T).
Proof.
  intros [P F]. destruct fuel as [|n]; auto. cbn [keywords]. destruct (strip_prefix (s_ "python") T) as [[|c r]|] eqn:E.
  - destruct (strip_prefix (s_ "fakeroot") T) as [[|c r]|] eqn:E'; auto. apply strip_prefix_iff in E'. now rewrite (F c r E').
  - apply strip_prefix_iff in E. destruct (P c r E) as [S N]. rewrite S. cbn [orb]. now rewrite (proj2 (aeqb_neq c "("%char) N).
  - destruct (strip_prefix (s_ "fakeroot") T) as [[|c r]|] eqn:E'; auto. apply strip_prefix_iff in E'. now rewrite (F c r E').
Qed.
Definition kw_text (kws : list (str * str)) : str := concat (map (fun p => fst p ++ snd p) kws).
Definition has (k : str) (kws : list (str * str)) : bool := existsb (fun p => seqb (fst p) k) kws.
Lemma has_iff k kws : has k kws = true <-> exists w, In (k, w) kws.
Proof.
  unfold has. rewrite existsb_exists. split.
  - intros ([a w] & I & E). apply seqb_eq in E. cbn in E. subst. now exists w.
  - intros (w & I). exists (k, w). split; auto. apply seqb_refl.
Qed.
Lemma python_step n c r py fr : is_space c || aeqb c "("%char = true -> keywords (S n) (s_ "python" ++ c :: r) py fr = keywords n (lstrip (c :: r)) true fr.
Proof. intros H. cbn [keywords]. rewrite strip_prefix_app. now rewrite H. Qed.
Lemma fakeroot_step n c r py fr : is_space c = true -> keywords (S n) (s_ "fakeroot" ++ c :: r) py fr = keywords n (lstrip (c :: r)) py true.
Proof.
  intros H. cbn [keywords]. rewrite strip_prefix_app. destruct (strip_prefix (s_ "python") (s_ "fakeroot" ++ c :: r)) eqn:E; [apply strip_prefix_iff in E; discriminate|]. now rewrite H.
Qed.
Lemma lstrip_head s : match lstrip s with c :: _ => is_space c = false | [] => True end.
Proof. destruct (lstrip_spec s) as (_ & _ & _ & [-> | (c & t & -> & H)]); auto. Qed.
Lemma lstrip_stop s : match s with c :: _ => is_space c = false | [] => True end -> lstrip s = s.
Proof. intros H. now apply (lstrip_app [] s (Forall_nil _)). Qed.
Lemma lstrip_over w s : spaces w -> lstrip (w ++ s) = lstrip s.
Proof. intros W. induction W as [|c w H _ IH]; auto. cbn [app lstrip]. now rewrite H. Qed.
(** lengths *)
Ltac LL := unfold str in *; match goal with L : _ |- _ => cbn [length] in L; try change (length (s_ "python")) with 6 in L; try change (length (s_ "fakeroot")) with 8 in L; lia end.
(** reading the words *)
Lemma kw_text_head kws T : Forall (fun p => keyword_word (fst p) /\ spaces (snd p)) kws -> kws <> [] ->
  match kw_text kws ++ T with c :: _ => is_space c = false | [] => True end.
Proof. intros F N. destruct F as [|[k w] kws [[E | E] _] _]; [contradiction| |]; cbn [fst] in E; subst k; reflexivity. Qed.
Lemma keywords_read kws : forall fuel T py fr, length (kw_text kws) <= fuel ->
  Forall (fun p => keyword_word (fst p) /\ spaces (snd p)) kws -> Forall (fun p => snd p <> []) kws -> no_word T -> no_word (lstrip T) ->
  keywords fuel (kw_text kws ++ T) py fr = (py || has (s_ "python") kws, fr || has (s_ "fakeroot") kws, match kws with [] => T | _ => lstrip T end).
Proof.
  induction kws as [|[k w] kws IH]; intros fuel T py fr L F N NT NT'.
  - cbn. rewrite !orb_false_r. now apply keywords_stop.
  - inversion F as [|? ? [K W] F']; subst. inversion N as [|? ? W' N']; subst. cbn [fst snd] in *. unfold kw_text in *. cbn [map concat fst snd] in *. rewrite <- !app_assoc.
    assert (IH' : forall fuel' py fr, length (concat (map (fun p : str * str => fst p ++ snd p) kws)) <= fuel' ->
              keywords fuel' (lstrip (w ++ kw_text kws ++ T)) py fr = (py || has (s_ "python") kws, fr || has (s_ "fakeroot") kws, lstrip T)).
    { intros fuel' py' fr' L'. rewrite lstrip_over by auto. destruct kws as [|q kws].
      - cbn. rewrite !orb_false_r. now apply keywords_stop.
      - rewrite lstrip_stop by (apply kw_text_head; [auto|discriminate]). unfold kw_text. now rewrite IH. }
    rewrite !app_length in L. destruct w as [|c w]; [contradiction|]. inversion W as [|? ? C _]; subst. cbn [app] in *. unfold kw_text in IH'.
    destruct K as [-> | ->]; (destruct fuel as [|fuel]; [LL|]).
    + rewrite python_step by (now rewrite C). rewrite IH' by LL. unfold has at 3 4. cbn [existsb fst]. rewrite seqb_refl. change (seqb (s_ "python") (s_ "fakeroot")) with false.
      cbn [orb]. now rewrite orb_true_r.
    + rewrite fakeroot_step by auto. rewrite IH' by LL. unfold has at 3 4. cbn [existsb fst]. rewrite seqb_refl. change (seqb (s_ "fakeroot") (s_ "python")) with false.
      cbn [orb]. now rewrite orb_true_r.
Qed.
Lemma no_word_bracket r : no_word ("("%char :: r).
Proof. split; intros; discriminate. Qed.
Lemma keywords_bracket kws : forall fuel r py fr, length (kw_text kws) < fuel ->
  Forall (fun p => keyword_word (fst p) /\ spaces (snd p)) kws -> Forall (fun p => snd p <> []) kws ->
  keywords fuel (kw_text kws ++ s_ "python" ++ "("%char :: r) py fr = (true, fr || has (s_ "fakeroot") kws, "("%char :: r).
Proof.
  induction kws as [|[k w] kws IH]; intros fuel r py fr L F N.
  - destruct fuel as [|fuel]; [LL|]. change (kw_text [] ++ s_ "python" ++ "("%char :: r) with (s_ "python" ++ "("%char :: r).
    rewrite python_step by reflexivity. cbn. rewrite orb_false_r. apply keywords_stop, no_word_bracket.
  - inversion F as [|? ? [K W] F']; subst. inversion N as [|? ? W' N']; subst. cbn [fst snd] in *. unfold kw_text in *. cbn [map concat fst snd] in *. rewrite <- !app_assoc. rewrite !app_length in L.
    assert (IH' : forall fuel' py fr, length (concat (map (fun p : str * str => fst p ++ snd p) kws)) < fuel' ->
              keywords fuel' (lstrip (w ++ concat (map (fun p : str * str => fst p ++ snd p) kws) ++ s_ "python" ++ "("%char :: r)) py fr = (true, fr || has (s_ "fakeroot") kws, "("%char :: r)).
    { intros fuel' py' fr' L'. rewrite lstrip_over by auto. destruct kws as [|q kws].
      - rewrite lstrip_stop by reflexivity. now apply IH.
      - rewrite lstrip_stop by (apply (kw_text_head (q :: kws)); [auto|discriminate]). now apply IH. }
    destruct w as [|c w]; [contradiction|]. inversion W as [|? ? C _]; subst. cbn [app] in *.
    destruct K as [-> | ->]; (destruct fuel as [|fuel]; [LL|]).
    + rewrite python_step by (now rewrite C). rewrite IH' by LL. reflexivity.
    + rewrite fakeroot_step by auto. rewrite IH' by LL. unfold has at 2. cbn [existsb fst]. rewrite seqb_refl. cbn [orb]. now rewrite orb_true_r.
Qed.
Lemma spaces_then_bracket w T : spaces w -> calls T -> match w ++ T with c :: _ => func_char c = false | [] => True end.
Proof. intros W (w2 & w3 & -> & _). destruct W as [|c w H _]; [reflexivity|]. cbn. now apply space_not_func. Qed.
Lemma span_name n w T : Forall (fun c => wordly c \/ In c (s_ ".-+{}$:")) n -> spaces w -> calls T -> span func_char (n ++ w ++ T) = (n, w ++ T).
Proof. intros F W C. apply span_app; [|now apply spaces_then_bracket]. eapply Forall_impl; [|exact F]. intros c. apply func_char_iff. Qed.
Lemma func_word k : keyword_word k -> Forall (fun c => func_char c = true) k.
Proof. intros [-> | ->]; repeat constructor. Qed.
Lemma name_no_word n w T : Forall (fun c => wordly c \/ In c (s_ ".-+{}$:")) n -> spaces w -> calls T -> n <> s_ "python" -> (n = s_ "fakeroot" -> w = []) -> no_word (n ++ w ++ T).
Proof.
  intros F W C NP NF. pose proof (span_name n w T F W C) as S. split; intros c r E.
  - rewrite E in S. destruct (func_char c) eqn:X.
    + split; [now apply func_not_space|]. intros ->. discriminate.
    + rewrite (span_app func_char (s_ "python") (c :: r)) in S; [|apply func_word; now left|auto]. apply (f_equal fst) in S. cbn [fst] in S. now elim NP.
  - rewrite E in S. destruct (func_char c) eqn:X; [now apply func_not_space|].
    rewrite (span_app func_char (s_ "fakeroot") (c :: r)) in S; [|apply func_word; now right|auto]. pose proof (f_equal fst S) as S1. pose proof (f_equal snd S) as S2. cbn [fst snd] in S1, S2. specialize (NF (eq_sym S1)). subst w.
    cbn [app] in S2. destruct C as (w2 & w3 & -> & _). apply (f_equal (hd " "%char)) in S2. cbn in S2. now rewrite S2.
Qed.
Lemma heading_read s name py fr : heading s name py fr -> func_start s = Some (name, py, fr).
Proof.
  intros (kws & n & w1 & w2 & w3 & E & F & G & N & W1 & W2 & W3 & NP & NF & Q & P & R). set (T := s_ "(" ++ w2 ++ s_ ")" ++ w3 ++ s_ "{") in *.
  assert (C : calls T) by (exists w2, w3; auto). fold (kw_text kws) in E.
  assert (FP : forall b (x : bool), (x = true <-> exists w, In (b, w) kws) -> x = has b kws).
  { intros b x X. apply Bool.eq_iff_eq_true. rewrite X. symmetry. apply has_iff. }
  unfold func_start. destruct G as [G | (-> & k & -> & G)].
  - subst s. rewrite keywords_read; [|rewrite app_length; lia|auto|auto| |].
    + destruct kws as [|p kws].
      * rewrite span_name by auto. rewrite (proj2 (opening_iff (w1 ++ T))) by (exists w1, T; auto). cbn [orb]. rewrite <- (FP _ _ P), <- (FP _ _ R), <- Q. reflexivity.
      * assert (X : exists R, span func_char (lstrip (n ++ w1 ++ T)) = (n, R) /\ opening R = true).
        { destruct n as [|c n]; cbn [app].
          - exists T. rewrite lstrip_over by auto. rewrite lstrip_stop by (now destruct C as (? & ? & -> & _)). split; [apply (span_name [] [] T); auto; constructor|].
            apply opening_iff. exists [], T. split; [reflexivity|split; [constructor|auto]].
          - exists (w1 ++ T). inversion N as [|? ? N1 _]; subst. rewrite lstrip_stop by (apply func_not_space, func_char_iff; auto). split; [now apply (span_name (c :: n) w1 T)|].
            apply opening_iff. exists w1, T. auto. }
        destruct X as (R' & X & O). rewrite X.
        rewrite O. cbn [orb]. rewrite <- (FP _ _ P), <- (FP _ _ R), <- Q. reflexivity.
    + now apply name_no_word.
    + destruct n as [|c n]; cbn [app].
      * rewrite lstrip_over by auto. rewrite lstrip_stop by (now destruct C as (? & ? & -> & _)). destruct C as (? & ? & -> & _). apply no_word_bracket.
      * inversion N as [|? ? N1 _]; subst. rewrite lstrip_stop by (apply func_not_space, func_char_iff; auto). now apply (name_no_word (c :: n) w1 T).
  - assert (X : keywords (length s) s false false = (true, has (s_ "fakeroot") k, lstrip (w1 ++ T))).
    { apply Forall_app in F. destruct F as [F1 F2].
      subst s. unfold kw_text. rewrite map_app, concat_app. cbn [map concat fst snd]. rewrite !app_nil_r. cbn [app]. rewrite <- app_assoc.
      destruct w1 as [|c w1].
      - cbn [app]. rewrite (lstrip_stop T) by (now destruct C as (? & ? & -> & _)). apply (keywords_bracket k); auto. unfold kw_text. rewrite app_length. rewrite (app_length (s_ "python")). change (length (s_ "python")) with 6. unfold str. lia.
      - inversion W1 as [|? ? C1 W1']; subst.
        pose proof (keywords_read (k ++ [(s_ "python", c :: w1)]) (length (kw_text (k ++ [(s_ "python", c :: w1)]) ++ T)) T false false) as Y.
        rewrite app_length in Y. assert (NT : no_word T) by (destruct C as (? & ? & -> & _); apply no_word_bracket).
        rewrite (lstrip_stop T) in Y by (now destruct C as (? & ? & -> & _)).
        specialize (Y (Nat.le_add_r _ _)). unfold kw_text in Y. rewrite map_app, concat_app in Y. cbn [map concat fst snd] in Y. rewrite !app_nil_r in Y. rewrite <- !app_assoc in Y.
        rewrite lstrip_over by auto. rewrite (lstrip_stop T) by (now destruct C as (? & ? & -> & _)).
        match type of Y with _ -> _ -> _ -> _ -> keywords ?a _ _ _ = _ => match goal with |- keywords ?b _ _ _ = _ => replace b with a end end.
        2: { rewrite !app_length. unfold str. lia. }
        rewrite Y; auto.
        + unfold has. rewrite !existsb_app. cbn [existsb fst]. rewrite seqb_refl. change (seqb (s_ "python") (s_ "fakeroot")) with false. cbn [orb]. rewrite orb_true_r, orb_false_r.
          destruct (k ++ [(s_ "python", c :: w1)]) eqn:Z; [destruct k; discriminate|reflexivity].
        + apply Forall_app. split; auto. constructor; auto. split; [now left|exact W1].
        + apply Forall_app. split; auto. constructor; auto. discriminate. }
    rewrite X. rewrite lstrip_over by auto. rewrite lstrip_stop by (now destruct C as (? & ? & -> & _)). pose proof (span_name [] [] T (Forall_nil _) (Forall_nil _) C) as Z. cbn [app] in Z. rewrite Z. rewrite (proj2 (opening_iff T)) by (exists [], T; split; [reflexivity|split; [constructor|auto]]). subst name. f_equal. f_equal; [f_equal|].
    + symmetry. apply P. exists []. apply in_or_app. right. now left.
    + rewrite (FP _ _ R). unfold has. rewrite existsb_app. cbn [existsb fst]. change (seqb (s_ "python") (s_ "fakeroot")) with false. cbn [orb]. now rewrite orb_false_r.
Qed.
Lemma keywords_sound fuel : forall s py fr py' fr' r, keywords fuel s py fr = (py', fr', r) ->
  exists kws, s = kw_text kws ++ r /\ Forall (fun p => keyword_word (fst p) /\ spaces (snd p)) kws /\
    (Forall (fun p => snd p <> []) kws \/ (begins "("%char r /\ exists k, kws = k ++ [(s_ "python", [])] /\ Forall (fun p => snd p <> []) k)) /\
    py' = (py || has (s_ "python") kws) /\ fr' = (fr || has (s_ "fakeroot") kws) /\ (length s <= fuel -> no_word r).
Proof.
  induction fuel as [|n IH]; intros s py fr py' fr' r H.
  - injection H as <- <- <-. exists []. rewrite !orb_false_r. split; [reflexivity|]. split; [constructor|]. split; [left; constructor|]. split; [reflexivity|]. split; [reflexivity|].
    intros L. destruct s; [|cbn in L; lia]. split; intros; discriminate.
  - assert (STOP : no_word s -> exists kws, s = kw_text kws ++ r /\ Forall (fun p => keyword_word (fst p) /\ spaces (snd p)) kws /\
    (Forall (fun p => snd p <> []) kws \/ (begins "("%char r /\ exists k, kws = k ++ [(s_ "python", [])] /\ Forall (fun p => snd p <> []) k)) /\
    py' = (py || has (s_ "python") kws) /\ fr' = (fr || has (s_ "fakeroot") kws) /\ (length s <= S n -> no_word r)).
    { intros N. rewrite keywords_stop in H by auto. injection H as <- <- <-. exists []. rewrite !orb_false_r. split; [reflexivity|]. split; [constructor|]. split; [left; constructor|]. auto. }
    assert (SPACE : forall k c t py0 fr0, keyword_word k -> s = k ++ c :: t -> is_space c = true -> keywords n (lstrip (c :: t)) py0 fr0 = (py', fr', r) ->
      py0 = py || seqb k (s_ "python") -> fr0 = fr || seqb k (s_ "fakeroot") ->
      exists kws, s = kw_text kws ++ r /\ Forall (fun p => keyword_word (fst p) /\ spaces (snd p)) kws /\
    (Forall (fun p => snd p <> []) kws \/ (begins "("%char r /\ exists k, kws = k ++ [(s_ "python", [])] /\ Forall (fun p => snd p <> []) k)) /\
    py' = (py || has (s_ "python") kws) /\ fr' = (fr || has (s_ "fakeroot") kws) /\ (length s <= S n -> no_word r)).
    { intros k c t py0 fr0 K E C H' -> ->. destruct (lstrip_split (c :: t)) as (w & Ew & W).
      assert (NW : w <> []). { intros ->. cbn [app] in Ew. pose proof (lstrip_head (c :: t)) as X. rewrite <- Ew in X. congruence. }
      destruct (IH _ _ _ _ _ _ H') as (kws & E1 & F & G & P & R & N). exists ((k, w) :: kws). unfold kw_text. cbn [map concat fst snd]. fold (kw_text kws). rewrite <- !app_assoc, <- E1, <- Ew.
      split; [auto|]. split; [constructor; auto|]. split.
      { destruct G as [G | (B & k' & -> & G)]; [left; constructor; auto|]. right. split; auto. exists ((k, w) :: k'). split; auto. }
      split; [rewrite P; unfold has; cbn [existsb fst]; now rewrite orb_assoc|]. split; [rewrite R; unfold has; cbn [existsb fst]; now rewrite orb_assoc|].
      intros L. apply N. rewrite E in L. rewrite app_length in L. pose proof (f_equal (@length ascii) Ew) as LE. rewrite app_length in LE.
      assert (length k <> 0) by (destruct K as [-> | ->]; discriminate). unfold str in *. lia. }
    destruct (strip_prefix (s_ "python") s) as [[|c t]|] eqn:E.
    + apply strip_prefix_iff in E. apply STOP. rewrite app_nil_r in E. subst s. split; intros; discriminate.
    + apply strip_prefix_iff in E. destruct (is_space c) eqn:C.
      * assert (H' := H). rewrite E, python_step in H' by (now rewrite C). apply (SPACE (s_ "python") c t true fr); auto; [now left|now rewrite orb_true_r|now rewrite orb_false_r].
      * destruct (ascii_dec c "("%char) as [-> | NC].
        -- assert (H' := H). rewrite E, python_step in H' by reflexivity. rewrite (lstrip_stop ("("%char :: t)) in H' by reflexivity.
           rewrite keywords_stop in H' by apply no_word_bracket. injection H' as <- <- <-. exists [(s_ "python", [])].
           split; [exact E|]. split; [constructor; [split; [now left|constructor]|constructor]|]. split; [right; split; [now exists t|]; exists []; split; auto|].
           split; [now rewrite orb_true_r|]. split; [now rewrite orb_false_r|]. intros _. apply no_word_bracket.
        -- apply STOP. split.
           ++ intros c' r' X. rewrite E in X. apply app_inv_head in X. injection X as <- _. auto.
           ++ intros c' r' X. rewrite E in X. discriminate.
    + destruct (strip_prefix (s_ "fakeroot") s) as [[|c t]|] eqn:E'.
      * apply strip_prefix_iff in E'. apply STOP. rewrite app_nil_r in E'. subst s. split; intros; discriminate.
      * apply strip_prefix_iff in E'. destruct (is_space c) eqn:C.
        -- assert (H' := H). rewrite E', fakeroot_step in H' by auto. apply (SPACE (s_ "fakeroot") c t py true); auto; [now right|now rewrite orb_false_r|now rewrite orb_true_r].
        -- apply STOP. split; intros c' r' X; rewrite E' in X; [discriminate|]. apply app_inv_head in X. injection X as <- _. auto.
      * apply STOP. split; intros c' r' X; [rewrite strip_prefix_none in E; now apply E in X|rewrite strip_prefix_none in E'; now apply E' in X].
Qed.
Lemma heading_sound s name py fr : func_start s = Some (name, py, fr) -> heading s name py fr.
Proof.
  unfold func_start. destruct (keywords (length s) s false false) as [[py' fr'] r] eqn:K. destruct (span func_char r) as [n r2] eqn:SP. destruct (opening r2) eqn:O; [|discriminate].
  intros H. injection H as <- <- <-. apply keywords_sound in K. destruct K as (kws & E & F & G & P & R & N). specialize (N (le_n _)). cbn [orb] in P, R.
  destruct (span_spec func_char r) as (E2 & FN & _). rewrite SP in E2, FN. cbn [fst snd] in E2, FN. apply opening_iff in O. destruct O as (w1 & T & -> & W1 & (w2 & w3 & -> & W2 & W3)).
  exists kws, n, w1, w2, w3. rewrite <- E2. split; [exact E|]. split; [exact F|].
  assert (A : Forall (fun c => wordly c \/ In c (s_ ".-+{}$:")) n) by (eapply Forall_impl; [|exact FN]; intros c; apply func_char_iff).
  split.
  { destruct G as [G | ((t & B) & G)]; [now left|]. right. split; [|exact G]. rewrite B in SP. cbn in SP. now injection SP as <- _. }
  split; [exact A|]. split; [exact W1|]. split; [exact W2|]. split; [exact W3|]. destruct N as [N1 N2].
  split.
  { intros ->. destruct W1 as [|c w1 C W1].
    - destruct (N1 "("%char (w2 ++ s_ ")" ++ w3 ++ s_ "{")) as [_ X]; [exact E2|congruence].
    - destruct (N1 c (w1 ++ s_ "(" ++ w2 ++ s_ ")" ++ w3 ++ s_ "{")) as [X _]; [exact E2|congruence]. }
  split.
  { intros ->. destruct W1 as [|c w1 C W1]; [reflexivity|]. pose proof (N2 c (w1 ++ s_ "(" ++ w2 ++ s_ ")" ++ w3 ++ s_ "{") E2). congruence. }
  split; [reflexivity|]. subst py' fr'. split; apply has_iff.
Qed.
Lemma func_start_iff s name py fr : func_start s = Some (name, py, fr) <-> heading s name py fr.
Proof. split; [apply heading_sound|apply heading_read]. Qed.
Lemma take_word_spec s : exists a b, take_word s = (a, b) /\ s = a ++ b /\ Forall (fun c => word_char c = true) a /\ match b with c :: _ => word_char c = false | [] => True end.
Proof.
  induction s as [|c s (a & b & E & -> & F & B)]; [exists [], []; repeat split; constructor|]. cbn [take_word]. destruct (word_char c) eqn:C.
  - rewrite E. exists (c :: a), b. auto.
  - exists [], (c :: a ++ b). split; auto.
Qed.
Lemma colon_iff r : existsb (aeqb ":"%char) r = true <-> exists a b, r = a ++ s_ ":" ++ b.
Proof.
  rewrite existsb_exists. split.
  - intros (x & I & E). apply aeqb_eq in E. subst x. apply in_split in I. destruct I as (a & b & ->). now exists a, b.
  - intros (a & b & ->). exists ":"%char. split; [apply in_or_app; right; now left|apply aeqb_refl].
Qed.
Lemma def_start_iff s name : def_start s = Some name <-> def_heading s name.
Proof.
  unfold def_start. split.
  - destruct (after_word (s_ "def") s) as [r|] eqn:E; [|discriminate]. apply after_word_sound in E. destruct E as (w & -> & W & N).
    destruct (take_word_spec r) as (a & b & E & -> & F & B). rewrite E. destruct a as [|x a]; [discriminate|]. destruct (existsb (aeqb ":"%char) b) eqn:C; [|discriminate].
    intros H. injection H as <-. apply colon_iff in C. destruct C as (u & v & ->). exists w, u, v. split; [reflexivity|]. split; [exact W|]. split; [exact N|]. split; [discriminate|].
    split; [eapply Forall_impl; [|exact F]; intros c; apply wordly_iff|]. destruct u as [|c u]; auto. cbn in B. rewrite <- wordly_iff. congruence.
  - intros (w & u & v & -> & W & N & M & F & U). assert (F' : Forall (fun c => word_char c = true) name) by (eapply Forall_impl; [|exact F]; intros c; apply wordly_iff).
    rewrite after_word_complete; [|auto|auto|].
    + rewrite take_word_app; [|auto|].
      * destruct name as [|c name]; [contradiction|]. rewrite (proj2 (colon_iff (u ++ s_ ":" ++ v))) by (now exists u, v). reflexivity.
      * destruct u as [|c u]; [reflexivity|]. cbn. destruct (word_char c) eqn:X; auto. apply wordly_iff in X. contradiction.
    + destruct F' as [|c name C F']; [contradiction|]. cbn. now apply word_not_space.
Qed.
(** a def is not the header of a function *)
Lemma def_not_func s name : def_heading s name -> func_start s = None.
Proof.
  intros (w & u & v & -> & W & N & M & F & U). unfold func_start.
  rewrite keywords_stop by (split; intros; discriminate).
  destruct w as [|c w]; [contradiction|]. inversion W; subst.
  rewrite (span_app func_char (s_ "def") ((c :: w) ++ name ++ u ++ s_ ":" ++ v)); [|repeat constructor|cbn; now apply space_not_func].
  destruct (opening ((c :: w) ++ name ++ u ++ s_ ":" ++ v)) eqn:O; auto. unfold opening in O. rewrite lstrip_app in O; [|auto|].
  - destruct name as [|x name]; [contradiction|]. cbn [app] in O. apply andb_true_iff in O. destruct O as [O _]. apply aeqb_eq in O. subst x. inversion F; subst. apply wordly_iff in H3. discriminate.
  - destruct name as [|x name]; [contradiction|]. cbn. inversion F; subst. now apply word_not_space, wordly_iff.
Qed.

(** ** Files *)
Definition decide (t : str) : mode * list node :=
  match func_start t with
  | Some (name, py, fr) => (InFunc name py fr [], [])
  | None => match def_start t with Some name => (InDef name [t], []) | None => (Top [], [Text t]) end
  end.
Definition push (out : list node) (r : option (list node * bool)) : option (list node * bool) :=
  match r with Some (l, e) => Some (out ++ l, e) | None => None end.
Lemma push_nil r : push [] r = r. Proof. destruct r as [[l e]|]; reflexivity. Qed.
Lemma push_app a b r : push (a ++ b) r = push a (push b r). Proof. destruct r as [[l e]|]; cbn; auto. now rewrite app_assoc. Qed.
Lemma go_cons m k l rest : go m k (l :: rest) = match step m (S k) (rstrip l) with Some (m, out) => push out (go m (S k) rest) | None => None end.
Proof. cbn [go]. destruct (step m (S k) (rstrip l)) as [[m' out]|]; auto. Qed.
Lemma match_pair {A} (x : mode * list node) (f : mode -> list node -> A) : match Some x with Some (m, out) => Some (f m out) | None => None end = Some (f (fst x) (snd x)).
Proof. now destruct x. Qed.
Lemma top_end res s : (match res with [] => true | r :: _ => match r with [] => false | _ => negb (head_is hash r) end end) = true -> head_is hash s = false -> continued s = false ->
  concat res ++ s <> [] -> head_is hash (concat res ++ s) = false -> top res s = Some (decide (concat res ++ s)).
Proof.
  intros R H C N H'. assert (X : forall u : str, u <> [] -> head_is hash u = false ->
    (if match u with [] => true | _ => head_is hash u end then Some (Top [], []) else
       match func_start u with Some (name, py, fr) => Some (InFunc name py fr [], []) | None => match def_start u with Some name => Some (InDef name [u], []) | None => Some (Top [], [Text u]) end end) = Some (decide u)).
  { intros u NU HU. destruct u as [|x t]; [contradiction|]. rewrite HU. unfold decide. destruct (func_start (x :: t)) as [[[? ?] ?]|]; [reflexivity|]. destruct (def_start (x :: t)); reflexivity. }
  unfold top. rewrite C. destruct res as [|[|x r] res]; [now apply X|discriminate|]. apply negb_true_iff in R. rewrite H, R. cbn [andb orb negb]. now apply X.
Qed.
Lemma go_stmt_more more : forall r res final w k rest,
  r <> [] -> head_is hash r = false ->
  Forall (fun p => head_is hash (fst p) = false /\ spaces (snd p)) more -> head_is hash final = false -> spaces w ->
  rstrip final = final -> continued final = false ->
  go (Top (r :: res)) k (map stmt_more more ++ (final ++ w) :: rest) =
  let '(m, out) := decide (concat (r :: res) ++ concat (map fst more) ++ final) in push out (go m (k + S (length more)) rest).
Proof.
  induction more as [|[p v] more IH]; intros r res final w k rest N H F HF W T C.
  - cbn [map app length]. rewrite go_cons, rstrip_spaces, T by auto. cbn [step]. rewrite top_end; auto.
    + cbn [map concat app]. replace (k + 1) with (S k) by lia. destruct (decide _); reflexivity.
    + destruct r; [contradiction|]. now rewrite H.
    + cbn [concat]. rewrite <- app_assoc. now apply app_nonnil.
    + cbn [concat]. rewrite <- app_assoc. now rewrite head_app.
  - inversion F as [|? ? F1 F2]; subst. cbn [fst snd] in *. destruct F1 as [F1 F3]. cbn [map app]. rewrite go_cons. rewrite stmt_more_rstrip by auto. cbn [fst snd step].
    assert (E : head_is hash (p ++ ["\"%char]) = false) by (destruct p; auto). unfold top. rewrite E, H. destruct r as [|x r]; [contradiction|]. cbn [andb orb]. rewrite continued_snoc, removelast_snoc.
    rewrite push_nil. cbn [app]. rewrite IH by auto. cbn [length]. replace (S k + S (length more)) with (k + S (S (length more))) by lia. cbn [map concat fst].
    rewrite concat_app. cbn [concat]. rewrite app_nil_r, <- !app_assoc. reflexivity.
Qed.
Lemma go_stmt more final w k rest : proper (Stmt more final w) ->
  go (Top []) k (item_lines (Stmt more final w) ++ rest) =
  let '(m, out) := decide (head_text more final) in push out (go m (k + length (item_lines (Stmt more final w))) rest).
Proof.
  intros (F & H & W & T & N & C). apply ends_app_false in C as C'. apply continued_false in C, C'. apply head_is_false in H. apply rstrip_tidy in T. unfold head_text.
  rewrite item_lines_eq, app_length, map_length. cbn [length]. replace (k + (length more + 1)) with (k + S (length more)) by lia. rewrite <- app_assoc. cbn [app]. destruct more as [|[p v] more].
  - cbn [map concat app length] in *. rewrite go_cons, rstrip_spaces, T by auto. assert (N' : final <> []) by (intros ->; now apply N).
    cbn [step]. rewrite top_end; auto. cbn [concat app]. replace (k + 1) with (S k) by lia. destruct (decide final); reflexivity.
  - inversion F as [|? ? F1 F2]; subst. cbn [fst snd] in *. destruct F1 as (P1 & P2 & P3). cbn [map app]. rewrite go_cons, stmt_more_rstrip by auto. cbn [fst snd step].
    unfold top. rewrite continued_snoc, removelast_snoc, push_nil. cbn [app]. rewrite (go_stmt_more more p []); auto.
    + cbn [length concat map fst]. rewrite app_nil_r, <- app_assoc. replace (S k + S (length more)) with (k + S (S (length more))) by lia. reflexivity.
    + now apply head_is_false.
    + eapply Forall_impl; [|exact F2]. cbn. intros q (? & ? & ?). split; auto. now apply head_is_false.
Qed.
Lemma rstrip_keeps c s : is_space c = false -> exists t, rstrip (c :: s) = c :: t.
Proof.
  intros H. destruct (rstrip_spec (c :: s)) as (b & E & B & _). destruct (rstrip (c :: s)) as [|x r]; cbn [app] in E.
  - subst b. inversion B; congruence.
  - injection E as -> _. eauto.
Qed.
Lemma go_comment_more more : forall r res final k rest,
  head_is hash r = true -> Forall (fun p => spaces (snd p)) more ->
  continued (rstrip ("#"%char :: final)) = false ->
  go (Top (r :: res)) k (map comment_more more ++ ("#"%char :: final) :: rest) = go (Top []) (k + S (length more)) rest.
Proof.
  induction more as [|[p v] more IH]; intros r res final k rest H F C; (destruct r as [|x r]; [discriminate|]).
  - cbn [map app length]. rewrite go_cons. destruct (rstrip_keeps "#"%char final eq_refl) as [t E]. rewrite E in *. cbn [step]. unfold top. rewrite H. cbn [head_is]. change (aeqb "#"%char hash) with true. cbn [andb orb negb].
    rewrite C. cbn [concat app head_is] in *. rewrite H. rewrite push_nil. now replace (k + 1) with (S k) by lia.
  - inversion F as [|? ? F1 F2]; subst. cbn [fst snd] in *. cbn [map app]. rewrite go_cons, comment_more_rstrip by auto. cbn [fst snd step]. unfold top. rewrite H. cbn [app head_is]. change (aeqb "#"%char hash) with true. cbn [negb andb orb].
    change ("#"%char :: p ++ ["\"%char]) with (("#"%char :: p) ++ ["\"%char]). rewrite continued_snoc, removelast_snoc, push_nil.
    rewrite IH by auto. cbn [length]. now replace (S k + S (length more)) with (k + S (S (length more))) by lia.
Qed.
Lemma go_comment more final k rest : proper (Comment more final) -> go (Top []) k (item_lines (Comment more final) ++ rest) = go (Top []) (k + length (item_lines (Comment more final))) rest.
Proof.
  intros [F C]. apply continued_false in C. rewrite item_lines_eq, app_length, map_length. cbn [length]. replace (k + (length more + 1)) with (k + S (length more)) by lia. rewrite <- app_assoc. cbn [app].
  destruct more as [|[p v] more].
  - cbn [map app length]. rewrite go_cons. cbn [step]. unfold top. rewrite C. destruct (rstrip_keeps "#"%char final eq_refl) as [t E]. rewrite E. cbn. rewrite push_nil. now replace (k + 1) with (S k) by lia.
  - inversion F as [|? ? F1 F2]; subst. cbn [fst snd] in *. cbn [map app]. rewrite go_cons, comment_more_rstrip by auto. cbn [fst snd step]. unfold top. rewrite continued_snoc, removelast_snoc, push_nil. cbn [app].
    rewrite (go_comment_more more ("#"%char :: p) []) by auto. cbn [length]. now replace (S k + S (length more)) with (k + S (S (length more))) by lia.
Qed.
Lemma go_blank w k rest : spaces w -> go (Top []) k (w :: rest) = go (Top []) (S k) rest.
Proof. intros W. rewrite go_cons, rstrip_blank by auto. cbn. apply push_nil. Qed.
Lemma go_fn name py fr lines : forall body w k rest, (forall l v, In l lines -> spaces v -> l <> s_ "}" ++ v) -> spaces w ->
  go (InFunc name py fr body) k (lines ++ (s_ "}" ++ w) :: rest) = push [Func name ((body ++ map rstrip lines) ++ [[]]) py fr (S (k + length lines))] (go (Top []) (S (k + length lines)) rest).
Proof.
  induction lines as [|l lines IH]; intros body w k rest NB W.
  - cbn [map length app]. rewrite app_nil_r, Nat.add_0_r, go_cons. rewrite (rstrip_spaces (s_ "}")) by auto. cbn [step]. change (rstrip (s_ "}")) with (s_ "}"). rewrite seqb_refl. reflexivity.
  - cbn [app]. rewrite go_cons. cbn [step]. assert (N : seqb (rstrip l) (s_ "}") = false).
    { apply seqb_neq. intros E. destruct (rstrip_spec l) as (b & E2 & B & _). rewrite E in E2. apply (NB l b); auto. now left. }
    rewrite N, push_nil, IH; [|intros; apply NB; auto; now right|auto]. cbn [map length]. replace (S k + length lines) with (k + S (length lines)) by lia. now rewrite <- !app_assoc.
Qed.
Lemma inside_def_iff l : inside_def (rstrip l) = true <-> belongs l.
Proof.
  destruct (rstrip_spec l) as (b & E & B & Z). unfold belongs. split.
  - destruct (rstrip l) as [|c r]; [intros _; left; cbn in E; now subst|]. cbn. rewrite orb_true_iff, aeqb_eq. intros [H | ->]; right; [left; exists c, (r ++ b); now rewrite E|right; exists (r ++ b); now rewrite E].
  - intros [S | [(c & r & -> & S) | (r & ->)]].
    + now rewrite rstrip_blank.
    + destruct (rstrip (c :: r)) as [|x t]; auto. cbn [app] in E. injection E as -> _. cbn. now rewrite S.
    + destruct (rstrip_keeps "#"%char r eq_refl) as [t ->]. reflexivity.
Qed.
Lemma go_df name lines : forall body k rest, Forall belongs lines -> go (InDef name body) k (lines ++ rest) = go (InDef name (body ++ map rstrip lines)) (k + length lines) rest.
Proof.
  induction lines as [|l lines IH]; intros body k rest F.
  - cbn. now rewrite app_nil_r, Nat.add_0_r.
  - inversion F as [|? ? F1 F2]; subst. cbn [app]. rewrite go_cons. cbn [step]. apply inside_def_iff in F1. rewrite F1, push_nil, IH by auto. cbn [map length].
    replace (S k + length lines) with (k + S (length lines)) by lia. now rewrite <- app_assoc.
Qed.
Lemma go_df_end name body k rest : match rest with [] => True | x :: _ => ~ belongs x end -> go (InDef name body) k rest = push [PyDef name body (S k)] (go (Top []) k rest).
Proof.
  destruct rest as [|x rest]; [reflexivity|]. intros N. rewrite !go_cons. cbn [step]. rewrite <- inside_def_iff in N. destruct (inside_def (rstrip x)); [congruence|].
  destruct (top [] (rstrip x)) as [[m out]|]; auto. destruct (go m (S k) rest) as [[r e]|]; reflexivity.
Qed.
Lemma parts_read l : forall k, Forall good_part l -> separated l -> go (Top []) k (concat (map part_lines l)) = Some (nodes k l, false).
Proof.
  induction l as [|p l IH]; intros k F S; [reflexivity|]. inversion F as [|? ? G F']; subst. cbn [map concat nodes].
  assert (S' : separated l) by (destruct p; cbn in S; tauto).
  assert (D : forall n, go (Top []) n (concat (map part_lines l)) = Some (nodes n l, false)) by (intros n; auto).
  destruct p as [i|more final w name py fr lines w'|more final w name lines]; cbn [part_lines].
  - destruct i as [w|more final|more final w]; cbn [item_texts map app good_part] in *.
    + cbn [item_lines app]. rewrite go_blank by auto. rewrite D. cbn [length]. now replace (k + 1) with (Datatypes.S k) by lia.
    + rewrite go_comment by auto. apply D.
    + destruct G as [P N]. rewrite go_stmt by auto. unfold decide. destruct (func_start (head_text more final)) as [[[n py] fr]|] eqn:E1.
      { elim N. left. exists n, py, fr. now apply func_start_iff. }
      destruct (def_start (head_text more final)) as [n|] eqn:E2.
      { elim N. right. exists n. now apply def_start_iff. }
      now rewrite D.
  - destruct G as (P & H & NB & W). rewrite <- app_assoc, go_stmt by auto. unfold decide. rewrite (heading_read _ _ _ _ H), push_nil. rewrite <- app_assoc. cbn [app]. rewrite go_fn by auto. rewrite D.
    cbn [push app]. rewrite !app_length. cbn [length].
    match goal with |- Some (Func _ _ _ _ ?a :: _, _) = Some (Func _ _ _ _ ?b :: _, _) => replace a with b by (unfold str; lia) end. reflexivity.
  - destruct G as (P & H & FB). rewrite <- app_assoc, go_stmt by auto. unfold decide. rewrite (def_not_func _ _ H), (proj2 (def_start_iff _ _) H), push_nil, go_df by auto. cbn [separated] in S.
    rewrite go_df_end by (apply S). rewrite D. cbn [push app]. rewrite app_length.
    match goal with |- Some (PyDef _ _ (Datatypes.S ?a) :: _, _) = Some (PyDef _ _ (Datatypes.S ?b) :: _, _) => replace a with b by (unfold str; lia) end. reflexivity.
Qed.

(** ** Where the functions of a file are *)
Lemma upto_line_S a n ls l : nth_error ls (a + n) = Some l -> upto_line a (S n) ls = upto_line a n ls ++ [rstrip l].
Proof.
  unfold upto_line. revert ls. induction a as [|a IH]; intros ls H.
  - cbn [skipn]. revert ls H. induction n as [|n IHn]; intros ls H; (destruct ls as [|x ls]; [discriminate|]).
    + cbn in H. injection H as ->. reflexivity.
    + cbn [firstn map app]. f_equal. apply IHn. exact H.
  - destruct ls as [|x ls]; [discriminate|]. cbn [skipn]. apply IH. exact H.
Qed.
Lemma upto_line_nth a n ls i : i < n -> nth_error (upto_line a n ls) i = option_map rstrip (nth_error ls (a + i)).
Proof.
  unfold upto_line. intros L. rewrite nth_error_map. f_equal. revert ls. induction a as [|a IH]; intros ls; cbn [skipn Nat.add].
  - revert i ls L. induction n as [|n IHn]; intros i ls L; [lia|]. destruct ls as [|x ls]; cbn; [now destruct i|]. destruct i; cbn; auto. apply IHn. lia.
  - destruct ls as [|x ls]; [rewrite firstn_nil; now destruct i|apply IH].
Qed.
Definition brace : str := s_ "}".
Definition located (ls : list str) (x : node) : Prop :=
  match x with
  | Func name body py fr line =>
      exists h t n close, head_at ls h t /\ heading t name py fr /\ line = S h + S n /\ body = upto_line (S h) n ls ++ [[]] /\ length (upto_line (S h) n ls) = n /\
        nth_error ls (S h + n) = Some close /\ rstrip close = brace /\ ~ In brace (upto_line (S h) n ls)
  | PyDef name body line =>
      exists h t n, head_at ls h t /\ def_heading t name /\ line = S (S h + n) /\ body = t :: upto_line (S h) n ls /\ length (upto_line (S h) n ls) = n /\
        Forall (fun s => inside_def s = true) (upto_line (S h) n ls) /\ match nth_error ls (S h + n) with Some l => inside_def (rstrip l) = false | None => True end
  | Text t => exists h, head_at ls h t
  end.
Definition at_mode (ls : list str) (k : nat) (m : mode) : Prop :=
  match m with
  | Top res => exists c, continued_lines ls k c /\ res = map (@removelast ascii) (upto_line (k - c) c ls)
  | InFunc name py fr body =>
      exists h t n, head_at ls h t /\ heading t name py fr /\ k = S h + n /\ body = upto_line (S h) n ls /\ length (upto_line (S h) n ls) = n /\ ~ In brace (upto_line (S h) n ls)
  | InDef name body =>
      exists h t n, head_at ls h t /\ def_heading t name /\ k = S h + n /\ body = t :: upto_line (S h) n ls /\ length (upto_line (S h) n ls) = n /\
        Forall (fun s => inside_def s = true) (upto_line (S h) n ls)
  end.
Lemma at_top ls k : at_mode ls k (Top []).
Proof. exists 0. unfold continued_lines, upto_line. cbn. repeat split; auto. lia. Qed.
Lemma top_located ls k l res m out : at_mode ls k (Top res) -> nth_error ls k = Some l -> top res (rstrip l) = Some (m, out) -> at_mode ls (S k) m /\ Forall (located ls) out.
Proof.
  intros (c & (CL & CN & CF) & R) N H. unfold top in H.
  destruct (match res with [] => false | [] :: _ => true | r :: _ => head_is hash (rstrip l) && negb (head_is hash r) || head_is hash r && negb (head_is hash (rstrip l)) end); [discriminate|].
  destruct (continued (rstrip l)) eqn:CT.
  { injection H as <- <-. split; [|constructor]. exists (S c). unfold continued_lines. replace (S k - S c) with (k - c) by lia.
    rewrite (upto_line_S (k - c) c ls l) by (now replace (k - c + c) with k by lia). split; [split; [lia|]; split; [rewrite app_length, CN; cbn; lia|apply Forall_app; split; [auto|constructor; [now apply continued_iff|constructor]]]|]. now rewrite map_app, R. }
  destruct (match concat res ++ rstrip l with [] => true | _ => head_is hash (concat res ++ rstrip l) end); [injection H as <- <-; split; [apply at_top|constructor]|].
  assert (HD : head_at ls k (concat res ++ rstrip l)) by (exists l, c; split; [exact N|]; split; [split; auto|]; now rewrite R).
  destruct (func_start (concat res ++ rstrip l)) as [[[name py] fr]|] eqn:E.
  - injection H as <- <-. split; [|constructor]. apply func_start_iff in E. exists k, (concat res ++ rstrip l), 0. split; [exact HD|]. split; [exact E|]. split; [lia|]. unfold upto_line. cbn. auto.
  - destruct (def_start (concat res ++ rstrip l)) as [name|] eqn:E2.
    + injection H as <- <-. split; [|constructor]. apply def_start_iff in E2. exists k, (concat res ++ rstrip l), 0. split; [exact HD|]. split; [exact E2|]. split; [lia|]. unfold upto_line. cbn. auto.
    + injection H as <- <-. split; [apply at_top|]. constructor; [now exists k|constructor].
Qed.
Lemma go_located ls : forall rest pre m r e, ls = pre ++ rest -> at_mode ls (length pre) m -> go m (length pre) rest = Some (r, e) -> Forall (located ls) r.
Proof.
  induction rest as [|l rest IH]; intros pre m r e E A H.
  - cbn [go] in H. rewrite app_nil_r in E. subst pre. destruct m as [res|name py fr body|name body].
    + destruct res; [injection H as <- _; constructor|discriminate].
    + destruct body; [injection H as <- _; constructor|discriminate].
    + injection H as <- _. constructor; [|constructor]. destruct A as (h & t & n & HD & D & K & B & L & F). exists h, t, n. split; [exact HD|]. split; [exact D|]. split; [now rewrite K|].
      split; [exact B|]. split; [exact L|]. split; [exact F|]. rewrite (proj2 (nth_error_None ls (S h + n))) by lia. exact I.
  - assert (N : nth_error ls (length pre) = Some l) by (rewrite E, nth_error_app2, Nat.sub_diag by lia; reflexivity).
    rewrite go_cons in H. destruct (step m (S (length pre)) (rstrip l)) as [[m' out]|] eqn:ST; [|discriminate]. destruct (go m' (S (length pre)) rest) as [[r' e']|] eqn:G; [|discriminate].
    cbn [push] in H. injection H as <- <-.
    assert (X : at_mode ls (S (length pre)) m' /\ Forall (located ls) out).
    { destruct m as [res|name py fr body|name body]; cbn [step] in ST.
      - now apply (top_located ls (length pre) l res).
      - destruct A as (h & t & n & HD & D & K & B & L & F). destruct (seqb (rstrip l) (s_ "}")) eqn:Q; injection ST as <- <-.
        + apply seqb_eq in Q. split; [apply at_top|]. constructor; [|constructor]. exists h, t, n, l. split; [exact HD|]. split; [exact D|]. split; [lia|]. split; [now rewrite B|]. split; [exact L|].
          split; [now rewrite <- K|]. split; [exact Q|exact F].
        + apply seqb_neq in Q. split; [|constructor]. rewrite K in N. exists h, t, (S n). rewrite (upto_line_S _ _ _ _ N). split; [exact HD|]. split; [exact D|]. split; [lia|]. split; [now rewrite B|].
          split; [rewrite app_length, L; cbn; lia|]. rewrite in_app_iff. intros [Y | [Y | []]]; [contradiction|]. now apply Q.
      - destruct A as (h & t & n & HD & D & K & B & L & F). destruct (inside_def (rstrip l)) eqn:Q.
        + injection ST as <- <-. split; [|constructor]. rewrite K in N. exists h, t, (S n). rewrite (upto_line_S _ _ _ _ N). split; [exact HD|]. split; [exact D|]. split; [lia|]. split; [now rewrite B|].
          split; [rewrite app_length, L; cbn; lia|]. apply Forall_app. split; auto.
        + destruct (top [] (rstrip l)) as [[m2 out2]|] eqn:T; [|discriminate]. injection ST as <- <-. destruct (top_located ls (length pre) l [] m2 out2 (at_top _ _) N T) as [A2 F2]. split; [exact A2|].
          constructor; auto. exists h, t, n. split; [exact HD|]. split; [exact D|]. split; [now rewrite K|]. split; [exact B|]. split; [exact L|]. split; [exact F|]. rewrite <- K, N. exact Q. }
    destruct X as [A' FO]. apply Forall_app. split; [exact FO|]. apply (IH (pre ++ [l]) m' r' e').
    + rewrite E, <- app_assoc. reflexivity.
    + rewrite app_length. cbn [length]. now rewrite Nat.add_1_r.
    + rewrite app_length. cbn [length]. rewrite Nat.add_1_r. exact G.
Qed.
Lemma read_located ls r e : read ls = Some (r, e) -> Forall (located ls) r.
Proof. intros H. apply (go_located ls ls [] (Top []) r e); auto. apply at_top. Qed.
Lemma one_line_no s : one_line s -> no_char newline s.
Proof. intros H. now apply no_char_In. Qed.
Lemma one_line_rstrip s : one_line s -> one_line (rstrip s).
Proof. intros H I. apply H. destruct (rstrip_spec s) as (b & E & _). rewrite E. apply in_or_app. now left. Qed.
(** compiled texts *)
Lemma unlines_cons x l : l <> [] -> unlines (x :: l) = x ++ newline :: unlines l.
Proof. intros N. unfold unlines. now rewrite join_cons. Qed.
Lemma padded_lines p l : l <> [] -> Forall one_line l -> split_on newline (padded p (unlines l)) = repeat [] p ++ l.
Proof.
  intros N F. assert (E : padded p (unlines l) = unlines (repeat [] p ++ l)).
  { unfold padded. induction p as [|p IH]; auto. cbn [repeat app]. rewrite IH, unlines_cons; [reflexivity|]. destruct p; cbn; [auto|discriminate]. }
  rewrite E. unfold unlines. apply split_on_join.
  - destruct p; cbn; [auto|discriminate].
  - apply Forall_app. split; [|eapply Forall_impl; [|exact F]; intros a; apply one_line_no]. apply Forall_forall. intros x I. apply repeat_spec in I. subst x. apply one_line_no. intros [].
Qed.
Lemma nth_after (p : nat) (l : list str) i : nth_error (repeat [] p ++ l) (p + i) = nth_error l i.
Proof. rewrite nth_error_app2; rewrite repeat_length; [|lia]. f_equal. lia. Qed.
Lemma header_line ls h t : no_newline ls -> head_at ls h t -> one_line t.
Proof.
  intros N (l & c & NL & _ & ->). unfold no_newline in N. rewrite Forall_forall in N. intros I. apply in_app_iff in I. destruct I as [I|I].
  - apply in_concat in I. destruct I as (x & X & I). apply in_map_iff in X. destruct X as (y & <- & Y). unfold upto_line in Y. apply in_map_iff in Y. destruct Y as (z & <- & Z).
    assert (Z' : In z ls).
    { rewrite <- (firstn_skipn (h - c) ls). apply in_or_app. right. rewrite <- (firstn_skipn c (skipn (h - c) ls)). apply in_or_app. now left. }
    apply (one_line_rstrip z (N z Z')). destruct (rstrip z) as [|q w] using rev_ind; [contradiction|]. rewrite removelast_snoc in I. apply in_or_app. now left.
  - apply (one_line_rstrip l (N l (nth_error_In _ _ NL))). exact I.
Qed.
Lemma upto_one_line a n ls : no_newline ls -> Forall one_line (upto_line a n ls).
Proof.
  intros N. unfold upto_line, no_newline in *. rewrite Forall_forall in *. intros y Y. apply in_map_iff in Y. destruct Y as (z & <- & Z). apply one_line_rstrip, N.
  rewrite <- (firstn_skipn a ls). apply in_or_app. right. rewrite <- (firstn_skipn n (skipn a ls)). apply in_or_app. now left.
Qed.
(** the cache of compiled texts *)
Lemma compile_all_nth l : forall cache i t f p, nth_error l i = Some (t, f, p) ->
  (forall f' p', In (t, f', p') cache -> (f', p') = (f, p)) ->
  (forall j f' p', j < i -> nth_error l j = Some (t, f', p') -> (f', p') = (f, p)) ->
  nth_error (compile_all cache l) i = Some (f, p).
Proof.
  assert (FO : forall cache t x, found cache t = Some x -> In (t, fst x, snd x) cache).
  { induction cache as [|[[t' f] p] cache IH]; intros t x H; [discriminate|]. cbn in H. destruct (seqb t' t) eqn:E; [apply seqb_eq in E; subst; injection H as <-; now left|right; now apply IH]. }
  induction l as [|[[t0 f0] p0] l IH]; intros cache i t f p N HC HJ; [now destruct i|]. destruct i as [|i].
  - cbn in N. injection N as -> -> ->. cbn [compile_all]. destruct (found cache t) as [[f' p']|] eqn:E; [|reflexivity]. cbn. f_equal. apply HC. now apply (FO cache t (f', p')).
  - cbn [nth_error] in N. cbn [compile_all].
    assert (HJ' : forall j f' p', j < i -> nth_error l j = Some (t, f', p') -> (f', p') = (f, p)) by (intros j f' p' L; apply (HJ (S j)); lia).
    destruct (found cache t0) as [x|]; cbn [nth_error]; apply (IH _ i t f p); auto. intros f' p' I. apply in_app_iff in I. destruct I as [I | [I | []]]; [auto|].
    injection I as -> -> ->. apply (HJ 0 f' p'); [lia|reflexivity].
Qed.
(** scripts *)
Lemma drop_newlines_repeat n s : drop_newlines (repeat newline n ++ s) = drop_newlines s.
Proof. induction n as [|n IH]; auto. Qed.
Lemma unlines_app (l : list str) n : l <> [] -> unlines (l ++ repeat ([] : str) n) = unlines l ++ repeat newline n.
Proof.
  intros N. induction l as [|x l IH]; [contradiction|]. destruct l as [|y l].
  - cbn [app]. clear. unfold unlines at 2. cbn [join]. revert x. induction n as [|n IH]; intros x; [cbn; now rewrite app_nil_r|]. cbn [repeat]. rewrite unlines_cons by discriminate. now rewrite IH.
  - cbn [app] in *. rewrite (unlines_cons x (y :: l ++ repeat ([] : str) n)), (unlines_cons x (y :: l)) by discriminate. rewrite IH by discriminate. now rewrite <- app_assoc.
Qed.
Lemma unlines_snoc l x : exists p, unlines (l ++ [x]) = p ++ x.
Proof. induction l as [|y l [p IH]]; [now exists []|]. cbn [app]. rewrite unlines_cons by (destruct l; discriminate). rewrite IH. exists (y ++ newline :: p). now rewrite <- app_assoc. Qed.
Lemma last_nonempty (l : list str) j x : nth_error l j = Some x -> x <> [] -> exists l1 y n, l = (l1 ++ [y]) ++ repeat [] n /\ y <> [] /\ j < length (l1 ++ [y]).
Proof.
  induction l as [|z l IH] using rev_ind; intros N X; [now destruct j|]. destruct z as [|c z].
  - destruct (Nat.lt_ge_cases j (length l)) as [L|L].
    + rewrite nth_error_app1 in N by auto. destruct (IH N X) as (l1 & y & n & E & Y & J). exists l1, y, (S n). split; [|auto].
      subst l. rewrite <- app_assoc. f_equal. exact (eq_sym (repeat_cons n [])).
    + rewrite nth_error_app2 in N by auto. destruct (j - length l) as [|d]; cbn in N; [injection N as <-; contradiction|now destruct d].
  - exists l, (c :: z), 0. split; [cbn; now rewrite app_nil_r|]. split; [discriminate|]. apply nth_error_Some. intros Z. unfold str in *. rewrite Z in N. discriminate.
Qed.
Lemma script_lines l j x : Forall one_line l -> nth_error l j = Some x -> x <> [] -> exists p n, l = p ++ repeat ([] : str) n /\ j < length p /\ split_on newline (rstrip_nl (unlines l)) = p.
Proof.
  intros F N X. destruct (last_nonempty l j x N X) as (l1 & y & n & E & Y & J). subst l. apply Forall_app in F. destruct F as [F _].
  exists (l1 ++ [y]), n. split; [reflexivity|]. split; [exact J|].
  rewrite unlines_app by (destruct l1; discriminate). destruct (unlines_snoc l1 y) as [p P]. unfold str in *.
  assert (R : rstrip_nl (unlines (l1 ++ [y]) ++ repeat newline n) = unlines (l1 ++ [y])).
  { unfold rstrip_nl. rewrite rev_app_distr. assert (RR : rev (repeat newline n) = repeat newline n).
    { clear. induction n as [|n IH]; auto. cbn [repeat rev]. rewrite IH. clear. induction n as [|n IH]; auto. cbn [repeat app]. now rewrite IH. }
    rewrite RR, drop_newlines_repeat. rewrite P. destruct y as [|c y _] using rev_ind; [contradiction|].
    rewrite app_assoc, rev_app_distr. cbn [rev app drop_newlines]. apply Forall_app in F. destruct F as [_ F]. inversion F as [|? ? F1 _]; subst.
    assert (C : aeqb c newline = false) by (apply aeqb_neq; intros ->; apply F1; apply in_or_app; right; now left). rewrite C. cbn [rev]. now rewrite rev_involutive. }
  rewrite R. unfold unlines. apply split_on_join.
  - destruct l1; discriminate.
  - eapply Forall_impl; [|exact F]. intros a. apply one_line_no.
Qed.
Lemma script_line l j x : Forall one_line l -> nth_error l j = Some x -> x <> [] -> nth_error (split_on newline (rstrip_nl (unlines l))) j = Some x.
Proof. intros F N X. destruct (script_lines l j x F N X) as (p & n & E & J & ->). subst l. now rewrite nth_error_app1 in N by auto. Qed.
Lemma script_lines_in l j x i y : Forall one_line l -> nth_error l j = Some x -> x <> [] -> nth_error (split_on newline (rstrip_nl (unlines l))) i = Some y -> In y l.
Proof. intros F N X. destruct (script_lines l j x F N X) as (p & n & E & J & ->). intros I. apply nth_error_In in I. rewrite E. apply in_or_app. now left. Qed.
Lemma rstrip_again v : rstrip (rstrip v) = rstrip v.
Proof. unfold rstrip. rewrite rev_involutive. f_equal. induction (rev v) as [|y w IH]; cbn; auto. destruct (is_space y) eqn:Y; auto. cbn. now rewrite Y. Qed.
Lemma header_no_mark t name py fr : heading t name py fr -> mark_of (rstrip (name ++ s_ "() {")) = None.
Proof.
  intros (kws & n & w1 & w2 & w3 & _ & _ & _ & F & _ & _ & _ & _ & _ & -> & _). rewrite rstrip_tidy.
  2:{ intros c [u E]. change (s_ "() {") with (s_ "() " ++ ["{"%char]) in E. rewrite app_assoc in E. apply app_inj_tail in E. destruct E as [_ <-]. reflexivity. }
  destruct n as [|c n]; [reflexivity|]. unfold mark_of. inversion F as [|? ? C _]; subst. destruct (strip_prefix (s_ "# line: ") ((c :: n) ++ s_ "() {")) eqn:P; [|reflexivity].
  apply strip_prefix_iff in P. cbn in P. assert (Hc : c = "#"%char) by congruence. subst c. exfalso. destruct C as [C|C].
  - revert C. clear. unfold wordly. intros C. vm_compute in C. intuition discriminate.
  - cbn in C. intuition discriminate.
Qed.
Lemma mark_of_mark n f : f <> [] -> mark_of (mark n f) = Some (n, f).
Proof.
  intros N. unfold mark_of, mark. rewrite strip_prefix_app. destruct (dec_spec (N.of_nat n)) as (D & F & V & _). rewrite (span_app is_digit (dec (N.of_nat n))); [|exact F|reflexivity].
  destruct (dec (N.of_nat n)) as [|d ds] eqn:E; [contradiction|]. rewrite strip_prefix_app. destruct f as [|c f]; [contradiction|]. rewrite V. now rewrite Nnat.Nat2N.id.
Qed.
Lemma rstrip_mark n f : f <> [] -> (forall c, ends c f -> is_space c = false) -> rstrip (mark n f) = mark n f.
Proof.
  intros N H. apply rstrip_tidy. intros c [t E]. apply H. unfold mark in E. destruct f as [|x f _] using rev_ind; [contradiction|]. exists f. rewrite !app_assoc in E.
  apply app_inj_tail in E. destruct E as [_ ->]. reflexivity.
Qed.
Lemma search_back_at script b s n f : nth_error script b = Some s -> mark_of (rstrip s) = Some (n, f) ->
  forall j, (forall i x, b < i -> i <= b + j -> nth_error script i = Some x -> mark_of (rstrip x) = None) -> search_back script (b + j) = Some (b, n, f).
Proof.
  intros N M. induction j as [|j IH]; intros H.
  - rewrite Nat.add_0_r. destruct b; cbn [search_back]; now rewrite N, M.
  - rewrite Nat.add_succ_r. cbn [search_back]. destruct (nth_error script (S (b + j))) as [x|] eqn:E.
    + rewrite (H (S (b + j)) x ltac:(lia) ltac:(lia) E). apply IH. intros i y L1 L2. apply H; lia.
    + apply IH. intros i y L1 L2. apply H; lia.
Qed.
Lemma separated_head p r : separated (p :: r) -> match p with Df _ _ _ _ _ => match concat (map part_lines r) with [] => True | x :: _ => ~ belongs x end | _ => True end /\ separated r.
Proof. destruct p; cbn; tauto. Qed.
Lemma parts_then l : forall k r X, Forall good_part l -> separated (l ++ r) -> hd_error X = hd_error (concat (map part_lines r)) ->
  go (Top []) k (concat (map part_lines l) ++ X) = push (nodes k l) (go (Top []) (k + length (concat (map part_lines l))) X).
Proof.
  induction l as [|p l IH]; intros k r X F S HX.
  - cbn. now rewrite push_nil, Nat.add_0_r.
  - inversion F as [|? ? G F']; subst. cbn [map concat nodes app] in *. rewrite <- app_assoc. apply separated_head in S. destruct S as [SH S'].
    assert (D : forall n, go (Top []) n (concat (map part_lines l) ++ X) = push (nodes n l) (go (Top []) (n + length (concat (map part_lines l))) X)) by (intros n; now apply (IH n r)).
    rewrite app_length, Nat.add_assoc.
    destruct p as [i|more final w name py fr lines w'|more final w name lines]; cbn [part_lines].
    + destruct i as [w|more final|more final w]; cbn [item_texts map app good_part] in *.
      * cbn [item_lines app]. rewrite go_blank by auto. rewrite D. cbn [length]. now replace (k + 1) with (Datatypes.S k) by lia.
      * rewrite go_comment by auto. apply D.
      * destruct G as [P N]. rewrite go_stmt by auto. unfold decide. destruct (func_start (head_text more final)) as [[[n py] fr]|] eqn:E1.
        { elim N. left. exists n, py, fr. now apply func_start_iff. }
        destruct (def_start (head_text more final)) as [n|] eqn:E2.
        { elim N. right. exists n. now apply def_start_iff. }
        rewrite D, <- push_app. reflexivity.
    + destruct G as (P & H & NB & W). rewrite <- app_assoc, go_stmt by auto. unfold decide. rewrite (heading_read _ _ _ _ H), push_nil. rewrite <- app_assoc. cbn [app]. rewrite go_fn by auto. rewrite D, <- push_app.
      cbn [app]. rewrite !app_length. cbn [length].
      match goal with |- push (Func _ _ _ _ ?a :: _) _ = push (Func _ _ _ _ ?b :: _) _ => replace a with b by (unfold str; lia) end. reflexivity.
    + destruct G as (P & H & FB). rewrite <- app_assoc, go_stmt by auto. unfold decide. rewrite (def_not_func _ _ H), (proj2 (def_start_iff _ _) H), push_nil, go_df by auto.
      rewrite go_df_end.
      * rewrite D, <- push_app. cbn [app]. rewrite app_length.
        match goal with |- push (PyDef _ _ (Datatypes.S ?a) :: _) _ = push (PyDef _ _ (Datatypes.S ?b) :: _) _ => replace a with b by (unfold str; lia) end. reflexivity.
      * rewrite map_app, concat_app in SH. destruct (concat (map part_lines l)) as [|z zs]; [|exact SH]. cbn [app] in *. destruct X as [|x X]; auto.
        destruct (concat (map part_lines r)) as [|y ys]; [discriminate|]. cbn in HX. injection HX as ->. exact SH.
Qed.
Lemma go_open name py fr lines : forall body k, (forall l v, In l lines -> spaces v -> l <> s_ "}" ++ v) -> go (InFunc name py fr body) k lines = match body ++ lines with [] => Some ([], true) | _ => None end.
Proof.
  induction lines as [|l lines IH]; intros body k NB.
  - rewrite app_nil_r. destruct body; reflexivity.
  - rewrite go_cons. cbn [step]. assert (N : seqb (rstrip l) (s_ "}") = false).
    { apply seqb_neq. intros E. destruct (rstrip_spec l) as (b & E2 & B & _). rewrite E in E2. apply (NB l b); auto. now left. }
    rewrite N, push_nil, IH by (intros; apply NB; auto; now right). rewrite <- app_assoc. destruct body; reflexivity.
Qed.
Lemma unclosed_read l more final w name py fr lines : let p := Fn more final w name py fr lines [] in
  Forall good_part (l ++ [p]) -> separated (l ++ [p]) ->
  read (removelast (concat (map part_lines (l ++ [p])))) = match lines with [] => Some (nodes 0 l, true) | _ => None end.
Proof.
  intros p F S. apply Forall_app in F. destruct F as [F G]. inversion G as [|? ? G1 _]; subst. destruct G1 as (P & H & NB & _). rewrite map_app, concat_app. cbn [map concat]. rewrite app_nil_r. unfold p. cbn [part_lines].
  rewrite !app_assoc, removelast_snoc, <- app_assoc. unfold read. rewrite (parts_then l 0 [p]); auto.
  - rewrite go_stmt by auto. unfold decide. rewrite (heading_read _ _ _ _ H), push_nil, go_open by auto. cbn [app]. destruct lines; [|reflexivity]. cbn. now rewrite app_nil_r.
  - unfold p. cbn [map concat part_lines]. rewrite item_lines_eq. destruct more; reflexivity.
Qed.
