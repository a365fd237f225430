(** Lemmas for C77-C80. *)
From Coq Require Import Ascii String List Bool Arith NArith Lia.
From Verif Require Import Str_Model Str_Proofs Posix_Model Data_Model Data_Spec Data_Proofs Search_Model Parse_Model Parse_Spec.
Import ListNotations.
Open Scope list_scope.

(** ** Logical lines *)
Lemma bs_not_space : is_space "\"%char = false. Proof. reflexivity. Qed.
Lemma head_is_iff c s : head_is c s = true <-> begins c s.
Proof.
  unfold begins. destruct s as [|x s]; cbn; [split; [discriminate|now intros [t E]]|].
  rewrite aeqb_eq. split; [intros ->; eauto|intros [t E]; now injection E].
Qed.
Lemma head_is_false c s : head_is c s = false <-> ~ begins c s.
Proof. rewrite <- head_is_iff. destruct (head_is c s); split; intuition discriminate. Qed.
Lemma continued_iff s : continued s = true <-> ends "\"%char s.
Proof.
  unfold continued. rewrite head_is_iff. unfold begins, ends. split; intros [t E].
  - exists (rev t). apply (f_equal (@rev ascii)) in E. rewrite rev_involutive in E. exact E.
  - exists (rev t). rewrite E, rev_app_distr. reflexivity.
Qed.
Lemma continued_false s : continued s = false <-> ~ ends "\"%char s.
Proof. rewrite <- continued_iff. destruct (continued s); split; intuition discriminate. Qed.
Lemma continued_snoc s : continued (s ++ ["\"%char]) = true.
Proof. apply continued_iff. now exists s. Qed.
Lemma continued_app a b : b <> [] -> continued (a ++ b) = continued b.
Proof.
  intros N. unfold continued. rewrite rev_app_distr. destruct (rev b) as [|x r] eqn:E; [|reflexivity].
  apply (f_equal (@rev ascii)) in E. rewrite rev_involutive in E. contradiction.
Qed.
Lemma rstrip_spaces s w : spaces w -> rstrip (s ++ w) = rstrip s.
Proof.
  intros W. unfold rstrip. rewrite rev_app_distr. f_equal. apply Forall_rev in W. induction W as [|c r H _ IH]; auto. cbn. now rewrite H.
Qed.
Lemma rstrip_bs p w : spaces w -> rstrip (p ++ "\"%char :: w) = p ++ ["\"%char].
Proof.
  intros W. change (p ++ "\"%char :: w) with (p ++ ["\"%char] ++ w). rewrite app_assoc, rstrip_spaces by auto. now apply rstrip_snoc.
Qed.
Lemma rstrip_blank w : spaces w -> rstrip w = [].
Proof. intros W. apply (rstrip_spaces [] w) in W. exact W. Qed.
Lemma rstrip_tidy s : (forall c, ends c s -> is_space c = false) -> rstrip s = s.
Proof.
  intros H. destruct (rev s) as [|c r] eqn:E.
  - apply (f_equal (@rev ascii)) in E. rewrite rev_involutive in E. subst s. reflexivity.
  - apply (f_equal (@rev ascii)) in E. rewrite rev_involutive in E. cbn [rev] in E. subst s. apply rstrip_snoc. apply H. now exists (rev r).
Qed.
Lemma removelast_snoc {A} (s : list A) x : removelast (s ++ [x]) = s.
Proof. rewrite removelast_app by discriminate. cbn. apply app_nil_r. Qed.
Lemma head_app c a b : a <> [] -> head_is c (a ++ b) = head_is c a.
Proof. destruct a; [contradiction|reflexivity]. Qed.
Lemma app_nonnil {A} (a b : list A) : a <> [] -> a ++ b <> [].
Proof. destruct a; [contradiction|discriminate]. Qed.
Lemma match_nonnil {A B} (l : list A) (x y : B) : l <> [] -> match l with [] => x | _ :: _ => y end = y.
Proof. destruct l; [contradiction|reflexivity]. Qed.

Definition stmt_more (p : str * str) : str := fst p ++ "\"%char :: snd p.
Definition comment_more (p : str * str) : str := "#"%char :: fst p ++ "\"%char :: snd p.
Lemma stmt_more_rstrip p : spaces (snd p) -> rstrip (stmt_more p) = fst p ++ ["\"%char].
Proof. apply rstrip_bs. Qed.
Lemma comment_more_rstrip p : spaces (snd p) -> rstrip (comment_more p) = ("#"%char :: fst p) ++ ["\"%char].
Proof. intros H. exact (rstrip_bs ("#"%char :: fst p) (snd p) H). Qed.
Lemma conf_stmt more : forall acc final w rest,
  acc <> [] -> head_is hash acc = false -> Forall (fun p => spaces (snd p)) more -> spaces w ->
  rstrip final = final -> continued (acc ++ concat (map fst more) ++ final) = false ->
  conf_go (Some (acc ++ ["\"%char])) (map stmt_more more ++ (final ++ w) :: rest) =
  cons_line (acc ++ concat (map fst more) ++ final) (conf_go None rest).
Proof.
  induction more as [|[p v] more IH]; intros acc final w rest N H F W T C.
  - cbn [map concat app conf_go]. rewrite rstrip_spaces, T by auto. rewrite head_app, H by auto. cbn [andb]. rewrite removelast_snoc.
    rewrite match_nonnil by now apply app_nonnil. cbn [map concat app] in C. rewrite C. now rewrite head_app, H by auto.
  - inversion F as [|? ? F1 F2]; subst. cbn [fst snd] in *. cbn [map app conf_go]. rewrite stmt_more_rstrip by auto. cbn [fst snd].
    rewrite head_app, H by auto. cbn [andb]. rewrite removelast_snoc, match_nonnil by now apply app_nonnil. rewrite (app_assoc acc p ["\"%char]), continued_snoc.
    cbn [map concat fst] in C |- *. replace (acc ++ (p ++ concat (map fst more)) ++ final) with ((acc ++ p) ++ concat (map fst more) ++ final) in * by now rewrite <- !app_assoc.
    apply IH; auto using app_nonnil. now rewrite head_app.
Qed.
Lemma conf_comment more : forall acc final rest,
  acc <> [] -> head_is hash acc = true -> Forall (fun p => spaces (snd p)) more ->
  continued (rstrip ("#"%char :: final)) = false ->
  conf_go (Some (acc ++ ["\"%char])) (map comment_more more ++ ("#"%char :: final) :: rest) = conf_go None rest.
Proof.
  assert (HD : forall c s, is_space c = false -> exists t, rstrip (c :: s) = c :: t).
  { intros c s H. destruct (rstrip_spec (c :: s)) as (b & E & B & _). destruct (rstrip (c :: s)) as [|x r]; cbn [app] in E.
    - subst b. inversion B; congruence.
    - injection E as -> _. eauto. }
  induction more as [|[p v] more IH]; intros acc final rest N H F C.
  - cbn [map app conf_go]. destruct (HD "#"%char final eq_refl) as [t E]. rewrite E in *. cbn [head_is]. change (aeqb "#"%char hash) with true. cbn [negb]. rewrite andb_false_r.
    rewrite removelast_snoc, match_nonnil by now apply app_nonnil. rewrite continued_app, C by discriminate. now rewrite head_app, H.
  - inversion F as [|? ? F1 F2]; subst. cbn [fst snd] in *. cbn [map app conf_go]. rewrite comment_more_rstrip by auto. cbn [fst snd]. cbn [app head_is]. change (aeqb "#"%char hash) with true. cbn [negb]. rewrite andb_false_r.
    rewrite removelast_snoc, match_nonnil by now apply app_nonnil. change (acc ++ "#"%char :: p ++ ["\"%char]) with (acc ++ ("#"%char :: p) ++ ["\"%char]).
    rewrite (app_assoc acc _ ["\"%char]), continued_snoc. apply IH; auto using app_nonnil. now rewrite head_app.
Qed.
Lemma item_lines_eq i : item_lines i =
  match i with
  | Blank w => [w]
  | Comment more final => map comment_more more ++ ["#"%char :: final]
  | Stmt more final w => map stmt_more more ++ [final ++ w]
  end.
Proof. destruct i; reflexivity. Qed.
Lemma conf_item i rest : proper i -> conf_go None (item_lines i ++ rest) = fold_right cons_line (conf_go None rest) (item_texts i).
Proof.
  destruct i as [w|more final|more final w]; intros P; rewrite item_lines_eq; cbn [item_texts fold_right].
  - cbn [app conf_go proper] in *. now rewrite rstrip_blank.
  - destruct P as [F C]. apply continued_false in C. destruct more as [|[p v] more].
    + cbn [map app conf_go]. pose proof C as C'. destruct (rstrip_spec ("#"%char :: final)) as (b & E & B & _). destruct (rstrip ("#"%char :: final)) as [|x r]; auto.
      cbn [app] in E. injection E as <- _. rewrite C. reflexivity.
    + inversion F as [|? ? F1 F2]; subst. cbn [fst snd] in *. cbn [map app conf_go]. rewrite comment_more_rstrip by auto. cbn [fst snd]. rewrite match_nonnil by discriminate. rewrite continued_snoc. rewrite <- app_assoc. apply (conf_comment more ("#"%char :: p)); auto. discriminate.
  - destruct P as (F & H & W & T & N & C). apply continued_false in C. apply head_is_false in H. apply rstrip_tidy in T. destruct more as [|[p v] more].
    + cbn [map concat app conf_go] in *. rewrite rstrip_spaces, T by auto. assert (N' : final <> []) by (intros ->; now apply N).
      rewrite match_nonnil by auto. rewrite C. unfold hash. now rewrite H.
    + inversion F as [|? ? F1 F2]; subst. cbn [fst snd] in *. destruct F1 as (P1 & P2 & P3). cbn [map app conf_go]. rewrite stmt_more_rstrip by auto. cbn [fst snd].
      rewrite match_nonnil by now apply app_nonnil. rewrite continued_snoc. rewrite <- app_assoc. cbn [map concat fst] in C |- *. rewrite <- app_assoc in *. apply (conf_stmt more p); auto.
      * now apply head_is_false.
      * eapply Forall_impl; [|exact F2]. cbn. tauto.
Qed.

Lemma bb_stmt more : forall r res final w rest,
  r <> [] -> head_is hash r = false ->
  Forall (fun p => head_is hash (fst p) = false /\ spaces (snd p)) more -> head_is hash final = false -> spaces w ->
  rstrip final = final -> continued final = false ->
  bb_go (r :: res) (map stmt_more more ++ (final ++ w) :: rest) =
  cons_line (concat (r :: res) ++ concat (map fst more) ++ final) (bb_go [] rest).
Proof.
  induction more as [|[p v] more IH]; intros r res final w rest N H F HF W T C.
  - cbn [map concat app bb_go]. rewrite rstrip_spaces, T by auto. rewrite HF, H. destruct r as [|x r]; [contradiction|]. cbn [andb orb]. rewrite C.
    rewrite match_nonnil by discriminate. cbn [app head_is] in *. now rewrite H.
  - inversion F as [|? ? F1 F2]; subst. cbn [fst snd] in *. destruct F1 as [F1 F3]. cbn [map app bb_go]. rewrite stmt_more_rstrip by auto. cbn [fst snd].
    assert (E : head_is hash (p ++ ["\"%char]) = false) by (destruct p; auto). rewrite E, H. destruct r as [|x r]; [contradiction|]. cbn [andb orb]. rewrite continued_snoc, removelast_snoc.
    change ((x :: r) :: res ++ [p]) with ((x :: r) :: (res ++ [p])). rewrite IH by auto. cbn [map concat fst]. f_equal. rewrite concat_app. cbn [concat]. now rewrite app_nil_r, <- !app_assoc.
Qed.
Lemma bb_comment more : forall r res final rest,
  head_is hash r = true -> Forall (fun p => spaces (snd p)) more ->
  continued (rstrip ("#"%char :: final)) = false ->
  bb_go (r :: res) (map comment_more more ++ ("#"%char :: final) :: rest) = bb_go [] rest.
Proof.
  assert (HD : forall c s, is_space c = false -> exists t, rstrip (c :: s) = c :: t).
  { intros c s H. destruct (rstrip_spec (c :: s)) as (b & E & B & _). destruct (rstrip (c :: s)) as [|x r]; cbn [app] in E.
    - subst b. inversion B; congruence.
    - injection E as -> _. eauto. }
  induction more as [|[p v] more IH]; intros r res final rest H F C; (destruct r as [|x r]; [discriminate|]).
  - cbn [map app bb_go]. destruct (HD "#"%char final eq_refl) as [t E]. rewrite E in *. rewrite H. cbn [head_is]. change (aeqb "#"%char hash) with true. cbn [andb orb negb].
    rewrite C, match_nonnil by discriminate. cbn [concat app head_is] in *. now rewrite H.
  - inversion F as [|? ? F1 F2]; subst. cbn [fst snd] in *. cbn [map app bb_go]. rewrite comment_more_rstrip by auto. cbn [fst snd]. rewrite H. cbn [app head_is]. change (aeqb "#"%char hash) with true. cbn [negb andb orb].
    change ("#"%char :: p ++ ["\"%char]) with (("#"%char :: p) ++ ["\"%char]). rewrite continued_snoc, removelast_snoc.
    change ((x :: r) :: res ++ [("#"%char :: p)]) with ((x :: r) :: (res ++ [("#"%char :: p)])). now apply IH.
Qed.
Lemma ends_app_false c a b : ~ ends c (a ++ b) -> ~ ends c b.
Proof. intros H [t ->]. apply H. exists (a ++ t). now rewrite app_assoc. Qed.
Lemma bb_item i rest : proper i -> bb_go [] (item_lines i ++ rest) = fold_right cons_line (bb_go [] rest) (item_texts i).
Proof.
  destruct i as [w|more final|more final w]; intros P; rewrite item_lines_eq; cbn [item_texts fold_right].
  - cbn [app bb_go proper] in *. now rewrite rstrip_blank.
  - destruct P as [F C]. apply continued_false in C. destruct more as [|[p v] more].
    + cbn [map app bb_go]. rewrite C. destruct (rstrip_spec ("#"%char :: final)) as (b & E & B & _). destruct (rstrip ("#"%char :: final)) as [|x r]; auto.
      cbn [app] in E. injection E as <- _. reflexivity.
    + inversion F as [|? ? F1 F2]; subst. cbn [fst snd] in *. cbn [map app bb_go]. rewrite comment_more_rstrip by auto. cbn [fst snd]. rewrite continued_snoc, removelast_snoc. rewrite <- app_assoc. now apply (bb_comment more ("#"%char :: p) []).
  - destruct P as (F & H & W & T & N & C). apply ends_app_false in C as C'. apply continued_false in C, C'. apply head_is_false in H. apply rstrip_tidy in T. destruct more as [|[p v] more].
    + cbn [map concat app bb_go] in *. rewrite rstrip_spaces, T by auto. assert (N' : final <> []) by (intros ->; now apply N).
      rewrite C, match_nonnil by auto. unfold hash. now rewrite H.
    + inversion F as [|? ? F1 F2]; subst. cbn [fst snd] in *. destruct F1 as (P1 & P2 & P3). cbn [map app bb_go]. rewrite stmt_more_rstrip by auto. cbn [fst snd].
      rewrite continued_snoc, removelast_snoc. rewrite <- app_assoc. cbn [map concat fst]. change ([] ++ [p]) with [p]. cbn [app]. rewrite (bb_stmt more p []); auto.
      * cbn [concat]. now rewrite app_nil_r, <- app_assoc.
      * now apply head_is_false.
      * eapply Forall_impl; [|exact F2]. cbn. intros q (? & ? & ?). split; auto. now apply head_is_false.
Qed.
Lemma items_lines (go : list str -> option (list str)) : go [] = Some [] ->
  (forall i rest, proper i -> go (item_lines i ++ rest) = fold_right cons_line (go rest) (item_texts i)) ->
  forall l, Forall proper l -> go (concat (map item_lines l)) = Some (concat (map item_texts l)).
Proof.
  intros G0 G. induction l as [|i l IH]; intros F; auto. inversion F; subst. cbn [map concat]. rewrite G, IH by auto. generalize (concat (map item_texts l)). intros r.
  induction (item_texts i) as [|x t IHt]; auto. cbn [fold_right app]. now rewrite IHt.
Qed.

(** Both ways of assembling agree, unless a line ends in two backslashes *)
Definition pieces_ok (res : list str) : Prop := Forall (fun r => continued r = false) res.
Lemma concat_continued res : pieces_ok res -> continued (concat res) = false.
Proof.
  induction res as [|r res IH] using rev_ind; intros F; auto. apply Forall_app in F. destruct F as [F1 F2]. inversion F2; subst.
  rewrite concat_app. cbn [concat]. rewrite app_nil_r. destruct r as [|x r]; [rewrite app_nil_r; auto|]. rewrite continued_app; auto. discriminate.
Qed.
Lemma agree_go ls : ~ double_backslash ls ->
  (forall a b, conf_go None ls = Some a -> bb_go [] ls = Some b -> a = b) /\
  (forall res a b, res <> [] -> hd [] res <> [] -> pieces_ok res -> conf_go (Some (concat res ++ ["\"%char])) ls = Some a -> bb_go res ls = Some b -> a = b).
Proof.
  induction ls as [|l ls IH]; intros D.
  - split; [cbn; congruence|]. intros res a b N _ _ _ B. cbn in B. destruct res; congruence.
  - assert (D' : ~ double_backslash ls) by (intros (x & t & I & E); apply D; exists x, t; split; [now right|auto]).
    destruct (IH D') as [I1 I2]. clear IH.
    assert (P : continued (rstrip l) = true -> exists p, rstrip l = p ++ ["\"%char] /\ continued p = false).
    { intros C. apply continued_iff in C. destruct C as [p E]. exists p. split; auto. apply continued_false. intros [t E']. apply D. exists l, t. split; [now left|].
      rewrite E, E', <- app_assoc. reflexivity. }
    split.
    + intros a b A B. cbn [conf_go bb_go concat app] in A, B. destruct (continued (rstrip l)) eqn:C.
      * destruct (P eq_refl) as (p & E & Cp). rewrite E in A, B. rewrite removelast_snoc in B. rewrite match_nonnil in A by (destruct p; discriminate).
        destruct p as [|x p].
        -- destruct ls; cbn in B; discriminate.
        -- cbn [app] in A, B. apply (I2 [x :: p] a b); auto; try discriminate; [repeat constructor; auto|]. cbn [concat]. rewrite app_nil_r. exact A.
      * destruct (rstrip l) as [|x s]; [eauto|]. destruct (head_is hash (x :: s)); [eauto|].
        destruct (conf_go None ls) as [a'|]; [|discriminate]. destruct (bb_go [] ls) as [b'|]; [|discriminate]. cbn in A, B. injection A as <-. injection B as <-. f_equal. now apply I1.
    + intros res a b N N' F A B. cbn [conf_go bb_go] in A, B. destruct res as [|r res]; [contradiction|]. cbn [hd] in N'.
      set (s2 := rstrip l) in *. rewrite removelast_snoc in A.
      assert (NC : concat (r :: res) <> []) by (cbn [concat]; now apply app_nonnil).
      rewrite match_nonnil in A by now apply app_nonnil.
      destruct r as [|y r]; [contradiction|].
      destruct (head_is hash s2 && negb (head_is hash (y :: r)) || head_is hash (y :: r) && negb (head_is hash s2)) eqn:K; [discriminate|]. clear K.
      destruct (head_is hash _ && negb (head_is hash s2)); [discriminate|].
      destruct (continued s2) eqn:C.
      * destruct (P eq_refl) as (p & E & Cp). rewrite E in A, B. rewrite removelast_snoc in B. rewrite app_assoc, continued_snoc in A.
        apply (I2 (((y :: r) :: res) ++ [p]) a b); auto; try discriminate; [apply Forall_app; split; auto|]. rewrite concat_app. cbn [concat] in A |- *. rewrite app_nil_r. exact A.
      * assert (CT : continued (concat ((y :: r) :: res) ++ s2) = false).
        { destruct s2 as [|z s2]; [rewrite app_nil_r; now apply concat_continued|]. rewrite continued_app; auto. discriminate. }
        rewrite CT in A. rewrite match_nonnil in B by now apply app_nonnil.
        destruct (head_is hash (concat ((y :: r) :: res) ++ s2)); [eauto|].
        destruct (conf_go None ls) as [a'|]; [|discriminate]. destruct (bb_go [] ls) as [b'|]; [|discriminate]. cbn [cons_line] in A, B. injection A as <-. injection B as <-. f_equal. now apply I1.
Qed.

(** ** The expression for assignments *)
Lemma strip_prefix_iff p : forall s r, strip_prefix p s = Some r <-> s = p ++ r.
Proof.
  induction p as [|x p IH]; intros [|y s] r; cbn; try (split; congruence).
  destruct (aeqb x y) eqn:E.
  - apply aeqb_eq in E. subst y. rewrite IH. split; [intros ->; auto|intros H; now injection H].
  - split; [discriminate|]. intros H. injection H as -> _. now rewrite aeqb_refl in E.
Qed.
Lemma strip_prefix_app p r : strip_prefix p (p ++ r) = Some r.
Proof. now apply strip_prefix_iff. Qed.
Lemma strip_prefix_none p s : strip_prefix p s = None <-> forall r, s <> p ++ r.
Proof.
  destruct (strip_prefix p s) as [r|] eqn:E.
  - apply strip_prefix_iff in E. split; [discriminate|]. intros H. exfalso. now apply (H r).
  - split; auto. intros _ r H. apply strip_prefix_iff in H. congruence.
Qed.
Lemma count_rev q v : count q (rev v) = count q v.
Proof.
  unfold count. induction v as [|x v IH]; auto. cbn [rev filter]. rewrite filter_app, app_length, IH. cbn [filter]. destruct (aeqb q x); cbn; lia.
Qed.
Lemma count_zero q v : count q v = 0 <-> ~ In q v.
Proof.
  unfold count. induction v as [|x v IH]; cbn; [tauto|]. destruct (aeqb q x) eqn:E; cbn.
  - apply aeqb_eq in E. subst. split; [discriminate|]. intros H. exfalso. apply H. now left.
  - apply aeqb_neq in E. rewrite IH. split; [|tauto]. intros H [->|I]; auto.
Qed.
Lemma count_app q a b : count q (a ++ b) = count q a + count q b.
Proof. unfold count. now rewrite filter_app, app_length. Qed.
Lemma count_one q v : count q v = 1 <-> exists a b, v = a ++ q :: b /\ ~ In q a /\ ~ In q b.
Proof.
  split.
  - induction v as [|x v IH]; [discriminate|]. unfold count. cbn [filter]. destruct (aeqb q x) eqn:E.
    + cbn [length]. intros H. apply aeqb_eq in E. subst x. exists [], v. split; auto. split; [intros []|]. apply count_zero. unfold count. lia.
    + intros H. destruct IH as (a & b & -> & A & B); auto. exists (x :: a), b. split; auto. split; auto. apply aeqb_neq in E. intros [->|I]; auto.
  - intros (a & b & -> & A & B). apply count_zero in A, B. rewrite count_app. change (q :: b) with ([q] ++ b). rewrite count_app, A, B. unfold count. cbn. now rewrite aeqb_refl.
Qed.
Lemma is_quote_iff q : is_quote q = true <-> quote_mark q.
Proof. unfold is_quote, quote_mark. now rewrite orb_true_iff, !aeqb_eq. Qed.
Lemma quoted_iff s v : quoted s = Some v <-> exists q, s = [q] ++ v ++ [q] /\ quote_mark q /\ ~ one_mark q v.
Proof.
  unfold one_mark. split.
  - destruct s as [|q s]; [discriminate|]. cbn. destruct (is_quote q) eqn:Q; [|discriminate]. destruct (rev s) as [|q' r] eqn:R; [discriminate|].
    destruct (aeqb q' q) eqn:E; cbn [andb]; [|discriminate]. apply aeqb_eq in E. subst q'. destruct (count q r =? 1) eqn:C; [discriminate|]. cbn. intros H. injection H as <-.
    exists q. apply (f_equal (@rev ascii)) in R. rewrite rev_involutive in R. cbn [rev] in R. rewrite R. split; auto. split; [now apply is_quote_iff|].
    rewrite <- count_one, count_rev. now apply Nat.eqb_neq.
  - intros (q & -> & Q & N). apply is_quote_iff in Q. unfold quoted. cbn [app]. rewrite Q, rev_app_distr. cbn [rev app]. rewrite aeqb_refl, count_rev, rev_involutive.
    rewrite <- count_one in N. apply Nat.eqb_neq in N. rewrite N. reflexivity.
Qed.
Lemma lstrip_app w s : spaces w -> (match s with c :: _ => is_space c = false | [] => True end) -> lstrip (w ++ s) = s.
Proof.
  intros W H. induction W as [|c r E _ IH].
  - cbn. destruct s as [|c s]; auto. cbn. now rewrite H.
  - cbn. now rewrite E.
Qed.
Lemma lstrip_split s : exists w, s = w ++ lstrip s /\ spaces w.
Proof. destruct (lstrip_spec s) as (a & E & A & _). now exists a. Qed.
Lemma quote_not_space q : quote_mark q -> is_space q = false.
Proof. intros [-> | ->]; reflexivity. Qed.

Lemma operators_texts : operators = map (fun o => (op_text o, o)) [OImmediate; OLazy; OQues; OAppend; OPrepend; OPredot; OPostdot; OSet].
Proof. reflexivity. Qed.
Lemma try_ops_sound ops s o v : Forall (fun e => fst e = op_text (snd e)) ops -> try_ops ops s = Some (o, v) ->
  exists w q, s = op_text o ++ w ++ [q] ++ v ++ [q] /\ spaces w /\ quote_mark q /\ ~ one_mark q v.
Proof.
  induction 1 as [|[t o'] ops E _ IH]; intros H; [discriminate|]. cbn [fst snd] in E. subst t. cbn [try_ops] in H.
  destruct (strip_prefix (op_text o') s) as [r|] eqn:P; auto. destruct (quoted (lstrip r)) as [v'|] eqn:Q; auto. injection H as -> ->.
  apply strip_prefix_iff in P. subst s. apply quoted_iff in Q. destruct Q as (q & L & Q & N). destruct (lstrip_split r) as (w & R & W).
  exists w, q. rewrite R, L. auto.
Qed.
Lemma operators_ok : Forall (fun e => fst e = op_text (snd e)) operators.
Proof. repeat constructor. Qed.
Lemma try_ops_complete o w q v : spaces w -> quote_mark q -> ~ one_mark q v ->
  try_ops operators (op_text o ++ w ++ [q] ++ v ++ [q]) = Some (o, v).
Proof.
  intros W Q N. assert (L : quoted (lstrip (w ++ [q] ++ v ++ [q])) = Some v).
  { rewrite lstrip_app; auto. - apply quoted_iff. now exists q. - cbn. now apply quote_not_space. }
  assert (H : forall c, In c (s_ "+.") -> forall r, w ++ [q] ++ v ++ [q] <> c :: r).
  { intros c I r E. destruct W as [|x w' S W].
    - cbn in E. injection E as -> _. destruct Q as [-> | ->]; cbn in I; intuition discriminate.
    - cbn in E. injection E as -> _. cbn in I. destruct I as [<-|[<-|[]]]; discriminate. }
  set (t := w ++ [q] ++ v ++ [q]) in *. clearbody t.
  destruct o; cbn [op_text]; cbn [operators try_ops s_ list_ascii_of_string strip_prefix app]; cbn -[quoted lstrip]; rewrite ?L; auto.
  destruct t as [|c t]; [discriminate L|]. pose proof (H "+"%char (or_introl eq_refl) t) as H1. pose proof (H "."%char (or_intror (or_introl eq_refl)) t) as H2.
  destruct (aeqb "+"%char c) eqn:E1; [apply aeqb_eq in E1; congruence|]. destruct (aeqb "."%char c) eqn:E2; [apply aeqb_eq in E2; congruence|].
  cbn in E1, E2. rewrite E1, E2. reflexivity.
Qed.

Lemma var_char_iff c : var_char c = true <-> alnum c \/ In c (s_ "-_+.${}/~:").
Proof.
  unfold var_char, alnum. rewrite !orb_true_iff, existsb_exists. split.
  - intros [H|(x & I & E)]; auto. apply aeqb_eq in E. subst x. auto.
  - intros [H|I]; auto. right. exists c. split; auto. apply aeqb_refl.
Qed.
Lemma flag_first_iff c : flag_first c = true <-> alnum c \/ In c (s_ "-_+.").
Proof.
  unfold flag_first, alnum. rewrite !orb_true_iff, existsb_exists. split.
  - intros [H|(x & I & E)]; auto. apply aeqb_eq in E. subst x. auto.
  - intros [H|I]; auto. right. exists c. split; auto. apply aeqb_refl.
Qed.
Lemma flag_char_iff c : flag_char c = true <-> alnum c \/ In c (s_ "-_+.@").
Proof.
  unfold flag_char. rewrite orb_true_iff, flag_first_iff, aeqb_eq. cbn. intuition.
Qed.
Lemma alnum_range c : alnum c -> is_space c = false /\ ~ In c (s_ "[]:?=+.").
Proof.
  unfold alnum, is_alpha, is_upper, is_lower, is_digit, is_space. intros H.
  split.
  - rewrite !orb_true_iff, !andb_true_iff, !N.leb_le in H. rewrite !orb_false_iff, !andb_false_iff, !N.leb_gt, !N.eqb_neq. lia.
  - intros I. cbn in I. repeat (destruct I as [<-|I]; [vm_compute in H; intuition discriminate|]). exact I.
Qed.
Lemma var_char_facts c : var_char c = true -> is_space c = false /\ ~ In c (s_ "[]?=").
Proof.
  intros H. apply var_char_iff in H. destruct H as [H|I].
  - apply alnum_range in H. destruct H as [H N]. split; auto. intros I. apply N. cbn in *. intuition.
  - cbn in I. repeat (destruct I as [<-|I]; [split; [reflexivity|cbn; intuition discriminate]|]). contradiction.
Qed.
Lemma span_spec p : forall s, s = fst (span p s) ++ snd (span p s) /\ Forall (fun c => p c = true) (fst (span p s)) /\
  match snd (span p s) with c :: _ => p c = false | [] => True end.
Proof.
  induction s as [|c s IH]; cbn; [repeat split; constructor|]. destruct (p c) eqn:E.
  - destruct (span p s) as [a b]. cbn [fst snd] in *. destruct IH as (-> & A & B). split; [reflexivity|]. split; [constructor|]; auto.
  - cbn. auto.
Qed.
Lemma span_app p a b : Forall (fun c => p c = true) a -> match b with c :: _ => p c = false | [] => True end -> span p (a ++ b) = (a, b).
Proof.
  intros F B. induction F as [|c a H _ IH].
  - destruct b as [|c b]; auto. cbn. now rewrite B.
  - cbn. now rewrite H, IH.
Qed.
Lemma flag_at_iff s f r : flag_at s = Some (f, r) <-> s = s_ "[" ++ f ++ s_ "]" ++ r /\ flag_name f.
Proof.
  unfold flag_name. split.
  - destruct s as [|b [|c s]]; try discriminate. cbn [flag_at]. destruct (aeqb b "["%char) eqn:B; cbn [andb]; [|discriminate]. apply aeqb_eq in B. subst b.
    destruct (flag_first c) eqn:C; [|discriminate]. pose proof (span_spec flag_char s) as (E & F & _). destruct (span flag_char s) as [g t]. cbn [fst snd] in *.
    destruct t as [|e t]; [discriminate|]. destruct (aeqb e "]"%char) eqn:Q; [|discriminate]. apply aeqb_eq in Q. subst e. intros H. injection H as <- <-. subst s.
    split; [reflexivity|]. exists c, g. split; auto. split; [now apply flag_first_iff|]. eapply Forall_impl; [|exact F]. intros x. apply flag_char_iff.
  - intros (-> & c & t & -> & C & T). apply flag_first_iff in C. cbn [s_ list_ascii_of_string app flag_at]. change (aeqb "["%char "["%char) with true. rewrite C. cbn [andb].
    rewrite span_app; [reflexivity| |reflexivity]. eapply Forall_impl; [|exact T]. intros x. apply flag_char_iff.
Qed.
Definition go_ops (f : option str) (r : str) : option (option str * op * str) :=
  match try_ops operators (lstrip r) with Some (o, v) => Some (f, o, v) | None => None end.
Lemma go_ops_sound f r x : go_ops f r = Some x -> exists w2 o w3 q v, x = (f, o, v) /\ r = w2 ++ op_text o ++ w3 ++ [q] ++ v ++ [q] /\
  spaces w2 /\ spaces w3 /\ quote_mark q /\ ~ one_mark q v.
Proof.
  unfold go_ops. destruct (try_ops operators (lstrip r)) as [[o v]|] eqn:E; [|discriminate]. intros H. injection H as <-.
  apply try_ops_sound in E; [|apply operators_ok]. destruct E as (w & q & E & W & Q & N). destruct (lstrip_split r) as (w2 & R & W2).
  exists w2, o, w, q, v. rewrite R, E. auto 10.
Qed.
Lemma op_head o x : match op_text o ++ x with c :: _ => is_space c = false | [] => True end.
Proof. destruct o; reflexivity. Qed.
Lemma go_ops_complete f w2 o w3 q v : spaces w2 -> spaces w3 -> quote_mark q -> ~ one_mark q v ->
  go_ops f (w2 ++ op_text o ++ w3 ++ [q] ++ v ++ [q]) = Some (f, o, v).
Proof. intros. unfold go_ops. rewrite lstrip_app by (auto; apply op_head). now rewrite try_ops_complete. Qed.
Lemma after_var_eq s : after_var s = match flag_at s with
  | Some (f, r) => match go_ops (Some f) r with Some x => Some x | None => go_ops None s end
  | None => go_ops None s end.
Proof. reflexivity. Qed.
Lemma after_var_sound s x : after_var s = Some x -> exists f w2 o w3 q v, x = (f, o, v) /\ s = flag_text f ++ w2 ++ op_text o ++ w3 ++ [q] ++ v ++ [q] /\
  flag_ok f /\ spaces w2 /\ spaces w3 /\ quote_mark q /\ ~ one_mark q v.
Proof.
  rewrite after_var_eq. intros H.
  assert (G : go_ops None s = Some x -> exists f w2 o w3 q v, x = (f, o, v) /\ s = flag_text f ++ w2 ++ op_text o ++ w3 ++ [q] ++ v ++ [q] /\
    flag_ok f /\ spaces w2 /\ spaces w3 /\ quote_mark q /\ ~ one_mark q v).
  { intros G. apply go_ops_sound in G. destruct G as (w2 & o & w3 & q & v & -> & -> & K). exists None, w2, o, w3, q, v. cbn. tauto. }
  destruct (flag_at s) as [[f r]|] eqn:F; auto. destruct (go_ops (Some f) r) eqn:K; auto. injection H as <-. apply go_ops_sound in K.
  destruct K as (w2 & o & w3 & q & v & -> & -> & K). apply flag_at_iff in F. destruct F as [-> F]. exists (Some f), w2, o, w3, q, v. cbn [flag_text flag_ok].
  split; auto. split; [now rewrite <- !app_assoc|]. tauto.
Qed.
Lemma after_var_complete f w2 o w3 q v : flag_ok f -> spaces w2 -> spaces w3 -> quote_mark q -> ~ one_mark q v ->
  after_var (flag_text f ++ w2 ++ op_text o ++ w3 ++ [q] ++ v ++ [q]) = Some (f, o, v).
Proof.
  intros F W2 W3 Q N. rewrite after_var_eq. destruct f as [f|]; cbn [flag_text flag_ok] in *.
  - assert (E : flag_at ((s_ "[" ++ f ++ s_ "]") ++ w2 ++ op_text o ++ w3 ++ [q] ++ v ++ [q]) = Some (f, w2 ++ op_text o ++ w3 ++ [q] ++ v ++ [q])).
    { apply flag_at_iff. split; auto. now rewrite <- !app_assoc. }
    rewrite E. now rewrite go_ops_complete.
  - rewrite app_nil_l. destruct (flag_at (w2 ++ op_text o ++ w3 ++ [q] ++ v ++ [q])) as [[f r]|] eqn:E; [|now apply go_ops_complete].
    exfalso. apply flag_at_iff in E. destruct E as [E _]. destruct W2 as [|x w2 S W2].
    + destruct o; discriminate E.
    + cbn in E. injection E as -> _. discriminate S.
Qed.
Lemma after_var_var c x r : var_char c = true -> after_var (c :: x) = Some r -> In c (s_ ":+.") /\ exists y, x = "="%char :: y.
Proof.
  intros C H. apply var_char_facts in C as C'. destruct C' as [S NI]. apply after_var_sound in H. destruct H as (f & w2 & o & w3 & q & v & _ & E & _ & W2 & _).
  destruct f as [f|].
  - cbn in E. injection E as -> _. exfalso. apply NI. now left.
  - cbn [flag_text app] in E. destruct W2 as [|y w2 Y W2].
    + cbn [app] in E. destruct o; cbn in E; injection E as -> ->; try (exfalso; apply NI; cbn; intuition; fail); cbn; split; eauto 6.
    + cbn in E. injection E as -> _. congruence.
Qed.
Lemma var_at_sound s : forall pre v r, var_at pre s = Some (v, r) ->
  exists t rest, v = rev pre ++ t /\ t <> [] /\ Forall (fun c => var_char c = true) t /\ s = t ++ rest /\ after_var rest = Some r.
Proof.
  induction s as [|c s IH]; intros pre v r H; [discriminate|]. cbn [var_at] in H. destruct (var_char c) eqn:C; [|discriminate].
  destruct (after_var s) as [r'|] eqn:A.
  - injection H as <- <-. exists [c], s. cbn [rev]. repeat split; auto; discriminate.
  - apply IH in H. destruct H as (t & rest & -> & N & F & -> & R). exists (c :: t), rest. cbn [rev]. rewrite <- app_assoc. repeat split; auto; discriminate.
Qed.
Lemma var_at_some t : forall pre rest r, t <> [] -> Forall (fun c => var_char c = true) t -> after_var rest = Some r -> var_at pre (t ++ rest) <> None.
Proof.
  induction t as [|c t IH]; intros pre rest r N F A; [contradiction|]. inversion F; subst. cbn [app var_at]. rewrite H1.
  destruct (after_var (t ++ rest)) eqn:E; [discriminate|]. destruct t as [|d t]; [cbn in E; congruence|]. eapply IH; eauto. discriminate.
Qed.
Lemma var_at_exact t : forall pre rest r, t <> [] -> Forall (fun c => var_char c = true) t -> (forall c, ends c t -> ~ In c (s_ ":+.")) ->
  after_var rest = Some r -> var_at pre (t ++ rest) = Some (rev pre ++ t, r).
Proof.
  induction t as [|c t IH]; intros pre rest r N F L A; [contradiction|]. inversion F as [|? ? F1 F2]; subst. cbn [app var_at]. rewrite F1. destruct t as [|d t].
  - cbn [app]. rewrite A. reflexivity.
  - destruct (after_var ((d :: t) ++ rest)) as [r'|] eqn:E.
    + exfalso. inversion F2 as [|? ? D F3]; subst. cbn [app] in E. destruct (after_var_var _ _ _ D E) as (I & y & X). destruct t as [|e t].
      * apply (L d); auto. exists [c]. reflexivity.
      * inversion F3 as [|? ? G _]; subst. cbn in X. injection X as -> _. apply var_char_facts in G. apply (proj2 G). cbn. tauto.
    + rewrite (IH (c :: pre) rest r); auto; try discriminate.
      * cbn [rev]. now rewrite <- app_assoc.
      * intros x [u U]. apply L. exists (c :: u). now rewrite U.
Qed.
Lemma after_word_sound k s r : after_word k s = Some r -> exists w, s = k ++ w ++ r /\ spaces w /\ w <> [].
Proof.
  unfold after_word. destruct (strip_prefix k s) as [[|c t]|] eqn:P; try discriminate. destruct (is_space c) eqn:S; [|discriminate]. intros H. injection H as <-.
  apply strip_prefix_iff in P. subst s. destruct (lstrip_split t) as (w & E & W). exists (c :: w). split; [cbn; now rewrite <- E|]. split; [now constructor|discriminate].
Qed.
Lemma after_word_complete k w r : spaces w -> w <> [] -> match r with c :: _ => is_space c = false | [] => True end -> after_word k (k ++ w ++ r) = Some r.
Proof.
  intros W N R. unfold after_word. rewrite strip_prefix_app. destruct w as [|c w]; [contradiction|]. inversion W; subst. cbn [app]. now rewrite H1, lstrip_app.
Qed.
Lemma variable_iff v : variable v <-> v <> [] /\ Forall (fun c => var_char c = true) v.
Proof. unfold variable. split; intros [N F]; (split; [auto|]); (eapply Forall_impl; [|exact F]); intros c; apply var_char_iff. Qed.
Lemma match_config_sound s g : match_config s = Some g -> written g s.
Proof.
  unfold match_config, written. intros H.
  assert (A : forall e pre r, var_at [] r = Some pre -> g = to_assignment e pre -> exists w2 w3 q,
    a_exp g = e /\ r = a_var g ++ flag_text (a_flag g) ++ w2 ++ op_text (a_op g) ++ w3 ++ [q] ++ a_value g ++ [q] /\
    spaces w2 /\ spaces w3 /\ variable (a_var g) /\ flag_ok (a_flag g) /\ quote_mark q /\ ~ one_mark q (a_value g)).
  { intros e [v x] r V ->. apply var_at_sound in V. destruct V as (t & rest & -> & N & F & -> & AV). cbn [rev app] in *.
    apply after_var_sound in AV. destruct AV as (f & w2 & o & w3 & q & v & -> & -> & Ff & W2 & W3 & Q & M). exists w2, w3, q. cbn [to_assignment a_exp a_var a_flag a_op a_value].
    repeat (split; auto). now apply variable_iff. }
  assert (B : forall r, var_at [] s = Some r -> g = to_assignment false r -> written g s).
  { intros r V E. destruct (A false r s V E) as (w2 & w3 & q & X & S & W2 & W3 & V' & F & Q & M). exists [], w2, w3, q. rewrite X. cbn [app]. split; [exact S|].
    repeat (split; auto); try discriminate; try constructor; try apply V'. }
  destruct (after_word (s_ "export") s) as [r|] eqn:AW.
  - destruct (var_at [] r) as [x|] eqn:V.
    + injection H as H. symmetry in H. destruct (A true x r V H) as (w2 & w3 & q & X & S & W2 & W3 & V' & F & Q & M). apply after_word_sound in AW. destruct AW as (w & -> & W & N).
      exists w, w2, w3, q. rewrite X. split; [rewrite S, <- app_assoc; reflexivity|]. repeat (split; auto); try apply V'.
    + destruct (var_at [] s) as [x|] eqn:V'; [|discriminate]. injection H as H. symmetry in H. exact (B x eq_refl H).
  - destruct (var_at [] s) as [x|] eqn:V'; [|discriminate]. injection H as H. symmetry in H. exact (B x eq_refl H).
Qed.
Lemma var_head_ok v x : v <> [] -> Forall (fun c => var_char c = true) v -> match v ++ x with c :: _ => is_space c = false | [] => True end.
Proof. intros N F. destruct F as [|c v H F]; [contradiction|]. cbn. now apply var_char_facts. Qed.
Lemma match_config_some g s : written g s -> match_config s <> None.
Proof.
  intros (w1 & w2 & w3 & q & E & W1 & W2 & W3 & N1 & V & F & Q & M). apply variable_iff in V. destruct V as [VN VF].
  pose proof (after_var_complete (a_flag g) w2 (a_op g) w3 q (a_value g) F W2 W3 Q M) as AV.
  pose proof (fun pre => var_at_some (a_var g) pre _ _ VN VF AV) as VA. unfold match_config. destruct (a_exp g).
  - rewrite <- app_assoc in E. rewrite E, after_word_complete; auto; [|now apply var_head_ok].
    destruct (var_at [] _) eqn:K; [discriminate|]. exfalso. now apply (VA []).
  - rewrite app_nil_l in E. specialize (VA []). rewrite <- E in VA. destruct (match after_word (s_ "export") s with Some r => var_at [] r | None => None end); [discriminate|].
    destruct (var_at [] s); [discriminate|contradiction].
Qed.
Lemma rest_head f w2 o x c t : spaces w2 -> flag_text f ++ w2 ++ op_text o ++ x = c :: t -> var_char c = true -> In c (s_ ":+.").
Proof.
  intros W2 E V. apply var_char_facts in V. destruct V as [S NI]. destruct f as [f|].
  - cbn in E. injection E as <- _. exfalso. apply NI. now left.
  - cbn [flag_text app] in E. destruct W2 as [|y w2 Y W2].
    + destruct o; cbn in E; injection E as <- _; cbn; auto; exfalso; apply NI; cbn; tauto.
    + cbn in E. injection E as -> _. congruence.
Qed.
Lemma match_config_exact g s : written g s -> tidy_name g -> match_config s = Some g.
Proof.
  intros (w1 & w2 & w3 & q & E & W1 & W2 & W3 & N1 & V & F & Q & M) [T1 T2]. apply variable_iff in V. destruct V as [VN VF].
  pose proof (after_var_complete (a_flag g) w2 (a_op g) w3 q (a_value g) F W2 W3 Q M) as AV.
  pose proof (var_at_exact (a_var g) [] _ _ VN VF T1 AV) as VA. cbn [rev app] in VA. unfold match_config.
  destruct g as [e v f o x]. cbn [a_exp a_var a_flag a_op a_value] in *. destruct e.
  - rewrite <- app_assoc in E. rewrite E, after_word_complete; auto; [|now apply var_head_ok]. cbn [app] in *. rewrite VA. reflexivity.
  - destruct T2 as [T2|T2]; [discriminate|]. rewrite app_nil_l in E. cbn [app] in *. rewrite <- E in VA.
    assert (A : after_word (s_ "export") s = None).
    { unfold after_word. destruct (strip_prefix (s_ "export") s) as [[|c r]|] eqn:P; auto. destruct (is_space c) eqn:S; auto. exfalso. apply strip_prefix_iff in P. rewrite P in E.
      symmetry in E. apply app_eq_app in E. destruct E as (l & [[E1 E2]|[E1 E2]]).
      - destruct l as [|y l]; [rewrite app_nil_r in E1; contradiction|]. cbn in E2. injection E2 as <- _. rewrite E1 in VF. apply Forall_app in VF. destruct VF as [_ VF]. inversion VF as [|? ? Y _]; subst.
        apply var_char_facts in Y. destruct Y. congruence.
      - destruct l as [|y l]; [rewrite app_nil_r in E1; congruence|]. assert (I : In y (s_ "export")) by (rewrite E1; apply in_or_app; right; now left).
        assert (Y : var_char y = true) by (cbn in I; repeat (destruct I as [<-|I]; [reflexivity|]); contradiction).
        apply rest_head in E2; auto. cbn in I, E2. repeat (destruct I as [<-|I]; [intuition discriminate|]). contradiction. }
    rewrite A, VA. reflexivity.
Qed.

(** ** Flags do not matter for values *)
Definition sans (e : entry) : entry := with_flags [] e.
Definition eqv (st st' : store) : Prop := s_over st = s_over st' /\ forall n, sans (entry_of st n) = sans (entry_of st' n).
Lemma eqv_refl st : eqv st st. Proof. split; auto. Qed.
Lemma eqv_trans a b c : eqv a b -> eqv b c -> eqv a c.
Proof. intros [A B] [C D]. split; [congruence|]. intros n. now rewrite B. Qed.
Lemma eqv_sym a b : eqv a b -> eqv b a.
Proof. intros [A B]. split; auto. Qed.
Lemma sans_fields e e' : sans e = sans e' <->
  e_content e = e_content e' /\ e_default e = e_default e' /\ e_append e = e_append e' /\ e_prepend e = e_prepend e' /\ e_remove e = e_remove e'.
Proof.
  destruct e, e'. unfold sans, with_flags. cbn. split; [intros H; injection H; auto|]. intros (-> & -> & -> & -> & ->). reflexivity.
Qed.
Lemma subst_ext g g' name l : (forall k, g k = g' k) -> subst g name l = subst g' name l.
Proof.
  intros H. induction l as [|[c|k] l IH]; cbn [subst]; auto; [now rewrite IH|]. destruct (match name with Some n => seqb n k | None => false end); auto. now rewrite H, IH.
Qed.
Lemma expand_ext rounds g g' name : (forall k, g k = g' k) -> forall s, expand rounds g name s = expand rounds g' name s.
Proof.
  intros H. induction rounds as [|n IH]; intros s; cbn [expand]; destruct (contains_sub (s_ "${") s); auto.
  rewrite (subst_ext g g') by auto. destruct (subst g' name (segs 0 s)); cbn [bind]; auto. destruct (seqb a s); auto.
Qed.
Lemma expand_removes_ext f g l : (forall x, f x = g x) -> expand_removes f l = expand_removes g l.
Proof. intros H. induction l as [|x l IH]; cbn [expand_removes]; auto. rewrite H. destruct (g x); cbn [bind]; auto. now rewrite IH. Qed.
Definition same_ops (st st' : store) : Prop := forall ov n v,
  add_ops ov (find_var st n) v = add_ops ov (find_var st' n) v /\ own_value (find_var st n) = own_value (find_var st' n) /\
  (match find_var st n with Some e => conds ov (e_remove e) | None => [] end) = (match find_var st' n with Some e => conds ov (e_remove e) | None => [] end).
Lemma eqv_ops st st' : eqv st st' -> same_ops st st'.
Proof.
  intros [_ H] ov n v. specialize (H n). apply sans_fields in H. destruct H as (A & B & C & D & E). rewrite !add_ops_entry, !own_entry, A, B, C, D. split; auto. split; auto.
  assert (X : forall s, match find_var s n with Some e => conds ov (e_remove e) | None => [] end = conds ov (e_remove (entry_of s n))).
  { intros s. unfold entry_of. destruct (find_var s n); reflexivity. }
  now rewrite !X, E.
Qed.
Lemma before_eqv st st' rec rec' ov var : eqv st st' -> (forall k, rec k = rec' k) -> before_expansion rec st ov var = before_expansion rec' st' ov var.
Proof.
  intros E R. pose proof (eqv_ops _ _ E) as O. destruct E as [E _]. unfold before_expansion. rewrite E.
  assert (X : forall y, Ok (add_ops ov (find_var st var) match fst y with Some v => Some v | None => own_value (find_var st var) end, snd y) =
                   Ok (add_ops ov (find_var st' var) match fst y with Some v => Some v | None => own_value (find_var st' var) end, snd (y : option str * list str))).
  { intros y. destruct (O ov var None) as (_ & -> & _). now rewrite (proj1 (O ov var _)). }
  destruct (get (s_over st') var) as [l|]; [|exact (X (None, []))]. destruct (select ov l) as [m|]; [|exact (X (None, []))]. rewrite R. destruct (rec' m) as [r| |]; auto. cbn [bind]. apply X.
Qed.
Lemma finish_ext ex ex' e ov lv lv' var vr : (forall n s, ex n s = ex' n s) ->
  (match lv with Some e => conds ov (e_remove e) | None => [] end) = (match lv' with Some e => conds ov (e_remove e) | None => [] end) ->
  finish ex e ov lv var vr = finish ex' e ov lv' var vr.
Proof.
  intros H L. unfold finish. destruct (fst vr) as [v|]; auto. rewrite H. destruct (ex' (Some var) v) as [x| |]; auto. cbn [bind]. rewrite L.
  destruct (match (if e then x else v) with [] => false | _ :: _ => true end); auto. now rewrite (expand_removes_ext (ex None) (ex' None)) by auto.
Qed.
Lemma get_val_eqv st st' : eqv st st' -> forall depth rounds ov e var, get_val depth rounds st ov e var = get_val depth rounds st' ov e var.
Proof.
  intros E. induction depth as [|n IH]; intros rounds ov e var; auto. cbn [get_val].
  rewrite (before_eqv st st' _ (get_val n rounds st' ov false) ov var E) by (intros; apply IH). destruct (before_expansion _ st' ov var) as [r| |]; auto. cbn [bind].
  apply finish_ext.
  - intros m s. apply expand_ext. intros k. now rewrite IH.
  - apply (eqv_ops _ _ E ov var None).
Qed.
Lemma eqv_values st st' : eqv st st' -> same_values st st'.
Proof.
  intros E depth rounds ov n. unfold get_raw, get_var. rewrite (get_val_eqv _ _ E). split; auto.
  now rewrite (before_eqv st st' _ (get_val depth rounds st' ov false) ov n E) by (intros; now apply get_val_eqv).
Qed.

(** ** Assignments of a file *)
Definition lifts (f : entry -> entry) : Prop := forall e e', sans e = sans e' -> sans (f e) = sans (f e').
Lemma lifts_content v : lifts (with_content v).
Proof. intros e e' H. apply sans_fields in H. apply sans_fields. cbn. tauto. Qed.
Lemma lifts_default v : lifts (with_default v).
Proof. intros e e' H. apply sans_fields in H. apply sans_fields. cbn. tauto. Qed.
Lemma lifts_op k x : lifts (with_op k x).
Proof. intros e e' H. apply sans_fields in H. apply sans_fields. destruct H as (A & B & C & D & E). destruct k; cbn; rewrite ?A, ?B, ?C, ?D, ?E; auto. Qed.
Lemma eqv_change st st' n f : eqv st st' -> lifts f -> eqv (change st n f) (change st' n f).
Proof. intros [A B] L. split; [exact A|]. intros m. rewrite !entry_change. destruct (seqb m n); auto. Qed.
Lemma eqv_over st st' od : eqv st st' -> eqv (over st od) (over st' od).
Proof. intros [A B]. split; auto. Qed.
Lemma eqv_line st st' c : well_formed c -> eqv st st' -> eqv (parse_line [] st c) (parse_line [] st' c).
Proof.
  intros W E. pose proof (proj1 E) as S. destruct (kw_of c) as [[[[k n] o] v]|] eqn:K.
  - rewrite !(parse_line_op [] _ c k n o v W K), S. apply eqv_over, eqv_change; auto using lifts_op.
  - destruct c; try discriminate.
    + rewrite !parse_line_set by exact W. rewrite S. apply eqv_change; auto using lifts_content, eqv_over.
    + cbn [parse_line]. unfold set_default. cbn [change s_over]. rewrite S. apply eqv_over, eqv_change; auto using lifts_default.
Qed.
Definition ordinary (f : str) : Prop := f <> s_ "_content" /\ f <> s_ "_defaultval".
Lemma set_flag_ordinary st n f v : ordinary f -> set_flag st n f v = change st n (fun e => with_flags (set (e_flags e) f v) e).
Proof. intros [A B]. unfold set_flag. apply seqb_neq in A, B. now rewrite A, B. Qed.
Lemma export_ordinary : ordinary (s_ "export").
Proof. split; discriminate. Qed.
Lemma set_flag_eqv st n f v : ordinary f -> eqv (set_flag st n f v) st.
Proof.
  intros O. rewrite set_flag_ordinary by auto. split; auto. intros m. rewrite entry_change. destruct (seqb m n) eqn:E; auto. apply seqb_eq in E. subst m. reflexivity.
Qed.
Lemma get_content_entry st n : get_content st n = e_content (entry_of st n).
Proof. unfold get_content, entry_of. destruct (find_var st n); reflexivity. Qed.
Lemma get_flag_entry st n f : ordinary f -> get_flag st n f = get (e_flags (entry_of st n)) f.
Proof. intros [A B]. unfold get_flag, entry_of. apply seqb_neq in A, B. rewrite A, B. destruct (find_var st n); reflexivity. Qed.
Lemma set_flag_get st n f v m g : ordinary f -> ordinary g -> get_flag (set_flag st n f v) m g = if seqb m n && seqb g f then Some v else get_flag st m g.
Proof.
  intros O P. rewrite !get_flag_entry by auto. rewrite set_flag_ordinary by auto. rewrite entry_change. destruct (seqb m n) eqn:E; auto. cbn [with_flags e_flags andb].
  rewrite get_set. apply seqb_eq in E. subst m. reflexivity.
Qed.
(** an assignment changes no ordinary flag *)
Lemma line_flags st c m g : well_formed c -> ordinary g -> get_flag (parse_line [] st c) m g = get_flag st m g.
Proof.
  intros W O. rewrite !get_flag_entry by auto. destruct (kw_of c) as [[[[k n] o] v]|] eqn:K.
  - rewrite (parse_line_op [] _ c k n o v W K), entry_over, entry_change. destruct (seqb m n) eqn:E; auto. apply seqb_eq in E. subst m. destruct k; reflexivity.
  - destruct c; try discriminate.
    + rewrite parse_line_set by exact W. rewrite entry_change. destruct (seqb m n) eqn:E; auto. apply seqb_eq in E. subst m. reflexivity.
    + cbn [parse_line]. unfold set_default. rewrite entry_over, entry_change. destruct (seqb m n) eqn:E; auto. apply seqb_eq in E. subst m. reflexivity.
Qed.
Lemma eval_all_app d r incl a b st : eval_all d r incl (a ++ b) st = bind (eval_all d r incl a st) (eval_all d r incl b).
Proof.
  revert st. induction a as [|s a IH]; intros st; cbn [eval_all app bind]; auto. destruct (eval_statement d r incl st s); cbn [bind]; auto.
Qed.
Lemma rewritten_app a b : forall seen, rewritten seen (a ++ b) = rewritten seen a ++ rewritten (seen ++ a) b.
Proof.
  induction a as [|g a IH]; intros seen; cbn [rewritten app]; [now rewrite app_nil_r|]. now rewrite IH, <- !app_assoc.
Qed.
Lemma outcome_snoc n l g : outcome n (l ++ [g]) = match g with Plain _ m o x => if seqb m n then operate o x (outcome n l) else outcome n l | _ => outcome n l end.
Proof. unfold outcome. rewrite fold_left_app. reflexivity. Qed.
Lemma outcome_not_plain n l : Forall good_line l -> ~ plain n -> outcome n l = (None, None).
Proof.
  intros F N. induction l as [|g l IH] using rev_ind; auto. apply Forall_app in F. destruct F as [F G]. inversion G as [|? ? G1 _]; subst. rewrite outcome_snoc, IH by auto.
  destruct g as [e m o x| |]; auto. destruct (seqb m n) eqn:E; auto. apply seqb_eq in E. subst m. destruct G1. contradiction.
Qed.
Lemma op_name_not_plain n k c : ~ plain (op_name n (kw_text k) c).
Proof.
  intros P. rewrite op_name_eq in P. exact (plain_kw _ k n (cond_text c) P eq_refl).
Qed.
Lemma plain_call_wf seen g : good_line g -> Forall well_formed (plain_call seen g).
Proof. destruct g as [e n o x|k n c o x|e n f o x]; cbn; intros G; [destruct o|destruct k|]; try (constructor; [cbn [well_formed]; tauto|]); constructor. Qed.
Lemma rewritten_wf l : forall seen, Forall good_line l -> Forall well_formed (rewritten seen l).
Proof. induction l as [|g l IH]; intros seen F; [constructor|]. inversion F; subst. cbn [rewritten]. apply Forall_app. split; auto using plain_call_wf. Qed.
Lemma given_some v : v <> None -> Some (given v) = v.
Proof. destruct v; [reflexivity|contradiction]. Qed.
Lemma operate_some o x s : o <> OLazy -> fst (operate o x s) <> None.
Proof. destruct s as [v w]. destruct o, v; cbn; intros; try discriminate; contradiction. Qed.
(** the last assignment of the rewritten file is the outcome *)
Lemma sets_app a b n : sets (a ++ b) n = sets a n ++ sets b n.
Proof. unfold sets. now rewrite flat_map_app. Qed.
Lemma defaults_app a b n : defaults (a ++ b) n = defaults a n ++ defaults b n.
Proof. unfold defaults. now rewrite flat_map_app. Qed.
Lemma rewritten_outcome l n : latest (sets (rewritten [] l) n) = fst (outcome n l) /\ latest (defaults (rewritten [] l) n) = snd (outcome n l).
Proof.
  induction l as [|g l [IH1 IH2]] using rev_ind; [split; reflexivity|]. rewrite rewritten_app, sets_app, defaults_app, outcome_snoc. cbn [rewritten app]. rewrite app_nil_r.
  destruct g as [e m o x|k m c o x|e m f o x]; cbn [plain_call].
  - destruct (seqb m n) eqn:E.
    + apply seqb_eq in E. subst m. destruct (outcome n l) as [v w] eqn:OC. cbn [fst snd] in *.
      destruct o; cbn [sets defaults flat_map]; rewrite ?seqb_refl, ?app_nil_r, ?latest_snoc, ?outcome_snoc, ?seqb_refl, ?OC; cbn [operate fst snd given app]; rewrite ?app_nil_r; auto.
      destruct v; auto.
    + assert (Z : sets (plain_call l (Plain e m o x)) n = [] /\ defaults (plain_call l (Plain e m o x)) n = []) by (destruct o; cbn; rewrite E; auto).
      destruct Z as [Z1 Z2]. cbn [plain_call] in Z1, Z2. rewrite Z1, Z2, !app_nil_r. auto.
  - destruct k; cbn [sets defaults flat_map]; rewrite !app_nil_r; auto.
  - cbn [sets defaults flat_map]. rewrite !app_nil_r. auto.
Qed.
Lemma flag_outcome_snoc n f l g : flag_outcome n f (l ++ [g]) =
  let s := flag_outcome n f l in
  let exported e m := if e && seqb m n && seqb f (s_ "export") then Some (s_ "1") else s in
  match g with
  | Plain e m _ _ => exported e m
  | Operation _ _ _ _ _ => s
  | Flag e m f' o x =>
      if seqb m n && seqb f' f
      then match o with OLazy => Some x | _ => fst (operate o x (exported e m, None)) end
      else exported e m
  end.
Proof. unfold flag_outcome. rewrite fold_left_app. reflexivity. Qed.
Definition exported_store (e : bool) (st : store) (n : str) : store := if e then set_flag st n (s_ "export") (s_ "1") else st.
Lemma exported_eqv e st n : eqv (exported_store e st n) st.
Proof. destruct e; [apply set_flag_eqv, export_ordinary|apply eqv_refl]. Qed.
Lemma exported_flag e st n m f : ordinary f -> get_flag (exported_store e st n) m f = if e && seqb m n && seqb f (s_ "export") then Some (s_ "1") else get_flag st m f.
Proof. intros O. destruct e; auto. cbn [exported_store andb]. apply set_flag_get; auto using export_ordinary. Qed.
Lemma content_outcome st l n : Forall good_line l -> eqv st (parse [] (rewritten [] l)) -> get_content st n = fst (outcome n l).
Proof.
  intros F [_ E]. specialize (E n). apply sans_fields in E. destruct E as [E _]. rewrite get_content_entry, E.
  destruct (parse_entry [] _ (rewritten_wf l [] F) n) as (-> & _). apply rewritten_outcome.
Qed.
Lemma file_refines d r incl l : Forall good_line l -> exists st,
  eval_all d r incl (map (fun g => Assign (line_assignment g)) l) empty = Ok st /\ eqv st (parse [] (rewritten [] l)) /\
  forall n f, ordinary f -> get_flag st n f = flag_outcome n f l.
Proof.
  induction l as [|g l IH] using rev_ind; intros F.
  { exists empty. split; auto. split; [apply eqv_refl|]. reflexivity. }
  apply Forall_app in F. destruct F as [F G]. inversion G as [|? ? G1 _]; subst. clear G. destruct (IH F) as (st & Ev & Eq & Fl). clear IH.
  rewrite map_app, eval_all_app, Ev. cbn [bind map eval_all eval_statement]. rewrite rewritten_app. cbn [rewritten app]. rewrite app_nil_r.
  pose proof (fun n => content_outcome st l n F Eq) as CO.
  destruct g as [e n o x|k n c o x|e n f o x]; cbn [line_assignment plain_call].
  - destruct G1 as [P NI]. unfold eval_assignment. cbn [a_exp a_var a_flag a_op a_value]. fold (exported_store e st n). set (st1 := exported_store e st n).
    assert (E1 : eqv st1 (parse [] (rewritten [] l))) by (eapply eqv_trans; [apply exported_eqv|exact Eq]).
    assert (C1 : get_content st1 n = fst (outcome n l)) by now apply content_outcome.
    assert (STEP : forall c, well_formed c -> eqv (parse_line [] st1 c) (parse [] (rewritten [] l ++ [c])) /\
       forall m f, ordinary f -> get_flag (parse_line [] st1 c) m f = flag_outcome m f (l ++ [Plain e n o x])).
    { intros c W. split; [rewrite parse_snoc; now apply eqv_line|]. intros m f O. rewrite line_flags, flag_outcome_snoc by auto. cbn zeta. unfold st1. rewrite exported_flag, Fl by auto.
      rewrite (seqb_sym m n). reflexivity. }
    destruct o; unfold new_value, get_func; cbn [a_exp a_var a_flag a_op a_value]; rewrite ?C1; cbn [bind];
      try (eexists; split; [reflexivity|]; rewrite outcome_snoc, seqb_refl; destruct (outcome n l) as [v w]; cbn [operate fst]; cbn [given]; apply (STEP (Set_ n _)); exact P).
    + contradiction.
    + eexists. split; [reflexivity|]. apply (STEP (Default n x)). exact P.
    + eexists. split; [reflexivity|]. rewrite outcome_snoc, seqb_refl. destruct (outcome n l) as [[v|] w]; cbn [operate fst given]; apply (STEP (Set_ n _)); exact P.
  - destruct G1 as (P & L & NI & NL). unfold eval_assignment. cbn [a_exp a_var a_flag a_op a_value].
    assert (C1 : get_content st (op_name n (kw_text k) c) = None) by (rewrite CO, outcome_not_plain; auto using op_name_not_plain).
    set (cl := fun v => match k with KAppend => Append n c v | KPrepend => Prepend n c v | KRemove => Remove n c v end).
    assert (STEP : forall v, eqv (set_var true [] st (op_name n (kw_text k) c) v) (parse [] (rewritten [] l ++ [cl v])) /\
       forall m f, ordinary f -> get_flag (set_var true [] st (op_name n (kw_text k) c) v) m f = flag_outcome m f (l ++ [Operation k n c o x])).
    { intros v. assert (W : well_formed (cl v)) by (unfold cl; destruct k; cbn [well_formed]; auto).
      assert (Q : set_var true [] st (op_name n (kw_text k) c) v = parse_line [] st (cl v)) by (unfold cl; destruct k; reflexivity).
      rewrite Q. split; [rewrite parse_snoc; now apply eqv_line|]. intros m f O. rewrite line_flags, flag_outcome_snoc by auto. now apply Fl. }
    destruct o; unfold new_value, get_func; cbn [a_exp a_var a_flag a_op a_value]; rewrite ?C1; cbn [bind or_empty]; try contradiction;
      (eexists; split; [reflexivity|]; apply STEP).
  - destruct G1 as (P & NI & O1 & O2). assert (O : ordinary f) by now split. unfold eval_assignment. cbn [a_exp a_var a_flag a_op a_value]. fold (exported_store e st n). set (st1 := exported_store e st n).
    assert (E1 : eqv st1 (parse [] (rewritten [] l))) by (eapply eqv_trans; [apply exported_eqv|exact Eq]). rewrite app_nil_r.
    assert (G1 : forall m g, ordinary g -> get_flag st1 m g = if e && seqb n m && seqb g (s_ "export") then Some (s_ "1") else flag_outcome m g l).
    { intros m g Og. unfold st1. rewrite exported_flag, Fl by auto. now rewrite (seqb_sym m n). }
    assert (STEP : forall v, (v = match o with OLazy => x | _ => given (fst (operate o x (get_flag st1 n f, None))) end) ->
       eqv (set_flag st1 n f v) (parse [] (rewritten [] l)) /\
       forall m g, ordinary g -> get_flag (set_flag st1 n f v) m g = flag_outcome m g (l ++ [Flag e n f o x])).
    { intros v V. split; [eapply eqv_trans; [now apply set_flag_eqv|exact E1]|]. intros m g Og. rewrite set_flag_get, flag_outcome_snoc by auto. cbn zeta.
      rewrite (seqb_sym m n), (seqb_sym g f). destruct (seqb n m) eqn:E; cbn [andb]; [|rewrite G1, E by auto; reflexivity].
      apply seqb_eq in E. subst m. destruct (seqb f g) eqn:E'; cbn [andb].
      - apply seqb_eq in E'. subst g. rewrite V, G1, seqb_refl by auto. cbn [andb].
        destruct o; auto; rewrite given_some; auto; apply operate_some; discriminate.
      - rewrite G1, seqb_refl by auto. reflexivity. }
    destruct o; unfold new_value, get_func; cbn [a_exp a_var a_flag a_op a_value bind]; try contradiction;
      (eexists; split; [reflexivity|]; apply STEP; cbn [operate fst given]; auto; destruct (get_flag st1 n f); reflexivity).
Qed.
Lemma parse_ov ov ov' h : parse ov h = parse ov' h.
Proof.
  unfold parse. generalize empty. induction h as [|c h IH]; intros st; auto.
Qed.

(** ** Inclusion *)
Lemma feed_app a : forall b, feed (a ++ b) = match feed a, feed b with Some x, Some y => Some (x ++ y) | _, _ => None end.
Proof.
  induction a as [|l a IH]; intros b; cbn [feed app]; [destruct (feed b); reflexivity|]. rewrite IH. destruct (feeder l); [|reflexivity]. destruct (feed a); [|reflexivity]. destruct (feed b); reflexivity.
Qed.
Lemma conf_items l rest : Forall proper l ->
  conf_go None (concat (map item_lines l) ++ rest) = match conf_go None rest with Some r => Some (concat (map item_texts l) ++ r) | None => None end.
Proof.
  induction l as [|i l IH]; intros F; [cbn; destruct (conf_go None rest); reflexivity|]. inversion F; subst. cbn [map concat]. rewrite <- app_assoc, conf_item, IH by auto.
  induction (item_texts i) as [|x t IHt]; cbn [fold_right app]; [reflexivity|]. rewrite IHt. destruct (conf_go None rest); reflexivity.
Qed.
Lemma statements_items l : Forall proper l -> statements (concat (map item_lines l)) = feed (concat (map item_texts l)).
Proof. intros F. unfold statements, conf_lines. rewrite (items_lines (conf_go None)); auto using conf_item. Qed.
Lemma eval_all_incl d r incl incl' ss : (forall f l st, incl f l st = incl' f l st) -> forall st, eval_all d r incl ss st = eval_all d r incl' ss st.
Proof.
  intros H. induction ss as [|s ss IH]; intros st; auto. cbn [eval_all]. assert (E : eval_statement d r incl st s = eval_statement d r incl' st s).
  { destruct s; cbn [eval_statement]; auto. destruct (expand_in d r st None what) as [w| |]; cbn [bind]; auto. destruct (expand_in d r st None w); cbn [bind]; auto. }
  rewrite E. destruct (eval_statement d r incl' st s); cbn [bind]; auto.
Qed.

(** ** Directives *)
Definition no_trailing (s : str) : Prop := forall c, ends c s -> is_space c = false.
Lemma argument_iff k s a : no_trailing s -> (argument k s = Some a <-> after_keyword k s a).
Proof.
  intros T. unfold argument, after_keyword. split.
  - destruct (strip_prefix k s) as [[|c r]|] eqn:P; try discriminate. destruct (is_space c) eqn:S; [|discriminate]. apply strip_prefix_iff in P. subst s.
    destruct (lstrip_spec r) as (w & E & W & K). destruct (lstrip r) as [|x t] eqn:L.
    + exfalso. rewrite app_nil_r in E. subst w. destruct (rev r) as [|y r'] eqn:R.
      * apply (f_equal (@rev ascii)) in R. rewrite rev_involutive in R. subst r. assert (X : is_space c = false) by (apply T; now exists k). congruence.
      * apply (f_equal (@rev ascii)) in R. rewrite rev_involutive in R. cbn [rev] in R. assert (X : is_space y = false) by (apply T; exists (k ++ c :: rev r'); rewrite R, <- app_assoc; reflexivity).
        rewrite R in W. apply Forall_app in W. destruct W as [_ W]. inversion W; subst. congruence.
    + intros H. injection H as <-. exists (c :: w). split; [now rewrite E at 1|]. split; [now constructor|]. split; [discriminate|]. split; [discriminate|].
      intros d [u U]. injection U as -> _. destruct K as [K|(d' & t' & K & K')]; [discriminate|]. injection K as -> _. exact K'.
  - intros (w & -> & W & N & NA & H). rewrite strip_prefix_app. destruct w as [|c w]; [contradiction|]. inversion W as [|? ? S W']; subst. cbn [app]. rewrite S.
    destruct a as [|x a]; [contradiction|]. rewrite lstrip_app; auto. apply H. now exists a.
Qed.
Lemma var_char'_iff c : var_char' c = true <-> alnum c \/ In c (s_ "-_+.${}/~").
Proof.
  unfold var_char'. rewrite andb_true_iff, var_char_iff, negb_true_iff, aeqb_neq. split.
  - intros [[A|I] N]; auto. right. cbn in *. intuition congruence.
  - intros [A|I].
    + split; auto. intros ->. vm_compute in A. intuition discriminate.
    + split; [right; cbn in *; tauto|]. intros ->. cbn in I. intuition discriminate.
Qed.
Lemma var_char'_space c : var_char' c = true -> is_space c = false.
Proof. unfold var_char'. rewrite andb_true_iff. intros [H _]. now apply var_char_facts. Qed.
Lemma after_word_iff k s a : a <> [] -> (after_word k s = Some a <-> after_keyword k s a).
Proof.
  intros NA. unfold after_keyword. split.
  - intros H. pose proof H as H'. unfold after_word in H'. destruct (strip_prefix k s) as [[|c t]|]; try discriminate. destruct (is_space c); [|discriminate]. injection H' as H'.
    apply after_word_sound in H. destruct H as (w & -> & W & N). exists w. repeat (split; auto). intros d [u ->]. destruct (lstrip_spec t) as (_ & _ & _ & [K|(x & y & K & K')]); rewrite K in H'; [discriminate|].
    injection H' as -> _. exact K'.
  - intros (w & -> & W & N & _ & H). apply after_word_complete; auto. destruct a as [|x a]; auto. apply H. now exists a.
Qed.
Lemma word_only_iff k s v : word_only k s = Some v <-> after_keyword k s v /\ name_without_colon v.
Proof.
  unfold word_only, name_without_colon. split.
  - destruct (after_word k s) as [[|c r]|] eqn:A; try discriminate. destruct (forallb var_char' (c :: r)) eqn:F; [|discriminate]. intros H. injection H as <-.
    split; [apply after_word_iff; [discriminate|auto]|]. rewrite forallb_forall in F. apply Forall_forall. intros x I. apply var_char'_iff. now apply F.
  - intros [A F]. pose proof A as (_ & _ & _ & _ & N & _). apply after_word_iff in A; auto. rewrite A. destruct v as [|c v]; [contradiction|].
    assert (X : forallb var_char' (c :: v) = true) by (rewrite forallb_forall; intros x I; apply var_char'_iff; revert x I; now apply Forall_forall). now rewrite X.
Qed.
Lemma unset_flag_iff s v f : unset_flag s = Some (v, f) <-> after_keyword (s_ "unset") s (v ++ s_ "[" ++ f ++ s_ "]") /\ v <> [] /\ name_without_colon v /\ flag_name f /\ 2 <= length f.
Proof.
  unfold unset_flag, name_without_colon. split.
  - destruct (after_word (s_ "unset") s) as [r|] eqn:A; [|discriminate]. destruct (span_spec var_char' r) as (E & F & _). destruct (span var_char' r) as [[|c u] r']; cbn [fst snd] in *; [discriminate|].
    destruct (flag_at r') as [[g [|? ?]]|] eqn:G; try discriminate. destruct (2 <=? length g) eqn:L; [|discriminate]. intros H. injection H as <- <-. apply flag_at_iff in G. destruct G as [-> G].
    rewrite app_nil_r in E. split; [apply after_word_iff; [discriminate|now rewrite <- E]|]. split; [discriminate|]. split; [|split; auto; now apply Nat.leb_le].
    eapply Forall_impl; [|exact F]. intros x. apply var_char'_iff.
  - intros (A & N & F & G & L). apply after_word_iff in A; [|now apply app_nonnil]. rewrite A. rewrite span_app.
    + destruct v as [|c v]; [contradiction|]. assert (X : flag_at (s_ "[" ++ f ++ s_ "]") = Some (f, [])) by (apply flag_at_iff; rewrite app_nil_r; auto). rewrite X. apply Nat.leb_le in L. now rewrite L.
    + eapply Forall_impl; [|exact F]. intros x. apply var_char'_iff.
    + reflexivity.
Qed.
Lemma other_keyword k k' s a : after_keyword k s a -> strip_prefix k' k = None -> strip_prefix k k' = None -> strip_prefix k' s = None.
Proof.
  intros (w & -> & _) A B. apply strip_prefix_none. intros r E. apply app_eq_app in E. destruct E as (l & [[E _]|[E _]]).
  - rewrite strip_prefix_none in A. exact (A l E).
  - rewrite strip_prefix_none in B. exact (B l E).
Qed.
Lemma argument_other k' s : strip_prefix k' s = None -> argument k' s = None /\ word_only k' s = None.
Proof. intros E. unfold argument, word_only, after_word. rewrite E. auto. Qed.
Lemma feeder_directive s st : (forall g, ~ written g s) -> no_trailing s -> (feeder s = Some st <-> directive st s).
Proof.
  intros W T. assert (M : match_config s = None) by (destruct (match_config s) as [g|] eqn:E; auto; exfalso; apply match_config_sound in E; exact (W g E)).
  unfold feeder. rewrite M. split.
  - destruct (argument (s_ "include") s) as [a|] eqn:E1; [intros H; injection H as <-; now apply argument_iff|].
    destruct (argument (s_ "require") s) as [a|] eqn:E2; [intros H; injection H as <-; now apply argument_iff|].
    destruct (word_only (s_ "export") s) as [a|] eqn:E3; [intros H; injection H as <-; now apply word_only_iff|].
    destruct (word_only (s_ "unset") s) as [a|] eqn:E4; [intros H; injection H as <-; now apply word_only_iff|].
    destruct (unset_flag s) as [[v f]|] eqn:E5; [intros H; injection H as <-; now apply unset_flag_iff|discriminate].
  - assert (O : forall k a, after_keyword k s a -> forall k', strip_prefix k' k = None -> strip_prefix k k' = None -> argument k' s = None /\ word_only k' s = None).
    { intros k a A k' X Y. apply argument_other. eapply other_keyword; eauto. }
    destruct st as [g|force a|v|v|v f]; cbn [directive]; [intros []| | | |].
    + destruct force; intros D; pose proof (O _ _ D) as O'.
      * rewrite (proj1 (O' (s_ "include") eq_refl eq_refl)). apply argument_iff in D; auto. now rewrite D.
      * apply argument_iff in D; auto. now rewrite D.
    + intros D. pose proof (O _ _ (proj1 D)) as O'. rewrite (proj1 (O' (s_ "include") eq_refl eq_refl)), (proj1 (O' (s_ "require") eq_refl eq_refl)). apply word_only_iff in D. now rewrite D.
    + intros D. pose proof (O _ _ (proj1 D)) as O'. rewrite (proj1 (O' (s_ "include") eq_refl eq_refl)), (proj1 (O' (s_ "require") eq_refl eq_refl)), (proj2 (O' (s_ "export") eq_refl eq_refl)).
      apply word_only_iff in D. now rewrite D.
    + intros D. pose proof (O _ _ (proj1 D)) as O'. rewrite (proj1 (O' (s_ "include") eq_refl eq_refl)), (proj1 (O' (s_ "require") eq_refl eq_refl)), (proj2 (O' (s_ "export") eq_refl eq_refl)).
      assert (E : word_only (s_ "unset") s = None).
      { unfold word_only. destruct D as (A & N & _). apply after_word_iff in A; [|now apply app_nonnil]. rewrite A. destruct (v ++ s_ "[" ++ f ++ s_ "]") as [|c r] eqn:Q; auto. rewrite <- Q.
        rewrite forallb_app. cbn [forallb app s_ list_ascii_of_string]. change (var_char' "["%char) with false. cbn [andb]. now rewrite andb_false_r. }
      rewrite E. apply unset_flag_iff in D. now rewrite D.
Qed.
