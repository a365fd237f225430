From Coq Require Import String Ascii List Bool Arith Lia.
From Verif Require Import Str_Model Str_Proofs Accounts_Model Accounts_Spec.
Import ListNotations.
Open Scope list_scope.

(** ** Steps that can be repeated *)
Section Steps.
  Variable key : Type.
  Variable key_dec : forall a b : key, {a = b} + {a <> b}.
  Variable step : key -> world -> list world * option world.
  Variable inv : world -> Prop.
  Variable okk : key -> Prop.
  Variable done : key -> world -> Prop.
  Hypothesis S_in : forall k w t o, step k w = (t, o) -> In w t.
  Hypothesis S_last : forall k w t x, step k w = (t, Some x) -> In x t.
  Hypothesis S_inv : forall k w t o x, okk k -> inv w -> step k w = (t, o) -> In x t -> inv x.
  Hypothesis S_A : forall k w t wf w' t' x, okk k -> inv w -> step k w = (t, Some wf) -> In w' t -> step k w' = (t', Some x) -> x = wf.
  Hypothesis S_D1 : forall k w t wf, okk k -> inv w -> step k w = (t, Some wf) -> done k wf.
  Hypothesis S_D2 : forall k w t x, okk k -> inv w -> done k w -> step k w = (t, Some x) -> x = w.
  Hypothesis S_B : forall j k w t o w', okk k -> inv w -> done j w -> j <> k -> step k w = (t, o) -> In w' t -> done j w'.
  Notation run ks := (run_steps (map step ks)).
  Lemma run_cons k ks w : run (k :: ks) w = match step k w with (t, None) => (t, None) | (t, Some w') => let (t', o) := run ks w' in (t ++ t', o) end.
  Proof. reflexivity. Qed.
  Lemma run_inv ks : Forall okk ks -> forall w t o x, inv w -> run ks w = (t, o) -> In x t -> inv x.
  Proof.
    induction 1 as [|k ks K F IH]; intros w t o x I R J.
    - cbn in R. injection R as <- <-. destruct J as [<-|[]]. exact I.
    - rewrite run_cons in R. destruct (step k w) as [t1 [w1|]] eqn:S.
      + destruct (run ks w1) as [t2 o2] eqn:R2. injection R as <- <-. apply in_app_or in J. destruct J as [J|J]; [eapply S_inv; eauto|].
        eapply IH; [|exact R2|exact J]. eapply S_inv; eauto.
      + injection R as <- <-. eapply S_inv; eauto.
  Qed.
  Lemma run_last ks : forall w t x, run ks w = (t, Some x) -> In x t.
  Proof.
    induction ks as [|k ks IH]; intros w t x R.
    - cbn in R. injection R as <- <-. now left.
    - rewrite run_cons in R. destruct (step k w) as [t1 [w1|]] eqn:S; [|discriminate]. destruct (run ks w1) as [t2 o2] eqn:R2. injection R as <- ->. apply in_or_app. right. eauto.
  Qed.
  Lemma done_run ks j : Forall okk ks -> forall w t x, inv w -> done j w -> run ks w = (t, Some x) -> done j x.
  Proof.
    induction 1 as [|k ks K F IH]; intros w t x I D R.
    - cbn in R. injection R as <- <-. exact D.
    - rewrite run_cons in R. destruct (step k w) as [t1 [w1|]] eqn:S; [|discriminate]. destruct (run ks w1) as [t2 o2] eqn:R2. injection R as <- ->.
      eapply IH; [| |exact R2].
      + eapply S_inv; eauto.
      + destruct (key_dec j k) as [->|N]; [eapply S_D1; eauto|]. eapply S_B; eauto.
  Qed.
  Lemma all_done ks : Forall okk ks -> forall w t x, inv w -> run ks w = (t, Some x) -> forall j, In j ks -> done j x.
  Proof.
    induction 1 as [|k ks K F IH]; intros w t x I R j J; [destruct J|].
    rewrite run_cons in R. destruct (step k w) as [t1 [w1|]] eqn:S; [|discriminate]. destruct (run ks w1) as [t2 o2] eqn:R2. injection R as <- ->.
    assert (I1 : inv w1) by (eapply S_inv; eauto). destruct J as [<-|J]; [|eapply IH; eauto]. eapply done_run; eauto.
  Qed.
  Lemma run_done ks : Forall okk ks -> forall w t x, inv w -> (forall j, In j ks -> done j w) -> run ks w = (t, Some x) -> x = w.
  Proof.
    induction 1 as [|k ks K F IH]; intros w t x I D R.
    - cbn in R. now injection R as <- <-.
    - rewrite run_cons in R. destruct (step k w) as [t1 [w1|]] eqn:S; [|discriminate]. destruct (run ks w1) as [t2 o2] eqn:R2. injection R as <- ->.
      assert (E : w1 = w) by (eapply S_D2; eauto; apply D; now left). subst w1. eapply IH; eauto. intros; apply D; now right.
  Qed.
  (** A run that repeats finished steps in the middle of a step *)
  Lemma run_middle k t wk : okk k -> forall pre, Forall okk pre -> forall wp w' t' r, inv wp -> (forall j, In j pre -> done j wp) ->
    step k wp = (t, Some wk) -> In w' t -> run pre w' = (t', Some r) -> r = w' \/ r = wp.
  Proof.
    intros OKk. induction 1 as [|j pre K F IH]; intros wp w' t' r I D S J R.
    - cbn in R. injection R as _ <-. auto.
    - rewrite run_cons in R. destruct (step j w') as [t1 [w1|]] eqn:S1; [|discriminate]. destruct (run pre w1) as [t2 o2] eqn:R2. injection R as <- ->.
      assert (I' : inv w') by exact (S_inv _ _ _ _ _ OKk I S J).
      destruct (key_dec j k) as [->|N].
      + assert (E : w1 = wk) by exact (S_A _ _ _ _ _ _ _ OKk I S J S1). assert (E2 : wk = wp) by exact (S_D2 _ _ _ _ OKk I (D k (or_introl eq_refl)) S). subst w1 wk.
        right. eapply run_done; [exact F|exact I| |exact R2]. intros i Hi. apply D. now right.
      + assert (DJ : done j w') by exact (S_B _ _ _ _ _ _ OKk I (D j (or_introl eq_refl)) N S J). assert (E : w1 = w') by exact (S_D2 _ _ _ _ K I' DJ S1). subst w1.
        exact (IH wp w' t2 r I (fun i Hi => D i (or_intror Hi)) S J R2).
  Qed.
  Lemma run_app_some a : forall b w t x, run (a ++ b) w = (t, Some x) -> exists t1 y t2, run a w = (t1, Some y) /\ run b y = (t2, Some x).
  Proof.
    induction a as [|k a IH]; intros b w t x R.
    - exists [w], w, t. auto.
    - cbn [app] in R. rewrite run_cons in R. rewrite run_cons. destruct (step k w) as [t1 [w1|]]; [|discriminate].
      destruct (run (a ++ b) w1) as [t2 o2] eqn:R2. injection R as <- ->. destruct (IH _ _ _ _ R2) as (u1 & y & u2 & A & B). rewrite A. eauto.
  Qed.
  Lemma run_point ks : forall w t x w', run ks w = (t, Some x) -> In w' t -> ks = [] \/
    exists pre k post tp wp tk wk tq, ks = pre ++ k :: post /\ run pre w = (tp, Some wp) /\ step k wp = (tk, Some wk) /\ In w' tk /\ run post wk = (tq, Some x).
  Proof.
    induction ks as [|k ks IH]; intros w t x w' R J; auto. right. rewrite run_cons in R. destruct (step k w) as [t1 [w1|]] eqn:S; [|discriminate].
    destruct (run ks w1) as [t2 o2] eqn:R2. injection R as <- ->. apply in_app_or in J. destruct J as [J|J].
    - exists [], k, ks, [w], w, t1, w1, t2. auto.
    - destruct (IH _ _ _ _ R2 J) as [->|(pre & k' & post & tp & wp & tk & wk & tq & -> & A & B & C & D)].
      + cbn in R2. injection R2 as <- <-. destruct J as [<-|[]]. exists [], k, [], [w], w, t1, w1, [w1]. repeat split; auto. eapply S_last; eauto.
      + exists (k :: pre), k', post, (t1 ++ tp), wp, tk, wk, tq. split; [reflexivity|]. split; [|auto]. rewrite run_cons, S, A. reflexivity.
  Qed.
  Theorem run_again ks w t wf w' t' wf' : Forall okk ks -> inv w -> run ks w = (t, Some wf) -> In w' t -> run ks w' = (t', Some wf') -> wf' = wf.
  Proof.
    intros F I R J R'. destruct (run_point _ _ _ _ _ R J) as [->|(pre & k & post & tp & wp & tk & wk & tq & -> & A & B & C & D)].
    - cbn in R, R'. injection R as <- <-. injection R' as _ <-. now destruct J as [<-|[]].
    - apply Forall_app in F. destruct F as [Fp Fk]. inversion Fk as [|? ? Kk Fq]; subst.
      destruct (run_app_some _ _ _ _ _ R') as (t1 & r & t2 & R1 & R2).
      assert (Ip : inv wp) by (eapply run_inv; [exact Fp|exact I|exact A|eapply run_last; exact A]).
      rewrite run_cons in R2. destruct (step k r) as [t3 [x|]] eqn:S3; [|discriminate]. destruct (run post x) as [t4 o4] eqn:R4. injection R2 as <- ->.
      assert (E : x = wk).
      { destruct (run_middle k tk wk Kk pre Fp wp w' t1 r Ip (all_done _ Fp _ _ _ I A) B C R1) as [->| ->].
        - eapply S_A; eauto.
        - congruence. }
      subst x. congruence.
  Qed.
End Steps.

(** ** Names in the files *)
Lemma starts_name (u n r : str) : ~ In ":"%char u -> ~ In ":"%char n -> startswith (u ++ s_ ":") (n ++ ":"%char :: r) = true <-> u = n.
Proof.
  intros U N. rewrite startswith_iff. split.
  - intros (t & E). rewrite <- app_assoc in E. cbn [app s_ list_ascii_of_string] in E. revert n N E. induction u as [|c u IH]; intros n N E.
    + destruct n as [|d n]; auto. cbn in E. injection E as X _. subst d. exfalso. apply N. now left.
    + destruct n as [|d n]; cbn in E.
      * injection E as X _. subst c. exfalso. apply U. now left.
      * injection E as <- E. f_equal. apply IH; auto; intros X; [apply U|apply N]; now right.
  - intros ->. exists r. now rewrite <- app_assoc.
Qed.
Lemma exists_account w u : world_ok w -> ~ In ":"%char u -> entry_exists u (map passwd_line (w_accounts w)) = has_account w u.
Proof.
  intros [_ W] U. unfold entry_exists, has_account. induction (w_accounts w) as [|a l IH]; auto. cbn [map existsb]. rewrite IH by (intros; apply W; now right). f_equal.
  assert (X : startswith (u ++ s_ ":") (passwd_line a) = true <-> u = a_name a) by (apply starts_name; auto; apply W; now left).
  destruct (seqb (a_name a) u) eqn:E; [apply seqb_eq in E; apply X; auto|]. apply seqb_neq in E. destruct (startswith (u ++ s_ ":") (passwd_line a)); auto. exfalso. apply E. symmetry. now apply X.
Qed.
Lemma exists_group w u : world_ok w -> ~ In ":"%char u -> entry_exists u (map group_line (w_groups w)) = has_group w u.
Proof.
  intros [W _] U. unfold entry_exists, has_group. induction (w_groups w) as [|a l IH]; auto. cbn [map existsb]. rewrite IH by (intros; apply W; now right). f_equal.
  assert (X : startswith (u ++ s_ ":") (group_line a) = true <-> u = g_name a) by (apply starts_name; auto; apply W; now left).
  destruct (seqb (g_name a) u) eqn:E; [apply seqb_eq in E; apply X; auto|]. apply seqb_neq in E. destruct (startswith (u ++ s_ ":") (group_line a)); auto. exfalso. apply E. symmetry. now apply X.
Qed.

(** ** What the tools do with the arguments *)
Definition pick (flag old : str) : str := match flag with [] => old | _ => flag end.
Lemma pick_after flag old : field_after flag old (pick flag old).
Proof. unfold field_after, pick. destruct flag; split; intros; congruence. Qed.
Lemma pick_pick flag old : pick flag (pick flag old) = pick flag old.
Proof. now destruct flag. Qed.
Lemma parse_opt o v r : mem_str o valued = true -> parse_args (opt_args o v ++ r) = let '(os, fs, n) := parse_args r in (match v with [] => os | _ => (o, v) :: os end, fs, n).
Proof. intros M. destruct v as [|c v]; cbn [opt_args app]; [now destruct (parse_args r) as [[? ?] ?]|]. cbn [parse_args]. rewrite M. reflexivity. Qed.
Lemma parse_flag c o r : mem_str o valued = false -> startswith (s_ "-") o = true -> parse_args (flag_args c o ++ r) = let '(os, fs, n) := parse_args r in (os, flag_args c o ++ fs, n).
Proof. intros M S. destruct c; cbn [flag_args app]; [|now destruct (parse_args r) as [[? ?] ?]]. cbn [parse_args]. rewrite M, S. now destruct (parse_args r) as [[? ?] ?]. Qed.
Lemma parse_name n : name_ok n -> parse_args [n] = ([], [], Some n).
Proof.
  intros [_ N]. cbn [parse_args]. assert (S : startswith (s_ "-") n = false) by (destruct (startswith (s_ "-") n) eqn:E; auto; apply startswith_iff in E; destruct E as (r & ->); exfalso; exact (N r eq_refl)).
  assert (M : mem_str n valued = false).
  { destruct (mem_str n valued) eqn:E; auto. exfalso. apply mem_str_In in E. assert (X : forall x, In x valued -> exists r, x = "-"%char :: r) by (intros x H; repeat (destruct H as [<-|H]; [eexists; reflexivity|]); destruct H).
    destruct (X n E) as (r & ->). exact (N r eq_refl). }
  now rewrite M, S.
Qed.
Section U.
  Variable sha256 : str -> str.
  Variable openssl : str -> str -> str.
  Variable cf : config.
  Notation fl u := (cf_uflag cf u).
  Definition upd (u : str) (a : account) : account :=
    mkAccount (a_name a) (pick (fl u (s_ "expiredate")) (a_expire a)) (pick (fl u (s_ "inactive")) (a_inactive a)) (pick (fl u (s_ "uid")) (a_uid a))
      (pick (fl u (s_ "gid")) (a_gid a)) (pick (fl u (s_ "comment")) (a_comment a)) (pick (fl u (s_ "shell")) (a_shell a))
      (pick (join (s_ ",") (split_ws (fl u (s_ "groups")))) (a_groups a)) (pick (fl u (s_ "home")) (a_home a)) (a_made a) (a_pass a) (a_change a).
  Definition flag_b (u f : str) : bool := mem_str f (split_ws (fl u (s_ "flags"))).
  Definition sets_b (u : str) : bool := negb (seqb (fl u (s_ "password")) []) || flag_b u (s_ "allow-empty-password").
  Definition hash_of (u : str) : str := if flag_b u (s_ "clear-text-password") then strip (openssl (salt sha256 cf) (fl u (s_ "password"))) else fl u (s_ "password").
  Definition pw (p : str) (a : account) : account := let '(mkAccount nm ex ia ui gi co sh gr ho md _ _) := a in mkAccount nm ex ia ui gi co sh gr ho md p false.
  Definition ch (a : account) : account := let '(mkAccount nm ex ia ui gi co sh gr ho md pw _) := a in mkAccount nm ex ia ui gi co sh gr ho md pw true.
  Definition pw_if (u : str) (a : account) : account := if sets_b u then pw (hash_of u) a else a.
  Definition ch_if (u : str) (a : account) : account := if flag_b u (s_ "force-passwd-change") then ch a else a.
  Definition after (u : str) (a : account) : account := ch_if u (pw_if u (upd u a)).
  Lemma flag_b_iff u f : flag_b u f = true <-> has_flag cf u f.
  Proof. apply mem_str_In. Qed.
  Lemma sets_b_iff u : sets_b u = true <-> sets_password cf u.
  Proof. unfold sets_b, sets_password. rewrite orb_true_iff, negb_true_iff, seqb_neq, flag_b_iff. reflexivity. Qed.
  Lemma hash_stored u : stored sha256 openssl cf u (hash_of u).
  Proof.
    unfold stored, hash_of. rewrite <- flag_b_iff. unfold salt. destruct (flag_b u (s_ "clear-text-password")); split; intros; congruence.
  Qed.
  Lemma after_spec u a : account_after sha256 openssl cf u a (after u a).
  Proof.
    unfold after, ch_if, pw_if. pose proof (hash_stored u) as HS.
    assert (SB : (sets_b u = true /\ sets_password cf u) \/ (sets_b u = false /\ ~ sets_password cf u)) by (rewrite <- sets_b_iff; destruct (sets_b u); [left|right]; split; congruence).
    assert (FB : (flag_b u (s_ "force-passwd-change") = true /\ has_flag cf u (s_ "force-passwd-change")) \/ (flag_b u (s_ "force-passwd-change") = false /\ ~ has_flag cf u (s_ "force-passwd-change")))
      by (rewrite <- flag_b_iff; destruct (flag_b u (s_ "force-passwd-change")); [left|right]; split; congruence).
    destruct a as [nm ex ia ui gi co sh gr ho md pw0 ch0].
    destruct SB as [[-> SB]|[-> SB]], FB as [[-> FB]|[-> FB]]; (constructor; [reflexivity|apply pick_after|apply pick_after|apply pick_after|apply pick_after|apply pick_after|apply pick_after|apply pick_after|apply pick_after|reflexivity| |]);
      cbn [a_pass a_change pw ch upd]; tauto.
  Qed.
  Lemma after_name u a : a_name (after u a) = a_name a.
  Proof. unfold after, ch_if, pw_if. destruct a, (sets_b u), (flag_b u (s_ "force-passwd-change")); reflexivity. Qed.
  Lemma after_upd u a : after u (upd u a) = after u a.
  Proof. unfold after. f_equal. f_equal. unfold upd. cbn. now rewrite !pick_pick. Qed.
  Lemma after_pw u a : after u (pw_if u a) = after u a.
  Proof. unfold after, pw_if. destruct (sets_b u); auto. destruct a; reflexivity. Qed.
  Lemma after_ch u a : after u (ch_if u a) = after u a.
  Proof. unfold after, ch_if, pw_if. destruct (flag_b u (s_ "force-passwd-change")); auto. destruct a, (sets_b u); reflexivity. Qed.
  Lemma after_after u a : after u (after u a) = after u a.
  Proof. unfold after at 2. now rewrite after_ch, after_pw, after_upd. Qed.

  (** The options of useradd and usermod *)
  Definition opts_of (u : str) (h : str) : list (str * str) :=
    let p o v := match v with [] => [] | _ => [(o, v)] end in
    p (s_ "--expire") (fl u (s_ "expiredate")) ++ p (s_ "--inactive") (fl u (s_ "inactive")) ++ p (s_ "--uid") (fl u (s_ "uid")) ++ p (s_ "--gid") (fl u (s_ "gid")) ++
    p (s_ "--comment") (fl u (s_ "comment")) ++ p (s_ "--shell") (fl u (s_ "shell")) ++ p (s_ "--groups") (join (s_ ",") (split_ws (fl u (s_ "groups")))) ++ p h (fl u (s_ "home")).
  Lemma groups_opt u : match split_ws (fl u (s_ "groups")) with [] => [] | _ => [s_ "--groups"; join (s_ ",") (split_ws (fl u (s_ "groups")))] end
    = opt_args (s_ "--groups") (join (s_ ",") (split_ws (fl u (s_ "groups")))).
  Proof.
    pose proof (split_ws_words (fl u (s_ "groups"))) as W. destruct (split_ws (fl u (s_ "groups"))) as [|g gs]; auto.
    inversion W as [|? ? [N _] _]; subst. destruct g as [|c g]; [congruence|]. destruct gs; reflexivity.
  Qed.
  Lemma common_parse u r : parse_args (common_args cf u ++ r) =
    let '(os, fs, n) := parse_args r in
    (let p o v := match v with [] => [] | _ => [(o, v)] end in
     (p (s_ "--expire") (fl u (s_ "expiredate")) ++ p (s_ "--inactive") (fl u (s_ "inactive")) ++ p (s_ "--uid") (fl u (s_ "uid")) ++ p (s_ "--gid") (fl u (s_ "gid")) ++
      p (s_ "--comment") (fl u (s_ "comment")) ++ p (s_ "--shell") (fl u (s_ "shell")) ++ p (s_ "--groups") (join (s_ ",") (split_ws (fl u (s_ "groups"))))) ++ os, fs, n).
  Proof.
    unfold common_args. rewrite groups_opt. rewrite <- !app_assoc. rewrite !parse_opt by reflexivity. destruct (parse_args r) as [[os fs] n].
    destruct (fl u (s_ "expiredate")), (fl u (s_ "inactive")), (fl u (s_ "uid")); cbn [app];
    destruct (fl u (s_ "gid")), (fl u (s_ "comment")); cbn [app];
    destruct (fl u (s_ "shell")), (join (s_ ",") (split_ws (fl u (s_ "groups")))); reflexivity.
  Qed.
  Lemma opts_fold u h a : h = s_ "--home" \/ h = s_ "--home-dir" -> fold_left set_opt (opts_of u h) a = upd u a.
  Proof.
    intros H. unfold opts_of, upd. rewrite !fold_left_app. destruct a as [nm ex ia ui gi co sh gr ho md pw0 ch0]. cbn [a_name a_expire a_inactive a_uid a_gid a_comment a_shell a_groups a_home a_made a_pass a_change].
    assert (P : forall (v o : str) x, fold_left set_opt (match v with [] => [] | _ => [(o, v)] end) x = match v with [] => x | _ => set_opt x (o, v) end) by (intros [|] o x; reflexivity).
    rewrite !P.
    replace (match fl u (s_ "expiredate") with [] => mkAccount nm ex ia ui gi co sh gr ho md pw0 ch0 | _ => set_opt (mkAccount nm ex ia ui gi co sh gr ho md pw0 ch0) (s_ "--expire", fl u (s_ "expiredate")) end)
      with (mkAccount nm (pick (fl u (s_ "expiredate")) ex) ia ui gi co sh gr ho md pw0 ch0) by (destruct (fl u (s_ "expiredate")); reflexivity).
    generalize (pick (fl u (s_ "expiredate")) ex). clear ex. intros ex.
    replace (match fl u (s_ "inactive") with [] => mkAccount nm ex ia ui gi co sh gr ho md pw0 ch0 | _ => set_opt (mkAccount nm ex ia ui gi co sh gr ho md pw0 ch0) (s_ "--inactive", fl u (s_ "inactive")) end)
      with (mkAccount nm ex (pick (fl u (s_ "inactive")) ia) ui gi co sh gr ho md pw0 ch0) by (destruct (fl u (s_ "inactive")); reflexivity).
    generalize (pick (fl u (s_ "inactive")) ia). clear ia. intros ia.
    replace (match fl u (s_ "uid") with [] => mkAccount nm ex ia ui gi co sh gr ho md pw0 ch0 | _ => set_opt (mkAccount nm ex ia ui gi co sh gr ho md pw0 ch0) (s_ "--uid", fl u (s_ "uid")) end)
      with (mkAccount nm ex ia (pick (fl u (s_ "uid")) ui) gi co sh gr ho md pw0 ch0) by (destruct (fl u (s_ "uid")); reflexivity).
    generalize (pick (fl u (s_ "uid")) ui). clear ui. intros ui.
    replace (match fl u (s_ "gid") with [] => mkAccount nm ex ia ui gi co sh gr ho md pw0 ch0 | _ => set_opt (mkAccount nm ex ia ui gi co sh gr ho md pw0 ch0) (s_ "--gid", fl u (s_ "gid")) end)
      with (mkAccount nm ex ia ui (pick (fl u (s_ "gid")) gi) co sh gr ho md pw0 ch0) by (destruct (fl u (s_ "gid")); reflexivity).
    generalize (pick (fl u (s_ "gid")) gi). clear gi. intros gi.
    replace (match fl u (s_ "comment") with [] => mkAccount nm ex ia ui gi co sh gr ho md pw0 ch0 | _ => set_opt (mkAccount nm ex ia ui gi co sh gr ho md pw0 ch0) (s_ "--comment", fl u (s_ "comment")) end)
      with (mkAccount nm ex ia ui gi (pick (fl u (s_ "comment")) co) sh gr ho md pw0 ch0) by (destruct (fl u (s_ "comment")); reflexivity).
    generalize (pick (fl u (s_ "comment")) co). clear co. intros co.
    replace (match fl u (s_ "shell") with [] => mkAccount nm ex ia ui gi co sh gr ho md pw0 ch0 | _ => set_opt (mkAccount nm ex ia ui gi co sh gr ho md pw0 ch0) (s_ "--shell", fl u (s_ "shell")) end)
      with (mkAccount nm ex ia ui gi co (pick (fl u (s_ "shell")) sh) gr ho md pw0 ch0) by (destruct (fl u (s_ "shell")); reflexivity).
    generalize (pick (fl u (s_ "shell")) sh). clear sh. intros sh.
    set (J := join (s_ ",") (split_ws (fl u (s_ "groups")))).
    replace (match J with [] => mkAccount nm ex ia ui gi co sh gr ho md pw0 ch0 | _ => set_opt (mkAccount nm ex ia ui gi co sh gr ho md pw0 ch0) (s_ "--groups", J) end)
      with (mkAccount nm ex ia ui gi co sh (pick J gr) ho md pw0 ch0) by (destruct J; reflexivity).
    generalize (pick J gr). clear gr. intros gr.
    destruct H as [-> | ->]; destruct (fl u (s_ "home")); reflexivity.
  Qed.
  Lemma opts_gid u h : h = s_ "--home" \/ h = s_ "--home-dir" -> gid_opt (opts_of u h) = match fl u (s_ "gid") with [] => None | v => Some v end.
  Proof.
    intros H. unfold gid_opt, opts_of.
    assert (P : forall o v r, seqb o (s_ "--gid") = false -> find (fun e : str * str => seqb (fst e) (s_ "--gid")) (match v with [] => [] | _ => [(o, v)] end ++ r) = find (fun e => seqb (fst e) (s_ "--gid")) r).
    { intros o [|c v] r E; cbn [app find fst]; auto. now rewrite E. }
    rewrite !P by reflexivity. destruct (fl u (s_ "gid")) as [|c v].
    - cbn [app]. rewrite !P by reflexivity. destruct H as [-> | ->]; destruct (fl u (s_ "home")); reflexivity.
    - reflexivity.
  Qed.
  Definition made_flags (u : str) : list str :=
    flag_args (flag_b u (s_ "system")) (s_ "--system") ++ flag_args (flag_b u (s_ "no-create-home")) (s_ "--no-create-home") ++ flag_args (flag_b u (s_ "create-home")) (s_ "--create-home").
  Lemma add_parse u : name_ok u -> parse_args (user_args cf u false ++ [u]) = (opts_of u (s_ "--home-dir"), made_flags u, Some u).
  Proof.
    intros N. unfold user_args. rewrite <- !app_assoc. rewrite common_parse. rewrite parse_opt by reflexivity. rewrite !parse_flag by reflexivity. rewrite parse_name by exact N.
    unfold opts_of, made_flags, flag_b. rewrite <- !app_assoc. rewrite app_nil_r. destruct (fl u (s_ "home")); reflexivity.
  Qed.
  Lemma mod_parse u : name_ok u -> exists fs, parse_args (user_args cf u true ++ [u]) = (opts_of u (s_ "--home"), fs, Some u).
  Proof.
    intros N. unfold user_args. rewrite <- !app_assoc. rewrite common_parse. rewrite parse_opt by reflexivity. rewrite !parse_flag by reflexivity. rewrite parse_name by exact N.
    unfold opts_of. rewrite <- !app_assoc. destruct (fl u (s_ "home")); eexists; reflexivity.
  Qed.
  Lemma no_args_upd u a : user_args cf u true = [] -> upd u a = a.
  Proof.
    intros E. unfold user_args, common_args in E. rewrite groups_opt in E.
    assert (O : forall o v, opt_args o v = [] -> v = []) by (intros o [|? ?]; [auto|discriminate]).
    apply app_eq_nil in E. destruct E as [E X]. apply app_eq_nil in X. destruct X as [X _]. apply O in X.
    repeat match goal with H : _ ++ _ = [] |- _ => apply app_eq_nil in H; destruct H end.
    repeat match goal with H : opt_args _ _ = [] |- _ => apply O in H end. unfold upd.
    repeat match goal with H : _ = [] |- _ => rewrite H; clear H end. destruct a; reflexivity.
  Qed.
End U.

(** ** Steps *)
Definition gupd (cf : config) (n : str) (g : group) : group := mkGroup (g_name g) (pick (cf_gflag cf n (s_ "gid")) (g_gid g)) (g_system g).
Lemma has_account_In w n : has_account w n = true <-> exists a, In a (w_accounts w) /\ a_name a = n.
Proof. unfold has_account. rewrite existsb_exists. split; intros (a & I & E); exists a; split; auto; now apply seqb_eq. Qed.
Lemma has_group_In w n : has_group w n = true <-> exists a, In a (w_groups w) /\ g_name a = n.
Proof. unfold has_group. rewrite existsb_exists. split; intros (a & I & E); exists a; split; auto; now apply seqb_eq. Qed.
Definition mapn {A} (nm : A -> str) (n : str) (f : A -> A) (l : list A) : list A := map (fun a => if seqb (nm a) n then f a else a) l.
Lemma mapn_ext {A} (nm : A -> str) n f g l : (forall a, f a = g a) -> mapn nm n f l = mapn nm n g l.
Proof. intros H. apply map_ext. intros a. now rewrite H. Qed.
Lemma mapn_id {A} (nm : A -> str) n f l : (forall a, f a = a) -> mapn nm n f l = l.
Proof. intros H. unfold mapn. rewrite <- (map_id l) at 2. apply map_ext. intros a. rewrite H. now destruct (seqb (nm a) n). Qed.
Lemma mapn_mapn {A} (nm : A -> str) n f g l : (forall a, nm (g a) = nm a) -> mapn nm n f (mapn nm n g l) = mapn nm n (fun a => f (g a)) l.
Proof. intros H. unfold mapn. rewrite map_map. apply map_ext. intros a. destruct (seqb (nm a) n) eqn:E; [rewrite H|]; now rewrite E. Qed.
Lemma mapn_comm {A} (nm : A -> str) m n f g l : m <> n -> (forall a, nm (f a) = nm a) -> (forall a, nm (g a) = nm a) -> mapn nm m f (mapn nm n g l) = mapn nm n g (mapn nm m f l).
Proof.
  intros N F G. unfold mapn. rewrite !map_map. apply map_ext. intros a. destruct (seqb (nm a) n) eqn:E, (seqb (nm a) m) eqn:E'; rewrite ?F, ?G, ?E, ?E'; auto.
  apply seqb_eq in E, E'. congruence.
Qed.
Lemma mapn_absent {A} (nm : A -> str) n f l : (forall a, In a l -> nm a <> n) -> mapn nm n f l = l.
Proof. intros H. unfold mapn. rewrite <- (map_id l) at 2. apply map_ext_in. intros a I. apply H in I. apply seqb_neq in I. now rewrite I. Qed.
Lemma mapn_names {A} (nm : A -> str) n f l : (forall a, nm (f a) = nm a) -> map nm (mapn nm n f l) = map nm l.
Proof. intros H. unfold mapn. rewrite map_map. apply map_ext. intros a. destruct (seqb (nm a) n); auto. Qed.
Lemma change_eq n f w : change_accounts n f w = mkWorld (w_groups w) (mapn a_name n f (w_accounts w)).
Proof. reflexivity. Qed.
Lemma has_account_names w w' n : map a_name (w_accounts w) = map a_name (w_accounts w') -> has_account w n = has_account w' n.
Proof.
  unfold has_account. generalize (w_accounts w) (w_accounts w'). induction l as [|a l IH]; intros [|b k] E; try discriminate; auto. injection E as X Y. cbn. rewrite X. f_equal. auto.
Qed.
Lemma has_group_names w w' n : map g_name (w_groups w) = map g_name (w_groups w') -> has_group w n = has_group w' n.
Proof.
  unfold has_group. generalize (w_groups w) (w_groups w'). induction l as [|a l IH]; intros [|b k] E; try discriminate; auto. injection E as X Y. cbn. rewrite X. f_equal. auto.
Qed.
Section Run.
  Variable new_gid : world -> str -> bool -> str.
  Variable new_account : world -> str -> list str -> account.
  Variable refuses : command -> world -> bool.
  Variable sha256 : str -> str.
  Variable openssl : str -> str -> str.
  Variable cf : config.
  Notation tool := (tool new_gid new_account refuses).
  Notation run_commands := (run_commands new_gid new_account refuses).
  Notation after := (after sha256 openssl cf).
  Notation upd := (upd cf).
  Notation fresh := (fresh new_account).
  Definition comp (fs : list (account -> account)) (a : account) : account := fold_left (fun a f => f a) fs a.
  (** A command that changes accounts of one name *)
  Definition acts (u : str) (c : command) (f : account -> account) : Prop := forall x y, tool c x = Some y -> y = change_accounts u f x.
  Lemma run_acts u cs fs : Forall2 (acts u) cs fs -> Forall (fun f => forall a : account, a_name (f a) = a_name a) fs -> forall w t o, run_commands cs w = (t, o) ->
    (forall x, In x t -> exists pre suf, fs = pre ++ suf /\ x = change_accounts u (comp pre) w) /\ (forall x, o = Some x -> x = change_accounts u (comp fs) w).
  Proof.
    intros F2. induction F2 as [|c f cs fs A F2 IH]; intros NM w t o R.
    - cbn in R. injection R as <- <-. assert (E : w = change_accounts u (comp []) w) by (rewrite change_eq, mapn_id by reflexivity; now destruct w). split.
      + intros x [<-|[]]. exists [], []. auto.
      + intros x X. injection X as <-. exact E.
    - inversion NM as [|? ? N1 N2]; subst. cbn [Accounts_Model.run_commands] in R. assert (E : w = change_accounts u (comp []) w) by (rewrite change_eq, mapn_id by reflexivity; now destruct w).
      destruct (tool c w) as [y|] eqn:T.
      + destruct (run_commands cs y) as [t' o'] eqn:R'. injection R as <- <-. specialize (IH N2 _ _ _ R'). destruct IH as [I1 I2]. apply A in T.
        assert (C : forall gs, change_accounts u (comp gs) y = change_accounts u (comp (f :: gs)) w).
        { intros gs. rewrite T, !change_eq. cbn [w_groups w_accounts]. f_equal. rewrite mapn_mapn by exact N1. reflexivity. }
        split.
        * intros x [<-|X]; [exists [], (f :: fs); auto|]. destruct (I1 x X) as (pre & suf & -> & ->). exists (f :: pre), suf. split; [reflexivity|apply C].
        * intros x X. rewrite (I2 x X). apply C.
      + injection R as <- <-. split; [|discriminate]. intros x [<-|[]]. exists [], (f :: fs). auto.
  Qed.
  Lemma tool_usermod args w : tool (mkCommand (s_ "/usr/sbin/usermod") args []) w =
    if refuses (mkCommand (s_ "/usr/sbin/usermod") args []) w then None else
    match parse_args args with (o, _, Some n) => if has_account w n then Some (change_accounts n (fun a => fold_left set_opt o a) w) else None | _ => None end.
  Proof. unfold Accounts_Model.tool. cbn [c_prog c_args c_input]. destruct (refuses _ w); [reflexivity|]; destruct (parse_args args) as [[o f] [n|]]; reflexivity. Qed.
  Lemma tool_useradd args w : tool (mkCommand (s_ "/usr/sbin/useradd") args []) w =
    if refuses (mkCommand (s_ "/usr/sbin/useradd") args []) w then None else
    match parse_args args with
    | (o, f, Some n) =>
        if has_account w n then None
        else match gid_opt o with
             | Some _ => Some (mkWorld (w_groups w) (w_accounts w ++ [fold_left set_opt o (fresh w n f)]))
             | None => if has_group w n then None
                       else Some (mkWorld (w_groups w ++ [mkGroup n (a_gid (fold_left set_opt o (fresh w n f))) (mem_str (s_ "--system") f)]) (w_accounts w ++ [fold_left set_opt o (fresh w n f)]))
             end
    | _ => None
    end.
  Proof. unfold Accounts_Model.tool. cbn [c_prog c_args c_input]. destruct (refuses _ w); [reflexivity|]; destruct (parse_args args) as [[o f] [n|]]; reflexivity. Qed.
  Lemma tool_chpasswd u p w : ~ In ":"%char u -> tool (mkCommand (s_ "/usr/sbin/chpasswd") [s_ "-e"] (u ++ s_ ":" ++ p)) w =
    if refuses (mkCommand (s_ "/usr/sbin/chpasswd") [s_ "-e"] (u ++ s_ ":" ++ p)) w then None else if has_account w u then Some (change_accounts u (pw p) w) else None.
  Proof.
    intros N. unfold Accounts_Model.tool. cbn [c_prog c_args c_input]. destruct (refuses _ w); auto.
    assert (C : cut_at ":"%char (u ++ s_ ":" ++ p) = (u, Some p)) by (apply (cut_at_some ":"%char u p); apply no_char_In; exact N). rewrite C. reflexivity.
  Qed.
  Lemma tool_passwd u w : tool (mkCommand (s_ "/usr/bin/passwd") [s_ "--expire"; u] []) w =
    if refuses (mkCommand (s_ "/usr/bin/passwd") [s_ "--expire"; u] []) w then None else if has_account w u then Some (change_accounts u ch w) else None.
  Proof. unfold Accounts_Model.tool. cbn [c_prog c_args c_input]. destruct (refuses _ w); auto. Qed.
  Lemma tool_groupadd args w : tool (mkCommand (s_ "/usr/sbin/groupadd") args []) w =
    if refuses (mkCommand (s_ "/usr/sbin/groupadd") args []) w then None else
    match parse_args args with
    | (o, f, Some n) => if has_group w n then None else
        Some (mkWorld (w_groups w ++ [mkGroup n (match gid_opt o with Some g => g | None => new_gid w n (mem_str (s_ "--system") f) end) (mem_str (s_ "--system") f)]) (w_accounts w))
    | _ => None end.
  Proof. unfold Accounts_Model.tool. cbn [c_prog c_args c_input]. destruct (refuses _ w); [reflexivity|]; destruct (parse_args args) as [[o f] [n|]]; reflexivity. Qed.
  Lemma tool_groupmod args w : tool (mkCommand (s_ "/usr/sbin/groupmod") args []) w =
    if refuses (mkCommand (s_ "/usr/sbin/groupmod") args []) w then None else
    match parse_args args with
    | (o, f, Some n) => if has_group w n then Some (change_groups n (fun g => match gid_opt o with Some i => mkGroup (g_name g) i (g_system g) | None => g end) w) else None
    | _ => None end.
  Proof. unfold Accounts_Model.tool. cbn [c_prog c_args c_input]. destruct (refuses _ w); [reflexivity|]; destruct (parse_args args) as [[o f] [n|]]; reflexivity. Qed.
  Lemma acts_usermod u : name_ok u -> acts u (mkCommand (s_ "/usr/sbin/usermod") (user_args cf u true ++ [u]) []) (upd u).
  Proof.
    intros N x y T. rewrite tool_usermod in T. destruct (refuses _ x); [discriminate|]. destruct (mod_parse cf u N) as (fs & P). rewrite P in T.
    destruct (has_account x u); [|discriminate]. injection T as <-. rewrite !change_eq. f_equal. apply mapn_ext. intros a. apply opts_fold. now left.
  Qed.
  Lemma acts_chpasswd u p : ~ In ":"%char u -> acts u (mkCommand (s_ "/usr/sbin/chpasswd") [s_ "-e"] (u ++ s_ ":" ++ p)) (pw p).
  Proof. intros N x y T. rewrite tool_chpasswd in T by exact N. destruct (refuses _ x); [discriminate|]. destruct (has_account x u); [|discriminate]. now injection T as <-. Qed.
  Lemma acts_passwd u : acts u (mkCommand (s_ "/usr/bin/passwd") [s_ "--expire"; u] []) ch.
  Proof. intros x y T. rewrite tool_passwd in T. destruct (refuses _ x); [discriminate|]. destruct (has_account x u); [|discriminate]. now injection T as <-. Qed.

  (** The commands behind useradd or usermod *)
  Definition rest_commands (u : str) : list command :=
    (if sets_b cf u then [mkCommand (s_ "/usr/sbin/chpasswd") [s_ "-e"] (u ++ s_ ":" ++ hash_of sha256 openssl cf u)] else []) ++
    (if flag_b cf u (s_ "force-passwd-change") then [mkCommand (s_ "/usr/bin/passwd") [s_ "--expire"; u] []] else []).
  Definition rest_funs (u : str) : list (account -> account) :=
    (if sets_b cf u then [pw (hash_of sha256 openssl cf u)] else []) ++ (if flag_b cf u (s_ "force-passwd-change") then [ch] else []).
  Lemma commands_eq u e : user_commands sha256 openssl cf u e =
    (if e then match user_args cf u e with [] => [] | _ => [mkCommand (s_ "/usr/sbin/usermod") (user_args cf u e ++ [u]) []] end
     else [mkCommand (s_ "/usr/sbin/useradd") (user_args cf u e ++ [u]) []]) ++ rest_commands u.
  Proof. reflexivity. Qed.
  Lemma rest_acts u : name_ok u -> Forall2 (acts u) (rest_commands u) (rest_funs u).
  Proof.
    intros N. unfold rest_commands, rest_funs. apply Forall2_app.
    - destruct (sets_b cf u); repeat constructor. apply acts_chpasswd, N.
    - destruct (flag_b cf u (s_ "force-passwd-change")); repeat constructor. apply acts_passwd.
  Qed.
  Lemma rest_comp u a : comp (rest_funs u) a = ch_if cf u (pw_if sha256 openssl cf u a).
  Proof. unfold comp, rest_funs, ch_if, pw_if. destruct (sets_b cf u), (flag_b cf u (s_ "force-passwd-change")); reflexivity. Qed.
  Definition fun_ok (u : str) (f : account -> account) : Prop := (forall a, a_name (f a) = a_name a) /\ (forall a, after u (f a) = after u a).
  Lemma upd_ok u : fun_ok u (upd u).
  Proof. split; [reflexivity|apply after_upd]. Qed.
  Lemma rest_ok u : Forall (fun_ok u) (rest_funs u).
  Proof.
    unfold rest_funs. apply Forall_app. split.
    - destruct (sets_b cf u) eqn:E; repeat constructor; [now intros []|]. intros a. pose proof (after_pw sha256 openssl cf u a) as X. unfold pw_if in X. now rewrite E in X.
    - destruct (flag_b cf u (s_ "force-passwd-change")) eqn:E; repeat constructor; [now intros []|]. intros a. pose proof (after_ch sha256 openssl cf u a) as X. unfold ch_if in X. now rewrite E in X.
  Qed.
  Lemma comp_ok u fs : Forall (fun_ok u) fs -> fun_ok u (comp fs).
  Proof.
    induction 1 as [|f fs [N A] F [IN IA]]; [split; reflexivity|]. split; intros a; cbn [comp fold_left]; change (fold_left (fun a f => f a) fs (f a)) with (comp fs (f a)).
    - now rewrite IN, N.
    - now rewrite IA, A.
  Qed.
  Lemma after_ok u : fun_ok u (after u).
  Proof. split; [apply after_name|apply after_after]. Qed.
  Lemma after_comp u a : after u a = comp (rest_funs u) (upd u a).
  Proof. rewrite rest_comp. reflexivity. Qed.

  Notation user_step := (user_step new_gid new_account refuses sha256 openssl cf).
  Notation group_step := (group_step new_gid new_account refuses cf).
  (** Step for an account that exists *)
  Lemma step_old u w t o : name_ok u -> world_ok w -> has_account w u = true -> user_step u w = (t, o) ->
    (forall x, In x t -> exists G, fun_ok u G /\ x = change_accounts u G w) /\ (forall x, o = Some x -> x = change_accounts u (after u) w).
  Proof.
    intros N W H S. unfold Accounts_Model.user_step in S. rewrite exists_account, H in S by (auto; apply N). rewrite commands_eq in S.
    destruct (user_args cf u true) as [|a0 args] eqn:UA.
    - destruct (run_acts u _ _ (rest_acts u N) (Forall_impl _ (fun f P => proj1 P) (rest_ok u)) w t o S) as [A B]. split.
      + intros x X. destruct (A x X) as (pre & suf & E & ->). exists (comp pre). split; auto. apply comp_ok. pose proof (rest_ok u) as R. rewrite E in R. now apply Forall_app in R.
      + intros x X. rewrite (B x X), !change_eq. f_equal. apply mapn_ext. intros a. rewrite after_comp. now rewrite (no_args_upd cf u a UA).
    - rewrite <- UA in S.
      assert (F2 : Forall2 (acts u) ([mkCommand (s_ "/usr/sbin/usermod") (user_args cf u true ++ [u]) []] ++ rest_commands u) ([upd u] ++ rest_funs u)).
      { apply Forall2_app; [constructor; [now apply acts_usermod|constructor]|now apply rest_acts]. }
      assert (OK : Forall (fun_ok u) ([upd u] ++ rest_funs u)) by (apply Forall_app; split; [constructor; [apply upd_ok|constructor]|apply rest_ok]).
      destruct (run_acts u _ _ F2 (Forall_impl _ (fun f P => proj1 P) OK) w t o S) as [A B]. split.
      + intros x X. destruct (A x X) as (pre & suf & E & ->). exists (comp pre). split; auto. apply comp_ok. rewrite E in OK. now apply Forall_app in OK.
      + intros x X. rewrite (B x X), !change_eq. f_equal. apply mapn_ext. intros a. now rewrite after_comp.
  Qed.
  Definition new_groups (u : str) (w : world) : list group :=
    match cf_uflag cf u (s_ "gid") with [] => [mkGroup u (a_gid (upd u (fresh w u (made_flags cf u)))) (mem_str (s_ "--system") (made_flags cf u))] | _ => [] end.
  (** Step for a new account *)
  Lemma step_new u w t o : name_ok u -> world_ok w -> has_account w u = false -> user_step u w = (t, o) ->
    (forall x, In x t -> x = w \/ ((cf_uflag cf u (s_ "gid") = [] -> has_group w u = false) /\
       exists G, fun_ok u G /\ x = mkWorld (w_groups w ++ new_groups u w) (w_accounts w ++ [G (fresh w u (made_flags cf u))]))) /\
    (forall x, o = Some x -> x = mkWorld (w_groups w ++ new_groups u w) (w_accounts w ++ [after u (fresh w u (made_flags cf u))])).
  Proof.
    intros N W H S. unfold Accounts_Model.user_step in S. rewrite exists_account, H in S by (auto; apply N). rewrite commands_eq in S.
    cbn [app Accounts_Model.run_commands] in S. destruct (tool _ w) as [y|] eqn:T.
    2:{ injection S as <- <-. split; [|discriminate]. intros x [<-|[]]. auto. }
    destruct (run_commands (rest_commands u) y) as [t' o'] eqn:R. injection S as <- <-.
    rewrite tool_useradd, add_parse in T by exact N. destruct (refuses _ w); [discriminate|]. rewrite H in T. rewrite opts_fold, opts_gid in T by now right.
    assert (Y : (cf_uflag cf u (s_ "gid") = [] -> has_group w u = false) /\ y = mkWorld (w_groups w ++ new_groups u w) (w_accounts w ++ [upd u (fresh w u (made_flags cf u))])).
    { unfold new_groups. destruct (cf_uflag cf u (s_ "gid")).
      - destruct (has_group w u); [discriminate|]. injection T as <-. auto.
      - injection T as <-. split; [discriminate|]. now rewrite app_nil_r. }
    destruct Y as [Y1 ->].
    destruct (run_acts u _ _ (rest_acts u N) (Forall_impl _ (fun f P => proj1 P) (rest_ok u)) _ _ _ R) as [A B].
    assert (C : forall G, change_accounts u G (mkWorld (w_groups w ++ new_groups u w) (w_accounts w ++ [upd u (fresh w u (made_flags cf u))])) =
      mkWorld (w_groups w ++ new_groups u w) (w_accounts w ++ [G (upd u (fresh w u (made_flags cf u)))])).
    { intros G. rewrite change_eq. cbn [w_groups w_accounts]. f_equal. unfold mapn. rewrite map_app. f_equal.
      - change (mapn a_name u G (w_accounts w) = w_accounts w). apply mapn_absent. intros a I E. assert (X : has_account w u = true) by (apply has_account_In; eauto). congruence.
      - cbn [map]. replace (a_name (upd u (fresh w u (made_flags cf u)))) with u by (unfold Accounts_Model.fresh; now destruct (new_account w u (made_flags cf u))). now rewrite seqb_refl. }
    split.
    - intros x [<-|X]; auto. right. split; auto. destruct (A x X) as (pre & suf & E & ->). exists (fun a => comp pre (upd u a)). split; [|apply C].
      assert (P : fun_ok u (comp pre)) by (apply comp_ok; pose proof (rest_ok u) as RO; rewrite E in RO; now apply Forall_app in RO). destruct P as [P1 P2], (upd_ok u) as [U1 U2].
      split; intros a; [now rewrite P1, U1|now rewrite P2, U2].
    - intros x X. rewrite (B x X), C. now rewrite after_comp.
  Qed.
  (** Step for a group *)
  Lemma step_group g w t o : name_ok g -> world_ok w -> group_step g w = (t, o) ->
    (forall x, In x t -> x = w \/ o = Some x) /\
    (forall x, o = Some x -> if has_group w g then x = change_groups g (gupd cf g) w
       else x = mkWorld (w_groups w ++ [gupd cf g (mkGroup g (new_gid w g (mem_str (s_ "system") (split_ws (cf_gflag cf g (s_ "flags"))))) (mem_str (s_ "system") (split_ws (cf_gflag cf g (s_ "flags")))))]) (w_accounts w)).
  Proof.
    intros N W S. unfold Accounts_Model.group_step in S. rewrite exists_group in S by (auto; apply N). unfold group_commands in S.
    set (gid := cf_gflag cf g (s_ "gid")) in *. set (sys := mem_str (s_ "system") (split_ws (cf_gflag cf g (s_ "flags")))) in *.
    assert (GP : forall v, parse_args (opt_args (s_ "--gid") v ++ [g]) = (match v with [] => [] | _ => [(s_ "--gid", v)] end, [], Some g)).
    { intros v. rewrite parse_opt by reflexivity. rewrite parse_name by exact N. reflexivity. }
    destruct (has_group w g) eqn:H.
    - destruct (opt_args (s_ "--gid") gid) as [|x0 xs] eqn:O.
      + cbn in S. injection S as <- <-. split; [intros x [<-|[]]; auto|]. intros x X. injection X as <-. assert (G : gid = []) by (destruct gid; [auto|discriminate]).
        unfold change_groups. destruct w as [gs as_]. f_equal. cbn [w_groups]. symmetry. apply (mapn_id g_name). intros [n i s]. unfold gupd. fold gid. now rewrite G.
      + rewrite <- O in S. cbn [Accounts_Model.run_commands] in S. rewrite tool_groupmod, GP in S. destruct (refuses _ w); [injection S as <- <-; split; [intros x [<-|[]]; auto|discriminate]|].
        rewrite H in S. injection S as <- <-. split; [intros x [<-|[<-|[]]]; auto|]. intros x X. injection X as <-. unfold change_groups. f_equal. apply (mapn_ext g_name). intros [n i s]. unfold gupd. fold gid.
        destruct gid; [discriminate|reflexivity].
    - cbn [Accounts_Model.run_commands] in S. rewrite tool_groupadd in S. rewrite parse_opt in S by reflexivity. rewrite parse_flag in S by reflexivity. rewrite parse_name in S by exact N.
      destruct (refuses _ w); [injection S as <- <-; split; [intros x [<-|[]]; auto|discriminate]|]. rewrite H in S. injection S as <- <-. split; [intros x [<-|[<-|[]]]; auto|].
      intros x X. injection X as <-. f_equal. f_equal. f_equal. unfold gupd. fold gid. cbn [g_name g_gid g_system]. rewrite app_nil_r.
      destruct gid, sys; reflexivity.
  Qed.

  (** ** All steps *)
  Inductive key := KG (g : str) | KU (u : str).
  Definition key_dec (a b : key) : {a = b} + {a <> b}.
  Proof. decide equality; apply str_eq_dec. Defined.
  Definition step (k : key) : world -> list world * option world := match k with KG g => group_step g | KU u => user_step u end.
  Definition okk (k : key) : Prop := match k with KG g => name_ok g | KU u => name_ok u end.
  Definition done (k : key) (w : world) : Prop :=
    match k with
    | KG g => has_group w g = true /\ mapn g_name g (gupd cf g) (w_groups w) = w_groups w
    | KU u => has_account w u = true /\ mapn a_name u (after u) (w_accounts w) = w_accounts w
    end.
  Lemma commands_in cs : forall w t o, run_commands cs w = (t, o) -> In w t.
  Proof.
    destruct cs as [|c cs]; intros w t o R; cbn in R; [injection R as <- <-; now left|]. destruct (tool c w); [destruct (run_commands cs w0)|]; injection R as <- <-; now left.
  Qed.
  Lemma commands_last cs : forall w t x, run_commands cs w = (t, Some x) -> In x t.
  Proof.
    induction cs as [|c cs IH]; intros w t x R; cbn in R; [injection R as <- <-; now left|]. destruct (tool c w) as [y|]; [|discriminate].
    destruct (run_commands cs y) as [t' o'] eqn:R'. injection R as <- ->. right. eauto.
  Qed.
  Lemma step_in k w t o : step k w = (t, o) -> In w t.
  Proof. destruct k; apply commands_in. Qed.
  Lemma step_last k w t x : step k w = (t, Some x) -> In x t.
  Proof. destruct k; apply commands_last. Qed.
  Lemma gupd_name n g : g_name (gupd cf n g) = g_name g.
  Proof. reflexivity. Qed.
  Lemma gupd_gupd n g : gupd cf n (gupd cf n g) = gupd cf n g.
  Proof. unfold gupd. cbn. now rewrite pick_pick. Qed.
  Lemma fresh_name w u f : a_name (fresh w u f) = u.
  Proof. unfold Accounts_Model.fresh. now destruct (new_account w u f). Qed.
  Lemma new_groups_name u w g : In g (new_groups u w) -> g_name g = u.
  Proof. unfold new_groups. destruct (cf_uflag cf u (s_ "gid")); [|intros []]. intros [<-|[]]. reflexivity. Qed.
  (** What a user step can leave *)
  Lemma step_user u w t o x : name_ok u -> world_ok w -> user_step u w = (t, o) -> In x t ->
    (exists G, fun_ok u G /\ x = change_accounts u G w) \/
    (has_account w u = false /\ (cf_uflag cf u (s_ "gid") = [] -> has_group w u = false) /\
     exists G, fun_ok u G /\ x = mkWorld (w_groups w ++ new_groups u w) (w_accounts w ++ [G (fresh w u (made_flags cf u))])).
  Proof.
    intros N W S X. destruct (has_account w u) eqn:H.
    - left. exact (proj1 (step_old u w t o N W H S) x X).
    - destruct (proj1 (step_new u w t o N W H S) x X) as [->|[A B]]; [|right; auto].
      left. exists (fun a => a). split; [split; reflexivity|]. rewrite change_eq, mapn_id by reflexivity. now destruct w.
  Qed.
  Lemma world_ok_names w w' : map g_name (w_groups w') = map g_name (w_groups w) -> map a_name (w_accounts w') = map a_name (w_accounts w) -> world_ok w -> world_ok w'.
  Proof.
    intros G A [W1 W2]. split.
    - intros g I C. assert (X : In (g_name g) (map g_name (w_groups w))) by (rewrite <- G; now apply in_map). apply in_map_iff in X. destruct X as (g' & E & X). apply (W1 g' X). now rewrite E.
    - intros g I C. assert (X : In (a_name g) (map a_name (w_accounts w))) by (rewrite <- A; now apply in_map). apply in_map_iff in X. destruct X as (g' & E & X). apply (W2 g' X). now rewrite E.
  Qed.
  Lemma step_inv k w t o x : okk k -> world_ok w -> step k w = (t, o) -> In x t -> world_ok x.
  Proof.
    destruct k as [g|u]; cbn [okk step]; intros N W S X.
    - destruct (step_group g w t o N W S) as [A B]. destruct (A x X) as [->|E]; auto. specialize (B x E). destruct (has_group w g).
      + subst x. apply (world_ok_names w); auto. cbn. apply (mapn_names g_name). reflexivity.
      + subst x. destruct W as [W1 W2]. split; auto. intros y I. apply in_app_or in I. destruct I as [I|[<-|[]]]; auto. apply N.
    - destruct (step_user u w t o x N W S X) as [(G & [G1 _] & ->)|(H & _ & G & [G1 _] & ->)].
      + apply (world_ok_names w); auto. cbn. now apply (mapn_names a_name).
      + destruct W as [W1 W2]. split; cbn.
        * intros y I. apply in_app_or in I. destruct I as [I|I]; auto. rewrite (new_groups_name u w y I). apply N.
        * intros y I. apply in_app_or in I. destruct I as [I|[<-|[]]]; auto. rewrite G1, fresh_name. apply N.
  Qed.
  (** The result of a step *)
  Lemma user_final u w t x : name_ok u -> world_ok w -> user_step u w = (t, Some x) ->
    x = if has_account w u then change_accounts u (after u) w
        else mkWorld (w_groups w ++ new_groups u w) (w_accounts w ++ [after u (fresh w u (made_flags cf u))]).
  Proof.
    intros N W S. destruct (has_account w u) eqn:H; [exact (proj2 (step_old u w t _ N W H S) x eq_refl)|exact (proj2 (step_new u w t _ N W H S) x eq_refl)].
  Qed.
  Lemma has_change u G w n : fun_ok u G -> has_account (change_accounts u G w) n = has_account w n.
  Proof. intros [N _]. apply has_account_names. cbn. now apply (mapn_names a_name). Qed.
  Lemma has_add gs l a n : has_account (mkWorld gs (l ++ [a])) n = has_account (mkWorld gs l) n || seqb (a_name a) n.
  Proof. unfold has_account. cbn. rewrite existsb_app. cbn. now rewrite orb_false_r. Qed.
  Lemma step_A k w t wf w' t' x : okk k -> world_ok w -> step k w = (t, Some wf) -> In w' t -> step k w' = (t', Some x) -> x = wf.
  Proof.
    intros N W S J S'. pose proof (step_inv k w t _ w' N W S J) as W'. destruct k as [g|u]; cbn [okk step] in *.
    - destruct (step_group g w t _ N W S) as [A B]. destruct (A w' J) as [->|E]; [congruence|]. injection E as <-. specialize (B wf eq_refl).
      destruct (step_group g wf t' _ N W' S') as [_ B']. specialize (B' x eq_refl).
      assert (H : has_group wf g = true).
      { destruct (has_group w g) eqn:H; subst wf.
        - rewrite <- H. apply has_group_names. cbn. apply (mapn_names g_name). reflexivity.
        - apply has_group_In. cbn. eexists. split; [apply in_or_app; right; now left|reflexivity]. }
      rewrite H in B'. subst x. destruct (has_group w g) eqn:H0; subst wf; unfold change_groups; cbn [w_groups w_accounts]; f_equal.
      + change (mapn g_name g (gupd cf g) (mapn g_name g (gupd cf g) (w_groups w)) = mapn g_name g (gupd cf g) (w_groups w)). rewrite mapn_mapn by reflexivity. apply mapn_ext. intros a. apply gupd_gupd.
      + rewrite map_app. f_equal.
        * change (mapn g_name g (gupd cf g) (w_groups w) = w_groups w). apply mapn_absent. intros a I E. assert (X : has_group w g = true) by (apply has_group_In; eauto). congruence.
        * cbn [map g_name gupd]. rewrite seqb_refl. f_equal. apply gupd_gupd.
    - pose proof (user_final u w t wf N W S) as E. pose proof (user_final u w' t' x N W' S') as F.
      destruct (step_user u w t (Some wf) w' N W S J) as [(G & OK & ->)|(H & HG & G & OK & ->)].
      + rewrite (has_change u G w u OK) in F. destruct (has_account w u) eqn:H.
        * subst x wf. rewrite !change_eq. cbn [w_groups w_accounts]. f_equal. destruct OK as [O1 O2]. rewrite mapn_mapn by exact O1. now apply mapn_ext.
        * assert (I : change_accounts u G w = w).
          { rewrite change_eq. rewrite mapn_absent; [now destruct w|]. intros a I X. assert (Y : has_account w u = true) by (apply has_account_In; eauto). congruence. }
          rewrite I in F. congruence.
      + rewrite H in E. destruct OK as [O1 O2]. rewrite has_add in F. rewrite O1, fresh_name, seqb_refl, orb_true_r in F. subst x wf. rewrite change_eq. cbn [w_groups w_accounts]. f_equal.
        unfold mapn. rewrite map_app. f_equal.
        * change (mapn a_name u (after u) (w_accounts w) = w_accounts w). apply mapn_absent. intros a I X. assert (Y : has_account w u = true) by (apply has_account_In; eauto). congruence.
        * cbn [map]. rewrite O1, fresh_name, seqb_refl. now rewrite O2.
  Qed.
  Lemma step_D1 k w t wf : okk k -> world_ok w -> step k w = (t, Some wf) -> done k wf.
  Proof.
    intros N W S. destruct k as [g|u]; cbn [okk step done] in *.
    - destruct (step_group g w t _ N W S) as [_ B]. specialize (B wf eq_refl). destruct (has_group w g) eqn:H; subst wf; cbn [w_groups change_groups].
      + split.
        * rewrite <- H. apply has_group_names. cbn. apply (mapn_names g_name). reflexivity.
        * change (mapn g_name g (gupd cf g) (mapn g_name g (gupd cf g) (w_groups w)) = mapn g_name g (gupd cf g) (w_groups w)). rewrite mapn_mapn by reflexivity. apply mapn_ext. intros a. apply gupd_gupd.
      + split.
        * apply has_group_In. cbn. eexists. split; [apply in_or_app; right; now left|reflexivity].
        * unfold mapn. rewrite map_app. f_equal.
          -- change (mapn g_name g (gupd cf g) (w_groups w) = w_groups w). apply mapn_absent. intros a I E. assert (X : has_group w g = true) by (apply has_group_In; eauto). congruence.
          -- cbn [map g_name gupd]. rewrite seqb_refl. f_equal. apply gupd_gupd.
    - pose proof (user_final u w t wf N W S) as E. destruct (after_ok u) as [A1 A2]. destruct (has_account w u) eqn:H; subst wf.
      + split; [rewrite (has_change u (after u) w u (after_ok u)); exact H|]. cbn [w_accounts change_accounts].
        change (mapn a_name u (after u) (mapn a_name u (after u) (w_accounts w)) = mapn a_name u (after u) (w_accounts w)). rewrite mapn_mapn by exact A1. now apply mapn_ext.
      + split; [rewrite has_add, A1, fresh_name, seqb_refl; apply orb_true_r|]. cbn [w_accounts]. unfold mapn. rewrite map_app. f_equal.
        * change (mapn a_name u (after u) (w_accounts w) = w_accounts w). apply mapn_absent. intros a I X. assert (Y : has_account w u = true) by (apply has_account_In; eauto). congruence.
        * cbn [map]. rewrite A1, fresh_name, seqb_refl. now rewrite A2.
  Qed.
  Lemma step_D2 k w t x : okk k -> world_ok w -> done k w -> step k w = (t, Some x) -> x = w.
  Proof.
    intros N W D S. destruct k as [g|u]; cbn [okk step done] in *; destruct D as [H D].
    - destruct (step_group g w t _ N W S) as [_ B]. specialize (B x eq_refl). rewrite H in B. subst x. unfold change_groups. fold (mapn g_name g (gupd cf g) (w_groups w)). rewrite D. now destruct w.
    - pose proof (user_final u w t x N W S) as E. rewrite H in E. subst x. rewrite change_eq, D. now destruct w.
  Qed.
  Lemma step_B j k w t o w' : okk k -> world_ok w -> done j w -> j <> k -> step k w = (t, o) -> In w' t -> done j w'.
  Proof.
    intros N W D NE S J. destruct k as [g|u]; cbn [okk step] in *.
    - destruct (step_group g w t _ N W S) as [A B]. destruct (A w' J) as [->|E]; auto. specialize (B w' E). destruct j as [h|v]; cbn [done] in *; destruct D as [H D].
      + assert (NH : h <> g) by congruence. destruct (has_group w g) eqn:HG; subst w'; cbn [w_groups change_groups].
        * split; [rewrite <- H; apply has_group_names; cbn; apply (mapn_names g_name); reflexivity|].
          change (mapn g_name h (gupd cf h) (mapn g_name g (gupd cf g) (w_groups w)) = mapn g_name g (gupd cf g) (w_groups w)). rewrite mapn_comm by (auto; reflexivity). now rewrite D.
        * split.
          -- apply has_group_In in H. destruct H as (y & I & E'). apply has_group_In. exists y. split; auto. cbn. apply in_or_app. now left.
          -- unfold mapn. rewrite map_app. f_equal; [exact D|]. cbn [map g_name gupd]. assert (X : seqb g h = false) by (apply seqb_neq; congruence). now rewrite X.
      + assert (WA : w_accounts w' = w_accounts w) by (destruct (has_group w g); subst w'; reflexivity). unfold has_account. rewrite WA. auto.
    - destruct (step_user u w t o w' N W S J) as [(G & OK & ->)|(HN & HG & G & OK & ->)]; destruct j as [h|v]; cbn [done] in *; destruct D as [H D].
      + auto.
      + assert (NV : v <> u) by congruence. split; [rewrite (has_change u G w v OK); exact H|]. cbn [w_accounts change_accounts].
        change (mapn a_name v (after v) (mapn a_name u G (w_accounts w)) = mapn a_name u G (w_accounts w)). destruct OK as [O1 _]. rewrite mapn_comm; auto; [now rewrite D|apply (proj1 (after_ok v))].
      + split.
        * apply has_group_In in H. destruct H as (y & I & E'). apply has_group_In. exists y. split; auto. cbn. apply in_or_app. now left.
        * cbn [w_groups]. unfold mapn. rewrite map_app. f_equal; [exact D|]. apply (mapn_absent g_name). intros y I E. pose proof (new_groups_name u w y I) as E2. assert (X : h = u) by congruence.
          unfold new_groups in I. destruct (cf_uflag cf u (s_ "gid")) in I, HG; [specialize (HG eq_refl); congruence|destruct I].
      + assert (NV : v <> u) by congruence. destruct OK as [O1 _]. split; [rewrite has_add; change (has_account (mkWorld _ (w_accounts w)) v) with (has_account w v); rewrite H; reflexivity|].
        cbn [w_accounts]. unfold mapn. rewrite map_app. f_equal; [exact D|]. cbn [map]. rewrite O1, fresh_name. assert (X : seqb u v = false) by (apply seqb_neq; congruence). now rewrite X.
  Qed.
  Notation post := (postprocess_accounts new_gid new_account refuses sha256 openssl cf).
  Definition keys : list key := map KG (split_ws (cf_groups cf)) ++ map KU (split_ws (cf_users cf)).
  Lemma post_eq w : post w = run_steps (map step keys) w.
  Proof. unfold postprocess_accounts, keys. rewrite map_app, !map_map. reflexivity. Qed.
  Lemma keys_ok : config_ok cf -> Forall okk keys.
  Proof.
    intros C. apply Forall_forall. intros k I. apply in_app_or in I. destruct I as [I|I]; apply in_map_iff in I; destruct I as (n & <- & I); cbn; apply C; auto.
  Qed.
  Lemma post_again w t wf w' t' wf' : config_ok cf -> world_ok w -> post w = (t, Some wf) -> In w' t -> post w' = (t', Some wf') -> wf' = wf.
  Proof.
    rewrite !post_eq. intros C W R J R'.
    exact (run_again key key_dec step world_ok okk done step_last step_inv step_A step_D1 step_D2 step_B keys w t wf w' t' wf' (keys_ok C) W R J R').
  Qed.
  (** ** The result *)
  Definition proc (us : list str) (a : account) : account := if mem_str (a_name a) us then after (a_name a) a else a.
  Lemma proc_name us a : a_name (proc us a) = a_name a.
  Proof. unfold proc. destruct (mem_str (a_name a) us); auto. apply after_name. Qed.
  Lemma users_run us : Forall name_ok us -> forall w t wf, world_ok w -> run_steps (map step (map KU us)) w = (t, Some wf) ->
    exists news, w_accounts wf = map (proc us) (w_accounts w) ++ news /\ NoDup (map a_name news) /\
      (forall n, In n (map a_name news) <-> In n us /\ ~ In n (map a_name (w_accounts w))) /\
      (forall b, In b news -> exists w' , b = after (a_name b) (fresh w' (a_name b) (made_flags cf (a_name b)))).
  Proof.
    induction 1 as [|u us N F IH]; intros w t wf W R.
    - cbn in R. injection R as <- <-. exists []. rewrite app_nil_r. split; [symmetry; apply map_id|]. split; [constructor|]. split; [|intros b []]. cbn. tauto.
    - cbn [map run_steps] in R. destruct (step (KU u) w) as [t1 [w1|]] eqn:S; [|discriminate]. destruct (run_steps (map step (map KU us)) w1) as [t2 o2] eqn:R2. injection R as <- ->.
      assert (W1 : world_ok w1) by (eapply (step_inv (KU u)); [exact N|exact W|exact S|eapply step_last; exact S]).
      destruct (IH w1 t2 wf W1 R2) as (news & E & ND & IN & CR). pose proof (user_final u w t1 w1 N W S) as U. destruct (has_account w u) eqn:H.
      + exists news. split; [|split; [exact ND|split; [|exact CR]]].
        * rewrite E. f_equal. subst w1. cbn [w_accounts change_accounts]. rewrite map_map. apply map_ext. intros a. unfold proc. cbn [mem_str existsb].
          change (existsb (seqb (a_name a)) us) with (mem_str (a_name a) us). destruct (seqb (a_name a) u) eqn:EU; cbn [orb].
          -- apply seqb_eq in EU. rewrite after_name. subst u. destruct (mem_str (a_name a) us); auto. apply after_after.
          -- reflexivity.
        * intros n. rewrite IN. assert (NM : map a_name (w_accounts w1) = map a_name (w_accounts w)) by (subst w1; cbn; apply (mapn_names a_name); apply after_name). rewrite NM. cbn [In].
          split; [intros [A B]; auto|]. intros [[->|A] B]; auto. exfalso. apply B. apply has_account_In in H. destruct H as (a & I & X). rewrite <- X. now apply in_map.
      + set (c := after u (fresh w u (made_flags cf u))) in *. assert (CN : a_name c = u) by (unfold c; now rewrite after_name, fresh_name).
        assert (AB : ~ In u (map a_name (w_accounts w))). { intros X. apply in_map_iff in X. destruct X as (a & X & I). assert (Y : has_account w u = true) by (apply has_account_In; eauto). congruence. }
        exists (c :: news). split; [|split; [|split]].
        * rewrite E. subst w1. cbn [w_accounts]. rewrite map_app. cbn [map]. rewrite <- app_assoc. cbn [app]. f_equal.
          -- apply map_ext_in. intros a I. unfold proc. cbn [mem_str existsb]. change (existsb (seqb (a_name a)) us) with (mem_str (a_name a) us).
             assert (X : seqb (a_name a) u = false) by (apply seqb_neq; intros X; apply AB; rewrite <- X; now apply in_map). now rewrite X.
          -- f_equal. unfold proc. rewrite CN. destruct (mem_str u us); auto. unfold c. apply after_after.
        * cbn [map]. constructor; auto. rewrite CN. intros X. apply IN in X. destruct X as [_ X]. apply X. subst w1. cbn. rewrite map_app. apply in_or_app. right. left. exact CN.
        * intros n. cbn [map In]. rewrite CN, IN. subst w1. cbn [w_accounts]. rewrite map_app. cbn [map]. rewrite CN. rewrite in_app_iff. cbn [In]. split.
          -- intros [<-|[A B]]; [auto|]. split; auto.
          -- intros [A B]. destruct (str_eq_dec u n) as [E'|NE]; auto. right. destruct A as [A|A]; [congruence|]. split; auto. tauto.
        * intros b [<-|I]; auto. exists w. now rewrite CN.
  Qed.
  Lemma groups_accounts gs : Forall name_ok gs -> forall w t wf, world_ok w -> run_steps (map step (map KG gs)) w = (t, Some wf) -> world_ok wf /\ w_accounts wf = w_accounts w.
  Proof.
    induction 1 as [|g gs N F IH]; intros w t wf W R.
    - cbn in R. injection R as <- <-. auto.
    - cbn [map run_steps] in R. destruct (step (KG g) w) as [t1 [w1|]] eqn:S; [|discriminate]. destruct (run_steps (map step (map KG gs)) w1) as [t2 o2] eqn:R2. injection R as <- ->.
      assert (W1 : world_ok w1) by (eapply (step_inv (KG g)); [exact N|exact W|exact S|eapply step_last; exact S]).
      destruct (IH w1 t2 wf W1 R2) as [A B]. split; auto. rewrite B. destruct (step_group g w t1 _ N W S) as [_ C]. specialize (C w1 eq_refl). destruct (has_group w g); subst w1; reflexivity.
  Qed.
  (** Groups nobody mentions are left alone *)
  Lemma group_kept k w t wf h : okk k -> world_ok w -> step k w = (t, Some wf) -> In h (w_groups w) -> k <> KG (g_name h) -> In h (w_groups wf).
  Proof.
    intros N W S I NE. destruct k as [g|u]; cbn [okk step] in *.
    - destruct (step_group g w t _ N W S) as [_ C]. specialize (C wf eq_refl). destruct (has_group w g); subst wf; cbn.
      + apply in_map_iff. exists h. split; auto. assert (X : seqb (g_name h) g = false) by (apply seqb_neq; intros X; apply NE; now rewrite X). now rewrite X.
      + apply in_or_app. now left.
    - rewrite (user_final u w t wf N W S). destruct (has_account w u); cbn; auto. apply in_or_app. now left.
  Qed.
  Lemma groups_kept ks : Forall okk ks -> forall w t wf h, world_ok w -> run_steps (map step ks) w = (t, Some wf) -> In h (w_groups w) -> ~ In (KG (g_name h)) ks -> In h (w_groups wf).
  Proof.
    induction 1 as [|k ks N F IH]; intros w t wf h W R I NI.
    - cbn in R. injection R as <- <-. exact I.
    - cbn [map run_steps] in R. destruct (step k w) as [t1 [w1|]] eqn:S; [|discriminate]. destruct (run_steps (map step ks) w1) as [t2 o2] eqn:R2. injection R as <- ->.
      eapply IH; [|exact R2| |intros X; apply NI; now right].
      + eapply step_inv; [exact N|exact W|exact S|eapply step_last; exact S].
      + eapply group_kept; eauto. intros X. apply NI. now left.
  Qed.
  Lemma post_done w t wf k : config_ok cf -> world_ok w -> post w = (t, Some wf) -> In k keys -> done k wf.
  Proof.
    rewrite post_eq. intros C W R I. exact (all_done key key_dec step world_ok okk done step_last step_inv step_D1 step_B keys (keys_ok C) w t wf W R k I).
  Qed.
  Lemma post_inv w t o x : config_ok cf -> world_ok w -> post w = (t, o) -> In x t -> world_ok x.
  Proof. rewrite post_eq. intros C W R I. exact (run_inv key step world_ok okk step_last step_inv keys (keys_ok C) w t o x W R I). Qed.
  Lemma post_parts w t wf : config_ok cf -> world_ok w -> post w = (t, Some wf) -> exists wg t2, world_ok wg /\ w_accounts wg = w_accounts w /\
    run_steps (map step (map KU (split_ws (cf_users cf)))) wg = (t2, Some wf).
  Proof.
    rewrite post_eq. intros C W R. unfold keys in R. destruct (run_app_some key step _ _ _ _ _ R) as (t1 & wg & t2 & A & B).
    assert (F : Forall name_ok (split_ws (cf_groups cf))) by (apply Forall_forall; intros n I; apply C; auto).
    destruct (groups_accounts _ F w t1 wg W A) as [X Y]. exists wg, t2. auto.
  Qed.
End Run.
