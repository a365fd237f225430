From Coq Require Import Ascii String List Bool Arith Lia.
From Verif Require Import Str_Model Str_Proofs Posix_Model Posix_Proofs Rootclean_Model Rootclean_Spec.
Import ListNotations.
Open Scope list_scope.

(** ** Places *)
Lemma go_norm n acc c : n <> 0 -> ~ In dotdot acc -> go (rev acc) c = rev (norm_step n acc c).
Proof.
  intros N D. unfold go, norm_step. change (s_ ".") with dot. change (s_ "..") with dotdot.
  destruct (seqb c []); cbn [orb]; auto. destruct (seqb c dot); cbn [orb]; auto. destruct (seqb c dotdot) eqn:E; cbn [negb orb].
  - apply Nat.eqb_neq in N. rewrite N. cbn [andb orb]. destruct acc as [|x acc]; auto. destruct (seqb x dotdot) eqn:X; [apply seqb_eq in X; exfalso; apply D; left; auto|]. cbn [rev]. now rewrite removelast_last.
  - reflexivity.
Qed.
Lemma step_no_dotdot n acc c : n <> 0 -> ~ In dotdot acc -> ~ In dotdot (norm_step n acc c).
Proof.
  intros N D. unfold norm_step. destruct (_ || _); auto. destruct (seqb c dotdot) eqn:E; cbn [negb orb].
  - apply Nat.eqb_neq in N. rewrite N. cbn [andb orb]. destruct acc as [|x acc]; auto. destruct (seqb x dotdot) eqn:X; [apply seqb_eq in X; exfalso; apply D; left; auto|]. intros I. apply D. now right.
  - apply seqb_neq in E. intros [I|I]; auto.
Qed.
Lemma place_norm p : isabs p = true -> place p = norm_comps p.
Proof.
  intros A. unfold place, norm_comps. rewrite initial_slashes_abs in A. apply negb_true_iff, Nat.eqb_neq in A. set (n := initial_slashes p) in *.
  assert (G : forall l acc, ~ In dotdot acc -> fold_left go l (rev acc) = rev (fold_left (norm_step n) l acc)).
  { induction l as [|c l IH]; intros acc D; cbn [fold_left]; auto. rewrite (go_norm n acc c A D). apply IH. now apply step_no_dotdot. }
  apply (G (split_on slash p) []). intros [].
Qed.
Definition names (cs : list str) : Prop := Forall comp cs /\ ~ In dot cs /\ ~ In dotdot cs.
Lemma place_names p : isabs p = true -> names (place p).
Proof.
  intros A. rewrite place_norm by auto. destruct (norm_comps_ok p) as (B & C & D). rewrite initial_slashes_abs in A. apply negb_true_iff, Nat.eqb_neq in A. split; auto.
Qed.
Lemma go_names cs : names cs -> forall at_, fold_left go cs at_ = at_ ++ cs.
Proof.
  intros (A & B & C). induction cs as [|c cs IH]; intros at_; cbn [fold_left]; [now rewrite app_nil_r|]. inversion A as [|? ? [C1 C2] A']; subst.
  rewrite IH; auto; [|intros X; apply B; now right|intros X; apply C; now right].
  unfold go. change (s_ ".") with dot. change (s_ "..") with dotdot. destruct (seqb c []) eqn:E; [apply seqb_eq in E; congruence|]. destruct (seqb c dot) eqn:E2; [apply seqb_eq in E2; exfalso; apply B; left; auto|].
  destruct (seqb c dotdot) eqn:E3; [apply seqb_eq in E3; exfalso; apply C; left; auto|]. now rewrite <- app_assoc.
Qed.
Lemma place_app a b : place (a ++ slash :: b) = fold_left go (split_on slash b) (place a).
Proof. unfold place. change "/"%char with slash. rewrite split_on_app. apply fold_left_app. Qed.
Lemma names_nochar cs : names cs -> Forall (no_char slash) cs.
Proof. intros (A & _ & _). eapply Forall_impl; [|exact A]. intros c [_ X]. exact X. Qed.
Lemma place_abs cs : names cs -> place (slash :: join [slash] cs) = cs.
Proof.
  intros N. change (slash :: join [slash] cs) with ([] ++ slash :: join [slash] cs). rewrite place_app. destruct cs as [|c cs]; [reflexivity|].
  rewrite split_on_join; [|discriminate|now apply names_nochar]. rewrite go_names by auto. reflexivity.
Qed.
Lemma normpath_rooted p : rooted p -> normpath p = slash :: join [slash] (place p).
Proof.
  intros [A N2]. unfold normpath. rewrite place_norm by auto. pose proof (initial_slashes_le p). rewrite initial_slashes_abs in A. apply negb_true_iff, Nat.eqb_neq in A.
  replace (initial_slashes p) with 1 by lia. reflexivity.
Qed.
Lemma place_normpath p : rooted p -> place (normpath p) = place p.
Proof. intros R. rewrite normpath_rooted by auto. apply place_abs. apply place_names. apply R. Qed.
Lemma join_app (a b : list str) : a <> [] -> b <> [] -> join [slash] (a ++ b) = join [slash] a ++ slash :: join [slash] b.
Proof.
  intros NA NB. induction a as [|x a IH]; [congruence|]. destruct a as [|y a].
  - cbn [app]. rewrite join_cons by auto. reflexivity.
  - cbn [app] in *. rewrite !(join_cons _ x) by discriminate. rewrite IH by discriminate. now rewrite <- !app_assoc.
Qed.

(** ** Splitting *)
Lemma ifs_space c : ifs c = true -> is_space c = true.
Proof. unfold ifs. rewrite !orb_true_iff, !aeqb_eq. intros [[->| ->]| ->]; reflexivity. Qed.
Lemma shell_word_end w : forall cur, Forall (fun c => ifs c = false) w -> shell_words_aux cur w = match rev cur ++ w with [] => [] | x => [x] end.
Proof.
  induction w as [|c w IH]; intros cur F; cbn [shell_words_aux].
  - rewrite app_nil_r. destruct cur as [|x cur]; auto. cbn [rev]. destruct (rev cur ++ [x]) eqn:E; auto. now destruct (rev cur).
  - inversion F; subst. rewrite H1, IH by auto. cbn [rev]. now rewrite <- app_assoc.
Qed.
Lemma shell_word_blank w : forall cur rest, Forall (fun c => ifs c = false) w -> shell_words_aux cur (w ++ " "%char :: rest) = (match rev cur ++ w with [] => [] | x => [x] end) ++ shell_words rest.
Proof.
  induction w as [|c w IH]; intros cur rest F; cbn [shell_words_aux app].
  - cbn [ifs]. change (ifs " "%char) with true. cbv iota. rewrite app_nil_r. destruct cur as [|x cur]; auto. cbn [rev]. destruct (rev cur ++ [x]) eqn:E; auto. now destruct (rev cur).
  - inversion F; subst. rewrite H1, IH by auto. cbn [rev]. now rewrite <- app_assoc.
Qed.
Lemma shell_words_dirlist dirs : Forall (Forall (fun c => ifs c = false)) dirs -> shell_words (dirlist dirs) = filter (fun d => match d with [] => false | _ => true end) dirs.
Proof.
  unfold dirlist. induction 1 as [|d dirs F FF IH]; [reflexivity|]. destruct dirs as [|e dirs].
  - cbn [join filter]. unfold shell_words. rewrite shell_word_end by auto. cbn [rev app]. destruct d; reflexivity.
  - rewrite join_cons by discriminate. change (s_ " " ++ join (s_ " ") (e :: dirs)) with (" "%char :: join (s_ " ") (e :: dirs)). unfold shell_words. rewrite shell_word_blank by auto. cbn [rev app]. rewrite IH.
    cbn [filter]. destruct d; reflexivity.
Qed.

(** ** One entry *)
Definition cut (t e : str) : str := skipn (length (normpath t)) (normpath e).
Lemma cut_inside t e rest : rooted t -> rooted e -> place t <> [] -> place e = place t ++ rest ->
  startswith (normpath t) (normpath e) = true /\ cut t e = match rest with [] => [] | _ => slash :: join [slash] rest end /\ place (t ++ cut t e) = place e.
Proof.
  intros RT RE NT E. pose proof (place_names e (proj1 RE)) as NE. assert (NR : names rest).
  { rewrite E in NE. destruct NE as (A & B & C). apply Forall_app in A. split; [apply A|]. split; intros X; [apply B|apply C]; apply in_or_app; now right. }
  assert (X : normpath e = normpath t ++ match rest with [] => [] | _ => slash :: join [slash] rest end).
  { rewrite !normpath_rooted, E by auto. destruct rest as [|r rest]; [now rewrite !app_nil_r|]. rewrite join_app by (auto; discriminate). reflexivity. }
  unfold cut. rewrite X. split; [apply startswith_app|]. rewrite skipn_app, skipn_all, Nat.sub_diag. cbn [skipn app]. split; [reflexivity|].
  destruct rest as [|r rest]; [now rewrite app_nil_r, E, app_nil_r|]. rewrite place_app, split_on_join; [|discriminate|now apply names_nochar]. rewrite go_names by auto. auto.
Qed.
Lemma one_word_join cs : Forall one_word cs -> one_word (join [slash] cs).
Proof.
  induction 1 as [|c cs C F IH]; [constructor|]. destruct cs as [|d cs]; [exact C|]. rewrite join_cons by discriminate. apply Forall_app. split; auto. constructor; auto.
Qed.
Lemma split_words p : one_word p -> Forall one_word (split_on slash p).
Proof.
  intros W. destruct (split_on_spec slash p) as (_ & _ & J). apply Forall_forall. intros c I. apply Forall_forall. intros x X. unfold one_word in W. rewrite Forall_forall in W. apply W. rewrite <- J.
  clear -I X. induction (split_on slash p) as [|d l IH]; [contradiction|]. destruct l as [|e l]; [destruct I as [->|[]]; auto|]. rewrite join_cons by discriminate. apply in_or_app. destruct I as [->|I]; auto. right. right. apply IH. auto.
Qed.
Lemma place_words p : one_word p -> Forall one_word (place p).
Proof.
  intros W. apply split_words in W. unfold place. change "/"%char with slash. assert (G : forall l at_, Forall one_word l -> Forall one_word at_ -> Forall one_word (fold_left go l at_)).
  { induction l as [|c l IH]; intros at_ L A; cbn [fold_left]; auto. inversion L; subst. apply IH; auto. unfold go. destruct (seqb c []); auto. destruct (seqb c (s_ ".")); auto. destruct (seqb c (s_ "..")).
    - clear -A. induction A as [|x l X A IH]; [constructor|]. cbn. destruct l; [constructor|]. constructor; auto.
    - apply Forall_app. auto. }
  apply G; auto; constructor.
Qed.
Lemma cut_word t e rest : rooted t -> rooted e -> place t <> [] -> place e = place t ++ rest -> one_word e -> Forall (fun c => ifs c = false) (cut t e).
Proof.
  intros RT RE NT E W. destruct (cut_inside t e rest RT RE NT E) as (_ & -> & _). apply place_words in W. rewrite E in W. apply Forall_app in W. destruct W as [_ W]. destruct rest as [|r rest]; [constructor|].
  apply one_word_join in W. constructor; [reflexivity|]. eapply Forall_impl; [|exact W]. intros c S. cbn in S. destruct (ifs c) eqn:I; auto. apply ifs_space in I. congruence.
Qed.
(** Being a string prefix *)
Lemma join_head c cs : cs <> [] -> exists u, join [slash] (c :: cs) = c ++ slash :: u.
Proof. intros N. rewrite join_cons by auto. exists (join [slash] cs). reflexivity. Qed.
Lemma prefix_places : forall ts es u, names ts -> names es -> ts <> [] -> join [slash] es = join [slash] ts ++ u ->
  (exists rest, es = ts ++ rest) \/ (exists parent last ext rest, ext <> [] /\ ts = parent ++ [last] /\ es = parent ++ (last ++ ext) :: rest).
Proof.
  induction ts as [|t ts IH]; intros es u NT NE N E; [congruence|]. destruct es as [|e es].
  - exfalso. destruct NT as (A & _). inversion A as [|? ? [X _] _]; subst. destruct t; [congruence|]. destruct ts; discriminate.
  - pose proof (names_nochar _ NT) as CT. pose proof (names_nochar _ NE) as CE. inversion CT as [|? ? CT1 CT2]; subst. inversion CE as [|? ? CE1 CE2]; subst.
    assert (NT' : names ts) by (destruct NT as (A & B & C); inversion A; subst; split; auto; split; intros X; [apply B|apply C]; now right).
    assert (NE' : names es) by (destruct NE as (A & B & C); inversion A; subst; split; auto; split; intros X; [apply B|apply C]; now right).
    assert (SPL : forall a b x y, no_char slash a -> no_char slash b -> a ++ slash :: x = b ++ slash :: y -> a = b /\ x = y).
    { clear. induction a as [|c a IH]; intros [|d b] x y A B E; cbn in E.
      - injection E as E. auto.
      - injection E as <- E. exfalso. apply no_char_In in B. apply B. now left.
      - injection E as -> E. exfalso. apply no_char_In in A. apply A. now left.
      - injection E as -> E. inversion A; inversion B; subst. destruct (IH b x y) as [-> ->]; auto. }
    destruct ts as [|t2 ts].
    + change (join [slash] [t]) with t in E. assert (K : exists ext, e = t ++ ext).
      { destruct es as [|e2 es]; [cbn [join] in E; eauto|]. rewrite (join_cons _ e) in E by discriminate. clear -E CT1. revert e E. induction CT1 as [|c t C CT IH]; intros e E; [exists e; reflexivity|].
        destruct e as [|d e]; cbn in E.
        - injection E as E1 E2. subst c. exfalso. cbv in C. congruence.
        - injection E as -> E. destruct (IH e E) as [ext ->]. exists ext. reflexivity. }
      destruct K as [ext ->]. destruct ext as [|x ext]; [left; exists es; now rewrite app_nil_r|]. right. exists [], t, (x :: ext), es. split; [discriminate|]. split; reflexivity.
    + rewrite (join_cons _ t) in E by discriminate. destruct es as [|e2 es].
      * exfalso. cbn [join] in E. subst e. apply no_char_In in CE1. apply CE1. rewrite !in_app_iff. left. right. left. now left.
      * rewrite (join_cons _ e) in E by discriminate. rewrite <- !app_assoc in E. cbn [app] in E. apply SPL in E; auto. destruct E as [-> E].
        destruct (IH (e2 :: es) u NT' NE') as [[rest R]|(p & l & x & r & X & Y & Z)]; [discriminate|exact E| |].
        -- left. exists rest. cbn [app] in *. now rewrite R.
        -- right. exists (t :: p), l, x, r. split; auto. rewrite Y, Z. split; reflexivity.
Qed.
Lemma normpath_rooted_of_prefix t e : rooted t -> place t <> [] -> startswith (normpath t) (normpath e) = true -> rooted e.
Proof.
  intros RT NT S. apply startswith_iff in S. destruct S as [u S]. rewrite (normpath_rooted t RT) in S. split.
  - rewrite <- normpath_isabs, S. reflexivity.
  - intros E. unfold normpath in S. rewrite E in S. cbn [repeat app] in S. injection S as S. destruct (place_names t (proj1 RT)) as (A & _). destruct (place t) as [|c cs]; [congruence|]. inversion A as [|? ? [C1 C2] _]; subst.
    destruct c as [|x c]; [congruence|]. inversion C2; subst. destruct cs; cbn in S; injection S as S1 _; subst x; match goal with H : aeqb _ _ = false |- _ => cbv in H; congruence end.
Qed.

(** ** Templates *)
Lemma basename_split h c : no_char slash c -> basename (h ++ slash :: c) = c.
Proof. intros N. unfold basename. rewrite head_part_app by auto. rewrite app_length. cbn [length]. replace (h ++ slash :: c) with ((h ++ [slash]) ++ c) by now rewrite <- app_assoc. rewrite skipn_app, skipn_all2 by (rewrite app_length; cbn; lia). rewrite app_length. cbn [length]. now rewrite Nat.sub_diag. Qed.
Lemma last_dot_tmpl b : last_dot (b ++ s_ ".tmpl") = Some b.
Proof.
  unfold last_dot. change (b ++ s_ ".tmpl") with (b ++ "."%char :: s_ "tmpl"). rewrite split_on_app. change (split_on "."%char (s_ "tmpl")) with [s_ "tmpl"]. rewrite rev_app_distr. cbn [rev app].
  destruct (split_on_spec "."%char b) as (_ & N & J). destruct (rev (split_on "."%char b)) as [|x l] eqn:E.
  - apply (f_equal (@rev _)) in E. rewrite rev_involutive in E. contradiction.
  - rewrite <- E, rev_involutive. f_equal. exact J.
Qed.
Lemma rel_norm l : Forall (no_char slash) l -> forall at_, fold_left go l at_ = fold_left go (rev (fold_left (norm_step 0) l [])) at_ /\ normed 0 (fold_left (norm_step 0) l []).
Proof.
  induction l as [|c l IH] using rev_ind; intros F at_; [split; [reflexivity|split; [constructor|split; [intros []|congruence]]]|].
  apply Forall_app in F. destruct F as [F FC]. inversion FC as [|? ? C _]; subst. destruct (IH F at_) as [E NM]. rewrite !fold_left_app. cbn [fold_left].
  set (acc := fold_left (norm_step 0) l []) in *. split; [|now apply norm_step_ok]. rewrite E. unfold norm_step. destruct (seqb c []) eqn:E1; cbn [orb].
  { unfold go at 1. now rewrite E1. }
  destruct (seqb c dot) eqn:E2. { unfold go at 1. change (s_ ".") with dot. now rewrite E1, E2. }
  destruct (seqb c dotdot) eqn:E3; cbn [negb orb].
  - apply seqb_eq in E3. subst c. destruct acc as [|x acc]; cbn [Nat.eqb andb orb]; [reflexivity|]. destruct (seqb x dotdot) eqn:EX.
    + cbn [rev]. now rewrite !fold_left_app.
    + cbn [rev]. rewrite fold_left_app. cbn [fold_left]. destruct NM as (A & B & _). inversion A as [|? ? [A1 A2] _]; subst. unfold go at 2. change (s_ ".") with dot. change (s_ "..") with dotdot.
      destruct (seqb x []) eqn:X1; [apply seqb_eq in X1; congruence|]. destruct (seqb x dot) eqn:X2; [apply seqb_eq in X2; exfalso; apply B; left; auto|]. rewrite EX. unfold go at 1. cbn [seqb]. change (seqb dotdot (s_ ".")) with false. change (seqb dotdot (s_ "..")) with true. cbv iota. apply removelast_last.
  - cbn [rev]. rewrite fold_left_app. reflexivity.
Qed.
Lemma place_relative a f : isabs f = false -> place (a ++ slash :: normpath f) = place (a ++ slash :: f).
Proof.
  intros R. rewrite !place_app. assert (Z : initial_slashes f = 0). { rewrite initial_slashes_abs in R. apply negb_false_iff, Nat.eqb_eq in R. exact R. }
  destruct (split_on_spec slash f) as (F & _ & _). destruct (rel_norm _ F (place a)) as [E (NM & _ & _)]. rewrite E.
  destruct (normpath_form f) as (n & cs & _). unfold normpath, norm_comps. rewrite Z. cbn [repeat app].
  set (acc := rev (fold_left (norm_step 0) (split_on slash f) [])) in *. assert (NC : Forall comp acc) by now apply Forall_rev. destruct acc as [|c acc]; [reflexivity|].
  destruct (join [slash] (c :: acc)) as [|x y] eqn:J.
  - exfalso. inversion NC as [|? ? [X _] _]; subst. destruct c; [congruence|]. destruct acc; discriminate.
  - change (x :: y) with ((x :: y) : str). rewrite <- J. rewrite split_on_join; [reflexivity|discriminate|]. eapply Forall_impl; [|exact NC]. intros b [_ B]. exact B.
Qed.
Lemma names_first c cs u : names (c :: cs) -> exists x y, join [slash] (c :: cs) ++ u = x :: y /\ is_slash x = false.
Proof.
  intros (A & _). inversion A as [|? ? [C1 C2] _]; subst. destruct c as [|x c]; [congruence|]. inversion C2; subst. destruct cs; cbn [join app]; eauto.
Qed.
Lemma names_last cs : names cs -> cs <> [] -> exists h x, join [slash] cs = h ++ [x] /\ is_slash x = false.
Proof.
  intros (A & _) N. destruct cs as [|c cs _] using rev_ind; [congruence|]. apply Forall_app in A. destruct A as [_ A]. inversion A as [|? ? C _]; subst. destruct (comp_last c C) as (h & x & -> & X).
  destruct cs as [|d cs]; [exists h, x; auto|]. rewrite join_app by discriminate. cbn [join]. exists (join [slash] (d :: cs) ++ slash :: h), x. rewrite <- app_assoc. auto.
Qed.
Lemma rooted_under w f : rooted w -> place w <> [] -> rooted (normpath w ++ slash :: f).
Proof.
  intros R N. rewrite normpath_rooted by auto. pose proof (place_names w (proj1 R)) as NW. destruct (place w) as [|c cs]; [congruence|].
  destruct (names_first c cs (slash :: f) NW) as (x & y & E & X). cbn [app]. rewrite E. split; [reflexivity|]. cbn. rewrite X. destruct y; discriminate.
Qed.
Lemma template_input w f : rooted w -> place w <> [] -> (isabs f = true -> rooted f) ->
  (if isabs (normpath f) then normpath f else normpath (pjoin (normpath w) (normpath f))) = slash :: join [slash] (place (target w f)).
Proof.
  intros R N RF. rewrite normpath_isabs. unfold target. destruct (isabs f) eqn:A; [now apply normpath_rooted, RF|].
  pose proof (place_names w (proj1 R)) as NW. destruct (names_last _ NW N) as (h & x & E & X). assert (EW : normpath w = (slash :: h) ++ [x]) by (rewrite normpath_rooted, E by auto; reflexivity).
  rewrite EW at 1. rewrite pjoin_plain; [|rewrite normpath_isabs; auto|auto]. rewrite <- EW. rewrite normpath_rooted by now apply rooted_under. rewrite place_relative by auto.
  do 2 f_equal. rewrite !place_app. now rewrite place_normpath.
Qed.
Lemma suffix_last h c t s : no_char slash s -> h ++ slash :: c = t ++ s -> exists b, c = b ++ s.
Proof.
  intros N. revert t. induction h as [|x h IH]; intros t E; cbn [app] in E.
  - destruct t as [|y t]; cbn [app] in E; [|injection E as _ E; eauto]. subst s. apply no_char_In in N. exfalso. apply N. now left.
  - destruct t as [|y t]; cbn [app] in E; [|injection E as _ E; eauto]. subst s. apply no_char_In in N. exfalso. apply N. right. apply in_or_app. right. now left.
Qed.
Lemma place_snoc h c : comp c -> c <> dot -> c <> dotdot -> place (h ++ slash :: c) = place h ++ [c].
Proof.
  intros C D DD. rewrite place_app, split_on_single by apply C. rewrite go_names; auto. split; [repeat constructor; apply C|]. split; intros [X|[]]; auto.
Qed.
Lemma template_output f mid last_ : names (mid ++ [last_]) -> mid <> [] -> f = slash :: join [slash] (mid ++ [last_]) ->
  let o := if endswith (s_ ".tmpl") f then splitext0 f else f ++ s_ ".out" in
  exists l, place o = mid ++ [l] /\ output_name last_ l.
Proof.
  intros N NM ->. cbv zeta. rewrite join_app by (auto; discriminate). cbn [join]. set (h := slash :: join [slash] mid).
  change (slash :: join [slash] mid ++ slash :: last_) with (h ++ slash :: last_).
  destruct N as (A & B & C). apply Forall_app in A. destruct A as [AM AL]. inversion AL as [|? ? CL _]; subst.
  assert (PH : place h = mid). { apply place_abs. split; auto. split; intros X; [apply B|apply C]; apply in_or_app; now left. }
  destruct (endswith (s_ ".tmpl") (h ++ slash :: last_)) eqn:E.
  - apply endswith_iff in E. destruct E as [t E]. apply suffix_last in E; [|now repeat constructor]. destruct E as [b ->].
    unfold splitext0. rewrite basename_split by apply CL. rewrite last_dot_tmpl. destruct (forallb _ b) eqn:D.
    + exists (b ++ s_ ".tmpl"). rewrite place_snoc; auto; [|intros X; apply B; apply in_or_app; right; left; auto|intros X; apply C; apply in_or_app; right; left; auto]. rewrite PH. split; [reflexivity|].
      left. exists b. split; auto. right. split; auto. intros c I. rewrite forallb_forall in D. apply aeqb_eq. now apply D.
    + exists b. rewrite head_part_app by apply CL. rewrite <- app_assoc. cbn [app].
      assert (ND : exists c, In c b /\ c <> "."%char).
      { clear -D. induction b as [|c b IH]; [discriminate|]. cbn in D. destruct (aeqb c ".") eqn:E; [cbn in D; destruct (IH D) as (x & I & X); exists x; split; [now right|auto]|]. apply aeqb_neq in E. exists c. split; [now left|auto]. }
      destruct ND as (c & I & X). rewrite place_snoc, PH; [| |intros ->; cbn in I; intuition congruence|intros ->; cbn in I; intuition congruence].
      * split; [reflexivity|]. left. exists b. split; auto. left. eauto.
      * split; [intros ->; contradiction|]. destruct CL as [_ CL]. unfold no_char in *. apply Forall_app in CL. apply CL.
  - exists (last_ ++ s_ ".out"). rewrite <- app_assoc. cbn [app]. rewrite place_snoc, PH.
    + split; [reflexivity|]. right. split; auto. intros b ->. assert (X : endswith (s_ ".tmpl") (h ++ slash :: b ++ s_ ".tmpl") = true). { apply endswith_iff. exists (h ++ slash :: b). rewrite <- app_assoc. reflexivity. } congruence.
    + split; [destruct last_; discriminate|]. apply Forall_app. split; [apply CL|repeat constructor].
    + intros X. apply (f_equal (@length _)) in X. rewrite app_length in X. cbn in X. lia.
    + intros X. apply (f_equal (@length _)) in X. rewrite app_length in X. cbn in X. lia.
Qed.
