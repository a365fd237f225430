(** The locales of an image (C66). *)
From Coq Require Import String Ascii List Bool Arith Lia.
From Verif Require Import Str_Model Str_Proofs Imgtypes_Model Imgtypes_Proofs Deps_Spec Words_Proofs Changelog_Proofs Locales_Model Locales_Spec Locales_Proofs.
Import ListNotations.
Open Scope list_scope.

(** ** C66: the lines written are the items that are not blank, without the blanks around them, each once and in order *)
Theorem locales_exact : forall v items, holds v items ->
  (forall l, In l (locale_items v) <-> l <> [] /\ exists i, In i items /\ trimmed i l) /\
  ForallOrdPairs str_lt (locale_items v).
Proof.
  intros v items (NE & -> & F). split; [|apply sorted_set_pairs]. intros l. unfold locale_items. rewrite split_bn_join, sorted_set_in, filter_In, in_map_iff by auto. split.
  - intros ((i & <- & I) & N). split; [intros X; now rewrite X in N|]. exists i. split; auto. apply strip_trimmed.
  - intros (N & i & I & T). split; [|destruct l; [congruence|reflexivity]]. exists i. split; auto. apply (trimmed_unique i); auto. apply strip_trimmed.
Qed.

(** ** C66: the locales that are kept are, for each item, its language, its locale without the codeset and its locale *)
Theorem nopurge_exact : forall v items, holds v items ->
  (forall x, In x (nopurge_items v) <->
     exists i w, In i items /\ locale_of i w /\ (x = w \/ part_before "_"%char w x \/ part_before "."%char w x)) /\
  ForallOrdPairs str_lt (nopurge_items v).
Proof.
  intros v items (NE & -> & F). split; [|apply sorted_set_pairs]. intros x. unfold nopurge_items. rewrite split_bn_join, sorted_set_in, in_flat_map by auto. split.
  - intros (j & J & X). apply filter_In in J. destruct J as [J N]. assert (N' : strip j <> []) by (intros Z; now rewrite Z in N).
    destruct (has_first_word j N') as (w & W). destruct (first_word j w W) as [H _]. cbv zeta in X. rewrite H in X. exists j, w. split; auto. split; auto.
    destruct W as [[_ W] _]. cbn [map] in X.
    assert (P : forall c, strip (before c w) = before c w) by (intros c; apply strip_nospace; apply (part_nospace c w); auto; apply before_part).
    rewrite !P, (strip_nospace w W) in X. destruct X as [<-|[<-|[<-|[]]]]; auto using before_part.
  - intros (i & w & I & W & X). destruct (first_word i w W) as [H N]. exists i. split; [apply filter_In; split; auto; destruct (strip i); [congruence|reflexivity]|].
    cbv zeta. rewrite H. destruct W as [[_ W] _].
    assert (P : forall c, strip (before c w) = before c w) by (intros c; apply strip_nospace; apply (part_nospace c w); auto; apply before_part).
    cbn [map]. rewrite !P, (strip_nospace w W). cbn [In]. destruct X as [->|[X|X]]; auto.
    + left. apply (part_unique "_"%char w); auto using before_part.
    + right; left. apply (part_unique "."%char w); auto using before_part.
Qed.

(** ** C66: nothing that is generated is purged: the locale of each line of locale.gen is kept, with its language *)
Theorem locales_kept : forall v items, holds v items -> forall l, In l (locale_items v) ->
  exists w p, locale_of l w /\ In w (nopurge_items v) /\ part_before "_"%char w p /\ In p (nopurge_items v).
Proof.
  intros v items H l L. destruct (locales_exact v items H) as [E _]. apply E in L. destruct L as (N & i & I & T).
  assert (S : strip i <> []) by (rewrite (trimmed_unique i (strip i) l (strip_trimmed i) T); exact N).
  destruct (has_first_word i S) as (w & W). exists w, (before "_"%char w). destruct (nopurge_exact v items H) as [K _].
  assert (LW : locale_of l w).
  { destruct T as (a & b & EI & A & B & T1 & T2). destruct W as (Ww & x & y & EI' & X & Y).
    destruct l as [|c r]; [congruence|]. pose proof (T1 c r eq_refl) as C. destruct w as [|d u]; [destruct Ww; congruence|]. destruct Ww as [Wn Wf].
    assert (D : is_space d = false) by (inversion Wf; auto).
    assert (AX : a = x /\ (c :: r) ++ b = (d :: u) ++ y).
    { clear - EI EI' A X C D. rewrite EI in EI'. clear EI. revert x X EI'. induction A as [|p a P A IH]; intros x X E.
      - destruct X as [|q x Q X]; [split; auto|]. cbn in E. injection E as E1 E2. congruence.
      - destruct X as [|q x Q X]; cbn in E; injection E as E1 E2; [congruence|]. destruct (IH x X E2) as [-> ?]. subst. split; auto. }
    destruct AX as [_ E2]. split; [split; auto|].
    assert (G : exists z, c :: r = (d :: u) ++ z /\ y = z ++ b).
    { clear - E2 Wf B T2. revert E2 Wf T2. generalize (c :: r) as l. generalize (d :: u) as w. induction w as [|e w IH]; intros l E Wf T2.
      - exists l. cbn in E. auto.
      - destruct l as [|f l].
        + cbn in E. subst b. inversion B; inversion Wf; congruence.
        + cbn in E. injection E as <- E. inversion Wf; subst. destruct (IH l E) as (z & -> & ->); auto.
          { intros q g Q. apply (T2 (f :: q) g). now rewrite Q. }
          exists z. auto. }
    destruct G as (z & G & ->). exists [], z. split; auto. split; [constructor|]. intros q s ->. eapply Y. reflexivity. }
  split; auto. split; [apply K; exists i, w; auto|]. split; [apply before_part|]. apply K. exists i, w. split; auto. split; auto. right; left. apply before_part.
Qed.

(** ** C66: only the set of items matters, not their order, their number or the blanks around them *)
Theorem locales_order : forall v v' items items', holds v items -> holds v' items' ->
  (forall l, l <> [] -> (exists i, In i items /\ trimmed i l) <-> (exists i, In i items' /\ trimmed i l)) ->
  forall sep, get_locale_gen v sep = get_locale_gen v' sep.
Proof.
  intros v v' items items' H H' E sep. unfold get_locale_gen. f_equal. apply pairs_unique; try apply sorted_set_pairs.
  intros l. destruct (locales_exact v items H) as [A _]. destruct (locales_exact v' items' H') as [B _]. rewrite A, B. split; intros [N X]; split; auto; now apply E.
Qed.

(** ** C66: the lines of the file in the image are the lines it had and one line for each locale; a file without a locale configured gets one empty line *)
Theorem locales_file : forall v items f, holds v items -> Forall (no_char nl) items -> f = [] \/ (exists h, f = h ++ [nl]) ->
  lines (install_locales v f) = lines f ++ match locale_items v with [] => [[]] | ls => ls end.
Proof.
  intros v items f H NN N. unfold install_locales, locale_gen_text, get_locale_gen. rewrite lines_app by exact N. f_equal. rewrite lines_snoc. destruct (locale_items v) as [|l ls] eqn:E; [reflexivity|].
  apply split_on_join; [discriminate|]. rewrite <- E. apply Forall_forall. intros x X. destruct (locales_exact v items H) as [A _]. apply A in X. destruct X as (_ & i & I & T).
  rewrite Forall_forall in NN. rewrite <- (trimmed_unique i (strip i) x (strip_trimmed i) T). apply strip_no_char. auto.
Qed.
Fixpoint repeatedly {A} (n : nat) (f : A -> A) (x : A) : A := match n with 0 => x | S n => repeatedly n f (f x) end.
(** Running the step again adds the lines again, but never a line that the first run did not add *)
Theorem locales_file_again : forall v items n f, holds v items -> Forall (no_char nl) items -> f = [] \/ (exists h, f = h ++ [nl]) ->
  forall l, In l (lines (repeatedly (S n) (install_locales v) f)) <-> In l (lines (install_locales v f)).
Proof.
  intros v items n f H NN N l.
  assert (N1 : exists h, install_locales v f = h ++ [nl]) by (exists (f ++ get_locale_gen v [nl]); unfold install_locales, locale_gen_text; now rewrite app_assoc).
  cbn [repeatedly]. rewrite (locales_file v items f H NN N).
  assert (Z : forall m g, (exists h, g = h ++ [nl]) -> (forall x, In x (match locale_items v with [] => [[]] | ls => ls end) -> In x (lines g)) ->
     (In l (lines (repeatedly m (install_locales v) g)) <-> In l (lines g))).
  { induction m as [|m IH]; intros g G S; [reflexivity|]. cbn [repeatedly].
    assert (L : lines (install_locales v g) = lines g ++ match locale_items v with [] => [[]] | ls => ls end) by (apply (locales_file v items); auto).
    rewrite IH.
    - rewrite L, in_app_iff. intuition.
    - exists (g ++ get_locale_gen v [nl]). unfold install_locales, locale_gen_text. now rewrite app_assoc.
    - intros x X. rewrite L. apply in_or_app. now left; apply S. }
  rewrite Z; auto.
  - rewrite (locales_file v items f H NN N). reflexivity.
  - intros x X. rewrite (locales_file v items f H NN N). apply in_or_app. now right.
Qed.
(** The step is not repeatable: locale.gen is appended to (line 78), so a run of the task that is repeated leaves each line twice in the image. *)
Theorem locales_again_refuted : exists v items f, holds v items /\ Forall (no_char nl) items /\
  install_locales v (install_locales v f) <> install_locales v f.
Proof.
  exists (s_ "de_DE.UTF-8 UTF-8"), [s_ "de_DE.UTF-8 UTF-8"], []. split; [|split].
  - split; [discriminate|]. split; [reflexivity|]. constructor; [reflexivity|constructor].
  - constructor; [|constructor]. apply no_char_In. intros X. cbn in X. repeat (destruct X as [X|X]; [discriminate|]). exact X.
  - intros X. apply (f_equal (@length _)) in X. vm_compute in X. discriminate.
Qed.

(** ** A concrete case *)
Example locales_example :
  let v := s_ "  en_US.UTF-8 UTF-8 \n de_DE.UTF-8 UTF-8\n\n en_US.UTF-8 UTF-8 " in
  holds v [s_ "  en_US.UTF-8 UTF-8 "; s_ " de_DE.UTF-8 UTF-8"; []; s_ " en_US.UTF-8 UTF-8 "] /\
  locale_items v = [s_ "de_DE.UTF-8 UTF-8"; s_ "en_US.UTF-8 UTF-8"] /\
  nopurge_items v = [s_ "de"; s_ "de_DE"; s_ "de_DE.UTF-8"; s_ "en"; s_ "en_US"; s_ "en_US.UTF-8"] /\
  lines (install_locales v (s_ "# x" ++ [nl])) = [s_ "# x"; s_ "de_DE.UTF-8 UTF-8"; s_ "en_US.UTF-8 UTF-8"].
Proof.
  cbv zeta. split; [|split; [|split]]; try reflexivity. split; [discriminate|]. split; [reflexivity|]. repeat constructor.
Qed.

Print Assumptions locales_exact.
Print Assumptions nopurge_exact.
Print Assumptions locales_kept.
Print Assumptions locales_order.
Print Assumptions locales_file.
Print Assumptions locales_file_again.
Print Assumptions locales_again_refuted.

(** ** Further cases that meet the hypotheses *)
Example locales_order_met : holds (s_ "a\n b") [s_ "a"; s_ " b"] /\ holds (s_ "b\na\na") [s_ "b"; s_ "a"; s_ "a"] /\
  get_locale_gen (s_ "a\n b") (s_ "#") = get_locale_gen (s_ "b\na\na") (s_ "#").
Proof. split; [|split]; [split; [discriminate|split; [reflexivity|repeat constructor]]|split; [discriminate|split; [reflexivity|repeat constructor]]|vm_compute; reflexivity]. Qed.

