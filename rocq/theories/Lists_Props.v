(** C31-C34: theorems. *)
From Coq Require Import Ascii String List Bool Arith ZArith Lia.
From Verif Require Import Str_Model Str_Proofs Lists_Model Lists_Spec Lists_Proofs.
Import ListNotations.
Open Scope list_scope.

(** ** C31 *)
(** The implied items are exactly those that follow from the listed ones in
    one or more steps; the computation ends for every mapping, cyclic or not. *)
Theorem implied_items_exact m value : exists r, add_implied_items m value = Some r /\
  forall w, In w (split_ws r) <-> exists f, In f (split_ws value) /\ implies m f w.
Proof. apply add_implied_iff. Qed.
Example implied_cycle :
  option_map split_ws (add_implied_items [(s_ "a", s_ "b c"); (s_ "b", s_ "a"); (s_ "c", s_ "d")] (s_ "x a")) =
  Some [s_ "b"; s_ "c"; s_ "a"; s_ "d"].
Proof. vm_compute. reflexivity. Qed.

(** ** C32 *)
Lemma words_app a b : Forall word a -> Forall word b -> Forall word (a ++ b).
Proof. intros. apply Forall_app. auto. Qed.
Lemma kept_iff ws w : Forall word ws -> In w ws ->
  (~ In w (split_ws (remove_prefixed_items ws)) <-> ~ is_mark w /\ cancels w ws < occurrences w ws).
Proof.
  intros F I. assert (W : word w) by (rewrite Forall_forall in F; auto). rewrite removed_iff by auto. apply occ_pos in I. unfold score.
  rewrite <- prefixed_marks. destruct (prefixed w); split.
  - intros H. exfalso. apply H. split; lia.
  - intros [H _]. congruence.
  - intros H. split; [discriminate|]. destruct (le_lt_dec (occurrences w ws) (cancels w ws)); [|auto]. exfalso. apply H. split; lia.
  - intros [_ H] [_ Z]. lia.
Qed.

Lemma list_variable_form m base : exists l i1 i2, list_variable m base = Some l /\
  l = without (split_ws i1 ++ split_ws base) (remove_prefixed_items (split_ws i2 ++ split_ws base)) /\
  (forall w, In w (split_ws i1) <-> exists f, In f (split_ws base) /\ ~ is_mark f /\ cancels f (split_ws base) < occurrences f (split_ws base) /\ implies m f w) /\
  (forall w, In w (split_ws i2) <-> exists f, In f (split_ws base) /\ implies m f w).
Proof.
  unfold list_variable. set (raw := split_ws base). set (kept := without raw (remove_prefixed_items raw)).
  assert (FR : Forall word raw) by apply split_ws_words.
  assert (FK : Forall word kept).
  { rewrite Forall_forall in *. intros x X. apply without_iff in X. apply FR. tauto. }
  destruct (add_implied_iff m (join (s_ " ") kept)) as (i1 & E1 & H1). destruct (add_implied_iff m base) as (i2 & E2 & H2).
  rewrite E1, E2. exists (without (split_ws i1 ++ raw) (remove_prefixed_items (split_ws i2 ++ raw))), i1, i2. split; auto. split; auto. split; auto.
  intros w. rewrite H1. rewrite split_ws_join by auto. split.
  - intros (f & A & B). apply without_iff in A. destruct A as [A C]. apply kept_iff in C; auto. exists f. tauto.
  - intros (f & A & B & C & D). exists f. split; auto. apply without_iff. split; auto. apply kept_iff; auto.
Qed.

(** A list variable without implied items: an item is in the result iff it is
    listed, is no mark, and is listed more often than it is marked; the order is kept. *)
Theorem removal_exact base : exists l, list_variable [] base = Some l /\
  (exists p, l = filter p (split_ws base)) /\
  forall w, In w l <-> In w (split_ws base) /\ ~ is_mark w /\ cancels w (split_ws base) < occurrences w (split_ws base).
Proof.
  destruct (list_variable_form [] base) as (l & i1 & i2 & E & EL & H1 & H2).
  assert (NI : forall a b, ~ implies [] a b).
  { intros a b H. induction H as [a v b (l1 & l2 & X & _) _|]; auto. destruct l1; discriminate. }
  assert (N1 : split_ws i1 = []).
  { destruct (split_ws i1) as [|x xs]; auto. exfalso. destruct (proj1 (H1 x) (or_introl eq_refl)) as (f & _ & _ & _ & I). exact (NI _ _ I). }
  assert (N2 : split_ws i2 = []).
  { destruct (split_ws i2) as [|x xs]; auto. exfalso. destruct (proj1 (H2 x) (or_introl eq_refl)) as (f & _ & I). exact (NI _ _ I). }
  rewrite N1, N2 in EL. cbn [app] in EL. exists l. split; auto. split; [unfold without in EL; eauto|].
  intros w. rewrite EL, without_iff. split.
  - intros [A B]. apply kept_iff in B; auto. apply split_ws_words.
  - intros (A & B). split; auto. apply kept_iff; auto. apply split_ws_words.
Qed.
Example removal_example : list_variable [] (s_ "first second third -second ~zeroth") = Some [s_ "first"; s_ "third"].
Proof. vm_compute. reflexivity. Qed.

(** An item listed once and marked is removed. *)
Theorem marked_item_removed base w l : list_variable [] base = Some l ->
  occurrences w (split_ws base) <= 1 -> (exists v, In v (split_ws base) /\ marks v w) -> ~ In w l.
Proof.
  intros E O (v & V & M) I. destruct (removal_exact base) as (l' & E' & _ & H). rewrite E in E'. injection E' as <-.
  apply H in I. destruct I as (_ & _ & C). assert (0 < cancels w (split_ws base)); [|lia].
  unfold cancels. assert (X : In v (filter (fun v => seqb v ("-"%char :: w) || seqb v ("~"%char :: w)) (split_ws base))).
  { apply filter_In. split; auto. destruct M as [->| ->]; rewrite seqb_refl; [reflexivity|apply orb_true_r]. }
  destruct (filter _ (split_ws base)); [destruct X|cbn; lia].
Qed.
(** An item without a mark stays. *)
Theorem unmarked_item_kept m base w l : list_variable m base = Some l ->
  In w (split_ws base) -> ~ is_mark w ->
  (forall v, marks v w -> ~ In v (split_ws base) /\ (forall f, In f (split_ws base) -> ~ implies m f v)) -> In w l.
Proof.
  intros E I NM H. destruct (list_variable_form m base) as (l' & i1 & i2 & E' & EL & H1 & H2). rewrite E in E'. injection E' as <-.
  rewrite EL. apply without_iff. split; [apply in_or_app; auto|].
  apply kept_iff; [apply words_app; apply split_ws_words|apply in_or_app; auto|]. split; auto.
  assert (Z : cancels w (split_ws i2 ++ split_ws base) = 0).
  { unfold cancels. destruct (filter (fun v => seqb v ("-"%char :: w) || seqb v ("~"%char :: w)) (split_ws i2 ++ split_ws base)) as [|v vs] eqn:EF; auto. exfalso.
    assert (X : In v (filter (fun v => seqb v ("-"%char :: w) || seqb v ("~"%char :: w)) (split_ws i2 ++ split_ws base))) by (rewrite EF; now left).
    apply filter_In in X. destruct X as [X M]. apply orb_true_iff in M.
    assert (MK : marks v w) by (destruct M as [M|M]; apply seqb_eq in M; [left|right]; auto).
    destruct (H v MK) as [A B]. apply in_app_iff in X. destruct X as [X|X]; auto. apply H2 in X. destruct X as (f & F1 & F2). exact (B f F1 F2). }
  rewrite Z. apply occ_pos. apply in_or_app. auto.
Qed.
(** The result has no marks, and only items that are listed or implied. *)
Theorem list_variable_sound m base : exists l, list_variable m base = Some l /\
  forall w, In w l -> ~ is_mark w /\ (In w (split_ws base) \/ exists f, In f (split_ws base) /\ ~ is_mark f /\ implies m f w).
Proof.
  destruct (list_variable_form m base) as (l & i1 & i2 & E & EL & H1 & H2). exists l. split; auto.
  intros w I. rewrite EL in I. apply without_iff in I. destruct I as [I N]. apply in_app_iff in I.
  assert (I2 : In w (split_ws i2 ++ split_ws base)).
  { apply in_or_app. destruct I as [I|I]; auto. left. apply H2. apply H1 in I. destruct I as (f & A & _ & _ & B). eauto. }
  apply kept_iff in N; [|apply words_app; apply split_ws_words|auto]. split; [tauto|].
  destruct I as [I|I]; auto. right. apply H1 in I. destruct I as (f & A & B & _ & C). eauto.
Qed.
(** Without marks the result is the closure of the listed items under implication. *)
Theorem list_variable_closure m base : 
  (forall f v, In f (split_ws base) -> v = f \/ implies m f v -> ~ is_mark v) ->
  exists l, list_variable m base = Some l /\
  forall w, In w l <-> In w (split_ws base) \/ exists f, In f (split_ws base) /\ implies m f w.
Proof.
  intros NM. destruct (list_variable_form m base) as (l & i1 & i2 & E & EL & H1 & H2). exists l. split; auto.
  assert (NMA : forall v, In v (split_ws i2 ++ split_ws base) -> ~ is_mark v).
  { intros v V. apply in_app_iff in V. destruct V as [V|V]; [apply H2 in V; destruct V as (f & A & B); eapply NM; eauto|eapply NM; eauto]. }
  assert (Z : forall w, cancels w (split_ws i2 ++ split_ws base) = 0).
  { intros w. unfold cancels. destruct (filter (fun v => seqb v ("-"%char :: w) || seqb v ("~"%char :: w)) (split_ws i2 ++ split_ws base)) as [|v vs] eqn:EF; auto. exfalso.
    assert (X : In v (filter (fun v => seqb v ("-"%char :: w) || seqb v ("~"%char :: w)) (split_ws i2 ++ split_ws base))) by (rewrite EF; now left).
    apply filter_In in X. destruct X as [X M]. apply (NMA v X). apply orb_true_iff in M.
    exists w. destruct M as [M|M]; apply seqb_eq in M; [left|right]; auto. }
  assert (Z0 : forall w, cancels w (split_ws base) = 0).
  { intros w. specialize (Z w). unfold cancels in *. rewrite filter_app, app_length in Z. lia. }
  intros w. rewrite EL, without_iff. split.
  - intros [I _]. apply in_app_iff in I. destruct I as [I|I]; auto. right. apply H1 in I. destruct I as (f & A & _ & _ & B). eauto.
  - intros I. assert (I1 : In w (split_ws i1 ++ split_ws base)).
    { apply in_or_app. destruct I as [I|(f & A & B)]; auto. left. apply H1. exists f. split; auto. split; [eapply NM; eauto|]. split; auto.
      rewrite Z0. now apply occ_pos. }
    assert (I2 : In w (split_ws i2 ++ split_ws base)).
    { apply in_or_app. destruct I as [I|(f & A & B)]; auto. left. apply H2. eauto. }
    split; auto. apply kept_iff; [apply words_app; apply split_ws_words|auto|]. split; auto. rewrite Z. now apply occ_pos.
Qed.
Example list_variable_example :
  option_map (map (fun w => w)) (list_variable [(s_ "alpha", s_ "beta"); (s_ "beta", s_ "gamma")] (s_ "alpha -delta delta")) =
  Some [s_ "beta"; s_ "gamma"; s_ "alpha"].
Proof. vm_compute. reflexivity. Qed.

(** One mark does not cancel an item that is listed twice, nor one implied by two items. *)
Theorem marked_item_removed_refuted : exists base w l,
  list_variable [] base = Some l /\ In ("-"%char :: w) (split_ws base) /\ In w l.
Proof. exists (s_ "a a -a"), (s_ "a"), [s_ "a"; s_ "a"]. split; [vm_compute; reflexivity|]. split; vm_compute; auto. Qed.
Theorem implied_item_removed_refuted : exists m base w l,
  list_variable m base = Some l /\ In ("-"%char :: w) (split_ws base) /\ ~ In w (split_ws base) /\ In w l.
Proof.
  exists [(s_ "a", s_ "b"); (s_ "c", s_ "b")], (s_ "a c -b"), (s_ "b"), [s_ "b"; s_ "b"; s_ "a"; s_ "c"].
  split; [vm_compute; reflexivity|]. split; [vm_compute; auto|]. split; [vm_compute; intuition discriminate|vm_compute; auto].
Qed.

(** ** C33 *)
Definition violated (k : kind_features) : Prop :=
  (words_of (kf_any k) <> [] /\ (forall a, In a (words_of (kf_any k)) -> ~ In a (kf_features k))) \/
  (exists r, In r (words_of (kf_required k)) /\ ~ In r (kf_features k)) \/
  (exists c, In c (words_of (kf_conflict k)) /\ In c (kf_features k)).
Lemma filter_nonempty {A} (p : A -> bool) l : (match filter p l with [] => false | _ => true end) = true <-> exists x, In x l /\ p x = true.
Proof.
  destruct (filter p l) as [|x xs] eqn:E; split; try discriminate.
  - intros (x & A1 & A2). assert (X : In x (filter p l)) by (apply filter_In; auto). rewrite E in X. destruct X.
  - intros _. exists x. apply filter_In. rewrite E. now left.
  - auto.
Qed.
Lemma mem_false x l : mem_str x l = false <-> ~ In x l.
Proof. destruct (mem_str_reflect x l); split; congruence || auto. Qed.
Lemma check_kind_iff k : fst (check_kind k) = true <-> violated k.
Proof.
  assert (G : (match words_of (kf_any k) with [] => false | _ => forallb (fun a => negb (mem_str a (kf_features k))) (words_of (kf_any k)) end
       || match filter (fun r => negb (mem_str r (kf_features k))) (words_of (kf_required k)) with [] => false | _ => true end
       || match filter (fun c => mem_str c (kf_features k)) (words_of (kf_conflict k)) with [] => false | _ => true end) = true <-> violated k).
  { rewrite !orb_true_iff, !filter_nonempty. unfold violated. split.
    - intros [[H|(r & H1 & H2)]|(c & H1 & H2)].
      + left. destruct (words_of (kf_any k)) as [|a l]; [discriminate|]. split; [discriminate|]. intros x X. rewrite forallb_forall in H. apply H in X.
        apply negb_true_iff, mem_false in X. auto.
      + right. left. exists r. split; auto. apply negb_true_iff, mem_false in H2. auto.
      + right. right. exists c. split; auto. now apply mem_str_In.
    - intros [[H1 H2]|[(r & H1 & H2)|(c & H1 & H2)]].
      + left. left. destruct (words_of (kf_any k)) as [|a l]; [congruence|]. apply forallb_forall. intros x X. apply negb_true_iff, mem_false. auto.
      + left. right. exists r. split; auto. now apply negb_true_iff, mem_false.
      + right. exists c. split; auto. now apply mem_str_In. }
  unfold check_kind. destruct (kf_any k) eqn:EA; [exact G|]. destruct (kf_required k) eqn:ER; [exact G|]. destruct (kf_conflict k) eqn:EC; [exact G|].
  cbn. split; [discriminate|]. unfold violated. rewrite EA, ER, EC. cbn. intros [[H _]|[(r & [] & _)|(c & [] & _)]]. congruence.
Qed.
(** A recipe is skipped exactly when a requirement of some kind is violated. *)
Theorem features_skip_iff parse_all kinds :
  features_check parse_all kinds = Skipped <-> parse_all = false /\ exists k, In k kinds /\ violated k.
Proof.
  unfold features_check. destruct parse_all; [split; [discriminate|intros [X _]; discriminate]|].
  destruct (existsb (fun k => fst (check_kind k)) kinds) eqn:E.
  - apply existsb_exists in E. destruct E as (k & K & V). split; auto. intros _. split; auto. exists k. split; auto. now apply check_kind_iff.
  - split.
    + intros H. exfalso. destruct (existsb _ kinds) in H; discriminate.
    + intros (_ & k & K & V). exfalso. apply check_kind_iff in V. assert (existsb (fun k => fst (check_kind k)) kinds = true) by (apply existsb_exists; eauto). congruence.
Qed.
(** The warning about a needless inherit appears exactly when no requirement is set. *)
Theorem features_unused_iff kinds : features_check false kinds = Unused <->
  forall k, In k kinds -> kf_any k = None /\ kf_required k = None /\ kf_conflict k = None.
Proof.
  unfold features_check. assert (U : forall k, snd (check_kind k) = false <-> kf_any k = None /\ kf_required k = None /\ kf_conflict k = None).
  { intros k. unfold check_kind. destruct (kf_any k), (kf_required k), (kf_conflict k); cbn; intuition discriminate. }
  assert (UF : forall k, snd (check_kind k) = false -> fst (check_kind k) = false).
  { intros k. unfold check_kind. destruct (kf_any k), (kf_required k), (kf_conflict k); cbn; auto; discriminate. }
  split.
  - destruct (existsb (fun k => fst (check_kind k)) kinds); [discriminate|]. destruct (existsb (fun k => snd (check_kind k)) kinds) eqn:E; [discriminate|].
    intros _ k K. apply U. destruct (snd (check_kind k)) eqn:S; auto. assert (existsb (fun k => snd (check_kind k)) kinds = true) by (apply existsb_exists; eauto). congruence.
  - intros H. destruct (existsb (fun k => fst (check_kind k)) kinds) eqn:E1.
    + apply existsb_exists in E1. destruct E1 as (k & K & F). rewrite (UF k) in F; [discriminate|]. apply U; auto.
    + destruct (existsb (fun k => snd (check_kind k)) kinds) eqn:E2; auto. apply existsb_exists in E2. destruct E2 as (k & K & F).
      rewrite (proj2 (U k)) in F; [discriminate|]. auto.
Qed.
Example features_met :
  features_check false [{| kf_any := Some [s_ "x"; s_ "y"]; kf_required := None; kf_conflict := Some [s_ "z"]; kf_features := [s_ "y"] |}] = Accepted /\
  features_check false [{| kf_any := Some [s_ "x"]; kf_required := None; kf_conflict := None; kf_features := [s_ "y"] |}] = Skipped /\
  features_check false [{| kf_any := None; kf_required := None; kf_conflict := None; kf_features := [s_ "y"] |}] = Unused.
Proof. repeat split; vm_compute; reflexivity. Qed.

(** ** C34 *)
Definition plain_name (v : str) : Prop := endswith native v = false /\ endswith compat v = false /\ endswith archall v = false.
(** Every ordinary name gets the suffix exactly once, in order. *)
Theorem fixup_plain suffix vs : Forall plain_name vs -> fixup_depends suffix vs = map (fun v => v ++ suffix) vs.
Proof.
  induction vs as [|v vs IH]; intros F; auto. inversion F as [|? ? (A & B & C) F']; subst. unfold fixup_depends in *. cbn [flat_map map].
  rewrite IH by auto. unfold fixup_name. rewrite A, B, C. reflexivity.
Qed.
Lemma drop_last_app a b : drop_last (length b) (a ++ b) = a.
Proof. unfold drop_last. rewrite app_length, Nat.add_sub. rewrite firstn_app, Nat.sub_diag, firstn_all. cbn. apply app_nil_r. Qed.
Lemma endswith_self a b : endswith b (a ++ b) = true.
Proof. apply endswith_iff. eauto. Qed.
Lemma not_both a s t : length s = length t -> s <> t -> endswith t (a ++ s) = false.
Proof.
  intros L N. destruct (endswith t (a ++ s)) eqn:E; auto. exfalso. apply endswith_iff in E. destruct E as (b & E).
  assert (length a = length b).
  { apply (f_equal (@length _)) in E. rewrite !app_length in E. lia. }
  apply N. eapply (app_inv_head a). rewrite E. f_equal. clear -E H.
  revert b E H. induction a as [|x a IH]; intros [|y b] E H; cbn in *; auto; try discriminate. inversion E; subst. f_equal. apply IH; auto.
Qed.
Lemma native_compat_differ : length native = length compat /\ native <> compat.
Proof. split; [reflexivity|discriminate]. Qed.
Lemma native_not_archall a : endswith archall (a ++ native) = false.
Proof.
  destruct (endswith archall (a ++ native)) eqn:E; auto. apply endswith_iff in E. destruct E as (b & E). exfalso.
  apply (f_equal (@rev _)) in E. rewrite !rev_app_distr in E. discriminate.
Qed.
Lemma compat_not_archall a : endswith archall (a ++ compat) = false.
Proof.
  destruct (endswith archall (a ++ compat)) eqn:E; auto. apply endswith_iff in E. destruct E as (b & E). exfalso.
  apply (f_equal (@rev _)) in E. rewrite !rev_app_distr in E. discriminate.
Qed.
(** Architecture-independent names go to the native variant only, without a suffix. *)
Theorem fixup_archall v : endswith native (v ++ archall) = false /\ endswith compat (v ++ archall) = false ->
  fixup_name native (v ++ archall) = [v] /\ fixup_name compat (v ++ archall) = [].
Proof.
  intros [A B]. unfold fixup_name. rewrite A, B, endswith_self. change (seqb native native) with true. change (seqb compat native) with false.
  cbn [orb app]. change 8 with (length archall). now rewrite drop_last_app.
Qed.
Example fixup_archall_met : endswith native (s_ "hello" ++ archall) = false /\ endswith compat (s_ "hello" ++ archall) = false.
Proof. split; reflexivity. Qed.
(** The Debian name of a variant is the name of the package it was made from. *)
Theorem multiarch_package_plain arch host v : 
  multiarch_package (Some arch) host (v ++ compat) = v ++ ":"%char :: arch /\
  multiarch_package (Some arch) host (v ++ native) = v ++ ":"%char :: host /\
  (endswith native v = false -> endswith compat v = false -> multiarch_package (Some arch) host v = v).
Proof.
  unfold multiarch_package. destruct native_compat_differ as [L N]. split; [|split].
  - rewrite endswith_self. change 7 with (length compat). now rewrite drop_last_app.
  - rewrite (not_both v native compat L N). rewrite endswith_self. change 7 with (length native). now rewrite drop_last_app.
  - intros A B. rewrite A, B. reflexivity.
Qed.
(** A native build that is not cross-compiling depends on the target variants:
    no -native name stays, other names are unchanged. *)
Theorem drop_native_exact deps d : In d deps ->
  (forall v, d = v ++ native -> In v (drop_native_deps deps)) /\ (endswith native d = false -> In d (drop_native_deps deps)).
Proof.
  intros I. unfold drop_native_deps. split.
  - intros v ->. apply in_map_iff. exists (v ++ native). split; auto. rewrite endswith_self. change 7 with (length native). apply drop_last_app.
  - intros E. apply in_map_iff. exists d. rewrite E. auto.
Qed.
(** extend_provides adds the suffixed names of a target recipe and removes nothing. *)
Theorem extend_provides_exact pn suffix provides : endswith native pn = false -> endswith compat pn = false ->
  forall x, In x (extend_provides pn suffix provides) <->
    In x provides \/ x = pn ++ suffix \/ exists p, In p provides /\ endswith native p = false /\ endswith compat p = false /\ x = p ++ suffix.
Proof.
  intros A B x. unfold extend_provides, multiarch_target. rewrite A, B. cbn [orb]. rewrite !in_app_iff, in_map_iff. cbn [In]. split.
  - intros [H|[(p & <- & P)|[H|[]]]]; auto. apply filter_In in P. destruct P as [P Q]. apply negb_true_iff, orb_false_iff in Q. right. right. exists p. tauto.
  - intros [H|[->|(p & P & Q1 & Q2 & ->)]]; auto. right. left. exists p. split; auto. apply filter_In. split; auto. rewrite Q1, Q2. reflexivity.
Qed.
(** A name that already has a suffix is kept, but a twice-suffixed name is added. *)
Theorem fixup_suffixed v s suffix : s = native \/ s = compat -> fixup_name suffix (v ++ s) = [v ++ s; (v ++ s) ++ suffix].
Proof.
  destruct native_compat_differ as [L N]. intros [->| ->]; unfold fixup_name.
  - rewrite native_not_archall, endswith_self, orb_true_r. reflexivity.
  - rewrite compat_not_archall, endswith_self. reflexivity.
Qed.
Theorem fixup_idempotent_refuted : exists vs, 
  fixup_depends native (fixup_depends native vs) <> fixup_depends native vs /\
  exists d, In d (fixup_depends native [s_ "foo-native"]) /\ d = s_ "foo-native-native".
Proof. exists [s_ "foo"]. split; [vm_compute; discriminate|]. exists (s_ "foo-native-native"). split; vm_compute; auto. Qed.

Print Assumptions implied_items_exact.
Print Assumptions removal_exact.
Print Assumptions marked_item_removed.
Print Assumptions unmarked_item_kept.
Print Assumptions list_variable_sound.
Print Assumptions list_variable_closure.
Print Assumptions marked_item_removed_refuted.
Print Assumptions implied_item_removed_refuted.
Print Assumptions features_skip_iff.
Print Assumptions features_unused_iff.
Print Assumptions fixup_plain.
Print Assumptions fixup_archall.
Print Assumptions multiarch_package_plain.
Print Assumptions drop_native_exact.
Print Assumptions extend_provides_exact.
Print Assumptions fixup_suffixed.
Print Assumptions fixup_idempotent_refuted.

(** ** Further cases that meet the hypotheses *)
Example marked_met : ~ In (s_ "second") [s_ "first"; s_ "third"].
Proof.
  apply (marked_item_removed (s_ "first second third -second ~zeroth") (s_ "second")); [exact removal_example|vm_compute; lia|]. exists (s_ "-second"). split; [apply mem_str_In; vm_compute; reflexivity|now left].
Qed.
Lemma mark_heads v x : marks v x -> hd_error v = Some "-"%char \/ hd_error v = Some "~"%char.
Proof. intros [->| ->]; auto. Qed.
Example unmarked_met : exists l, list_variable [] (s_ "a b -c") = Some l /\ In (s_ "a") l.
Proof.
  eexists. split; [vm_compute; reflexivity|]. apply (unmarked_item_kept [] (s_ "a b -c") (s_ "a")); [vm_compute; reflexivity|apply mem_str_In; vm_compute; reflexivity| |].
  - intros [x M]. apply mark_heads in M. destruct M; discriminate.
  - intros v M. split.
    + intros I. assert (X : In v [s_ "a"; s_ "b"; s_ "-c"]) by exact I. destruct M as [->| ->]; destruct X as [X|[X|[X|[]]]]; discriminate X.
    + intros f _ I. clear -I. induction I as [a v b (l1 & l2 & E & _) _|a b c _ IH _ _]; auto. destruct l1; discriminate E.
Qed.
Example fixup_plain_met : fixup_depends (s_ "-compat") [s_ "hello"; s_ "libfoo"] = [s_ "hello-compat"; s_ "libfoo-compat"].
Proof. apply (fixup_plain (s_ "-compat") [s_ "hello"; s_ "libfoo"]). repeat constructor. Qed.

