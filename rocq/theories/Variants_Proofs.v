(** Lemmas about the variants of recipes *)
From Coq Require Import String Ascii List Bool Arith Lia.
From Verif Require Import Str_Model Str_Proofs Words_Model Words_Spec Words_Proofs Pcache_Model Pcache_Spec Pcache_Proofs Variants_Model Variants_Spec.
Import ListNotations.
Open Scope list_scope.

Lemma keys_in l : forall x, In x (keys l) <-> In x l.
Proof.
  induction l as [|a l IH]; intros x; cbn; [tauto|]. rewrite filter_In, IH. split; [tauto|]. intros [E|I]; [now left|].
  destruct (str_eq_dec x a) as [->|N]; [now left|right; split; [exact I|]]. apply negb_true_iff. now apply seqb_neq.
Qed.
Lemma keys_nodup l : NoDup (keys l).
Proof.
  induction l as [|a l IH]; cbn; constructor; [|now apply NoDup_filter]. intros I. apply filter_In in I as [_ I].
  rewrite seqb_refl in I. discriminate.
Qed.
Lemma find_in_iff {S} (l : list (str * S)) k s : NoDup (map fst l) -> (find_in k l = Some s <-> In (k, s) l).
Proof.
  unfold find_in. induction l as [|[n x] l IH]; intros N; cbn; [easy|]. inversion N as [|? ? A B]; subst. destruct (seqb k n) eqn:E.
  - apply seqb_eq in E as <-. cbn. split; [intros H; injection H as <-; now left|]. intros [H|I]; [now injection H as <-|].
    exfalso. apply A. change k with (fst (k, s)). now apply in_map.
  - rewrite IH by exact B. split; [tauto|]. intros [H|I]; [|exact I]. injection H as -> ->. rewrite seqb_refl in E. discriminate.
Qed.
Lemma find_in_none {S} (l : list (str * S)) k : find_in k l = None <-> ~ In k (map fst l).
Proof.
  unfold find_in. induction l as [|[n x] l IH]; cbn; [tauto|]. destruct (seqb k n) eqn:E.
  - apply seqb_eq in E as <-. split; [discriminate|tauto].
  - rewrite IH. apply seqb_neq in E. split; [intros H [X|X]; [congruence|tauto]|tauto].
Qed.
Lemma contains_self s : contains_sub s s = true.
Proof. apply contains_sub_iff. exists [], []. now rewrite app_nil_r. Qed.

Section MF.
Variable S : Type.
Variable getvar : str -> S -> str.
Variable setvar : str -> str -> S -> S.
Variable inherit : str -> S -> S.
Variable finalize : str -> S -> S.
Let mf := multi_finalize S getvar setvar inherit finalize.
Let text (d : S) := getvar (s_ "BBCLASSEXTEND") (finalize [] d).
Let frozen (d : S) := match text d with [] => d | e => setvar (s_ "BBCLASSEXTEND") e d end.
Let made (d : S) (n : str) := finalize n (extendfunc S setvar inherit (getvar (s_ "PN") (finalize [] d)) n (frozen d)).

Lemma mf_is only d : mf only d = ([], finalize [] d) :: map (fun n => (n, made d n)) (filter (wanted only) (keys (split_ws (text d)))).
Proof. unfold mf, multi_finalize, made, frozen, text. destruct (getvar (s_ "BBCLASSEXTEND") (finalize [] d)); reflexivity. Qed.
Lemma words_ne (t n : str) : In n (split_ws t) -> n <> [].
Proof. intros I. exact (proj1 (proj1 (Forall_forall _ _) (split_ws_words t) _ I)). Qed.
Lemma mf_apart only d : NoDup (map fst (mf only d)).
Proof.
  rewrite mf_is. cbn. rewrite map_map. cbn. rewrite map_id. constructor; [|apply NoDup_filter, keys_nodup].
  intros I. apply filter_In in I as [I _]. apply (proj1 (keys_in _ _)) in I. exact (words_ne _ _ I eq_refl).
Qed.
Lemma mf_in only d n s : In (n, s) (mf only d) <-> n = [] /\ s = finalize [] d \/ In n (split_ws (text d)) /\ wanted only n = true /\ s = made d n.
Proof.
  rewrite mf_is. cbn [In]. split.
  - intros [E|I]; [injection E as <- <-; now left|]. apply in_map_iff in I as (m & E & I). injection E as <- <-. apply filter_In in I as [I W]. apply (proj1 (keys_in _ _)) in I. now right.
  - intros [[-> ->]|(I & W & ->)]; [now left|right]. apply in_map_iff. exists n. split; [reflexivity|]. apply filter_In. split; [now apply keys_in|exact W].
Qed.
Lemma mf_only d v s : v <> [] -> (In (v, s) (mf (Some v) d) <-> In (v, s) (mf None d)).
Proof.
  intros N. rewrite !mf_in. assert (W : wanted (Some v) v = true) by (destruct v; [congruence|apply contains_self]). rewrite W. cbn. tauto.
Qed.
Lemma mf_find d v : v <> [] -> find_in v (mf (Some v) d) = find_in v (mf None d).
Proof.
  intros N. destruct (find_in v (mf None d)) as [s|] eqn:E.
  - apply find_in_iff; [apply mf_apart|]. apply mf_only; [exact N|]. now apply find_in_iff; [apply mf_apart|].
  - apply find_in_none. apply find_in_none in E. intros I. apply E. apply in_map_iff in I as ([k s] & <- & I). apply in_map_iff. exists (k, s). split; [reflexivity|]. now apply mf_only.
Qed.
End MF.

Lemma ext_plain n : colonless n -> ext_class n = n /\ ext_variant n = None.
Proof. intros C. unfold ext_class, ext_variant. rewrite split_on_single by now apply no_char_In. auto. Qed.
Lemma ext_colon c v : colonless c -> colonless v -> ext_class (c ++ s_ ":" ++ v) = c /\ ext_variant (c ++ s_ ":" ++ v) = Some v.
Proof.
  intros C V. unfold ext_class, ext_variant. change (c ++ s_ ":" ++ v) with (c ++ colon :: v). rewrite split_on_cons by now apply no_char_In.
  rewrite split_on_single by now apply no_char_In. auto.
Qed.
Lemma ext_colons c v r : colonless c -> colonless v -> ext_class (c ++ s_ ":" ++ v ++ s_ ":" ++ r) = c /\ ext_variant (c ++ s_ ":" ++ v ++ s_ ":" ++ r) = Some v.
Proof.
  intros C V. unfold ext_class, ext_variant. change (c ++ s_ ":" ++ v ++ s_ ":" ++ r) with (c ++ colon :: v ++ colon :: r).
  rewrite !split_on_cons by now apply no_char_In. auto.
Qed.

Lemma begins_iff n c : ext_class n = c -> ext_variant n <> None -> exists r, n = c ++ s_ ":" ++ r.
Proof.
  unfold ext_class, ext_variant. destruct (split_on_spec colon n) as (_ & _ & J). destruct (split_on colon n) as [|a [|b l]] eqn:E; try congruence.
  intros <- _. exists (join [colon] (b :: l)). rewrite <- J. rewrite join_cons by discriminate. reflexivity.
Qed.
Lemma word_prefix p k : Forall (fun c => is_space c = false) p -> word k -> word (p ++ k).
Proof. intros P [N F]. split; [destruct p; [exact N|discriminate]|]. apply Forall_app. auto. Qed.
Lemma split_ws_front a b : b = [] \/ (exists c r, b = c :: r /\ is_space c = true) -> split_ws (a ++ b) = split_ws a ++ split_ws b.
Proof.
  intros [->|(c & r & -> & Sp)]; [now rewrite app_nil_r, app_nil_r|]. rewrite split_ws_app by exact Sp. now rewrite (split_ws_space c r Sp).
Qed.

Section K.
Variables base names front back k0 : str.
Hypothesis Back : back = [] \/ exists c r, back = c :: r /\ is_space c = true.
Hypothesis Other : forall n, has_word front n \/ has_word back n -> ~ exists r, n = s_ "per-kernel:" ++ r.
Hypothesis Kernels : forall k, has_word names k -> colonless k.
Let d0 := {| k_pn := None; k_curr := []; k_variant := []; k_kernel := k0; k_extend := None |}.

Lemma kernel_words_split : split_ws (front ++ s_ " " ++ kernel_words names k0 ++ back) =
  split_ws front ++ map (fun k => s_ "per-kernel:" ++ k) (filter (fun k => negb (seqb k k0)) (split_ws names)) ++ split_ws back.
Proof.
  change (front ++ s_ " " ++ kernel_words names k0 ++ back) with (front ++ " "%char :: (kernel_words names k0 ++ back)).
  rewrite split_ws_app by reflexivity. f_equal. rewrite split_ws_front by exact Back. f_equal. unfold kernel_words. apply split_ws_join.
  apply Forall_forall. intros w I. apply in_map_iff in I as (k & <- & I). apply filter_In in I as [I _].
  apply word_prefix; [repeat constructor|]. exact (proj1 (Forall_forall _ _) (split_ws_words names) k I).
Qed.
Lemma k_main : k_finalize [] d0 = d0. Proof. reflexivity. Qed.
Lemma k_text : k_getvar base names front back (s_ "BBCLASSEXTEND") (k_finalize [] d0) = front ++ s_ " " ++ kernel_words names k0 ++ back.
Proof. reflexivity. Qed.
Lemma k_text_ne : exists e, front ++ s_ " " ++ kernel_words names k0 ++ back = e /\ e <> [].
Proof. eexists. split; [reflexivity|]. destruct front; discriminate. Qed.
Let pn0 := base ++ s_ "-" ++ k0.
Let frozen : kstore := {| k_pn := None; k_curr := []; k_variant := []; k_kernel := k0; k_extend := Some (front ++ s_ " " ++ kernel_words names k0 ++ back) |}.
Lemma kstores_in n d : In (n, d) (kernel_stores base names front back k0) <->
  n = [] /\ d = d0 \/ In n (split_ws (front ++ s_ " " ++ kernel_words names k0 ++ back)) /\
    d = k_finalize n (extendfunc kstore k_setvar (fun _ d => d) pn0 n frozen).
Proof.
  unfold kernel_stores. fold d0. rewrite (mf_in kstore (k_getvar base names front back) k_setvar (fun _ d => d) k_finalize None d0 n d).
  rewrite k_text, k_main. destruct k_text_ne as (e & E & N). change (k_getvar base names front back (s_ "PN") d0) with pn0.
  assert (X : match front ++ s_ " " ++ kernel_words names k0 ++ back with [] => d0 | e :: l => k_setvar (s_ "BBCLASSEXTEND") (e :: l) d0 end = frozen).
  { unfold frozen. rewrite E. destruct e; [congruence|reflexivity]. }
  cbn [wanted]. split; (intros [H|H]; [now left|right]).
  - destruct H as (A & _ & B). split; [exact A|]. rewrite B. now rewrite X.
  - destruct H as (A & B). split; [exact A|]. split; [reflexivity|]. rewrite B. now rewrite X.
Qed.
Lemma k_variant_store k : k <> [] -> colonless k -> let d := k_finalize (s_ "per-kernel:" ++ k) (extendfunc kstore k_setvar (fun _ d => d) pn0 (s_ "per-kernel:" ++ k) frozen) in
  k_kernel d = k /\ k_name base names front back d = base ++ s_ "-" ++ k.
Proof.
  intros N C. assert (CP : colonless (s_ "per-kernel")) by (intros I; cbn in I; intuition discriminate).
  destruct (ext_colon (s_ "per-kernel") k CP C) as [A B]. change (s_ "per-kernel" ++ s_ ":" ++ k) with (s_ "per-kernel:" ++ k) in A, B.
  unfold extendfunc. rewrite A, B. destruct k as [|c k]; [congruence|]. split; reflexivity.
Qed.
Lemma k_other_store n : ~ (exists r, n = s_ "per-kernel:" ++ r) -> let d := k_finalize n (extendfunc kstore k_setvar (fun _ d => d) pn0 n frozen) in
  k_kernel d = k0 /\ (colonless n -> k_name base names front back d = base ++ s_ "-" ++ k0 ++ s_ "-" ++ n).
Proof.
  intros N. unfold extendfunc. destruct (ext_variant n) as [v|] eqn:V.
  - assert (C : seqb (ext_class n) (s_ "per-kernel") = false).
    { apply seqb_neq. intros E. apply N. destruct (begins_iff n _ E) as [r R]; [congruence|]. exists r. exact R. }
    assert (E : k_setvar (s_ "BBEXTENDVARIANT") v (k_setvar (s_ "BBEXTENDCURR") (ext_class n) frozen) =
      {| k_pn := None; k_curr := ext_class n; k_variant := v; k_kernel := k0; k_extend := Some (front ++ s_ " " ++ kernel_words names k0 ++ back) |}) by reflexivity.
    rewrite E. unfold k_finalize. cbn [k_curr]. rewrite C. split; [reflexivity|]. intros CL. destruct (ext_plain n CL) as [_ X]. congruence.
  - split; [reflexivity|]. intros _. cbn. unfold pn0. now rewrite <- !app_assoc.
Qed.
Lemma k_words n : In n (split_ws (front ++ s_ " " ++ kernel_words names k0 ++ back)) <->
  has_word front n \/ has_word back n \/ exists k, has_word names k /\ k <> k0 /\ n = s_ "per-kernel:" ++ k.
Proof.
  rewrite kernel_words_split, !in_app_iff, <- !has_word_iff. rewrite in_map_iff. setoid_rewrite filter_In. setoid_rewrite <- has_word_iff. split.
  - intros [H|[(k & <- & I & E)|H]]; [tauto| |tauto]. right. right. exists k. split; [exact I|]. split; [|reflexivity]. apply negb_true_iff in E. now apply seqb_neq.
  - intros [H|[H|(k & I & E & ->)]]; [tauto|tauto|]. right. left. exists k. split; [reflexivity|]. split; [exact I|]. apply negb_true_iff. now apply seqb_neq.
Qed.
Lemma kernel_shape n d : In (n, d) (kernel_stores base names front back k0) ->
  n = [] /\ k_kernel d = k0 /\ k_name base names front back d = base ++ s_ "-" ++ k0 \/
  (exists k, has_word names k /\ k <> k0 /\ n = s_ "per-kernel:" ++ k /\ k_kernel d = k /\ k_name base names front back d = base ++ s_ "-" ++ k) \/
  (has_word front n \/ has_word back n) /\ k_kernel d = k0 /\ (colonless n -> k_name base names front back d = base ++ s_ "-" ++ k0 ++ s_ "-" ++ n).
Proof.
  intros I. apply (proj1 (kstores_in n d)) in I as [[-> ->]|[W ->]]; [left; auto|right]. apply (proj1 (k_words n)) in W as [H|[H|(k & H & E & ->)]].
  - right. split; [tauto|]. apply k_other_store. apply Other. tauto.
  - right. split; [tauto|]. apply k_other_store. apply Other. tauto.
  - left. exists k. split; [exact H|]. split; [exact E|]. split; [reflexivity|]. apply k_variant_store; [|now apply Kernels]. destruct H as [[N _] _]. exact N.
Qed.
Lemma kernel_there k : k = k0 \/ has_word names k -> exists n d, In (n, d) (kernel_stores base names front back k0) /\
  k_kernel d = k /\ k_name base names front back d = base ++ s_ "-" ++ k /\ (n = [] \/ n = s_ "per-kernel:" ++ k).
Proof.
  intros H. destruct (str_eq_dec k k0) as [->|N].
  - exists [], d0. split; [apply kstores_in; now left|]. cbn. auto.
  - destruct H as [H|H]; [congruence|]. eexists _, _. split; [apply kstores_in; right; split; [apply k_words; right; right; exists k; eauto|reflexivity]|].
    destruct (k_variant_store k) as [A B]; [destruct H as [[X _] _]; exact X|now apply Kernels|]. rewrite A, B. auto.
Qed.
Lemma other_there n : has_word front n \/ has_word back n -> exists d, In (n, d) (kernel_stores base names front back k0).
Proof. intros H. eexists. apply kstores_in. right. split; [apply k_words; tauto|reflexivity]. Qed.
End K.

Section C.
Variables vars prefixed for_images back : str.
Hypothesis Back : back = [] \/ exists c r, back = c :: r /\ is_space c = true.
Hypothesis Other : forall n, has_word back n -> ~ exists r, n = s_ "dpkg-customization:" ++ r.
Hypothesis Images : forall i, has_word for_images i -> colonless i.
Variable pre : str.
Let d0 := {| c_pn := None; c_curr := []; c_variant := []; c_image := []; c_extend := None |}.
Notation stores := (customization_stores vars prefixed for_images back pre).
Notation name_of := (c_getvar vars prefixed for_images back pre (s_ "PN")).
Let pn0 := customized_pn vars prefixed for_images pre [].
Let text := image_words for_images ++ back.
Let frozen : cstore := match text with [] => d0 | e => {| c_pn := None; c_curr := []; c_variant := []; c_image := []; c_extend := Some e |} end.

Lemma image_words_split : split_ws text = map (fun i => s_ "dpkg-customization:" ++ i) (split_ws for_images) ++ split_ws back.
Proof.
  unfold text. rewrite split_ws_front by exact Back. f_equal. unfold image_words. apply split_ws_join.
  apply Forall_forall. intros w I. apply in_map_iff in I as (k & <- & I).
  apply word_prefix; [repeat constructor|]. exact (proj1 (Forall_forall _ _) (split_ws_words for_images) k I).
Qed.
Lemma cstores_in n d : In (n, d) stores <-> n = [] /\ d = d0 \/ In n (split_ws text) /\
    d = c_finalize for_images n (extendfunc cstore c_setvar (fun _ d => d) pn0 n frozen).
Proof.
  unfold customization_stores. fold d0.
  rewrite (mf_in cstore (c_getvar vars prefixed for_images back pre) c_setvar (fun _ d => d) (c_finalize for_images) None d0 n d).
  change (c_finalize for_images [] d0) with d0. change (c_getvar vars prefixed for_images back pre (s_ "BBCLASSEXTEND") d0) with text.
  change (c_getvar vars prefixed for_images back pre (s_ "PN") d0) with pn0.
  assert (X : match text with [] => d0 | e :: l => c_setvar (s_ "BBCLASSEXTEND") (e :: l) d0 end = frozen).
  { unfold frozen. destruct text; reflexivity. }
  cbn [wanted]. split; (intros [H|H]; [now left|right]).
  - destruct H as (A & _ & B). split; [exact A|]. rewrite B. now rewrite X.
  - destruct H as (A & B). split; [exact A|]. split; [reflexivity|]. rewrite B. now rewrite X.
Qed.
Lemma frozen_is : c_pn frozen = None /\ c_curr frozen = [] /\ c_variant frozen = [] /\ c_image frozen = [].
Proof. unfold frozen. destruct text; auto. Qed.
Lemma c_image_store i : has_word for_images i -> let d := c_finalize for_images (s_ "dpkg-customization:" ++ i) (extendfunc cstore c_setvar (fun _ d => d) pn0 (s_ "dpkg-customization:" ++ i) frozen) in
  name_of d = customized_pn vars prefixed for_images pre i.
Proof.
  intros H. assert (C := Images i H). assert (CP : colonless (s_ "dpkg-customization")) by (intros I; cbn in I; intuition discriminate).
  destruct (ext_colon (s_ "dpkg-customization") i CP C) as [A B]. change (s_ "dpkg-customization" ++ s_ ":" ++ i) with (s_ "dpkg-customization:" ++ i) in A, B.
  unfold extendfunc. rewrite A, B. destruct frozen_is as (F1 & F2 & F3 & F4). destruct frozen as [fp fc fv fi fe]. cbn in F1, F2, F3, F4. subst.
  change (c_setvar (s_ "BBEXTENDVARIANT") i (c_setvar (s_ "BBEXTENDCURR") (s_ "dpkg-customization") {| c_pn := None; c_curr := []; c_variant := []; c_image := []; c_extend := fe |}))
    with {| c_pn := None; c_curr := s_ "dpkg-customization"; c_variant := i; c_image := []; c_extend := fe |}.
  unfold c_finalize. cbn [c_curr c_variant]. rewrite seqb_refl. cbn [negb orb].
  destruct H as [[N F] H]. rewrite (proj2 (seqb_neq i [])) by exact N. assert (I : In i (split_ws for_images)) by (apply has_word_iff; split; [split|]; assumption).
  destruct (split_ws for_images) as [|a l] eqn:E; [contradiction|]. rewrite <- E in *. rewrite (proj2 (mem_str_In i (split_ws for_images))) by exact I. reflexivity.
Qed.
Lemma c_words n : In n (split_ws text) <-> has_word back n \/ exists i, has_word for_images i /\ n = s_ "dpkg-customization:" ++ i.
Proof.
  rewrite image_words_split, in_app_iff, in_map_iff. setoid_rewrite has_word_iff. split.
  - intros [(i & <- & I)|H]; [right; eauto|tauto].
  - intros [H|(i & I & ->)]; [tauto|left; eauto].
Qed.
Lemma main_there : In ([], d0) stores /\ name_of d0 = pn0.
Proof. split; [apply cstores_in; now left|reflexivity]. Qed.
Lemma image_there i : has_word for_images i -> exists d, In (s_ "dpkg-customization:" ++ i, d) stores /\ name_of d = customized_pn vars prefixed for_images pre i.
Proof. intros H. eexists. split; [apply cstores_in; right; split; [apply c_words; right; eauto|reflexivity]|]. now apply c_image_store. Qed.
Lemma image_only i d : has_word for_images i -> In (s_ "dpkg-customization:" ++ i, d) stores -> name_of d = customized_pn vars prefixed for_images pre i.
Proof. intros H I. apply (proj1 (cstores_in _ _)) in I as [[E _]|[_ ->]]; [discriminate|]. now apply c_image_store. Qed.
Lemma main_only d : In ([], d) stores -> name_of d = pn0.
Proof. intros I. apply (proj1 (cstores_in _ _)) in I as [[_ ->]|[W _]]; [reflexivity|]. exfalso. exact (words_ne _ _ W eq_refl). Qed.
End C.

Lemma package_name vars prefixed for_images image x :
  match customization_prefix vars prefixed for_images image with [] => [] | p => p ++ s_ "-" end ++ x ++
  match customization_suffix vars prefixed for_images image with [] => s_ "-customization" | y => s_ "-customization-" ++ y end =
  customized_pn vars prefixed for_images (x ++ s_ "-customization") image.
Proof.
  unfold customized_pn. f_equal. rewrite <- app_assoc. f_equal. destruct (customization_suffix vars prefixed for_images image); reflexivity.
Qed.
(** The words of CUSTOMIZATION_VARS with an image *)
Lemma vars_image vars for_images i : has_word for_images i -> customization_vars vars for_images i = split_ws vars ++ [i].
Proof.
  intros H. unfold customization_vars. destruct (split_ws for_images) as [|a l] eqn:E.
  - apply has_word_iff in H. rewrite E in H. contradiction.
  - change (s_ " " ++ i) with (" "%char :: i). rewrite split_ws_app by reflexivity. f_equal. apply split_ws_single. exact (proj1 H).
Qed.
Lemma vars_none vars for_images : customization_vars vars for_images [] = split_ws vars.
Proof.
  unfold customization_vars. destruct (split_ws for_images) as [|a l] eqn:E; [now rewrite app_nil_r|].
  change (s_ " " ++ []) with (" "%char :: []). rewrite split_ws_app by reflexivity. apply app_nil_r.
Qed.
Lemma piece_iff w t : contains_sub w t = true <-> piece_of w t.
Proof. apply contains_sub_iff. Qed.
Lemma join_snoc sep l x : l <> [] -> join sep (l ++ [x]) = join sep l ++ sep ++ x.
Proof.
  induction l as [|a l IH]; intros N; [congruence|]. destruct l as [|b l]; [reflexivity|].
  change ((a :: b :: l) ++ [x]) with (a :: (b :: l) ++ [x]). change (join sep (a :: (b :: l) ++ [x])) with (a ++ sep ++ join sep ((b :: l) ++ [x])). rewrite (IH ltac:(discriminate)).
  change (join sep (a :: b :: l)) with (a ++ sep ++ join sep (b :: l)). now rewrite <- !app_assoc.
Qed.
(** With an image that is no piece of CUSTOMIZATION_VARS_PREFIXED the name gets the image at its end *)
Lemma pn_image vars prefixed for_images pre i : has_word for_images i -> ~ piece_of i prefixed ->
  customized_pn vars prefixed for_images pre i = customized_pn vars prefixed for_images pre [] ++ s_ "-" ++ i.
Proof.
  intros H N. assert (F : contains_sub i prefixed = false) by (apply not_true_is_false; intros X; apply N; now apply piece_iff).
  unfold customized_pn, customization_prefix, customization_suffix. rewrite (vars_image _ _ _ H), vars_none, !filter_app. cbn [filter]. rewrite F. cbn [negb].
  rewrite app_nil_r. rewrite <- !app_assoc. f_equal. f_equal.
  set (l := filter (fun v => negb (contains_sub v prefixed)) (split_ws vars)).
  assert (W : Forall word l) by (apply Forall_forall; intros w I; apply filter_In in I as [I _]; exact (proj1 (Forall_forall _ _) (split_ws_words vars) w I)).
  assert (J : forall x, join (s_ "-") (x ++ [i]) <> []).
  { intros x E. destruct x as [|a x]; [cbn in E; subst; destruct H as [[X _] _]; now apply X|]. rewrite (join_snoc (s_ "-") (a :: x) i ltac:(discriminate)) in E. apply app_eq_nil in E as [_ E]. discriminate E. }
  destruct l as [|a l]; [cbn; destruct i as [|c i]; [destruct H as [[X _] _]; congruence|reflexivity]|].
  assert (Q : join (s_ "-") (a :: l) <> []).
  { destruct l; cbn; intros E.
    - inversion W as [|? ? [X _] _]; subst. now apply X.
    - apply app_eq_nil in E as [E _]. inversion W as [|? ? [X _] _]; subst. now apply X. }
  assert (R := join_snoc (s_ "-") (a :: l) i ltac:(discriminate)).
  assert (Q2 := J (a :: l)). rewrite R in *. destruct (join (s_ "-") (a :: l)) as [|c t]; [congruence|]. reflexivity.
Qed.
