(** C47: variables read as lists of words. *)
From Coq Require Import Ascii String List Bool NArith ZArith Arith Lia Permutation.
From Verif Require Import Str_Model Str_Proofs Imgtypes_Model Imgtypes_Proofs Deps_Spec Deps_Proofs Words_Model Words_Spec Words_Proofs.
Import ListNotations.
Open Scope list_scope.

(** [contains]: a non-empty variable that has every word asked for. *)
Theorem contains_is {T} (v : option str) (check : str) (t f : T) :
  (v <> None /\ v <> Some [] /\ (forall w, has_word check w -> var_has v w) -> contains v check t f = t) /\
  (~ (v <> None /\ v <> Some [] /\ (forall w, has_word check w -> var_has v w)) -> contains v check t f = f).
Proof.
  unfold contains. destruct (no_value v) eqn:N.
  - split; auto. intros (A & B & _). exfalso. destruct v as [[|c s]|]; [now apply B|discriminate N|now apply A].
  - assert (V : v <> None /\ v <> Some []) by (destruct v as [[|c s]|]; try discriminate; split; discriminate).
    destruct (forallb (fun w => mem_str w (split_ws (value v))) (split_ws check)) eqn:F; split; auto.
    + intros X. exfalso. apply X. repeat split; try apply V. intros w W. apply var_has_value. apply mem_word. rewrite forallb_forall in F. apply F. now apply has_word_iff.
    + intros (_ & _ & H). exfalso. assert (F' : forallb (fun w => mem_str w (split_ws (value v))) (split_ws check) = true). { apply forallb_forall. intros w W. apply mem_word. apply var_has_value, H. now apply has_word_iff. } congruence.
Qed.
(** [contains_any]: a word in common. *)
Theorem contains_any_is {T} (v : option str) (check : str) (t f : T) :
  ((exists w, has_word check w /\ var_has v w) -> contains_any v check t f = t) /\
  (~ (exists w, has_word check w /\ var_has v w) -> contains_any v check t f = f).
Proof.
  unfold contains_any. destruct (no_value v) eqn:N.
  - split; auto. intros (w & _ & H). exfalso. eapply no_value_none; eauto.
  - destruct (existsb (fun w => mem_str w (split_ws (value v))) (split_ws check)) eqn:F; split; auto.
    + intros X. exfalso. apply X. apply existsb_exists in F. destruct F as (w & I & M). exists w. split; [now apply has_word_iff|]. apply var_has_value. now apply mem_word.
    + intros (w & C & V). exfalso. assert (F' : existsb (fun w => mem_str w (split_ws (value v))) (split_ws check) = true). { apply existsb_exists. exists w. split; [now apply has_word_iff|]. apply mem_word. now apply var_has_value. } congruence.
Qed.
(** [filter]: the common words, tidied. *)
Theorem filter_is v check : tidy (filter_words v check) /\ forall w, has_word (filter_words v check) w <-> has_word check w /\ var_has v w.
Proof.
  unfold filter_words. destruct (no_value v) eqn:N.
  - split; [exists []; repeat split; [constructor|intros [|? ?]; discriminate]|]. intros w. split; [intros H; apply has_word_iff in H; contradiction|]. intros (_ & H). exfalso. eapply no_value_none; eauto.
  - set (l := sorted_set _). assert (W : Forall word l) by (apply (subset_words l check); intros x I; apply sorted_set_in, filter_In in I; apply I). split.
    + exists l. repeat split; auto. apply ascending_pairs. apply sorted_set_pairs.
    + intros w. rewrite <- has_word_iff, split_ws_join by auto. unfold l. rewrite sorted_set_in, filter_In, mem_word, var_has_value, has_word_iff. reflexivity.
Qed.
Theorem tidy_unique s s' : tidy s -> tidy s' -> (forall w, has_word s w <-> has_word s' w) -> s = s'.
Proof.
  intros (ws & F & A & ->) (ws' & F' & A' & ->) E. f_equal. apply pairs_unique; try now apply ascending_pairs. intros x. specialize (E x). rewrite <- !has_word_iff, !split_ws_join in E by auto. exact E.
Qed.
(** Order, repetition and spacing do not matter. *)
Theorem filter_same_words v v' c c' : (forall w, var_has v w <-> var_has v' w) -> (forall w, has_word c w <-> has_word c' w) -> filter_words v c = filter_words v' c'.
Proof. intros V C. apply tidy_unique; try apply filter_is. intros w. rewrite (proj2 (filter_is v c)), (proj2 (filter_is v' c')), V, C. reflexivity. Qed.
Theorem filter_symmetric v c : filter_words (Some v) c = filter_words (Some c) v.
Proof.
  apply tidy_unique; try apply filter_is. intros w. rewrite (proj2 (filter_is (Some v) c)), (proj2 (filter_is (Some c) v)).
  assert (X : forall s, var_has (Some s) w <-> has_word s w) by (intros s; now rewrite var_has_value). rewrite !X. tauto.
Qed.
Theorem filter_again v c c' : filter_words (Some (filter_words v c)) c' = filter_words (Some (filter_words v c')) c.
Proof.
  apply tidy_unique; try apply filter_is. intros w. rewrite (proj2 (filter_is (Some (filter_words v c)) c')), (proj2 (filter_is (Some (filter_words v c')) c)).
  rewrite !var_has_value. cbn [value]. rewrite (proj2 (filter_is v c)), (proj2 (filter_is v c')). tauto.
Qed.
(** The three agree. *)
Theorem any_iff_filter {T} v c (t f : T) : contains_any v c t f = match filter_words v c with [] => f | _ => t end.
Proof.
  destruct (filter_is v c) as (TI & H). destruct (filter_words v c) as [|x s] eqn:E.
  - apply contains_any_is. intros (w & A & B). assert (K : has_word [] w) by (apply H; auto). apply has_word_iff in K. contradiction.
  - apply contains_any_is. destruct TI as (ws & F & _ & J). destruct ws as [|w ws]; [discriminate|]. exists w. apply H. apply has_word_iff. rewrite J, split_ws_join by auto. now left.
Qed.
Theorem contains_iff_filter {T} v c (t f : T) : v <> None -> v <> Some [] -> t <> f -> (contains v c t f = t <-> filter_words v c = filter_words (Some c) c).
Proof.
  intros N1 N2 TF. split.
  - intros C. apply tidy_unique; try apply filter_is. intros w. rewrite (proj2 (filter_is v c)), (proj2 (filter_is (Some c) c)), (var_has_value (Some c)). cbn [value]. split; [tauto|]. intros (A & _). split; auto.
    destruct (in_dec str_eq_dec w (split_ws (value v))) as [I|I]; [apply var_has_value; now apply has_word_iff|]. exfalso. apply TF. transitivity (contains v c t f); [auto|]. apply (proj2 (contains_is v c t f)). intros (_ & _ & K). apply I. apply has_word_iff. apply var_has_value. auto.
  - intros E. apply contains_is. repeat split; auto. intros w W. assert (X : has_word (filter_words (Some c) c) w). { apply filter_is. split; auto. apply var_has_value. auto. } rewrite <- E in X. apply filter_is in X. apply X.
Qed.
(** [both_contain] and [set_intersect], for every iteration order of sets. *)
Definition listing (order : list str -> list str) : Prop := forall l, Permutation (order l) l.
Lemma set_of_in order l x : listing order -> In x (set_of order l) <-> In x l.
Proof. intros O. unfold set_of. rewrite <- (sorted_set_in l x). split; apply Permutation_in; [|symmetry]; apply O. Qed.
Theorem set_intersect_is order v1 v2 : listing order -> exists ws, set_intersect order (Some v1) (Some v2) = Some (join (s_ " ") ws) /\ NoDup ws /\ forall w, In w ws <-> has_word v1 w /\ has_word v2 w.
Proof.
  intros O. eexists. split; [reflexivity|]. split.
  - unfold set_of. eapply Permutation_NoDup; [symmetry; apply O|]. apply pairs_nodup, sorted_set_pairs.
  - intros w. rewrite (set_of_in order _ w O), filter_In, mem_word, has_word_iff. reflexivity.
Qed.
Theorem both_contain_is order v1 v2 c : listing order -> exists ws, both_contain order (Some v1) (Some v2) c = Some (join (s_ " ") ws) /\ NoDup ws /\
  (((forall w, has_word c w -> has_word v1 w /\ has_word v2 w) /\ forall w, In w ws <-> has_word c w) \/ ((exists w, has_word c w /\ ~ (has_word v1 w /\ has_word v2 w)) /\ ws = [])).
Proof.
  intros O. cbn [both_contain]. destruct (forallb (fun w => mem_str w (split_ws v1)) (split_ws c)) eqn:F1; [destruct (forallb (fun w => mem_str w (split_ws v2)) (split_ws c)) eqn:F2|].
  - eexists. split; [reflexivity|]. split; [unfold set_of; eapply Permutation_NoDup; [symmetry; apply O|]; apply pairs_nodup, sorted_set_pairs|]. left. rewrite forallb_forall in F1, F2. split.
    + intros w W. apply has_word_iff in W. split; apply mem_word; auto.
    + intros w. rewrite (set_of_in order _ w O). apply has_word_iff.
  - exists []. split; [reflexivity|]. split; [constructor|]. right. split; auto. assert (X : existsb (fun w => negb (mem_str w (split_ws v2))) (split_ws c) = true). { clear -F2. induction (split_ws c) as [|w l IH]; [discriminate|]. cbn in *. destruct (mem_str w (split_ws v2)); auto. }
    apply existsb_exists in X. destruct X as (w & I & M). exists w. split; [now apply has_word_iff|]. intros (_ & H). apply mem_word in H. rewrite H in M. discriminate.
  - exists []. split; [reflexivity|]. split; [constructor|]. right. split; auto. assert (X : existsb (fun w => negb (mem_str w (split_ws v1))) (split_ws c) = true). { clear -F1. induction (split_ws c) as [|w l IH]; [discriminate|]. cbn in *. destruct (mem_str w (split_ws v1)); auto. }
    apply existsb_exists in X. destruct X as (w & I & M). exists w. split; [now apply has_word_iff|]. intros (H & _). apply mem_word in H. rewrite H in M. discriminate.
Qed.
(** [features_backfill]: nothing is lost, what is added was neither there nor declined, and twice is as once. *)
Theorem backfill_is v b c : forall w, var_has (features_backfill v b c) w <-> var_has v w \/ (var_has b w /\ ~ var_has c w).
Proof.
  intros w. unfold features_backfill. set (add := filter _ (split_ws (value b))).
  assert (A : forall x, In x add <-> has_word (value b) x /\ ~ has_word (value v) x /\ ~ has_word (value c) x). { intros x. unfold add. rewrite filter_In, andb_true_iff, !negb_true_iff, !mem_str_false, !has_word_iff. tauto. }
  rewrite !var_has_value. destruct add as [|a l] eqn:E.
  - split; auto. intros [H|(B & C)]; auto. destruct (in_dec str_eq_dec w (split_ws (value v))) as [I|I]; [now apply has_word_iff|]. exfalso. apply (proj2 (A w)). split; auto. split; auto. intros H. apply I. apply has_word_iff. exact H.
  - cbn [value]. rewrite <- !has_word_iff. change (s_ " " ++ join (s_ " ") (a :: l)) with (" "%char :: join (s_ " ") (a :: l)). rewrite split_ws_app by reflexivity. rewrite split_ws_join.
    2:{ apply (subset_words (a :: l) (value b)). intros x I. apply has_word_iff. apply A in I. apply I. }
    rewrite in_app_iff, A, !has_word_iff. split; [tauto|]. intros [H|(B & C)]; auto. destruct (in_dec str_eq_dec w (split_ws (value v))) as [I|I]; [left; now apply has_word_iff|]. right. split; auto. split; auto. intros H. apply I. apply has_word_iff. exact H.
Qed.
Theorem backfill_keeps v b c : exists t, value (features_backfill v b c) = value v ++ t.
Proof. unfold features_backfill. destruct (filter _ (split_ws (value b))); [exists []; now rewrite app_nil_r|]. eexists. reflexivity. Qed.
Theorem backfill_twice v b c : features_backfill (features_backfill v b c) b c = features_backfill v b c.
Proof.
  pose proof (backfill_is v b c) as K. set (u := features_backfill v b c) in *. unfold features_backfill. destruct (filter _ (split_ws (value b))) as [|x l] eqn:E; auto. exfalso.
  assert (I : In x (x :: l)) by now left. rewrite <- E in I. apply filter_In in I. destruct I as (I & P). apply andb_true_iff in P. rewrite !negb_true_iff, !mem_str_false in P. destruct P as (P & Q). apply P. apply has_word_iff, var_has_value, K. right. split; [apply var_has_value; now apply has_word_iff|]. intros H. apply Q. now apply has_word_iff, var_has_value.
Qed.
(** [str_filter] and [str_filter_out] split the words between them, in order. *)
Theorem str_filter_is m s : split_ws (str_filter m s) = filter m (split_ws s) /\ split_ws (str_filter_out m s) = filter (fun x => negb (m x)) (split_ws s) /\
  Permutation (split_ws (str_filter m s) ++ split_ws (str_filter_out m s)) (split_ws s).
Proof.
  assert (A : forall g, split_ws (join (s_ " ") (filter g (split_ws s))) = filter g (split_ws s)) by (intros g; apply split_ws_join, (subset_words _ s); intros x I; apply filter_In in I; apply I).
  unfold str_filter, str_filter_out. rewrite !A. repeat split; auto. clear A. induction (split_ws s) as [|w l IH]; cbn [filter app]; auto. destruct (m w); cbn [negb app]; [now apply perm_skip|]. etransitivity; [symmetry; apply Permutation_middle|]. now apply perm_skip.
Qed.
(** [build_depends_string] names the task behind every dependency. *)
Theorem build_depends_is depends task : Forall (fun c => is_space c = false) task -> split_ws (build_depends_string depends task) = map (fun d => d ++ s_ ":" ++ task) (split_ws depends).
Proof.
  intros T. apply split_ws_join. apply Forall_forall. intros x I. apply in_map_iff in I. destruct I as (d & <- & D). pose proof (split_ws_words depends) as F. rewrite Forall_forall in F. destruct (F d D) as (N & FD). split; [destruct d; [congruence|discriminate]|].
  apply Forall_app. split; auto. apply Forall_app. split; [repeat constructor|exact T].
Qed.
(** [prune_suffix] of bitbake: the first suffix of the list that fits, and no other. *)
Theorem prune_first_is var suffixes :
  (prune_first var suffixes = var /\ forall x, In x suffixes -> x <> [] -> ~ exists a, var = a ++ x) \/
  exists before x after, suffixes = before ++ x :: after /\ x <> [] /\ var = prune_first var suffixes ++ x /\ forall y, In y before -> y <> [] -> ~ exists a, var = a ++ y.
Proof.
  induction suffixes as [|x l IH]; cbn [prune_first]; [left; split; [auto|intros ? []]|]. destruct (negb (seqb x []) && endswith x var) eqn:E.
  - right. apply andb_true_iff in E. destruct E as (N & E). apply negb_true_iff, seqb_neq in N. apply endswith_iff in E. destruct E as (a & E). exists [], x, l. split; [reflexivity|]. split; [exact N|]. split; [|intros ? []]. rewrite E at 2. rewrite drop_end_app. exact E.
  - assert (NX : x <> [] -> ~ exists a, var = a ++ x). { intros N X. apply endswith_iff in X. apply seqb_neq in N. rewrite X, N in E. discriminate. }
    destruct IH as [(-> & H)|(b & y & r & -> & Y & V & H)]; [left; split; auto; intros y [<-|I]; auto|]. right. exists (x :: b), y, r. repeat split; auto. intros z [<-|I]; auto.
Qed.
(** That of OE: suffixes of the list, one after the other, and then the prefix. *)
Theorem prune_suffixes_is var suffixes ml : exists p ends, var = p ++ prune_suffixes var suffixes ml ++ concat (rev ends) /\ (forall x, In x ends -> In x suffixes /\ x <> []) /\ (p = [] \/ Some p = ml) /\
  (forall q, ml = Some q -> q <> [] -> startswith q (prune_suffixes var suffixes ml) = true -> p = q).
Proof.
  assert (G : forall l var, exists ends, var = fold_left (fun v x => if negb (seqb x []) && endswith x v then drop_end (length x) v else v) l var ++ concat (rev ends) /\ forall x, In x ends -> In x l /\ x <> []).
  { clear. induction l as [|x l IH]; intros var; [exists []; cbn; rewrite app_nil_r; split; [auto|intros ? []]|]. cbn [fold_left]. destruct (negb (seqb x []) && endswith x var) eqn:E.
    - apply andb_true_iff in E. destruct E as (N & E). apply negb_true_iff, seqb_neq in N. apply endswith_iff in E. destruct E as (a & ->). rewrite drop_end_app. destruct (IH a) as (ends & V & H). exists (x :: ends). cbn [rev]. rewrite concat_app. cbn [concat]. rewrite app_nil_r, app_assoc. split; [now rewrite <- V|]. intros y [<-|I]; [split; [now left|auto]|]. destruct (H y I). split; [now right|auto].
    - destruct (IH var) as (ends & V & H). exists ends. split; auto. intros y I. destruct (H y I). split; [now right|auto]. }
  destruct (G suffixes var) as (ends & V & H). unfold prune_suffixes. set (v := fold_left _ suffixes var) in *. destruct ml as [[|c q]|].
  - exists [], ends. repeat split; auto; try apply H; auto. intros q [= <-]. congruence.
  - destruct (startswith (c :: q) v) eqn:S.
    + pose proof S as S'. apply startswith_iff in S. destruct S as (t & T). exists (c :: q), ends. assert (K : v = (c :: q) ++ skipn (length (c :: q)) v) by (rewrite T at 2; rewrite skipn_app, skipn_all, Nat.sub_diag; cbn [skipn app]; now rewrite T). repeat split; try apply H; auto; [rewrite app_assoc, <- K; auto|]. intros q' [= <-]. auto.
    + exists [], ends. repeat split; auto; try apply H; auto. intros q' [= <-] _ X. congruence.
  - exists [], ends. repeat split; auto; try apply H; auto. discriminate.
Qed.
(** [trim_version]: the first parts. *)
Theorem trim_version_is version n t : trim_version version n = Some t -> split_on "."%char t = firstn n (split_on "."%char version) /\ exists r, version = t ++ r.
Proof.
  unfold trim_version. destruct n as [|n]; [discriminate|]. intros [= <-]. destruct (split_on_spec "."%char version) as (F & NE & J).
  split; [apply split_on_join; [destruct (split_on "." version); [congruence|discriminate]|apply no_dots]|].
  destruct (firstn_join (S n) (split_on "."%char version) ltac:(discriminate)) as [r R]. exists r. etransitivity; [symmetry; exact J|exact R].
Qed.
Theorem trim_twice version n m : n <> 0 -> m <> 0 -> exists t, trim_version version n = Some t /\ trim_version t m = trim_version version (Nat.min m n).
Proof.
  intros N M. destruct n as [|n]; [congruence|]. destruct m as [|m]; [congruence|]. eexists. split; [reflexivity|]. pose proof (proj1 (trim_version_is version (S n) _ eq_refl)) as E. unfold trim_version. rewrite E, firstn_firstn. reflexivity.
Qed.
(** [squashspaces] is splitting and joining. *)
Theorem squash_words s : squashspaces s = join (s_ " ") (split_ws s) /\ split_ws (squashspaces s) = split_ws s.
Proof. rewrite squash_is. split; auto. apply split_ws_join. apply split_ws_words. Qed.
(** The two booleans agree where both accept, and the case of letters does not matter. *)
Theorem booleans_agree s d x y : s <> [] -> to_boolean (Some s) d = Some x -> boolean (Some s) = Some y -> x = Some y.
Proof.
  intros N. unfold to_boolean, boolean. destruct s as [|c s]; [congruence|]. cbn [no_value value]. set (n := lower (c :: s)). intros A B.
  destruct (mem_str n [s_ "y"; s_ "yes"; s_ "1"; s_ "true"]) eqn:T.
  - apply mem_str_In in T. injection A as <-. f_equal. destruct T as [T|[T|[T|[T|[]]]]]; rewrite <- T in B; vm_compute in B; congruence.
  - destruct (mem_str n [s_ "n"; s_ "no"; s_ "0"; s_ "false"]) eqn:F; [|discriminate]. apply mem_str_In in F. injection A as <-. f_equal. destruct F as [F|[F|[F|[F|[]]]]]; rewrite <- F in B; vm_compute in B; congruence.
Qed.
Theorem boolean_case s s' d : lower s = lower s' -> boolean (Some s) = boolean (Some s') /\ to_boolean (Some s) d = to_boolean (Some s') d.
Proof. intros E. unfold boolean, to_boolean. destruct s, s'; try discriminate E; auto. cbn [no_value value]. rewrite E. auto. Qed.
(** The first -j decides. *)
Theorem jobs_found int a b n : Forall (fun w => word w /\ startswith (s_ "-j") w = false) a -> int (dec n) = Some (Z.of_N n) -> n <> 0%N ->
  (forall w, In w b -> word w) -> parallel_make int (Some (join (s_ " ") (a ++ [s_ "-j"; dec n] ++ b))) = Jobs (Z.of_N n) /\ parallel_make int (Some (join (s_ " ") (a ++ [s_ "-j" ++ dec n] ++ b))) = Jobs (Z.of_N n).
Proof.
  intros A I NZ B. destruct (dec_spec n) as (DN & DD & _).
  assert (DS : Forall (fun c => is_space c = false) (dec n)) by (eapply Forall_impl; [intros c; apply digit_not_space|exact DD]).
  assert (WD : word (dec n)) by (split; auto). assert (WJ : word (s_ "-j" ++ dec n)) by (split; [discriminate|apply Forall_app; split; [repeat constructor|apply DS]]).
  assert (WA : Forall word a) by (eapply Forall_impl; [|exact A]; intros w X; apply X). assert (WB : Forall word b) by now apply Forall_forall.
  assert (SK : forall rest, parallel_words int (a ++ rest) = parallel_words int rest). { intros rest. clear -A. induction A as [|w a (W & S) A IH]; auto. cbn [app parallel_words]. rewrite S. destruct (seqb w (s_ "-j")) eqn:E; auto. apply seqb_eq in E. subst w. discriminate. }
  unfold parallel_make. cbn [value]. split; rewrite split_ws_join, SK by (repeat (apply Forall_app; split; auto); repeat constructor; auto; try discriminate; apply WJ); cbn [app parallel_words].
  - rewrite seqb_refl, I. reflexivity.
  - destruct (seqb (s_ "-j" ++ dec n) (s_ "-j")) eqn:E. { apply seqb_eq in E. destruct (dec n); [congruence|discriminate]. } rewrite startswith_app. change (skipn 2 (s_ "-j" ++ dec n)) with (dec n).
    assert (ST : strip (dec n) = dec n). { destruct (dec n) as [|c r] eqn:DE; [congruence|]. unfold strip. rewrite lstrip_nospace by now inversion DS. destruct (exists_last (l := c :: r) ltac:(discriminate)) as (u & x & U). rewrite U. apply rstrip_snoc. rewrite U in DS. apply Forall_app in DS. destruct DS as (_ & X). now inversion X. }
    rewrite ST, I. reflexivity.
Qed.
Theorem jobs_limited int v fmt l n : parallel_make int v = Jobs n -> n <> 0%Z -> l <> 0%Z -> exists m, parallel_make_argument int v fmt (Some l) = Some (fmt m) /\ (m <= n)%Z /\ (m <= l)%Z /\ (m = n \/ m = l).
Proof. intros P N L. unfold parallel_make_argument. rewrite P. apply Z.eqb_neq in N, L. rewrite N, L. exists (Z.min l n). repeat split; lia. Qed.
(** System packages are left out; what remains keeps its order. *)
Theorem packages_kept pn packages : (forall p, In p (packages_filter_out_system pn packages) <->
  has_word packages p /\ ~ In p [pn; pn ++ s_ "-dbg"; pn ++ s_ "-dev"; pn ++ s_ "-doc"; pn ++ s_ "-locale"; pn ++ s_ "-staticdev"; pn ++ s_ "-src"] /\ ~ exists a b, p = a ++ (pn ++ s_ "-locale-") ++ b) /\
  exists g, packages_filter_out_system pn packages = filter g (split_ws packages).
Proof.
  split; [|eexists; reflexivity]. intros p. unfold packages_filter_out_system. rewrite filter_In, andb_true_iff, !negb_true_iff, mem_str_false, has_word_iff. cbn [map]. change (pn ++ s_ "") with (pn ++ []). rewrite app_nil_r.
  rewrite <- (contains_sub_iff (pn ++ s_ "-locale-") p). destruct (contains_sub (pn ++ s_ "-locale-") p); intuition congruence.
Qed.

(** ** Cases *)
Example contains_case : contains (Some (s_ "a  b c")) (s_ "c a") 1 2 = 1 /\ contains (Some (s_ "a b c")) (s_ "c d") 1 2 = 2 /\ contains_any (Some (s_ "a b c")) (s_ "d c") 1 2 = 1 /\ filter_words (Some (s_ "z b  a z")) (s_ "a z q") = s_ "a z".
Proof. vm_compute. auto. Qed.
Example word_case : has_word (s_ "ab cd") (s_ "cd") /\ ~ has_word (s_ "ab cd") (s_ "d").
Proof. split; [apply has_word_iff; vm_compute; auto|]. intros H. apply has_word_iff in H. vm_compute in H. intuition discriminate. Qed.
Example backfill_case : features_backfill (Some (s_ "a b")) (Some (s_ "c d")) (Some (s_ "d")) = Some (s_ "a b c").
Proof. reflexivity. Qed.
Example listing_case : listing (fun l => rev l) /\ set_intersect (fun l => rev l) (Some (s_ "a b c")) (Some (s_ "b c d")) = Some (s_ "c b").
Proof. split; [intros l; symmetry; apply Permutation_rev|vm_compute; reflexivity]. Qed.
Example jobs_case : parallel_make (fun s => Some (Z.of_N (dec_val s))) (Some (s_ "-l 4 -j 16")) = Jobs 16.
Proof. vm_compute. reflexivity. Qed.
Example trim_case : trim_version (s_ "1.2.3") 2 = Some (s_ "1.2").
Proof. vm_compute. reflexivity. Qed.

(** ** What does not hold *)
(** [contains] depends on the words of the variable only. *)
Theorem contains_words_refuted : (forall w, var_has (Some []) w <-> var_has (Some (s_ " ")) w) /\ contains (Some []) [] true false = false /\ contains (Some (s_ " ")) [] true false = true.
Proof. split; [|auto]. intros w. rewrite !var_has_value. cbn [value]. rewrite <- !has_word_iff. reflexivity. Qed.
(** The two booleans accept the same words. *)
Theorem booleans_differ_refuted : boolean (Some (s_ "t")) = Some true /\ to_boolean (Some (s_ "t")) None = None /\ boolean (Some []) = None /\ to_boolean (Some []) (Some true) = Some (Some true).
Proof. vm_compute. auto. Qed.
(** [features_backfill] adds a feature once. *)
Theorem backfill_once_refuted : features_backfill None (Some (s_ "a a")) None = Some (s_ " a a").
Proof. reflexivity. Qed.
(** A limit of zero limits, -j alone is accepted. *)
Theorem jobs_edges_refuted : let int := fun s => Some (Z.of_N (dec_val s)) in parallel_make_argument int (Some (s_ "-j 8")) (fun z => dec (Z.to_N z)) (Some 0%Z) = Some (s_ "8") /\ parallel_make int (Some (s_ "-l 3 -j")) = BadJobs.
Proof. vm_compute. auto. Qed.
(** Only packages of the recipe are left out. *)
Theorem foreign_locale_refuted : packages_filter_out_system (s_ "c") (s_ "libc-locale-en c-doc") = [].
Proof. vm_compute. reflexivity. Qed.

Print Assumptions contains_is.
Print Assumptions contains_any_is.
Print Assumptions filter_is.
Print Assumptions filter_same_words.
Print Assumptions contains_iff_filter.
Print Assumptions both_contain_is.
Print Assumptions backfill_is.
Print Assumptions prune_suffixes_is.
Print Assumptions trim_twice.
Print Assumptions squash_words.
Print Assumptions jobs_found.
Print Assumptions packages_kept.

(** ** Further cases that meet the hypotheses *)
Example tidy_met : tidy (filter_words (Some (s_ "z b  a z")) (s_ "a z q")) /\ filter_words (Some (s_ "z b  a z")) (s_ "a z q") = s_ "a z".
Proof. split; [apply filter_is|vm_compute; reflexivity]. Qed.

