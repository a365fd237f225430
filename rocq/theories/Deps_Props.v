(** C40: dependency strings. *)
From Coq Require Import Ascii String List Bool Arith Permutation.
From Verif Require Import Str_Model Str_Proofs Data_Model Data_Proofs Deps_Model Deps_Spec Deps_Proofs.
Import ListNotations.
Open Scope list_scope.

(** *** Reading.  Whatever the blanks and commas, and however each constraint is
    spaced: the names come in the order of first mention, and each has all its
    constraints in order. *)
Theorem all_constraints_read s items wss :
  split_ws (replace_char ","%char [] s) = concat wss -> Forall2 spelled items wss -> Forall good_item items ->
  exists r, explode_versions false s = Some r /\ map fst r = first_mentions items /\
    forall n, In n (map fst items) -> get r n = Some (constraints items n).
Proof.
  intros E S G. unfold explode_versions. rewrite E. destruct (items_steps items wss S G p_start) as (q & -> & _ & R); [split; auto|]. cbn [p_r p_start] in R.
  exists (p_r q). split; auto. rewrite R. split; [apply items_keys|]. intros n I.
  rewrite get_vers by (rewrite items_keys; now apply mentions_In). f_equal. apply (items_get items [] n).
Qed.
Example all_constraints_read_example :
  let items := [(s_ "a", Some (s_ ">=", s_ "1")); (s_ "b", None); (s_ "a", Some (s_ "<", s_ "2"))] in
  Forall good_item items /\ Forall2 spelled items [[s_ "a"; s_ "("; s_ ">="; s_ "1)"]; [s_ "b"]; [s_ "a"; s_ "(<2)"]] /\
  explode_versions false (s_ " a  ( >= 1), b, a (<2)") = Some [(s_ "a", [s_ ">= 1"; s_ "< 2"]); (s_ "b", [])].
Proof.
  cbn zeta. split; [|split; [|vm_compute; reflexivity]].
  - repeat constructor; try discriminate; cbn; intuition discriminate.
  - constructor; [apply (sp_apart2 (s_ "a") (s_ ">=") (s_ "1"))|]. constructor; [apply sp_name|]. constructor; [|constructor].
    apply (sp_tight (s_ "a") (s_ "<") (s_ "2")). cbn. intuition discriminate.
Qed.

(** *** Sorting: the same entries, in ascending order of names. *)
Theorem sorted_reading s r : explode_versions false s = Some r -> NoDup (map fst r) ->
  exists r', explode_versions true s = Some r' /\ Permutation r' r /\ ascending (map fst r').
Proof.
  unfold explode_versions. destruct (words_steps _ _) as [p|]; [|discriminate]. intros X N. injection X as ->. eexists. split; [reflexivity|]. split; [apply sort_keys_perm|].
  apply sorted_ascending. now apply sort_keys_sorted.
Qed.
(** The names are always different. *)
Theorem names_different s r : explode_versions false s = Some r -> NoDup (map fst r).
Proof.
  unfold explode_versions. destruct (words_steps p_start _) as [p|] eqn:W; [|discriminate]. intros X. injection X as <-.
  assert (K : forall ws q q', words_steps q ws = Some q' -> NoDup (map fst (p_r q)) -> NoDup (map fst (p_r q'))).
  { induction ws as [|w ws IH]; cbn [words_steps]; intros q q' H N; [now injection H as <-|].
    assert (IV : forall a i b, in_version a i = Some b -> NoDup (map fst (p_r a)) -> NoDup (map fst (p_r b))).
    { intros a i b. unfold in_version. cbv zeta. destruct (if endswith (s_ ")") i then removelast i else i); [intros Y; injection Y as <-; auto|].
      destruct (p_dep a); [|discriminate]. intros Y; injection Y as <-. cbn [p_r]. intros M. now apply set_nodup. }
    destruct (word_step q w) as [q1|] eqn:Q; [|discriminate]. apply (IH _ _ H). revert Q. unfold word_step. cbv zeta.
    destruct (_ && _); [intros Y; now injection Y as <-|]. cbn [p_incmp p_inv]. destruct (p_incmp q || _).
    - destruct (cut_op _) as [[o i2]|]; [|discriminate]. destruct i2; [intros Y; now injection Y as <-|]. intros Y. now apply IV in Y.
    - destruct (p_inv q); [intros Y; now apply IV in Y|]. intros Y; injection Y as <-. unfold new_dep. cbn [p_r]. destruct (get (p_r q) _) as [[|]|]; auto; now apply set_nodup. }
  apply (K _ _ _ W). constructor.
Qed.
Example sorted_reading_example : explode_versions true (s_ "b (= 1) a") = Some [(s_ "a", []); (s_ "b", [s_ "= 1"])].
Proof. vm_compute. reflexivity. Qed.

(** *** Round trip: printing a dictionary and reading it gives it back. *)
Theorem printed_deps_read_back comma deps : good_deps deps ->
  explode_versions false (join_deps comma deps) = Some deps /\
  (ascending (map fst deps) -> explode_versions true (join_deps comma deps) = Some deps).
Proof.
  intros [N G]. destruct (deps_items deps G) as (items & E & GI & F). unfold explode_versions, join_deps. rewrite E.
  destruct (printed_steps comma items GI) as (q & -> & R). rewrite F in R by exact N. rewrite R. split; auto. intros A. f_equal. apply sort_keys_id. now apply sorted_ascending.
Qed.
Theorem printed_single_read_back comma deps :
  NoDup (map fst deps) -> ascending (map fst deps) ->
  Forall (fun d : str * option str => good_name (fst d) /\ match snd d with None => True | Some c => exists o v, c = constraint_text (o, v) /\ In o operators /\ good_version v end) deps ->
  explode_first (join_first comma deps) = Some deps.
Proof.
  intros N A G.
  set (deps' := map (fun d : str * option str => (fst d, match snd d with None => [] | Some c => [c] end)) deps).
  assert (E : join_first comma deps = join_deps comma deps').
  { unfold join_first, join_deps, deps'. f_equal. clear. induction deps as [|[n [c|]] deps IH]; auto; cbn [map join_items flat_map fst snd app]; f_equal; exact IH. }
  assert (K : map fst deps' = map fst deps) by (unfold deps'; rewrite map_map; apply map_ext; auto).
  assert (GD : good_deps deps').
  { split; [now rewrite K|]. unfold deps'. apply Forall_map. eapply Forall_impl; [|exact G]. intros [n [c|]] [Gn Gc]; cbn [fst snd] in *; auto. }
  destruct (printed_deps_read_back comma deps' GD) as [_ P]. unfold explode_first. rewrite E, P by now rewrite K. f_equal. unfold deps'. rewrite map_map.
  erewrite map_ext; [apply map_id|]. intros [n [c|]]; reflexivity.
Qed.
Example printed_deps_example :
  good_deps [(s_ "a", [s_ ">= 1:2.0-3"; s_ "<< 3"]); (s_ "libfoo+", [])] /\ ascending [s_ "a"; s_ "libfoo+"] /\
  join_deps true [(s_ "a", [s_ ">= 1:2.0-3"; s_ "<< 3"]); (s_ "libfoo+", [])] = s_ "a (>= 1:2.0-3), a (<< 3), libfoo+".
Proof.
  split; [|split; [|reflexivity]].
  - split; [repeat constructor; cbn; intuition discriminate|]. repeat constructor; try discriminate; try (cbn; intuition discriminate).
    + exists (s_ ">="), (s_ "1:2.0-3"). split; [reflexivity|]. split; [cbn; tauto|]. repeat constructor; try discriminate. cbn. intuition discriminate.
    + exists (s_ "<<"), (s_ "3"). split; [reflexivity|]. split; [cbn; tauto|]. repeat constructor; try discriminate. cbn. intuition discriminate.
  - apply (sorted_ascending [(s_ "a", []); (s_ "libfoo+", [])]). repeat constructor.
Qed.
Print Assumptions printed_deps_read_back.

(** *** The list of names. *)
Theorem names_listed s items wss : split_ws s = concat wss -> Forall2 spelled items wss -> Forall good_item items ->
  explode_deps s = map fst items.
Proof.
  intros E S G. unfold explode_deps. rewrite E. clear E. induction S as [|i ws items wss S0 _ IH]; auto. inversion G; subst. cbn [concat map]. rewrite (explode_item i ws _ S0) by auto. now rewrite IH.
Qed.
Example names_listed_example : explode_deps (s_ "a (>= 1) b a ( < 2 )") = [s_ "a"; s_ "b"; s_ "a"].
Proof. vm_compute. reflexivity. Qed.
Print Assumptions names_listed.

(** *** Missing operators are refused. *)
Theorem no_operator_refused (s : str) items (wss : list (list str)) (w : str) (rest : list str) :
  split_ws (replace_char ","%char [] s) = concat wss ++ (s_ "(" ++ w) :: rest -> Forall2 spelled items wss -> Forall good_item items ->
  word w -> (forall o, In o operators -> startswith o w = false) ->
  explode_versions false s = None.
Proof.
  intros E S G [NE W] NO. unfold explode_versions. rewrite E. clear E. destruct (items_steps items wss S G p_start) as (q & W1 & [I V] & R); [split; auto|]. change (list ascii) with str. rewrite words_app, W1.
  cbn [words_steps]. assert (X : word_step q (s_ "(" ++ w) = None); [|now rewrite X]. unfold word_step.
  assert (P : startswith (s_ "(") (s_ "(" ++ w) = true) by (apply startswith_iff; eauto). rewrite P. change (skipn 1 (s_ "(" ++ w)) with w. rewrite strip_nospace by auto.
  assert (Q : seqb w [] = false) by now apply seqb_neq. rewrite Q. cbn [andb p_incmp]. rewrite orb_true_r.
  assert (C : cut_op w = None); [|now rewrite C]. unfold cut_op.
  assert (X2 : existsb (fun o => startswith o w) two_char = false).
  { destruct (existsb _ two_char) eqn:X; auto. apply existsb_exists in X. destruct X as (o & O & X). rewrite NO in X; [discriminate|]. unfold two_char in O. unfold operators. cbn [In] in *. tauto. }
  assert (X1 : existsb (fun o => startswith o w) one_char = false).
  { destruct (existsb _ one_char) eqn:X; auto. apply existsb_exists in X. destruct X as (o & O & X). rewrite NO in X; [discriminate|]. unfold one_char in O. unfold operators. cbn [In] in *. tauto. }
  now rewrite X2, X1.
Qed.
Example no_operator_refused_example : explode_versions false (s_ "a (>= 1) b (~1.0)") = None.
Proof. vm_compute. reflexivity. Qed.

(** *** Refuted: two constraints in a row for the same package.  The second takes over the version of the first. *)
Theorem second_constraint_refuted :
  explode_versions false (s_ "a (>= 1) (<< 2)") = Some [(s_ "a", [s_ ">= 1"; s_ "<< 1 2"])].
Proof. vm_compute. reflexivity. Qed.
(** *** Refuted: one constraint is one entry.  A version with a blank gives two. *)
Theorem blank_version_refuted :
  explode_versions false (s_ "a (= 1.0 beta)") = Some [(s_ "a", [s_ "= 1.0"; s_ "= 1.0 beta"])].
Proof. vm_compute. reflexivity. Qed.
(** *** Refuted: both functions read the same names.  Only one of them drops commas. *)
Theorem names_agree_refuted :
  explode_deps (s_ "a, b") = [s_ "a,"; s_ "b"] /\ explode_versions false (s_ "a, b") = Some [(s_ "a", []); (s_ "b", [])].
Proof. vm_compute. auto. Qed.
(** *** Refuted: a comma separates packages.  Without a blank after it, the names are joined. *)
Theorem comma_joins_refuted : explode_versions false (s_ "a,b") = Some [(s_ "ab", [])].
Proof. vm_compute. reflexivity. Qed.

(** ** Further cases that meet the hypotheses *)
Example printed_single_met : explode_first (join_first true [(s_ "a", Some (s_ ">= 1:2")); (s_ "b", None)]) = Some [(s_ "a", Some (s_ ">= 1:2")); (s_ "b", None)].
Proof.
  apply printed_single_read_back.
  - constructor; [intros [E|[]]; discriminate E|]. constructor; [intros []|constructor].
  - apply (sorted_ascending [(s_ "a", []); (s_ "b", [])]). repeat constructor.
  - constructor; [|constructor; [|constructor]].
    + split; [repeat split; try discriminate; [repeat constructor|intros [E|[]]; discriminate E]|]. exists (s_ ">="), (s_ "1:2"). split; [reflexivity|]. split; [apply mem_str_In; vm_compute; reflexivity|].
      repeat split; try discriminate; [repeat constructor|intros [E|[E|[E|[]]]]; discriminate E].
    + split; [|exact I]. repeat split; try discriminate; [repeat constructor|intros [E|[]]; discriminate E].
Qed.

