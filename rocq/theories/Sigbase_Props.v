(** C52, C53: what a task's base hash covers and what it does not depend on. *)
From Coq Require Import String Ascii List Arith Bool Lia.
From Verif Require Import Str_Model Str_Proofs Sstman_Proofs Sigbase_Model Sigbase_Spec Sigbase_Proofs.
Import ListNotations.

(** C52.  The recorded dependencies of a task are exactly the variables, flags and library
    functions its text uses, directly or through others.  Partial: as long as no variable has
    two applicable :remove texts and no flag name is a proper part of a text in the list of
    ignored flags (see the two refutations below). *)
Theorem base_deps_exact_partial : forall s fuel task seen,
  one_remove s -> whole_flag_names s -> task_deps s fuel task = Some seen ->
  forall x, In x seen <-> reaches s task x.
Proof.
  intros s fuel task seen O W T x. rewrite reaches_path by auto. exact (closure_exact (fun k => fst (build_dependencies s k)) task fuel seen T x).
Qed.

(** C52.  Nothing is recorded that is not used, without restriction. *)
Theorem base_deps_used : forall s fuel task seen x,
  task_deps s fuel task = Some seen -> In x seen -> reaches s task x.
Proof. intros s fuel task seen x T I. apply path_reaches. exact (proj1 (closure_exact (fun k => fst (build_dependencies s k)) task fuel seen T x) I). Qed.

(** C52.  The collection ends, also when variables refer to each other in circles. *)
Theorem base_deps_found : forall s task U,
  (forall k x, k = task \/ In k U -> depends s k x -> In x U) ->
  forall fuel, length U <= fuel -> task_deps s fuel task <> None.
Proof.
  intros s task U C fuel L. unfold task_deps. apply (closure_stops (fun k => fst (build_dependencies s k)) U).
  - intros x X. split; [|intros []]. eapply C; [left; reflexivity|]. now apply build_deps_sub.
  - intros k x K X. eapply C; [right; exact K|]. now apply build_deps_sub.
  - eapply Nat.le_trans; [|exact L]. apply NoDup_incl_length; [apply NoDup_nodup|]. intros x X. apply nodup_In, minus_in in X. tauto.
Qed.

(** C52.  Changing the text of one variable that the task uses changes the hashed text
    ([fun t => t] as digest shows it; the hash is the digest of that text). *)
Theorem base_change_detected_partial : forall s fuel task x v,
  one_remove s -> whole_flag_names s -> task_deps s fuel task <> None ->
  x = task \/ reaches s task x ->
  s_mod s x = None -> ordinary x -> no_flag (e_flags (s_entry s x)) (s_ "vardepvalue") ->
  no_flag (e_flags (s_entry s x)) (s_ "vardepvalueexclude") ->
  v <> e_value (s_entry s x) ->
  base_hash (fun t => t) (set_text s x v) fuel task <> base_hash (fun t => t) s fuel task /\
  forall H s', base_hash H s' fuel task = option_map H (base_hash (fun t => t) s' fuel task).
Proof.
  intros s fuel task x v O W T R M OR N1 N2 D. split.
  2:{ intros H s'. unfold base_hash. now destruct (task_deps s' fuel task). }
  unfold base_hash. assert (TD : task_deps (set_text s x v) fuel task = task_deps s fuel task).
  { unfold task_deps. rewrite set_text_deps. apply (closure_ext (fun k => fst (build_dependencies s k)) _ task).
    - intros; apply set_text_deps. - intros y Y. now apply p_one. }
  rewrite TD. destruct (task_deps s fuel task) as [seen|] eqn:E; [|congruence].
  intros Q. assert (Q' : base_text (fun k => snd (build_dependencies (set_text s x v) k)) seen task = base_text (fun k => snd (build_dependencies s k)) seen task) by congruence.
  revert Q'. apply (base_text_diff _ _ _ _ x).
  - destruct R as [R|R]; auto. right. now apply (base_deps_exact_partial s fuel task seen O W E).
  - intros y Y. now rewrite set_text_other.
  - destruct (set_text_self s x v M OR N1 N2) as (suf & A & B). unfold text_of. rewrite A, B. intros Q2. apply app_inv_tail in Q2. auto.
Qed.

(** C53.  Variables the task does not use, and words nobody asks about, do not matter: two
    configurations that agree on the task and on everything it uses give the same hash. *)
Theorem base_hash_only_used : forall H s s' fuel task,
  same_config s s' -> (forall k, k = task \/ reaches s task k -> same_for s s' k) ->
  base_hash H s' fuel task = base_hash H s fuel task.
Proof.
  intros H s s' fuel task C A. apply reaches_path_incl. intros x X. apply build_same; auto. apply A. destruct X as [X|X]; auto. right. now apply path_reaches.
Qed.

(** C53.  The variables listed as ignored have no influence at all, whatever refers to them. *)
Theorem base_hash_ignored : forall H s s' fuel task,
  same_config s s' -> ~ In task (s_ignored s) ->
  (forall k, ~ In k (s_ignored s) -> s_mod s' k = s_mod s k /\ s_entry s' k = s_entry s k /\ s_getvar s' k = s_getvar s k) ->
  s_flag s' = s_flag s ->
  base_hash H s' fuel task = base_hash H s fuel task.
Proof.
  intros H s s' fuel task C T A F. apply base_hash_only_used; auto. intros k K.
  assert (NK : ~ In k (s_ignored s)). { destruct K as [->|K]; auto. eapply reaches_not_ignored; eauto. }
  destruct (A k NK) as (M & E & _). split; [auto|]. split; [auto|]. split; [intros; now rewrite F|].
  intros q item w Q NQ I. destruct (A q NQ) as (_ & _ & G). now rewrite G.
Qed.

(** C53.  The text of an excluded variable does not matter: [vardepsexclude] keeps a variable
    that is used nowhere else out of the hash. *)
Theorem base_hash_excluded : forall H s fuel task x v,
  x <> task -> ~ reaches s task x ->
  base_hash H (set_text s x v) fuel task = base_hash H s fuel task.
Proof.
  intros H s fuel task x v N R. apply reaches_path_incl. intros k [->|K].
  - apply set_text_other. congruence.
  - apply set_text_other. intros ->. apply R. now apply path_reaches.
Qed.

(** *** The two gaps *)
Definition noparse := mkParse [] [] [].
Definition plain (v : str) (refs : list str) := mkEntry Plain v (mkParse refs [] []) [] [].
Definition nothing := mkEntry Plain [] noparse [] [].

(** A = "x y z", A:remove = "${B}", A:remove = "${C}" *)
Definition two_removes : store :=
  mkStore [] (fun k =>
    if seqb k (s_ "do_build") then mkEntry Shell (s_ "echo ${A}") (mkParse [s_ "A"] [] []) [] []
    else if seqb k (s_ "A") then mkEntry Plain (s_ "x y z") noparse
      [(s_ "${B}", mkParse [s_ "B"] [] []); (s_ "${C}", mkParse [s_ "C"] [] [])] []
    else if seqb k (s_ "B") then plain (s_ "x") []
    else if seqb k (s_ "C") then plain (s_ "z") [] else nothing)
    (fun _ _ => (None, noparse)) (fun _ => []) (fun _ => None) [] [] [].

Lemma ordinary_no_bracket k : ~ In "]"%char k -> ordinary k.
Proof. intros N v f (r & -> & _). apply N. rewrite !in_app_iff. cbn. auto 8. Qed.

(** C53.  Text listed in vardepvalueexclude does not count: only what is left after striking it out. *)
Lemma struck_replace x v r : x <> [] -> struck x v r -> replace_str x [] v = r.
Proof.
  intros N K. unfold replace_str. destruct x as [|c x]; [congruence|]. induction K as [|v r K IH|d v r F K IH]; auto.
  - cbn [app replace_aux]. assert (E : startswith (c :: x) (c :: x ++ v) = true) by (apply startswith_iff; now exists v). rewrite E. cbn [app length].
    replace (S (length x) - 1) with (length x) by lia. rewrite replace_aux_skip. exact IH.
  - cbn [replace_aux]. assert (E : startswith (c :: x) (d :: v) = false); [|rewrite E; now rewrite IH].
    destruct (startswith (c :: x) (d :: v)) eqn:E; auto. apply startswith_iff in E. destruct E as [t E]. now apply F in E.
Qed.
Theorem base_struck_text : forall H s fuel task x v excl r,
  s_mod s x = None -> ordinary x -> flag_is (e_flags (s_entry s x)) (s_ "vardepvalueexclude") excl -> excl <> [] -> ~ In "|"%char excl ->
  e_removes (s_entry s x) = [] -> p_contains (e_parse (s_entry s x)) = [] ->
  struck excl (e_value (s_entry s x)) r -> struck excl v r ->
  base_hash H (set_text s x v) fuel task = base_hash H s fuel task.
Proof.
  intros H s fuel task x v excl r M O F NE NB R C S1 S2. apply reaches_path_incl. intros k _. destruct (str_eq_dec k x) as [->|N]; [|now apply set_text_other].
  apply flag_key_none in O. apply flag_of_some in F.
  assert (V : forall w, value_exclude (e_flags (s_entry s x)) w = replace_str excl [] w).
  { intros w. unfold value_exclude. rewrite F. rewrite split_on_single by now apply no_char_In. cbn [fold_left]. destruct excl; [congruence|reflexivity]. }
  unfold build_dependencies. rewrite O. cbn [set_text s_mod s_entry s_ignored]. fold (set_text s x v). rewrite M, seqb_refl. cbn [e_flags].
  unfold body_deps. cbn [e_flags e_parse e_kind e_removes e_value]. rewrite R, C. rewrite <- (struck_replace _ _ _ NE S2) in S1. apply struck_replace in S1; auto.
  destruct (flag_of (e_flags (s_entry s x)) (s_ "vardepvalue")); [reflexivity|].
  assert (HC : forall st ex w, handle_contains st ex w [] = w) by (intros; apply app_nil_r). assert (HR : forall st ex w, handle_remove st ex [] w = w) by reflexivity.
  destruct (e_kind (s_entry s x)); rewrite ?HC, ?HR, !V, S1; reflexivity.
Qed.
(** C52 is false: what a second :remove text refers to is not tracked.  Changing C from z to y
    changes the value of A, and the hash stays. *)
Theorem base_second_remove_untracked_refuted :
  exists s task x v, reaches s task x /\ v <> e_value (s_entry s x) /\ task_deps s 9 task <> None /\
  forall H, base_hash H (set_text s x v) 9 task = base_hash H s 9 task.
Proof.
  exists two_removes, (s_ "do_build"), (s_ "C"), (s_ "y"). split; [|split; [|split]].
  - apply (r_step _ _ (s_ "A")).
    + apply d_var; [reflexivity|apply ordinary_no_bracket; cbn; intuition discriminate| |intros (v & (l & r & E & _) & _); destruct l; discriminate|intros []].
      apply u_ref; [intros p []|]. now left.
    + apply r_one. apply d_var; [reflexivity|apply ordinary_no_bracket; cbn; intuition discriminate| |intros (v & (l & r & E & _) & _); destruct l; discriminate|intros []].
      apply (u_remove _ _ _ (s_ "${C}") (mkParse [s_ "C"] [] [])); [intros p []|discriminate|now right; left|now left].
  - discriminate.
  - vm_compute. discriminate.
  - intros H. apply reaches_path_incl. intros k K. apply set_text_other. intros ->. destruct K as [K|K]; [discriminate|].
    assert (E : task_deps two_removes 9 (s_ "do_build") = Some [s_ "A"; s_ "B"]) by (vm_compute; reflexivity).
    apply (closure_exact _ _ _ _ E) in K. destruct K as [K|[K|[]]]; discriminate.
Qed.

(** do_build[dirs] = "${D}", with the flags Isar ignores. *)
Definition dirs_flag : store :=
  mkStore [] (fun k =>
    if seqb k (s_ "do_build") then mkEntry Shell (s_ "make") noparse [] [(s_ "dirs", s_ "${D}")]
    else if seqb k (s_ "D") then plain (s_ "/a") [] else nothing)
    (fun v f => if seqb v (s_ "do_build") && seqb f (s_ "dirs") then (Some (s_ "${D}"), mkParse [s_ "D"] [] []) else (None, noparse))
    (fun _ => []) (fun _ => None) [] (s_ "doc deps depends stamp-extra-info sstate-outputdirs filename") [].

(** C52 is false: the flag [dirs] is taken to be ignored because its name is a part of
    "sstate-outputdirs"; moving the directory a task runs in does not change its hash. *)
Theorem base_flag_name_part_refuted :
  exists s task x v, reaches s task x /\ v <> e_value (s_entry s x) /\ task_deps s 9 task <> None /\
  ~ In (s_ "dirs") (split_ws (s_flagsexcl s)) /\
  forall H, base_hash H (set_text s x v) 9 task = base_hash H s 9 task.
Proof.
  exists dirs_flag, (s_ "do_build"), (s_ "D"), (s_ "/b"). split; [|split; [|split; [|split]]].
  - apply (r_step _ _ (s_ "do_build[dirs]")).
    + apply d_var; [reflexivity|apply ordinary_no_bracket; cbn; intuition discriminate| |intros (v & (l & r & E & _) & _)|intros []].
      * apply (u_flag _ _ _ (s_ "dirs") (s_ "${D}")); [discriminate|now left|vm_compute; intuition discriminate|reflexivity].
      * destruct l as [|p [|q l]]; discriminate.
    + apply r_one. apply (d_flag _ _ _ (s_ "do_build") (s_ "dirs")); [reflexivity| |discriminate|left; now left|intros []].
      exists []. split; [reflexivity|]. split; [cbn; intuition discriminate|]. split; [cbn; intuition discriminate|now left].
  - discriminate.
  - vm_compute. discriminate.
  - vm_compute. intuition discriminate.
  - intros H. apply reaches_path_incl. intros k K. apply set_text_other. intros ->. destruct K as [K|K]; [discriminate|].
    assert (E : task_deps dirs_flag 9 (s_ "do_build") = Some []) by (vm_compute; reflexivity).
    apply (closure_exact _ _ _ _ E) in K. destruct K.
Qed.

Definition two_vars : store :=
  mkStore [] (fun k =>
    if seqb k (s_ "do_build") then mkEntry Shell (s_ "echo ${A} ${B}") (mkParse [s_ "A"; s_ "B"] [] []) [] []
    else if seqb k (s_ "A") then plain (s_ "1B2") []
    else if seqb k (s_ "B") then plain (s_ "3") [] else nothing)
    (fun _ _ => (None, noparse)) (fun _ => []) (fun _ => None) [] [] [].

(** A work directory in the text of a variable. *)
Definition with_path : store :=
  mkStore [] (fun k =>
    if seqb k (s_ "do_build") then mkEntry Shell (s_ "echo ${A}") (mkParse [s_ "A"] [] []) [] []
    else if seqb k (s_ "A") then mkEntry Plain (s_ "-I/b/1/x") noparse [] [(s_ "vardepvalueexclude", s_ "/b/1")] else nothing)
    (fun _ _ => (None, noparse)) (fun _ => []) (fun _ => None) [] [] [].
Example struck_case :
  s_mod with_path (s_ "A") = None /\ ordinary (s_ "A") /\ flag_is (e_flags (s_entry with_path (s_ "A"))) (s_ "vardepvalueexclude") (s_ "/b/1") /\
  struck (s_ "/b/1") (e_value (s_entry with_path (s_ "A"))) (s_ "-I/x") /\ struck (s_ "/b/1") (s_ "-I/b/1/b/1/x") (s_ "-I/x") /\
  base_hash (fun t => t) with_path 9 (s_ "do_build") <> base_hash (fun t => t) (set_text with_path (s_ "A") (s_ "-I/c/x")) 9 (s_ "do_build").
Proof.
  split; [reflexivity|]. split; [apply ordinary_no_bracket; cbn; intuition discriminate|]. split; [exists [], []; split; [reflexivity|intros p []]|].
  assert (K : forall c v r, startswith (s_ "/b/1") (c :: v) = false -> struck (s_ "/b/1") v r -> struck (s_ "/b/1") (c :: v) (c :: r)).
  { intros c v r E S. apply struck_keep; auto. intros t X. rewrite X in E. rewrite startswith_app in E. discriminate. }
  assert (X : struck (s_ "/b/1") (s_ "/x") (s_ "/x")) by (apply K; [reflexivity|]; apply K; [reflexivity|]; constructor).
  split; [|split].
  - apply (K "-"%char); [reflexivity|]. apply (K "I"%char); [reflexivity|]. apply (struck_out (s_ "/b/1") (s_ "/x")). exact X.
  - apply (K "-"%char); [reflexivity|]. apply (K "I"%char); [reflexivity|]. apply (struck_out (s_ "/b/1") (s_ "/b/1/x")). apply (struck_out (s_ "/b/1") (s_ "/x")). exact X.
  - vm_compute. discriminate.
Qed.

(** C52 does not extend to two changes at once: names and values are joined without
    separators, so two changes can cancel out whatever the digest is. *)
Theorem base_two_changes_cancel_refuted :
  exists s task x y v w, reaches s task x /\ reaches s task y /\ x <> y /\
  v <> e_value (s_entry s x) /\ w <> e_value (s_entry s y) /\ task_deps s 9 task <> None /\
  forall H, base_hash H (set_text (set_text s x v) y w) 9 task = base_hash H s 9 task.
Proof.
  exists two_vars, (s_ "do_build"), (s_ "A"), (s_ "B"), (s_ "1"), (s_ "2B3").
  assert (R : forall x, In x [s_ "A"; s_ "B"] -> reaches two_vars (s_ "do_build") x).
  { intros x X. apply r_one. apply d_var; [reflexivity|apply ordinary_no_bracket; cbn; intuition discriminate| |intros (v & (l & r & E & _) & _); destruct l; discriminate|intros []].
    apply u_ref; [intros p []|]. exact X. }
  split; [apply R; now left|]. split; [apply R; now right; left|]. split; [discriminate|]. split; [discriminate|]. split; [discriminate|].
  split; [vm_compute; discriminate|]. intros H. unfold base_hash.
  assert (E1 : task_deps (set_text (set_text two_vars (s_ "A") (s_ "1")) (s_ "B") (s_ "2B3")) 9 (s_ "do_build") = Some [s_ "A"; s_ "B"]) by (vm_compute; reflexivity).
  assert (E2 : task_deps two_vars 9 (s_ "do_build") = Some [s_ "A"; s_ "B"]) by (vm_compute; reflexivity).
  rewrite E1, E2. reflexivity.
Qed.

(** *** A case that meets the hypotheses *)
Definition sample : store :=
  mkStore [s_ "helper"; s_ "A"; s_ "D"] (fun k =>
    if seqb k (s_ "do_build") then mkEntry Shell (s_ "helper ${A} ${D}") (mkParse [s_ "A"; s_ "D"] [s_ "helper"; s_ "ls"] []) []
      [(s_ "vardepsexclude", s_ "D"); (s_ "cleandirs", s_ "${B}"); (s_ "task", s_ "1")]
    else if seqb k (s_ "A") then mkEntry Plain (s_ "${B} ${@contains}") (mkParse [s_ "B"; s_ "TOPDIR"] [] [(s_ "FEATURES", [s_ "x"])])
      [(s_ "${E}", mkParse [s_ "E"] [] [])] []
    else if seqb k (s_ "B") then plain (s_ "${A}") [s_ "A"]
    else if seqb k (s_ "E") then plain (s_ "e") [] else nothing)
    (fun v f => if seqb f (s_ "cleandirs") then (Some (s_ "${B}"), mkParse [s_ "B"] [] []) else (None, noparse))
    (fun k => if seqb k (s_ "FEATURES") then s_ "x y" else []) (fun _ => None) [s_ "PATH"]
    (s_ "vardepsexclude task") [s_ "TOPDIR"].
Example sample_deps : task_deps sample 9 (s_ "do_build") =
  Some [s_ "PATH"; s_ "A"; s_ "helper"; s_ "do_build[cleandirs]"; s_ "B"; s_ "E"; s_ "B"].
Proof. vm_compute. reflexivity. Qed.
Example sample_text : base_hash (fun t => t) sample 9 (s_ "do_build") =
  Some (s_ "helper ${A} ${D}A${B} ${@contains}" ++ nl :: s_ "FEATURES{x} = Set" ++ nl :: s_ "_remove of ${E}B${A}EePATHdo_build[cleandirs]${B}helper").
Proof. vm_compute. reflexivity. Qed.
Example sample_restrictions : one_remove sample /\ whole_flag_names sample.
Proof.
  split.
  - intros k. cbn [sample s_entry]. destruct (seqb k (s_ "do_build")), (seqb k (s_ "A")), (seqb k (s_ "B")), (seqb k (s_ "E")); cbn; lia.
  - intros k f v a b I E. cbn [sample s_entry] in I. destruct (seqb k (s_ "do_build")).
    + cbn [e_flags In] in I. destruct I as [[= <- <-]|[[= <- <-]|[[= <- <-]|[]]]]; [vm_compute; auto| |vm_compute; auto].
      exfalso. assert (C : contains_sub (s_ "cleandirs") (s_flagsexcl sample) = true) by (apply contains_sub_iff; eauto). vm_compute in C. discriminate.
    + destruct (seqb k (s_ "A")), (seqb k (s_ "B")), (seqb k (s_ "E")); destruct I.
Qed.
(** Another word in FEATURES, another TOPDIR, another D: the same hash. *)
Definition sample' : store :=
  mkStore (s_keys sample) (fun k => if seqb k (s_ "TOPDIR") then plain (s_ "/other") [s_ "HOME"] else if seqb k (s_ "D") then plain (s_ "/d") [] else s_entry sample k)
    (s_flag sample) (fun k => if seqb k (s_ "FEATURES") then s_ "z x" else []) (s_mod sample) (s_shelldeps sample) (s_flagsexcl sample) (s_ignored sample).
Example sample'_same : same_config sample sample' /\ base_hash (fun t => t) sample' 9 (s_ "do_build") = base_hash (fun t => t) sample 9 (s_ "do_build").
Proof. split; [repeat split|]. vm_compute. reflexivity. Qed.

Print Assumptions base_deps_exact_partial.
Print Assumptions base_deps_used.
Print Assumptions base_deps_found.
Print Assumptions base_change_detected_partial.
Print Assumptions base_hash_only_used.
Print Assumptions base_hash_ignored.
Print Assumptions base_hash_excluded.
Print Assumptions base_struck_text.
Print Assumptions base_second_remove_untracked_refuted.
Print Assumptions base_flag_name_part_refuted.
Print Assumptions base_two_changes_cancel_refuted.
