(** Tasks of a recipe: theorems C81, C82, C83. *)
From Coq Require Import String Ascii List Bool Arith Lia Permutation.
From Verif Require Import Str_Model Str_Proofs Tasks_Model Tasks_Spec Tasks_Proofs.
Import ListNotations.
Open Scope list_scope.

(** C81: whatever addtask and deltask lines the recipe and its classes contain, the tasks are those whose last line
    creates them, each once. *)
Theorem tasks_exact : forall h, NoDup (r_tasks (run h)) /\ forall t, In t (r_tasks (run h)) <-> is_task h t.
Proof. intros h. split; [apply run_good|apply run_exact]. Qed.
(** C81: the tasks a task waits for are exactly those the lines say, without those deleted while it existed, each once. *)
Theorem task_deps_exact : forall h b, NoDup (r_deps (run h) b) /\ forall a, In a (r_deps (run h) b) <-> waits h a b.
Proof. intros h b. split; [apply run_good|intros a; apply run_exact]. Qed.
(** C81: what is handed to the run queue: the tasks, each with what it waits for *)
Theorem task_parents_exact : forall h t l, In (t, l) (parents (run h)) -> is_task h t /\ forall a, In a l <-> waits h a t.
Proof.
  intros h t l I. unfold parents in I. apply in_map_iff in I. destruct I as (t' & E & T). injection E as -> <-. split; [now apply run_exact|intros a; apply run_exact].
Qed.
Theorem task_parents_all : forall h t, is_task h t -> exists l, In (t, l) (parents (run h)).
Proof. intros h t T. exists (r_deps (run h) t). unfold parents. apply in_map_iff. exists t. split; auto. now apply run_exact. Qed.

Definition h_demo : list command :=
  [Add (s_ "fetch") None None; Add (s_ "do_unpack") None (Some (s_ "do_fetch"));
   Add (s_ "build") None (Some (s_ "do_unpack do_patch")); Add (s_ "patch") (Some (s_ "do_build")) (Some (s_ "do_unpack"));
   Del (s_ "unpack")].
Example tasks_exact_case : r_tasks (run h_demo) = [s_ "do_fetch"; s_ "do_build"; s_ "do_patch"] /\ r_deps (run h_demo) (s_ "do_build") = [s_ "do_patch"] /\ r_deps (run h_demo) (s_ "do_patch") = [].
Proof. repeat split. Qed.
Example task_deps_case : waits h_demo (s_ "do_patch") (s_ "do_build") /\ is_task h_demo (s_ "do_patch") /\ ~ is_task h_demo (s_ "do_unpack") /\ ~ waits h_demo (s_ "do_unpack") (s_ "do_build").
Proof.
  destruct (run_exact h_demo) as [T D]. split; [apply (proj1 (D _ _)); apply mem_str_In; vm_compute; reflexivity|]. split; [apply (proj1 (T _)); apply mem_str_In; vm_compute; reflexivity|]. split.
  - intros K. apply (proj2 (T _)), mem_str_In in K. vm_compute in K. discriminate.
  - intros K. apply (proj2 (D _ _)), mem_str_In in K. vm_compute in K. discriminate.
Qed.

(** C81: without deltask, the order of the lines (and of the classes they come from) does not matter. *)
Theorem task_order_free : forall h h', Permutation h h' -> (forall c, In c h -> exists t b a, c = Add t b a) ->
  Permutation (r_tasks (run h)) (r_tasks (run h')) /\ forall b, Permutation (r_deps (run h) b) (r_deps (run h') b).
Proof.
  intros h h' P A. assert (A' : forall c, In c h' -> exists t b a, c = Add t b a) by (intros c C; apply A; eapply Permutation_in; [apply Permutation_sym|]; eauto).
  assert (T : forall k t, (forall c, In c k -> exists t b a, c = Add t b a) -> (is_task k t <-> exists c, In c k /\ creates c t)).
  { intros k t K. split.
    - intros (h1 & c & h2 & -> & C & _). exists c. split; auto. apply in_or_app. right. now left.
    - intros (c & I & C). apply in_split in I. destruct I as (h1 & h2 & ->). exists h1, c, h2. split; auto. split; auto. intros d D (ts & x & -> & _). destruct (K (Del ts)) as (? & ? & ? & X); [apply in_or_app; right; now right|discriminate]. }
  assert (W : forall k a b, (forall c, In c k -> exists t b a, c = Add t b a) -> (waits k a b <-> exists c, In c k /\ declares c a b)).
  { intros k a b K. split.
    - intros (h1 & c & h2 & -> & C & _). exists c. split; auto. apply in_or_app. right. now left.
    - intros (c & I & C). apply in_split in I. destruct I as (h1 & h2 & ->). assert (N : forall d x, In d h2 -> ~ deletes d x) by (intros d x D (ts & y & -> & _); destruct (K (Del ts)) as (? & ? & ? & X); [apply in_or_app; right; now right|discriminate]).
      exists h1, c, h2. split; auto. split; auto. split; auto. intros k1 d k2 -> D. exfalso. apply (N d a); auto. apply in_or_app. right. now left. }
  split.
  - apply NoDup_Permutation; [apply run_good|apply run_good|]. intros t. rewrite (proj1 (run_exact h)), (proj1 (run_exact h')), !T by auto. split; intros (c & I & C); exists c; split; auto; [exact (Permutation_in c P I)|exact (Permutation_in c (Permutation_sym P) I)].
  - intros b. apply NoDup_Permutation; [apply run_good|apply run_good|]. intros a. rewrite (proj2 (run_exact h)), (proj2 (run_exact h')), !W by auto. split; intros (c & I & C); exists c; split; auto; [exact (Permutation_in c P I)|exact (Permutation_in c (Permutation_sym P) I)].
Qed.
Example task_order_case : let h := [Add (s_ "a") (Some (s_ "do_b")) None; Add (s_ "b") None (Some (s_ "do_d")); Add (s_ "c") (Some (s_ "do_b")) None] in
  Permutation h (rev h) /\ (forall c, In c h -> exists t b a, c = Add t b a) /\ r_deps (run h) (s_ "do_b") <> r_deps (run (rev h)) (s_ "do_b").
Proof. cbn zeta. split; [apply Permutation_rev|]. split; [|vm_compute; discriminate]. intros c [<-|[<-|[<-|[]]]]; eauto. Qed.

(** C81, refuted: deltask does not remove the waiting of a task that is created by a later line; that task then
    waits for a task that does not exist. *)
Theorem deltask_complete_refuted : exists h, let t := s_ "do_b" in is_task h t /\ waits h (s_ "do_a") t /\ ~ is_task h (s_ "do_a").
Proof.
  exists [Add (s_ "a") (Some (s_ "do_b")) None; Del (s_ "do_a"); Add (s_ "b") None None]. cbn zeta. pose proof (run_exact [Add (s_ "a") (Some (s_ "do_b")) None; Del (s_ "do_a"); Add (s_ "b") None None]) as [T D].
  split; [apply (proj1 (T _)); apply mem_str_In; vm_compute; reflexivity|]. split; [apply (proj1 (D _ _)); apply mem_str_In; vm_compute; reflexivity|]. intros K. apply (proj2 (T _)), mem_str_In in K. vm_compute in K. discriminate.
Qed.
(** C81, refuted: do_ is added to the name of the task, but not to the names after "after" and "before"; with
    addtask x after y the task waits for y and not for do_y. *)
Theorem after_name_completed_refuted : exists h, is_task h (s_ "do_y") /\ waits h (s_ "y") (s_ "do_x") /\ ~ waits h (s_ "do_y") (s_ "do_x").
Proof.
  exists [Add (s_ "y") None None; Add (s_ "x") None (Some (s_ "y"))]. pose proof (run_exact [Add (s_ "y") None None; Add (s_ "x") None (Some (s_ "y"))]) as [T D].
  split; [apply (proj1 (T _)); apply mem_str_In; vm_compute; reflexivity|]. split; [apply (proj1 (D _ _)); apply mem_str_In; vm_compute; reflexivity|]. intros K. apply (proj2 (D _ _)), mem_str_In in K. vm_compute in K. discriminate.
Qed.

(** C82: an addtask line with both keywords, in either order, gives the task and the names of both lists, whatever
    the blanks; the last list must not contain the text of a keyword. *)
Definition blanks (w : str) : Prop := w <> [] /\ Forall (fun c => is_space c = true) w.
Definition task_word (t : str) : Prop := t <> [] /\ Forall (fun c => word_char c = true) t.
Theorem addtask_before_after_partial : forall w1 w2 t b a, blanks w1 -> blanks w2 -> task_word t ->
  ~ occurs (s_ "after") a -> ~ occurs (s_ "before") a ->
  exists b' a', match_addtask (s_ "addtask" ++ w1 ++ t ++ w2 ++ s_ "before " ++ b ++ s_ " after " ++ a) = Some (t, Some b', Some a') /\
    split_ws b' = split_ws b /\ split_ws a' = split_ws a.
Proof.
  intros w1 w2 t b a [W1 S1] [W2 S2] [TN TW] A B. rewrite match_start; auto; [|now apply word_end]. rewrite clauses_start; auto; [|reflexivity].
  destruct (length (w2 ++ s_ "before " ++ b ++ s_ " after " ++ a)) as [|[|n]] eqn:L; [rewrite !app_length in L; cbn in L; lia|rewrite !app_length in L; cbn in L; lia|].
  rewrite clause_before, clause_after_end by auto. eexists _, _. split; [reflexivity|]. rewrite !split_lstrip, split_trail. auto.
Qed.
Theorem addtask_after_before_partial : forall w1 w2 t b a, blanks w1 -> blanks w2 -> task_word t ->
  ~ occurs (s_ "after") b -> ~ occurs (s_ "before") b ->
  exists b' a', match_addtask (s_ "addtask" ++ w1 ++ t ++ w2 ++ s_ "after " ++ a ++ s_ " before " ++ b) = Some (t, Some b', Some a') /\
    split_ws b' = split_ws b /\ split_ws a' = split_ws a.
Proof.
  intros w1 w2 t b a [W1 S1] [W2 S2] [TN TW] A B. rewrite match_start; auto; [|now apply word_end]. rewrite clauses_start; auto; [|reflexivity].
  destruct (length (w2 ++ s_ "after " ++ a ++ s_ " before " ++ b)) as [|[|n]] eqn:L; [rewrite !app_length in L; cbn in L; lia|rewrite !app_length in L; cbn in L; lia|].
  rewrite clause_after, clause_before_end by auto. eexists _, _. split; [reflexivity|]. rewrite !split_lstrip, split_trail. auto.
Qed.
Theorem addtask_before_partial : forall w1 w2 t b, blanks w1 -> blanks w2 -> task_word t -> ~ occurs (s_ "after") b ->
  exists b', match_addtask (s_ "addtask" ++ w1 ++ t ++ w2 ++ s_ "before " ++ b) = Some (t, Some b', None) /\ split_ws b' = split_ws b.
Proof.
  intros w1 w2 t b [W1 S1] [W2 S2] [TN TW] A. rewrite match_start; auto; [|now apply word_end]. rewrite clauses_start; auto; [|reflexivity].
  destruct (length (w2 ++ s_ "before " ++ b)) as [|n] eqn:L; [rewrite !app_length in L; cbn in L; lia|].
  rewrite clause_before_end by auto. eexists. split; [reflexivity|]. apply split_lstrip.
Qed.
Theorem addtask_after_partial : forall w1 w2 t a, blanks w1 -> blanks w2 -> task_word t -> ~ occurs (s_ "before") a ->
  exists a', match_addtask (s_ "addtask" ++ w1 ++ t ++ w2 ++ s_ "after " ++ a) = Some (t, None, Some a') /\ split_ws a' = split_ws a.
Proof.
  intros w1 w2 t a [W1 S1] [W2 S2] [TN TW] A. rewrite match_start; auto; [|now apply word_end]. rewrite clauses_start; auto; [|reflexivity].
  destruct (length (w2 ++ s_ "after " ++ a)) as [|n] eqn:L; [rewrite !app_length in L; cbn in L; lia|].
  rewrite clause_after_end by auto. eexists. split; [reflexivity|]. apply split_lstrip.
Qed.
Theorem addtask_alone : forall w1 w2 t, blanks w1 -> Forall (fun c => is_space c = true) w2 -> task_word t ->
  match_addtask (s_ "addtask" ++ w1 ++ t ++ w2) = Some (t, None, None).
Proof.
  intros w1 w2 t [W1 S1] S2 [TN TW]. rewrite match_start; auto.
  - rewrite lstrip_nil_all_space by auto. now rewrite clauses_end.
  - destruct S2; auto. now apply space_not_word.
Qed.
(** Only such lines are addtask lines: the word, blanks, the name of the task. *)
Theorem addtask_only : forall s f b a, match_addtask s = Some (f, b, a) -> exists w r, s = s_ "addtask" ++ w ++ f ++ r /\ blanks w /\ task_word f.
Proof.
  intros s f b a H. unfold match_addtask in H. destruct (startswith (s_ "addtask") s) eqn:E; [|discriminate]. apply startswith_iff in E. destruct E as [r ->].
  change (skipn 7 (s_ "addtask" ++ r)) with r in H. destruct (lstrip_spec r) as (w & E & W & _). destruct (Nat.eqb (length (lstrip r)) (length r)) eqn:L; [discriminate|]. apply Nat.eqb_neq in L.
  assert (T : forall s : str, s = fst (take_word s) ++ snd (take_word s) /\ Forall (fun c => word_char c = true) (fst (take_word s))).
  { clear. induction s as [|c s IH]; [split; [reflexivity|constructor]|]. cbn [take_word]. destruct (word_char c) eqn:C; [|split; [reflexivity|constructor]].
    destruct (take_word s) as [x y]. cbn [fst snd] in *. destruct IH as [-> F]. split; [reflexivity|now constructor]. }
  destruct (T (lstrip r)) as [E2 F]. destruct (take_word (lstrip r)) as [x y]. cbn [fst snd] in *. destruct x as [|c x]; [discriminate|].
  destruct (clauses (length y) (lstrip y) None None) as [b' a']. injection H as <- <- <-. exists w, y. split; [rewrite E at 1; now rewrite E2|]. split; [split; [|exact W]|split; [discriminate|exact F]].
  intros ->. cbn [app] in E. now rewrite <- E in L.
Qed.
(** A line is refused if and only if one of its words contains the text of an operation. *)
Theorem addtask_refused : forall s, refused s = true <-> exists w k, In w (split_ws s) /\ In k [s_ ":append_"; s_ ":prepend_"; s_ ":remove_"] /\ occurs k w.
Proof.
  intros s. unfold refused. rewrite existsb_exists. split.
  - intros (w & I & H). rewrite !orb_true_iff, !contains_sub_iff in H. destruct H as [[H|H]|H]; exists w; eexists; (split; [exact I|]); (split; [|exact H]); cbn; auto.
  - intros (w & k & I & K & O). exists w. split; [exact I|]. rewrite !orb_true_iff, !contains_sub_iff. cbn in K. destruct K as [<-|[<-|[<-|[]]]]; unfold occurs in O; auto.
Qed.
Example addtask_refused_case : refused (s_ "addtask do_x:append_y after do_z") = true /\ refused (s_ "addtask do_x after do_z") = false /\ match_addtask (s_ "addtaskx y") = None.
Proof. split; [reflexivity|]. split; reflexivity. Qed.
Example addtask_line_case : blanks (s_ " ") /\ task_word (s_ "do_install") /\ ~ occurs (s_ "after") (s_ "do_compile do_patch") /\
  match_addtask (s_ "addtask do_install before do_build after do_compile do_patch") = Some (s_ "do_install", Some (s_ "do_build "), Some (s_ "do_compile do_patch")).
Proof.
  split; [split; [discriminate|repeat constructor]|]. split; [split; [discriminate|repeat constructor]|]. split; [|vm_compute; reflexivity].
  apply rsplit_none; [discriminate|vm_compute; reflexivity].
Qed.
(** C82, refuted: a name that contains "after" is cut in two: with addtask x before do_build_after_y, the task
    x is before do_build_ and after _y. *)
Theorem addtask_keyword_in_name_refuted : match_addtask (s_ "addtask x before do_build_after_y") = Some (s_ "x", Some (s_ "do_build_"), Some (s_ "_y")).
Proof. vm_compute. reflexivity. Qed.
(** If a keyword is written twice, only the last list counts (the code prints a warning). *)
Example addtask_keyword_twice : match_addtask (s_ "addtask x after do_a before do_b after do_c") = Some (s_ "x", Some (s_ "do_b "), Some (s_ "do_c")).
Proof. vm_compute. reflexivity. Qed.
(** A word between the task and the keyword ends the line (the code prints a warning). *)
Example addtask_extra_words : match_addtask (s_ "addtask x y after do_a") = Some (s_ "x", None, None).
Proof. vm_compute. reflexivity. Qed.

(** C83: if no task reachable from [start] waits for itself, tasksbetween gives each task on a way from [start] to
    [end] once, and nothing else. *)
Theorem tasksbetween_exact : forall r start e out, (exists o, In o (r_tasks r) /\ o <> e) -> tasksbetween start e r = Done out ->
  NoDup out /\ forall x, In x out <-> path (r_tasks r) (r_deps r) e start x /\ path (r_tasks r) (r_deps r) e x e.
Proof.
  intros r st e out O D. unfold tasksbetween in D. pose proof (follow_sound (r_tasks r) (r_deps r) e O (S (S (length (r_tasks r)))) st [] []) as F. rewrite D in F. destruct F as (A & _ & N).
  split; [apply N; constructor|]. intros x. rewrite A. cbn [In]. split; [intros [[]|[_ [[]|H]]]; auto|]. intros [P Q]. right. split; [eapply path_trans; eauto|auto].
Qed.
(** C83: it reports a circle exactly if one is reachable, and always terminates. *)
Theorem tasksbetween_circle : forall r start e, (exists o, In o (r_tasks r) /\ o <> e) ->
  (tasksbetween start e r = Fatal <-> exists y, path (r_tasks r) (r_deps r) e start y /\ circular (r_tasks r) (r_deps r) e y).
Proof.
  intros r st e O. pose proof (follow_sound (r_tasks r) (r_deps r) e O (S (S (length (r_tasks r)))) st [] []) as F. fold (tasksbetween st e r) in F.
  assert (NF : tasksbetween st e r <> Fuel). { apply follow_fuel with (st := st); [constructor|intros x []|now left|cbn; lia]. }
  destruct (tasksbetween st e r) as [| |out]; cbn [sound] in F; [|congruence|].
  - split; auto. intros _. destruct F as (y & P & [C|[]]). eauto.
  - split; [discriminate|]. intros (y & P & C). destruct F as (_ & B & _). destruct (B y P) as [X _]. contradiction.
Qed.
Theorem tasksbetween_ends : forall r start e, tasksbetween start e r <> Fuel.
Proof. intros r st e. apply follow_fuel with (st := st); [constructor|intros x []|now left|cbn; lia]. Qed.
Definition r_demo : recipe := run
  [Add (s_ "a") None None; Add (s_ "b") None (Some (s_ "do_a")); Add (s_ "c") None (Some (s_ "do_a"));
   Add (s_ "d") None (Some (s_ "do_b do_c")); Add (s_ "x") None (Some (s_ "do_a"))].
Example tasksbetween_case : (exists o, In o (r_tasks r_demo) /\ o <> s_ "do_d") /\ tasksbetween (s_ "do_a") (s_ "do_d") r_demo = Done [s_ "do_a"; s_ "do_b"; s_ "do_d"; s_ "do_c"].
Proof. split; [exists (s_ "do_a"); split; [now left|discriminate]|vm_compute; reflexivity]. Qed.
Example tasksbetween_circle_case : let r := run [Add (s_ "a") None None; Add (s_ "b") None (Some (s_ "do_a do_c")); Add (s_ "c") None (Some (s_ "do_b")); Add (s_ "d") None (Some (s_ "do_a"))] in
  (exists o, In o (r_tasks r) /\ o <> s_ "do_d") /\ tasksbetween (s_ "do_a") (s_ "do_d") r = Fatal.
Proof. cbn zeta. split; [exists (s_ "do_a"); split; [now left|discriminate]|vm_compute; reflexivity]. Qed.

Print Assumptions tasks_exact.
Print Assumptions task_deps_exact.
Print Assumptions task_parents_exact.
Print Assumptions task_parents_all.
Print Assumptions task_order_free.
Print Assumptions deltask_complete_refuted.
Print Assumptions after_name_completed_refuted.
Print Assumptions addtask_before_after_partial.
Print Assumptions addtask_after_before_partial.
Print Assumptions addtask_before_partial.
Print Assumptions addtask_after_partial.
Print Assumptions addtask_alone.
Print Assumptions addtask_only.
Print Assumptions addtask_refused.
Print Assumptions addtask_keyword_in_name_refuted.
Print Assumptions tasksbetween_exact.
Print Assumptions tasksbetween_circle.
Print Assumptions tasksbetween_ends.
