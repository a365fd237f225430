(** Properties C11-C14: the PR server.  All theorems speak about the trace of an
    arbitrary run of a server that started on an empty database: requests of any
    kind, failing requests, signals, orderly restarts and crashes in any order. *)
From Coq Require Import Ascii String List Bool ZArith Lia.
From Verif Require Import Str_Model Str_Proofs Prserv_Model Prserv_Spec Prserv_Proofs.
Import ListNotations.
Open Scope Z_scope.
Open Scope list_scope.

(** C11: history mode, the same (version, arch, checksum) always gets the same
    value, also if the first value came from an import. *)
Theorem pr_hist_same_checksum_same_value :
  forall es i j v a c x y, (i < j)%nat ->
    let tr := fst (run false false fresh es) in
    kept tr i j -> got tr i v a c x \/ imported tr i v a c x -> got tr j v a c y -> x = y.
Proof. exact hist_same. Qed.

(** C11: a checksum never asked for nor imported before gets a value above every
    value acknowledged for the group so far. *)
Theorem pr_hist_new_checksum_larger_value :
  forall es i j v a c c' x y, (i < j)%nat ->
    let tr := fst (run false false fresh es) in
    kept tr i j -> got tr i v a c x \/ imported tr i v a c x -> got tr j v a c' y ->
    (forall k, (k < j)%nat -> ~ event_at tr k (mentions v a c')) -> x < y.
Proof. exact hist_new_larger. Qed.

(** C11: distinct checksums get distinct values unless the user imported values *)
Theorem pr_hist_distinct_checksums_distinct_values :
  forall es i j v a c c' x y, (i < j)%nat ->
    let tr := fst (run false false fresh es) in
    kept tr i j -> (forall k, ~ event_at tr k (imports v a)) ->
    got tr i v a c x -> got tr j v a c' y -> c <> c' -> x <> y.
Proof. intros. eapply (distinct_sums false); eauto. Qed.

(** C11, C12: what is answered about one (version, arch) depends only on the
    requests about it, in both modes and with crashes anywhere. *)
Theorem pr_groups_independent :
  forall nohist es v a,
    filter (fun p => concerns v a (fst p)) (fst (run nohist false fresh es)) =
    fst (run nohist false fresh (filter (concerns v a) es)).
Proof.
  intros. apply ssim_run. repeat split; apply clean_fresh.
Qed.

Definition ask (c : string) : event := ERequest (GetPr (s_ "v1") (s_ "arm") (s_ c)).
Definition asko (c : string) : event := ERequest (GetPr (s_ "v1") (s_ "x86") (s_ c)).
Definition values (tr : trace) : list (option Z) :=
  map (fun p => match snd p with Some (AValue x) => x | _ => None end) tr.

Example pr_hist_example :
  let tr := fst (run false false fresh
    [ask "a"; asko "z"; ask "b"; ERestart; ask "a"; ERequest (ImportOne (s_ "v1") (s_ "arm") (s_ "c") 7);
     ask "c"; ask "d"; ask "a"]) in
  values tr = [Some 0; Some 0; Some 1; None; Some 0; Some 7; Some 7; Some 8; Some 0] /\
  kept tr 0 8 /\ got tr 0 (s_ "v1") (s_ "arm") (s_ "a") 0 /\ got tr 8 (s_ "v1") (s_ "arm") (s_ "a") 0 /\
  imported tr 5 (s_ "v1") (s_ "arm") (s_ "c") 7 /\ got tr 7 (s_ "v1") (s_ "arm") (s_ "d") 8 /\
  (forall k, (k < 7)%nat -> ~ event_at tr k (mentions (s_ "v1") (s_ "arm") (s_ "d"))).
Proof.
  cbv zeta. split; [vm_compute; reflexivity|]. split.
  { intros k K H. apply event_at_list in H. destruct H as (e & H & <-).
    do 9 (destruct k as [|k]; [discriminate|]). destruct k; discriminate. }
  split; [vm_compute; reflexivity|]. split; [vm_compute; reflexivity|].
  split; [eexists; vm_compute; reflexivity|]. split; [vm_compute; reflexivity|].
  intros k K H. apply event_at_list in H. destruct H as (e & H & M).
  do 7 (destruct k as [|k]; [cbn in H; inversion H; subst e; destruct M as [M|(x & M)]; discriminate|]). lia.
Qed.
Print Assumptions pr_hist_same_checksum_same_value.
Print Assumptions pr_hist_new_checksum_larger_value.
Print Assumptions pr_hist_distinct_checksums_distinct_values.
Print Assumptions pr_groups_independent.

(** Finding: an import can give one value to two checksums. *)
Theorem pr_import_collision_refuted :
  exists es v a c c' x, c <> c' /\
    got (fst (run false false fresh es)) 0 v a c x /\ got (fst (run false false fresh es)) 2 v a c' x.
Proof.
  exists [ask "a"; ERequest (ImportOne (s_ "v1") (s_ "arm") (s_ "b") 0); ask "b"],
    (s_ "v1"), (s_ "arm"), (s_ "a"), (s_ "b"), 0.
  split; [discriminate|]. split; vm_compute; reflexivity.
Qed.
Print Assumptions pr_import_collision_refuted.

(** C12: no-history mode, values of a group never go down, imports included. *)
Theorem pr_nohist_never_decreases :
  forall es i j v a c c' x y, (i < j)%nat ->
    let tr := fst (run true false fresh es) in
    kept tr i j -> got tr i v a c x \/ imported tr i v a c x -> got tr j v a c' y -> x <= y.
Proof. exact nohist_monotone. Qed.

(** C12: a checksum other than the last one gets a strictly larger value, even if
    it had a value long before. *)
Theorem pr_nohist_other_checksum_larger :
  forall es i j v a c c' x y, (i < j)%nat ->
    let tr := fst (run true false fresh es) in
    kept tr i j -> (forall k, ~ event_at tr k (imports v a)) ->
    got tr i v a c x -> got tr j v a c' y -> c <> c' -> x < y.
Proof. intros. eapply (distinct_sums true); eauto. Qed.

(** C12: asking again for the current checksum gives the current value. *)
Theorem pr_repeat_same_value :
  forall nohist es i j v a c x y, (i < j)%nat ->
    let tr := fst (run nohist false fresh es) in
    kept tr i j -> (forall k, (i < k < j)%nat -> ~ event_at tr k (writes_group v a)) ->
    got tr i v a c x -> got tr j v a c y -> x = y.
Proof. exact repeat_same. Qed.

Example pr_nohist_example :
  let tr := fst (run true false fresh [ask "a"; ask "b"; asko "q"; ask "b"; ask "a"; ERestart; ask "a"]) in
  values tr = [Some 0; Some 1; Some 0; Some 1; Some 2; None; Some 2] /\
  kept tr 1 4 /\ (forall k, ~ event_at tr k (imports (s_ "v1") (s_ "arm"))) /\
  got tr 1 (s_ "v1") (s_ "arm") (s_ "b") 1 /\ got tr 4 (s_ "v1") (s_ "arm") (s_ "a") 2 /\
  (forall k, (1 < k < 3)%nat -> ~ event_at tr k (writes_group (s_ "v1") (s_ "arm"))).
Proof.
  cbv zeta. split; [vm_compute; reflexivity|]. split.
  { intros k K H. apply event_at_list in H. destruct H as (e & H & <-).
    do 7 (destruct k as [|k]; [discriminate|]). destruct k; discriminate. }
  split.
  { intros k H. apply event_at_list in H. destruct H as (e & H & (c & x & ->)).
    do 7 (destruct k as [|k]; [discriminate|]). destruct k; discriminate. }
  split; [vm_compute; reflexivity|]. split; [vm_compute; reflexivity|].
  intros k K H. apply event_at_list in H. destruct H as (e & H & (c & M)).
  assert (k = 2)%nat by lia. subst k. cbn in H. inversion H; subst e.
  destruct M as [M|(x & M)]; discriminate.
Qed.
Print Assumptions pr_nohist_never_decreases.
Print Assumptions pr_nohist_other_checksum_larger.
Print Assumptions pr_repeat_same_value.

(** C13: a new server filled with the export of another answers every future
    sequence of PR requests exactly like the old one, in both modes. *)
Theorem pr_export_import_same_answers :
  forall nohist es t,
    let s := snd (run nohist false fresh es) in
    t = import_all nohist [] (export nohist (mem s) [] [] []) ->
    same_gets nohist s (mkServer t t false).
Proof.
  intros nh es t s ->. assert (U := run_uniq nh es). fold s in U.
  destruct (import_export nh (mem s) U) as [IE UI].
  apply sim_same_gets; auto. cbn [mem].
  destruct nh.
  - intros v a c x N. rewrite IE. rewrite export_nohist_in.
    assert (MX : find_max_value (mem s) v a =
                 find_max_value (import_all true [] (export true (mem s) [] [] [])) v a).
    { destruct (find_max_value (mem s) v a) as [m|] eqn:E.
      - symmetry. apply find_max_some. split.
        + assert (E' := E). apply find_max_some in E. destruct E as [(c' & I) _]. exists c'.
          apply IE. apply export_nohist_in. auto.
        + intros c' y I. apply IE in I. apply export_nohist_in in I. destruct I as (_ & I & _).
          assert (m = y) by congruence. lia.
      - symmetry. apply find_max_none. intros c' y I. apply IE in I. apply export_nohist_in in I.
        destruct I as (_ & I & _). congruence. }
    rewrite <- MX. tauto.
  - intros v a c x N. rewrite IE, export_hist_in. tauto.
Qed.
Example pr_export_example :
  let s := snd (run true false fresh [ask "a"; ask "b"; ask "c"; asko "a"]) in
  map r_value (export true (mem s) [] [] []) = [2; 0] /\
  let t := import_all true [] (export true (mem s) [] [] []) in
  values (fst (run true false (mkServer t t false) [ask "c"; ask "a"; asko "b"])) = [Some 2; Some 3; Some 1].
Proof. vm_compute. auto. Qed.
Print Assumptions pr_export_import_same_answers.

(** Finding: rows with an empty version are not exported. *)
Theorem pr_export_empty_version_refuted :
  exists es a c, let s := snd (run false false fresh es) in
    find_value (mem s) [] a c <> None /\
    find_value (import_all false [] (export false (mem s) [] [] [])) [] a c = None.
Proof.
  exists [ERequest (GetPr [] (s_ "arm") (s_ "a"))], (s_ "arm"), (s_ "a"). split; vm_compute; [discriminate|reflexivity].
Qed.
Print Assumptions pr_export_empty_version_refuted.

(** C14: what was acknowledged before a commit survives any later crash: the
    theorems above with the hypothesis [kept].  Restated for one crash: *)
Theorem pr_committed_values_survive_crash_partial :
  forall nohist es1 e es2 es3 v a c c' x y,
    let es := es1 ++ ERequest (GetPr v a c) :: es2 ++ e :: es3 ++ [ERequest (GetPr v a c')] in
    let tr := fst (run nohist false fresh es) in
    commits e -> ~ In ECrash es2 -> (forall k, ~ event_at tr k (imports v a)) ->
    got tr (length es1) v a c x ->
    got tr (length es1 + length es2 + length es3 + 2) v a c' y ->
    c <> c' -> x <> y.
Proof.
  intros nh es1 e es2 es3 v a c c' x y es tr C NC NI G1 G2 NE.
  refine (proj1 (distinct_sums nh es (length es1) (length es1 + length es2 + length es3 + 2)%nat v a c c' x y _ _ NI G1 G2 NE)); [lia|].
  intros k K H. unfold tr in H. apply event_at_list in H. destruct H as (e' & H & <-).
  unfold es in H. rewrite nth_error_app2 in H by lia.
  destruct (k - length es1)%nat as [|m] eqn:M; [lia|]. cbn [nth_error] in H.
  destruct (Nat.lt_ge_cases m (length es2)) as [LM|LM].
  { rewrite nth_error_app1 in H by auto. exfalso. apply NC. eapply nth_error_In. eauto. }
  exists (length es1 + 1 + length es2)%nat.
  rewrite nth_error_app2 in H by auto.
  destruct (m - length es2)%nat as [|q] eqn:Q.
  { cbn in H. inversion H; subst e. destruct C as [C|[C|C]]; discriminate. }
  split; [lia|]. apply event_at_list. exists e. split; auto. unfold es. rewrite nth_error_app2 by lia.
  replace (length es1 + 1 + length es2 - length es1)%nat with (S (length es2)) by lia. cbn [nth_error].
  rewrite nth_error_app2 by lia. rewrite Nat.sub_diag. auto.
Qed.
Example pr_crash_example :
  values (fst (run true false fresh [ask "a"; ask "b"; ESignal; ECrash; ask "c"])) =
  [Some 0; Some 1; None; None; Some 2].
Proof. vm_compute. auto. Qed.
Print Assumptions pr_committed_values_survive_crash_partial.

(** Finding: answering a request commits nothing, so a crash makes the server hand
    out an acknowledged value again for a different checksum -- however many
    values were acknowledged before, in both modes. *)
Theorem pr_acknowledged_value_reissued_refuted :
  forall nohist, exists es v a c c' x, c <> c' /\
    got (fst (run nohist false fresh es)) 0 v a c x /\ got (fst (run nohist false fresh es)) 2 v a c' x.
Proof.
  intros nh. exists [ask "a"; ECrash; ask "b"], (s_ "v1"), (s_ "arm"), (s_ "a"), (s_ "b"), 0.
  split; [discriminate|]. destruct nh; split; vm_compute; reflexivity.
Qed.
Print Assumptions pr_acknowledged_value_reissued_refuted.

(** Requests alone never write to disk. *)
Theorem pr_requests_never_commit :
  forall nohist rs s, disk (snd (run nohist false s (map ERequest rs))) = disk s.
Proof.
  intros nh. induction rs as [|r rs IH]; intros s; auto. cbn [map]. rewrite run_cons_snd, IH, step_request. auto.
Qed.
Print Assumptions pr_requests_never_commit.

(** A read-only server never changes anything. *)
Theorem pr_readonly_never_changes :
  forall nohist es t, mem (snd (run nohist true (mkServer t t false) es)) = t /\
                      disk (snd (run nohist true (mkServer t t false) es)) = t.
Proof. exact readonly_run. Qed.
Example pr_readonly_example :
  values (fst (run true true fresh [ask "a"; ERequest (ImportOne [] [] [] 3); ask "b"])) = [Some 0; None; Some 0].
Proof. vm_compute. auto. Qed.
Print Assumptions pr_readonly_never_changes.

(** Every PR request is answered with a value (the NotFoundError branches are
    unreachable). *)
Theorem pr_get_always_answered :
  forall nohist read_only s v a c, exists x,
    snd (step nohist read_only s (ERequest (GetPr v a c))) = Some (AValue (Some x)).
Proof.
  intros nh ro s v a c. unfold step, dispatch. cbn [handle]. destruct nh; cbn [get_value].
  - destruct (find_current (mem s) v a c) as [x|] eqn:F.
    + exists x. unfold get_value_no_hist. rewrite F. auto.
    + destruct ro; [unfold get_value_no_hist; rewrite F; eexists; reflexivity|].
      rewrite (nohist_new _ _ _ _ F). eexists. reflexivity.
  - destruct (find_value (mem s) v a c) as [x|] eqn:F.
    + exists x. unfold get_value_hist. rewrite F. auto.
    + destruct ro; [unfold get_value_hist; rewrite F; eexists; reflexivity|].
      rewrite (hist_new _ _ _ _ F). eexists. reflexivity.
Qed.
Print Assumptions pr_get_always_answered.

(** C11, C12: the first value of a group is 0, whatever happened to other groups. *)
Theorem pr_first_value_is_zero : forall nohist es i v a c x,
  let tr := fst (run nohist false fresh es) in
  got tr i v a c x -> (forall k, (k < i)%nat -> ~ event_at tr k (writes_group v a)) -> x = 0.
Proof.
  intros nh es i v a c x tr G N. unfold got in G.
  destruct (run_at _ _ _ _ _ _ _ G) as (es1 & es2 & E & L & A).
  set (s := snd (run nh false fresh es1)) in *.
  assert (NI : forall c' y, ~ inv (mem s) v a c' y).
  { intros c' y I. destruct (key_mentioned nh es1 v a c') as (e & IN & M); [left; exists y; exact I|].
    apply In_nth_error in IN. destruct IN as (k & K).
    assert (LK : (k < i)%nat) by (rewrite <- L; apply nth_error_Some; rewrite K; discriminate).
    apply (N k LK). unfold tr. apply event_at_list. exists e. split.
    - rewrite E. rewrite nth_error_app1 by lia. exact K.
    - exists c'. exact M. }
  assert (M : find_max_value (mem s) v a = None) by (apply find_max_none; exact NI).
  assert (F : find_value (mem s) v a c = None) by (apply find_value_none; intros y; apply NI).
  assert (FC : find_current (mem s) v a c = None).
  { destruct (find_current (mem s) v a c) as [y|] eqn:FC; auto. apply find_current_some in FC; [|apply run_uniq].
    destruct FC as [FC _]. exfalso. eapply NI. exact FC. }
  unfold step, dispatch in A. cbn [handle] in A. destruct nh; cbn [get_value] in A.
  - rewrite (nohist_new _ _ _ _ FC) in A. cbn in A. unfold next_value in A. rewrite M in A. congruence.
  - rewrite (hist_new _ _ _ _ F) in A. cbn in A. unfold next_value in A. rewrite M in A. congruence.
Qed.
Example pr_first_value_example :
  values (fst (run false false fresh [ask "a"; ask "b"; asko "q"; ask "c"])) = [Some 0; Some 1; Some 0; Some 2].
Proof. vm_compute. auto. Qed.
Print Assumptions pr_first_value_is_zero.

(** ** Further cases that meet the hypotheses *)
Example crash_met : commits ESignal /\ let tr := fst (run true false fresh ([] ++ ask "a" :: [ask "b"] ++ ESignal :: [ECrash] ++ [ask "c"])) in
  got tr 0 (s_ "v1") (s_ "arm") (s_ "a") 0 /\ got tr 4 (s_ "v1") (s_ "arm") (s_ "c") 2.
Proof. split; [right; now left|]. split; vm_compute; reflexivity. Qed.

