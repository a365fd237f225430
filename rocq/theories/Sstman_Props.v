(** C22, C23: manifests of shared state. *)
From Coq Require Import Ascii String List Bool Arith Lia.
From Verif Require Import Str_Model Str_Proofs Sstman_Model Sstman_Spec Sstman_Proofs.
Import ListNotations.
Open Scope list_scope.

(** * C22 *)

(** Uninstalling a manifest where directories may be removed, for every file system
    that contains what the task staged and anything else: exactly the staged files
    and links go, and exactly those staged directories below which there is nothing
    that was not staged. *)
Theorem manifest_clean_exact : forall ss t,
  sane_fs t ->
  (forall s rel k, In s ss -> In (rel, k) (st_tree s) -> recordable s rel) ->
  (forall p k, staged_path ss p k -> In (p, k) t) ->
  forall p k, In (p, k) (clean_manifest false (manifest_text ss) t) <->
    In (p, k) t /\
    ~ (exists k', k' <> KDir /\ staged_path ss p k') /\
    ~ (staged_path ss p KDir /\ forall q kq, In (q, kq) t -> below p q -> exists k', staged_path ss q k').
Proof. intros ss t SN R ST. exact (proj1 (clean_manifest_spec ss t SN R ST)). Qed.

(** While a build is running directories stay *)
Theorem manifest_clean_racing_exact : forall ss t,
  sane_fs t ->
  (forall s rel k, In s ss -> In (rel, k) (st_tree s) -> recordable s rel) ->
  (forall p k, staged_path ss p k -> In (p, k) t) ->
  forall p k, In (p, k) (clean_manifest true (manifest_text ss) t) <->
    In (p, k) t /\ ~ (exists k', k' <> KDir /\ staged_path ss p k').
Proof. intros ss t SN R ST. exact (proj2 (clean_manifest_spec ss t SN R ST)). Qed.

(** Whatever has become of the file system in the meantime, uninstalling touches
    nothing that was not staged. *)
Theorem manifest_touches_only_staged : forall canrace ss t p k,
  (forall s rel k, In s ss -> In (rel, k) (st_tree s) -> recordable s rel) ->
  (forall k', ~ staged_path ss p k') ->
  (In (p, k) (clean_manifest canrace (manifest_text ss) t) <-> In (p, k) t).
Proof. intros. apply clean_manifest_only; auto. Qed.

(** Installing and uninstalling: if what is staged was not there before, except for
    directories, the file system is as before, up to staged directories that were
    there before without contents of their own. *)
Theorem install_then_clean : forall allowed ss t text t1,
  sane_fs t -> sane_fs t1 ->
  (forall s rel k, In s ss -> In (rel, k) (st_tree s) -> recordable s rel) ->
  (forall p k k', staged_path ss p k -> In (p, k') t -> k = KDir /\ k' = KDir) ->
  (forall p k, staged_path ss p k -> In (p, k) t1) ->
  sstate_install allowed ss t = Some (text, t1) ->
  (forall p k, In (p, k) (clean_manifest false text t1) -> In (p, k) t) /\
  (forall p k, In (p, k) t ->
     (staged_path ss p KDir -> exists q kq, In (q, kq) t /\ below p q /\ ~ staged_path ss q KDir) ->
     In (p, k) (clean_manifest false text t1)).
Proof.
  intros allowed ss t text t1 SN SN1 R NEW ST I. unfold sstate_install in I.
  destruct (existsb (overlaps allowed t) (shared_files ss)); [discriminate|]. injection I as E1 E2. subst text.
  pose proof (manifest_clean_exact ss t1 SN1 R ST) as X. split.
  - intros p k H. apply X in H. destruct H as (H & NF & ND). rewrite <- E2 in H. apply copy_tree_staged in H.
    destruct H as [H|H]; auto. destruct k.
    + exfalso. apply NF. exists KFile. split; [discriminate|auto].
    + exfalso. apply NF. exists KLink. split; [discriminate|auto].
    + destruct (in_dec (fun a b : str * kind => ltac:(decide equality; [decide equality|apply str_eq_dec])) (p, KDir) t) as [|NI]; auto.
      exfalso. apply ND. split; auto. intros q kq Q B. rewrite <- E2 in Q. apply copy_tree_staged in Q. destruct Q as [Q|Q]; [|eauto].
      assert (PN : p <> []). { destruct H as (s & rel & I & J & ->). destruct (R s rel KDir I J) as (_ & _ & _ & c & m & l & E & _). rewrite E. discriminate. }
      exfalso. apply NI. clear -SN Q B PN. 
      enough (G : forall n q kq, length q <= n -> In (q, kq) t -> below p q -> In (p, KDir) t) by eauto.
      clear q kq Q B. induction n as [|n IH]; intros q kq L Q B.
      { apply below_length in B. lia. }
      destruct SN as (_ & S). destruct (S q kq Q) as (d & name & E & NE & NS & D). destruct B as (r & B). rewrite B in E.
      destruct (app_slash_split p r d name E NS) as [[-> _]|B'].
      * destruct D as [D|D]; auto. congruence.
      * destruct D as [D|D]; [subst; destruct B' as (x & B'); destruct p; discriminate|].
        apply (IH d KDir); auto. rewrite E in B. rewrite B, app_length in L. cbn in L. lia.
  - intros p k H N. apply X. split; [rewrite <- E2; apply copy_tree_keeps; auto|]. split.
    + intros (k' & NK & S). destruct (NEW p k' k S H). auto.
    + intros (S & A). destruct (N S) as (q & kq & Q & B & NS). destruct (A q kq) as (k' & K); auto.
      * rewrite <- E2. apply copy_tree_keeps. auto.
      * destruct (NEW q k' kq K Q) as [-> _]. auto.
Qed.

(** The overlap check: installation never goes on over an existing file or directory
    at the place of a staged file, unless an allowed entry is a prefix of its name *)
Theorem install_refuses_overlap : forall allowed ss t,
  (forall s rel k, In s ss -> In (rel, k) (st_tree s) -> recordable s rel) ->
  (sstate_install allowed ss t = None <->
   exists p k kt, staged_path ss p k /\ k <> KDir /\ In (p, kt) t /\ kt <> KLink /\
     forall w, In w allowed -> forall r, p <> w ++ r).
Proof.
  intros allowed ss t R. unfold sstate_install.
  assert (O : forall p, overlaps allowed t p = true <-> (exists kt, In (p, kt) t /\ kt <> KLink) /\ forall w, In w allowed -> forall r, p <> w ++ r).
  { intros p. unfold overlaps. rewrite andb_true_iff, orb_true_iff, !has_iff, negb_true_iff, <- not_true_iff_false, existsb_exists. split.
    - intros [A B]. split.
      + destruct A as [A|A]; eexists; (split; [exact A|discriminate]).
      + intros w I r ->. apply B. exists w. split; auto. apply startswith_app.
    - intros [(kt & A & NK) B]. split; [destruct kt; auto; congruence|]. intros (w & I & S). apply startswith_iff in S.
      destruct S as (r & ->). apply (B w I r). auto. }
  destruct (existsb (overlaps allowed t) (shared_files ss)) eqn:X.
  - split; auto. intros _. apply existsb_exists in X. destruct X as (p & I & J). apply shared_files_In in I; auto.
    apply O in J. destruct I as (k & NK & S), J as [(kt & T & NT) W]. exists p, k, kt. auto.
  - split; [discriminate|]. intros (p & k & kt & S & NK & T & NT & W).
    assert (Y : existsb (overlaps allowed t) (shared_files ss) = true).
    { apply existsb_exists. exists p. split; [apply shared_files_In; eauto|]. apply O. eauto. }
    congruence.
Qed.

(** ** Names the manifest cannot record *)

(** A staged file whose name ends in a blank is left behind, and the file of the same
    name without the blank, not staged by the task, is removed. *)
Theorem manifest_blank_name_refuted : exists ss t,
  sane_fs t /\ (forall p k, staged_path ss p k -> In (p, k) t) /\
  In (s_ "/d/a ", KFile) (clean_manifest false (manifest_text ss) t) /\ staged_path ss (s_ "/d/a ") KFile /\
  In (s_ "/d/a", KFile) t /\ (forall k, ~ staged_path ss (s_ "/d/a") k) /\
  ~ In (s_ "/d/a", KFile) (clean_manifest false (manifest_text ss) t).
Proof.
  exists [mkStaged (s_ "/w") (s_ "/d") [(s_ "/a ", KFile)]], [(s_ "/d", KDir); (s_ "/d/a", KFile); (s_ "/d/a ", KFile)].
  assert (SP : forall p k, staged_path [mkStaged (s_ "/w") (s_ "/d") [(s_ "/a ", KFile)]] p k <-> p = s_ "/d/a " /\ k = KFile).
  { intros p k. split.
    - intros (s & rel & [<-|[]] & [E|[]] & ->). inversion E; subst. auto.
    - intros [-> ->]. eexists. exists (s_ "/a "). split; [left; reflexivity|]. split; [left; reflexivity|reflexivity]. }
  split.
  { split.
    - cbn. repeat constructor; cbn; intuition discriminate.
    - intros p k [E|[E|[E|[]]]]; inversion E; subst.
      + exists [], (s_ "d"). repeat split; auto; [discriminate|cbn; intuition discriminate].
      + exists (s_ "/d"), (s_ "a"). repeat split; auto; [discriminate|cbn; intuition discriminate|right; left; reflexivity].
      + exists (s_ "/d"), (s_ "a "). repeat split; auto; [discriminate|cbn; intuition discriminate|right; left; reflexivity]. }
  split; [intros p k S; apply SP in S; destruct S as [-> ->]; right; right; left; reflexivity|].
  split; [vm_compute; auto|]. split; [apply SP; auto|]. split; [right; left; reflexivity|].
  split; [intros k S; apply SP in S; destruct S; discriminate|]. vm_compute. intuition discriminate.
Qed.

(** A path that repeats the name of the source directory is recorded under a wrong
    name (str.replace replaces all occurrences): its file is left behind, and with it
    the directories above it. *)
Theorem manifest_repeated_source_refuted : exists ss t t1 text,
  sane_fs t /\ sstate_install [] ss t = Some (text, t1) /\
  staged_path ss (s_ "/d/w") KDir /\ staged_path ss (s_ "/d/w/a") KFile /\ ~ In (s_ "/d/w", KDir) t /\
  In (s_ "/d/w/a", KFile) (clean_manifest false text t1) /\ In (s_ "/d/w", KDir) (clean_manifest false text t1).
Proof.
  exists [mkStaged (s_ "/w") (s_ "/d") [(s_ "/w", KDir); (s_ "/w/a", KFile)]], [(s_ "/d", KDir)].
  eexists. eexists. split.
  { split.
    - cbn. repeat constructor. cbn. tauto.
    - intros p k [E|[]]. inversion E; subst. exists [], (s_ "d"). repeat split; auto; [discriminate|cbn; intuition discriminate]. }
  split; [vm_compute; reflexivity|].
  split; [eexists; exists (s_ "/w"); split; [left; reflexivity|split; [left; reflexivity|reflexivity]]|].
  split; [eexists; exists (s_ "/w/a"); split; [left; reflexivity|split; [right; left; reflexivity|reflexivity]]|].
  split; [intros [E|[]]; discriminate|]. vm_compute. intuition.
Qed.

(** The hypotheses of the positive theorems are met by an ordinary task: two staged
    directories, one of which exists before with contents of another task. *)
Definition ex_ss : list staged :=
  [mkStaged (s_ "/b/hello/1.0/image") (s_ "/s/usr")
     [(s_ "/bin", KDir); (s_ "/lib", KDir); (s_ "/bin/hello", KFile); (s_ "/lib/x", KDir); (s_ "/lib/x/l.so", KLink)]].
Definition ex_fs : fs := [(s_ "/s", KDir); (s_ "/s/usr", KDir); (s_ "/s/usr/lib", KDir); (s_ "/s/usr/lib/other", KFile)].
Example install_clean_case :
  exists text t1, sstate_install [] ex_ss ex_fs = Some (text, t1) /\
  In (s_ "/s/usr/bin/hello", KFile) t1 /\ In (s_ "/s/usr/lib/x/l.so", KLink) t1 /\
  clean_manifest false text t1 = ex_fs /\
  map strip (readlines text) = [s_ "/s/usr/bin/hello"; s_ "/s/usr/lib/x/l.so"; s_ "/s/usr/lib/x/"; s_ "/s/usr/lib/"; s_ "/s/usr/bin/"].
Proof. eexists. eexists. split; [vm_compute; reflexivity|]. repeat split; vm_compute; auto 20. Qed.
Example install_clean_recordable : forall s rel k, In s ex_ss -> In (rel, k) (st_tree s) -> recordable s rel.
Proof.
  intros s rel k [<-|[]] I. cbn [st_tree] in I.
  assert (NC : contains_sub (s_ "/b/hello/1.0/image") rel = false).
  { repeat (destruct I as [E|I]; [inversion E; subst; reflexivity|]). destruct I. }
  split; [|split; [discriminate|]].
  - intros a b E. cbn [st_src] in E. assert (X : contains_sub (s_ "/b/hello/1.0/image") rel = true) by (apply contains_sub_iff; eauto). congruence.
  - repeat (destruct I as [E|I]; [inversion E; subst; split; [cbn; intuition discriminate|
      cbn [st_dst]; match goal with |- exists c m l, ?x = _ /\ _ =>
        exists (hd " "%char x), (removelast (tl x)), (last x " "%char) end; vm_compute; intuition discriminate]|]). destruct I.
Qed.

(** * C23 *)

(** For every index file of complete, distinct lines: the entries whose manifests are
    uninstalled are exactly the newest entries of their manifest whose stamp is
    neither reachable nor preserved and was once seen by this machine, each once; the
    new index contains, in the old order, exactly the newest entries that are not
    uninstalled. *)
Theorem reachable_cleanup_exact : forall stamps preserve machine ls,
  (forall l, In l ls -> plain_line l) -> NoDup ls ->
  (forall m, In m machine -> plain_word m) ->
  exists rem keep,
    reachablestamps stamps preserve (Some (lines_file machine)) (index_file ls) =
      Some (mkCleanup (map iline_text rem) (map iline_text (filter keep ls))) /\
    NoDup rem /\
    (forall x, In x rem <->
       newest ls x /\ ~ In (i_stamp x) stamps /\ ~ In (i_stamp x) (preserve_list preserve) /\ In (i_stamp x) machine) /\
    (forall x, In x ls -> (keep x = true <-> newest ls x /\ ~ In x rem)).
Proof.
  intros stamps preserve machine ls P N M. unfold reachablestamps.
  assert (ML : machine_list (Some (lines_file machine)) = machine).
  { unfold machine_list, lines_file. rewrite readlines_concat.
    - rewrite map_map. rewrite <- (map_id machine) at 2. apply map_ext_in. intros w I.
      destruct (M w I) as [NE NS]. destruct w as [|c w]; [congruence|].
      destruct w as [|l w] using rev_ind.
      + unfold strip. cbn [app lstrip]. rewrite (NS c) by (left; auto). unfold rstrip. cbn [rev app lstrip].
        replace (is_space nl) with true by reflexivity. cbn [lstrip]. rewrite (NS c) by (left; auto). auto.
      + apply strip_line; apply NS; [left; auto|right; apply in_or_app; right; left; auto].
    - intros l I. apply plain_no_nl. auto. }
  rewrite ML. destruct (clean_index_spec stamps (preserve_list preserve) machine ls P N) as (rem & keep & A & B & C & D).
  exists rem, keep. split; auto. split; auto. split; [exact C|]. intros x I. rewrite (D x I), C. tauto.
Qed.

(** Whatever the list of preserved stamps says: written as lines, it protects nothing
    (the newline is kept when it is read). *)
Theorem reachable_preserve_ignored_refuted : forall stamps preserved machine ls,
  (forall l, In l ls -> plain_line l) -> (forall w, In w preserved -> ~ In nl w) ->
  reachablestamps stamps (Some (lines_file preserved)) machine (index_file ls) =
  reachablestamps stamps None machine (index_file ls).
Proof.
  intros stamps preserved machine ls P NP. unfold reachablestamps, clean_index. rewrite index_lines by auto. rewrite <- map_rev.
  rewrite !scan_part by (intros l I; apply P; apply in_rev; auto). cbn [preserve_list].
  unfold lines_file. rewrite readlines_concat by auto.
  replace (filter (staleb stamps (map (fun w => w ++ [nl]) preserved) (machine_list machine)) (fst (part [] (rev ls))))
    with (filter (staleb stamps [] (machine_list machine)) (fst (part [] (rev ls)))); auto.
  apply filter_ext_in. intros x I. unfold staleb.
  replace (mem_str (i_stamp x) (map (fun w => w ++ [nl]) preserved)) with false; auto. symmetry. apply not_true_is_false.
  rewrite mem_str_In. intros J. apply in_map_iff in J. destruct J as (w & E & _).
  assert (PL : plain_line x). { apply P. apply in_rev. apply (part_union (rev ls) []). auto. }
  destruct PL as (PS & _). apply (plain_no_nl (i_stamp x) PS). rewrite <- E. apply in_or_app. right. left. auto.
Qed.

(** An index with the same line twice loses the entry although it is reachable *)
Theorem reachable_duplicate_lost_refuted : exists stamps machine l,
  plain_line l /\ In (i_stamp l) stamps /\
  reachablestamps stamps None machine (index_file [l; l]) = Some (mkCleanup [] []).
Proof.
  exists [s_ "/st/hello"], None, (mkIline (s_ "/st/hello") (s_ "/m/hello") (s_ "/w/hello")).
  split; [|split; [left; reflexivity|vm_compute; reflexivity]].
  repeat split; try discriminate; intros c I; cbn in I; intuition (subst; reflexivity).
Qed.

(** One entry superseded, one unreachable, one of another machine *)
Example reachable_case :
  reachablestamps [s_ "/st/hello-2"] None (Some (lines_file [s_ "/st/hello-1"; s_ "/st/hello-2"; s_ "/st/gone"]))
    (index_file [mkIline (s_ "/st/hello-1") (s_ "/m/hello") (s_ "/w/1"); mkIline (s_ "/st/gone") (s_ "/m/gone") (s_ "/w/g");
                 mkIline (s_ "/st/foreign") (s_ "/m/foreign") (s_ "/w/f"); mkIline (s_ "/st/hello-2") (s_ "/m/hello") (s_ "/w/2")]) =
  Some (mkCleanup [iline_text (mkIline (s_ "/st/gone") (s_ "/m/gone") (s_ "/w/g"))]
                  (map iline_text [mkIline (s_ "/st/foreign") (s_ "/m/foreign") (s_ "/w/f"); mkIline (s_ "/st/hello-2") (s_ "/m/hello") (s_ "/w/2")])).
Proof. vm_compute. reflexivity. Qed.

Print Assumptions manifest_clean_exact.
Print Assumptions manifest_clean_racing_exact.
Print Assumptions manifest_touches_only_staged.
Print Assumptions install_then_clean.
Print Assumptions install_refuses_overlap.
Print Assumptions manifest_blank_name_refuted.
Print Assumptions manifest_repeated_source_refuted.
Print Assumptions reachable_cleanup_exact.
Print Assumptions reachable_preserve_ignored_refuted.
Print Assumptions reachable_duplicate_lost_refuted.

(** ** Further cases that meet the hypotheses *)
Lemma sane_checked (l : list (str * str * kind)) : NoDup (map (fun x => fst (fst x) ++ s_ "/" ++ snd (fst x)) l) ->
  forallb (fun x => negb (seqb (snd (fst x)) []) && forallb (fun c => negb (aeqb c "/"%char)) (snd (fst x)) && (seqb (fst (fst x)) [] || existsb (fun y => seqb (fst (fst y) ++ s_ "/" ++ snd (fst y)) (fst (fst x)) && match snd y with KDir => true | _ => false end) l)) l = true ->
  sane_fs (map (fun x => (fst (fst x) ++ s_ "/" ++ snd (fst x), snd x)) l).
Proof.
  intros N H. split; [rewrite map_map; exact N|]. intros p k I. apply in_map_iff in I. destruct I as ([[d n] k'] & E & I). cbn [fst snd] in E. injection E as <- <-. rewrite forallb_forall in H. specialize (H _ I). cbn [fst snd] in H.
  apply andb_true_iff in H. destruct H as [H C]. apply andb_true_iff in H. destruct H as [A B]. exists d, n. split; [reflexivity|]. split; [intros ->; discriminate A|]. split.
  - intros J. rewrite forallb_forall in B. specialize (B _ J). discriminate B.
  - apply orb_true_iff in C. destruct C as [C|C]; [left; now apply seqb_eq|]. right. apply existsb_exists in C. destruct C as ([[d' n'] k2] & J & C). cbn [fst snd] in C. apply andb_true_iff in C. destruct C as [C1 C2]. apply seqb_eq in C1. destruct k2; try discriminate C2. apply in_map_iff. exists (d', n', KDir). cbn [fst snd]. now rewrite C1.
Qed.
Definition ex_after : fs := Eval vm_compute in match sstate_install [] ex_ss ex_fs with Some (_, t) => t | None => [] end.
Example install_clean_met : sane_fs ex_fs /\ sane_fs ex_after /\
  (forall p k k', staged_path ex_ss p k -> In (p, k') ex_fs -> k = KDir /\ k' = KDir) /\ (forall p k, staged_path ex_ss p k -> In (p, k) ex_after).
Proof.
  split; [|split; [|split]].
  - apply (sane_checked [([], s_ "s", KDir); (s_ "/s", s_ "usr", KDir); (s_ "/s/usr", s_ "lib", KDir); (s_ "/s/usr/lib", s_ "other", KFile)]); [|vm_compute; reflexivity].
    vm_compute. repeat constructor; cbn; intuition discriminate.
  - apply (sane_checked [([], s_ "s", KDir); (s_ "/s", s_ "usr", KDir); (s_ "/s/usr", s_ "lib", KDir); (s_ "/s/usr/lib", s_ "other", KFile); (s_ "/s/usr", s_ "bin", KDir); (s_ "/s/usr/bin", s_ "hello", KFile); (s_ "/s/usr/lib", s_ "x", KDir); (s_ "/s/usr/lib/x", s_ "l.so", KLink)]); [|vm_compute; reflexivity].
    vm_compute. repeat constructor; cbn; intuition discriminate.
  - intros p k k' (s & rel & [<-|[]] & I & ->) J. cbn [st_tree ex_ss] in I. assert (X : (rel, k) = (s_ "/lib", KDir) \/ ~ In (s_ "/s/usr" ++ rel) (map fst ex_fs)).
    { repeat destruct I as [E|I]; try destruct I; injection E as <- <-; auto; right; intros K; apply mem_str_In in K; vm_compute in K; discriminate K. }
    destruct X as [X|X]; [|exfalso; apply X; change (s_ "/s/usr" ++ rel) with (fst (s_ "/s/usr" ++ rel, k')); now apply in_map]. injection X as -> ->. split; auto.
    vm_compute in J. destruct J as [J|[J|[J|[J|[]]]]]; try discriminate J. now injection J as <-.
  - intros p k (s & rel & [<-|[]] & I & ->). cbn [st_tree ex_ss] in I. repeat destruct I as [E|I]; try destruct I; injection E as <- <-; vm_compute; tauto.
Qed.

