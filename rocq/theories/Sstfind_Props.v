(** The search for shared-state objects: the claims. *)
From Coq Require Import Ascii String List Bool Arith Lia Permutation.
From Verif Require Import Str_Model Str_Proofs Sstname_Model Sstname_Proofs Sstname_Props Sstfind_Model Sstfind_Spec Sstfind_Proofs.
Import ListNotations.
Open Scope list_scope.

(** ** C111 *)
Lemma prefixed_nil r : prefixed [] r = r.
Proof. now destruct r. Qed.
Lemma prefixed_name p r name : prefixed p r = Name name -> exists n, r = Name n /\ name = p ++ n.
Proof. destruct r as [n| |]; cbn; try discriminate. intros H. injection H as <-. eauto. Qed.
(** An object is looked for under the name it is stored under, and its signature
    information beside it. *)
Theorem found_where_stored : forall lsb r hash fn task,
  no_blank (r_pn r) -> no_blank (r_host r) -> no_blank (r_pv r) -> no_blank (r_pr r) -> no_blank (r_arch r) -> no_blank (r_version r) ->
  ~ In ":"%char task -> ~ In task [s_ "fetch"; s_ "unpack"; s_ "patch"; s_ "preconfigure"] ->
  looked_for lsb (hashfilename r) hash (fn ++ s_ ":do_" ++ task) false = stored_name lsb r hash task /\
  forall name, stored_name lsb r hash task = Name name ->
    looked_for lsb (hashfilename r) hash (fn ++ s_ ":do_" ++ task) true = Name (name ++ s_ ".siginfo").
Proof.
  intros lsb r hash fn task B1 B2 B3 B4 B5 B6 NC NT.
  assert (BP : no_blank (r_pkgspec r)).
  { unfold no_blank, r_pkgspec, pkgspec. rewrite !in_app_iff. intros H. repeat (destruct H as [H|H]); auto; try (cbn in H; repeat destruct H as [H|H]; try discriminate; contradiction). }
  assert (BS : no_blank (r_swspec r)).
  { unfold no_blank, r_swspec, swspec, pkgspec. rewrite !in_app_iff. intros H. repeat (destruct H as [H|H]); auto; try (cbn in H; repeat destruct H as [H|H]; try discriminate; contradiction). }
  assert (PC : path_components lsb (hashfilename r) (fn ++ s_ ":do_" ++ task) =
    Some (if seqb task (s_ "populate_lic") then (r_swspec r, [], task) else (r_pkgspec r, if r_native r then lsb ++ s_ "/" else [], task))).
  { unfold path_components, hashfilename. rewrite hashfn_split; [|destruct (r_native r); intros H; cbn in H; repeat destruct H as [H|H]; try discriminate; contradiction|exact BP|exact BS].
    rewrite short_task_form by exact NC. destruct (seqb task (s_ "populate_lic")) eqn:E.
    - apply seqb_eq in E. subst task. change (unpacked_task (s_ "populate_lic")) with true. destruct (r_swspec r) eqn:W; [discriminate W|reflexivity].
    - assert (U : unpacked_task task = false).
      { unfold unpacked_task. apply mem_str_false. intros I. apply seqb_neq in E. cbn [In] in *. intuition congruence. }
      rewrite U. destruct (r_native r); reflexivity. }
  unfold looked_for. rewrite PC. unfold stored_name. destruct (seqb task (s_ "populate_lic")).
  - split.
    + apply prefixed_nil.
    + intros name H. apply sst_siginfo_beside_archive in H. rewrite H. reflexivity.
  - split; [reflexivity|]. intros name H. apply prefixed_name in H. destruct H as (n & G & ->).
    apply sst_siginfo_beside_archive in G. rewrite G. cbn [prefixed]. now rewrite app_assoc.
Qed.
Definition hello : recipe := mkRecipe false (s_ "hello") (s_ "amd64-linux") (s_ "1.0") (s_ "r0") (s_ "amd64") (s_ "10").
Definition hello_blank : recipe := mkRecipe false (s_ "hello") (s_ "amd64-linux") (s_ "1.0 beta") (s_ "r0") (s_ "amd64") (s_ "10").
Definition some_hash : option str := Some (s_ "0123456789abcdef").
(** Objects of tasks called fetch, unpack, patch or preconfigure would be stored
    under the name of the package and looked for under that of the sources. *)
Theorem source_tasks_refuted :
  Forall (fun t => exists a b, stored_name [] hello some_hash t = Name a /\
    looked_for [] (hashfilename hello) some_hash (s_ "/hello.bb:do_" ++ t) false = Name b /\ a <> b) [s_ "fetch"; s_ "unpack"; s_ "patch"; s_ "preconfigure"].
Proof. repeat constructor; eexists; eexists; (split; [vm_compute; reflexivity|]); (split; [vm_compute; reflexivity|]); discriminate. Qed.
(** A blank in the version: the object is never looked for under its name. *)
Theorem blank_version_refuted : exists a b, stored_name [] hello_blank some_hash (s_ "dpkg_build") = Name a /\
  looked_for [] (hashfilename hello_blank) some_hash (s_ "/hello.bb:do_dpkg_build") false = Name b /\ a <> b.
Proof. eexists. eexists. split; [vm_compute; reflexivity|]. split; [vm_compute; reflexivity|]. discriminate. Qed.
Example hello_found : looked_for [] (hashfilename hello) some_hash (s_ "/hello.bb:do_dpkg_build") true =
  Name (s_ "01/23/sstate:hello:amd64-linux:1.0:r0:amd64:10:0123456789abcdef_dpkg_build.tar.zst.siginfo").
Proof. vm_compute. reflexivity. Qed.
Example hello_meets : (no_blank (r_pn hello) /\ no_blank (r_host hello) /\ no_blank (r_pv hello) /\ no_blank (r_pr hello) /\ no_blank (r_arch hello) /\ no_blank (r_version hello)) /\
  ~ In ":"%char (s_ "dpkg_build") /\ ~ In (s_ "dpkg_build") [s_ "fetch"; s_ "unpack"; s_ "patch"; s_ "preconfigure"].
Proof. repeat split; intros H; cbn in H; repeat destruct H as [H|H]; try discriminate; try contradiction. Qed.

(** ** C112 *)
Definition name_of (lsb : str) (sq : sqdata) (siginfo : bool) (t f : str) : Prop := looked_for lsb (s_hashfn sq t) (s_unihash sq t) t siginfo = Name f.
Definition mirrored (mirror : option (str -> outcome)) (f : str) : Prop := exists check, mirror = Some check /\ check f = Present.
(** Whatever the threads do in whatever order: the tasks found are those whose object
    is in the local directory or on a mirror, the others are missed, and no task is
    counted twice. *)
Theorem check_exact : forall lsb dir sq siginfo local mirror threads order schedule found missed,
  NoDup (s_tasks sq) -> (forall l, Permutation (order l) l) ->
  checkhashes lsb dir sq siginfo local mirror threads order schedule = Result found missed ->
  Permutation (found ++ missed) (s_tasks sq) /\
  forall t, In t (s_tasks sq) -> (In t found <-> there (name_of lsb sq siginfo) dir local (mirrored mirror) t).
Proof.
  intros lsb dir sq sg local mirror threads order sched found missed ND PO H. unfold checkhashes in H.
  destruct (local_scan lsb dir sq sg local (s_tasks sq) [] []) as [[f0 m0]|] eqn:L; [|discriminate].
  destruct (local_scan_spec _ _ _ _ _ _ _ _ _ _ L) as (AN & f' & m' & -> & -> & P & FF & MM). rewrite !app_nil_r in *.
  assert (NFM : NoDup (f' ++ m')) by (eapply Permutation_NoDup; [symmetry; exact P|exact ND]).
  destruct (nodup_split _ _ NFM) as [NF NM].
  assert (DJ : forall t, In t f' -> ~ In t m').
  { clear - NFM. induction f' as [|x f' IH]; intros t I I'; [destruct I|]; destruct I as [<-|I]; cbn in NFM; apply NoDup_cons_iff in NFM; destruct NFM as [A B]; [apply A, in_or_app; now right|exact (IH B t I I')]. }
  assert (FO : forall t n, file_of lsb sq sg t = Some n <-> name_of lsb sq sg t n).
  { intros t n. unfold file_of, name_of. destruct (looked_for lsb (s_hashfn sq t) (s_unihash sq t) t sg); split; congruence. }
  destruct mirror as [check|].
  - assert (AN' : forall t, In t (order m') -> exists n, file_of lsb sq sg t = Some n) by (intros t I; apply AN; rewrite <- P; apply in_or_app; right; now rewrite <- (PO m')).
    destruct (all_some_files (file_of lsb sq sg) (order m') AN') as (files & EF & MF & GF). rewrite EF in H. cbv zeta in H.
    destruct (completed (run_pool check sched (start_pool files threads f' m'))) eqn:C; [|discriminate]. injection H as <- <-.
    assert (NDF : NoDup (map fst files)) by (rewrite MF; eapply Permutation_NoDup; [symmetry; apply PO|exact NM]).
    assert (DF : forall x, In x f' -> ~ In x (map fst files)) by (intros x I I'; rewrite MF, (PO m') in I'; exact (DJ x I I')).
    destruct (pool_result check files threads f' m' sched NDF DF C) as (RF & RM & NRF & NRM). specialize (NRF NF). specialize (NRM NM).
    set (p := run_pool check sched (start_pool files threads f' m')) in *.
    assert (K : forall t, (exists f, In (t, f) files /\ check f = Present) <-> In t m' /\ exists f, name_of lsb sq sg t f /\ check f = Present).
    { intros t. split.
      - intros (f & I & Q). split; [rewrite <- (PO m'), <- MF; apply in_map_iff; exists (t, f); auto|]. exists f. split; [apply FO; now apply GF|exact Q].
      - intros (I & f & N & Q). rewrite <- (PO m'), <- MF in I. apply in_map_iff in I. destruct I as ([t' g] & <- & I). cbn [fst] in N. apply FO in N. rewrite (GF _ _ I) in N. injection N as ->. eauto. }
    split.
    + apply NoDup_Permutation; [apply nodup_app; auto|exact ND|].
      * intros t I I'. apply RF in I. apply RM in I'. destruct I' as [I1 I2]. destruct I as [I|I]; [exact (DJ t I I1)|contradiction].
      * intros t. rewrite <- P, !in_app_iff, RF, RM, K. split; [tauto|]. intros [I|I]; [tauto|].
        destruct (AN t) as [n N]; [rewrite <- P; apply in_or_app; now right|]. assert (X : check n = Present \/ check n <> Present) by (destruct (check n); [now left|right; discriminate|right; discriminate]).
        destruct X as [X|X]; [left; right; split; [exact I|]; exists n; split; [now apply FO|exact X]|]. right. split; [exact I|]. intros (_ & f & N' & Q). apply FO in N'. congruence.
    + intros t IT. rewrite RF, K. unfold there. split.
      * intros [I|(I & f & N & Q)]; [destruct (FF t I) as (n & N & X); exists n; split; [now apply FO|now left]|]. exists f. split; [exact N|]. right. exists check. auto.
      * intros (f & N & X). rewrite <- P in IT. apply in_app_or in IT. destruct IT as [I|I]; [now left|]. right. split; [exact I|]. exists f. split; [exact N|]. destruct X as [X|(c & Q & X)]; [|injection Q as <-; exact X].
        destruct (MM t I) as (n & N' & X'). apply FO in N. congruence.
  - injection H as <- <-. split; [exact P|]. intros t IT. unfold there. split.
    + intros I. destruct (FF t I) as (n & N & X). exists n. split; [now apply FO|now left].
    + intros (f & N & X). rewrite <- P in IT. apply in_app_or in IT. destruct IT as [I|I]; [exact I|]. exfalso. destruct X as [X|(c & Q & _)]; [|discriminate]. destruct (MM t I) as (n & N' & X'). apply FO in N. congruence.
Qed.
(** The search raises exactly if some task's object cannot be named. *)
Theorem check_raises : forall lsb dir sq siginfo local mirror threads order schedule, (forall l, Permutation (order l) l) ->
  (checkhashes lsb dir sq siginfo local mirror threads order schedule = Raised <-> exists t, In t (s_tasks sq) /\ forall f, ~ name_of lsb sq siginfo t f).
Proof.
  intros lsb dir sq sg local mirror threads order sched PO.
  assert (FO : forall t, file_of lsb sq sg t = None <-> forall f, ~ name_of lsb sq sg t f).
  { intros t. unfold file_of, name_of. destruct (looked_for lsb (s_hashfn sq t) (s_unihash sq t) t sg) as [n| |]; split; try congruence; try (intros; discriminate). intros H. exfalso. exact (H n eq_refl). }
  unfold checkhashes. destruct (local_scan lsb dir sq sg local (s_tasks sq) [] []) as [[f0 m0]|] eqn:L.
  - destruct (local_scan_spec _ _ _ _ _ _ _ _ _ _ L) as (AN & f' & m' & -> & -> & P & FF & MM). rewrite !app_nil_r in *.
    assert (NR : ~ exists t, In t (s_tasks sq) /\ forall f, ~ name_of lsb sq sg t f) by (intros (t & I & N); apply FO in N; destruct (AN t I); congruence).
    destruct mirror as [check|]; [|split; [discriminate|tauto]].
    assert (AN' : forall t, In t (order m') -> exists n, file_of lsb sq sg t = Some n) by (intros t I; apply AN; rewrite <- P; apply in_or_app; right; now rewrite <- (PO m')).
    destruct (all_some_files (file_of lsb sq sg) (order m') AN') as (files & -> & _ & _). destruct (completed _); split; try discriminate; tauto.
  - split; [intros _|reflexivity]. apply local_scan_none in L. destruct L as (t & I & N). exists t. split; [exact I|]. now apply FO.
Qed.
(** The search ends: while it has not, some thread can go on if there is one, and the
    threads can go on only so often. *)
Theorem check_ends : forall check files threads found missed schedule,
  let p := run_pool check schedule (start_pool files threads found missed) in
  (0 < threads -> completed p = false -> exists i, pool_step check p i <> p) /\
  ((forall a i b, schedule = a ++ i :: b -> pool_step check (run_pool check a (start_pool files threads found missed)) i <> run_pool check a (start_pool files threads found missed)) ->
   length schedule <= 3 * length files + threads).
Proof.
  intros check files threads found missed sched p. split.
  - intros T C. destruct (run_gone check sched _ (start_gone files threads found missed)) as [G N]. fold p in G, N. apply step_enabled; auto. intros E. rewrite E in N. cbn [start_pool p_workers length] in N. rewrite repeat_length in N.
    destruct files as [|x files]; [|cbn [length] in N; destruct threads; [lia|cbn in N; discriminate]].
    assert (Z : p = start_pool [] threads found missed).
    { unfold p. clear. induction sched as [|i sched IH]; [auto|]. cbn. unfold pool_step at 2. cbn [start_pool p_workers length]. rewrite Nat.min_0_r. cbn [repeat]. destruct i; exact IH. }
    rewrite Z in C. cbn in C. rewrite Nat.min_0_r in C. discriminate.
  - intros EFF. assert (B : forall s q, (forall a i b, s = a ++ i :: b -> pool_step check (run_pool check a q) i <> run_pool check a q) -> length s <= left_over q).
    { clear. induction s as [|i s IH]; intros q E; [cbn; lia|]. cbn [length]. assert (S1 := step_less check q i (E [] i s eq_refl)). assert (S2 : length s <= left_over (pool_step check q i)); [|lia].
      apply IH. intros a j b ->. exact (E (i :: a) j b eq_refl). }
    specialize (B sched _ EFF). unfold left_over in B. cbn [start_pool p_queue p_workers] in B. assert (W : forall n, list_sum (map work (repeat Waiting n)) = n) by (induction n as [|n IHn]; [reflexivity|]; change (1 + list_sum (map work (repeat Waiting n)) = S n); rewrite IHn; reflexivity). rewrite W in B. lia.
Qed.
(** With BB_NUMBER_THREADS = "0" the search never ends when an object is to be looked
    for on a mirror. *)
Theorem no_threads_refuted : forall check files found missed schedule, files <> [] -> completed (run_pool check schedule (start_pool files 0 found missed)) = false.
Proof.
  intros check files found missed sched N. assert (Z : run_pool check sched (start_pool files 0 found missed) = start_pool files 0 found missed).
  { induction sched as [|i sched IH]; [auto|]. cbn. unfold pool_step at 2. cbn [start_pool p_workers repeat min]. destruct i; exact IH. }
  rewrite Z. destruct files; [contradiction|reflexivity].
Qed.
Definition demo_sq : sqdata := mkSq [s_ "/a.bb:do_dpkg_build"; s_ "/b.bb:do_dpkg_build"; s_ "/c.bb:do_dpkg_build"]
  (fun t => hashfilename (mkRecipe false (firstn 2 t) (s_ "x") (s_ "1") (s_ "r0") (s_ "amd64") (s_ "10"))) (fun _ => some_hash).
Definition demo_local (f : str) : bool := contains_sub (s_ "sstate:/a:") f.
Definition demo_mirror (f : str) : outcome := if contains_sub (s_ "sstate:/b:") f then Present else FetchError.
Example demo_check : checkhashes [] (s_ "/sstate") demo_sq false demo_local (Some demo_mirror) 2 (@rev str) [0; 1; 1; 0; 0; 1; 0; 1] =
  Result [s_ "/b.bb:do_dpkg_build"; s_ "/a.bb:do_dpkg_build"] [s_ "/c.bb:do_dpkg_build"].
Proof. vm_compute. reflexivity. Qed.
Example demo_nodup : NoDup (s_tasks demo_sq) /\ forall l : list str, Permutation (rev l) l.
Proof. split; [|intros l; symmetry; apply Permutation_rev]. repeat constructor; cbn; intuition discriminate. Qed.

Print Assumptions found_where_stored. Print Assumptions source_tasks_refuted. Print Assumptions blank_version_refuted.
Print Assumptions check_exact. Print Assumptions check_raises. Print Assumptions check_ends. Print Assumptions no_threads_refuted.
