(** C50: mounts of a root file system do not outlive the task that needs them. *)
From Coq Require Import Ascii String List Bool Arith Lia.
From Verif Require Import Str_Model Str_Proofs Posix_Model Mounts_Model Mounts_Spec Mounts_Proofs.
Import ListNotations.
Open Scope list_scope.

Lemma install_sim : forall e e' (R : state -> state -> Prop) c pre cmds,
  (forall s s', R s s' -> R (tick e s) (tick e' s')) ->
  (forall s s' p, R s s' -> under (root c) p -> visible self p (fst s) = visible self p (fst s')) ->
  (forall s s' p, R s s' -> under (root c) p -> R (p :: fst s, snd s) (p :: fst s', snd s')) ->
  (forall s s' p, R s s' -> under (root c) p ->
    match umount self p (fst s), umount self p (fst s') with Some a, Some b => R (a, snd s) (b, snd s') | None, None => True | _, _ => False end) ->
  sim R (rootfs_install e c pre cmds) (rootfs_install e' c pre cmds).
Proof.
  intros e e' R c pre cmds H1 H2 H3 H4. unfold rootfs_install.
  apply (sim_finally (root c)); auto using umounts_placed. apply sim_then.
  - apply (sim_commands (root c)); auto using umounts_placed.
  - apply sim_then; [apply (sim_script (root c)); auto using mounts_placed|apply (sim_commands (root c)); auto using umounts_placed].
Qed.
Lemma install_app : forall c pre cmds t L n, nothing_below (root c) t ->
  fst (fst (rootfs_install alone c pre cmds (L ++ t, n))) = fst (fst (rootfs_install alone c pre cmds (L, n))) ++ t /\
  snd (rootfs_install alone c pre cmds (L ++ t, n)) = snd (rootfs_install alone c pre cmds (L, n)).
Proof.
  intros c pre cmds t L n C.
  destruct (install_sim alone alone (R_app t) c pre cmds (R_app_tick t) (R_app_vis (root c) t C) (R_app_mount (root c) t) (R_app_umount (root c) t C) (L ++ t, n) (L, n)) as [[A _] B]; [split; reflexivity|]. auto.
Qed.
(** Whichever command or mount fails, the table afterwards is the one before. *)
Theorem install_leaves_nothing : forall c pre cmds t n, nothing_below (root c) t ->
  fst (fst (rootfs_install alone c pre cmds (t, n))) = t.
Proof.
  intros c pre cmds t n C. destruct (install_app c pre cmds t [] n C) as [A _]. cbn [app] in A. eapply eq_trans; [exact A|].
  destruct (install_fresh c pre cmds [] n (fresh_nil _)) as (n' & b & E). rewrite E. reflexivity.
Qed.
(** The same while other tasks mount and unmount elsewhere, at any moment. *)
Theorem install_leaves_nothing_concurrent : forall env c pre cmds t n, unrelated (root c) env -> nothing_below (root c) t ->
  same_for (root c) (fst (fst (rootfs_install env c pre cmds (t, n)))) t.
Proof.
  intros env c pre cmds t n U C.
  destruct (install_sim env alone (R_own (root c)) c pre cmds (R_own_tick _ _ U) (R_own_vis _) (R_own_mount _) (R_own_umount _) (t, n) (own (root c) t, n)) as [[A _] _]; [split; reflexivity|].
  apply same_for_own. rewrite A. apply install_leaves_nothing. now apply own_clean.
Qed.
(** The task succeeds exactly when everything in it did. *)
Theorem install_outcome : forall env c pre cmds t n, unrelated (root c) env -> nothing_below (root c) t ->
  (snd (rootfs_install env c pre cmds (t, n)) = true <-> Forall succeeds pre /\ mounts_work c /\ Forall succeeds cmds).
Proof.
  intros env c pre cmds t n U C.
  destruct (install_sim env alone (R_own (root c)) c pre cmds (R_own_tick _ _ U) (R_own_vis _) (R_own_mount _) (R_own_umount _) (t, n) (own (root c) t, n)) as [_ B]; [split; reflexivity|].
  rewrite B. destruct (install_app c pre cmds (own (root c) t) [] n (own_clean _ _ C)) as [_ B']. cbn [app] in B'. rewrite B', install_result, !andb_true_iff, !succeeds_all, all_ok_work. tauto.
Qed.
(** While the commands run, everything needed is mounted, once, and nothing else is new. *)
Theorem commands_see_mounts : forall c t n, nothing_below (root c) t -> mounts_work c ->
  exists l n', script alone c (do_mounts c) (t, n) = ((l ++ t, n'), true) /\ NoDup l /\ (forall p, In p l <-> In p (needed c))
    /\ forall p, In p (needed c) -> visible self p (l ++ t) = true.
Proof.
  intros c t n C W. apply all_ok_work in W. destruct (mounts_exact c n) as (l & n1 & E & X).
  destruct (sim_script (root c) alone alone (R_app t) (R_app_tick t) (R_app_vis (root c) t C) (R_app_mount (root c) t) (R_app_umount (root c) t C) c (do_mounts c) (mounts_placed c) (t, n) ([], n)) as [[A A'] B]; [split; reflexivity|].
  rewrite E in A, A', B. cbn [fst snd] in A, A', B. specialize (X W). rewrite W in B.
  assert (I : inv (root c) l).
  { pose proof (mounts_inv c [] n (inv_nil _) (fun H => H)) as I. replace l with (fst (fst (script alone c (do_mounts c) ([], n)))); [exact I|]. now rewrite E. }
  exists l, n1. split; [|split; [apply (inv_nodup _ _ I)|split]].
  - destruct (script alone c (do_mounts c) (t, n)) as [[t1 n2] b]. cbn [fst snd] in *. now subst.
  - intros p. rewrite X. apply needed_in.
  - intros p P. rewrite (visible_app (root c)); auto.
    + apply (inv_visible (root c)); auto. rewrite X. now apply needed_in.
    + apply needed_in in P. rewrite <- X in P. apply (inv_points _ _ I) in P. apply in_map_iff in P. destruct P as (q & <- & Q). cbn in Q.
      repeat (destruct Q as [<-|Q]; [eexists; reflexivity|]). destruct Q.
Qed.
Lemma script_app : forall c l t L n, Forall (placed (root c)) l -> nothing_below (root c) t ->
  fst (fst (script alone c l (L ++ t, n))) = fst (fst (script alone c l (L, n))) ++ t /\ snd (script alone c l (L ++ t, n)) = snd (script alone c l (L, n)).
Proof.
  intros c l t L n P C.
  destruct (sim_script (root c) alone alone (R_app t) (R_app_tick t) (R_app_vis (root c) t C) (R_app_mount (root c) t) (R_app_umount (root c) t C) c l P (L ++ t, n) (L, n)) as [[A _] B]; [split; reflexivity|]. auto.
Qed.
(** However far the mounting got (a failing mount command stands for being killed before
    it), rootfs_do_umounts removes all of it. *)
Theorem umounts_undo_mounts : forall c c' t n n', root c' = root c -> nothing_below (root c) t ->
  let left := fst (fst (script alone c' (do_mounts c') (t, n))) in
  fst (fst (script alone c (do_umounts c) (left, n'))) = t /\ snd (script alone c (do_umounts c) (left, n')) = true.
Proof.
  intros c c' t n n' R C left. unfold left. clear left.
  assert (C' : nothing_below (root c') t) by (rewrite R; exact C).
  destruct (script_app c' (do_mounts c') t [] n (mounts_placed c') C') as [A _]. cbn [app] in A. rewrite A.
  pose proof (mounts_inv c' [] n (inv_nil _) (fun H => H)) as I. rewrite R in I. set (L := fst (fst (script alone c' (do_mounts c') ([], n)))) in *.
  destruct (script_app c (do_umounts c) t L n' (umounts_placed c) C) as [B D]. rewrite B, D. destruct (umounts_all c L n' I) as [n1 E]. rewrite E. auto.
Qed.
(** If a task is killed before it mounts on sys/firmware, its next run cleans up. *)
Theorem restart_after_kill_partial : forall c c' pre cmds t n n', root c' = root c -> nothing_below (root c) t ->
  let left := fst (fst (script alone c' (do_mounts c') (t, n))) in
  ~ In (root c ++ s_ "/sys/firmware") left -> fst (fst (rootfs_install alone c pre cmds (left, n'))) = t.
Proof.
  intros c c' pre cmds t n n' R C left. unfold left. clear left.
  assert (C' : nothing_below (root c') t) by (rewrite R; exact C).
  destruct (script_app c' (do_mounts c') t [] n (mounts_placed c') C') as [A _]. cbn [app] in A. rewrite A. intros N.
  pose proof (mounts_inv c' [] n (inv_nil _) (fun H => H)) as I. rewrite R in I. set (L := fst (fst (script alone c' (do_mounts c') ([], n)))) in *.
  destruct (install_app c pre cmds t L n' C) as [B _]. rewrite B.
  destruct (install_fresh c pre cmds L n') as (n1 & b & E); [split; auto|rewrite E; reflexivity].
  intros X. apply N. apply in_or_app. auto.
Qed.
(** Postprocessing and the initramfs clean up once mounting has succeeded and there are commands. *)
Theorem postprocess_leaves_nothing_partial : forall c cmds t n, nothing_below (root c) t -> mounts_work c -> cmds <> [] ->
  fst (fst (rootfs_postprocess alone c true cmds (t, n))) = t
  /\ forall cmd, fst (fst (generate_initramfs alone c true cmd (t, n))) = t.
Proof.
  intros c cmds t n C W N. destruct (commands_see_mounts c t n C W) as (l & n' & E & D & X & V).
  destruct (mounts_exact c n) as (l0 & n0 & E0 & X0). pose proof (mounts_inv c [] n (inv_nil _) (fun H => H)) as I.
  assert (I' : inv (root c) l).
  { replace l with (fst (fst (script alone c (do_mounts c) ([], n)))); [exact I|].
    destruct (script_app c (do_mounts c) t [] n (mounts_placed c) C) as [A _]. cbn [app] in A. rewrite E in A. cbn [fst] in A. symmetry. now apply app_inv_tail in A. }
  assert (F : forall cs n1, fst (fst (finally alone c (commands alone c cs (l ++ t, n1)))) = t).
  { intros cs n1.
    assert (S : sim (R_app t) (fun s => finally alone c (commands alone c cs s)) (fun s => finally alone c (commands alone c cs s))).
    { apply (sim_finally (root c) alone alone (R_app t) (R_app_tick t) (R_app_vis (root c) t C) (R_app_mount (root c) t) (R_app_umount (root c) t C)); [apply umounts_placed|].
      apply (sim_commands (root c) alone alone (R_app t) (R_app_tick t) (R_app_vis (root c) t C) (R_app_mount (root c) t) (R_app_umount (root c) t C)). apply umounts_placed. }
    destruct (S (l ++ t, n1) (l, n1)) as [[A _] _]; [split; reflexivity|]. cbv beta in A. rewrite A.
    destruct (commands_keep c (inv (root c)) cs (l, n1) (inv_nil _) (fun L H => H) I') as [J _]. destruct (finally_inv c _ J) as [n2 ->]. reflexivity. }
  unfold rootfs_postprocess, generate_initramfs, then_. rewrite E. cbn [fst snd command1 tick]. unfold alone at 1 2. split.
  - destruct cmds as [|x cmds]; [congruence|]. apply F.
  - intros cmd. apply F.
Qed.
Definition sample : config := mkConfig (s_ "/b/tmp/work/r/rootfs") true false true (fun _ => true) true (fun _ => true).
Example install_case :
  nothing_below (root sample) [s_ "/b"; s_ "/"] /\ mounts_work sample /\
  rootfs_install alone sample [Plain true] [Plain true; Plain false; Plain true] ([s_ "/b"; s_ "/"], 0) = ([s_ "/b"; s_ "/"], 40, false).
Proof.
  split; [|split; [|vm_compute; reflexivity]].
  - intros m [<-|[<-|[]]] [x E]; vm_compute in E; discriminate.
  - repeat split; auto.
Qed.
(** A mount left on sys/firmware is not removed by the next run: it is mounted again, unmounted
    once, and sys stays busy; every later run of the task fails in the same way. *)
Theorem restart_after_kill_refuted : exists c t n, let left := fst (fst (script alone c (do_mounts c) (t, n))) in
  mounts_work c /\ nothing_below (root c) t /\
  forall n', fst (fst (rootfs_install alone c [] [] (left, n'))) = [root c ++ s_ "/sys/firmware"; root c ++ s_ "/sys"] ++ t
    /\ snd (rootfs_install alone c [] [] (left, n')) = false
    /\ forall n'', fst (fst (rootfs_install alone c [] [] ([root c ++ s_ "/sys/firmware"; root c ++ s_ "/sys"] ++ t, n''))) = [root c ++ s_ "/sys/firmware"; root c ++ s_ "/sys"] ++ t
    /\ snd (rootfs_install alone c [] [] ([root c ++ s_ "/sys/firmware"; root c ++ s_ "/sys"] ++ t, n'')) = false.
Proof.
  exists sample, [], 0. cbv zeta. split; [repeat split; auto|]. split; [intros m []|]. intros n'. split; [vm_compute; reflexivity|]. split; [vm_compute; reflexivity|].
  intros n''. split; vm_compute; reflexivity.
Qed.
(** Without postprocessing commands, or when mounting or the emulator fails, postprocessing leaves mounts behind. *)
Theorem postprocess_leaves_nothing_refuted :
  (exists c t n, mounts_work c /\ nothing_below (root c) t /\ snd (rootfs_postprocess alone c true [] (t, n)) = true /\ fst (fst (rootfs_postprocess alone c true [] (t, n))) <> t)
  /\ (exists c t n, mounts_work c /\ nothing_below (root c) t /\ fst (fst (rootfs_postprocess alone c false [Plain true] (t, n))) <> t)
  /\ (exists c t n, nothing_below (root c) t /\ fst (fst (rootfs_postprocess alone c true [Plain true] (t, n))) <> t).
Proof.
  split; [|split].
  - exists sample, [], 0. split; [repeat split; auto|]. split; [intros m []|]. split; [vm_compute; reflexivity|vm_compute; discriminate].
  - exists sample, [], 0. split; [repeat split; auto|]. split; [intros m []|]. vm_compute. discriminate.
  - exists (mkConfig (s_ "/r") true false true (fun p => negb (seqb p (s_ "/r/proc"))) true (fun _ => true)), [], 0. split; [intros m []|]. vm_compute. discriminate.
Qed.

(** At the end of a build every mount whose line mentions TMPDIR/work/ is unmounted, and no other. *)
Theorem build_end_unmounts : forall tmpdir t, tmpdir <> [] -> separate (tmpdir ++ s_ "/work/") t ->
  exists t' warnings, build_completed tmpdir (s_ "default") false t = (t', warnings, []) /\ without (mentions (tmpdir ++ s_ "/work/")) t t'.
Proof.
  intros tmpdir t N S. unfold build_completed. destruct tmpdir as [|c tmpdir]; [congruence|]. rewrite seqb_refl. set (base := (c :: tmpdir) ++ s_ "/work/") in *. cbv zeta.
  pose proof (cleanup_run base t [] S) as R. cbn [app filter] in R. rewrite R. cbn [fst snd]. eexists. eexists. split; [reflexivity|]. apply filter_without. intros e. apply mentions_iff.
Qed.
(** Mounts inside the directory, on top of each other in any way, meet the hypothesis. *)
Theorem separate_when : forall base t,
  (forall e, In e t -> mentions base e -> exists a b, mtarget e = a ++ base ++ b) ->
  (forall later e earlier x, t = later ++ e :: earlier -> mentions base e -> In x later -> ~ mentions base x -> ~ under (mtarget x) (mtarget e)) ->
  separate base t.
Proof.
  intros base t H K later e earlier x E M I R.
  assert (Ie : In e t) by (rewrite E; apply in_or_app; right; now left). destruct (H e Ie M) as (a & b & T).
  assert (D : forall y, mtarget x = mtarget e ++ y -> mentions base x).
  { intros y Y. unfold mentions, line_text. rewrite Y, T. exists (device x ++ s_ " " ++ a), (b ++ y ++ s_ " " ++ options x). now rewrite <- !app_assoc. }
  destruct R as [R|[[y R]|R]].
  - apply (D []). now rewrite app_nil_r.
  - eapply D; eauto.
  - destruct (contains_sub base (line_text x)) eqn:Z; [now apply mentions_iff|]. exfalso. apply (K later e earlier x); auto. intros W. apply mentions_iff in W. congruence.
Qed.
Example build_end_case :
  let t := [mkLine (s_ "none") (s_ "/b/tmp/work/r/sys/firmware") (s_ "tmpfs"); mkLine (s_ "none") (s_ "/b/tmp/work/r/sys/firmware") (s_ "tmpfs"); mkLine (s_ "udev") (s_ "/x") (s_ "rw"); mkLine (s_ "sysfs") (s_ "/b/tmp/work/r/sys") (s_ "rw"); mkLine (s_ "/dev/sda") (s_ "/") (s_ "rw")] in
  build_completed (s_ "/b/tmp") (s_ "default") false t
  = ([mkLine (s_ "udev") (s_ "/x") (s_ "rw"); mkLine (s_ "/dev/sda") (s_ "/") (s_ "rw")], [s_ "/b/tmp/work/r/sys/firmware"; s_ "/b/tmp/work/r/sys/firmware"; s_ "/b/tmp/work/r/sys"], []).
Proof. vm_compute. reflexivity. Qed.
(** ISAR_FAIL_ON_CLEANUP and the other multiconfigs leave the mounts. *)
Theorem build_end_reports : forall tmpdir t, tmpdir <> [] ->
  exists found, build_completed tmpdir (s_ "default") true t = (t, [], map mtarget found) /\ without (fun e => ~ mentions (tmpdir ++ s_ "/work/") e) t found.
Proof.
  intros tmpdir t N. unfold build_completed. destruct tmpdir as [|c tmpdir]; [congruence|]. rewrite seqb_refl. eexists. split; [reflexivity|].
  set (base := (c :: tmpdir) ++ s_ "/work/"). clear N.
  assert (W : forall e, negb (contains_sub base (line_text e)) = true <-> ~ mentions base e).
  { intros e. rewrite negb_true_iff, <- mentions_iff. destruct (contains_sub base (line_text e)); split; intros; congruence. }
  pose proof (filter_without _ _ _ t W) as F. erewrite filter_ext; [exact F|]. intros e. cbv beta. now rewrite negb_involutive.
Qed.
(** Whatever else is mounted: every mount found is warned about and tried, and the
    ones that stay are counted one by one among the errors. *)
Lemma umount_length {A} (target : A -> str) p (t t' : list A) : umount target p t = Some t' -> length t = S (length t').
Proof.
  revert t'. induction t as [|m t IH]; intros t' H; cbn [umount] in H; [discriminate|]. destruct (seqb (target m) p); [injection H as <-; reflexivity|].
  destruct (below (target m) p || below p (target m)); [discriminate|]. destruct (umount target p t) as [t1|]; [|discriminate]. injection H as <-. cbn [length]. now rewrite (IH t1).
Qed.
Lemma cleanup_length base lines : forall t,
  length t + length (snd (cleanup_loop base lines t)) = length (fst (cleanup_loop base lines t)) + length (filter (fun e => contains_sub base (line_text e)) lines)
  /\ forall x, In x (snd (cleanup_loop base lines t)) -> In x (map mtarget (filter (fun e => contains_sub base (line_text e)) lines)).
Proof.
  induction lines as [|e r IH]; intros t; cbn [cleanup_loop filter]; [cbn [fst snd length]; split; [lia|auto]|].
  destruct (contains_sub base (line_text e)); [|apply IH]. cbn [map length]. destruct (umount mtarget (mtarget e) t) as [t'|] eqn:U.
  - destruct (IH t') as [A B]. apply umount_length in U. split; [lia|]. intros x I. right. auto.
  - destruct (IH t) as [A B]. cbn [fst snd length]. split; [lia|]. intros x [<-|I]; [now left|right; auto].
Qed.
Theorem build_end_accounts : forall tmpdir t t' warnings errors, tmpdir <> [] ->
  build_completed tmpdir (s_ "default") false t = (t', warnings, errors) ->
  (forall x, In x warnings <-> exists e, In e t /\ mentions (tmpdir ++ s_ "/work/") e /\ mtarget e = x) /\
  incl errors warnings /\ length t + length errors = length t' + length warnings.
Proof.
  intros tmpdir t t' warnings errors N H. unfold build_completed in H. destruct tmpdir as [|c tmpdir]; [congruence|]. rewrite seqb_refl in H. set (base := (c :: tmpdir) ++ s_ "/work/") in *. cbv zeta in H.
  injection H as <- <- <-. destruct (cleanup_length base t t) as [A B]. split; [|split; [exact B|now rewrite map_length]].
  intros x. rewrite in_map_iff. split.
  - intros (e & <- & I). apply filter_In in I. exists e. split; [tauto|]. split; [apply mentions_iff; tauto|reflexivity].
  - intros (e & I & M & <-). exists e. split; auto. apply filter_In. split; auto. now apply mentions_iff.
Qed.
Example build_end_accounts_case : exists t', build_completed (s_ "/b") (s_ "default") false
  [mkLine (s_ "t") (s_ "/b/work/a/x") (s_ "-"); mkLine (s_ "t") (s_ "/b/work/a") (s_ "-"); mkLine (s_ "/b/work/c") (s_ "/m") (s_ "-"); mkLine (s_ "t") (s_ "/b/work/z") (s_ "-")] = (t', [s_ "/b/work/a/x"; s_ "/b/work/a"; s_ "/m"; s_ "/b/work/z"], []) /\ t' = [].
Proof. eexists. split; vm_compute; reflexivity. Qed.
Theorem other_configurations_skip : forall tmpdir mc f t, mc <> s_ "default" -> build_completed tmpdir mc f t = (t, [], []).
Proof. intros tmpdir mc f t N. unfold build_completed. destruct tmpdir; auto. apply seqb_neq in N. now rewrite N. Qed.
(** The whole line is searched, so a mount elsewhere is unmounted when only its options name the directory. *)
Theorem build_end_foreign_refuted : exists tmpdir t e, In e t /\ (forall rest, mtarget e <> tmpdir ++ rest) /\ fst (fst (build_completed tmpdir (s_ "default") false t)) = [].
Proof.
  exists (s_ "/b"), [mkLine (s_ "overlay") (s_ "/srv/x") (s_ "lowerdir=/b/work/r")], (mkLine (s_ "overlay") (s_ "/srv/x") (s_ "lowerdir=/b/work/r")).
  split; [now left|]. split; [intros rest E; discriminate E|]. vm_compute. reflexivity.
Qed.

(** A second execution of a task in one build is reported, and nothing else is. *)
Theorem second_execution_reported : forall h k, In (Multiple k) (snd (once_run (fst (once_run [] h)) [TaskStarted k])) <-> already_started h k.
Proof.
  intros h k. rewrite <- stamps_are. cbn [once_run once_step]. destruct (mem_str k (fst (once_run [] h))) eqn:M; cbn; rewrite <- mem_str_In, M; split; intros; auto; try tauto; discriminate.
Qed.
Theorem reports_come_from_starts : forall h e r, In r (snd (once_run (fst (once_run [] h)) [e])) ->
  (exists k, e = TaskStarted k /\ r = Multiple k /\ already_started h k) \/ (exists k, e = TaskFailed k /\ r = NoStamp k /\ ~ already_started h k).
Proof.
  intros h e r I. cbn [once_run] in I. rewrite app_nil_r in I. pose proof (stamps_are h) as S. destruct e as [|k|k|k]; cbn [once_step] in I; try destruct I.
  - destruct (mem_str k (fst (once_run [] h))) eqn:M; cbn in I; [destruct I as [<-|[]]|destruct I]. left. exists k. repeat split; auto. apply S. now apply mem_str_In.
  - destruct (mem_str k (fst (once_run [] h))) eqn:M; cbn in I; [destruct I|destruct I as [<-|[]]]. right. exists k. repeat split; auto. intros A. apply S in A. now apply mem_str_false in M.
Qed.
Example once_case : already_started [BuildStarted; TaskStarted (s_ "a"); TaskStarted (s_ "b"); TaskFailed (s_ "b")] (s_ "a")
  /\ ~ already_started [BuildStarted; TaskStarted (s_ "a"); TaskStarted (s_ "b"); TaskFailed (s_ "b")] (s_ "b").
Proof. split; [apply stamps_are; vm_compute; auto|]. intros H. apply stamps_are in H. vm_compute in H. destruct H as [H|[]]. discriminate. Qed.

(** A command of the installation runs with the repository lock held exactly when it was acquired before and not released before. *)
Theorem lock_window : forall cmds i held, nth_error (fst (run_locked false cmds)) i = Some held -> (held = true <-> protected cmds i).
Proof. intros cmds i held E. rewrite (run_locked_held _ _ _ _ E). split; [intros [H|[H _]]; [auto|discriminate]|auto]. Qed.
(** With the flags of the class: update, download and what is between them, and the second download. *)
Example lock_case : fst (run_locked false [(false, false, true); (true, false, true); (false, false, true); (false, true, true); (true, true, true); (false, false, true)]) = [false; true; true; true; true; false].
Proof. reflexivity. Qed.

Print Assumptions build_end_accounts.
Print Assumptions install_leaves_nothing.
Print Assumptions install_leaves_nothing_concurrent.
Print Assumptions install_outcome.
Print Assumptions commands_see_mounts.
Print Assumptions umounts_undo_mounts.
Print Assumptions restart_after_kill_partial.
Print Assumptions postprocess_leaves_nothing_partial.
Print Assumptions restart_after_kill_refuted.
Print Assumptions postprocess_leaves_nothing_refuted.
Print Assumptions build_end_unmounts.
Print Assumptions separate_when.
Print Assumptions build_end_reports.
Print Assumptions other_configurations_skip.
Print Assumptions build_end_foreign_refuted.
Print Assumptions second_execution_reported.
Print Assumptions reports_come_from_starts.
Print Assumptions lock_window.

(** ** Further cases that meet the hypotheses *)
Example concurrent_met : unrelated (s_ "/b/tmp/work/r/rootfs") (fun _ t => s_ "/other" :: t) /\ nothing_below (s_ "/b/tmp/work/r/rootfs") [s_ "/b"; s_ "/"].
Proof.
  split; [|apply install_case]. intros n t. apply same_left; [|now apply same_for_own]. intros [E|[[r E]|[r E]]]; discriminate E.
Qed.

