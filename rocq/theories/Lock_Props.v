(** C28: file locks are mutually exclusive. *)
From Coq Require Import List Bool Arith Lia.
From Verif Require Import Lock_Model Lock_Spec Lock_Proofs.
Import ListNotations.

(** Any number of processes, any interleaving of their system calls, crashes
    included; exclusive locks only, whatever flock does when it converts. *)
Theorem lock_exclusion : forall atomic n d es s,
  all_exclusive es -> run atomic (init n d) es = Some s -> exclusive s.
Proof.
  intros atomic n d es s A R. apply LI_exclusive. destruct (run_LI atomic es (init n d) s) as [L _]; auto using init_LI.
  right. split; auto. intros p _. reflexivity.
Qed.
(** With shared locks too, if flock converts a lock in one step. *)
Theorem lock_exclusion_shared_partial : forall n d es s, run true (init n d) es = Some s -> exclusive s.
Proof.
  intros n d es s R. apply LI_exclusive. destruct (run_LI true es (init n d) s) as [L _]; auto using init_LI.
Qed.
(** flock(2) does not promise that, and then it fails: process 0 gives up its shared
    lock during the conversion, 1 takes the lock and releases it (removing the file),
    2 locks a new file, 0 gets its lock on the old file and removes the new one, 3
    locks yet another file while 2 still holds the lock. *)
Theorem lock_exclusion_shared_refuted : ~ (forall n d es s, run false (init n d) es = Some s -> exclusive s).
Proof.
  intros H.
  set (es := [Call 0 true true false; Call 1 false true false; Open 0 10; Flock 0; CheckExists 0; Stat 0; Open 1 11;
              Release 0; Convert 0;
              Flock 1; CheckExists 1; Stat 1; Release 1; Convert 1; Unlink 1; Unlock 1;
              Call 2 false true false; Open 2 12; Flock 2; CheckExists 2; Stat 2;
              Regain 0; Unlink 0; Unlock 0;
              Call 3 false true false; Open 3 13; Flock 3; CheckExists 3; Stat 3]).
  destruct (run false (init 4 None) es) as [s|] eqn:R; [|vm_compute in R; discriminate].
  specialize (H 4 None es s R).
  assert (X : 2 = 3); [|discriminate]. vm_compute in R. injection R as <-. apply H; cbn; try lia.
  - split; [exists 12; reflexivity|reflexivity].
  - exists 13. reflexivity.
Qed.
(** ** The kernel's part: however locks are converted, an exclusive lock on an open file is alone on that inode *)
Definition kernel_ok (s : state) : Prop := forall p q i, p < count s -> q < count s -> p <> q ->
  inode_of (pr s p) = Some i -> inode_of (pr s q) = Some i -> held (pr s p) = Some Exclusive -> held (pr s q) = None.
Lemma put_kernel s p x : kernel_ok s -> p < count s ->
  (held x = None \/ (inode_of x = inode_of (pr s p) /\ held x = held (pr s p)) \/ exists i m, inode_of x = Some i /\ held x = Some m /\ compatible s p i m = true) ->
  kernel_ok (put s p x).
Proof.
  intros K P C a b i A B N IA IB H. cbn [count put] in A, B.
  destruct (Nat.eq_dec a p) as [->|NA].
  - rewrite put_same in IA, H. rewrite put_other in IB |- * by auto. destruct C as [C|[[C1 C2]|(j & m & C1 & C2 & C3)]]; [congruence| |].
    + apply (K p b i); auto; congruence.
    + destruct (held (pr s b)) as [h|] eqn:HB; auto. exfalso. rewrite C1 in IA. injection IA as ->. destruct (compatible_spec s p i m C3 b h B) as [_ X]; auto. congruence.
  - rewrite put_other in IA, H by auto. destruct (Nat.eq_dec b p) as [->|NB]; [|rewrite put_other in IB |- * by auto; now apply (K a b i)].
    rewrite put_same in IB |- *. destruct C as [C|[[C1 C2]|(j & m & C1 & C2 & C3)]]; auto.
    + rewrite C2. apply (K a p i); auto; congruence.
    + exfalso. rewrite C1 in IB. injection IB as ->. destruct (compatible_spec s p i m C3 a Exclusive A) as [X _]; auto. discriminate.
Qed.
Theorem kernel_locks : forall atomic n d es s, run atomic (init n d) es = Some s -> kernel_ok s.
Proof.
  intros atomic n d es. assert (G : forall s0 s, kernel_ok s0 -> run atomic s0 es = Some s -> kernel_ok s).
  { induction es as [|e es IH]; intros s0 s K R; cbn [run] in R; [injection R as <-; auto|]. destruct (step atomic s0 e) as [s1|] eqn:S; [|discriminate]. apply (IH s1 s); auto. clear IH R s.
    unfold step in S. destruct (Nat.ltb (who e) (count s0)) eqn:P; [|discriminate]. apply Nat.ltb_lt in P. cbn [negb] in S. set (p := who e) in *. set (x := pr s0 p) in *.
    assert (AG : kernel_ok (put s0 p (again x))) by (apply put_kernel; [exact K|exact P|left; apply again_facts]).
    destruct e; cbn [who] in p; destruct (at_ x) as [| |i|i|i|i|i|i|i|i] eqn:AT; try discriminate S; try (injection S as <-; apply put_kernel; [exact K|exact P|left; reflexivity]).
    - destruct (disk s0) as [j|]; [injection S as <-; apply put_kernel; [exact K|exact P|left; reflexivity]|]. destruct (unused s0 fresh); [|discriminate]. injection S as <-.
      apply (put_kernel (set_disk (Some fresh) s0)); [exact K|exact P|]. left. reflexivity.
    - destruct (compatible s0 p i (wants x)) eqn:C; [|discriminate]. injection S as <-. apply put_kernel; [exact K|exact P|]. right. right. exists i, (wants x). auto.
    - destruct (disk s0); injection S as <-; [|exact AG]. apply put_kernel; [exact K|exact P|]. right. left. fold x. unfold inode_of. rewrite AT. auto.
    - destruct (disk s0) as [j|]; [destruct (Nat.eqb i j)|]; injection S as <-; try exact AG. apply put_kernel; [exact K|exact P|]. right. left. fold x. unfold inode_of. rewrite AT. auto.
    - injection S as <-. apply put_kernel; [exact K|exact P|]. right. left. fold x. unfold inode_of. rewrite AT. auto.
    - destruct (held x) as [[]|] eqn:H; [destruct atomic|..].
      + destruct (compatible s0 p i Exclusive) eqn:C; [|discriminate]. injection S as <-. apply put_kernel; [exact K|exact P|]. right. right. exists i, Exclusive. auto.
      + injection S as <-. apply put_kernel; [exact K|exact P|]. left. auto.
      + injection S as <-. apply put_kernel; [exact K|exact P|]. right. left. fold x. unfold inode_of. rewrite AT. auto.
      + injection S as <-. apply put_kernel; [exact K|exact P|]. left. auto.
    - injection S as <-. apply put_kernel; [exact K|exact P|]. right. left. fold x. unfold inode_of. rewrite AT. auto.
    - destruct (compatible s0 p i Exclusive) eqn:C; [|discriminate]. injection S as <-. apply put_kernel; [exact K|exact P|]. right. right. exists i, Exclusive. auto.
    - injection S as <-. apply (put_kernel (set_disk None s0)); [exact K|exact P|]. right. left. cbn [pr set_disk]. fold x. unfold inode_of. rewrite AT. auto. }
  intros s. apply G. intros p q i _ _ _ IA. discriminate IA.
Qed.
(** ** With retry the call does not give up: only the release of the lock, or a crash, makes the process idle again *)
Theorem retry_does_not_give_up : forall atomic s e s' p, step atomic s e = Some s' ->
  retry (pr s p) = true -> at_ (pr s p) <> Idle -> at_ (pr s' p) = Idle -> e = Unlock p \/ e = Crash p.
Proof.
  intros atomic s e s' p S R NI I. assert (E : who e = p).
  { destruct (Nat.eq_dec (who e) p) as [|N]; auto. exfalso. apply NI. rewrite <- I. f_equal. symmetry. unfold step in S. destruct (negb (Nat.ltb (who e) (count s))); [discriminate|].
    assert (PO : forall s1 x, pr s1 = pr s -> pr (put s1 (who e) x) p = pr s p) by (intros s1 x H; rewrite put_other by auto; now rewrite H).
    destruct e; cbn [who] in *; destruct (at_ (pr s p0)); try discriminate S; repeat match type of S with (match ?x with _ => _ end) = _ => destruct x; try discriminate S end; injection S as <-; apply PO; reflexivity. }
  subst p. unfold step in S. destruct (negb (Nat.ltb (who e) (count s))); [discriminate|].
  destruct e; cbn [who] in *; auto; exfalso; destruct (at_ (pr s p)) as [| |i|i|i|i|i|i|i|i] eqn:AT; try discriminate S; try congruence;
    repeat match type of S with (match ?x with _ => _ end) = _ => destruct x; try discriminate S end; injection S as <-; rewrite put_same in I; unfold again in I; cbn [at_ move] in I; rewrite ?R in I; discriminate I.
Qed.
(** Without retry an attempt that fails makes the call return *)
Theorem no_retry_gives_up : forall atomic s p i s', step atomic s (FlockFails p) = Some s' -> at_ (pr s p) = Opened i -> retry (pr s p) = false ->
  at_ (pr s' p) = Idle /\ held (pr s' p) = None.
Proof.
  intros atomic s p i s' S A R. unfold step in S. cbn [who] in S. destruct (negb (Nat.ltb p (count s))); [discriminate|]. rewrite A in S. injection S as <-. rewrite put_same. unfold again. rewrite R. auto.
Qed.
(** The file somebody holds the lock of is there: nobody removes it. *)
Theorem held_lock_file_exists : forall atomic n d es s p,
  atomic = true \/ all_exclusive es -> run atomic (init n d) es = Some s -> p < n -> holds s p -> disk s <> None.
Proof.
  intros atomic n d es s p A R P [i H]. destruct (run_LI atomic es (init n d) s) as [L C]; auto using init_LI.
  - destruct A; auto. right. split; auto. intros q _. reflexivity.
  - rewrite (LI_on_disk s p i L); [discriminate| |auto]. rewrite C. exact P.
Qed.
(** Releasing an exclusive lock removes the file (unless the conversion call fails). *)
Theorem release_removes_file : forall atomic n d es s p s1 s2 s3,
  all_exclusive es -> run atomic (init n d) es = Some s -> p < n -> holds s p ->
  step atomic s (Release p) = Some s1 -> step atomic s1 (Convert p) = Some s2 -> step atomic s2 (Unlink p) = Some s3 ->
  disk s <> None /\ disk s3 = None.
Proof.
  intros atomic n d es s p s1 s2 s3 A R P H S1 S2 S3. split; [eapply held_lock_file_exists; eauto|].
  unfold step in S3. cbn [who] in S3. destruct (negb (Nat.ltb p (count s2))); [discriminate|].
  destruct (at_ (pr s2 p)); try discriminate. injection S3 as <-. reflexivity.
Qed.
(** A process that is alone in asking gets the lock, whatever others left behind
    (the file on disk, other files): if nobody has a lock, four system calls suffice. *)
Theorem lock_obtainable : forall atomic s p fresh,
  p < count s -> at_ (pr s p) = Opening -> (forall q, q < count s -> q <> p -> held (pr s q) = None) ->
  (disk s = None -> unused s fresh = true) ->
  exists s', run atomic s [Open p fresh; Flock p; CheckExists p; Stat p] = Some s' /\ holds s' p.
Proof.
  intros atomic s p fresh P O N F. assert (LT : Nat.ltb p (count s) = true) by (now apply Nat.ltb_lt).
  assert (CO : forall s1 i m, count s1 = count s -> (forall q, q <> p -> pr s1 q = pr s q) -> compatible s1 p i m = true).
  { intros s1 i m C1 P1. unfold compatible. apply forallb_forall. intros q Q. apply in_seq in Q.
    destruct (Nat.eqb_spec q p) as [->|NE]; auto. rewrite P1 by auto. rewrite N by (try lia; auto). cbn. now rewrite orb_true_r. }
  destruct (disk s) as [i|] eqn:D.
  - eexists. split; [|exists i].
    + cbn [run]. unfold step at 1. cbn [who]. rewrite LT, O, D. cbn [negb].
      unfold step at 1. cbn [who put count pr at_ move]. rewrite LT, Nat.eqb_refl. cbn [negb at_ move wants].
      rewrite CO; [|reflexivity|]. 2:{ intros q Q. cbn. apply Nat.eqb_neq in Q. now rewrite Q. }
      unfold step at 1. cbn [who put count pr disk at_ move]. rewrite LT, Nat.eqb_refl, D. cbn [negb at_ move].
      unfold step at 1. cbn [who put count pr disk at_ move]. rewrite LT, Nat.eqb_refl, D. cbn [negb at_ move]. rewrite Nat.eqb_refl. reflexivity.
    + cbn. rewrite Nat.eqb_refl. reflexivity.
  - eexists. split; [|exists fresh].
    + cbn [run]. unfold step at 1. cbn [who]. rewrite LT, O, D, F by auto. cbn [negb].
      unfold step at 1. cbn [who put set_disk count pr at_ move]. rewrite LT, Nat.eqb_refl. cbn [negb at_ move wants].
      rewrite CO; [|reflexivity|]. 2:{ intros q Q. cbn. apply Nat.eqb_neq in Q. now rewrite Q. }
      unfold step at 1. cbn [who put set_disk count pr disk at_ move]. rewrite LT, Nat.eqb_refl. cbn [negb at_ move].
      unfold step at 1. cbn [who put set_disk count pr disk at_ move]. rewrite LT, Nat.eqb_refl. cbn [negb at_ move]. rewrite Nat.eqb_refl. reflexivity.
    + cbn. rewrite Nat.eqb_refl. reflexivity.
Qed.

(** ** A concrete case: 0 holds and releases while 1 waits on the removed file; 1
    notices, opens a new file and gets the lock. *)
Definition handover : list event :=
  [Call 0 false true false; Open 0 10; Flock 0; CheckExists 0; Stat 0;
   Call 1 false true false; Open 1 10; Release 0; Convert 0; Unlink 0; Unlock 0;
   Flock 1; CheckExists 1; Open 1 11; Flock 1; CheckExists 1; Stat 1].
Example handover_ok : all_exclusive handover /\
  match run false (init 2 None) handover with Some s => holds_exclusively s 1 /\ ~ holds s 0 | None => False end.
Proof.
  split; [intros p r b H; cbn in H; repeat (destruct H as [H|H]; [discriminate|]); destruct H|].
  vm_compute. split; [split; [exists 11|]; reflexivity|]. intros [i H]. discriminate.
Qed.
(** ... and while 0 holds it, flock does not let 1 through. *)
Example waits : run false (init 2 None)
  [Call 0 false true false; Open 0 10; Flock 0; CheckExists 0; Stat 0; Call 1 false true false; Open 1 10; Flock 1] = None.
Proof. reflexivity. Qed.

Print Assumptions lock_exclusion.
Print Assumptions lock_exclusion_shared_partial.
Print Assumptions lock_exclusion_shared_refuted.
Print Assumptions held_lock_file_exists.
Print Assumptions release_removes_file.
Print Assumptions lock_obtainable.
Print Assumptions kernel_locks.
Print Assumptions retry_does_not_give_up.
Print Assumptions no_retry_gives_up.
