(** C196: stale shared state is removed. *)
From Coq Require Import Ascii String List Bool.
From Verif Require Import Str_Model Str_Proofs Stale_Model Stale_Spec Stale_Proofs.
Import ListNotations.
Open Scope list_scope.

(** C196: a manifest is cleaned exactly if it exists and is that of a stale task, by a line of the index that knows one of its stamps. *)
Theorem stale_cleaned : forall ex lines tasks l, named tasks -> stale ex (Some lines) tasks = Some l ->
  forall man, In (Clean man) l <-> ex man = true /\ exists t, In t tasks /\ known lines t man.
Proof.
  intros ex lines tasks l NM. unfold stale. destruct (to_remove ex lines tasks) as [r|] eqn:E; [|discriminate]. intro H. injection H as <-. intro man. pose proof (removes_known ex tasks lines r NM E) as RK. rewrite in_flat_map. split.
  - intros ([m ss] & I & J). cbn [fst snd] in J. destruct J as [J|J]; [|apply in_map_iff in J; destruct J as (x & X & _); discriminate]. injection J as <-. apply RK in I. destruct I as (t & T & K & EX & _). eauto.
  - intros [EX (t & T & K)]. exists (man, t_stamps t). split; [apply RK; eauto|now left].
Qed.
(** C196: a stamp is removed exactly if it is a stamp of a stale task of which a manifest is cleaned: then all stamps of that task are. *)
Theorem stale_stamps : forall ex lines tasks l, named tasks -> stale ex (Some lines) tasks = Some l ->
  forall s, In (Remove s) l <-> exists t man, In t tasks /\ In s (t_stamps t) /\ known lines t man /\ ex man = true.
Proof.
  intros ex lines tasks l NM. unfold stale. destruct (to_remove ex lines tasks) as [r|] eqn:E; [|discriminate]. intro H. injection H as <-. intro s. pose proof (removes_known ex tasks lines r NM E) as RK. rewrite in_flat_map. split.
  - intros ([m ss] & I & J). cbn [fst snd] in J. destruct J as [J|J]; [discriminate|]. apply in_map_iff in J. destruct J as (x & X & S). injection X as ->. apply RK in I. destruct I as (t & T & K & EX & ->). exists t, m. auto.
  - intros (t & man & T & S & K & EX). exists (man, t_stamps t). split; [apply RK; eauto|]. right. apply in_map_iff. exists s. auto.
Qed.
(** C196: before the stamps of a task are removed its manifest has been cleaned: if the handler is interrupted after any number of
    actions, each removed stamp belongs to a task with a cleaned manifest. *)
Theorem stale_order : forall ex lines tasks l, named tasks -> stale ex (Some lines) tasks = Some l ->
  forall before s after, l = before ++ Remove s :: after -> exists t man, In t tasks /\ In s (t_stamps t) /\ known lines t man /\ In (Clean man) before.
Proof.
  intros ex lines tasks l NM. unfold stale. destruct (to_remove ex lines tasks) as [r|] eqn:E; [|discriminate]. intro H. injection H as <-. pose proof (removes_known ex tasks lines r NM E) as RK.
  assert (Q : forall r', incl r' r -> forall before s after, flat_map (fun p => Clean (fst p) :: map Remove (snd p)) r' = before ++ Remove s :: after -> exists t man, In t tasks /\ In s (t_stamps t) /\ known lines t man /\ In (Clean man) before); [|apply Q, incl_refl].
  induction r' as [|[m ss] r' IH]; intros IN before s after H; [destruct before; discriminate|]. cbn [flat_map fst snd] in H. destruct before as [|a before]; [discriminate|]. cbn [app] in H. injection H as <- H.
  assert (Z : (exists a1, before = map Remove ss ++ a1 /\ flat_map (fun p => Clean (fst p) :: map Remove (snd p)) r' = a1 ++ Remove s :: after) \/ In s ss).
  { clear IH IN. revert before H. induction ss as [|x ss IHs]; intros before H; cbn [map app] in H; [left; exists before; auto|]. destruct before as [|b before]; cbn [app] in H; injection H as H1 H; [right; left; congruence|]. subst b. destruct (IHs before H) as [(a1 & -> & F)|I]; [left; exists a1; auto|right; now right]. }
  destruct Z as [(a1 & -> & F)|I].
  - destruct (IH (fun x X => IN x (or_intror X)) a1 s after F) as (t & man & T & S & K & C). exists t, man. repeat split; auto. right. apply in_or_app. now right.
  - destruct (proj1 (RK m ss) (IN _ (or_introl eq_refl))) as (t & T & K & _ & ->). exists t, m. repeat split; auto. now left.
Qed.
(** C196: a line of the index that does not consist of three words ends the build before anything is removed, and only such a line does;
    without an index nothing is removed. *)
Theorem stale_invalid : forall ex index tasks, (stale ex index tasks = None <-> exists lines l, index = Some lines /\ In l lines /\ length (split_ws l) <> 3) /\ stale ex None tasks = Some [].
Proof.
  intros ex index tasks. split; [|reflexivity]. unfold stale. destruct index as [lines|]; [|split; [discriminate|intros (x & l & E & _); discriminate]]. pose proof (to_remove_none ex tasks lines) as N. destruct (to_remove ex lines tasks) as [r|].
  - split; [discriminate|]. intros (x & l & E & I & L). injection E as <-. destruct N as [_ N]. specialize (N (ex_intro _ l (conj I L))). discriminate.
  - split; [|reflexivity]. intros _. destruct (proj1 N eq_refl) as (l & I & L). exists lines, l. auto.
Qed.
(** C196 is violated in one place: a line of the index also counts for stamps of another version that merely begin alike (1.0-r1 and
    1.0-r10): the manifest of 1.0-r1 is cleaned though only 1.0-r10 is stale.  (By default the manifests are named by PN, so both versions
    of one recipe share them and the stamps of two recipes differ by their directories.) *)
Theorem stale_prefix_refuted : ~ (forall ex lines tasks l stamp manifest man, stale ex (Some lines) tasks = Some l -> index_line lines stamp manifest -> In (Clean man) l -> man = manifest ++ s_ ".deploy" ->
  (forall stamp', index_line lines stamp' manifest -> stamp' = stamp) -> exists t rest, In t tasks /\ In (stamp ++ s_ "." ++ rest) (t_stamps t)).
Proof.
  intro H. set (lines := [s_ "/s/hello/1.0-r1 /m/hello-1 /w/hello"]). set (tasks := [Task (s_ "hello_1.0.bb") (s_ "do_deploy") [s_ "/s/hello/1.0-r10.do_deploy.abc"]]).
  assert (L : index_line lines (s_ "/s/hello/1.0-r1") (s_ "/m/hello-1")) by (exists (s_ "/s/hello/1.0-r1 /m/hello-1 /w/hello"), (s_ "/w/hello"); split; [now left|reflexivity]).
  destruct (H (fun _ => true) lines tasks _ (s_ "/s/hello/1.0-r1") (s_ "/m/hello-1") (s_ "/m/hello-1.deploy") eq_refl L) as (t & rest & [<-|[]] & [I|[]]).
  - now left.
  - reflexivity.
  - intros st (x & d & [<-|[]] & E). vm_compute in E. injection E as <- _. reflexivity.
  - cbn in I. discriminate.
Qed.

(** ** The hypotheses are met *)
Definition ex_tasks : list task := [Task (s_ "a.bb") (s_ "do_deploy_deb") [s_ "/s/a/1-r0.do_deploy_deb.x"; s_ "/s/a/1-r0.do_deploy_deb_setscene.x"]; Task (s_ "b.bb") (s_ "do_rootfs") [s_ "/s/b/1-r0.do_rootfs.y"]].
Example stale_example : named ex_tasks /\
  stale (fun m => startswith (s_ "/m/a") m) (Some [s_ "/s/a/1-r0 /m/a /w/a"; s_ "/s/b/1-r0 /m/b /w/b"]) ex_tasks =
  Some [Clean (s_ "/m/a.deploy_deb"); Remove (s_ "/s/a/1-r0.do_deploy_deb.x"); Remove (s_ "/s/a/1-r0.do_deploy_deb_setscene.x")].
Proof.
  split; [intros t [<-|[<-|[]]]; eexists; eexists _, _, _; reflexivity|]. vm_compute. reflexivity.
Qed.

Print Assumptions stale_cleaned.
Print Assumptions stale_stamps.
Print Assumptions stale_order.
Print Assumptions stale_invalid.
Print Assumptions stale_prefix_refuted.
