(** C104, C105: the graph of the setscene tasks and what a task that is executed was given, for every graph of tasks. *)
From Coq Require Import List Bool ZArith Arith Lia.
From Verif Require Import Runq_Model Runq_Spec Runq_Proofs Runq_Props Sceneq_Model Sceneq_Spec Sceneq_Proofs.
Import ListNotations.
Open Scope list_scope.

(** ** C104 *)
(** The engine works out the graph of the setscene tasks of every build, its own check of the result does not fail, and
    the result says of every setscene task which ordinary tasks it stands for, which setscene tasks it needs and which
    need it: those that the graph of tasks connects by way of ordinary tasks only. *)
Theorem collapse_exact : forall c, sound_graph c -> (forall t, In t (scene c) -> In t (tasks c)) ->
  exists n0, forall n, n0 <= n -> exists s, collapse c n = Some s /\ went_wrong c s = false /\ collapsed (with_scene_data c s).
Proof.
  intros c (C & rank & R) ST. exists (S (list_max (map rank (tasks c)))). intros n L. unfold collapse. destruct (cut_edges c) as [s0 e] eqn:E.
  assert (I0 := cut_edges_ok c C ST s0 e E).
  assert (B : forall q, In q (tasks c) -> rank q <= list_max (map rank (tasks c))).
  { intros q Q. assert (F := proj1 (list_max_le (map rank (tasks c)) (list_max (map rank (tasks c)))) (le_n _)). rewrite Forall_forall in F. apply F. now apply in_map. }
  destruct (do_points_ok c C rank R n e s0 (list_max (map rank (tasks c))) I0) as (s & D & I); [|lia|].
  { intros p P. apply B. apply (v_keys _ _ _ _ I0). rewrite app_nil_r. exact P. }
  exists s. split; [exact D|]. destruct (inv_end c C rank R ST s I) as (E1 & E2 & E3). split.
  - unfold went_wrong. destruct (existsb _ (tasks c)) eqn:X; auto. exfalso. apply existsb_exists in X. destruct X as (t & T & X). apply andb_true_iff in X. destruct X as [X1 X2].
    rewrite negb_true_iff in X1, X2. apply mem_false in X1. rewrite (E1 t T X1) in X2. discriminate.
  - constructor; cbn [coveredby sqrev sqdeps scene with_scene_data].
    + intros a x A. assert (Q : forall y, stretch (with_scene_data c s) a y <-> stretch c a y) by (intros y; split; (induction 1; [now apply stretch_direct|eapply stretch_via; eauto])).
      rewrite Q. now apply E2.
    + intros a b Sb. assert (Q : forall y, stretch (with_scene_data c s) a y <-> stretch c a y) by (intros y; split; (induction 1; [now apply stretch_direct|eapply stretch_via; eauto])).
      rewrite Q. now apply E3.
    + intros a b A. assert (Q : forall y, stretch (with_scene_data c s) a y <-> stretch c a y) by (intros y; split; (induction 1; [now apply stretch_direct|eapply stretch_via; eauto])).
      rewrite Q. unfold deps_of. rewrite filter_In, mem_In. split; [intros [Sb H]; apply E3 in H; tauto|]. intros [Sb H]. split; auto. apply E3; auto.
Qed.
(** The depth of the recursion does not matter. *)
Theorem collapse_result_exact : forall c n s, sound_graph c -> (forall t, In t (scene c) -> In t (tasks c)) ->
  collapse c n = Some s -> went_wrong c s = false /\ collapsed (with_scene_data c s).
Proof.
  intros c n s SG ST E. destruct (collapse_exact c SG ST) as (n0 & H). destruct (H (n0 + n) (Nat.le_add_r _ _)) as (s' & E' & W & K).
  assert (X : collapse c (n0 + n) = Some s). { unfold collapse in *. destruct (cut_edges c) as [s0 e]. apply (do_points_more c n e s0 s E). lia. }
  assert (s' = s) by congruence. subst s'. auto.
Qed.
(** The tasks that the engine never leaves out are those that nothing in the cache can make superfluous. *)
Theorem unskippable_exact : forall c t, sound_graph c -> (In t (unskippable c) <-> indispensable c t).
Proof. intros c t (C & rank & R). now apply unskippable_ok. Qed.
(** Of the setscene tasks with the same hash all but one wait, and they wait for that one. *)
Theorem deferral_exact : forall h order, NoDup order ->
  let d := snd (defer h order) in
  (forall t b, In (t, b) d -> In t order /\ In b order /\ t <> b /\ h t = h b /\ ~ In b (map fst d)) /\
  (forall t, In t order -> ~ In t (map fst d) -> forall u, In u order -> h u = h t -> u = t \/ In (u, t) d).
Proof. intros h order N. now apply defer_ok. Qed.
Theorem deferral_one_each : forall h order t, NoDup order -> In t order ->
  exists b, In b order /\ h b = h t /\ ~ In b (map fst (snd (defer h order))) /\
    forall b', In b' order -> h b' = h t -> ~ In b' (map fst (snd (defer h order))) -> b' = b.
Proof.
  intros h order t N I. destruct (defer_ok h order N) as (A & B). set (d := snd (defer h order)) in *.
  assert (U : forall b b', In b order -> h b = h t -> ~ In b (map fst d) -> In b' order -> h b' = h t -> ~ In b' (map fst d) -> b' = b).
  { intros b b' Ib Hb Nb Ib' Hb' Nb'. destruct (B b Ib Nb b' Ib' (eq_trans Hb' (eq_sym Hb))) as [X|X]; auto. elim Nb'. apply in_map_iff. exists (b', b). auto. }
  destruct (in_dec Nat.eq_dec t (map fst d)) as [X|X]; [|exists t; eauto 10].
  apply in_map_iff in X. destruct X as ([x b] & Ex & X). cbn in Ex. subst x. destruct (A t b X) as (_ & Ib & _ & Hb & Nb). exists b. auto 10.
Qed.

(** ** A concrete case: 6 needs 5 and 4, 5 needs 3, 4 needs 3 and 2, 3 needs 1, 2 needs 0, 1 needs 0; 5, 2 and 1 have a
    setscene variant *)
Definition house (t : nat) : list nat := match t with 6 => [5; 4] | 5 => [3] | 4 => [3; 2] | 3 => [1] | 2 => [0] | 1 => [0] | _ => [] end.
Definition housed : cfg :=
  mkCfg [0;1;2;3;4;5;6] house [1;2;5] [6] (fun _ => false) 2%Z [0;1;2;3;4;5;6] (fun t => t) (fun _ => None)
        (fun t => t) (fun t => 100 + t) false None false false false (fun _ => []) (fun _ => []) (fun _ => []) (fun _ => []) (fun _ => []).
Example collapse_met : sound_graph housed /\ (forall t, In t (scene housed) -> In t (tasks housed)) /\
  exists s, collapse housed 10 = Some s /\ went_wrong housed s = false /\
    map (cl s) [1;2;5] = [[0];[0];[3]] /\ map (sq s) [1;2;5] = [[5];[];[]] /\ map (deps_of housed s) [1;2;5] = [[];[];[1]] /\
    unskippable housed = [1;2;3;4;5;6].
Proof.
  split; [|split].
  - split.
    + intros t d H1 H2. cbn in *. repeat (destruct H1 as [<-|H1]; [cbn in H2; repeat (destruct H2 as [<-|H2]; auto 10); contradiction|]). contradiction.
    + exists (fun t => t). intros t d H1 H2. cbn in *. repeat (destruct H1 as [<-|H1]; [cbn in H2; repeat (destruct H2 as [<-|H2]; try lia); contradiction|]). contradiction.
  - intros t H. cbn in *. intuition.
  - eexists. split; [vm_compute; reflexivity|]. vm_compute. auto 10.
Qed.
Example deferral_met : NoDup [1;2;5;7] /\ snd (defer (fun t => if Nat.eqb t 5 then 0 else if Nat.eqb t 7 then 1 else 1) [1;2;5;7]) = [(2, 1); (7, 1)].
Proof. split; [repeat constructor; cbn; intuition discriminate|vm_compute; reflexivity]. Qed.

(** ** C105 *)
(** When a task is executed, all that it depends on is really there: the code of the dependency ran, it has none, its
    stamp was current, or it was restored from the cache, and then not left out as something that nothing needs. *)
Theorem inputs_present : forall c o es t d post pre,
  sound_graph c -> (0 <= threads c)%Z -> collapsed c -> (forall t, harddeps c t = []) -> no_rehash c es ->
  log (run c o es) = post ++ Started t :: pre -> In d (depends c t) ->
  In (Succeeded d) pre \/ In (Noexec d) pre \/ In (Skipped d false) pre \/
  (In d (scene c) /\ restored pre d /\ ~ In d (notneeded (run c o es))).
Proof.
  intros c o es t d post pre SG T C H N E D. destruct (dependencies_first c o es t (Started t) post pre T E (or_introl eq_refl) d D) as [F|[F|[[|] F]]]; auto.
  right. right. right. eapply inputs_ok; eauto.
Qed.
(** So a task that is executed never finds an ordinary task among its dependencies that was left out because of something
    in the cache. *)
Theorem ordinary_inputs_ran : forall c o es t d post pre,
  sound_graph c -> (0 <= threads c)%Z -> collapsed c -> (forall t, harddeps c t = []) -> no_rehash c es ->
  log (run c o es) = post ++ Started t :: pre -> In d (depends c t) -> ~ In d (scene c) -> ~ In (Skipped d true) (log (run c o es)).
Proof.
  intros c o es t d post pre SG T C H N E D NS K.
  destruct (inputs_present c o es t d post pre SG T C H N E D) as [F|[F|[F|[F _]]]]; [| | |contradiction].
  all: assert (L : log (run c o es) = (post ++ [Started t]) ++ pre) by (rewrite E, <- app_assoc; reflexivity).
  1: apply in_split in F; destruct F as (l1 & l2 & F); assert (E2 : log (run c o es) = (post ++ Started t :: l1) ++ Succeeded d :: l2) by (rewrite E, F, <- app_assoc; reflexivity);
     destruct (success_was_started c o es d _ _ T E2) as [S _]; assert (F' : In (Started d) (log (run c o es))) by (rewrite E2; apply in_or_app; right; now right).
  2: assert (F' : In (Noexec d) (log (run c o es))) by (rewrite L; apply in_or_app; auto).
  3: assert (F' : In (Skipped d false) (log (run c o es))) by (rewrite L; apply in_or_app; auto).
  all: clear - K F' T;
    match goal with _ : In ?e (log _) |- _ => assert (UE : e <> Skipped d true -> takes_up d e) by (intros _; unfold takes_up; eauto) end.
  all: apply in_split in K; destruct K as (a & b & K); rewrite K in F'; apply in_app_or in F'; destruct F' as [F'|[F'|F']]; try discriminate.
  all: try (apply in_split in F'; destruct F' as (a1 & a2 & ->); rewrite <- app_assoc in K; cbn [app] in K;
    refine (taken_up_once c o es d _ (Skipped d true) _ _ T K _ _ _); [apply UE; discriminate|apply in_or_app; right; now left|unfold takes_up; eauto]).
  all: refine (taken_up_once c o es d (Skipped d true) _ _ _ T K _ F' _); [unfold takes_up; eauto|apply UE; discriminate].
Qed.
(** a concrete case: the graph above with the data that the engine works out.  The cache has 1 and not 2 and 5: 0 is
    executed for 2, and 3, 4, 5, 6 are executed; 1 is accepted as it is needed by 3 *)
Definition housed2 : cfg := match collapse housed 10 with Some s => with_scene_data housed s | None => housed end.
Definition cache1 : oracle := mkOracle false (fun _ => false) (fun _ => false) (fun _ => false) (fun t => Nat.eqb t 1) (fun _ => true) false (fun t => t) (fun _ => None).
Definition ex1 := Execute cache1.
Definition fin1 t := WorkerDone t true cache1.
Example inputs_met : sound_graph housed2 /\ collapsed housed2 /\ (forall t, harddeps housed2 t = []) /\
  let es := [ex1; ex1; ex1; fin1 1; ex1; ex1; fin1 0; ex1; ex1; ex1; fin1 2; fin1 3; ex1; ex1; fin1 4; fin1 5; Migrate [3] cache1; ex1; fin1 6; ex1] in
  no_rehash housed2 es /\ rst (run housed2 cache1 es) = Complete /\
  log (run housed2 cache1 es) = [Succeeded 6; Started 6; Succeeded 5; Succeeded 4; Started 5; Started 4; Succeeded 3; Succeeded 2; Started 3; Started 2;
                                 Skipped 1 true; Succeeded 0; Started 0; SceneOk 1; SceneStarted 1].
Proof.
  destruct collapse_met as (A & B & s & E & _). assert (X : housed2 = with_scene_data housed s) by (unfold housed2; rewrite E; reflexivity).
  split; [rewrite X; exact A|]. split; [rewrite X; apply (collapse_result_exact housed 10 s A B E)|]. split; [rewrite X; reflexivity|]. clear X E A B s. cbv zeta. split.
  - intros ch o' H t T S. repeat (destruct H as [H|H]; [try discriminate H; try (injection H as <- <-; destruct T as [<-|[]]; vm_compute in S; intuition discriminate)|]). destruct H.
  - split; vm_compute; reflexivity.
Qed.
(** Not so when the hash of a setscene task changes during the build: 1, which was restored from the cache, is now executed
    as the cache does not have it with the new hash, but 0, which it needs, was left out before, as it was needed only by 1.
    The engine takes nothing back that was left out because of 1 (runqueue.py 2605-2700). *)
Definition stale : cfg :=
  mkCfg [0;1;2;3] (fun t => match t with 1 => [0;2] | 3 => [1;2] | _ => [] end) [0;1] [3] (fun _ => false) 2%Z [0;1;2;3] (fun t => t) (fun _ => None)
        (fun t => t) (fun t => 100 + t) false None false false false
        (fun t => match t with 1 => [2] | _ => [] end) (fun t => match t with 1 => [0] | _ => [] end)
        (fun t => match t with 0 => [1] | _ => [] end) (fun _ => []) (fun _ => []).
Definition cache0 : oracle := mkOracle false (fun _ => false) (fun _ => false) (fun _ => false) (fun t => false) (fun _ => true) false (fun t => t) (fun _ => None).
Example stale_sound : sound_graph stale.
Proof.
  split.
  - intros t d H1 H2. cbn in *. repeat (destruct H1 as [<-|H1]; [cbn in H2; repeat (destruct H2 as [<-|H2]; auto 10); contradiction|]). contradiction.
  - exists (fun t => match t with 0 => 0 | 2 => 0 | 1 => 1 | _ => 2 end). intros t d H1 H2. cbn in *. repeat (destruct H1 as [<-|H1]; [cbn in H2; repeat (destruct H2 as [<-|H2]; try lia); contradiction|]). contradiction.
Qed.
Example stale_data : exists s, collapse stale 5 = Some s /\ forall t, (coveredby stale t = cl s t) /\ (sqrev stale t = sq s t) /\ (sqdeps stale t = deps_of stale s t).
Proof. eexists. split; [vm_compute; reflexivity|]. intros [|[|[|[|t]]]]; vm_compute; auto. Qed.
Example stale_collapsed : collapsed stale.
Proof.
  destruct stale_data as (s & E & H). destruct (collapse_result_exact stale 5 s stale_sound) as [_ [C1 C2 C3]]; auto; [intros t; cbn; tauto|]. cbn [coveredby sqrev sqdeps scene with_scene_data] in *.
  assert (Q : forall a y, stretch (with_scene_data stale s) a y <-> stretch stale a y) by (intros a y; split; (induction 1; [now apply stretch_direct|eapply stretch_via; eauto])).
  constructor; intros a b I; [rewrite (proj1 (H a)), <- Q|rewrite (proj1 (proj2 (H b))), <- Q|rewrite (proj2 (proj2 (H a))), <- Q]; auto.
Qed.
(** A task is executed although a task that it needs was left out: after a change of hash. *)
Theorem migration_leaves_out_refuted :
  ~ (forall c o es t d post pre,
       sound_graph c -> (0 <= threads c)%Z -> collapsed c -> (forall t, harddeps c t = []) ->
       log (run c o es) = post ++ Started t :: pre -> In d (depends c t) ->
       In (Succeeded d) pre \/ In (Noexec d) pre \/ In (Skipped d false) pre \/
       (In d (scene c) /\ restored pre d /\ ~ In d (notneeded (run c o es)))).
Proof.
  intros H. set (es := [ex; fin 1; ex; ex; ex; fin 2; Migrate [1] cache0; ex; ex; ex; ex]).
  assert (L : log (run stale quiet_world es) = [Started 1; Succeeded 2; Started 2; Skipped 0 true; SceneSkip 0; SceneOk 1; SceneStarted 1]) by (vm_compute; reflexivity).
  assert (N : notneeded (run stale quiet_world es) = [0]) by (vm_compute; reflexivity).
  specialize (H stale quiet_world es 1 0 [] _ stale_sound ltac:(cbn; lia) stale_collapsed ltac:(reflexivity) L ltac:(cbn; auto)). rewrite N in H. cbn in H. intuition discriminate.
Qed.
Print Assumptions collapse_exact.
Print Assumptions collapse_result_exact.
Print Assumptions unskippable_exact.
Print Assumptions deferral_exact.
Print Assumptions deferral_one_each.
Print Assumptions inputs_present.
Print Assumptions ordinary_inputs_ran.
Print Assumptions migration_leaves_out_refuted.
