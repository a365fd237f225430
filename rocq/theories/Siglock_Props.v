(** C59, C60: dependencies that count for hashes; locked hashes. *)
From Coq Require Import String Ascii List Arith Bool Lia.
From Verif Require Import Str_Model Str_Proofs Siglock_Model Siglock_Spec Siglock_Proofs.
Import ListNotations.

(** C59.  A dependency counts exactly when the rules say so. *)
Theorem dependency_counts : forall q, rundepfilter q = true <-> counts q.
Proof. exact rundepfilter_iff. Qed.
(** C59.  In particular a recipe's own earlier tasks always count (but for two named tasks), and
    so does everything a build host recipe needs that is not declared safe. *)
Theorem own_tasks_count : forall q,
  q_recipe q = q_dep q -> q_same_mc q = true -> q_task q <> s_ "do_rm_work" -> q_task q <> s_ "do_kernel_configme" ->
  rundepfilter q = true.
Proof. intros q R M T K. apply rundepfilter_iff. split; auto. left. split; [now split|]. tauto. Qed.
Theorem undeclared_target_counts : forall q,
  q_task q <> s_ "do_rm_work" -> q_recipe q <> q_dep q ->
  ~ In (q_recipe q ++ s_ "->" ++ q_dep q) (q_safe q) -> ~ In (s_ "*->" ++ q_dep q) (q_safe q) ->
  ~ In (q_dep q) (q_abisafe q) -> ~ inherits (q_inherits q) (s_ "/packagegroup.bbclass") -> ~ kernel (q_dep_inherits q) ->
  rundepfilter q = true.
Proof.
  intros q T N S1 S2 A P K. apply rundepfilter_iff. split; auto. right. split; [intros [X _]; auto|]. split; [intros [X|[X _]]; auto|]. right.
  split; [intros (X & _); auto|]. split; [intros (X & _); auto|]. intros (X & _); auto.
Qed.

(** C60.  The first time a task is hashed it gets its locked hash exactly when it has one, its
    recipe is not unlocked and none of its dependencies names an unlocked recipe; otherwise it
    gets the computed hash. *)
Theorem lock_first_call : forall locks st c,
  not_hashed st (c_tid c) ->
  (forall h, locked_to locks (l_unlocked st) c h -> fst (locked_taskhash locks st c) = h) /\
  ((forall h, ~ locked_to locks (l_unlocked st) c h) -> fst (locked_taskhash locks st c) = c_hash c).
Proof. exact first_call. Qed.

(** C60.  Later calls for the task agree with the first: always the locked hash, or always the
    hash just computed, whatever is hashed in between. *)
Theorem lock_stable : forall locks st c between c',
  c_tid c' = c_tid c ->
  (forall h, fst (locked_taskhash locks st c) = h -> h <> c_hash c -> h <> [] ->
     last (fst (locked_run locks st (c :: between ++ [c']))) [] = h) /\
  (not_hashed st (c_tid c) -> (forall h, ~ locked_to locks (l_unlocked st) c h) ->
     last (fst (locked_run locks st (c :: between ++ [c']))) [] = c_hash c').
Proof.
  intros locks st c between c' E.
  assert (G : forall v, find_lock (l_hashes (snd (locked_taskhash locks st c))) (c_tid c) = Some v ->
    last (fst (locked_run locks st (c :: between ++ [c']))) [] = match v with [] => c_hash c' | _ => v end).
  { intros v F. cbn [locked_run]. destruct (locked_taskhash locks st c) as [h0 st1]. cbn [snd] in F.
    pose proof (locked_run_app locks between [c'] st1) as A. destruct (locked_run locks st1 (between ++ [c'])) as [hs st2]. cbn [fst] in A |- *. rewrite A.
    pose proof (run_keeps locks between st1 _ _ F) as F2. destruct (locked_run locks st1 between) as [hs1 st3]. cbn [fst snd] in *. cbn [locked_run].
    unfold locked_taskhash. rewrite E, F2. destruct v as [|x v]; cbn [fst]; rewrite app_comm_cons, last_last; reflexivity. }
  split.
  - intros h F NC NE. destruct (call_records locks st c) as (v & R & [->|V]).
    + exfalso. unfold locked_taskhash in F, R. destruct (find_lock (l_hashes st) (c_tid c)) as [[|x h']|] eqn:FL.
      * cbn [fst] in F. congruence.
      * cbn [fst snd] in *. congruence.
      * destruct (negb _ && negb _); [destruct (lock_of locks (c_recipe c) (c_task c)) as [h1|]|]; cbn [fst snd l_hashes find_lock] in *; rewrite ?seqb_refl in R; congruence.
    + rewrite (G v R). rewrite <- V, F. destruct h; [congruence|reflexivity].
  - intros N L. destruct (call_records locks st c) as (v & R & V). rewrite (G v R). destruct v as [|x v]; [reflexivity|]. exfalso.
    destruct (first_call locks st c N) as [_ P]. specialize (P L). destruct V as [V|V]; [discriminate|].
    apply find_lock_none in N. unfold locked_taskhash in R, P. rewrite N in R, P.
    destruct (mem_str (c_recipe c) (l_unlocked st)) eqn:M; cbn [negb andb] in R, P; [cbn [snd l_hashes find_lock] in R; rewrite seqb_refl in R; congruence|].
    destruct (existsb _ (c_deps c)) eqn:S; cbn [negb andb] in R, P; [cbn [snd l_hashes find_lock] in R; rewrite seqb_refl in R; congruence|].
    destruct (lock_of locks (c_recipe c) (c_task c)) as [h1|] eqn:LO; [|cbn [snd l_hashes find_lock] in R; rewrite seqb_refl in R; congruence].
    apply (L h1). split; [auto|]. split; [now apply mem_str_false|]. intros y Y U.
    assert (X : existsb (fun y => existsb (fun x => contains_sub x y) (l_unlocked st)) (c_deps c) = true) by (apply spread_iff; eauto). congruence.
Qed.

(** C60.  With every task locked and nothing unlocked, no change of sources or metadata reaches
    the hashes. *)
Theorem lock_isolates : forall locks cs cs',
  Forall2 same_call cs cs' ->
  Forall (fun c => exists x h, lock_of locks (c_recipe c) (c_task c) = Some (x :: h)) cs ->
  fst (locked_run locks (mkL [] []) cs) = fst (locked_run locks (mkL [] []) cs').
Proof.
  intros locks cs cs' F L.
  assert (G : forall st, l_unlocked st = [] -> (forall t v, find_lock (l_hashes st) t = Some v -> v <> []) ->
    fst (locked_run locks st cs) = fst (locked_run locks st cs')).
  { induction F as [|c c' cs cs' (E1 & E2 & E3 & E4) F IH]; intros st U K; [reflexivity|]. inversion L as [|? ? (x & h & X) L1]; subst.
    cbn [locked_run].
    assert (Q : locked_taskhash locks st c = locked_taskhash locks st c').
    { unfold locked_taskhash. rewrite <- E1, <- E2, <- E3, <- E4. destruct (find_lock (l_hashes st) (c_tid c)) as [[|y k]|] eqn:FL; [exfalso; eapply K; eauto|reflexivity|].
      rewrite U. cbn [mem_str existsb]. rewrite existsb_never. cbn [negb andb]. rewrite X. reflexivity. }
    rewrite <- Q. pose proof (call_unlocked locks st c U) as U1.
    assert (K1 : forall t v, find_lock (l_hashes (snd (locked_taskhash locks st c))) t = Some v -> v <> []).
    { intros t v. unfold locked_taskhash. destruct (find_lock (l_hashes st) (c_tid c)) as [[|y k]|] eqn:FL; [apply K|apply K|].
      rewrite U. cbn [mem_str existsb]. rewrite existsb_never. cbn [negb andb]. rewrite X.
      cbn [snd l_hashes find_lock]. destruct (seqb t (c_tid c)); [intros [= <-]; discriminate|apply K]. }
    destruct (locked_taskhash locks st c) as [h0 st1]. cbn [snd] in *. specialize (IH L1 st1 U1 K1).
    destruct (locked_run locks st1 cs) as [a s1], (locked_run locks st1 cs') as [b s2]. cbn [fst] in *. now rewrite IH. }
  apply G; [reflexivity|]. intros t v. discriminate.
Qed.

(** C60.  Reading back a dump of the hashes locks exactly the tasks that were dumped, each to its
    hash. *)
Theorem lock_dump_round_trip : forall es,
  Forall (fun e => word (fst (fst e) ++ s_ ":" ++ snd (fst e) ++ s_ ":" ++ snd e) /\
                   ~ In ":"%char (fst (fst e)) /\ ~ In ":"%char (snd (fst e))) es ->
  NoDup (map fst es) ->
  exists locks, locked_sigs [dump_locks es] = Some locks /\
  forall p t h, lock_of locks p t = Some h <-> In (p, t, h) es.
Proof.
  intros es F ND. exists (rev es). unfold locked_sigs. cbn [flat_map]. rewrite app_nil_r. rewrite dump_words.
  - rewrite add_locks_ok; [rewrite app_nil_r; split; auto|].
    + intros p t h. rewrite lock_of_in; [now rewrite <- in_rev|]. rewrite map_rev. apply NoDup_rev. exact ND.
    + eapply Forall_impl; [|exact F]. intros e E. exact (proj2 E).
  - eapply Forall_impl; [|exact F]. intros e E. exact (proj1 E).
Qed.
(** C60.  Of several entries for one task the last counts. *)
Theorem lock_last_wins : forall ws w p t h locks,
  parse_lock w = Some (p, t, h) -> add_locks (ws ++ [w]) [] = Some locks -> lock_of locks p t = Some h.
Proof.
  intros ws w p t h locks W A.
  assert (G : forall ws acc, add_locks (ws ++ [w]) acc = Some locks -> exists r, locks = (p, t, h) :: r).
  { clear A ws. induction ws as [|x ws IH]; intros acc A; cbn [app add_locks] in A.
    - rewrite W in A. injection A as <-. eauto.
    - destruct (parse_lock x); [eauto|discriminate]. }
  destruct (G _ _ A) as [r ->]. cbn [lock_of]. now rewrite !seqb_refl.
Qed.

(** C60 is false where one name is a part of another: unlocking "lib" also unlocks a recipe that
    depends on "libfoo", which has nothing to do with it. *)
Theorem lock_name_part_refuted : exists locks st c h,
  lock_of locks (c_recipe c) (c_task c) = Some h /\ ~ In (c_recipe c) (l_unlocked st) /\
  (forall y, In y (c_deps c) -> ~ In y (l_unlocked st)) /\ not_hashed st (c_tid c) /\
  fst (locked_taskhash locks st c) <> h.
Proof.
  exists [(s_ "app", s_ "do_build", s_ "aa")], (mkL [] [s_ "lib"]), (mkCall (s_ "/app.bb:do_build") (s_ "app") (s_ "do_build") [s_ "libfoo"] (s_ "bb")), (s_ "aa").
  split; [reflexivity|]. split; [cbn; intuition discriminate|]. split; [intros y [<-|[]]; cbn; intuition discriminate|]. split; [intros v []|]. vm_compute. discriminate.
Qed.

(** C60 is false over different schedules: a recipe becomes unlocked when the first of its tasks
    with an unlocked dependency is hashed, so the hash of its other tasks depends on the order. *)
Theorem lock_schedule_refuted : exists locks st a b,
  c_tid a <> c_tid b /\ not_hashed st (c_tid a) /\ not_hashed st (c_tid b) /\
  fst (locked_taskhash locks st a) <> fst (locked_taskhash locks (snd (locked_taskhash locks st b)) a).
Proof.
  exists [(s_ "app", s_ "do_fetch", s_ "aa")], (mkL [] [s_ "lib"]),
    (mkCall (s_ "/app.bb:do_fetch") (s_ "app") (s_ "do_fetch") [] (s_ "bb")), (mkCall (s_ "/app.bb:do_prepare") (s_ "app") (s_ "do_prepare") [s_ "lib"] (s_ "cc")).
  split; [discriminate|]. split; [intros v []|]. split; [intros v []|]. vm_compute. discriminate.
Qed.

(** *** Cases that meet the hypotheses *)
Definition sampleq : query :=
  mkQuery (s_ "app") (s_ "do_build") (s_ "linux-mainline") (s_ "do_deploy") true [s_ "/l/dpkg.bbclass"] [s_ "/l/linux-kernel-base.bbclass"]
    [[s_ "app-data"; s_ "kernel-module-x"]] [s_ "app->tool"] [s_ "keys"].
Example sampleq_dropped : rundepfilter sampleq = false. Proof. vm_compute. reflexivity. Qed.
Example sampleq_counts : rundepfilter (mkQuery (s_ "app") (s_ "do_build") (s_ "lib") (s_ "do_deploy") true [s_ "/l/dpkg.bbclass"] [s_ "/l/dpkg.bbclass"] [] [s_ "app->tool"] [s_ "keys"]) = true.
Proof. vm_compute. reflexivity. Qed.
Example locks_read : locked_sigs [s_ "app:do_build:11 lib:do_build:22"; s_ "app:do_build:33"] =
  Some [(s_ "app", s_ "do_build", s_ "33"); (s_ "lib", s_ "do_build", s_ "22"); (s_ "app", s_ "do_build", s_ "11")].
Proof. vm_compute. reflexivity. Qed.
Example lock_used : fst (locked_run [(s_ "app", s_ "do_build", s_ "33")] (mkL [] [s_ "dev"])
    [mkCall (s_ "t1") (s_ "lib") (s_ "do_build") [] (s_ "h1"); mkCall (s_ "t2") (s_ "app") (s_ "do_build") [s_ "lib"] (s_ "h2");
     mkCall (s_ "t2") (s_ "app") (s_ "do_build") [s_ "lib"] (s_ "h3")]) = [s_ "h1"; s_ "33"; s_ "33"].
Proof. vm_compute. reflexivity. Qed.
Example dump_ok : locked_sigs [dump_locks [(s_ "app", s_ "do_build", s_ "33"); (s_ "lib", s_ "do_build", s_ "4:4")]] =
  Some [(s_ "lib", s_ "do_build", s_ "4:4"); (s_ "app", s_ "do_build", s_ "33")].
Proof. vm_compute. reflexivity. Qed.

Print Assumptions dependency_counts.
Print Assumptions own_tasks_count.
Print Assumptions undeclared_target_counts.
Print Assumptions lock_first_call.
Print Assumptions lock_stable.
Print Assumptions lock_isolates.
Print Assumptions lock_dump_round_trip.
Print Assumptions lock_last_wins.
Print Assumptions lock_name_part_refuted.
Print Assumptions lock_schedule_refuted.

(** ** Further cases that meet the hypotheses *)
Example lock_isolates_met : let locks := [(s_ "app", s_ "do_build", s_ "33")] in
  fst (locked_run locks (mkL [] []) [mkCall (s_ "t2") (s_ "app") (s_ "do_build") [s_ "lib"] (s_ "h2")]) =
  fst (locked_run locks (mkL [] []) [mkCall (s_ "t2") (s_ "app") (s_ "do_build") [s_ "lib"] (s_ "h9")]).
Proof.
  apply lock_isolates; [repeat constructor|]. constructor; [|constructor]. exists "3"%char, (s_ "3"). reflexivity.
Qed.
Example locked_to_met : locked_to [(s_ "app", s_ "do_build", s_ "33")] [s_ "dev"] (mkCall (s_ "t2") (s_ "app") (s_ "do_build") [] (s_ "h2")) (s_ "33") /\ not_hashed (mkL [] [s_ "dev"]) (s_ "t2").
Proof. split; [split; [reflexivity|split; [intros [E|[]]; discriminate E|intros ? []]]|intros v []]. Qed.

