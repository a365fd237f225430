(** Theorems on environments (C163-C165). *)
From Coq Require Import Ascii String List Bool Arith Lia.
From Verif Require Import Str_Model Str_Proofs Environ_Model Environ_Spec Environ_Proofs.
Import ListNotations.
Open Scope list_scope.

(** * C163 *)
(** The cleaned environment: the variables that pass with their values, and the locale. *)
Theorem environ_cleaned : forall e k v, proper e -> unset e (s_ "BB_PRESERVE_ENV") ->
  (holds (fst (clean_environment e)) k v <-> (k = s_ "LC_ALL" /\ v = s_ "en_US.UTF-8") \/ (k <> s_ "LC_ALL" /\ holds e k v /\ passes e k)) /\
  (holds (snd (clean_environment e)) k v <-> holds e k v /\ ~ passes e k).
Proof.
  intros e k v P U. split.
  - rewrite (holds_look _ _ _ (proper_clean e P)), (look_clean e k P U), (holds_look e k v P). destruct (seqb k (s_ "LC_ALL")) eqn:E.
    + apply seqb_eq in E. split; [intro H; injection H as <-; left; auto|]. intros [[_ ->]|[N _]]; [reflexivity|exfalso; exact (N E)].
    + apply seqb_neq in E. destruct (mem_str k (approved_variables e)) eqn:M.
      * apply mem_str_In in M. apply (approved_iff e k P) in M. split; [intro H; right; auto|]. intros [[N _]|(_ & H & _)]; [exfalso; exact (E N)|exact H].
      * apply mem_str_false in M. rewrite (approved_iff e k P) in M. split; [discriminate|]. intros [[N _]|(_ & _ & H)]; [exfalso; exact (E N)|exfalso; exact (M H)].
  - unfold clean_environment. apply look_none in U. unfold has. rewrite U. cbn [filter_environment snd]. unfold holds. rewrite filter_In. cbn [fst]. rewrite negb_true_iff, mem_str_false, (approved_iff e k P). reflexivity.
Qed.
(** With BB_PRESERVE_ENV nothing changes. *)
Theorem environ_preserved : forall e, ~ unset e (s_ "BB_PRESERVE_ENV") -> clean_environment e = (e, []).
Proof. intros e U. unfold clean_environment. rewrite (proj2 (has_iff e _) U). reflexivity. Qed.
(** What a client sends to the server is its own environment but for the locale. *)
Theorem environ_sent : forall e k, proper e -> k <> s_ "LC_ALL" -> agree (sends e) e k.
Proof. intros e k P N v. rewrite (holds_look _ _ _ (proper_sends e P)), (holds_look e k v P), (look_sends e k P N). reflexivity. Qed.
(** The locale the user set is not restored, so neither is it in what the user's own hooks and
    BB_ORIGENV see. *)
Theorem environ_locale_refuted : ~ (forall e, proper e -> agree (sends e) e (s_ "LC_ALL")).
Proof.
  intro H. specialize (H [(s_ "HOME", s_ "/root"); (s_ "LC_ALL", s_ "C")]).
  assert (P : proper [(s_ "HOME", s_ "/root"); (s_ "LC_ALL", s_ "C")]) by (repeat constructor; cbn; intuition discriminate).
  specialize (H P (s_ "C")). destruct H as [_ H]. assert (I : holds [(s_ "HOME", s_ "/root"); (s_ "LC_ALL", s_ "C")] (s_ "LC_ALL") (s_ "C")) by (right; left; reflexivity). specialize (H I). cbv in H. intuition discriminate.
Qed.

Definition demo_env : environ := [(s_ "HOME", s_ "/root"); (s_ "EDITOR", s_ "vi"); (s_ "http_proxy", s_ "p:1"); (s_ "BB_ENV_PASSTHROUGH_ADDITIONS", s_ "http_proxy ftp_proxy")].
Example demo_env_proper : proper demo_env /\ unset demo_env (s_ "BB_PRESERVE_ENV") /\ proper [(s_ "BB_PRESERVE_ENV", s_ "1")] /\ ~ unset [(s_ "BB_PRESERVE_ENV", s_ "1")] (s_ "BB_PRESERVE_ENV").
Proof.
  split; [repeat constructor; cbn; intuition discriminate|]. split; [intros v I; cbn in I; intuition discriminate|]. split; [repeat constructor; intros []|]. intro U. exact (U (s_ "1") (or_introl eq_refl)).
Qed.
Example demo_env_cleaned : clean_environment demo_env = ([(s_ "HOME", s_ "/root"); (s_ "http_proxy", s_ "p:1"); (s_ "BB_ENV_PASSTHROUGH_ADDITIONS", s_ "http_proxy ftp_proxy"); (s_ "LC_ALL", s_ "en_US.UTF-8")], [(s_ "EDITOR", s_ "vi")]).
Proof. vm_compute. reflexivity. Qed.

(** * C164 *)
(** After any clients the configurations reflect the last one, with the names that pass in the
    environment of the client that started the server; and BB_ORIGENV of the main configuration
    is what the last client sent. *)
Theorem server_last_client : forall first mcs clients c, proper first -> Forall (fun x => proper (fst x)) clients -> last_client clients c ->
  reflects (fst (sv_main (served first mcs clients))) first (sends c) /\
  snd (sv_main (served first mcs clients)) = sends c /\
  length (sv_mcs (served first mcs clients)) = mcs /\
  Forall (fun m => reflects (fst m) first (sends c)) (sv_mcs (served first mcs clients)).
Proof.
  intros first mcs clients c P F (l & o & ->). apply Forall_app in F. destruct F as [F FC]. inversion FC as [|? ? PC _]; subst. cbn [fst] in PC.
  assert (L : forall l sv, length (sv_mcs (fold_left connect l sv)) = length (sv_mcs sv)). { clear. induction l as [|c l IH]; intro sv; [reflexivity|]. cbn [fold_left]. rewrite IH. unfold connect, update_config. cbn zeta. destruct (_ && _); [reflexivity|]. unfold parse_config. cbn zeta. cbn [sv_mcs]. apply map_length. }
  assert (N : length (sv_mcs (served first mcs (l ++ [(c, o)]))) = mcs) by (unfold served; rewrite L; unfold start_server; cbn zeta; cbn [sv_mcs]; apply repeat_length).
  pose proof (good_served first mcs l P F) as G.
  destruct (good_update first (served first mcs l) o (sends c) P (proper_sends c PC) G) as ((_ & _ & M & MC) & E & O).
  assert (Q : served first mcs (l ++ [(c, o)]) = update_config (served first mcs l) o (sends c)) by (unfold served; rewrite fold_left_app; reflexivity).
  rewrite Q in *. rewrite E in M, MC. split; [exact M|]. split; [exact O|]. split; [exact N|exact MC].
Qed.
(** The configuration is parsed again for a client exactly if an option or a variable that
    passes changed. *)
Theorem server_parses : forall first mcs clients c d o, proper first -> Forall (fun x => proper (fst x)) clients -> proper d -> last_client clients c ->
  sv_parses (served first mcs (clients ++ [(d, o)])) = sv_parses (served first mcs clients) <-> o = false /\ forall k, passes first k -> agree (sends c) (sends d) k.
Proof.
  intros first mcs clients c d o P F PD (l & b & ->). apply Forall_app in F. destruct F as [F FC]. inversion FC as [|? ? PC _]; subst. cbn [fst] in PC.
  unfold served. rewrite fold_left_app. cbn [fold_left]. rewrite (fold_left_app connect l). cbn [fold_left]. pose proof (good_served first mcs l P F) as G. unfold served in G.
  destruct (good_update first (fold_left connect l (start_server first mcs)) b (sends c) P (proper_sends c PC) G) as ((EN & _) & E & _).
  change (connect (fold_left connect l (start_server first mcs)) (c, b)) with (update_config (fold_left connect l (start_server first mcs)) b (sends c)).
  set (sv := update_config (fold_left connect l (start_server first mcs)) b (sends c)) in *. unfold connect, update_config. cbn [fst snd]. cbn zeta. rewrite E, EN.
  destruct (negb o && forallb _ _) eqn:Q.
  - cbn [sv_parses]. split; [|reflexivity]. intros _. apply andb_prop in Q. destruct Q as [O Q]. apply negb_true_iff in O. split; [exact O|]. intros k K v. rewrite !holds_look by (apply proper_sends; assumption).
    assert (S : look (sends c) k = look (sends d) k). { apply same_iff. apply (proj1 (forallb_forall _ _) Q). apply approved_iff; [apply proper_clean, P|]. apply passes_clean; assumption. } rewrite S. reflexivity.
  - unfold parse_config. cbn zeta. cbn [sv_parses]. split; [intro H; exfalso; clear - H; induction (sv_parses sv); [discriminate|injection H as H; auto]|]. intros [-> A]. exfalso. cbn [negb andb] in Q. apply not_true_iff_false in Q. apply Q. apply forallb_forall. intros k K. apply same_iff.
    apply (approved_iff _ k (proper_clean first P)) in K. apply (passes_clean first k P) in K. specialize (A k K). assert (A' : forall v, look (sends c) k = Some v <-> look (sends d) k = Some v) by (intro v; rewrite <- !holds_look by (apply proper_sends; assumption); apply A).
    destruct (look (sends c) k) as [v|] eqn:L1, (look (sends d) k) as [w|] eqn:L2; [|exfalso|exfalso|reflexivity].
    + destruct (A' v) as [H _]. specialize (H eq_refl). injection H as ->. reflexivity.
    + destruct (A' v) as [H _]. specialize (H eq_refl). discriminate H.
    + destruct (A' w) as [_ H]. specialize (H eq_refl). discriminate H.
Qed.
(** What a later client lets pass does not: its BB_ENV_PASSTHROUGH_ADDITIONS is ignored. *)
Theorem server_additions_refuted : ~ (forall first mcs clients c, proper first -> Forall (fun x => proper (fst x)) clients -> last_client clients c -> reflects (fst (sv_main (served first mcs clients))) c (sends c)).
Proof.
  intro H. set (c := [(s_ "X", s_ "1"); (s_ "BB_ENV_PASSTHROUGH_ADDITIONS", s_ "X")]). specialize (H [] 0 [(c, false)] c).
  assert (P : proper c) by (repeat constructor; cbn; intuition discriminate). specialize (H (NoDup_nil _) (Forall_cons (c, false) P (Forall_nil _)) (ex_intro _ [] (ex_intro _ false eq_refl)) (s_ "X") (s_ "1") false).
  destruct H as [_ H]. assert (I : In (s_ "X", (s_ "1", false)) (fst (sv_main (served [] 0 [(c, false)])))).
  { apply H. split; [vm_compute; left; reflexivity|]. split; [|split; [discriminate|intro I; cbv in I; intuition discriminate]].
    right. split; [intros v I; cbv in I; intuition discriminate|]. right. right. exists (s_ "X"). split; [right; left; reflexivity|left; vm_compute; left; reflexivity]. }
  revert I. vm_compute. intuition discriminate.
Qed.
(** BB_ORIGENV of a multiconfig can be that of an earlier client: a variable that does not pass
    changed. *)
Theorem server_origenv_refuted : ~ (forall first mcs clients c, proper first -> Forall (fun x => proper (fst x)) clients -> last_client clients c -> Forall (fun m => snd m = sends c) (sv_mcs (served first mcs clients))).
Proof.
  intro H. set (a := [(s_ "DISPLAY", s_ ":0")]). set (b := [(s_ "DISPLAY", s_ ":1")]).
  assert (PA : proper a) by (repeat constructor; intros []). assert (PB : proper b) by (repeat constructor; intros []).
  specialize (H a 1 [(a, false); (b, false)] b PA (Forall_cons (a, false) PA (Forall_cons (b, false) PB (Forall_nil _))) (ex_intro _ [(a, false)] (ex_intro _ false eq_refl))).
  apply Forall_inv in H. vm_compute in H. discriminate H.
Qed.

Definition demo_later : environ := [(s_ "HOME", s_ "/home/u"); (s_ "http_proxy", s_ "q:2"); (s_ "TERM", s_ "xterm")].
Example demo_served : proper demo_later /\ Forall (fun x => proper (fst x)) [(demo_env, false); (demo_later, false)] /\ last_client [(demo_env, false); (demo_later, false)] demo_later /\
  fst (sv_main (served demo_env 1 [(demo_env, false); (demo_later, false)])) = [(s_ "HOME", (s_ "/home/u", true)); (s_ "LC_ALL", (s_ "en_US.UTF-8", true)); (s_ "http_proxy", (s_ "q:2", false))].
Proof.
  assert (P : proper demo_later) by (repeat constructor; cbn; intuition discriminate). split; [exact P|]. split; [constructor; [apply demo_env_proper|constructor; [exact P|constructor]]|]. split; [exists [(demo_env, false)], false; reflexivity|]. vm_compute. reflexivity.
Qed.
(** one parse for each of the two, none for one that comes back *)
Example demo_parses : map (fun l => sv_parses (served demo_env 0 l)) [[]; [(demo_env, false)]; [(demo_env, false); (demo_later, false)]; [(demo_env, false); (demo_later, false); (demo_later, false)]; [(demo_env, false); (demo_later, false); (demo_later, true)]] = [1; 2; 3; 3; 4].
Proof. vm_compute. reflexivity. Qed.

(** * C165 *)
(** The environment of a task, whatever the worker's is. *)
Theorem task_environment : forall worker d fakeenv exports e, NoDup (map fst d) -> proper fakeenv -> task_environ worker d fakeenv exports = Some e ->
  proper e /\ forall k v, holds e k v <->
   holds fakeenv k v \/
   (unset fakeenv k /\ exists x, variable d k x /\ d_value x = Some v /\ d_fails x = false /\
     ((exists t, exports = Some t /\ In k (split_ws t)) \/ (~ internal k /\ d_export x = true /\ d_unexport x = false))).
Proof.
  intros worker d fake exports e N P H. unfold task_environ in H. cbn zeta in H. set (l := match exports with Some t => split_ws t | None => [] end) in H.
  destruct (add_exports_spec d fake l _ _ H) as (A & B & C). assert (PE : proper e) by (apply A, proper_sets, proper_sets; constructor). split; [exact PE|]. intros k v. rewrite (holds_look e k v PE), (C k), (look_sets fake P), (look_sets _ (exported_proper d N)). change (look [] k) with (@None str).
  assert (IL : (exists t, exports = Some t /\ In k (split_ws t)) <-> In k l). { unfold l. destruct exports as [t|]; split; [intros (u & E & I); injection E as <-; exact I|intro I; exists t; auto|intros (u & E & _); discriminate E|intros []]. }
  setoid_rewrite IL. unfold value_now. destruct (look fake k) as [w|] eqn:LF.
  - apply look_in in LF. assert (Q : (if mem_str k l then Some w else Some w) = Some w) by (destruct (mem_str k l); reflexivity). rewrite Q. split.
    + intro E. injection E as <-. left. exact LF.
    + intros [I|[U _]]; [|exfalso; exact (U w LF)]. apply (holds_look _ _ _ P) in I. apply (holds_look _ _ _ P) in LF. rewrite I in LF. injection LF as ->. reflexivity.
  - assert (U : unset fake k) by (apply look_none; exact LF). assert (XN : forall o : option str, match o with Some v => Some v | None => None end = o) by (intros []; reflexivity).
    assert (XE : look (exported_vars d) k = Some v <-> exists x, variable d k x /\ d_value x = Some v /\ d_fails x = false /\ ~ internal k /\ d_export x = true /\ d_unexport x = false).
    { rewrite <- (holds_look _ _ _ (exported_proper d N)). unfold holds. rewrite exported_in. unfold variable. split; intros (x & Q); exists x; tauto. }
    assert (NF : forall w, ~ holds fake k w) by exact U. rewrite !XN. destruct (mem_str k l) eqn:M.
    + apply mem_str_In in M. destruct (dlook d k) as [x|] eqn:DL.
      * apply (dlook_in d k x N) in DL. destruct (B k M) as [r R]. unfold value_now in R. rewrite LF, (proj2 (dlook_in d k x N) DL) in R. destruct (d_fails x) eqn:DF; [discriminate R|].
        assert (U1 : forall y, variable d k y -> y = x) by (intros y V; apply (proj2 (dlook_in d k y N)) in V; apply (proj2 (dlook_in d k x N)) in DL; rewrite V in DL; injection DL as ->; reflexivity).
        destruct (d_value x) as [w|] eqn:DV.
        -- split; [intro E; injection E as <-; right; split; [exact U|]; exists x; auto|]. intros [I|(_ & y & V & W & _)]; [exfalso; exact (NF v I)|]. rewrite (U1 y V), DV in W. exact W.
        -- split; [intro E; apply XE in E; destruct E as (y & V & W & _); rewrite (U1 y V), DV in W; discriminate W|]. intros [I|(_ & y & V & W & _)]; [exfalso; exact (NF v I)|]. rewrite (U1 y V), DV in W. discriminate W.
      * assert (NV : forall y, ~ variable d k y) by (intros y V; apply (proj2 (dlook_in d k y N)) in V; rewrite V in DL; discriminate DL).
        split; [intro E; apply XE in E; destruct E as (y & V & _); exfalso; exact (NV y V)|]. intros [I|(_ & y & V & _)]; [exfalso; exact (NF v I)|exfalso; exact (NV y V)].
    + apply mem_str_false in M. rewrite XE. split; [intros (x & Q); right; split; [exact U|]; exists x; tauto|]. intros [I|(_ & x & Q)]; [exfalso; exact (NF v I)|]. exists x. tauto.
Qed.
(** It cannot be made exactly if a variable that the task's flag names cannot be expanded. *)
Theorem task_environment_fails : forall worker d fakeenv exports, NoDup (map fst d) ->
  task_environ worker d fakeenv exports = None <-> exists t k x, exports = Some t /\ In k (split_ws t) /\ unset fakeenv k /\ variable d k x /\ d_fails x = true.
Proof.
  intros worker d fake exports N. unfold task_environ. cbn zeta. rewrite add_exports_none. split.
  - intros (k & I & V). destruct exports as [t|]; [|destruct I]. unfold value_now in V. destruct (look fake k) eqn:LF; [discriminate V|]. destruct (dlook d k) as [x|] eqn:DL; [|discriminate V]. destruct (d_fails x) eqn:F; [|discriminate V]. exists t, k, x. apply look_none in LF. apply (dlook_in d k x N) in DL. auto.
  - intros (t & k & x & -> & I & U & V & F). exists k. split; [exact I|]. unfold value_now. rewrite (proj2 (look_none fake k) U), (proj2 (dlook_in d k x N) V), F. reflexivity.
Qed.
(** The worker's own environment is as before after a task was started. *)
Theorem worker_environment : forall worker vars k, NoDup (map fst vars) -> look (worker_after worker vars) k = look worker k.
Proof.
  intros worker vars k N. unfold worker_after. destruct (set_fakes vars N worker []) as (b & E & M & V & L); [intros ? ? []|]. destruct (fold_left set_fake vars (worker, [])) as [e backup]. cbn [fst snd app] in *. subst backup.
  rewrite put_backs by (rewrite M; exact N). destruct (find (fun x => seqb (fst x) k) b) as [[j o]|] eqn:F.
  - apply find_some in F. destruct F as [I F]. cbn in F. apply seqb_eq in F. subst j. exact (V k o I).
  - apply L. intro I. rewrite <- M in I. apply in_map_iff in I. destruct I as ([j o] & Q & I). cbn in Q. subst j. apply (find_none _ _ F) in I. cbn in I. rewrite seqb_refl in I. discriminate I.
Qed.
(** Not if FAKEROOTENV names a variable twice: the first value stays, for all the later tasks. *)
Theorem worker_environment_twice_refuted : ~ (forall worker vars k, look (worker_after worker vars) k = look worker k).
Proof. intro H. specialize (H [] [(s_ "A", s_ "1"); (s_ "A", s_ "2")] (s_ "A")). vm_compute in H. discriminate H. Qed.

Definition demo_store : dstore := [(s_ "PATH", mkDvar (Some (s_ "/usr/bin")) false true false); (s_ "PWD", mkDvar (Some (s_ "/w")) false true true); (s_ "__x", mkDvar (Some (s_ "1")) false true false);
  (s_ "BAD", mkDvar None true true false); (s_ "http_proxy", mkDvar (Some (s_ "p:1")) false false false); (s_ "SHELL", mkDvar (Some (s_ "/bin/sh")) false true false)].
Example demo_task_environ : NoDup (map fst demo_store) /\ proper [(s_ "SHELL", s_ "/bin/bash")] /\
  task_environ [(s_ "LEFT", s_ "1")] demo_store [(s_ "SHELL", s_ "/bin/bash")] (Some (s_ "http_proxy  https_proxy")) = Some [(s_ "PATH", s_ "/usr/bin"); (s_ "SHELL", s_ "/bin/bash"); (s_ "http_proxy", s_ "p:1")] /\
  task_environ [] demo_store [] (Some (s_ "BAD")) = None.
Proof. split; [repeat constructor; cbn; intuition discriminate|]. split; [repeat constructor; intros []|]. split; vm_compute; reflexivity. Qed.
Example demo_worker : fst (fold_left set_fake [(s_ "A", s_ "1"); (s_ "B", s_ "2")] ([(s_ "A", s_ "0")], [])) = [(s_ "A", s_ "1"); (s_ "B", s_ "2")] /\ worker_after [(s_ "A", s_ "0")] [(s_ "A", s_ "1"); (s_ "B", s_ "2")] = [(s_ "A", s_ "0")].
Proof. split; vm_compute; reflexivity. Qed.

Print Assumptions environ_cleaned.
Print Assumptions environ_preserved.
Print Assumptions environ_sent.
Print Assumptions environ_locale_refuted.
Print Assumptions server_last_client.
Print Assumptions server_parses.
Print Assumptions server_additions_refuted.
Print Assumptions server_origenv_refuted.
Print Assumptions task_environment.
Print Assumptions task_environment_fails.
Print Assumptions worker_environment.
Print Assumptions worker_environment_twice_refuted.
