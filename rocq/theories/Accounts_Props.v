(** C65: groups and users of an image. *)
From Coq Require Import String Ascii List Bool NArith Arith Lia.
From Verif Require Import Str_Model Str_Proofs Accounts_Model Accounts_Spec Accounts_Proofs.
Import ListNotations.
Open Scope list_scope.

Section C65.
  Variable new_gid : world -> str -> bool -> str.
  Variable new_account : world -> str -> list str -> account.
  Variable refuses : command -> world -> bool.
  Variable sha256 : str -> str.
  Variable openssl : str -> str -> str.
  Notation post cf := (postprocess_accounts new_gid new_account refuses sha256 openssl cf).
  (** After a run each configured account exists once more or again, with every configured value,
      the others unchanged, and a new one made with the configured flags; other accounts are as
      they were *)
  Theorem accounts_exact cf w t wf : config_ok cf -> world_ok w -> post cf w = (t, Some wf) ->
    exists olds news, w_accounts wf = olds ++ news /\
      Forall2 (fun a b => (In (a_name a) (split_ws (cf_users cf)) -> account_after sha256 openssl cf (a_name a) a b) /\
                          (~ In (a_name a) (split_ws (cf_users cf)) -> b = a)) (w_accounts w) olds /\
      NoDup (map a_name news) /\
      (forall n, In n (map a_name news) <-> In n (split_ws (cf_users cf)) /\ ~ In n (map a_name (w_accounts w))) /\
      (forall b, In b news -> account_created sha256 openssl cf (a_name b) b).
  Proof.
    intros C W R. destruct (post_parts _ _ _ _ _ _ w t wf C W R) as (wg & t2 & WG & EA & R2).
    assert (F : Forall name_ok (split_ws (cf_users cf))) by (apply Forall_forall; intros n I; apply C; auto).
    destruct (users_run _ _ _ _ _ _ _ F wg t2 wf WG R2) as (news & E & ND & IN & CR). rewrite EA in E, IN.
    exists (map (proc sha256 openssl cf (split_ws (cf_users cf))) (w_accounts w)), news. split; [exact E|]. split; [|split; [exact ND|split; [exact IN|]]].
    - clear. induction (w_accounts w) as [|a l IH]; cbn [map]; constructor; auto. unfold proc. split; intros H.
      + apply mem_str_In in H. rewrite H. apply after_spec.
      + destruct (mem_str (a_name a) (split_ws (cf_users cf))) eqn:X; auto. exfalso. apply H. now apply mem_str_In.
    - intros b I. destruct (CR b I) as (w' & X). set (u := a_name b) in *. exists (fresh new_account w' u (made_flags cf u)). split; [apply fresh_name|]. split; [rewrite X; apply after_spec|].
      replace (a_made (fresh new_account w' u (made_flags cf u))) with (made_flags cf u) by (unfold fresh; now destruct (new_account w' u (made_flags cf u))).
      intros o. unfold made_flags. rewrite !in_app_iff.
      assert (P : forall c f, In o (flag_args (flag_b cf u f) c) <-> o = c /\ has_flag cf u f).
      { intros c f. rewrite <- flag_b_iff. destruct (flag_b cf u f); cbn; split; [intros [Z|[]]; auto|intros [Z _]; auto|intros []|intros [_ Z]; discriminate]. }
      rewrite !P. tauto.
  Qed.
  (** Each configured group exists and has the configured number; groups that are not configured
      are as they were *)
  Theorem groups_exact cf w t wf : config_ok cf -> world_ok w -> post cf w = (t, Some wf) ->
    (forall n, In n (split_ws (cf_groups cf)) -> In n (map g_name (w_groups wf)) /\
       (cf_gflag cf n (s_ "gid") <> [] -> forall h, In h (w_groups wf) -> g_name h = n -> g_gid h = cf_gflag cf n (s_ "gid"))) /\
    (forall h, In h (w_groups w) -> ~ In (g_name h) (split_ws (cf_groups cf)) -> In h (w_groups wf)).
  Proof.
    intros C W R. split.
    - intros n I. assert (D : done sha256 openssl cf (KG n) wf) by (eapply post_done; eauto; unfold keys; apply in_or_app; left; now apply in_map).
      destruct D as [H D]. split.
      + apply has_group_In in H. destruct H as (h & J & <-). now apply in_map.
      + intros NZ h J <-. assert (X : forall l, mapn g_name (g_name h) (gupd cf (g_name h)) l = l -> In h l -> gupd cf (g_name h) h = h).
        { induction l as [|x l IH]; [intros _ []|]. intros E [->|K].
          - cbn in E. rewrite seqb_refl in E. now injection E.
          - cbn in E. injection E as _ E. auto. }
        specialize (X _ D J). unfold gupd, pick in X. destruct (cf_gflag cf (g_name h) (s_ "gid")) as [|c s]; [congruence|]. rewrite <- X. reflexivity.
    - intros h I NI. rewrite post_eq in R. eapply groups_kept; [apply (keys_ok cf C)|exact W|exact R|exact I|]. unfold keys. intros X. apply in_app_or in X.
      destruct X as [X|X]; apply in_map_iff in X; destruct X as (n & E & J); [|discriminate]. injection E as ->. auto.
  Qed.
  (** Stopped anywhere and started again, any number of times, the result is that of one run *)
  Theorem accounts_restart cf w t wf w' t' wf' : config_ok cf -> world_ok w -> post cf w = (t, Some wf) ->
    interrupted (post cf) w w' -> post cf w' = (t', Some wf') -> wf' = wf.
  Proof.
    intros C W R I. revert t' wf'. assert (P : world_ok w' /\ forall t' wf', post cf w' = (t', Some wf') -> wf' = wf); [|exact (proj2 P)].
    induction I as [w|w x tx z y I IH RX J].
    - split; auto. intros t' wf' R'. congruence.
    - specialize (IH W R). destruct IH as [WX IH]. split; [eapply post_inv; eauto|]. intros t' wf' R'.
      rewrite <- (IH _ _ RX). exact (post_again _ _ _ _ _ _ x tx z y t' wf' C WX RX J R').
  Qed.
  (** A second run changes nothing *)
  Theorem accounts_again cf w t wf t' wf' : config_ok cf -> world_ok w -> post cf w = (t, Some wf) -> post cf wf = (t', Some wf') -> wf' = wf.
  Proof.
    intros C W R R'. refine (accounts_restart cf w t wf wf t' wf' C W R _ R'). apply (int_more _ w w t wf wf (int_start _ w) R).
    rewrite post_eq in R. eapply (run_last key (step new_gid new_account refuses sha256 openssl cf)). exact R.
  Qed.
End C65.
(** Whether an entry exists is decided by the whole name *)
Theorem accounts_whole_name w n : world_ok w -> ~ In ":"%char n ->
  (entry_exists n (map passwd_line (w_accounts w)) = true <-> In n (map a_name (w_accounts w))) /\
  (entry_exists n (map group_line (w_groups w)) = true <-> In n (map g_name (w_groups w))).
Proof.
  intros W N. rewrite exists_account, exists_group by auto. rewrite has_account_In, has_group_In, !in_map_iff. split; split; intros (a & A & B); eauto.
Qed.
Definition ex_new (w : world) (n : str) (f : list str) : account := mkAccount n [] [] (dec (N.of_nat (1000 + List.length (w_accounts w)))) (s_ "1000") [] (s_ "/bin/sh") [] (s_ "/home/" ++ n) f (s_ "!") false.
Definition ex_gid (w : world) (n : str) (b : bool) : str := dec (N.of_nat (1000 + List.length (w_groups w))).
Definition ex_root : account := mkAccount (s_ "root") [] [] (s_ "0") (s_ "0") (s_ "root") (s_ "/bin/bash") [] (s_ "/root") [] (s_ "*") false.
Definition ex_world : world := mkWorld [mkGroup (s_ "root") (s_ "0") true] [ex_root].
Definition ex_cf : config :=
  mkConfig (s_ "admins rootlike") (s_ "root roo")
    (fun g f => if seqb f (s_ "gid") && seqb g (s_ "admins") then s_ "500" else if seqb f (s_ "flags") then s_ "system" else [])
    (fun u f => if seqb f (s_ "password") then s_ "secret" else if seqb f (s_ "flags") then s_ "clear-text-password system create-home force-passwd-change"
                else if seqb f (s_ "home") && seqb u (s_ "root") then s_ "/new" else if seqb f (s_ "groups") then s_ "admins  rootlike" else [])
    (s_ "0").
Example accounts_case : let post := postprocess_accounts ex_gid ex_new (fun _ _ => false) (fun s => s) (fun a b => a ++ b) ex_cf in
  config_ok ex_cf /\ world_ok ex_world /\ exists t wf, post ex_world = (t, Some wf) /\ List.length t = 13 /\
  map a_name (w_accounts wf) = [s_ "root"; s_ "roo"] /\ map a_home (w_accounts wf) = [s_ "/new"; s_ "/home/roo"] /\
  map g_gid (w_groups wf) = [s_ "0"; s_ "500"; s_ "1002"; s_ "1000"] /\ map a_groups (w_accounts wf) = [s_ "admins,rootlike"; s_ "admins,rootlike"] /\
  forall t' wf', post wf = (t', Some wf') -> wf' = wf.
Proof.
  cbv zeta. assert (C : config_ok ex_cf).
  { intros n I. change (split_ws (cf_groups ex_cf)) with [s_ "admins"; s_ "rootlike"] in I. change (split_ws (cf_users ex_cf)) with [s_ "root"; s_ "roo"] in I.
    destruct I as [[<-|[<-|[]]]|[<-|[<-|[]]]]; (split; [vm_compute; intuition discriminate|intros r E; discriminate]). }
  assert (W : world_ok ex_world) by (split; intros a [<-|[]]; vm_compute; intuition discriminate).
  split; [exact C|]. split; [exact W|]. eexists. eexists. split; [vm_compute; reflexivity|]. repeat (split; [reflexivity|]).
  intros t' wf'. eapply accounts_again; [exact C|exact W|vm_compute; reflexivity].
Qed.
(** The salt of clear-text passwords is made of the date of the sources alone, so accounts with the
    same password have the same hash in the image, whatever the hash functions. *)
Theorem accounts_same_hash_refuted : exists cf w, config_ok cf /\ world_ok w /\ forall sha256 openssl, exists t wf a b,
  postprocess_accounts ex_gid ex_new (fun _ _ => false) sha256 openssl cf w = (t, Some wf) /\
  In a (w_accounts wf) /\ In b (w_accounts wf) /\ a_name a <> a_name b /\ a_pass a = a_pass b.
Proof.
  exists (mkConfig [] (s_ "anna bert") (fun _ _ => []) (fun u f => if seqb f (s_ "password") then s_ "secret" else if seqb f (s_ "flags") then s_ "clear-text-password" else []) (s_ "0")), ex_world.
  split; [|split].
  - intros n I. destruct I as [[]|I]. change (split_ws (s_ "anna bert")) with [s_ "anna"; s_ "bert"] in I. cbn [cf_users] in I.
    destruct I as [<-|[<-|[]]]; (split; [vm_compute; intuition discriminate|intros r E; discriminate]).
  - split; intros a [<-|[]]; vm_compute; intuition discriminate.
  - intros sha256 openssl. set (post := postprocess_accounts _ _ _ _ _ _ _).
    assert (P : exists t wf, post = (t, Some wf) /\ exists p a b, w_accounts wf = [ex_root; a; b] /\ a_name a = s_ "anna" /\ a_name b = s_ "bert" /\ a_pass a = p /\ a_pass b = p).
    { subst post. cbv -[strip]. eexists. eexists. split; [reflexivity|]. do 3 eexists. split; [reflexivity|]. repeat split; reflexivity. }
    destruct P as (t & wf & E & p & a & b & L & NA & NB & PA & PB). exists t, wf, a, b. split; [exact E|]. rewrite L. split; [cbn; auto|]. split; [cbn; auto|]. rewrite NA, NB, PA, PB. split; [discriminate|reflexivity].
Qed.
Print Assumptions accounts_exact.
Print Assumptions groups_exact.
Print Assumptions accounts_restart.
Print Assumptions accounts_again.
Print Assumptions accounts_whole_name.
Print Assumptions accounts_same_hash_refuted.
