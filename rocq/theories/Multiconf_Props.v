(** C103: the recipes of a build with several configurations. *)
From Coq Require Import String Ascii List Bool Arith Lia.
From Verif Require Import Str_Model Str_Proofs Taskdata_Model Taskdata_Spec Taskdata_Proofs Taskdata_Props Multiconf_Model Multiconf_Spec Multiconf_Proofs.
Import ListNotations.
Open Scope list_scope.

Lemma broken_mono halt s s' : mono s s' -> broken halt s -> broken halt s'.
Proof. intros M [E (t & I & J)]. split; auto. exists t. split; [now apply (m_ext _ _ M)|now apply (m_failed _ _ M)]. Qed.
Lemma unresolved_all_same mcs C mcwords halt allow n l : forall st st', (forall mc, In mc l -> resolved (C mc) (st mc)) ->
  unresolved_all C mcwords halt allow n l st = inl (Some st') -> forall mc, In mc mcs -> st' mc = st mc.
Proof.
  induction l as [|m l IH]; intros st st' R E mc M; cbn [unresolved_all] in E; [now injection E as <-|].
  destruct (step mcwords m (add_unresolved (C m) halt allow n) st) as [[st1|]|] eqn:E1; try discriminate. apply step_ok in E1; auto. destruct E1 as (s & E1 & -> & _).
  apply unresolved_same in E1; [|apply R; now left]. subst s.
  assert (Q : forall q, set_state st m (st m) q = st q). { intros q. unfold set_state. destruct (seqb q m) eqn:X; auto. apply seqb_eq in X. now subst. }
  rewrite (IH (set_state st m (st m)) st'); auto. intros q Iq. rewrite Q. apply R. now right.
Qed.

Section C103.
Variable mcs : list str.
Variable C : str -> cache.
Variable mcwords : str -> str -> list str.
Variable order : list str -> list str.
Variable halt : bool.
Notation required := (required mcs C mcwords).

Lemma multi_sound allow n targets st served : NoDup mcs -> (forall l k, In k (order l) <-> In k l) ->
  multi mcs C mcwords order halt allow n targets = Done st served -> sound mcs C mcwords halt targets st.
Proof.
  intros ND O. unfold multi.
  destruct (ask C mcwords halt targets (fun _ => init)) as [[st1|]|] eqn:E1; try discriminate.
  destruct (ask_ok mcs C mcwords halt targets targets _ _ (init_sound mcs C mcwords halt targets) (fun p I => I) E1) as (S1 & _ & _).
  destruct (if _ || _ then _ else _) as [st2 seen| |] eqn:E2; try discriminate.
  destruct (unresolved_all C mcwords halt allow n mcs st2) as [[st3|]|] eqn:E3; try discriminate. intros [= <- <-].
  assert (S2 : sound mcs C mcwords halt targets st2).
  { destruct (_ || _); [|injection E2 as <- _; auto]. eapply (mc_loop_ok mcs C mcwords order halt allow targets O n n ND st1 [] st2 seen S1); eauto. intros k []. }
  now destruct (unresolved_all_ok mcs C mcwords halt allow targets n mcs ND st2 st3 S2 E3).
Qed.

(** With at least two configurations, once the dependencies have been resolved, everything is provided in the
    configuration it belongs to: a name that was asked for in the configuration it was asked for, a name in DEPENDS or
    RDEPENDS of a recipe in the configuration of the recipe, and a name in a multiconfig dependency in the configuration
    that the dependency names, which exists.  Without --continue this is so if no such name has failed. *)
Theorem mc_provided : forall n targets st served,
  NoDup mcs -> (forall l k, In k (order l) <-> In k l) -> 2 <= length mcs ->
  multi mcs C mcwords order halt false n targets = Done st served ->
  (halt = true -> forall mc t, required targets mc t -> ~ In t (s_failed (st mc) Build)) ->
  (forall mc t, In (mc, t) targets -> c_ignored (C mc) t = true \/ In t (s_failed (st mc) Build) \/ provided (C mc) (st mc) Build t) /\
  forall mc fn, In mc mcs -> In fn (s_seen (st mc)) ->
    (~ In fn (s_ffns (st mc)) -> forall x t, In t (c_needs (C mc) x fn) -> c_ignored (C mc) t = true \/ provided (C mc) (st mc) x t) /\
    (forall k, In k (mcwords mc fn) -> exists from to t task, mcword k from to t task /\ In to mcs /\
       (c_ignored (C to) t = true \/ In t (s_failed (st to) Build) \/ provided (C to) (st to) Build t)).
Proof.
  intros n targets st served ND O L E H. assert (SF := multi_sound false n targets st served ND O E). revert E. unfold multi.
  destruct (ask C mcwords halt targets (fun _ => init)) as [[st1|]|] eqn:E1; try discriminate.
  destruct (ask_ok mcs C mcwords halt targets targets _ _ (init_sound mcs C mcwords halt targets) (fun p I => I) E1) as (S1 & _ & A1).
  replace (Nat.ltb 1 (length mcs)) with true by (symmetry; apply Nat.ltb_lt; lia). rewrite orb_true_r.
  destruct (mc_loop mcs C mcwords order halt false n n st1 []) as [st2 seen| |] eqn:E2; try discriminate.
  destruct (unresolved_all C mcwords halt false n mcs st2) as [[st3|]|] eqn:E3; try discriminate. intros [= <- <-].
  destruct (mc_loop_ok mcs C mcwords order halt false targets O n n ND st1 [] st2 seen S1 ltac:(intros k []) E2) as (S2 & L2 & V2 & G2 & R2).
  destruct (unresolved_all_ok mcs C mcwords halt false targets n mcs ND st2 st3 S2 E3) as (_ & L3 & R3 & _).
  assert (NB : forall mc, ~ broken halt (st3 mc)).
  { intros mc [B (t & I & J)]. destruct (SF mc) as (asked & Ra & W & _). apply (H B mc t); auto. apply Ra. now apply (w_ext _ _ _ W). }
  assert (NB2 : forall mc, ~ broken halt (st2 mc)) by (intros mc B; apply (NB mc); eapply broken_mono; eauto; apply L3).
  assert (SAME := unresolved_all_same mcs C mcwords halt false n mcs st2 st3 (fun mc M => R2 eq_refl mc M (NB2 mc)) E3).
  assert (AP : forall mc t, answered C st3 mc t -> c_ignored (C mc) t = true \/ In t (s_failed (st3 mc) Build) \/ provided (C mc) (st3 mc) Build t).
  { intros mc t [_ [I|St]]; auto. right. destruct (SF mc) as (asked & _ & W & Q & _). eapply settled_provided; eauto. }
  split; [intros mc t I; apply AP; eapply answered_later; [|apply A1; eauto]; eapply later_trans; eauto|].
  intros mc fn M F. split.
  - intros NF x t N. destruct (SF mc) as (asked & _ & W & Q & _). specialize (Q (NB mc)).
    destruct (q_keys _ _ _ Q x t fn F (or_introl N)) as [[]|[K|K]]; [contradiction|]. destruct (R3 eq_refl mc M (NB mc) x t K) as [Ig|St]; auto. right.
    destruct (settled_provided _ _ _ _ _ W Q St) as [Fl|P]; auto. destruct (q_fail _ _ _ Q x t fn F N Fl) as [[]|]; contradiction.
  - intros k I. destruct (SF mc) as (asked & _ & _ & _ & WF). rewrite forallb_forall in WF.
    assert (WK : well_formed k = true) by (apply WF; unfold mcdepends; apply in_flat_map; eauto).
    destruct (parts5 k WK) as (from & to & t & task & MW & _). exists from, to, t, task. split; auto.
    assert (F2 : In fn (s_seen (st2 mc))) by now rewrite <- SAME.
    destruct (V2 k (G2 mc fn k M F2 I) from to t task MW) as [T An]. split; auto. apply AP. eapply answered_later; eauto.
Qed.

(** Only recipes take part that names need which were asked for, or which multiconfig dependencies of needed recipes
    name, each in its configuration *)
Theorem mc_only_wanted : forall allow n targets st served mc fn,
  NoDup mcs -> (forall l k, In k (order l) <-> In k l) ->
  multi mcs C mcwords order halt allow n targets = Done st served -> In fn (s_seen (st mc)) ->
  exists names, (forall t, In t names -> required targets mc t) /\ wanted_file (C mc) names fn.
Proof.
  intros allow n targets st served mc fn ND O E I. destruct (multi_sound allow n targets st served ND O E mc) as (asked & Ra & W & _). exists asked. split; auto. apply (w_seen _ _ _ W fn I).
Qed.

(** The rounds come to an end, whatever the recipes of the configurations ask of each other *)
Theorem mc_ends : forall allow targets files,
  NoDup mcs -> (forall l k, In k (order l) <-> In k l) -> (forall mc x t g, eligible (C mc) x t g -> In g (files mc)) ->
  exists n, forall m, n <= m -> multi mcs C mcwords order halt allow m targets <> Stuck.
Proof.
  intros allow targets files ND O F. exists (S (bound mcs C mcwords targets files + length (words mcs mcwords files))). intros m L. unfold multi.
  assert (X := ask_ends mcs C mcwords halt targets targets _ (init_sound mcs C mcwords halt targets) (fun p I => I)).
  destruct (ask C mcwords halt targets (fun _ => init)) as [[st1|]|[]] eqn:E1; try discriminate; [|contradiction].
  destruct (ask_ok mcs C mcwords halt targets targets _ _ (init_sound mcs C mcwords halt targets) (fun p I => I) E1) as (S1 & _ & _).
  set (loops := _ || _).
  assert (Y : loops = true -> mc_loop mcs C mcwords order halt allow m m st1 [] <> Stuck).
  { intros _. apply (mc_loop_ends mcs C mcwords order halt allow targets O files F); auto; try lia; [intros k []|].
    unfold unserved. pose proof (filter_le (fun k => negb (mem_str k [])) (words mcs mcwords files)). lia. }
  assert (Z : forall st2 seen, mc_loop mcs C mcwords order halt allow m m st1 [] = Done st2 seen -> sound mcs C mcwords halt targets st2)
    by (intros st2 seen E2; eapply (mc_loop_ok mcs C mcwords order halt allow targets O m m ND st1 [] st2 seen S1); eauto; intros k []).
  assert (V : forall st2, sound mcs C mcwords halt targets st2 -> unresolved_all C mcwords halt allow m mcs st2 <> inr tt)
    by (intros st2 S2; apply (unresolved_all_ends mcs C mcwords halt allow targets files F); auto; lia).
  destruct loops; [specialize (Y eq_refl); destruct (mc_loop mcs C mcwords order halt allow m m st1 []) as [st2 seen| |] eqn:E2; try discriminate; [|contradiction]; specialize (V st2 (Z st2 seen eq_refl))|specialize (V st1 S1)];
  destruct (unresolved_all C mcwords halt allow m mcs _) as [[st3|]|[]]; try discriminate; contradiction.
Qed.
End C103.

(** ** Examples *)
(** The image of the target needs a tool of the configuration host and a package of its own; the tool needs firmware of
    the target, which nobody asked for *)
Definition ex_target : cache := {|
  c_choice := choice [("image", ["image.bb"]); ("pkg", ["pkg.bb"]); ("firmware", ["fw.bb"])]%string [];
  c_ignored := fun _ => false; c_tasks := fun _ => plain;
  c_needs := needed [("image.bb", ["pkg"])]%string [] |}.
Definition ex_host : cache := {|
  c_choice := choice [("tool", ["tool.bb"]); ("lib", ["lib.bb"])]%string [];
  c_ignored := fun _ => false; c_tasks := fun _ => plain;
  c_needs := needed [("tool.bb", ["lib"])]%string [] |}.
Definition ex_C (mc : str) : cache := if seqb mc (s_ "host") then ex_host else ex_target.
Definition ex_words (mc fn : str) : list str :=
  if seqb fn (s_ "image.bb") then [s_ "mc::host:tool:do_deploy"] else if seqb fn (s_ "tool.bb") then [s_ "mc:host::firmware:do_build"] else [].
Definition ex_mcs : list str := [[]; s_ "host"].
Definition ex_run : mres := multi ex_mcs ex_C ex_words (fun l => l) true false 9 [([], s_ "image")].
Definition seen_in (r : mres) (mc : str) : list str := match r with Done st _ => s_seen (st mc) | _ => [] end.
Definition failed_in (r : mres) (mc : str) : list str := match r with Done st _ => s_failed (st mc) Build | _ => [] end.
Example ex_run_ok : (exists st served, ex_run = Done st served) /\ seen_in ex_run [] = [s_ "image.bb"; s_ "pkg.bb"; s_ "fw.bb"] /\
  seen_in ex_run (s_ "host") = [s_ "tool.bb"; s_ "lib.bb"] /\ failed_in ex_run [] = [] /\ failed_in ex_run (s_ "host") = [].
Proof. split; [eexists; eexists; vm_compute; reflexivity|]. vm_compute. auto. Qed.
(** The hypotheses of mc_provided, mc_only_wanted and mc_ends hold for it *)
Example ex_met : NoDup ex_mcs /\ (forall l k, In k ((fun l : list str => l) l) <-> In k l) /\ 2 <= length ex_mcs /\
  (forall st served, ex_run = Done st served -> forall mc t, required ex_mcs ex_C ex_words [([], s_ "image")] mc t -> ~ In t (s_failed (st mc) Build)) /\
  exists files, forall mc x t g, eligible (ex_C mc) x t g -> In g (files mc).
Proof.
  split; [constructor; [intros [H|[]]; discriminate|constructor; [intros []|constructor]]|]. split; [tauto|]. split; [auto|]. split.
  - intros st served E mc t R. assert (M : In mc ex_mcs) by (destruct R as [mc t [[= <- <-]|[]]|]; [left; reflexivity|auto]).
    vm_compute in E. injection E as <- _. destruct M as [<-|[<-|[]]]; vm_compute; auto.
  - exists (fun _ => map s_ ["image.bb"; "pkg.bb"; "fw.bb"; "tool.bb"; "lib.bb"]%string). intros mc x t g (l & E & I). unfold ex_C in E.
    destruct (seqb mc (s_ "host")); destruct x; cbn [ex_host ex_target c_choice choice] in E; unfold pick in E; cbn [find fst] in E;
    repeat match type of E with context [if ?b then _ else _] => destruct b; [injection E as <-; destruct I as [<-|[]]; cbn; auto 10|] end; discriminate.
Qed.
(** A configuration that does not exist, a malformed dependency and a name without a provider end the build *)
Example ex_stop : multi [[]; s_ "host"] ex_C (fun _ fn => if seqb fn (s_ "pkg.bb") then [s_ "mc::other:tool:do_deploy"] else []) (fun l => l) true false 9 [([], s_ "image")] = Failed /\
  multi [[]; s_ "host"] ex_C (fun _ fn => if seqb fn (s_ "pkg.bb") then [s_ "mc::host:tool"] else []) (fun l => l) true false 9 [([], s_ "image")] = Failed /\
  multi [[]; s_ "host"] ex_C (fun _ fn => if seqb fn (s_ "pkg.bb") then [s_ "mc::host:missing:do_deploy"] else []) (fun l => l) true false 9 [([], s_ "image")] = Failed.
Proof. vm_compute. auto. Qed.

(** ** What does not hold *)
(** With one configuration the statement of mc_provided is wrong: whether there are multiconfig dependencies is decided
    when only the recipes of the targets have been added.  If it is pkg, on which the image depends, that names the
    firmware in a multiconfig dependency, nothing provides the firmware; a second target which has any multiconfig
    dependency changes that. *)
Theorem single_configuration_refuted :
  let words : str -> str -> list str := fun _ fn => if seqb fn (s_ "pkg.bb") then [s_ "mc:::firmware:do_build"] else [] in
  exists st served, multi [[]] ex_C words (fun l => l) true false 9 [([], s_ "image")] = Done st served /\
    In (s_ "pkg.bb") (s_seen (st [])) /\ In (s_ "mc:::firmware:do_build") (words [] (s_ "pkg.bb")) /\
    eligible (ex_C []) Build (s_ "firmware") (s_ "fw.bb") /\ ~ provided (ex_C []) (st []) Build (s_ "firmware") /\
  exists st' served', multi [[]] ex_C words (fun l => l) true false 9 [([], s_ "image"); ([], s_ "pkg")] = Done st' served' /\
    provided (ex_C []) (st' []) Build (s_ "firmware").
Proof.
  eexists. eexists. split; [vm_compute; reflexivity|]. split; [vm_compute; auto|]. split; [vm_compute; auto|]. split; [exists [s_ "fw.bb"]; vm_compute; auto|].
  split; [intros (g & rest & P & _); vm_compute in P; discriminate|].
  eexists. eexists. split; [vm_compute; reflexivity|]. exists (s_ "fw.bb"), []. split; [vm_compute; reflexivity|]. split; [exists [s_ "fw.bb"]; vm_compute; auto|]. split; [vm_compute; auto|vm_compute; auto].
Qed.

Print Assumptions mc_provided.
Print Assumptions mc_only_wanted.
Print Assumptions mc_ends.
Print Assumptions single_configuration_refuted.
