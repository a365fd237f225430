(** C35: theorems. *)
From Coq Require Import Ascii String List Bool Arith Lia Permutation.
From Verif Require Import Str_Model Str_Proofs Imgtypes_Model Imgtypes_Spec Imgtypes_Proofs.
Import ListNotations.
Open Scope list_scope.

Lemma set_task_fresh m k v : ~ In k (map fst m) -> set_task m k v = m ++ [(k, v)].
Proof.
  induction m as [|[a w] m IH]; cbn [set_task map fst app]; intros H; auto. destruct (seqb k a) eqn:E.
  - apply seqb_eq in E. subst. exfalso. apply H. now left.
  - rewrite IH; auto. intros X. apply H. now right.
Qed.
(** The name of a task is the name of its type with "_" in the place of "-" and "." *)
Theorem task_name_exact t : length (clean t) = length t /\
  forall i c, nth_error t i = Some c -> nth_error (clean t) i = Some (if in_dec ascii_dec c (s_ "-.") then "_"%char else c).
Proof.
  unfold clean. split; [apply map_length|]. intros i c H. erewrite map_nth_error by exact H. f_equal.
  destruct (aeqb c "-"%char) eqn:A; [apply aeqb_eq in A; subst; reflexivity|]. destruct (aeqb c "."%char) eqn:B; [apply aeqb_eq in B; subst; reflexivity|].
  apply aeqb_neq in A, B. cbn [orb]. destruct (in_dec ascii_dec c (s_ "-.")) as [[X|[X|[]]]|]; congruence.
Qed.
Print Assumptions task_name_exact.
Lemma image_tasks_form (f : str * list str -> list cmd) l : forall m, NoDup (map fst m ++ map (fun e => clean (fst e)) l) ->
  fold_left (fun m e => set_task m (clean (fst e)) (f e)) l m = m ++ map (fun e => (clean (fst e), f e)) l.
Proof.
  induction l as [|e l IH]; intros m N; cbn [fold_left map]; [now rewrite app_nil_r|]. cbn [map] in N.
  assert (F : ~ In (clean (fst e)) (map fst m)).
  { apply NoDup_remove_2 in N. intros H. apply N. apply in_or_app. auto. }
  rewrite set_task_fresh by auto. rewrite IH; [now rewrite <- app_assoc|]. rewrite map_app. cbn [map fst]. rewrite <- app_assoc. exact N.
Qed.

Lemma needed_wanted cf req x : needed (base_type cf) (deps_of cf) req x -> x <> base_type cf x -> wanted (base_type cf) (deps_of cf) req x.
Proof.
  intros N. destruct N as [y I|u y M I|y M]; intros X; [now left|right; eauto|]. exfalso. apply X. now rewrite base_base.
Qed.
(** The base types, and what belongs to them, as collected from the configuration. *)
Theorem collected_exactly cf n s : collect_all n cf = Some s ->
  (forall b t, (exists ts, In (b, ts) (cl_base s) /\ In t ts) <-> b = base_type cf t /\ needed (base_type cf) (deps_of cf) (cf_fstypes cf) t) /\
  (forall t, In t (cl_types s) <-> wanted (base_type cf) (deps_of cf) (cf_fstypes cf) t).
Proof.
  intros H. destruct (collect_all_spec cf n s H) as (A & B & _ & N). split; auto. intros b t. rewrite <- A. split.
  - intros (ts & I & T). rewrite (lookup_entry _ _ _ N I). exact T.
  - intros I. exists (lookup (cl_base s) b). split; auto. eapply lookup_key; eauto.
Qed.
(** A base type is the name without its conversions. *)
Theorem base_type_exact cf t : derived (cf_conversions cf) (base_type cf t) t /\ plain (cf_conversions cf) (base_type cf t) /\
  (unambiguous (cf_conversions cf) -> forall b, derived (cf_conversions cf) b t -> plain (cf_conversions cf) b -> b = base_type cf t).
Proof.
  destruct (base_spec cf t) as [A B]. split; auto. split; auto. intros U b D P. symmetry. now apply base_unique.
Qed.
(** The task of a type comes after the tasks of the types it depends on. *)
Theorem dependency_tasks_first cf n s t d : collect_all n cf = Some s ->
  needed (base_type cf) (deps_of cf) (cf_fstypes cf) t -> In d (deps_of cf t) ->
  In (clean (base_type cf d)) (task_after s (base_type cf t)).
Proof.
  intros H N D. destruct (collect_all_spec cf n s H) as (_ & _ & C & _). unfold task_after. apply in_map. now apply C.
Qed.
(** Collecting ends when the dependencies among types have no cycle. *)
Theorem collect_ends cf :
  well_founded (fun x y => In x (deps_of cf y) \/ (x = base_type cf y /\ x <> y)) -> exists n s, collect_all n cf = Some s.
Proof. apply collect_all_terminates. Qed.
Theorem collect_cycle_refuted : exists cf, forall n, collect_all n cf = None.
Proof.
  exists {| cf_fstypes := [s_ "a"]; cf_conversions := []; cf_typedep := [(s_ "a", [s_ "a"])] |}. intros n. unfold collect_all. cbn [cf_fstypes collect_list].
  set (cf := Build_config _ _ _). assert (A : forall s, collect n cf (s_ "a") s = None); [|now rewrite A].
  induction n as [|n IH]; intros s; [reflexivity|]. rewrite collect_S. change (deps_of cf (s_ "a")) with [s_ "a"]. cbn [dep_loop]. now rewrite IH.
Qed.

(** Full statement: whatever the order of the tasks, all commands succeed,
    wanted files exist afterwards and files that are needed only on the way do
    not.  Proved when no two needed types share a base type that is not wanted
    itself (see the refuted theorem), conversions are unambiguous and no two
    base types share a task name. *)
Theorem wanted_images_kept_partial cf n s order : collect_all n cf = Some s ->
  let N := needed (base_type cf) (deps_of cf) (cf_fstypes cf) in
  let W := wanted (base_type cf) (deps_of cf) (cf_fstypes cf) in
  unambiguous (cf_conversions cf) ->
  (forall t u, N t -> N u -> clean (base_type cf t) = clean (base_type cf u) -> base_type cf t = base_type cf u) ->
  (forall t u, N t -> N u -> base_type cf t = base_type cf u -> ~ W (base_type cf t) -> t <> base_type cf t -> u <> base_type cf t -> t = u) ->
  Permutation order (image_tasks cf s) ->
  forall fs0, exists fs, run_cmds (concat (map snd order)) fs0 = Some fs /\
    (forall t, W t -> In t fs) /\ (forall t, N t -> ~ W t -> ~ In t fs).
Proof.
  intros H N W U CL O PM fs0. destruct (collect_all_spec cf n s H) as (A & B & _ & ND). assert (NE := collect_all_nonempty cf n s H).
  set (cs := sorted_set (cf_conversions cf)). assert (SM : forall c, In c cs <-> In c (cf_conversions cf)) by (intros; apply sorted_set_in).
  set (f := fun e : str * list str => task_cmds cs (cl_types s) (fst e) (snd e)).
  assert (KN : forall e, In e (cl_base s) -> exists t, N t /\ base_type cf t = fst e).
  { intros [b ts] I. destruct ts as [|t ts]; [exfalso; eapply NE; eauto|]. exists t. assert (T : In t (lookup (cl_base s) b)) by (rewrite (lookup_entry _ _ _ ND I); now left).
    apply A in T. destruct T; split; auto. }
  assert (FORM : image_tasks cf s = map (fun e => (clean (fst e), f e)) (cl_base s)).
  { unfold image_tasks. change (map (fun e => (clean (fst e), f e)) (cl_base s)) with ([] ++ map (fun e => (clean (fst e), f e)) (cl_base s)).
    apply (image_tasks_form f). cbn [map app]. rewrite <- map_map. clear -ND KN CL.
    assert (KI : forall k, In k (map fst (cl_base s)) -> exists t, N t /\ base_type cf t = k).
    { intros k I. apply in_map_iff in I. destruct I as (e & <- & I). apply KN; auto. }
    revert ND KI. generalize (map fst (cl_base s)). induction l as [|k l IH]; intros ND KI; cbn [map]; constructor.
    - intros X. apply in_map_iff in X. destruct X as (k2 & E & I2). inversion ND; subst.
      destruct (KI k (or_introl eq_refl)) as (t & T1 & T2). destruct (KI k2 (or_intror I2)) as (u & U1 & U2).
      assert (base_type cf u = base_type cf t) by (apply CL; auto; congruence). congruence.
    - apply IH; [inversion ND; auto|]. intros; apply KI; now right. }
  rewrite FORM in PM. apply Permutation_map_inv in PM. destruct PM as (es & -> & PE). rewrite map_map.
  assert (TASK : forall b ts, In (b, ts) (cl_base s) -> forall fs0, exists fs, run_cmds (f (b, ts)) fs0 = Some fs /\
    forall x, (base_type cf x <> b -> (In x fs <-> In x fs0)) /\ (base_type cf x = b -> N x -> (In x fs <-> W x))).
  { intros b ts I fs1. assert (L := lookup_entry _ _ _ ND I). destruct (KN _ I) as (t0 & T0 & T0b). cbn [fst] in T0b.
    assert (BB : base_type cf b = b) by (rewrite <- T0b; apply base_base). assert (NB : N b) by (rewrite <- T0b; now apply n_base).
    assert (P : plain (cf_conversions cf) b) by (rewrite <- T0b; apply base_spec).
    assert (TS : forall t, In t ts <-> b = base_type cf t /\ N t) by (intros t; rewrite <- L; apply A).
    assert (FD : Forall (derived (cf_conversions cf) b) ts).
    { apply Forall_forall. intros t T. apply TS in T. destruct T as [-> _]. apply base_spec. }
    destruct (task_exact (cf_conversions cf) cs (cl_types s) b ts SM U P FD fs1) as (fs & R & E). exists fs. split; [exact R|]. intros x. rewrite E.
    assert (BX : derived (cf_conversions cf) b x -> base_type cf x = b) by (intros; now apply base_unique).
    assert (Ib : In b ts) by (apply TS; auto).
    assert (LST : ~ In b (cl_types s) -> last ts b = b).
    { intros K. rewrite B in K. rewrite <- L. eapply last_is_base; eauto. intros t u T1 T2 T3 T4 T5 T6. apply (O t u T1 T2); rewrite ?T3, ?T4; auto. }
    split.
    - intros NB2. split.
      + intros [[X|[X|(t & X1 & X2 & X3)]] Y]; auto; [subst x; congruence|]. exfalso. auto.
      + intros X. split; auto. intros [(t & X1 & X2 & X3)|[X1 X2]]; [auto|]. rewrite LST in X2 by auto. subst x. congruence.
    - intros EB NX. assert (TX : In x ts) by (apply TS; auto). assert (DX : derived (cf_conversions cf) b x) by (rewrite Forall_forall in FD; auto). split.
      + intros [_ Y]. apply B. destruct (in_dec str_eq_dec x (cl_types s)) as [K|K]; auto. exfalso. apply Y.
        destruct (str_eq_dec x b) as [->|XB].
        * right. split; auto. symmetry; auto.
        * exfalso. apply K, B. apply needed_wanted; auto. congruence.
      + intros WX. apply B in WX. split; [right; right; exists x; split; auto; split; auto; constructor|]. intros [(t & _ & _ & _ & _ & K)|[K1 K2]]; auto. rewrite LST in K2 by auto. subst x. auto. }
  assert (NE2 : NoDup (map fst es)) by (eapply Permutation_NoDup; [apply Permutation_map; exact PE|exact ND]).
  assert (IE : forall e, In e es -> In e (cl_base s)) by (intros e I; eapply Permutation_in; [apply Permutation_sym; exact PE|exact I]).
  assert (ALL : forall es fs0, NoDup (map fst es) -> (forall e, In e es -> In e (cl_base s)) ->
    exists fs, run_cmds (concat (map (fun e => snd (clean (fst e), f e)) es)) fs0 = Some fs /\
    forall x, (~ In (base_type cf x) (map fst es) -> (In x fs <-> In x fs0)) /\ (In (base_type cf x) (map fst es) -> N x -> (In x fs <-> W x))).
  { clear -TASK. induction es as [|[b ts] es IH]; intros fs0 ND I; cbn [map concat].
    - exists fs0. split; auto. intros x. split; [reflexivity|intros []].
    - destruct (TASK b ts (I _ (or_introl eq_refl)) fs0) as (fs1 & R1 & E1). inversion ND; subst. destruct (IH fs1 H2) as (fs2 & R2 & E2); [intros; apply I; now right|].
      exists fs2. split; [cbn [snd fst] in *; rewrite run_app, R1; exact R2|]. intros x. destruct (E1 x) as [E3 E4]. destruct (E2 x) as [E5 E6]. cbn [fst] in *. split.
      + intros NI. rewrite E5 by (intros X; apply NI; now right). apply E3. intros X. apply NI. now left.
      + intros [X|X] NX; [|auto]. rewrite E5; [apply E4; auto|]. now rewrite <- X. }
  destruct (ALL es fs0 NE2 IE) as (fs & R & E). exists fs. split; [exact R|].
  assert (KEY : forall x, N x -> In (base_type cf x) (map fst es)).
  { intros x X. assert (I : In x (lookup (cl_base s) (base_type cf x))) by (apply A; auto). apply lookup_key in I.
    eapply Permutation_in; [apply Permutation_map; exact PE|]. apply (in_map fst) in I. exact I. }
  assert (WN : forall x, W x -> N x) by (intros x [X|(u & X1 & X2)]; [now apply n_req|eapply n_dep; eauto]).
  split.
  - intros t T. apply E; auto.
  - intros t T1 T2 T3. apply T2. apply (proj2 (E t)); auto.
Qed.

(** IMAGE_FSTYPES = "ova ext4.gz ext4", ova depending on wic.zst: hypotheses met. *)
Definition cf_demo := {| cf_fstypes := [s_ "ova"; s_ "ext4.gz"; s_ "ext4"; s_ "tar.xz"];
  cf_conversions := [s_ "gz"; s_ "xz"; s_ "zst"; s_ "zck"]; cf_typedep := [(s_ "ova", [s_ "wic.zst"])] |}.
Example demo_tasks : exists s, collect_all 5 cf_demo = Some s /\ image_tasks cf_demo s =
  [(s_ "ova", [Build (s_ "ova")]);
   (s_ "wic", [Build (s_ "wic"); Convert (s_ "wic") (s_ "zst"); Remove (s_ "wic")]);
   (s_ "ext4", [Build (s_ "ext4"); Convert (s_ "ext4") (s_ "gz")]);
   (s_ "tar", [Build (s_ "tar"); Convert (s_ "tar") (s_ "xz"); Remove (s_ "tar")])].
Proof. eexists. split; vm_compute; reflexivity. Qed.
Lemma demo_needed t : needed (base_type cf_demo) (deps_of cf_demo) (cf_fstypes cf_demo) t ->
  In t [s_ "ova"; s_ "ext4.gz"; s_ "ext4"; s_ "tar.xz"; s_ "wic.zst"; s_ "wic"; s_ "tar"].
Proof.
  intros N. induction N as [t I|t u N IH I|t N IH].
  - cbn in I. cbn. tauto.
  - cbn [In] in IH. repeat destruct IH as [<-|IH]; try (vm_compute in I; destruct I as [<-|[]]; vm_compute; tauto); try (vm_compute in I; destruct I); destruct IH.
  - cbn [In] in IH. repeat destruct IH as [<-|IH]; try (vm_compute; tauto).
Qed.
Example demo_hypotheses :
  let N := needed (base_type cf_demo) (deps_of cf_demo) (cf_fstypes cf_demo) in
  let W := wanted (base_type cf_demo) (deps_of cf_demo) (cf_fstypes cf_demo) in
  unambiguous (cf_conversions cf_demo) /\
  (forall t u, N t -> N u -> clean (base_type cf_demo t) = clean (base_type cf_demo u) -> base_type cf_demo t = base_type cf_demo u) /\
  (forall t u, N t -> N u -> base_type cf_demo t = base_type cf_demo u -> ~ W (base_type cf_demo t) -> t <> base_type cf_demo t -> u <> base_type cf_demo t -> t = u).
Proof.
  split; [|split].
  - intros c1 c2 t I1 I2 E. assert (X : contains_sub (s_ ".") c1 = true) by (apply contains_sub_iff; exists t, c2; exact E).
    cbn [cf_demo cf_conversions In] in I1. repeat destruct I1 as [<-|I1]; try (vm_compute in X; discriminate). destruct I1.
  - intros t u T U. apply demo_needed in T. apply demo_needed in U. cbn [In] in T, U.
    repeat destruct T as [<-|T]; try destruct T; repeat destruct U as [<-|U]; try destruct U; vm_compute; intros; congruence.
  - intros t u T U. apply demo_needed in T. apply demo_needed in U. cbn [In] in T, U.
    repeat destruct T as [<-|T]; try destruct T; repeat destruct U as [<-|U]; try destruct U; intros E W NT NU; try reflexivity; exfalso; try (vm_compute in E; discriminate);
      try (apply NT; vm_compute; reflexivity); try (apply NU; vm_compute; reflexivity).
Qed.

(** The exact set of files one task removes: intermediate files that are not
    wanted, and, if the base type is not wanted, the last name that was
    collected for it. *)
Theorem task_effect_exact cs kept bt ts fs0 : unambiguous cs -> plain cs bt -> Forall (derived cs bt) ts ->
  exists fs, run_cmds (task_cmds (sorted_set cs) kept bt ts) fs0 = Some fs /\
  forall x, In x fs <->
    (In x fs0 \/ x = bt \/ exists t, In t ts /\ derived cs bt x /\ derived cs x t) /\
    ~ ((exists t, In t ts /\ derived cs bt x /\ derived cs x t /\ x <> t /\ ~ In x kept) \/ (~ In bt kept /\ x = last ts bt)).
Proof. intros U P F. apply task_exact; auto. intros c. apply sorted_set_in. Qed.

(** IMAGE_FSTYPES = "ext4.gz ext4.xz": the requested ext4.xz is removed. *)
Theorem requested_image_removed_refuted : exists cf n s fs, collect_all n cf = Some s /\
  unambiguous (cf_conversions cf) /\ In (s_ "ext4.xz") (cf_fstypes cf) /\
  run_cmds (concat (map snd (image_tasks cf s))) [] = Some fs /\ ~ In (s_ "ext4.xz") fs.
Proof.
  exists {| cf_fstypes := [s_ "ext4.gz"; s_ "ext4.xz"]; cf_conversions := [s_ "gz"; s_ "xz"]; cf_typedep := [] |}, 3.
  eexists. eexists. split; [vm_compute; reflexivity|]. split.
  - intros c1 c2 t I1 I2 E. assert (X : contains_sub (s_ ".") c1 = true) by (apply contains_sub_iff; exists t, c2; exact E).
    cbn [cf_conversions In] in I1. repeat destruct I1 as [<-|I1]; try (vm_compute in X; discriminate). destruct I1.
  - split; [cbn; auto|]. split; [vm_compute; reflexivity|]. vm_compute. intuition discriminate.
Qed.
(** Two base types with the same cleaned name share a task: only one is built. *)
Theorem same_task_name_refuted : exists cf n s fs, collect_all n cf = Some s /\
  run_cmds (concat (map snd (image_tasks cf s))) [] = Some fs /\ In (s_ "a-b") (cf_fstypes cf) /\ ~ In (s_ "a-b") fs.
Proof.
  exists {| cf_fstypes := [s_ "a-b"; s_ "a.b"]; cf_conversions := []; cf_typedep := [] |}, 3.
  eexists. eexists. split; [vm_compute; reflexivity|]. split; [vm_compute; reflexivity|]. split; [cbn; auto|]. vm_compute. intuition discriminate.
Qed.
(** With conversions "tar.gz" and "gz" the two loops disagree and the task fails. *)
Theorem ambiguous_conversion_refuted : exists cf n s, collect_all n cf = Some s /\
  run_cmds (concat (map snd (image_tasks cf s))) [] = None.
Proof.
  exists {| cf_fstypes := [s_ "x.tar.gz"]; cf_conversions := [s_ "tar.gz"; s_ "gz"]; cf_typedep := [] |}, 3.
  eexists. split; vm_compute; reflexivity.
Qed.

(** ** IMAGE_BASETYPES *)
(** Its members: the base types of the requested types, and of the dependencies of members. *)
Inductive base_reach (base : str -> str) (deps : str -> list str) (req : list str) : str -> Prop :=
| br_req t : In t req -> base_reach base deps req (base t)
| br_dep b d : base_reach base deps req b -> In d (deps b) -> base_reach base deps req (base d).
Lemma recurse_base_spec cf n : forall t r, recurse_base n cf t = Some r -> forall b, In b r <-> base_reach (base_type cf) (deps_of cf) [t] b.
Proof.
  induction n as [|n IH]; intros t r H; [discriminate|]. cbn [recurse_base] in H.
  set (bt := base_type cf t) in *.
  match type of H with ?f (deps_of cf bt) [bt] = _ => assert (G : forall l ret r, f l ret = Some r -> forall b, In b r <-> In b ret \/ exists d, In d l /\ base_reach (base_type cf) (deps_of cf) [d] b) end.
  { clear H. induction l as [|d l IHl]; intros ret r' H b; [injection H as <-; split; auto; intros [X|(d & [] & _)]; auto|].
    destruct (recurse_base n cf d) as [rd|] eqn:E; [|discriminate]. rewrite (IHl _ _ H), in_app_iff, (IH _ _ E). split.
    - intros [[X|X]|(x & X1 & X2)]; auto; right; [exists d; split; auto; now left|exists x; split; auto; now right].
    - intros [X|(x & [<-|X1] & X2)]; auto. right. eauto. }
  intros b. rewrite (G _ _ _ H). split.
  - intros [[<-|[]]|(d & D & R)]; [apply br_req; now left|]. induction R as [x [<-|[]]|x y R IHR I].
    + eapply br_dep; [|exact D]. apply br_req. now left.
    + eapply br_dep; eauto.
  - intros R. induction R as [x [<-|[]]|x y R IHR I]; [left; now left|]. destruct IHR as [[<-|[]]|(d & D & R2)].
    + right. exists y. split; auto. apply br_req. now left.
    + right. exists d. split; auto. eapply br_dep; eauto.
Qed.
Theorem image_basetypes_exact cf n r : image_basetypes n cf (cf_fstypes cf) = Some r ->
  forall b, In b r <-> base_reach (base_type cf) (deps_of cf) (cf_fstypes cf) b.
Proof.
  revert r. generalize (cf_fstypes cf). induction l as [|t l IH]; intros r H b; cbn [image_basetypes] in H.
  - injection H as <-. split; [intros []|]. intros R. induction R as [x []|]; auto.
  - destruct (recurse_base n cf t) as [a|] eqn:E; [|discriminate]. destruct (image_basetypes n cf l) as [c|] eqn:E2; [|discriminate]. injection H as <-.
    rewrite in_app_iff, (recurse_base_spec _ _ _ _ E), (IH _ eq_refl). split.
    + intros [R|R]; induction R as [x I|]; [|eapply br_dep; eauto| |eapply br_dep; eauto]; apply br_req; [destruct I as [<-|[]]; now left|now right].
    + intros R. induction R as [x [<-|I]|x y R IHR I].
      * left. apply br_req. now left.
      * right. now apply br_req.
      * destruct IHR; [left|right]; eapply br_dep; eauto.
Qed.
(** Every member has a task. *)
Theorem image_basetypes_have_tasks cf n m r s b : image_basetypes n cf (cf_fstypes cf) = Some r -> collect_all m cf = Some s ->
  In b r -> exists ts, In (b, ts) (cl_base s).
Proof.
  intros H1 H2 I. apply (image_basetypes_exact _ _ _ H1) in I. destruct (collected_exactly _ _ _ H2) as [C _].
  assert (G : needed (base_type cf) (deps_of cf) (cf_fstypes cf) b /\ base_type cf b = b).
  { induction I as [x X|x y R IHR D]; (split; [|apply base_base]); apply n_base; [now apply n_req|]. eapply n_dep; [apply IHR|exact D]. }
  destruct (proj2 (C b b)) as (ts & T & _); [split; [symmetry|]; apply G|]. eauto.
Qed.
(** But a base type needed through a conversion's own dependency is not a member. *)
Theorem image_basetypes_complete_refuted : exists cf n m r s b ts, image_basetypes n cf (cf_fstypes cf) = Some r /\ collect_all m cf = Some s /\
  In (b, ts) (cl_base s) /\ ~ In b r.
Proof.
  exists {| cf_fstypes := [s_ "ext4.gz"]; cf_conversions := [s_ "gz"]; cf_typedep := [(s_ "ext4_gz", [s_ "wic"])] |}, 4, 4.
  eexists. eexists. exists (s_ "wic"), [s_ "wic"]. split; [vm_compute; reflexivity|]. split; [vm_compute; reflexivity|]. split; [vm_compute; auto|]. vm_compute. intuition discriminate.
Qed.

Print Assumptions collected_exactly.
Print Assumptions base_type_exact.
Print Assumptions dependency_tasks_first.
Print Assumptions collect_ends.
Print Assumptions collect_cycle_refuted.
Print Assumptions wanted_images_kept_partial.
Print Assumptions task_effect_exact.
Print Assumptions requested_image_removed_refuted.
Print Assumptions same_task_name_refuted.
Print Assumptions ambiguous_conversion_refuted.
Print Assumptions image_basetypes_exact.
Print Assumptions image_basetypes_have_tasks.
Print Assumptions image_basetypes_complete_refuted.

(** ** Further cases that meet the hypotheses *)
Example task_effect_met : unambiguous [s_ "gz"; s_ "xz"] /\ plain [s_ "gz"; s_ "xz"] (s_ "ext4") /\ Forall (derived [s_ "gz"; s_ "xz"] (s_ "ext4")) [s_ "ext4.gz.xz"; s_ "ext4.xz"] /\
  run_cmds (task_cmds (sorted_set [s_ "gz"; s_ "xz"]) [s_ "ext4.xz"] (s_ "ext4") [s_ "ext4.gz.xz"; s_ "ext4.xz"]) [s_ "old"] <> None.
Proof.
  split; [|split; [|split]].
  - intros c1 c2 t [<-|[<-|[]]] [<-|[<-|[]]] E; (apply (f_equal (@length ascii)) in E; rewrite app_length in E; cbn in E; lia).
  - intros t c [<-|[<-|[]]] E; (destruct t as [|? [|? t]]; try discriminate E; injection E as _ _ E; destruct t as [|? [|? [|? t]]]; discriminate E).
  - constructor; [|constructor; [|constructor]].
    + apply (d_conv _ _ (s_ "ext4.gz") (s_ "xz")); [|right; now left]. apply (d_conv _ _ (s_ "ext4") (s_ "gz")); [constructor|now left].
    + apply (d_conv _ _ (s_ "ext4") (s_ "xz")); [constructor|right; now left].
  - vm_compute. discriminate.
Qed.

