(** Patches of a recipe: which are applied (C67), and what the source tree holds afterwards (C68). *)
From Coq Require Import String Ascii List Bool Arith ZArith Lia.
From Verif Require Import Str_Model Str_Proofs Vercmp_Model Deps_Spec Changelog_Proofs Patch_Model Patch_Spec Patch_Proofs.
Import ListNotations.
Open Scope list_scope.

(** ** C67: the patches are exactly the sources that are patches and whose limits hold, in the order of SRC_URI *)
Theorem patches_selected : forall workdir fs urls es, src_patches workdir fs urls = Some es -> selected workdir fs urls es.
Proof.
  intros workdir fs. induction urls as [|u urls IH]; intros es H; cbn [src_patches] in H; [injection H as <-; constructor|].
  destruct (patch_path workdir u) as [| |f] eqn:P; [discriminate| |].
  - apply sel_skip; auto. intros [X _]. now apply patch_path_not in P.
  - destruct (patch_path_patch _ _ _ P) as [IP RF]. destruct (should_apply fs (s_parm u)) as [[]|] eqn:S; [| |discriminate].
    + destruct (src_patches workdir fs urls) as [l|]; [|discriminate]. apply some_inj in H. subst es. apply sel_take; auto; [now apply should_apply_iff|].
      unfold entry_for, has_parm, no_parm. cbn [e_file e_name e_strip e_dir]. split; [exact RF|].
      repeat apply conj.
      * intros [|c r] N V; [congruence|]. now rewrite V.
      * intros V. assert (X : nonempty_or (parm (s_ "pname") (s_parm u)) (basename f) = basename f) by (destruct V as [V|V]; now rewrite V). rewrite X. apply basename_spec.
      * intros v V. now rewrite V.
      * intros A v V. now rewrite A, V.
      * intros A B. now rewrite A, B.
      * intros [|c r] N V; [congruence|]. now rewrite V.
      * intros [V|V]; now rewrite V.
    + apply sel_skip; auto. intros [_ X]. apply should_apply_iff in X. congruence.
Qed.
(** There is always an answer, unless a parameter has no meaning *)
Theorem patches_defined : forall workdir fs urls,
  (forall u, In u urls ->
     (forall v, has_parm u "apply" v -> yes v \/ no v) /\
     (forall v, has_parm u "mindate" v \/ has_parm u "maxdate" v -> f_date fs <> None) /\
     (forall v, has_parm u "minver" v \/ has_parm u "maxver" v -> vercmp_string (f_pv fs) v <> None)) ->
  exists es, src_patches workdir fs urls = Some es.
Proof.
  intros workdir fs. induction urls as [|u urls IH]; intros H; [eexists; reflexivity|].
  destruct IH as (l & IH); [intros v V; apply H; now right|]. destruct (H u (or_introl eq_refl)) as (A & B & C). cbn [src_patches].
  destruct (patch_path workdir u) as [| |f] eqn:P.
  - exfalso. apply patch_path_raised in P. destruct P as (v & V & Y & N). destruct (A v V); auto.
  - rewrite IH. eauto.
  - assert (S : should_apply fs (s_parm u) <> None).
    { unfold has_parm in *. unfold should_apply.
      assert (AT : forall a b, a <> None -> b <> None -> and_then a b <> None) by (intros [[]|] b; cbn; congruence).
      assert (LM : forall k f, (forall v, parm (s_ k) (s_parm u) = Some v -> f v <> None) -> limit (s_ k) (s_parm u) f <> None) by (intros k g G; unfold limit; destruct (parm (s_ k) (s_parm u)); [auto|discriminate]).
      assert (WR : forall g, with_rev fs g <> None) by (intros g; unfold with_rev; destruct (f_rev fs) as [[|]|]; discriminate).
      assert (WD : f_date fs <> None -> forall g, with_date fs g <> None) by (intros X g; unfold with_date; destruct (f_date fs); [discriminate|congruence]).
      assert (OG : forall v, vercmp_string (f_pv fs) v <> None -> option_map negb (vercmp_string_op (f_pv fs) v (s_ ">")) <> None) by (intros v X; unfold vercmp_string_op; destruct (vercmp_string (f_pv fs) v); [cbn; discriminate|congruence]).
      assert (OL : forall v, vercmp_string (f_pv fs) v <> None -> option_map negb (vercmp_string_op (f_pv fs) v (s_ "<")) <> None) by (intros v X; unfold vercmp_string_op; destruct (vercmp_string (f_pv fs) v); [cbn; discriminate|congruence]).
      repeat apply AT; apply LM; intros v V; first [apply WR | apply WD; apply (B v); auto | apply OG; apply C; auto | apply OL; apply C; auto]. }
    destruct (should_apply fs (s_parm u)) as [[]|]; [rewrite IH; eauto|rewrite IH; eauto|congruence].
Qed.
(** "rev" asks for text within the revision, not for the revision: a patch meant for revision 1 is also applied to revision 10. *)
Theorem patch_rev_exact_refuted : exists fs u, has_parm u "rev" (s_ "1") /\ f_rev fs = Some (s_ "10") /\ is_patch u /\ in_limits fs u.
Proof.
  exists {| f_date := None; f_rev := Some (s_ "10"); f_pv := s_ "1.0" |}, {| s_local := s_ "/d/a.patch"; s_isdir := false; s_parm := [(s_ "rev", s_ "1")] |}.
  split; [reflexivity|]. split; [reflexivity|]. split.
  - eapply (patch_path_patch (s_ "/w")). reflexivity.
  - apply should_apply_iff. reflexivity.
Qed.

(** ** C68 *)
Definition all_apply {tree content} (papply : str -> content -> tree -> option tree) (base : str -> tree) (resolve : str -> str) (l : list (str * pfile content)) : Prop :=
  forall ds, exists t, apply_all tree content papply (of_dir content ds l) (base (resolve ds)) = Some t.
(** What a run of the task does, in terms of the trees before any patch ([base]), before the run and after it *)
Definition run_is_exact {tree content} (papply : str -> content -> tree -> option tree) (base : str -> tree) (resolve : str -> str)
    (l : list (str * pfile content)) (before after : str -> tree) (ok : bool) : Prop :=
  (ok = true <-> all_apply papply base resolve l) /\
  (ok = true -> forall ds, In ds (map fst l) -> apply_all tree content papply (of_dir content ds l) (base (resolve ds)) = Some (after (resolve ds))) /\
  (ok = false -> exists a ds p b, l = a ++ (ds, p) :: b /\ all_apply papply base resolve a /\ ~ all_apply papply base resolve (a ++ [(ds, p)]) /\
     forall ds', In ds' (map fst (a ++ [(ds, p)])) -> apply_all tree content papply (of_dir content ds' a) (base (resolve ds')) = Some (after (resolve ds'))) /\
  (forall D, (forall ds, In ds (map fst l) -> resolve ds <> D) -> after D = before D).

Section Exact.
Variables tree content : Type.
Variable papply : str -> content -> tree -> option tree.
Variable base : str -> tree.
Variable resolve : str -> str.
Lemma all_apply_prefix a b : all_apply papply base resolve (a ++ b) -> all_apply papply base resolve a.
Proof. intros H ds. destruct (H ds) as (t & E). rewrite of_dir_app, apply_all_app in E. destruct (apply_all _ _ _ (of_dir content ds a) _) as [x|]; [eauto|discriminate]. Qed.
Lemma prefix_of_first : forall (l : list (str * pfile content)), all_apply papply base resolve l \/
  exists a ds p b, l = a ++ (ds, p) :: b /\ all_apply papply base resolve a /\ apply_all tree content papply (of_dir content ds a ++ [p]) (base (resolve ds)) = None.
Proof.
  induction l as [|[ds p] l IH] using rev_ind; [left; intros ds; eexists; reflexivity|]. destruct IH as [A|(a & ds' & p' & b & -> & A & N)].
  - destruct (apply_all tree content papply (of_dir content ds l ++ [p]) (base (resolve ds))) as [t|] eqn:E.
    + left. intros ds'. rewrite of_dir_app, of_dir_one. destruct (seqb ds ds') eqn:Q; [apply seqb_eq in Q; subst; eauto|]. rewrite app_nil_r. apply A.
    + right. exists l, ds, p, []. auto.
  - right. exists a, ds', p', (b ++ [(ds, p)]). rewrite <- app_assoc. auto.
Qed.
End Exact.

(** A directory no patch has been applied to *)
Definition pt_fresh {tree content} (base : str -> tree) (w : str -> ptdisk tree content) : Prop :=
  forall D, pt_tree _ _ (w D) = base D /\ pt_series _ _ (w D) = [].
Definition q_fresh {tree content} (base : str -> tree) (w : str -> qdisk tree content) : Prop :=
  forall D, q_tree _ _ (w D) = base D /\ q_series _ _ (w D) = [] /\ q_applied _ _ (w D) = [].

Section PTRun.
Variables tree content : Type.
Variable papply : str -> content -> tree -> option tree.
Variable prevert : str -> option content -> tree -> option tree.
Hypothesis undo : forall s c t t', papply s c t = Some t' -> prevert s (Some c) t' = Some t.
Variable base : str -> tree.
Variable resolve : str -> str.
Notation run := (do_patch content (ptdisk tree content) (ptmem content) (pt_mem0 content) (pt_clean tree content prevert) (pt_step tree content papply) resolve []).
Lemma hit_dec (l : list (str * pfile content)) D : (exists ds, In ds (map fst l) /\ resolve ds = D) \/ (forall ds, In ds (map fst l) -> resolve ds <> D).
Proof.
  induction (map fst l) as [|x r IH]; [right; intros ds []|]. destruct (str_eq_dec (resolve x) D) as [E|E]; [left; exists x; split; [now left|exact E]|].
  destruct IH as [(ds & I & R)|N]; [left; exists ds; split; [now right|exact R]|]. right. intros ds [<-|I]; auto.
Qed.
Lemma pt_run w l : (forall D, pt_good tree content papply base D (w D)) -> orderly content resolve l -> readable content l ->
  (forall D, pt_good tree content papply base D (snd (run w l) D)) /\
  run_is_exact papply base resolve l (fun D => pt_tree _ _ (w D)) (fun D => pt_tree _ _ (snd (run w l) D)) (fst (run w l)).
Proof.
  intros G O R.
  assert (INV0 : inv content (ptdisk tree content) (ptmem content) resolve (pt_mid tree content papply base resolve) w [] [] w) by (split; [intros ds []|split; auto]).
  destruct (generic_run tree content papply (ptdisk tree content) (ptmem content) (pt_mem0 content) (pt_clean tree content prevert) (pt_step tree content papply) resolve base
      (pt_fine content) (pt_good tree content papply base) (pt_mid tree content papply base resolve) (fun ds ps d => pt_holds tree content papply base (resolve ds) ps d)
      (pt_clean_ok tree content papply prevert undo base resolve) (pt_step_ok tree content papply base resolve)
      w l) with (l0 := @nil (str * pfile content)) (l1 := l) (classes := @nil (str * ptmem content)) (w := w) as [(w' & E & cl & I1 & I2 & I3)|(w' & a & ds & p & b & E & L & N & LF & MID & REST)]; auto.
  - rewrite E. cbn [fst snd]. split.
    + intros D. destruct (hit_dec l D) as [(ds & I & <-)|H]; [|rewrite (I3 D H); apply G]. destruct (I1 ds I) as (m & _ & (M & _)). eexists. exact M.
    + split; [|split; [|split]].
      * split; [intros _|reflexivity]. intros ds. destruct (in_dec str_eq_dec ds (map fst l)) as [I|I].
        -- destruct (I1 ds I) as (m & _ & ((_ & A & _) & _)). eauto.
        -- rewrite of_dir_none by exact I. eexists. reflexivity.
      * intros _ ds I. destruct (I1 ds I) as (m & _ & ((_ & A & _) & _)). exact A.
      * discriminate.
      * intros D H. now rewrite (I3 D H).
  - rewrite E. cbn [fst snd].
    assert (SUB : forall x, In x (map fst (a ++ [(ds, p)])) -> In x (map fst l)) by (intros x X; rewrite L, map_app; rewrite map_app in X; apply in_app_or in X; apply in_or_app; destruct X as [X|[X|[]]]; [now left|right; now left]).
    assert (TR : forall ds', In ds' (map fst (a ++ [(ds, p)])) -> pt_holds tree content papply base (resolve ds') (of_dir content ds' a) (w' (resolve ds'))).
    { intros ds' X. destruct (str_eq_dec ds' ds) as [->|Q]; [exact LF|]. rewrite map_app in X. apply in_app_or in X. destruct X as [X|[X|[]]]; [|cbn in X; congruence]. destruct (MID ds' X Q) as (m & M & _). exact M. }
    assert (AA : all_apply papply base resolve a).
    { intros ds'. destruct (in_dec str_eq_dec ds' (map fst a)) as [I|I]; [|rewrite of_dir_none by exact I; eexists; reflexivity].
      destruct (TR ds') as (_ & A & _); [rewrite map_app; apply in_or_app; now left|]. eauto. }
    assert (NA : ~ all_apply papply base resolve (a ++ [(ds, p)])).
    { intros X. destruct (X ds) as (t & T). rewrite of_dir_app, of_dir_one, (proj2 (seqb_eq ds ds) eq_refl) in T. congruence. }
    split.
    + intros D. destruct (hit_dec (a ++ [(ds, p)]) D) as [(ds' & I & <-)|H]; [|rewrite (REST D H); apply G]. eexists. now apply TR.
    + split; [|split; [|split]].
      * split; [discriminate|]. intros X. exfalso. apply NA. apply (all_apply_prefix tree content papply base resolve (a ++ [(ds, p)]) b). rewrite <- app_assoc. cbn [app]. now rewrite <- L.
      * discriminate.
      * intros _. exists a, ds, p, b. split; [exact L|]. split; [exact AA|]. split; [exact NA|]. intros ds' I. apply (TR ds' I).
      * intros D H. rewrite (REST D); auto.
Qed.
Lemma pt_runs h : forall w, (forall D, pt_good tree content papply base D (w D)) -> Forall (fun l => orderly content resolve l /\ readable content l) h ->
  forall D, pt_good tree content papply base D (runs content (ptdisk tree content) (ptmem content) (pt_mem0 content) (pt_clean tree content prevert) (pt_step tree content papply) resolve w h D).
Proof. induction h as [|l h IH]; intros w G F; [exact G|]. inversion F as [|? ? [O R] F']; subst. cbn [runs]. apply IH; auto. apply (pt_run w l G O R). Qed.
End PTRun.

(** With PATCHTOOL "patch": whatever was applied by earlier runs, successful or not, a run leaves in each directory
    exactly the patches of this run, applied in order to the files as they were before any patch; it succeeds if and
    only if all of them apply, and stops at the first that does not. *)
Theorem patch_runs_exact : forall tree content (papply : str -> content -> tree -> option tree) (prevert : str -> option content -> tree -> option tree),
  (forall s c t t', papply s c t = Some t' -> prevert s (Some c) t' = Some t) ->
  forall base resolve w0 h l, pt_fresh base w0 ->
  Forall (fun l => orderly content resolve l /\ readable content l) h -> orderly content resolve l -> readable content l ->
  let step := do_patch content (ptdisk tree content) (ptmem content) (pt_mem0 content) (pt_clean tree content prevert) (pt_step tree content papply) resolve [] in
  let w := runs content (ptdisk tree content) (ptmem content) (pt_mem0 content) (pt_clean tree content prevert) (pt_step tree content papply) resolve w0 h in
  run_is_exact papply base resolve l (fun D => pt_tree _ _ (w D)) (fun D => pt_tree _ _ (snd (step w l) D)) (fst (step w l)).
Proof.
  intros tree content papply prevert undo base resolve w0 h l FR FH O R. cbv zeta. apply pt_run; auto. apply pt_runs; auto.
  intros D. destruct (FR D) as [T S]. exists []. split; [exact S|]. split; [cbn; now rewrite T|]. split; [constructor|]. split; [constructor|]. intros p [].
Qed.
(** The whole task: the patches that SRC_URI selects, each in the directory it belongs to, in the order of SRC_URI. *)
Theorem patch_task_exact : forall tree content (papply : str -> content -> tree -> option tree) (prevert : str -> option content -> tree -> option tree),
  (forall s c t t', papply s c t = Some t' -> prevert s (Some c) t' = Some t) ->
  forall base resolve w0 workdir fs urls es s read, pt_fresh base w0 -> src_patches workdir fs urls = Some es ->
  exists l, selected workdir fs urls es /\ Forall2 (handed_over s read) es l /\ l = task_list s read es /\
  (orderly content resolve l -> readable content l ->
   let step := do_patch content (ptdisk tree content) (ptmem content) (pt_mem0 content) (pt_clean tree content prevert) (pt_step tree content papply) resolve [] in
   run_is_exact papply base resolve l (fun D => pt_tree _ _ (w0 D)) (fun D => pt_tree _ _ (snd (step w0 l) D)) (fst (step w0 l))).
Proof.
  intros tree content papply prevert undo base resolve w0 workdir fs urls es s read FR H. exists (task_list s read es). split; [now apply patches_selected|]. split; [|split; [reflexivity|]].
  - clear. induction es as [|e es IH]; cbn [task_list map]; constructor; auto. unfold handed_over. cbn [fst snd pf_name pf_strip pf_text]. split; [|split; [apply basename_spec|auto]].
    unfold belongs_to, entry_dir. destruct (e_dir e) as [pd|]; auto. destruct (startswith (s_ "/") pd) eqn:S.
    + apply startswith_iff in S. destruct S as [r ->]. right. left. exists r. auto.
    + right. right. exists pd. split; auto. split; auto. intros r ->. discriminate.
  - intros O R. apply (patch_runs_exact tree content papply prevert undo base resolve w0 []); auto.
Qed.
Example patch_task_case : map fst (task_list (s_ "/w/s") (fun f => f) [Build_entry (s_ "/d/a.patch") (s_ "a.patch") (s_ "1") None; Build_entry (s_ "/d/b.patch") (s_ "b.patch") (s_ "1") (Some (s_ "sub")); Build_entry (s_ "/d/b.patch") (s_ "b.patch") (s_ "1") (Some (s_ "/w/x"))])
  = [s_ "/w/s"; s_ "/w/s/sub"; s_ "/w/x"].
Proof. reflexivity. Qed.

Section QRun.
Variables tree content : Type.
Variable papply : str -> content -> tree -> option tree.
Variable base : str -> tree.
Variable resolve : str -> str.
Notation run := (do_patch content (qdisk tree content) unit tt (q_clean tree content) (q_step tree content papply) resolve []).
(** The first patch of each directory applies *)
Definition firsts_apply (l : list (str * pfile content)) : Prop :=
  forall ds p r, of_dir content ds l = p :: r -> papply (pf_strip _ p) (pf_text _ p) (base (resolve ds)) <> None.
Lemma q_run w l : (forall D, q_good tree content base D (w D)) -> orderly content resolve l ->
  (firsts_apply l -> forall D, q_good tree content base D (snd (run w l) D)) /\
  run_is_exact papply base resolve l (fun D => q_tree _ _ (w D)) (fun D => q_tree _ _ (snd (run w l) D)) (fst (run w l)).
Proof.
  intros G O.
  assert (INV0 : inv content (qdisk tree content) unit resolve (q_mid tree content papply base resolve) w [] [] w) by (split; [intros ds []|split; auto]).
  destruct (generic_run tree content papply (qdisk tree content) unit tt (q_clean tree content) (q_step tree content papply) resolve base
      (q_fine content) (q_good tree content base) (q_mid tree content papply base resolve) (q_left tree content papply base resolve)
      (q_clean_ok tree content papply base resolve) (q_step_ok tree content papply base resolve)
      w l) with (l0 := @nil (str * pfile content)) (l1 := l) (classes := @nil (str * unit)) (w := w) as [(w' & E & cl & I1 & I2 & I3)|(w' & a & ds & p & b & E & L & N & LF & MID & REST)]; auto.
  { intros. exact I. }
  - rewrite E. cbn [fst snd]. split.
    + intros _ D. destruct (hit_dec content resolve l D) as [(ds & I & <-)|H]; [|rewrite (I3 D H); apply G]. destruct (I1 ds I) as (m & _ & M). exact (q_mid_good _ _ _ _ _ _ _ _ M).
    + split; [|split; [|split]].
      * split; [intros _|reflexivity]. intros ds. destruct (in_dec str_eq_dec ds (map fst l)) as [I|I].
        -- destruct (I1 ds I) as (m & _ & ((_ & _ & A) & _)). eauto.
        -- rewrite of_dir_none by exact I. eexists. reflexivity.
      * intros _ ds I. destruct (I1 ds I) as (m & _ & ((_ & _ & A) & _)). exact A.
      * discriminate.
      * intros D H. now rewrite (I3 D H).
  - rewrite E. cbn [fst snd].
    assert (SUB : forall x, In x (map fst (a ++ [(ds, p)])) -> In x (map fst l)) by (intros x X; rewrite L, map_app; rewrite map_app in X; apply in_app_or in X; apply in_or_app; destruct X as [X|[X|[]]]; [now left|right; now left]).
    assert (TR : forall ds', In ds' (map fst (a ++ [(ds, p)])) -> q_holds tree content papply base (resolve ds') (of_dir content ds' a) (w' (resolve ds'))).
    { intros ds' X. destruct (str_eq_dec ds' ds) as [->|Q]; [exact LF|]. rewrite map_app in X. apply in_app_or in X. destruct X as [X|[X|[]]]; [|cbn in X; congruence]. destruct (MID ds' X Q) as (m & M & _). exact M. }
    assert (AA : all_apply papply base resolve a).
    { intros ds'. destruct (in_dec str_eq_dec ds' (map fst a)) as [I|I]; [|rewrite of_dir_none by exact I; eexists; reflexivity].
      destruct (TR ds') as (_ & _ & A); [rewrite map_app; apply in_or_app; now left|]. eauto. }
    assert (NA : ~ all_apply papply base resolve (a ++ [(ds, p)])).
    { intros X. destruct (X ds) as (t & T). rewrite of_dir_app, of_dir_one, (proj2 (seqb_eq ds ds) eq_refl) in T. congruence. }
    split.
    + intros FA D. destruct (hit_dec content resolve (a ++ [(ds, p)]) D) as [(ds' & I & <-)|H]; [|rewrite (REST D H); apply G].
      destruct (str_eq_dec ds' ds) as [->|Q].
      * apply (q_holds_good tree content papply base _ (of_dir content ds a)); [|apply TR, I]. intros Z. rewrite Z in N. cbn in N.
        apply (FA ds p (of_dir content ds b)); [rewrite L, of_dir_app, Z; unfold of_dir; cbn [filter fst]; now rewrite (proj2 (seqb_eq ds ds) eq_refl)|]. destruct (papply _ _ _); [discriminate|reflexivity].
      * rewrite map_app in I. apply in_app_or in I. destruct I as [I|[I|[]]]; [|cbn in I; congruence]. destruct (MID ds' I Q) as (m & M). exact (q_mid_good _ _ _ _ _ _ _ _ M).
    + split; [|split; [|split]].
      * split; [discriminate|]. intros X. exfalso. apply NA. apply (all_apply_prefix tree content papply base resolve (a ++ [(ds, p)]) b). rewrite <- app_assoc. cbn [app]. now rewrite <- L.
      * discriminate.
      * intros _. exists a, ds, p, b. split; [exact L|]. split; [exact AA|]. split; [exact NA|]. intros ds' I. apply (TR ds' I).
      * intros D H. rewrite (REST D); auto.
Qed.
End QRun.
(** With quilt: the same, if in each earlier run the first patch of each directory applied (see quilt_first_failure_refuted). *)
Theorem quilt_runs_exact_partial : forall tree content (papply : str -> content -> tree -> option tree),
  forall base resolve w0 h l, q_fresh base w0 ->
  Forall (fun l => orderly content resolve l /\ firsts_apply tree content papply base resolve l) h -> orderly content resolve l ->
  let step := do_patch content (qdisk tree content) unit tt (q_clean tree content) (q_step tree content papply) resolve [] in
  let w := runs content (qdisk tree content) unit tt (q_clean tree content) (q_step tree content papply) resolve w0 h in
  run_is_exact papply base resolve l (fun D => q_tree _ _ (w D)) (fun D => q_tree _ _ (snd (step w l) D)) (fst (step w l)).
Proof.
  intros tree content papply base resolve w0 h l FR FH O. cbv zeta. apply q_run; auto. revert w0 FR FH.
  assert (X : forall h w, (forall D, q_good tree content base D (w D)) -> Forall (fun l => orderly content resolve l /\ firsts_apply tree content papply base resolve l) h ->
     forall D, q_good tree content base D (runs content (qdisk tree content) unit tt (q_clean tree content) (q_step tree content papply) resolve w h D)).
  { clear. induction h as [|l h IH]; intros w G F; [exact G|]. inversion F as [|? ? [O R] F']; subst. cbn [runs]. apply IH; auto. apply (q_run tree content papply base resolve w l G O). exact R. }
  intros w0 FR FH. apply X; auto. intros D. destruct (FR D) as (T & S & A). split; [|auto]. unfold q_base. now rewrite A.
Qed.

(** ** Where the property fails *)
(** A toy tree: the stack of patches applied; patch 0 never applies *)
Definition toy_apply (s : str) (c : nat) (t : list nat) : option (list nat) := match c with 0 => None | _ => Some (c :: t) end.
Definition toy_revert (s : str) (c : option nat) (t : list nat) : option (list nat) :=
  match c, t with Some c, x :: t => if c =? x then Some t else None | _, _ => None end.
Lemma toy_undo : forall s c t t', toy_apply s c t = Some t' -> toy_revert s (Some c) t' = Some t.
Proof. intros s [|c] t t' H; cbn in H; [discriminate|]. injection H as <-. cbn. now rewrite Nat.eqb_refl. Qed.
Definition toy_patch (n : string) (c : nat) : pfile nat := {| pf_name := s_ n; pf_strip := s_ "1"; pf_text := c |}.
Definition toy_world : str -> ptdisk (list nat) nat := fun _ => {| pt_tree := []; pt_series := []; pt_store := fun _ => None |}.
Definition toy_qworld : str -> qdisk (list nat) nat := fun _ => {| q_tree := []; q_series := []; q_applied := []; q_links := fun _ => None |}.
Notation toy_run r := (do_patch nat (ptdisk (list nat) nat) (ptmem nat) (pt_mem0 nat) (pt_clean (list nat) nat toy_revert) (pt_step (list nat) nat toy_apply) r []).
Notation toy_qrun r := (do_patch nat (qdisk (list nat) nat) unit tt (q_clean (list nat) nat) (q_step (list nat) nat toy_apply) r []).
(** Two patches of the same base name (from different directories): both are applied, but the second overwrites the
    copy of the first under patches/, and from then on the task fails, because the first cannot be taken back. *)
Theorem patch_same_name_refuted : exists l : list (str * pfile nat),
  all_apply toy_apply (fun _ => []) (fun x => x) l /\ readable nat l /\
  fst (toy_run (fun x => x) toy_world l) = true /\ fst (toy_run (fun x => x) (snd (toy_run (fun x => x) toy_world l)) l) = false.
Proof.
  exists [(s_ "s", toy_patch "fix.patch" 1); (s_ "s", toy_patch "fix.patch" 2)]. split; [|split; [|split; reflexivity]].
  - intros ds. unfold of_dir. cbn [filter fst map]. destruct (seqb (s_ "s") ds); eexists; reflexivity.
  - intros ds p [X|[X|[]]]; injection X as <- <-; (split; [cbn; intuition discriminate|]); split; (split; [discriminate|split; [cbn; intuition discriminate|split]]);
    try (intros c r X; injection X as <- _; reflexivity); intros r c X; apply (f_equal (fun l => last l "a"%char)) in X; rewrite last_last in X; cbn in X; now subst c.
Qed.
(** Two names of one directory ("s" and "s/."): the second name starts a new patch set, which first takes back
    what was applied under the first name; the task succeeds and the first patch is missing. *)
Theorem patch_two_names_refuted : exists resolve (l : list (str * pfile nat)),
  fst (toy_run resolve toy_world l) = true /\ map (fun x => pf_text _ (snd x)) l = [1; 2] /\ (forall x, In x l -> resolve (fst x) = s_ "s") /\
  pt_tree _ _ (snd (toy_run resolve toy_world l) (s_ "s")) = [2] /\
  fst (toy_qrun resolve toy_qworld l) = true /\ q_tree _ _ (snd (toy_qrun resolve toy_qworld l) (s_ "s")) = [2].
Proof.
  exists (fun _ => s_ "s"), [(s_ "s", toy_patch "a.patch" 1); (s_ "s/.", toy_patch "b.patch" 2)].
  split; [reflexivity|]. split; [reflexivity|]. split; [reflexivity|]. split; [reflexivity|]. split; reflexivity.
Qed.
(** A directory that no longer has a patch in SRC_URI keeps the patches of earlier runs. *)
Theorem patch_stale_directory_refuted : exists l l' : list (str * pfile nat),
  fst (toy_run (fun x => x) toy_world l) = true /\ fst (toy_run (fun x => x) (snd (toy_run (fun x => x) toy_world l)) l') = true /\
  ~ In (s_ "a") (map fst l') /\ pt_tree _ _ (snd (toy_run (fun x => x) (snd (toy_run (fun x => x) toy_world l)) l') (s_ "a")) <> [].
Proof.
  exists [(s_ "a", toy_patch "a.patch" 1); (s_ "b", toy_patch "b.patch" 2)], [(s_ "b", toy_patch "b.patch" 2)].
  split; [reflexivity|]. split; [reflexivity|]. split; [cbn; intuition discriminate|]. vm_compute. discriminate.
Qed.
(** With quilt, after a run whose first patch did not apply, taking back does nothing (quilt pop reports that nothing
    is applied, and the exception is dropped before the series file is removed): the bad patch is tried again by every
    later run, although it is no longer in SRC_URI. *)
Theorem quilt_first_failure_refuted : exists l l' : list (str * pfile nat),
  fst (toy_qrun (fun x => x) toy_qworld l) = false /\ all_apply toy_apply (fun _ => []) (fun x => x) l' /\ orderly nat (fun x => x) l' /\
  fst (toy_qrun (fun x => x) toy_qworld l') = true /\
  fst (toy_qrun (fun x => x) (snd (toy_qrun (fun x => x) toy_qworld l)) l') = false.
Proof.
  exists [(s_ "s", toy_patch "bad.patch" 0)], [(s_ "s", toy_patch "good.patch" 1)]. split; [reflexivity|]. split; [|split; [|split; reflexivity]].
  - intros ds. unfold of_dir. cbn [filter fst map]. destruct (seqb (s_ "s") ds); eexists; reflexivity.
  - split; [|intros ds ds' _ _ E; exact E]. intros ds. unfold of_dir. cbn [filter fst map]. destruct (seqb (s_ "s") ds); repeat constructor. intros [].
Qed.

(** ** Concrete cases *)
Example patches_example :
  src_patches (s_ "/w") {| f_date := None; f_rev := None; f_pv := s_ "1.2" |}
    [ {| s_local := s_ "/d/app.tar.gz"; s_isdir := false; s_parm := [] |};
      {| s_local := s_ "/d/0001-fix.patch"; s_isdir := false; s_parm := [] |};
      {| s_local := s_ "/d/old.patch"; s_isdir := false; s_parm := [(s_ "maxver", s_ "1.1")] |};
      {| s_local := s_ "/d/more.diff.xz"; s_isdir := false; s_parm := [(s_ "striplevel", s_ "2"); (s_ "patchdir", s_ "sub")] |};
      {| s_local := s_ "/d/no.patch"; s_isdir := false; s_parm := [(s_ "apply", s_ "No")] |} ] =
  Some [ {| e_file := s_ "/d/0001-fix.patch"; e_name := s_ "0001-fix.patch"; e_strip := s_ "1"; e_dir := None |};
         {| e_file := s_ "/w/more.diff"; e_name := s_ "more.diff"; e_strip := s_ "2"; e_dir := Some (s_ "sub") |} ].
Proof. reflexivity. Qed.
Example patch_runs_example :
  let l1 := [(s_ "s", toy_patch "a.patch" 1); (s_ "s", toy_patch "b.patch" 0)] in
  let l2 := [(s_ "s", toy_patch "a.patch" 1); (s_ "s", toy_patch "b.patch" 2)] in
  let w1 := snd (toy_run (fun x => x) toy_world l1) in let w2 := snd (toy_run (fun x => x) w1 l2) in
  pt_fresh (fun _ => []) toy_world /\ orderly nat (fun x => x) l2 /\
  fst (toy_run (fun x => x) toy_world l1) = false /\ fst (toy_run (fun x => x) w1 l2) = true /\ pt_tree _ _ (w2 (s_ "s")) = [2; 1].
Proof.
  cbv zeta. split; [intros D; split; reflexivity|]. split; [|split; [|split]; reflexivity].
  split; [|intros ds ds' _ _ E; exact E]. intros ds. unfold of_dir. cbn [filter fst map]. destruct (seqb (s_ "s") ds); cbn [filter fst map snd]; [|constructor].
  constructor; [|constructor; [intros []|constructor]]. intros [X|[]]. discriminate.
Qed.

Print Assumptions patch_task_exact.
Print Assumptions patches_selected.
Print Assumptions patches_defined.
Print Assumptions patch_rev_exact_refuted.
Print Assumptions patch_runs_exact.
Print Assumptions quilt_runs_exact_partial.
Print Assumptions patch_same_name_refuted.
Print Assumptions patch_two_names_refuted.
Print Assumptions patch_stale_directory_refuted.
Print Assumptions quilt_first_failure_refuted.

(** ** Further cases that meet the hypotheses *)
Example patches_defined_met : exists es, src_patches (s_ "/w") {| f_date := None; f_rev := None; f_pv := s_ "1.2" |}
  [{| s_local := s_ "/d/a.patch"; s_isdir := false; s_parm := [(s_ "apply", s_ "Yes"); (s_ "minver", s_ "1.1")] |}] = Some es.
Proof.
  apply patches_defined. intros u [<-|[]]. split; [|split].
  - intros v E. vm_compute in E. injection E as <-. left. vm_compute. tauto.
  - intros v [E|E]; vm_compute in E; discriminate E.
  - intros v [E|E]; [|vm_compute in E; discriminate E]. vm_compute in E. injection E as <-. vm_compute. discriminate.
Qed.
Example quilt_runs_met : let l := [(s_ "s", toy_patch "a.patch" 1); (s_ "s", toy_patch "b.patch" 0)] in
  q_fresh (fun _ => []) toy_qworld /\ orderly nat (fun x => x) l /\ firsts_apply (list nat) nat toy_apply (fun _ => []) (fun x => x) l.
Proof.
  split; [|split; [split|]].
  - intros D. auto.
  - intros ds. unfold of_dir. cbn [filter fst map]. destruct (seqb (s_ "s") ds); cbn [map snd]; [constructor; [intros [E|[]]; discriminate E|constructor; [intros []|constructor]]|constructor].
  - intros ds ds' _ _ E. exact E.
  - intros ds p r E. unfold of_dir in E. cbn [filter fst map] in E. destruct (seqb (s_ "s") ds); cbn [map snd] in E; [|discriminate E]. injection E as <- _. discriminate.
Qed.

