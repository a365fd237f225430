(** Archives of shared state: the claims. *)
From Coq Require Import Ascii String List Bool Arith Lia.
From Verif Require Import Str_Model Str_Proofs Ssttrip_Model Ssttrip_Spec Ssttrip_Proofs.
Import ListNotations.
Open Scope list_scope.

(** ** C136: directories *)
Lemma package_spec : forall build dirs t, dirs <> [] -> well_placed build dirs -> (forall d, In d dirs -> shown (fst d) /\ present (snd d) t) ->
  exists a t1, sstate_package build dirs t = Some (a, t1) /\ (forall d, In d dirs -> sub [fst d] a = sub (snd d) t /\ sub (build ++ [fst d]) t1 = sub (snd d) t) /\
  forall c, apart c build -> (forall d, In d dirs -> apart (snd d) c) -> sub c t1 = sub c t.
Proof.
  intros build dirs t N W H. destruct (start_spec build t) as [S1 S2].
  assert (AB : forall d, In d dirs -> sub (snd d) (remove build t ++ [(build, NDir)]) = sub (snd d) t) by (intros d I; apply S2, apart_sym, (proj1 (proj2 W) d I)).
  destruct (pack_spec build dirs (remove build t ++ [(build, NDir)]) W) as (t1 & E & P & _ & R).
  - intros d I. rewrite (has_sub _ _ _ _ (AB d I)). apply has_iff, H, I.
  - intros d I. apply S1.
  - unfold sstate_package. rewrite E. assert (Q : forall d, In d dirs -> sub (build ++ [fst d]) t1 = sub (snd d) t) by (intros d I; rewrite (P d I); apply AB, I).
    destruct dirs as [|d0 dirs]; [congruence|]. destruct (archive_spec build t1 (fst d0)) as (a & EA & PA); [apply (H d0); left; reflexivity|rewrite (has_sub _ _ _ _ (Q d0 (or_introl eq_refl))); apply has_iff, H; left; reflexivity|].
    rewrite EA. exists a, t1. split; [reflexivity|]. split.
    + intros d I. split; [rewrite PA by (apply H, I); apply Q, I|apply Q, I].
    + intros c AC D. rewrite R by assumption. apply S2, apart_sym, AC.
Qed.
(** Whatever the directories of a task hold, the archive made of them restores exactly
    that in any other build, wherever its directories are, and changes no other
    directory there. *)
Theorem trip_exact : forall build dirs t, dirs <> [] -> well_placed build dirs -> (forall d, In d dirs -> shown (fst d) /\ present (snd d) t) ->
  exists a t1, sstate_package build dirs t = Some (a, t1) /\
  forall inst dirs' t', well_placed inst dirs' -> map fst dirs' = map fst dirs ->
  exists t2, installpkg inst a dirs' t' = Some t2 /\ (forall n src src', In (n, src) dirs -> In (n, src') dirs' -> same_below src t src' t2) /\
  forall c, apart c inst -> (forall d, In d dirs' -> apart (snd d) c) -> same_below c t' c t2.
Proof.
  intros build dirs t N W H. destruct (package_spec build dirs t N W H) as (a & t1 & E & P & _). exists a, t1. split; [exact E|].
  intros inst dirs' t' W' F. destruct (unpack_spec inst a t') as [U1 U2].
  assert (PD : forall d, In d dirs' -> exists src, In (fst d, src) dirs).
  { intros d I. assert (J : In (fst d) (map fst dirs)) by (rewrite <- F; apply in_map, I). apply in_map_iff in J. destruct J as ([n src] & EN & J). cbn in EN. subst n. exists src. exact J. }
  unfold installpkg. destruct (install_spec inst dirs' (remove inst t' ++ (inst, NDir) :: map (fun e => (inst ++ fst e, snd e)) a) W') as (t2 & E2 & P2 & R2).
  - intros d I. destruct (PD d I) as [src J]. rewrite (has_sub (inst ++ [fst d]) _ src t); [apply has_iff; apply (H _ J)|]. rewrite U1. apply (P _ J).
  - exists t2. split; [exact E2|]. split.
    + intros n src src' I I'. apply sub_same. symmetry. etransitivity; [exact (P2 _ I')|]. cbn [fst]. rewrite U1. apply (P _ I).
    + intros c AC D. apply sub_same. symmetry. rewrite (R2 c AC D). apply U2, apart_sym, AC.
Qed.
(** The task that makes the archive keeps its directories. *)
Theorem trip_own : forall build dirs t, dirs <> [] -> well_placed build dirs -> (forall d, In d dirs -> shown (fst d) /\ present (snd d) t) ->
  exists t', postfunc build dirs t = Some t' /\ (forall d, In d dirs -> same_below (snd d) t (snd d) t') /\
  (forall c, apart c build -> (forall d, In d dirs -> apart (snd d) c) -> same_below c t c t') /\ forall r n, ~ In (build ++ r, n) t'.
Proof.
  intros build dirs t N W H. destruct (package_spec build dirs t N W H) as (a & t1 & E & P & R). unfold postfunc. rewrite E.
  destruct (install_spec build dirs t1 W) as (t2 & E2 & P2 & R2); [intros d I; rewrite (has_sub _ _ _ _ (proj2 (P d I))); apply has_iff, H, I|]. rewrite E2. exists (remove build t2). split; [reflexivity|]. split; [|split].
  - intros d I. apply sub_same. symmetry. rewrite sub_remove_other by (apply apart_sym, (proj1 (proj2 W) d I)). rewrite (P2 d I). apply (P d I).
  - intros c AC D. apply sub_same. symmetry. rewrite sub_remove_other by (apply apart_sym, AC). rewrite (R2 c AC D). apply R; assumption.
  - intros r n I. apply sub_In in I. rewrite sub_remove_same in I. destruct I.
Qed.
Definition wd (l : list string) : path := map s_ l.
(** A directory that does not exist is passed over when the archive is made, but not when
    it is restored, nor by the task itself. *)
Theorem trip_missing_refuted : exists build dirs t a t1, well_placed build dirs /\ sstate_package build dirs t = Some (a, t1) /\ postfunc build dirs t = None /\ forall t', installpkg build a dirs t' = None.
Proof.
  exists (wd ["w"%string; "build"%string]), [(s_ "image", wd ["w"%string; "image"%string])], [], [], [(wd ["w"%string; "build"%string], NDir)]. split.
  - split; [repeat constructor; intros []|]. split; [intros d [<-|[]]; split; intros [r E]; discriminate E|]. intros [|? [|? ?]] d b d' c E; try discriminate E. destruct b; discriminate E.
  - split; [vm_compute; reflexivity|]. split; [vm_compute; reflexivity|]. intro t'. unfold installpkg. cbn [installpkgdir map]. unfold rename.
    match goal with |- context [if ?b then _ else _] => assert (F : b = false); [|rewrite F; reflexivity] end.
    assert (A : apart (wd ["w"%string; "image"%string]) (wd ["w"%string; "build"%string] ++ [s_ "image"])) by (split; intros [r E]; discriminate E).
    set (b := wd ["w"%string; "build"%string]) in *. set (i := wd ["w"%string; "image"%string]) in *.
    exact (eq_trans (has_sub _ _ _ _ (sub_remove_other i (b ++ [s_ "image"]) (remove b t' ++ [(b, NDir)]) A)) (has_sub _ _ [] [] (proj1 (start_spec b t') (s_ "image")))).
Qed.
(** A directory with a hidden name is not in the archive. *)
Theorem trip_hidden_refuted : exists build dirs t a t1, well_placed build dirs /\ (forall d, In d dirs -> present (snd d) t) /\ sstate_package build dirs t = Some (a, t1) /\ installpkg build a dirs [] = None.
Proof.
  exists (wd ["w"%string; "build"%string]), [(s_ "image", wd ["w"%string; "image"%string]); (s_ ".meta", wd ["w"%string; ".meta"%string])], [(wd ["w"%string; "image"%string], NDir); (wd ["w"%string; ".meta"%string], NDir); (wd ["w"%string; ".meta"%string; "x"%string], NFile (s_ "1"))]. eexists. eexists. split; [|split; [|split]].
  - split; [repeat constructor; cbn; intuition discriminate|]. split; [intros d [<-|[<-|[]]]; split; intros [r E]; discriminate E|]. intros [|? [|? [|? ?]]] d b d' c E; try discriminate E; (destruct b as [|? [|? ?]]; try discriminate E). injection E as <- <- <-. split; intros [r E]; discriminate E.
  - intros d [<-|[<-|[]]]; exists NDir; cbn; auto.
  - vm_compute. reflexivity.
  - vm_compute. reflexivity.
Qed.
(** Two directories of the same name cannot be in one archive. *)
Theorem trip_name_refuted : exists build dirs t, (forall d, In d dirs -> present (snd d) t) /\ sstate_package build dirs t = None.
Proof.
  exists (wd ["w"%string; "build"%string]), [(s_ "out", wd ["w"%string; "a"%string; "out"%string]); (s_ "out", wd ["w"%string; "b"%string; "out"%string])], [(wd ["w"%string; "a"%string; "out"%string], NDir); (wd ["w"%string; "a"%string; "out"%string; "f"%string], NFile (s_ "1")); (wd ["w"%string; "b"%string; "out"%string], NDir)]. split.
  - intros d [<-|[<-|[]]]; exists NDir; cbn; auto.
  - vm_compute. reflexivity.
Qed.
Example demo_trip : let dirs := [(s_ "deploy", wd ["w"%string; "deploy"%string]); (s_ "lib", wd ["w"%string; "usr"%string; "lib"%string])] in
  let t := [(wd ["w"%string; "deploy"%string], NDir); (wd ["w"%string; "deploy"%string; "a"%string], NFile (s_ "1")); (wd ["w"%string; "usr"%string], NDir); (wd ["w"%string; "usr"%string; "lib"%string], NDir); (wd ["w"%string; "usr"%string; "lib"%string; "l"%string], NLink (s_ "x"))] in
  well_placed (wd ["w"%string; "build"%string]) dirs /\ (forall d, In d dirs -> shown (fst d) /\ present (snd d) t) /\
  option_map fst (sstate_package (wd ["w"%string; "build"%string]) dirs t) = Some [(wd ["deploy"%string], NDir); (wd ["deploy"%string; "a"%string], NFile (s_ "1")); (wd ["lib"%string], NDir); (wd ["lib"%string; "l"%string], NLink (s_ "x"))].
Proof.
  cbn zeta. split; [|split; [|vm_compute; reflexivity]].
  - split; [repeat constructor; cbn; intuition discriminate|]. split; [intros d [<-|[<-|[]]]; split; intros [r E]; discriminate E|]. intros [|? [|? [|? ?]]] d b d' c E; try discriminate E; (destruct b as [|? [|? ?]]; try discriminate E). injection E as <- <- <-. split; intros [r E]; discriminate E.
  - intros d [<-|[<-|[]]]; (split; [intros t E; discriminate E|]); exists NDir; cbn; auto.
Qed.

(** ** C137: Debian packages *)
Section Inv.
Variable out : key -> files.
Hypothesis out_names : forall k, NoDup (map fst (out k)).
Definition inv (K : key -> Prop) (w : world) : Prop :=
  NoDup (map fst (w_debs w)) /\ (forall n c, In (n, c) (w_debs w) -> exists k, K k /\ In (n, c) (out k)) /\
  forall k a, archived k (w_cache w) = Some a -> NoDup (map fst a) /\ (forall n c, In (n, c) (out k) -> In (n, c) a) /\ forall n c, In (n, c) a -> exists k', K k' /\ In (n, c) (out k').
Lemma inv_more : forall (K L : key -> Prop) w, (forall k, K k -> L k) -> inv K w -> inv L w.
Proof.
  intros K L w S (N & O & A). split; [exact N|]. split; [intros n c I; destruct (O n c I) as (k & H & J); exists k; auto|]. intros k a E. destruct (A k a E) as (NA & P & Q). split; [exact NA|]. split; [exact P|]. intros n c I. destruct (Q n c I) as (k' & H & J). exists k'. auto.
Qed.
Lemma inv_step : forall K w e, inv K w -> inv (fun k => K k \/ e = Build k) (happen out w e).
Proof.
  intros K w e I. pose proof I as (N & O & A). destruct e as [k|k|]; cbn [happen].
  - assert (ND : NoDup (map fst (over (out k) (w_debs w)))) by (apply over_nodup, N).
    assert (OD : forall n c, In (n, c) (over (out k) (w_debs w)) -> exists k', (K k' \/ Build k = Build k') /\ In (n, c) (out k')).
    { intros n c J. apply over_In in J; [|apply out_names|exact N]. destruct J as [J|[_ J]]; [exists k; auto|]. destruct (O n c J) as (k' & H & J'). exists k'. auto. }
    split; [exact ND|]. split; [exact OD|]. cbn [w_cache]. intros k' a E.
    assert (OLD : archived k' (w_cache w) = Some a -> NoDup (map fst a) /\ (forall n c, In (n, c) (out k') -> In (n, c) a) /\ forall n c, In (n, c) a -> exists k'', (K k'' \/ Build k = Build k'') /\ In (n, c) (out k'')).
    { intro E'. destruct (A k' a E') as (NA & P & Q). split; [exact NA|]. split; [exact P|]. intros n c J. destruct (Q n c J) as (k'' & H & J'). exists k''. auto. }
    destruct (archived k (w_cache w)) as [a0|] eqn:EK; [exact (OLD E)|]. cbn [archived] in E. destruct (Nat.eqb k k') eqn:KK; [|exact (OLD E)]. apply Nat.eqb_eq in KK. subst k'. injection E as <-.
    split; [exact ND|]. split; [|exact OD]. intros n c J. apply over_In; [apply out_names|exact N|left; exact J].
  - destruct (archived k (w_cache w)) as [a|] eqn:E; [|apply (inv_more K); [auto|exact I]]. destruct (A k a E) as (NA & P & Q). split; [apply over_nodup, N|]. split.
    + cbn [w_debs]. intros n c J. apply over_In in J; [|exact NA|exact N]. destruct J as [J|[_ J]]; [destruct (Q n c J) as (k' & H & J')|destruct (O n c J) as (k' & H & J')]; exists k'; auto.
    + cbn [w_cache]. intros k' a' E'. destruct (A k' a' E') as (NA' & P' & Q'). split; [exact NA'|]. split; [exact P'|]. intros n c J. destruct (Q' n c J) as (k'' & H & J'). exists k''. auto.
  - split; [constructor|]. split; [intros n c []|]. cbn [w_cache]. intros k' a' E'. destruct (A k' a' E') as (NA' & P' & Q'). split; [exact NA'|]. split; [exact P'|]. intros n c J. destruct (Q' n c J) as (k'' & H & J'). exists k''. auto.
Qed.
Lemma history_snoc : forall es e, history out (es ++ [e]) = happen out (history out es) e.
Proof. intros. unfold history. apply fold_left_app. Qed.
Lemma history_inv : forall es, inv (fun k => In (Build k) es) (history out es).
Proof.
  induction es as [|e es IH] using rev_ind; [split; [constructor|]; split; [intros n c []|intros k a E; discriminate E]|]. rewrite history_snoc. apply (inv_more (fun k => In (Build k) es \/ e = Build k)).
  - intros k [I|I]; apply in_or_app; [left; exact I|right; left; exact I].
  - apply inv_step, IH.
Qed.
End Inv.
(** After a build, and after a restored build, all packages of it are in the work
    directory, with the content it makes, whatever happened before. *)
Theorem debs_there : forall out es e k, (forall j, NoDup (map fst (out j))) -> e = Build k \/ (e = Restore k /\ archived k (w_cache (history out es)) <> None) ->
  forall n c, In (n, c) (out k) -> forall c', In (n, c') (w_debs (history out (es ++ [e]))) <-> c' = c.
Proof.
  intros out es e k ON H n c I. pose proof (history_inv out ON es) as (N & O & A). pose proof (history_inv out ON (es ++ [e])) as (N2 & _). rewrite history_snoc in *.
  assert (T : In (n, c) (w_debs (happen out (history out es) e))).
  { destruct H as [->|[-> HA]]; cbn [happen].
    - cbn [w_debs]. apply over_In; [apply ON|exact N|left; exact I].
    - destruct (archived k (w_cache (history out es))) as [a|] eqn:E; [|congruence]. destruct (A k a E) as (NA & P & Q). cbn [w_debs]. apply over_In; [exact NA|exact N|]. left. apply P, I. }
  intro c'. split; [intro J; exact (same_content _ _ _ _ N2 J T)|intros ->; exact T].
Qed.
(** No package comes from nowhere. *)
Theorem debs_origin : forall out es, (forall j, NoDup (map fst (out j))) -> forall n c, In (n, c) (w_debs (history out es)) -> exists k, In (Build k) es /\ In (n, c) (out k).
Proof. intros out es ON n c I. pose proof (history_inv out ON es) as (_ & O & _). exact (O n c I). Qed.
(** If work directories are empty when a build begins, every archive restores exactly the
    packages of its build. *)
Theorem debs_exact_partial : forall out es k, (forall j, NoDup (map fst (out j))) -> (forall a j b, es = a ++ Build j :: b -> a = [] \/ exists a', a = a' ++ [Wipe]) ->
  archived k (w_cache (history out es)) <> None -> forall n c, In (n, c) (w_debs (history out (es ++ [Wipe; Restore k]))) <-> In (n, c) (out k).
Proof.
  intros out es k ON C H n c. assert (X : forall j a, archived j (w_cache (history out es)) = Some a -> a = over (out j) []).
  { clear H. revert C. induction es as [|e es IH] using rev_ind; intros C j a E; [discriminate E|].
    assert (C' : forall x i y, es = x ++ Build i :: y -> x = [] \/ exists x', x = x' ++ [Wipe]) by (intros x i y EE; apply (C x i (y ++ [e])); rewrite EE, <- app_assoc; reflexivity).
    rewrite history_snoc in E. destruct e as [i|i|]; cbn [happen] in E.
    - cbn [w_cache] in E. destruct (archived i (w_cache (history out es))) eqn:EI; [exact (IH C' j a E)|]. cbn [archived] in E. destruct (Nat.eqb i j) eqn:IJ; [|exact (IH C' j a E)]. apply Nat.eqb_eq in IJ. subst i. injection E as <-.
      destruct (C es j [] eq_refl) as [->|[x ->]]; [reflexivity|]. rewrite history_snoc. reflexivity.
    - destruct (archived i (w_cache (history out es))); exact (IH C' j a E).
    - exact (IH C' j a E). }
  replace (es ++ [Wipe; Restore k]) with ((es ++ [Wipe]) ++ [Restore k]) by (rewrite <- app_assoc; reflexivity). rewrite !history_snoc. cbn [happen w_cache].
  destruct (archived k (w_cache (history out es))) as [a|] eqn:E; [|congruence]. cbn [w_debs]. rewrite (X k a E). rewrite over_In; [|apply over_nodup; constructor|constructor]. rewrite over_In; [|apply ON|constructor]. cbn [In]. intuition.
Qed.
(** Otherwise the packages of an earlier build get into the archive of a later one, and
    from there into any work directory it is restored in. *)
Theorem debs_stale_refuted : exists out es k n c, (forall j, NoDup (map fst (out j))) /\ archived k (w_cache (history out es)) <> None /\ ~ In n (map fst (out k)) /\ In (n, c) (w_debs (history out (es ++ [Wipe; Restore k]))).
Proof.
  exists (fun k => match k with 0 => [(s_ "a_1_all.deb", s_ "1"); (s_ "a-old_1_all.deb", s_ "o")] | _ => [(s_ "a_1_all.deb", s_ "2")] end), [Build 0; Build 1], 1, (s_ "a-old_1_all.deb"), (s_ "o").
  split; [intros [|j]; repeat constructor; cbn; intuition discriminate|]. split; [vm_compute; discriminate|]. split; [cbn; intuition discriminate|]. vm_compute. auto.
Qed.
Example demo_debs : let out k := match k with 0 => [(s_ "a.deb", s_ "1")] | _ => [(s_ "b.deb", s_ "2")] end in
  w_debs (history out [Build 0; Wipe; Build 1; Wipe; Restore 0]) = [(s_ "a.deb", s_ "1")] /\ w_debs (history out [Build 0; Wipe; Restore 1]) = [].
Proof. split; vm_compute; reflexivity. Qed.

(** ** C138: root file systems *)
Lemma packed_over : forall f n c, NoDup (map fst f) -> In (n, c) (over (packed f) []) <-> In (n, c) f /\ startswith (s_ "var/cache/apt/archives") n = false.
Proof.
  intros f n c N. assert (NP : NoDup (map fst (packed f))).
  { unfold packed. clear n c. induction f as [|[m x] f IH]; [constructor|]. cbn [map fst] in N. inversion N as [|? ? NM NF]; subst. cbn [filter fst]. destruct (negb _); [|apply IH, NF]. cbn [map fst]. constructor; [|apply IH, NF]. intro I. apply NM. apply in_map_iff in I. destruct I as (y & E & I). apply filter_In in I. rewrite <- E. apply in_map, I. }
  rewrite over_In by (exact NP || constructor). unfold packed. rewrite filter_In. cbn [fst In]. rewrite negb_true_iff. intuition.
Qed.
Lemma steps_snoc : forall inst post l s, steps inst post (l ++ [s]) = go inst post (steps inst post l) s.
Proof. intros. unfold steps. apply fold_left_app. Qed.
Lemma stored_store : forall k t i j u a, stored j u (i_cache (store k t i)) = Some a -> stored j u (i_cache i) = Some a \/ (j = k /\ u = t /\ a = packed (i_root i)).
Proof.
  intros k t i j u a E. unfold store in E. cbn [i_cache] in E. destruct (stored k t (i_cache i)); [left; exact E|]. cbn [stored] in E. destruct (Nat.eqb k j && task_eqb t u) eqn:T; [|left; exact E]. injection E as <-. right.
  apply andb_true_iff in T. destruct T as [T1 T2]. apply Nat.eqb_eq in T1. subst j. split; [reflexivity|]. split; [destruct t, u; congruence || discriminate T2|reflexivity].
Qed.
Lemma stored_install : forall inst post l k a, stored k Install (i_cache (steps inst post l)) = Some a -> a = packed (inst k).
Proof.
  intros inst post l. induction l as [|s l IH] using rev_ind; intros k a E; [discriminate E|]. rewrite steps_snoc in E. destruct s as [j [| |]|j|j t|]; cbn [go] in E.
  - destruct (stored_store _ _ _ _ _ _ E) as [H|(-> & _ & ->)]; [exact (IH k a H)|reflexivity].
  - destruct (stored_store _ _ _ _ _ _ E) as [H|(_ & T & _)]; [exact (IH k a H)|discriminate T].
  - destruct (stored_store _ _ _ _ _ _ E) as [H|(_ & T & _)]; [exact (IH k a H)|discriminate T].
  - exact (IH k a E).
  - destruct (stored j t (i_cache (steps inst post l))); exact (IH k a E).
  - exact (IH k a E).
Qed.
(** In an empty work directory, the root file system restored is the one that was
    installed, except for the packages of apt, whatever tasks ran before. *)
Theorem rootfs_restored : forall inst post l k, (forall j, NoDup (map fst (inst j))) -> stored k Install (i_cache (steps inst post l)) <> None ->
  forall n c, In (n, c) (i_root (steps inst post (l ++ [Remove_work; Set_scene k Install]))) <-> In (n, c) (inst k) /\ startswith (s_ "var/cache/apt/archives") n = false.
Proof.
  intros inst post l k N H n c. replace (l ++ [Remove_work; Set_scene k Install]) with ((l ++ [Remove_work]) ++ [Set_scene k Install]) by (rewrite <- app_assoc; reflexivity). rewrite !steps_snoc. cbn [go i_cache].
  destruct (stored k Install (i_cache (steps inst post l))) as [a|] eqn:E; [|congruence]. cbn [i_root]. rewrite (stored_install _ _ _ _ _ E). apply packed_over, N.
Qed.
(** In one that is not empty, files of the root file system before stay: the setscene task
    has no root_cleandirs. *)
Theorem rootfs_merge_refuted : exists inst post l k n c, (forall j, NoDup (map fst (inst j))) /\ stored k Install (i_cache (steps inst post l)) <> None /\
  ~ In n (map fst (inst k)) /\ In (n, c) (i_root (steps inst post (l ++ [Set_scene k Install]))).
Proof.
  exists (fun k => match k with 0 => [(s_ "etc/a", s_ "1")] | _ => [(s_ "etc/a", s_ "2"); (s_ "usr/bin/extra", s_ "x")] end), (fun _ f => f), [Run 0 Install; Run 1 Install], 0, (s_ "usr/bin/extra"), (s_ "x").
  split; [intros [|j]; repeat constructor; cbn; intuition discriminate|]. split; [vm_compute; discriminate|]. split; [cbn; intuition discriminate|]. vm_compute. auto.
Qed.
(** The archives of the other tasks hold the root file system too: restoring the initrd
    puts the files of the postprocessing back into the restored root file system. *)
Theorem rootfs_other_refuted : exists inst post l k n c, (forall j, NoDup (map fst (inst j))) /\ ~ In n (map fst (inst k)) /\
  In (n, c) (i_root (steps inst post (l ++ [Remove_work; Set_scene k Install; Set_scene k Initrd]))).
Proof.
  exists (fun _ => [(s_ "etc/a", s_ "1")]), (fun _ f => put (s_ "etc/marked") (s_ "m") f), [Run 0 Install; Post 0; Run 0 Initrd], 0, (s_ "etc/marked"), (s_ "m").
  split; [intros j; repeat constructor; intros []|]. split; [cbn; intuition discriminate|]. vm_compute. auto.
Qed.
Example demo_rootfs : let inst := fun _ => [(s_ "etc/a", s_ "1"); (s_ "var/cache/apt/archives/x.deb", s_ "d")] in
  i_root (steps inst (fun _ f => put (s_ "m") [] f) [Run 0 Install; Run 0 Boot; Post 0; Remove_work; Set_scene 0 Install]) = [(s_ "etc/a", s_ "1")].
Proof. vm_compute. reflexivity. Qed.

(** ** C139: the bootstrap *)
Lemma straps_snoc : forall boot es e, straps boot (es ++ [e]) = strap_step boot (straps boot es) e.
Proof. intros. unfold straps. apply fold_left_app. Qed.
Lemma kept_own : forall boot es k a, kept k (s_cache (straps boot es)) = Some a -> a = boot k.
Proof.
  intros boot es. induction es as [|e es IH] using rev_ind; intros k a E; [discriminate E|]. rewrite straps_snoc in E. destruct e as [j|j|]; cbn [strap_step] in E.
  - cbn [s_cache] in E. destruct (kept j (s_cache (straps boot es))); [exact (IH k a E)|]. cbn [kept] in E. destruct (Nat.eqb j k) eqn:J; [|exact (IH k a E)]. apply Nat.eqb_eq in J. subst j. injection E as <-. reflexivity.
  - destruct (kept j (s_cache (straps boot es))); exact (IH k a E).
  - exact (IH k a E).
Qed.
(** The bootstrap used is the one made or restored last, with exactly its content. *)
Theorem bootstrap_exact : forall boot es k e, e = Build k \/ (e = Restore k /\ kept k (s_cache (straps boot es)) <> None) -> s_tar (straps boot (es ++ [e])) = Some (boot k).
Proof.
  intros boot es k e H. rewrite straps_snoc. destruct H as [->|[-> H]]; cbn [strap_step]; [reflexivity|]. destruct (kept k (s_cache (straps boot es))) as [a|] eqn:E; [|congruence]. cbn [s_tar]. f_equal. exact (kept_own _ _ _ _ E).
Qed.
(** Once made, it can be restored for ever. *)
Theorem bootstrap_stays : forall boot es es' k, s_tar (straps boot (es ++ [Build k] ++ es' ++ [Restore k])) = Some (boot k).
Proof.
  intros boot es es' k. rewrite !app_assoc. apply bootstrap_exact. right. split; [reflexivity|]. induction es' as [|e es' IH] using rev_ind.
  - rewrite app_nil_r, straps_snoc. cbn [strap_step s_cache]. destruct (kept k (s_cache (straps boot es))) as [a|] eqn:E; [congruence|]. cbn [kept]. rewrite Nat.eqb_refl. discriminate.
  - rewrite app_assoc, straps_snoc. destruct e as [j|j|]; cbn [strap_step]; [|destruct (kept j _); exact IH|exact IH]. cbn [s_cache]. destruct (kept j (s_cache (straps boot ((es ++ [Build k]) ++ es')))) eqn:EJ; [exact IH|]. cbn [kept]. destruct (Nat.eqb j k); [discriminate|exact IH].
Qed.
Example demo_strap : s_tar (straps (fun k => dec (BinNat.N.of_nat k)) [Build 1; Build 2; Wipe; Restore 1]) = Some (s_ "1").
Proof. vm_compute. reflexivity. Qed.
Print Assumptions trip_exact. Print Assumptions trip_own. Print Assumptions trip_missing_refuted. Print Assumptions trip_hidden_refuted. Print Assumptions trip_name_refuted.
Print Assumptions debs_there. Print Assumptions debs_origin. Print Assumptions debs_exact_partial. Print Assumptions debs_stale_refuted.
Print Assumptions rootfs_restored. Print Assumptions rootfs_merge_refuted. Print Assumptions rootfs_other_refuted. Print Assumptions bootstrap_exact. Print Assumptions bootstrap_stays.
