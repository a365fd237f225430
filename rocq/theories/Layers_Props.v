(** Layers: the claims. *)
From Coq Require Import Ascii String List Bool Arith ZArith Lia Permutation Sorting.Sorted.
From Verif Require Import Str_Model Str_Proofs Vercmp_Model Posix_Model Posix_Proofs Imgtypes_Model Imgtypes_Proofs Sstman_Proofs Rootclean_Proofs Layers_Model Layers_Spec Layers_Proofs.
Import ListNotations.
Open Scope list_scope.

(** ** C115 *)
(** Every layer gets the priority it states, or one more than the layers it builds on
    (and than the lowest stated priority), in whatever order the layers are listed. *)
Theorem priorities_exact : forall conf layers,
  (forall c, In c layers -> fine conf layers c /\ readable conf c /\ v_priority (conf c) <> Num 0) ->
  (forall c, In c layers -> exists z, priority conf layers c z) ->
  exists es, handle_collections conf layers = Priorities es /\ map e_layer es = layers /\
    forall e, In e es -> priority conf layers (e_layer e) (e_pri e) /\ (v_pattern (conf (e_layer e)) = Pattern (e_pattern e) \/ (v_pattern (conf (e_layer e)) = EmptyPattern /\ e_pattern e = [])).
Proof.
  intros conf layers F P. unfold handle_collections. destruct (read_ok conf layers layers [] known0) as (k & E & (S1 & S2 & S3 & S4)).
  - split; [reflexivity|]. split; [left; split; [reflexivity|intros c []]|]. split; intros c [].
  - exact F.
  - cbn [app] in *. rewrite E, S1.
    destruct (compile_ok conf layers (k_deps k) (k_min k) S4 S2) with (cs := layers) (pri := k_pri k) as (es & -> & L & A).
    + intros c I. destruct (F c I) as ((B & _) & _ & Z). auto.
    + intros c d I [[ops B]|(ops & _ & B & _)]; [|exact B]. destruct (F c I) as ((_ & D & _) & _). exact (proj1 (D d ops B)).
    + exact P.
    + apply incl_refl.
    + intros c I. exists (init_pri conf c). split; [apply S3, I|]. unfold init_pri. destruct (F c I) as ((B & _) & _). destruct (v_priority (conf c)) eqn:V; [reflexivity|now apply given|contradiction].
    + intros c I. destruct (F c I) as ((_ & _ & PT) & _). exact PT.
    + exists es. auto.
Qed.
(** There is only one such priority. *)
Theorem priority_determined : forall conf layers c z z', priority conf layers c z -> priority conf layers c z' -> z = z'.
Proof. intros conf layers c z z' P P'. exact (priority_unique conf layers c z P z' P'). Qed.
(** If something is wrong with a layer (a dependency that is missing or has the wrong
    version, a priority that is no number, no pattern) the build is refused, provided
    that no layer has an empty pattern. *)
Theorem errors_refused : forall conf layers c, In c layers -> ~ fine conf layers c -> (forall c, In c layers -> v_pattern (conf c) <> EmptyPattern) ->
  forall es, handle_collections conf layers <> Priorities es.
Proof.
  intros conf layers c I NF NE es H. unfold handle_collections in H. destruct (read_layers conf layers known0 layers) as [k|] eqn:R; [|discriminate].
  destruct (compile conf layers (k_deps k) (k_min k) (k_errors k) (k_pri k) layers) as [[[] es']|] eqn:C; try discriminate.
  assert (E : false = true); [|discriminate]. eapply err_compile; [exact NE|exact C|].
  destruct (v_pattern (conf c)) as [| | |p] eqn:V; [right; exists c; auto|exfalso; exact (NE c I V)|right; exists c; auto|].
  left. apply (err_read conf layers layers known0 k R). right. exists c. split; [exact I|].
  destruct (v_priority (conf c)) as [|z|] eqn:VP; [right|right|now left]; intros D; apply NF; (split; [congruence|]); (split; [exact (depends_true conf layers _ D)|right; eauto]).
Qed.
Definition plain (p : pri_var) (deps : deplist) (pat : pat_var) : vars := mkVars p deps [] None pat.
Definition with_empty (c : str) : vars :=
  if seqb c (s_ "a") then plain (Num 5) [(s_ "missing", [])] (Pattern (s_ "^/a/")) else plain (Num 5) [] EmptyPattern.
(** An empty pattern makes the code forget the errors found before: a layer without the
    layer it depends on is accepted. *)
Theorem empty_pattern_refuted : exists conf layers c es, In c layers /\ ~ fine conf layers c /\ handle_collections conf layers = Priorities es.
Proof.
  exists with_empty, [s_ "a"; s_ "b"], (s_ "a"). eexists. split; [now left|]. split; [|vm_compute; reflexivity].
  intros (_ & D & _). destruct (D (s_ "missing") []) as [I _]; [now left|]. destruct I as [I|[I|[]]]; discriminate.
Qed.
Definition with_zero (c : str) : vars := if seqb c (s_ "a") then plain (Num 0) [] (Pattern (s_ "^/a/")) else plain (Num 5) [] (Pattern (s_ "^/b/")).
(** A stated priority of 0 is not kept, and what it becomes depends on the order in
    which the layers are listed. *)
Theorem zero_priority_refuted : exists conf a b p q, v_priority (conf a) = Num 0 /\
  (exists es, handle_collections conf [a; b] = Priorities es /\ In (mkEntry a p 6) es) /\ (exists es, handle_collections conf [b; a] = Priorities es /\ In (mkEntry a q 1) es).
Proof.
  exists with_zero, (s_ "a"), (s_ "b"), (s_ "^/a/"), (s_ "^/a/"). split; [reflexivity|]. split; eexists; (split; [vm_compute; reflexivity|]); cbn; auto.
Qed.
Definition looping (c : str) : vars :=
  if seqb c (s_ "a") then plain NoPri [(s_ "b", [])] (Pattern (s_ "^/a/")) else plain NoPri [(s_ "a", [])] (Pattern (s_ "^/b/")).
(** Layers that depend on each other end the program with an exception instead of an
    error message. *)
Theorem layer_loop_refuted : exists conf layers, (forall c, In c layers -> fine conf layers c) /\ handle_collections conf layers = Crash.
Proof.
  exists looping, [s_ "a"; s_ "b"]. split; [|vm_compute; reflexivity]. intros c [<-|[<-|[]]]; (split; [discriminate|]); (split; [|right; eexists; reflexivity]);
    intros d ops [[= <- <-]|[]]; (split; [cbn; auto|intros x []]).
Qed.
Definition three (c : str) : vars :=
  if seqb c (s_ "core") then mkVars (Num 5) [] [] (Some (s_ "2")) (Pattern (s_ "^/core/"))
  else if seqb c (s_ "mine") then mkVars NoPri [(s_ "core", [(s_ ">=", s_ "1")]); (s_ "other", [])] [(s_ "absent", [])] None (Pattern (s_ "^/mine/"))
  else mkVars NoPri [] [(s_ "core", [])] None EmptyPattern.
Example three_priorities : handle_collections three [s_ "mine"; s_ "core"; s_ "other"] =
  Priorities [mkEntry (s_ "mine") (s_ "^/mine/") 7; mkEntry (s_ "core") (s_ "^/core/") 5; mkEntry (s_ "other") [] 6].
Proof. vm_compute. reflexivity. Qed.
Lemma three_lowest : lowest three [s_ "mine"; s_ "core"; s_ "other"] 5.
Proof. right. split; [exists (s_ "core"); split; [cbn; auto|reflexivity]|]. intros c y [<-|[<-|[<-|[]]]] E; try discriminate. vm_compute in E. injection E as <-. lia. Qed.
Example three_meets : let ls := [s_ "mine"; s_ "core"; s_ "other"] in
  (forall c, In c ls -> fine three ls c /\ readable three c /\ v_priority (three c) <> Num 0) /\ forall c, In c ls -> exists z, priority three ls c z.
Proof.
  assert (C : forall ls, priority three ls (s_ "core") 5) by (intros; now apply given).
  assert (O : priority three [s_ "mine"; s_ "core"; s_ "other"] (s_ "other") 6).
  { apply (derived three _ _ (fun _ => 5%Z) 5 5); [reflexivity| |exact three_lowest|lia|intros; lia|now left]. intros d [[o []]|(o & [[= <- <-]|[]] & _)]. apply C. }
  split.
  - intros c [<-|[<-|[<-|[]]]]; (split; [|split; [|discriminate]]).
    + split; [discriminate|]. split; [|right; eexists; reflexivity]. intros d o [[= <- <-]|[[= <- <-]|[]]]; (split; [cbn; auto|]); [|intros x []]. intros x [<-|[]]. exists (s_ "2"). split; vm_compute; reflexivity.
    + intros d op ver ops v [[=]|[]].
    + split; [discriminate|]. split; [intros d o []|right; eexists; reflexivity].
    + intros d op ver ops v [].
    + split; [discriminate|]. split; [intros d o []|now left].
    + intros d op ver ops v [[=]|[]].
  - intros c [<-|[<-|[<-|[]]]]; [|exists 5%Z; apply C|exists 6%Z; exact O]. exists 7%Z.
    apply (derived three _ _ (fun d => if seqb d (s_ "core") then 5 else 6)%Z 5 6); [reflexivity| |exact three_lowest|lia| |].
    + intros d [[o [[= <- <-]|[[= <- <-]|[]]]]|(o & [[= <- <-]|[]] & I & _)]; [apply C|exact O|]. destruct I as [I|[I|[I|[]]]]; discriminate.
    + intros d _. destruct (seqb d (s_ "core")); lia.
    + right. exists (s_ "other"). split; [left; eexists; right; left; reflexivity|reflexivity].
Qed.

(** ** C116 *)
(** A file belongs to the innermost layer whose directory it is in. *)
Theorem file_layer : forall config f, (forall e, In e config -> exists d, e_pattern e = dir_pattern d) ->
  match file_priority (sort_desc config) f with
  | (z, Some name) => exists e d, In e config /\ e_layer e = name /\ e_pri e = z /\ e_pattern e = dir_pattern d /\ inside f d /\
      forall e' d', In e' config -> e_pattern e' = dir_pattern d' -> inside f d' -> length d' <= length d
  | (z, None) => z = 0%Z /\ forall e d, In e config -> e_pattern e = dir_pattern d -> ~ inside f d
  end.
Proof.
  intros config f D. assert (X : forall l, StronglySorted desc l -> (forall e, In e l -> In e config) ->
    match file_priority l f with
    | (z, Some name) => exists e d, In e l /\ e_layer e = name /\ e_pri e = z /\ e_pattern e = dir_pattern d /\ inside f d /\ forall e' d', In e' l -> e_pattern e' = dir_pattern d' -> inside f d' -> length d' <= length d
    | (z, None) => z = 0%Z /\ forall e d, In e l -> e_pattern e = dir_pattern d -> ~ inside f d
    end).
  { induction l as [|e r IH]; intros S IC; cbn [file_priority]; [split; [reflexivity|intros e d []]|]. inversion S as [|? ? S' F]; subst. destruct (D e (IC e (or_introl eq_refl))) as [d E].
    destruct (re_match (e_pattern e) f) eqn:M.
    - rewrite E in M. apply match_dir in M. exists e, d. split; [now left|]. do 4 (split; [auto|]). intros e' d' [<-|I] E' IN.
      + rewrite E in E'. injection E' as E'. apply (f_equal unescape) in E'. rewrite !unescape_escape in E'. subst. lia.
      + destruct (le_lt_dec (length d') (length d)) as [L|L]; [exact L|]. exfalso. rewrite Forall_forall in F. specialize (F e' I). unfold desc in F. rewrite E, E' in F. rewrite (pattern_longer d d' f M IN L) in F. discriminate.
    - specialize (IH S' (fun x I => IC x (or_intror I))). destruct (file_priority r f) as [z [n|]].
      + destruct IH as (e0 & d0 & I0 & A & B & C & IN & MX). exists e0, d0. split; [now right|]. do 4 (split; [auto|]). intros e' d' [<-|I] E' IN'; [|eapply MX; eauto]. exfalso. rewrite E' in M. apply match_dir in IN'. congruence.
      + destruct IH as [-> N]. split; [reflexivity|]. intros e' d' [<-|I] E'; [|eapply N; eauto]. rewrite E' in M. intros IN. apply match_dir in IN. congruence. }
  specialize (X (sort_desc config) (sort_desc_sorted config) (fun e I => Permutation_in e (sort_desc_perm config) I)).
  destruct (file_priority (sort_desc config) f) as [z [n|]].
  - destruct X as (e & d & I & A & B & C & IN & MX). exists e, d. split; [exact (Permutation_in e (sort_desc_perm config) I)|]. do 4 (split; [auto|]). intros e' d' I'. apply MX. exact (Permutation_in e' (Permutation_sym (sort_desc_perm config)) I').
  - destruct X as [-> N]. split; [reflexivity|]. intros e d I. apply N. exact (Permutation_in e (Permutation_sym (sort_desc_perm config)) I).
Qed.
Definition nested : list entry := [mkEntry (s_ "outer") (dir_pattern (s_ "/src/meta-a/")) 5; mkEntry (s_ "inner") (dir_pattern (s_ "/src/meta-a/meta-b/")) 10; mkEntry (s_ "other") (dir_pattern (s_ "/src/meta-c/")) 7].
Example nested_layers : (forall e, In e nested -> exists d, e_pattern e = dir_pattern d) /\
  file_priority (sort_desc nested) (s_ "/src/meta-a/meta-b/x.bb") = (10%Z, Some (s_ "inner")) /\ file_priority (sort_desc nested) (s_ "/src/meta-a/x.bb") = (5%Z, Some (s_ "outer")).
Proof. split; [intros e [<-|[<-|[<-|[]]]]; eexists; reflexivity|]. split; vm_compute; reflexivity. Qed.


(** ** C117 *)
Lemma bb_iff f : is_bb f = true <-> exists x, f = x ++ s_ ".bb".
Proof. apply endswith_iff. Qed.
Lemma append_iff f : is_append f = true <-> exists x, f = x ++ s_ ".bbappend".
Proof. apply endswith_iff. Qed.
Lemma item_files_In w i f : In f (item_files w i) <-> covers w i f.
Proof.
  unfold item_files, covers. destruct (isdir w i).
  - rewrite filter_In, orb_true_iff, bb_iff, append_iff. tauto.
  - rewrite sorted_set_in. destruct (globbed w i) as [|g l] eqn:G.
    + destruct (exists_ w i) eqn:E; cbn; split.
      * intros [<-|[]]. right. auto.
      * intros [[]|(_ & _ & ->)]. now left.
      * intros [].
      * intros [[]|(_ & K & _)]. discriminate.
    + split; [now left|]. intros [H|(K & _)]; [exact H|discriminate].
Qed.
Definition files_of (config : list entry) (w : fs) (bbfiles : str) : list str := match sort_pri (sort_desc config) (split_ws bbfiles) with [] => filter is_bb (here w) | l => l end.
Lemma files_of_In config w bbfiles i : In i (files_of config w bbfiles) <-> entry_of w bbfiles i.
Proof.
  unfold files_of, entry_of. pose proof (sort_pri_perm (sort_desc config) (split_ws bbfiles)) as P. destruct (sort_pri (sort_desc config) (split_ws bbfiles)) as [|x l] eqn:E.
  - apply Permutation_nil in P. rewrite P. rewrite filter_In, bb_iff. cbn. tauto.
  - split; [intros H; left; exact (Permutation_in i P H)|]. intros [H|(K & _)]; [exact (Permutation_in i (Permutation_sym P) H)|]. rewrite K in P. apply Permutation_sym, Permutation_nil in P. discriminate.
Qed.
Lemma new_files_In config w bbfiles f : In f (new_files (sort_desc config) w bbfiles) <-> exists i, entry_of w bbfiles i /\ covers w i f.
Proof.
  unfold new_files. fold (files_of config w bbfiles). rewrite add_new_In, in_flat_map. cbn. split.
  - intros [[]|(i & I & C)]. exists i. rewrite <- files_of_In, <- item_files_In. eauto.
  - intros (i & I & C). right. exists i. rewrite files_of_In, item_files_In. eauto.
Qed.
Lemma split_join_bar ms : ms <> [] -> split_on bar (join (s_ "|") ms) = flat_map (split_on bar) ms.
Proof.
  induction ms as [|m r IH]; intros N; [contradiction|]. destruct r as [|m' r]; [cbn [join flat_map]; now rewrite app_nil_r|].
  rewrite join_cons by discriminate. change (m ++ s_ "|" ++ join (s_ "|") (m' :: r)) with (m ++ bar :: join (s_ "|") (m' :: r)). rewrite split_on_app, IH by discriminate. reflexivity.
Qed.
Lemma masked_iff bbmask f : whole_masks bbmask -> masked bbmask f = true <-> hidden_by_mask bbmask f.
Proof.
  intros W. assert (FX : map fix_mask (split_ws bbmask) = split_ws bbmask).
  { rewrite <- map_id. apply map_ext_in. intros m I. destruct m as [|c r]; [reflexivity|]. cbn. destruct (aeqb c bar) eqn:E; [|reflexivity]. apply aeqb_eq in E. subst c. exfalso.
    apply (W (bar :: r) [] I); [|reflexivity]. change (bar :: r) with ([] ++ bar :: r). rewrite split_on_app. now left. }
  unfold masked, mask_of. rewrite FX. destruct (split_ws bbmask) as [|m0 ms] eqn:SW.
  - cbn. split; [discriminate|]. intros (m & a & I & _). rewrite SW in I. destruct I.
  - assert (S : split_on bar (join (s_ "|") (m0 :: ms)) = flat_map (split_on bar) (m0 :: ms)) by (apply split_join_bar; discriminate).
    assert (NE : join (s_ "|") (m0 :: ms) <> []).
    { intros K. rewrite K in S. cbn [split_on split_aux rev] in S. apply (W m0 [] ); [rewrite SW; now left| |reflexivity]. unfold split_on in S. cbn in S.
      assert (Q : In [] (split_on bar m0)); [|exact Q]. destruct (split_on_spec bar m0) as (_ & N & _). unfold split_on in *. destruct (split_aux bar [] m0) as [|a l]; [contradiction|]. cbn in S. injection S as <- _. now left. }
    destruct (join (s_ "|") (m0 :: ms)) as [|c p] eqn:J; [contradiction|]. unfold re_search. rewrite S, existsb_exists. unfold hidden_by_mask. rewrite SW. split.
    + intros (a & I & C). apply in_flat_map in I. destruct I as (m & I & A). exists m, a. split; [exact I|]. split; [exact A|]. now apply contains_sub_iff.
    + intros (m & a & I & A & C). exists a. split; [apply in_flat_map; eauto|now apply contains_sub_iff].
Qed.
(** The recipes that are found: those that an entry of BBFILES covers and no mask hides,
    each once. *)
Theorem recipes_exact : forall config w bbfiles bbmask, whole_masks bbmask ->
  NoDup (recipes config w bbfiles bbmask) /\
  forall f, In f (recipes config w bbfiles bbmask) <-> (exists i, entry_of w bbfiles i /\ covers w i f) /\ (exists x, f = x ++ s_ ".bb") /\ ~ hidden_by_mask bbmask f.
Proof.
  intros config w bbfiles bbmask W. split.
  - unfold recipes, unmasked. apply NoDup_filter, NoDup_filter, add_new_nodup. constructor.
  - intros f. unfold recipes, unmasked. rewrite !filter_In, new_files_In, bb_iff, negb_true_iff, <- (masked_iff bbmask f W), not_true_iff_false. tauto.
Qed.
Definition one_dir : fs := mkFs (fun _ => false) (fun _ => []) (fun i => if seqb i (s_ "/l/*.bb*") then [s_ "/l/b_1.bb"; s_ "/l/a_2.bb"; s_ "/l/a_%.bbappend"; s_ "/l/a_2.bbappend"] else []) (fun _ => false) [].
(** A mask that is only "|" is made to mask everything beside other masks, and nothing
    alone. *)
Theorem bar_mask_refuted : recipes [] one_dir (s_ "/l/*.bb*") (s_ "nothing_like_it") = [s_ "/l/a_2.bb"; s_ "/l/b_1.bb"] /\
  recipes [] one_dir (s_ "/l/*.bb*") (s_ "nothing_like_it |") = [] /\ recipes [] one_dir (s_ "/l/*.bb*") (s_ "|") = [s_ "/l/a_2.bb"; s_ "/l/b_1.bb"].
Proof. split; [|split]; vm_compute; reflexivity. Qed.
Example mask_met : whole_masks (s_ "a_ b|/c/") /\ hidden_by_mask (s_ "a_ b|/c/") (s_ "/l/a_2.bb") /\ ~ hidden_by_mask (s_ "a_ b|/c/") (s_ "/l/x.cc").
Proof.
  split; [|split].
  - intros m a I A. cbn in I. destruct I as [<-|[<-|[]]]; cbn in A; [destruct A as [<-|[]]; discriminate|destruct A as [<-|[<-|[]]]; discriminate].
  - exists (s_ "a_"), (s_ "a_"). split; [now left|]. split; [now left|]. exists (s_ "/l/"), (s_ "2.bb"). reflexivity.
  - rewrite <- masked_iff; [vm_compute; discriminate|]. intros m a I A. cbn in I. destruct I as [<-|[<-|[]]]; cbn in A; [destruct A as [<-|[]]; discriminate|destruct A as [<-|[<-|[]]]; discriminate].
Qed.

Definition first_of (b : str) (l : list str) (t : str) : Prop := exists l1 l2, l = l1 ++ t :: l2 /\ basename t = b /\ forall g, In g l1 -> basename g <> b.
Definition covered_by (top f : str) (l : list str) : Prop := exists l1 l2, l = l1 ++ top :: l2 /\ (forall g, In g l1 -> basename g <> basename top) /\ In f l2 /\ basename f = basename top.
Lemma first_of_unique b l t t' : first_of b l t -> first_of b l t' -> t = t'.
Proof.
  intros (l1 & l2 & -> & B & N) (l1' & l2' & E & B' & N'). revert l1' E N'. induction l1 as [|x l1 IH]; intros [|y l1'] E N'; cbn in E; injection E as E1 E.
  - exact E1.
  - subst y. exfalso. exact (N' t (or_introl eq_refl) B).
  - subst x. exfalso. exact (N t' (or_introl eq_refl) B').
  - apply (IH (fun g I => N g (or_intror I)) l1' E (fun g I => N' g (or_intror I))).
Qed.
Lemma first_of_snoc b l g t : first_of b (l ++ [g]) t <-> first_of b l t \/ (t = g /\ basename g = b /\ forall x, In x l -> basename x <> b).
Proof.
  split.
  - intros (l1 & l2 & E & B & N). destruct l2 as [|x l2] using rev_ind.
    + apply app_inj_tail in E. destruct E as [-> ->]. right. auto.
    + clear IHl2. rewrite app_comm_cons, app_assoc in E. apply app_inj_tail in E. destruct E as [-> _]. left. exists l1, l2. auto.
  - intros [(l1 & l2 & -> & B & N)|(-> & B & N)]; [exists l1, (l2 ++ [g]); rewrite <- app_assoc; auto|exists l, []; auto].
Qed.
Lemma covered_by_snoc top f l g : covered_by top f (l ++ [g]) <-> covered_by top f l \/ (f = g /\ first_of (basename g) l top).
Proof.
  split.
  - intros (l1 & l2 & E & N & I & B). destruct l2 as [|x l2] using rev_ind; [destruct I|]. clear IHl2. rewrite app_comm_cons, app_assoc in E. apply app_inj_tail in E. destruct E as [-> ->].
    apply in_app_or in I. destruct I as [I|[->|[]]]; [left; exists l1, l2; auto|right]. split; [reflexivity|]. exists l1, l2. rewrite B. auto.
  - intros [(l1 & l2 & -> & N & I & B)|(-> & l1 & l2 & -> & B & N)].
    + exists l1, (l2 ++ [g]). rewrite <- app_assoc. split; [reflexivity|]. split; [exact N|]. split; [apply in_or_app; now left|exact B].
    + exists l1, (l2 ++ [g]). rewrite <- app_assoc. split; [reflexivity|]. split; [now rewrite B|]. split; [apply in_or_app; right; now left|now symmetry].
Qed.
Lemma overlay_fold P : let '(seen, hidden) := fold_left overlay_step P ([], []) in
  (forall b t, get b seen = Some t <-> first_of b P t) /\ (forall b, get b seen = None -> forall x, In x P -> basename x <> b) /\
  (forall top f, (exists hs, get top hidden = Some hs /\ In f hs) <-> covered_by top f P).
Proof.
  induction P as [|g P IH] using rev_ind.
  - cbn. split; [|split]; [split; [discriminate|intros ([|] & l2 & E & _); discriminate]|intros b _ x []|]. split; [intros (hs & K & _); discriminate|intros ([|] & l2 & E & _); discriminate].
  - rewrite fold_left_app. cbn [fold_left]. destruct (fold_left overlay_step P ([], [])) as [seen hidden]. destruct IH as (S & NS & H). unfold overlay_step. destruct (get (basename g) seen) as [t|] eqn:G.
    + split; [|split].
      * intros b t'. rewrite S, first_of_snoc. split; [now left|]. intros [Q|(-> & B & N)]; [exact Q|]. exfalso. apply S in G. destruct G as (l1 & l2 & -> & B' & _). apply (N t); [apply in_or_app; right; now left|congruence].
      * intros b Q x I. apply in_app_or in I. destruct I as [I|[<-|[]]]; [exact (NS b Q x I)|]. intros <-. congruence.
      * intros top f. rewrite covered_by_snoc, <- H, get_put. destruct (seqb top t) eqn:E.
        -- apply seqb_eq in E. subst top. split.
           ++ intros (hs & Q & I). injection Q as <-. apply in_app_or in I. destruct I as [I|[<-|[]]]; [left|right; split; [reflexivity|now apply S]]. destruct (get t hidden) as [l|]; [eauto|destruct I].
           ++ intros [(hs & Q & I)|(-> & _)]; eexists; (split; [reflexivity|]); apply in_or_app; [left; now rewrite Q|right; now left].
        -- split; [now left|]. intros [Q|(-> & Q)]; [exact Q|]. apply S in G. rewrite (first_of_unique _ _ _ _ Q G), seqb_refl in E. discriminate.
    + split; [|split].
      * intros b t'. rewrite get_put, first_of_snoc. destruct (seqb b (basename g)) eqn:E.
        -- apply seqb_eq in E. subst b. split; [intros Q; injection Q as <-; right; split; [reflexivity|split; [reflexivity|exact (NS _ G)]]|]. intros [Q|(-> & _)]; [apply S in Q; congruence|reflexivity].
        -- rewrite S. split; [now left|]. intros [Q|(-> & <- & _)]; [exact Q|]. now rewrite seqb_refl in E.
      * intros b Q x I. rewrite get_put in Q. destruct (seqb b (basename g)) eqn:E; [discriminate|]. apply in_app_or in I. destruct I as [I|[<-|[]]]; [exact (NS b Q x I)|]. intros <-. now rewrite seqb_refl in E.
      * intros top f. rewrite covered_by_snoc, H. split; [now left|]. intros [Q|(_ & Q)]; [exact Q|]. apply S in Q. congruence.
Qed.
(** A recipe is reported as hidden by another one if that one has the same file name and
    comes last among those that have it. *)
Theorem overlayed_exact : forall bbfiles top f, (exists hs, get top (overlayed bbfiles) = Some hs /\ In f hs) <->
  exists l1 l2, bbfiles = l1 ++ top :: l2 /\ In f l1 /\ basename f = basename top /\ forall g, In g l2 -> basename g <> basename top.
Proof.
  intros l top f. unfold overlayed. pose proof (overlay_fold (rev l)) as X. destruct (fold_left overlay_step (rev l) ([], [])) as [seen hidden]. destruct X as (_ & _ & H). cbn [snd]. rewrite H. split.
  - intros (l1 & l2 & E & N & I & B). exists (rev l2), (rev l1). split; [rewrite <- (rev_involutive l), E, rev_app_distr; cbn; now rewrite <- app_assoc|]. split; [now apply -> in_rev|]. split; [exact B|]. intros g Q. apply N. now apply in_rev.
  - intros (l1 & l2 & -> & I & B & N). exists (rev l2), (rev l1). split; [rewrite rev_app_distr; cbn; now rewrite <- app_assoc|]. split; [intros g Q; apply N; now apply in_rev|]. split; [now apply -> in_rev|exact B].
Qed.
Example overlayed_met : overlayed [s_ "/low/a_1.bb"; s_ "/low/b_1.bb"; s_ "/mid/a_1.bb"; s_ "/high/a_1.bb"] = [(s_ "/high/a_1.bb", [s_ "/mid/a_1.bb"; s_ "/low/a_1.bb"])].
Proof. vm_compute. reflexivity. Qed.
Print Assumptions overlayed_exact.

(** ** C118 *)
Lemma named_basename f n : named f n <-> basename f = n.
Proof.
  split.
  - intros [N [->|(d & ->)]]; [|apply (basename_split d n); now apply no_char_In]. unfold basename. rewrite head_part_none by now apply no_char_In. reflexivity.
  - intros <-. assert (X : forall f, (head_part f = [] /\ ~ In slash f) \/ exists h n, f = h ++ slash :: n /\ ~ In slash n).
    { clear f. induction f as [|c f IH]; [left; auto|]. destruct IH as [[H N]|(h & n & -> & N)]; [|right; exists (c :: h), n; auto]. destruct (ascii_dec c slash) as [->|NE]; [right; exists [], f; auto|]. left. cbn. rewrite H. unfold is_slash. destruct (aeqb c slash) eqn:E; [apply aeqb_eq in E; contradiction|]. split; [reflexivity|]. intros [K|K]; auto. }
    destruct (X f) as [[H N]|(h & n & -> & N)].
    + unfold basename. rewrite H. cbn. split; auto.
    + rewrite (basename_split h n) by now apply no_char_In. split; [exact N|right; exists h; reflexivity].
Qed.
Lemma replace_end x : without (s_ ".bb") x -> replace_str (s_ ".bbappend") (s_ ".bb") (x ++ s_ ".bbappend") = x ++ s_ ".bb".
Proof.
  intros W. change (replace_aux (s_ ".bbappend") (s_ ".bb") 0 (x ++ s_ ".bbappend") = x ++ s_ ".bb"). induction x as [|c x IH]; [reflexivity|].
  assert (S : startswith (s_ ".bbappend") ((c :: x) ++ s_ ".bbappend") = false).
  { apply not_true_is_false. rewrite startswith_iff. intros (t & E). destruct (le_lt_dec 3 (length (c :: x))) as [L|L].
    - apply (W [] (skipn 3 (c :: x))). cbn [app]. rewrite <- (firstn_skipn 3 (c :: x)) at 1. f_equal. apply (f_equal (firstn 3)) in E. rewrite firstn_app in E. replace (3 - length (c :: x)) with 0 in E by lia. rewrite firstn_O, app_nil_r in E. exact E.
    - destruct x as [|c1 [|c2 x]]; cbn in E, L; [injection E as _ E; discriminate|injection E as _ _ E; discriminate|lia]. }
  cbn [app replace_aux]. cbn [app] in S. rewrite S. f_equal. apply IH. intros u v E. apply (W (c :: u) v). now rewrite E.
Qed.
Lemma applies_iff fn x : without (s_ ".bb") x -> (exists y, fn = y ++ s_ ".bb") ->
  applies_to fn (x ++ s_ ".bb") = true <-> (fn = x ++ s_ ".bb" \/ exists p q r, x = p ++ s_ "%" ++ q /\ ~ In "%"%char p /\ fn = p ++ r).
Proof.
  intros W (y & Y). unfold applies_to. rewrite orb_true_iff, seqb_eq. destruct (cut_at percent (x ++ s_ ".bb")) as [p b] eqn:C. destruct (cut_at_spec _ _ _ _ C) as [NP B]. apply no_char_In in NP. destruct b as [t|].
  - assert (Q : exists q, x = p ++ s_ "%" ++ q).
    { destruct (app_eq_app _ _ _ _ B) as (l & [[E1 E2]|[E1 E2]]).
      - destruct l as [|c l]; [|exists l; cbn in E2; injection E2 as <- _; exact E1]. exfalso. cbn in E2. discriminate.
      - exfalso. assert (I : In percent (s_ ".bb")) by (rewrite E2; apply in_or_app; right; now left). cbn in I. repeat destruct I as [I|I]; try discriminate; contradiction. }
    destruct Q as [q Q]. split.
    + intros [H|H]; [left; now symmetry|]. right. apply startswith_iff in H. destruct H as [t' H]. destruct (le_lt_dec (length p) (length fn)) as [L|L].
      * exists p, q, (skipn (length p) fn). split; [exact Q|]. split; [exact NP|]. rewrite <- (firstn_skipn (length p) fn) at 1. f_equal. rewrite B in H. apply (f_equal (firstn (length p))) in H. rewrite firstn_app, Nat.sub_diag, firstn_O, app_nil_r, firstn_all in H.
        rewrite firstn_app, firstn_firstn, Nat.min_id, firstn_length, Nat.min_l, Nat.sub_diag, firstn_O, app_nil_r in H by lia. now symmetry.
      * exfalso. rewrite (firstn_all2 fn) in H by lia. rewrite Y in H. apply (W y (skipn (length (y ++ s_ ".bb")) x)). rewrite app_assoc. rewrite <- (firstn_skipn (length (y ++ s_ ".bb")) x) at 1. f_equal.
        rewrite <- Y in *. apply (f_equal (firstn (length fn))) in H. rewrite (firstn_app _ fn), Nat.sub_diag, firstn_O, app_nil_r, firstn_all in H. rewrite firstn_app in H. assert (L2 : length fn <= length x) by (rewrite Q, app_length; lia). replace (length fn - length x) with 0 in H by lia. now rewrite firstn_O, app_nil_r in H.
    + intros [H|(p' & q' & r & E & N' & F)]; [left; now symmetry|]. right. assert (p' = p) as ->.
      { assert (CC : cut_at percent (p' ++ percent :: q') = cut_at percent (p ++ percent :: q)) by (f_equal; rewrite Q in E; symmetry; exact E). rewrite (cut_at_some percent p' q'), (cut_at_some percent p q) in CC by (now apply no_char_In). now injection CC. }
      rewrite F, firstn_app, Nat.sub_diag, firstn_O, app_nil_r, firstn_all, B. apply startswith_app.
  - split; [intros [H|H]; [left; now symmetry|discriminate]|]. intros [H|(p' & q' & r & E & N' & F)]; [left; now symmetry|]. exfalso. apply NP. rewrite <- B, E. apply in_or_app. left. apply in_or_app. right. now left.
Qed.
Definition wanted (bbmask fn f : str) : bool := (negb (masked bbmask f) && (negb (is_bb f) && is_append f) && applies_to (basename fn) (append_base f))%bool.
Lemma file_appends_filter config w bbfiles bbmask fn : file_appends config w bbfiles bbmask fn = filter (wanted bbmask fn) (new_files (sort_desc config) w bbfiles).
Proof.
  unfold file_appends, appends, unmasked. induction (new_files (sort_desc config) w bbfiles) as [|f l IH]; [reflexivity|]. cbn [filter]. unfold wanted. destruct (masked bbmask f); cbn [negb andb filter map]; [exact IH|].
  destruct (negb (is_bb f) && is_append f)%bool; cbn [andb filter map]; [|exact IH]. cbn [fst]. destruct (applies_to (basename fn) (append_base f)); cbn [map snd]; [f_equal|]; exact IH.
Qed.
(** The append files applied to a recipe are those that are found and meant for it
    (for names in which ".bb" occurs only at the end). *)
Theorem appends_exact : forall config w bbfiles bbmask fn y, whole_masks bbmask -> named fn (y ++ s_ ".bb") ->
  forall a x, named a (x ++ s_ ".bbappend") -> without (s_ ".bb") x ->
  In a (file_appends config w bbfiles bbmask fn) <-> (exists i, entry_of w bbfiles i /\ covers w i a) /\ ~ hidden_by_mask bbmask a /\ meant_for a fn.
Proof.
  intros config w bbfiles bbmask fn y W NF a x NA WX. rewrite file_appends_filter, filter_In, new_files_In. unfold wanted. rewrite !andb_true_iff, !negb_true_iff.
  assert (E : append_base a = x ++ s_ ".bb") by (unfold append_base; apply named_basename in NA; rewrite NA; now apply replace_end).
  assert (A1 : is_append a = true) by (apply append_iff; destruct NA as [_ [->|(d & ->)]]; [eauto|exists (d ++ s_ "/" ++ x); now rewrite <- !app_assoc]).
  assert (A2 : is_bb a = false).
  { apply not_true_is_false. intros K. apply bb_iff in K. destruct K as [u U]. apply append_iff in A1. destruct A1 as [v V]. rewrite V in U. apply (f_equal (@rev ascii)) in U. rewrite !rev_app_distr in U. discriminate. }
  rewrite E, A1, A2. apply named_basename in NF. rewrite NF. rewrite (applies_iff _ x WX (ex_intro _ y eq_refl)). rewrite <- (masked_iff bbmask a W), not_true_iff_false.
  assert (M : meant_for a fn <-> (y ++ s_ ".bb" = x ++ s_ ".bb" \/ exists p q r, x = p ++ s_ "%" ++ q /\ ~ In "%"%char p /\ y ++ s_ ".bb" = p ++ r)).
  { apply named_basename in NA. unfold meant_for. setoid_rewrite named_basename. rewrite NF. split.
    - intros (x' & N' & H). rewrite NA in N'. apply app_inv_tail in N'. subst x'. exact H.
    - intros H. exists x. auto. }
  rewrite M. tauto.
Qed.
Lemma before_filter {A} (P : A -> bool) a b l : before a b (filter P l) -> before a b l.
Proof.
  intros (l1 & l2 & l3 & E). revert l1 E. induction l as [|x r IH]; intros l1 E; [destruct l1; discriminate|]. cbn in E. destruct (P x).
  - destruct l1 as [|y l1]; cbn in E; injection E as -> E.
    + assert (I : In b (filter P r)) by (rewrite E; apply in_or_app; right; now left). apply filter_In in I. destruct I as [I _]. apply in_split in I. destruct I as (u & v & ->). exists [], u, v. reflexivity.
    + destruct (IH l1 E) as (u & v & t & ->). exists (y :: u), v, t. reflexivity.
  - destruct (IH l1 E) as (u & v & t & ->). exists (x :: u), v, t. reflexivity.
Qed.
Lemma before_snoc {A} (a b g : A) l : before a b (l ++ [g]) -> before a b l \/ (b = g /\ In a l).
Proof.
  intros (l1 & l2 & l3 & E). destruct l3 as [|x l3] using rev_ind.
  - right. replace (l1 ++ a :: l2 ++ [b]) with ((l1 ++ a :: l2) ++ [b]) in E by now rewrite <- app_assoc. apply app_inj_tail in E. destruct E as [-> ->]. split; [reflexivity|]. apply in_or_app. right. now left.
  - left. replace (l1 ++ a :: l2 ++ b :: l3 ++ [x]) with ((l1 ++ a :: l2 ++ b :: l3) ++ [x]) in E by (rewrite <- !app_assoc; cbn; now rewrite <- !app_assoc). apply app_inj_tail in E. destruct E as [-> _]. exists l1, l2, l3. reflexivity.
Qed.
Lemma add_new_before (a b : str) L : before a b (fold_left add_new L []) -> exists L1 L2, L = L1 ++ a :: L2 /\ ~ In b L1.
Proof.
  induction L as [|g r IH] using rev_ind; [intros ([|x l1] & l2 & l3 & E); discriminate|]. rewrite fold_left_app. cbn [fold_left]. set (res := fold_left add_new r []) in *.
  intros B. assert (X : before a b res -> exists L1 L2, r ++ [g] = L1 ++ a :: L2 /\ ~ In b L1) by (intros Y; destruct (IH Y) as (L1 & L2 & -> & N); exists L1, (L2 ++ [g]); rewrite <- app_assoc; auto).
  unfold add_new in B. destruct (mem_str g res) eqn:M; [auto|]. apply before_snoc in B. destruct B as [B|[-> I]]; [auto|].
  assert (NB : ~ In g r) by (intros K; assert (Q : In g res) by (apply add_new_In; now right); apply mem_str_In in Q; congruence).
  apply add_new_In in I. destruct I as [[]|I]. apply in_split in I. destruct I as (L1 & L2 & ->). exists L1, (L2 ++ [g]). split; [now rewrite <- app_assoc|]. intros K. apply NB. apply in_or_app. now left.
Qed.
Lemma sorted_split es (a b : str) w L : StronglySorted (asc es) L -> forall L1 L2, flat_map (item_files w) L = L1 ++ a :: L2 -> ~ In b L1 ->
  exists i, In i L /\ In a (item_files w i) /\ forall j, In j L -> In b (item_files w j) -> asc es i j.
Proof.
  induction 1 as [|i r S IH F]; intros L1 L2 E N; [destruct L1; discriminate|]. cbn in E. destruct (in_dec str_eq_dec a (item_files w i)) as [IA|NA].
  - exists i. split; [now left|]. split; [exact IA|]. rewrite Forall_forall in F. intros j [<-|J] _; [unfold asc; lia|exact (F j J)].
  - assert (X : exists L1', L1 = item_files w i ++ L1' /\ flat_map (item_files w) r = L1' ++ a :: L2).
    { revert E NA. generalize (item_files w i) (flat_map (item_files w) r). clear. intros u v. revert L1. induction u as [|x u IH]; intros L1 E NA; [exists L1; auto|]. destruct L1 as [|y L1]; cbn in E; injection E as -> E; [exfalso; apply NA; now left|].
      destruct (IH L1 E) as (L1' & -> & E'); [intros K; apply NA; now right|]. exists L1'. auto. }
    destruct X as (L1' & -> & E'). destruct (IH L1' L2 E') as (i' & I & A & Q); [intros K; apply N; apply in_or_app; now right|]. exists i'. split; [now right|]. split; [exact A|]. intros j [<-|J] B; [exfalso; apply N; apply in_or_app; now left|auto].
Qed.
(** Append files are applied in the order of the priorities: one that comes earlier
    belongs to an entry of BBFILES of no higher priority than any entry the later one
    belongs to. *)
Theorem appends_order : forall config w bbfiles bbmask fn a b, split_ws bbfiles <> [] -> before a b (file_appends config w bbfiles bbmask fn) ->
  exists i, In i (split_ws bbfiles) /\ covers w i a /\ forall j, In j (split_ws bbfiles) -> covers w j b -> (fst (file_priority (sort_desc config) i) <= fst (file_priority (sort_desc config) j))%Z.
Proof.
  intros config w bbfiles bbmask fn a b NE B. rewrite file_appends_filter in B. apply before_filter in B. unfold new_files in B. pose proof (sort_pri_perm (sort_desc config) (split_ws bbfiles)) as P. pose proof (sort_pri_sorted (sort_desc config) (split_ws bbfiles)) as S.
  destruct (sort_pri (sort_desc config) (split_ws bbfiles)) as [|x l]; [apply Permutation_nil in P; contradiction|]. apply add_new_before in B. destruct B as (L1 & L2 & E & N).
  destruct (sorted_split _ a b w _ S L1 L2 E N) as (i & I & A & Q). exists i. split; [exact (Permutation_in i P I)|]. split; [now apply item_files_In|]. intros j J C. apply Q; [exact (Permutation_in j (Permutation_sym P) J)|now apply item_files_In].
Qed.
Definition two_layers : fs := mkFs (fun _ => false) (fun _ => [])
  (fun i => if seqb i (s_ "/src/meta-a/*/z_%.bbappend") then [s_ "/src/meta-a/meta-b/z_%.bbappend"] else if seqb i (s_ "/src/meta-c/z_%.bbappend") then [s_ "/src/meta-c/z_%.bbappend"] else []) (fun _ => false) [].
(** The priority that counts is that of the pattern in BBFILES: if it reaches into the
    directory of a layer inside the layer, the append files of the inner layer are
    applied before those of a layer of lower priority. *)
Theorem nested_order_refuted : let fs := file_appends nested two_layers (s_ "/src/meta-c/z_%.bbappend /src/meta-a/*/z_%.bbappend") [] (s_ "/x/z_1.bb") in
  fs = [s_ "/src/meta-a/meta-b/z_%.bbappend"; s_ "/src/meta-c/z_%.bbappend"] /\ map (file_priority (sort_desc nested)) fs = [(10%Z, Some (s_ "inner")); (7%Z, Some (s_ "other"))].
Proof. vm_compute. auto. Qed.
(** A name with ".bb" in the middle: the append file for anything that begins with
    "a.bbx" is applied to a.bb. *)
Theorem short_recipe_refuted : exists a fn, ~ meant_for a fn /\ In a (file_appends [] (mkFs (fun _ => false) (fun _ => []) (fun i => [i]) (fun _ => false) []) a [] fn).
Proof.
  exists (s_ "a.bbx%.bbappend"), (s_ "a.bb"). split; [|vm_compute; auto]. intros (x & N & H). apply named_basename in N. change (s_ "a.bbx%" ++ s_ ".bbappend" = x ++ s_ ".bbappend") in N. apply app_inv_tail in N. subst x.
  destruct H as [H|(p & q & r & E & NP & H)].
  - apply named_basename in H. discriminate.
  - apply named_basename in H. change (s_ "a.bb" = p ++ r) in H. change (s_ "a.bbx" ++ percent :: [] = p ++ percent :: q) in E. assert (p = s_ "a.bbx") as ->.
    { assert (CC : cut_at percent (s_ "a.bbx" ++ percent :: []) = cut_at percent (p ++ percent :: q)) by now rewrite E. rewrite (cut_at_some percent p q) in CC by (now apply no_char_In). vm_compute in CC. injection CC as <- _. reflexivity. }
    discriminate.
Qed.
Example appends_met : file_appends [] one_dir (s_ "/l/*.bb*") [] (s_ "/k/a_2.bb") = [s_ "/l/a_%.bbappend"; s_ "/l/a_2.bbappend"] /\ file_appends [] one_dir (s_ "/l/*.bb*") [] (s_ "/k/a_3.bb") = [s_ "/l/a_%.bbappend"] /\
  named (s_ "/l/a_%.bbappend") (s_ "a_%" ++ s_ ".bbappend") /\ without (s_ ".bb") (s_ "a_%") /\ meant_for (s_ "/l/a_%.bbappend") (s_ "/k/a_3.bb").
Proof.
  split; [vm_compute; reflexivity|]. split; [vm_compute; reflexivity|]. split; [apply named_basename; reflexivity|]. split.
  - intros u v E. assert (I : In "."%char (s_ "a_%")) by (rewrite E; apply in_or_app; right; now left). cbn in I. repeat destruct I as [I|I]; try discriminate; contradiction.
  - exists (s_ "a_%"). split; [apply named_basename; reflexivity|]. right. exists (s_ "a_"), [], (s_ "3.bb"). split; [reflexivity|]. split; [cbn; intuition discriminate|apply named_basename; reflexivity].
Qed.
(** A layer whose pattern is empty has no files. *)
Theorem empty_pattern_nothing : forall config f p n, startswith (s_ "/") f = true -> file_priority (sort_desc config) f = (p, Some n) ->
  exists e, In e config /\ e_layer e = n /\ e_pri e = p /\ e_pattern e <> [].
Proof.
  intros config f p n A H. assert (P : forall e, In e (sort_desc config) -> In e config).
  { clear H. assert (Q : forall x l e, In e (insert_desc x l) -> e = x \/ In e l) by (intros x l; induction l as [|y r IH]; intros e I; cbn [insert_desc] in I; [destruct I as [<-|[]]; auto|]; destruct (str_leb (e_pattern y) (e_pattern x)); destruct I as [<-|I]; auto; [right; left; reflexivity|]; destruct (IH e I); auto; right; right; assumption).
    induction config as [|x r IH]; intros e I; [exact I|]. destruct (Q _ _ _ I) as [->|J]; [left; reflexivity|right; exact (IH e J)]. }
  induction (sort_desc config) as [|e l IH]; [discriminate H|]. cbn [file_priority] in H. destruct (re_match (e_pattern e) f) eqn:M.
  - injection H as <- <-. exists e. split; [apply P; left; reflexivity|]. split; [reflexivity|]. split; [reflexivity|]. intro E. rewrite E in M. cbn [re_match] in M. apply seqb_eq in M. subst f. discriminate A.
  - apply (IH H). intros x I. apply P. right. exact I.
Qed.
Example demo_empty_pattern : file_priority (sort_desc [mkEntry (s_ "none") [] 9; mkEntry (s_ "a") (s_ "^/src/a/") 5]) (s_ "/src/a/x.bb") = (5%Z, Some (s_ "a")).
Proof. vm_compute. reflexivity. Qed.
Print Assumptions empty_pattern_nothing.
Print Assumptions recipes_exact. Print Assumptions bar_mask_refuted. Print Assumptions appends_exact. Print Assumptions appends_order. Print Assumptions nested_order_refuted. Print Assumptions short_recipe_refuted.
Print Assumptions priorities_exact. Print Assumptions priority_determined. Print Assumptions errors_refused. Print Assumptions empty_pattern_refuted. Print Assumptions zero_priority_refuted. Print Assumptions layer_loop_refuted. Print Assumptions file_layer.
