(** Removing files, and the directories a task starts with. *)
From Coq Require Import Ascii String List Bool Arith Lia.
From Verif Require Import Str_Model Str_Proofs Posix_Model Path_Model Cleandirs_Model Cleandirs_Spec Cleandirs_Proofs.
Import ListNotations.
Open Scope list_scope.

(** Exactly these are refused: the root, the directory of the homes, a home in it, and HOME. *)
Theorem unsafe_paths cwd home p : plain_home home -> unsafe cwd home p = true <->
  exists q, tail_newline (abspath cwd p) q /\
    (q = s_ "/" \/ q = s_ "//" \/ q = s_ "/home" \/ (exists u, q = s_ "/home/" ++ u /\ ~ In "/"%char u) \/ home <> [] /\ like home q).
Proof. apply unsafe_iff. Qed.
Example unsafe_paths_met : plain_home (s_ "/var/lib/jenkins") /\
  map (unsafe (s_ "/w") (s_ "/var/lib/jenkins")) [s_ "/"; s_ "/home/x/"; s_ "../home"; s_ "/var//lib/jenkins"; s_ "a"; s_ "/var/lib"; s_ "/home/x/y"] = [true; true; true; true; false; false; false].
Proof. split; [|vm_compute; reflexivity]. intros c I J. vm_compute in I, J. intuition congruence. Qed.

(** Removing a directory by name: all of it goes and nothing else, or, if it is refused, nothing. *)
Theorem remove_named cwd home q t t' r : sound_files t -> Forall plain_name q -> Forall literal q -> remove cwd home (written q) true t = (t', r) ->
  (r = true <-> (exists k, In (q, k) t) /\ unsafe cwd home (written q) = true) /\ (r = true -> t' = t) /\
  (r = false -> forall e, In e t' <-> In e t /\ ~ within q (fst e)).
Proof. apply remove_written. Qed.
Theorem prune_named cwd home q t t' r : sound_files t -> Forall plain_name q -> Forall literal q -> prunedir cwd home (written q) t = (t', r) ->
  (r = true <-> unsafe cwd home (written q) = true) /\ (r = true -> t' = t) /\ (r = false -> forall e, In e t' <-> In e t /\ ~ within q (fst e)).
Proof.
  intros S F L. unfold prunedir. destruct (unsafe cwd home (written q)) eqn:U; intro H.
  - injection H as <- <-. split; [tauto|]. split; [reflexivity|discriminate].
  - destruct (remove_written cwd home q t t' r S F L H) as (A & B & C). rewrite U in A. split; [|split; assumption]. split; [intro R; apply A in R; tauto|discriminate].
Qed.

(** Whatever the pattern is: with several matches it is all or nothing, and homes do not go. *)
Theorem remove_spares cwd home pat t t' r : sound_files t -> plain_home home -> remove cwd home pat true t = (t', r) ->
  (r = true -> t' = t) /\ (forall e, In e t' -> In e t) /\
  (forall q k, In (q, k) t -> q = [s_ "home"] \/ (exists u, q = [s_ "home"; u]) -> In (q, k) t').
Proof.
  intros S P H. destruct (remove_cases cwd home _ _ _ _ H) as [(-> & -> & _)|(-> & [(_ & ->)|(_ & U & K)])]; [auto|split; [discriminate|auto]|].
  split; [discriminate|]. split; [intros e I; apply K in I; tauto|]. intros q k I Q. apply K. split; [exact I|]. intros [m j] M W. cbn [fst] in *.
  specialize (U _ M). cbn [fst] in U. assert (FM : Forall plain_name m) by exact (files_names t S m j (globbed_in _ _ _ M)).
  assert (X : unsafe cwd home (spell m) = true); [|congruence]. rewrite written_spell. apply (unsafe_iff cwd home (written m) P). exists (written m). rewrite abspath_written by exact FM. split; [left; reflexivity|].
  destruct W as (s & E). destruct m as [|a m]; [left; reflexivity|right; right].
  destruct Q as [Q|(u & Q)]; rewrite Q in E.
  - injection E as <- E. symmetry in E. apply app_eq_nil in E. destruct E as [-> _]. left. reflexivity.
  - injection E as <- E. destruct m as [|b m]; [left; reflexivity|]. injection E as <- E. symmetry in E. apply app_eq_nil in E. destruct E as [-> _].
    right; left. exists u. split; [cbn; now rewrite app_nil_r|]. inversion FM as [|? ? _ F2]. inversion F2 as [|? ? F3 _]. apply F3.
Qed.
Lemma like_refl l : like l l.
Proof. induction l as [|x l IH]; constructor; auto. Qed.
(** HOME goes only with a directory it is in. *)
Theorem remove_home cwd h pat t t' r k : sound_files t -> plain_home (written h) -> remove cwd (written h) pat true t = (t', r) ->
  In (h, k) t -> In (h, k) t' \/ exists a, strictly_within a h /\ ~ In (a, true) t'.
Proof.
  intros S P H I. destruct (remove_cases cwd (written h) _ _ _ _ H) as [(-> & -> & _)|(-> & [(_ & ->)|(_ & U & K)])]; [auto|auto|].
  destruct (existsb (fun m => below (fst m) h) (globbed pat t)) eqn:E.
  - apply existsb_exists in E. destruct E as ([m j] & M & W). cbn [fst] in W. apply below_iff in W. destruct (within_cases m h W) as [->|V].
    + exfalso. specialize (U _ M). cbn [fst] in U. rewrite written_spell in U. assert (X : unsafe cwd (written h) (written h) = true); [|congruence].
      apply (unsafe_iff cwd (written h) (written h) P). exists (written h). rewrite abspath_written by exact (files_names t S h k I). split; [left; reflexivity|]. right; right; right; right. split; [apply written_nonempty|].
      apply like_refl.
    + right. exists m. split; [exact V|]. intro J. apply K in J. apply (proj2 J (m, j) M). apply within_refl.
  - left. apply K. split; [exact I|]. intros m M W. cbn [fst] in W. apply below_iff in W. assert (X : existsb (fun m0 => below (fst m0) h) (globbed pat t) = true) by (apply existsb_exists; eauto). congruence.
Qed.

Lemma unlinks_cases names : forall t t' r, sound_files t -> (forall m, In m names -> In m t) -> NoDup (map fst names) -> unlinks names t = (t', r) ->
  sound_files t' /\ (forall e, In e t' -> In e t) /\ (forall q, In (q, true) t -> In (q, true) t') /\ (r = true <-> exists q, In (q, true) names) /\
  (forall e, In e t -> ~ In e names -> In e t') /\ (r = false -> forall e, In e t' -> ~ In e names).
Proof.
  induction names as [|[q [|]] names IH]; intros t t' r S M N H; cbn [unlinks] in H.
  - injection H as <- <-. split; [exact S|]. split; [auto|]. split; [auto|]. split; [split; [discriminate|intros (q & [])]|]. split; auto.
  - injection H as <- <-. split; [exact S|]. split; [auto|]. split; [auto|]. split; [split; [intros _; exists q; left; reflexivity|reflexivity]|]. split; [auto|discriminate].
  - set (t1 := filter (fun e => negb (path_eqb q (fst e))) t) in *.
    assert (K : forall e, In e t1 <-> In e t /\ q <> fst e).
    { intro e. unfold t1. rewrite filter_In, negb_true_iff. destruct (path_eqb q (fst e)) eqn:E; [apply path_eqb_iff in E|]; split; intros [A B]; try discriminate; try contradiction; split; auto. intro X. apply path_eqb_iff in X. congruence. }
    assert (Q : In (q, false) t) by (apply M; left; reflexivity). cbn in N. inversion N as [|? ? N1 N2]; subst.
    assert (S1 : sound_files t1).
    { constructor.
      - apply K. split; [apply files_root, S|]. cbn. intros ->. pose proof (root_dir t S _ Q). discriminate.
      - apply once_filter, files_once, S.
      - intros p k I. apply K in I. exact (files_names t S p k (proj1 I)).
      - intros p c k I. apply K in I. destruct I as [I _]. apply K. split; [exact (files_in t S p c k I)|]. cbn. intros ->. pose proof (once_kind t p _ _ (files_once t S) Q (files_in t S p c k I)). discriminate. }
    destruct (IH t1 t' r S1) as (A & B & C & D & E & F); [|exact N2|exact H|].
    + intros m I. apply K. split; [apply M; right; exact I|]. intros ->. apply N1. now apply in_map.
    + split; [exact A|]. split; [intros e I; apply B, K in I; tauto|]. split; [|split; [|split]].
      * intros p I. apply C, K. split; [exact I|]. cbn. intros ->. pose proof (once_kind t p _ _ (files_once t S) Q I). discriminate.
      * rewrite D. split; [intros (p & I); exists p; right; exact I|]. intros (p & [I|I]); [discriminate|eauto].
      * intros e I J. apply E; [|intro X; apply J; right; exact X]. apply K. split; [exact I|]. intros ->. apply J. left. destruct e as [p k]. cbn. f_equal. exact (once_kind t p _ _ (files_once t S) Q I).
      * intros R e I [X|X]; [|exact (F R e I X)]. subst e. apply B, K in I. apply (proj2 I). reflexivity.
Qed.
(** Without recursion directories stay, and only they are errors; files that match go, the others stay. *)
Theorem remove_files cwd home pat t t' r : sound_files t -> remove cwd home pat false t = (t', r) ->
  (forall e, In e t' -> In e t) /\ (forall q, In (q, true) t -> In (q, true) t') /\
  (forall q, Forall plain_name q -> Forall literal q -> pat = written q ->
    (r = true <-> In (q, true) t) /\ (r = false -> forall e, In e t' <-> In e t /\ fst e <> q)).
Proof.
  intros S H. destruct pat as [|c pat].
  - injection H as <- <-. split; [auto|]. split; [auto|]. intros q _ _ E. exfalso. symmetry in E. exact (written_nonempty q E).
  - cbn [remove] in H. destruct (unlinks_cases (globbed (c :: pat) t) t t' r S) as (A & B & C & D & E & F); [intros m; apply globbed_in|apply once_filter, files_once, S|exact H|].
    split; [exact B|]. split; [exact C|]. intros q FQ L P. rewrite P in *. assert (G := fun e => globbed_written q t e FQ L (root_dir t S)). split.
    + rewrite D. split; [intros (p & I); apply G in I; destruct I as [I X]; cbn in X; now subst|]. intro I. exists q. apply G. auto.
    + intros R e. split.
      * intro I. split; [exact (B e I)|]. intros X. apply (F R e I), G. split; [exact (B e I)|exact X].
      * intros [I X]. apply E; [exact I|]. intro J. apply G in J. tauto.
Qed.

(** ** cleandirs *)
Lemma clean_step cwd home d t t' : sound_files t -> Forall plain_name d -> Forall literal d -> cleandirs cwd home [written d] t = (t', false) ->
  sound_files t' /\ forall e, In e t' <-> (In e t /\ ~ within d (fst e)) \/ (snd e = true /\ within (fst e) d).
Proof.
  intros S F L. cbn [cleandirs]. destruct (remove cwd home (written d) true t) as [t1 [|]] eqn:R; [discriminate|]. unfold mkdirhier.
  destruct (contains_sub (s_ "${") (written d)); [discriminate|]. rewrite comps_written by exact F. destruct (makedirs [] d t1) as [t2 [|]] eqn:M; [discriminate|]. intro H. injection H as <-.
  pose proof (remove_sound cwd home _ _ _ _ S R) as S1. split; [exact (makedirs_sound d [] t1 t2 S1 F (files_root t1 S1) M)|].
  intro e. rewrite (makedirs_in d [] t1 t2 M e). cbn [app]. destruct (remove_written cwd home d t t1 false S F L R) as (A & _ & B). rewrite (B eq_refl). split.
  - intros [I|(D & _ & W)]; auto.
  - intros [I|(D & W)]; [auto|]. destruct e as [[|a p] k]; cbn [fst snd] in *; [|right; split; [exact D|]; split; [exists a, p; reflexivity|exact W]].
    left. subst k. split; [apply files_root, S|]. intros (r & E). symmetry in E. apply app_eq_nil in E. destruct E as [-> _].
    assert (X : false = true) by (apply A; split; [exists true; apply files_root, S|reflexivity]). discriminate.
Qed.
Lemma cleandirs_cons cwd home d ds t t' : cleandirs cwd home (d :: ds) t = (t', false) -> exists t1, cleandirs cwd home [d] t = (t1, false) /\ cleandirs cwd home ds t1 = (t', false).
Proof.
  cbn [cleandirs]. destruct (remove cwd home d true t) as [t1 [|]]; [discriminate|]. destruct (mkdirhier d t1) as [t2 [|]]; [discriminate|]. eauto.
Qed.
(** When a function starts: nothing from before is in the directories of cleandirs, only, it may be, others of them; everything
    else is as it was; and each is there, if no later one is above it. *)
Theorem cleandirs_clean cwd home ds t t' : sound_files t -> Forall (Forall plain_name) ds -> Forall (Forall literal) ds ->
  cleandirs cwd home (map written ds) t = (t', false) ->
  (forall d p k, In d ds -> strictly_within d p -> In (p, k) t' -> k = true /\ exists d', In d' ds /\ within p d') /\
  (forall e, In e t -> (forall d, In d ds -> ~ within d (fst e)) -> In e t') /\
  (forall e, In e t' -> In e t \/ snd e = true /\ exists d, In d ds /\ within (fst e) d) /\
  (forall l d l', ds = l ++ d :: l' -> (forall d', In d' l' -> ~ strictly_within d' d) -> In (d, true) t').
Proof.
  intros S F L H. revert t S H. induction ds as [|d ds IH]; intros t S H.
  - cbn in H. injection H as <-. split; [intros d p k []|]. split; [auto|]. split; [auto|]. intros l d l' E. destruct l; discriminate.
  - cbn [map] in H. apply cleandirs_cons in H. destruct H as (t1 & H1 & H). inversion F as [|? ? F1 F2]; subst. inversion L as [|? ? L1 L2]; subst.
    destruct (clean_step cwd home d t t1 S F1 L1 H1) as [S1 K]. destruct (IH F2 L2 t1 S1 H) as (A & B & C & D). split; [|split; [|split]].
    + intros x p k [<-|I] W J.
      * destruct (C (p, k) J) as [J1|(E & y & Y & V)]; cbn [fst snd] in *.
        -- apply K in J1. cbn [fst snd] in J1. destruct J1 as [(_ & N)|(E & V)]; [exfalso; apply N; destruct W as (a & r & ->); exists (a :: r); reflexivity|]. split; [exact E|]. exists d. split; [left; reflexivity|exact V].
        -- split; [exact E|]. exists y. split; [right; exact Y|exact V].
      * destruct (A x p k I W J) as (E & y & Y & V). split; [exact E|]. exists y. split; [right; exact Y|exact V].
    + intros e I N. apply B; [|intros x X; apply N; right; exact X]. apply K. left. split; [exact I|]. apply N. left. reflexivity.
    + intros e I. destruct (C e I) as [J|(E & y & Y & V)].
      * apply K in J. destruct J as [(J & _)|(E & V)]; [auto|]. right. split; [exact E|]. exists d. split; [left; reflexivity|exact V].
      * right. split; [exact E|]. exists y. split; [right; exact Y|exact V].
    + intros [|x l] y l' E N; cbn in E; injection E as -> E.
      * subst l'. assert (Y : In (y, true) t1) by (apply K; right; split; [reflexivity|apply within_refl]).
        destruct (in_dec (list_eq_dec (list_eq_dec Ascii.ascii_dec)) y ds) as [J|J].
        -- assert (X : exists l l', ds = l ++ y :: l' /\ ~ In y l') by (destruct (in_split y (rev ds)) as (a & b & Q); [now apply in_rev in J|]; clear -J; induction ds as [|z ds IHd]; [destruct J|]; destruct (in_dec (list_eq_dec (list_eq_dec Ascii.ascii_dec)) y ds) as [I|I]; [destruct (IHd I) as (l & l' & -> & M); exists (z :: l), l'; auto|destruct J as [->|J]; [exists [], ds; auto|contradiction]]).
           destruct X as (l & l' & Q & M). apply (D l y l' Q). intros d' I. apply N. rewrite Q. apply in_or_app. right. right. exact I.
        -- apply B; [exact Y|]. intros d' I W. cbn [fst] in W. destruct (within_cases d' y W) as [->|V]; [contradiction|]. exact (N d' I V).
      * exact (D l y l' E N).
Qed.
(** It works, unless one of them is guarded, or in something that is no directory. *)
Theorem cleandirs_works cwd home ds t : sound_files t -> Forall (Forall plain_name) ds -> Forall (Forall literal) ds ->
  (forall d, In d ds -> unsafe cwd home (written d) = false /\ contains_sub (s_ "${") (written d) = false /\ forall p, strictly_within p d -> ~ In (p, false) t) ->
  exists t', cleandirs cwd home (map written ds) t = (t', false).
Proof.
  intros S F L G. revert t S G. induction ds as [|d ds IH]; intros t S G; [eexists; reflexivity|]. inversion F as [|? ? F1 F2]; subst. inversion L as [|? ? L1 L2]; subst.
  destruct (G d (or_introl eq_refl)) as (U & X & P). 
  assert (H1 : exists t1, cleandirs cwd home [written d] t = (t1, false)).
  { cbn [cleandirs]. destruct (remove cwd home (written d) true t) as [t1 r] eqn:R. destruct (remove_written cwd home d t t1 r S F1 L1 R) as (A & _ & B).
    destruct r; [exfalso; destruct (proj1 A eq_refl); congruence|]. unfold mkdirhier. rewrite X, comps_written by exact F1.
    destruct (makedirs_ok d [] t1) as (t2 & ->); [|eauto]. intros p _ W I. apply (B eq_refl) in I. cbn [fst app] in *. destruct I as [I N]. destruct (within_cases p d W) as [->|V]; [apply N, within_refl|exact (P p V I)]. }
  destruct H1 as (t1 & H1). destruct (clean_step cwd home d t t1 S F1 L1 H1) as [S1 K]. destruct (IH F2 L2 t1 S1) as (t' & H').
  - intros d' I. destruct (G d' (or_intror I)) as (U' & X' & P'). split; [exact U'|]. split; [exact X'|]. intros p W J. apply K in J. cbn [fst snd] in J. destruct J as [[J _]|[J _]]; [exact (P' p W J)|discriminate].
  - exists t'. cbn [map]. cbn [cleandirs] in H1 |- *. destruct (remove cwd home (written d) true t) as [t2 [|]]; [discriminate|]. destruct (mkdirhier (written d) t2) as [t3 [|]]; [discriminate|]. injection H1 as ->. exact H'.
Qed.
(** dirs are made, nothing else is changed. *)
Theorem dirs_made ds : forall t t', sound_files t -> Forall (Forall plain_name) ds -> mkdirs (map written ds) t = (t', false) ->
  forall e, In e t' <-> In e t \/ snd e = true /\ exists d, In d ds /\ within (fst e) d.
Proof.
  induction ds as [|d ds IH]; intros t t' S F H e.
  - cbn in H. injection H as <-. split; [auto|]. intros [I|(_ & d & [] & _)]; exact I.
  - cbn [map mkdirs] in H. unfold mkdirhier in H. destruct (contains_sub (s_ "${") (written d)); [discriminate|]. inversion F as [|? ? F1 F2]; subst. rewrite comps_written in H by exact F1.
    destruct (makedirs [] d t) as [t1 [|]] eqn:M; [discriminate|]. pose proof (makedirs_sound d [] t t1 S F1 (files_root t S) M) as S1.
    rewrite (IH t1 t' S1 F2 H e), (makedirs_in d [] t t1 M e). cbn [app]. split.
    + intros [[I|(E & _ & W)]|(E & y & Y & W)]; [auto|right; split; [exact E|]; exists d; split; [left; reflexivity|exact W]|right; split; [exact E|]; exists y; split; [right; exact Y|exact W]].
    + intros [I|(E & y & [->|Y] & W)]; [auto| |right; eauto]. left. destruct e as [[|a p] k]; cbn [fst snd] in *; [left; subst k; apply files_root, S|]. right. split; [exact E|]. split; [exists a, p; reflexivity|exact W].
Qed.

Definition ex_tree : tree :=
  [([], true); ([s_ "w"], true); ([s_ "w"; s_ "d"], true); ([s_ "w"; s_ "d"; s_ "old"], false); ([s_ "w"; s_ "d"; s_ "e"], true); ([s_ "w"; s_ "d"; s_ "e"; s_ "f"], false); ([s_ "w"; s_ "log"], false);
   ([s_ "home"], true); ([s_ "home"; s_ "me"], true); ([s_ "var"], true); ([s_ "var"; s_ "ci"], true)].
Lemma plain_names l : forallb (fun c => negb (seqb c []) && negb (seqb c (s_ ".")) && negb (seqb c (s_ "..")) && negb (existsb (aeqb "/"%char) c)) l = true -> Forall plain_name l.
Proof.
  intro H. rewrite forallb_forall in H. apply Forall_forall. intros c I. specialize (H c I). rewrite !andb_true_iff, !negb_true_iff in H. destruct H as [[[A B] C] D].
  repeat split; [now apply seqb_neq|now apply seqb_neq|now apply seqb_neq|]. intro J. apply existsb_in in J. congruence.
Qed.
Example ex_tree_sound : sound_files ex_tree.
Proof.
  constructor.
  - left. reflexivity.
  - assert (X : forall l : list (list str), (fix nd (l : list (list str)) : bool := match l with [] => true | x :: l => negb (existsb (path_eqb x) l) && nd l end) l = true -> NoDup l).
    { induction l as [|x l IH]; intro H; constructor; apply andb_true_iff in H; destruct H as [H1 H2]; [|exact (IH H2)]. intro I. apply negb_true_iff in H1. assert (Y : existsb (path_eqb x) l = true) by (apply existsb_exists; exists x; split; [exact I|now apply path_eqb_iff]). congruence. }
    apply X. vm_compute. reflexivity.
  - intros q k I. apply plain_names. cbn in I. repeat (destruct I as [I|I]; [injection I as <- <-; reflexivity|]). destruct I.
  - intros q c k I. assert (X : forall a b, q ++ [c] = a ++ [b] -> q = a) by (intros a b E; apply app_inj_tail in E; tauto).
    cbn in I. repeat (destruct I as [I|I]; [injection I as I _; first [symmetry in I; apply app_eq_nil in I; destruct I; discriminate
      | symmetry in I; apply (X [] _) in I; subst; cbn; auto 20 | symmetry in I; apply (X [_] _) in I; subst; cbn; auto 20 | symmetry in I; apply (X [_; _] _) in I; subst; cbn; auto 20 | symmetry in I; apply (X [_; _; _] _) in I; subst; cbn; auto 20]|]). destruct I.
Qed.
Example cleandirs_met : cleandirs (s_ "/") (s_ "/var/ci") (map written [[s_ "w"; s_ "d"]; [s_ "w"; s_ "d"; s_ "x"]]) ex_tree =
  ([([], true); ([s_ "w"], true); ([s_ "w"; s_ "log"], false); ([s_ "home"], true); ([s_ "home"; s_ "me"], true); ([s_ "var"], true); ([s_ "var"; s_ "ci"], true); ([s_ "w"; s_ "d"], true); ([s_ "w"; s_ "d"; s_ "x"], true)], false).
Proof. vm_compute. reflexivity. Qed.
Example remove_met : remove (s_ "/") (s_ "/var/ci") (s_ "/*/d") true ex_tree = (filter (fun e => negb (below [s_ "w"; s_ "d"] (fst e))) ex_tree, false) /\
  remove (s_ "/") (s_ "/var/ci") (s_ "/*/*") true ex_tree = (ex_tree, true) /\ snd (remove (s_ "/") (s_ "/var/ci") (s_ "/var/ci") true ex_tree) = true /\
  remove (s_ "/") [] (s_ "/w/l*") false ex_tree = (filter (fun e => negb (path_eqb [s_ "w"; s_ "log"] (fst e))) ex_tree, false) /\ snd (remove (s_ "/") [] (s_ "/w/*") false ex_tree) = true.
Proof. vm_compute. auto. Qed.

(** The guard does not know HOME if it is written with a slash at the end. *)
Theorem home_slash_refuted : exists home h t, abspath (s_ "/") home = written h /\ plain_home home /\ In (h, true) t /\ remove (s_ "/") home (written h) true t = ([([], true)], false).
Proof.
  exists (s_ "/root/"), [s_ "root"], [([], true); ([s_ "root"], true)]. split; [reflexivity|]. split; [|split; [cbn; auto|vm_compute; reflexivity]].
  intros c I J. vm_compute in I, J. intuition congruence.
Qed.
(** Nor if it has a character that means something to re. *)
Theorem home_regex_refuted : exists h t, Forall plain_name h /\ In (h, true) t /\ remove (s_ "/") (written h) (written h) true t = ([([], true)], false).
Proof. exists [s_ "c+"], [([], true); ([s_ "c+"], true)]. split; [apply plain_names; reflexivity|]. split; [cbn; auto|vm_compute; reflexivity]. Qed.
(** What HOME is in is not guarded. *)
Theorem home_above_refuted : exists h pat, In (h, true) ex_tree /\ In ([], true) (fst (remove (s_ "/") (written h) pat true ex_tree)) /\ snd (remove (s_ "/") (written h) pat true ex_tree) = false /\ ~ In (h, true) (fst (remove (s_ "/") (written h) pat true ex_tree)).
Proof.
  exists [s_ "var"; s_ "ci"], (s_ "/var"). split; [cbn; auto 20|]. split; [vm_compute; auto|]. split; [vm_compute; reflexivity|]. vm_compute. intro H. repeat (destruct H as [H|H]; [discriminate|]). exact H.
Qed.
(** A directory with a bracket in its name is not emptied, but another one is. *)
Theorem cleandirs_bracket_refuted : exists d other t t', Forall plain_name d /\ cleandirs (s_ "/") [] [written d] t = (t', false) /\
  In (d ++ [s_ "old"], false) t' /\ In (other ++ [s_ "old"], false) t /\ ~ within d other /\ forall k, ~ In (other, k) t'.
Proof.
  exists [s_ "a[1]"], [s_ "a1"], [([], true); ([s_ "a[1]"], true); ([s_ "a[1]"; s_ "old"], false); ([s_ "a1"], true); ([s_ "a1"; s_ "old"], false)].
  exists [([], true); ([s_ "a[1]"], true); ([s_ "a[1]"; s_ "old"], false)].
  split; [apply plain_names; reflexivity|]. split; [vm_compute; reflexivity|]. split; [cbn; auto 10|]. split; [cbn; auto 10|]. split; [intros (r & E); discriminate|].
  intros k H. repeat (destruct H as [H|H]; [discriminate|]). destruct H.
Qed.
(** With a directory after one that is in it, the one in it is not there in the end. *)
Theorem cleandirs_order_refuted : exists a b t', In [s_ "w"; s_ "d"; s_ "e"] [a; b] /\ cleandirs (s_ "/") [] (map written [a; b]) ex_tree = (t', false) /\ forall k, ~ In ([s_ "w"; s_ "d"; s_ "e"], k) t'.
Proof.
  exists [s_ "w"; s_ "d"; s_ "e"], [s_ "w"; s_ "d"]. eexists. split; [left; reflexivity|]. split; [vm_compute; reflexivity|]. intros k H. vm_compute in H. repeat (destruct H as [H|H]; [discriminate|]). exact H.
Qed.

Print Assumptions unsafe_paths.
Print Assumptions remove_named.
Print Assumptions prune_named.
Print Assumptions remove_spares.
Print Assumptions remove_home.
Print Assumptions remove_files.
Print Assumptions cleandirs_clean.
Print Assumptions cleandirs_works.
Print Assumptions dirs_made.
