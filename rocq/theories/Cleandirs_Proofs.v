(** Lemmas about removing. *)
From Coq Require Import Ascii String List Bool Arith Lia.
From Verif Require Import Str_Model Str_Proofs Posix_Model Posix_Proofs Path_Model Path_Proofs Filesum_Spec Filesum_Proofs Cleandirs_Model Cleandirs_Spec.
Import ListNotations.
Open Scope list_scope.

Lemma aeqb_true a b : aeqb a b = true <-> a = b.
Proof. split; [apply aeqb_eq|intros ->; apply aeqb_refl]. Qed.
Lemma existsb_in c l : existsb (aeqb c) l = true <-> In c l.
Proof. rewrite existsb_exists. split; [intros (x & I & E); apply aeqb_eq in E; now subst|intro I; exists c; split; [exact I|apply aeqb_refl]]. Qed.

(** ** The guard *)
Lemma rx_end_iff s : rx_end s = true <-> s = [] \/ s = [ascii_of_nat 10].
Proof.
  destruct s as [|c [|d s]]; cbn [rx_end]; [tauto| |split; [discriminate|intros [H|H]; discriminate]].
  rewrite aeqb_true. split; [intros ->; auto|]. intros [H|H]; [discriminate|now injection H].
Qed.
Lemma to_end_iff s : to_end s = true <-> exists u, ~ In slash u /\ tail_newline s u.
Proof.
  induction s as [|c s IH]; cbn [to_end].
  - split; [intros _; exists []; split; [intros []|left; reflexivity]|reflexivity].
  - rewrite orb_true_iff, andb_true_iff, negb_true_iff, IH, rx_end_iff. split.
    + intros [[H|H]|[N (u & I & T)]].
      * discriminate.
      * exists []. split; [intros []|right; exact H].
      * exists (c :: u). split; [intros [E|J]; [subst c; rewrite aeqb_refl in N; discriminate|exact (I J)]|]. destruct T as [-> | ->]; [left|right]; reflexivity.
    + intros (u & I & T). destruct u as [|d u].
      * destruct T as [T|T]; [discriminate|left; right; exact T].
      * right. assert (c = d /\ tail_newline s u) as [-> T'] by (destruct T as [T|T]; injection T; intros -> ->; split; auto; [left|right]; reflexivity).
        split; [destruct (aeqb d slash) eqn:E; [apply aeqb_eq in E; subst; exfalso; apply I; left; reflexivity|reflexivity]|]. exists u. split; [intro J; apply I; right; exact J|exact T'].
Qed.
Lemma after_iff pre s k : after pre s k = true <-> exists r, s = pre ++ r /\ k r = true.
Proof.
  unfold after. rewrite andb_true_iff, startswith_iff. split.
  - intros [(t & ->) H]. exists t. rewrite skipn_app, Nat.sub_diag, skipn_all in H. auto.
  - intros (r & -> & H). split; [eauto|]. rewrite skipn_app, Nat.sub_diag, skipn_all. exact H.
Qed.
Lemma after_end pre s : after pre s rx_end = true <-> tail_newline s pre.
Proof.
  rewrite after_iff. unfold tail_newline. split.
  - intros (r & -> & H). apply rx_end_iff in H. destruct H as [-> | ->]; [left; apply app_nil_r|right; reflexivity].
  - intros [-> | ->]; [exists []; split; [symmetry; apply app_nil_r|reflexivity]|eexists; split; reflexivity].
Qed.
Lemma plain_meta c : ~ In c (list_ascii_of_string "\^$|()[]{}*+?") -> other_meta c = false /\ quant_of c = None.
Proof.
  intro N. split.
  - unfold other_meta. destruct (existsb (aeqb c) (list_ascii_of_string "\^$|()[]{}")) eqn:E; [|reflexivity]. apply existsb_in in E. exfalso. apply N.
    change (list_ascii_of_string "\^$|()[]{}*+?") with (list_ascii_of_string "\^$|()[]{}" ++ list_ascii_of_string "*+?"). apply in_or_app. left. exact E.
  - assert (M : forall d, In d (list_ascii_of_string "*+?") -> aeqb c d = false).
    { intros d I. destruct (aeqb c d) eqn:E; [|reflexivity]. apply aeqb_eq in E. subst d. exfalso. apply N.
      change (list_ascii_of_string "\^$|()[]{}*+?") with (list_ascii_of_string "\^$|()[]{}" ++ list_ascii_of_string "*+?"). apply in_or_app. right. exact I. }
    unfold quant_of. rewrite !M by (cbn; auto). reflexivity.
Qed.
Lemma parse_plain h : plain_home h -> rx_parse h = Some (map (fun c => (c, One)) h).
Proof.
  induction h as [|c h IH]; intro P; [reflexivity|]. cbn [rx_parse map].
  destruct (plain_meta c (P c (or_introl eq_refl))) as [-> ->].
  assert (IH' : rx_parse h = Some (map (fun c => (c, One)) h)) by (apply IH; intros d I; apply P; right; exact I).
  destruct h as [|q h]; [reflexivity|]. destruct (plain_meta q (P q (or_intror (or_introl eq_refl)))) as [_ ->]. rewrite IH'. reflexivity.
Qed.
Lemma rx_char_iff p c : rx_char p c = true <-> p = c \/ p = "."%char /\ c <> ascii_of_nat 10.
Proof.
  unfold rx_char. destruct (aeqb p "."%char) eqn:E.
  - apply aeqb_eq in E. subst p. rewrite negb_true_iff. split.
    + intro H. right. split; [reflexivity|]. intros ->. discriminate.
    + intros [<-|[_ N]]; [reflexivity|]. destruct (aeqb c newline) eqn:F; [apply aeqb_eq in F; contradiction|reflexivity].
  - rewrite aeqb_true. split; [auto|]. intros [H|[-> _]]; [exact H|discriminate].
Qed.
Lemma match_plain h s : rx_match (map (fun c => (c, One)) h) s = true <-> exists q, tail_newline s q /\ like h q.
Proof.
  revert s. induction h as [|c h IH]; intro s; cbn [map rx_match].
  - rewrite rx_end_iff. split.
    + intros [-> | ->]; exists []; (split; [|constructor]); [left|right]; reflexivity.
    + intros (q & T & L). inversion L; subst. destruct T as [-> | ->]; auto.
  - destruct s as [|d s].
    + split; [discriminate|]. intros (q & T & L). inversion L; subst. destruct T as [T|T]; discriminate.
    + rewrite andb_true_iff, rx_char_iff, IH. split.
      * intros (C & q & T & L). exists (d :: q). split; [destruct T as [-> | ->]; [left|right]; reflexivity|constructor; assumption].
      * intros (q & T & L). inversion L as [|? e ? q' C L']; subst. destruct T as [T|T]; injection T; intros -> ->; (split; [exact C|]); exists q'; (split; [|exact L']); [left|right]; reflexivity.
Qed.
Lemma unsafe_iff cwd home p : plain_home home -> unsafe cwd home p = true <->
  exists q, tail_newline (abspath cwd p) q /\
    (q = s_ "/" \/ q = s_ "//" \/ q = s_ "/home" \/ (exists u, q = s_ "/home/" ++ u /\ ~ In "/"%char u) \/ home <> [] /\ like home q).
Proof.
  intro P. unfold unsafe. cbn zeta. rewrite !orb_true_iff, !after_end, after_iff. rewrite (parse_plain home P).
  assert (H : match home with [] => false | _ => rx_match (map (fun c => (c, One)) home) (abspath cwd p) end = true <-> home <> [] /\ exists q, tail_newline (abspath cwd p) q /\ like home q).
  { destruct home as [|c h]; [split; [discriminate|intros [[] _]; reflexivity]|]. rewrite match_plain. split; [intro; split; [discriminate|assumption]|tauto]. }
  rewrite H. split.
  - intros [[[[T|T]|T]|(r & E & K)]|(N & q & T & L)].
    + exists (s_ "/"). auto.
    + exists (s_ "//"). auto.
    + exists (s_ "/home"). auto.
    + apply to_end_iff in K. destruct K as (u & I & T). exists (s_ "/home/" ++ u). split; [rewrite E; destruct T as [-> | ->]; [left; reflexivity|right; now rewrite app_assoc]|]. right; right; right; left. eauto.
    + exists q. split; [exact T|]. right; right; right; right. auto.
  - intros (q & T & [->|[->|[->|[(u & -> & I)|[N L]]]]]); auto.
    + left; right. unfold tail_newline in T. rewrite <- app_assoc in T. destruct T as [T|T]; eexists; (split; [exact T|]); apply to_end_iff; exists u; (split; [exact I|]); [left|right]; reflexivity.
    + right. split; [exact N|]. eauto.
Qed.

(** ** Paths *)
Lemma below_iff q p : below q p = true <-> within q p.
Proof.
  revert p. induction q as [|a q IH]; intro p; cbn [below]; [split; [exists p; reflexivity|reflexivity]|].
  destruct p as [|b p]; [split; [discriminate|intros (r & E); discriminate]|]. rewrite andb_true_iff, seqb_eq, IH. split.
  - intros [-> (r & ->)]. exists r. reflexivity.
  - intros (r & E). injection E. intros -> ->. split; [reflexivity|exists r; reflexivity].
Qed.
Lemma within_refl q : within q q. Proof. exists []. symmetry. apply app_nil_r. Qed.
Lemma within_trans a b c : within a b -> within b c -> within a c.
Proof. intros (r & ->) (r' & ->). exists (r ++ r'). now rewrite app_assoc. Qed.
Lemma within_anti a b : within a b -> within b a -> a = b.
Proof. intros (r & ->) (r' & E). rewrite <- app_assoc in E. rewrite <- (app_nil_r a) in E at 1. apply app_inv_head in E. symmetry in E. apply app_eq_nil in E. destruct E as [-> _]. symmetry. apply app_nil_r. Qed.
Lemma path_eqb_iff a b : path_eqb a b = true <-> a = b.
Proof. unfold path_eqb. rewrite andb_true_iff, !below_iff. split; [intros [A B]; now apply within_anti|intros ->; split; apply within_refl]. Qed.
Lemma within_cases a p : within a p -> a = p \/ strictly_within a p.
Proof. intros ([|x r] & ->); [left; symmetry; apply app_nil_r|right; exists x, r; reflexivity]. Qed.

Lemma name_plain c : plain_name c <-> file_name c.
Proof. unfold plain_name, file_name. tauto. Qed.
Lemma concat_path q : concat (map (fun c => "/"%char :: c) q) = path_of q.
Proof. unfold path_of. symmetry. apply flat_map_concat_map. Qed.
Lemma written_spell q : spell q = written q.
Proof.
  destruct q as [|c q]; [reflexivity|]. unfold spell, written. rewrite concat_path, path_ptail. symmetry. apply ptail_join. discriminate.
Qed.
Lemma comps_written q : Forall plain_name q -> comps (written q) = q.
Proof.
  intro F. rewrite <- written_spell. unfold comps, spell. change (slash :: join [slash] q) with ([] ++ slash :: join [slash] q).
  rewrite split_on_cons by constructor. destruct q as [|c q]; [reflexivity|].
  rewrite split_on_join; [|discriminate|eapply Forall_impl; [|exact F]; intros a H; apply no_char_In; apply H].
  change (filter (fun c0 => negb (seqb c0 [])) ([] :: c :: q)) with (filter (fun c0 => negb (seqb c0 [])) (c :: q)).
  clear -F. induction F as [|d l H F IH]; [reflexivity|]. cbn [filter].
  destruct (seqb d []) eqn:E; [apply seqb_eq in E; destruct H as [N _]; contradiction|]. cbn [negb]. f_equal.
  exact IH.
Qed.
Lemma abspath_written cwd q : Forall plain_name q -> abspath cwd (written q) = written q.
Proof.
  intro F. unfold abspath. destruct q as [|c q]; [reflexivity|].
  assert (E : written (c :: q) = path_of (c :: q)) by (unfold written; apply concat_path). rewrite E.
  change (isabs (path_of (c :: q))) with true. cbv iota. apply normpath_clean; [|discriminate]. eapply Forall_impl; [|exact F]. intros a. apply name_plain.
Qed.
Lemma literal_magic c : literal c -> magic c = false.
Proof.
  intros (A & B & C). unfold magic. destruct (existsb _ c) eqn:E; [|reflexivity]. apply existsb_exists in E. destruct E as (x & I & E).
  rewrite !orb_true_iff, !aeqb_true in E. destruct E as [[-> | ->]| ->]; contradiction.
Qed.
Lemma match_literal p q : Forall literal p -> match_comps p q = true <-> p = q.
Proof.
  intro F. revert q. induction F as [|c p L F IH]; intros [|d q]; cbn [match_comps]; try (split; [discriminate|intro H; discriminate H]); [tauto|].
  unfold match_comp. rewrite (literal_magic c L), andb_true_iff, seqb_eq, IH. split; [intros [-> ->]; reflexivity|intro E; injection E; auto].
Qed.
Lemma written_noslash q : Forall plain_name q -> q <> [] -> endswith [slash] (written q) = false.
Proof.
  intros F N. destruct (endswith [slash] (written q)) eqn:E; [|reflexivity]. apply endswith_iff in E. destruct E as (t & E).
  assert (G : written q = path_of q) by (destruct q; [contradiction|unfold written; apply concat_path]). rewrite G in E.
  destruct (path_last q) as (h & x & E' & X); [eapply Forall_impl; [|exact F]; intros a; apply name_plain|exact N|]. rewrite E' in E.
  apply app_inj_tail in E. destruct E as [_ ->]. discriminate.
Qed.
Lemma globbed_written q t e : Forall plain_name q -> Forall literal q -> (forall k, In ([], k) t -> k = true) -> In e (globbed (written q) t) <-> In e t /\ fst e = q.
Proof.
  intros F L R. unfold globbed. rewrite filter_In, andb_true_iff, comps_written, match_literal by assumption. destruct q as [|c q].
  - split; [intros (A & B & _); auto|]. intros (I & E). split; [exact I|]. split; [auto|]. destruct e as [p k]. cbn in E. subst p. rewrite (R k I). apply orb_true_r.
  - rewrite written_noslash by (assumption || discriminate). cbn [negb orb]. split; [intros (A & B & _); auto|intros (A & B); auto].
Qed.

Lemma once_kind (t : tree) q k k' : NoDup (map fst t) -> In (q, k) t -> In (q, k') t -> k = k'.
Proof.
  induction t as [|[p j] t IH]; intros N A B; [destruct A|]. cbn in N. inversion N as [|? ? N1 N2]; subst.
  destruct A as [A|A], B as [B|B].
  - congruence.
  - injection A as -> ->. exfalso. apply N1. now apply in_map with (f := fst) in B.
  - injection B as -> ->. exfalso. apply N1. now apply in_map with (f := fst) in A.
  - exact (IH N2 A B).
Qed.
Lemma once_filter {A B} (f : A * B -> bool) (t : list (A * B)) : NoDup (map fst t) -> NoDup (map fst (filter f t)).
Proof.
  induction t as [|x t IH]; intro N; [constructor|]. cbn in *. inversion N as [|? ? N1 N2]; subst. destruct (f x); [|exact (IH N2)].
  cbn. constructor; [|exact (IH N2)]. intro I. apply N1. apply in_map_iff in I. destruct I as (y & E & I). apply filter_In in I. apply in_map_iff. exists y. tauto.
Qed.
Lemma root_dir (t : tree) : sound_files t -> forall k, In ([], k) t -> k = true.
Proof. intros S k I. exact (once_kind t [] k true (files_once t S) I (files_root t S)). Qed.
Lemma in_prefix (t : tree) q r k : sound_files t -> In (q ++ r, k) t -> r <> [] -> In (q, true) t.
Proof.
  intros S. revert k. induction r as [|c r IH] using rev_ind; intros k I N; [contradiction|]. rewrite app_assoc in I.
  pose proof (files_in t S _ _ _ I) as J. destruct r as [|d r]; [rewrite app_nil_r in J; exact J|]. apply (IH true J). discriminate.
Qed.

Section Remove.
Variables cwd home : str.

Lemma remove_cases pat t t' r : remove cwd home pat true t = (t', r) ->
  (r = true /\ t' = t /\ pat <> [] /\ exists m, In m (globbed pat t) /\ unsafe cwd home (spell (fst m)) = true) \/
  (r = false /\ (pat = [] /\ t' = t \/ pat <> [] /\ (forall m, In m (globbed pat t) -> unsafe cwd home (spell (fst m)) = false) /\
    forall e, In e t' <-> In e t /\ forall m, In m (globbed pat t) -> ~ within (fst m) (fst e))).
Proof.
  unfold remove. destruct pat as [|c pat]; [intro H; injection H as <- <-; right; auto|]. destruct (existsb _ (globbed (c :: pat) t)) eqn:E; intro H; injection H as <- <-.
  - left. apply existsb_exists in E. destruct E as (m & I & U). split; [reflexivity|]. split; [reflexivity|]. split; [discriminate|]. eauto.
  - right. split; [reflexivity|]. right. split; [discriminate|]. split.
    + intros m I. destruct (unsafe cwd home (spell (fst m))) eqn:U; [|reflexivity]. rewrite <- E. symmetry. apply existsb_exists. eauto.
    + intro e. rewrite filter_In, negb_true_iff. split; intros [I H]; (split; [exact I|]).
      * intros m M W. apply below_iff in W. assert (X : existsb (fun m0 => below (fst m0) (fst e)) (globbed (c :: pat) t) = true) by (apply existsb_exists; eauto). congruence.
      * destruct (existsb (fun m0 => below (fst m0) (fst e)) (globbed (c :: pat) t)) eqn:X; [|reflexivity]. apply existsb_exists in X. destruct X as (m & M & W). apply below_iff in W. exfalso. exact (H m M W).
Qed.
Lemma globbed_in pat t m : In m (globbed pat t) -> In m t.
Proof. unfold globbed. rewrite filter_In. tauto. Qed.
Lemma removed_once pat t t' r : remove cwd home pat true t = (t', r) -> NoDup (map fst t) -> NoDup (map fst t').
Proof.
  unfold remove. destruct pat as [|c pat]; [intro H; injection H as <- <-; auto|]. destruct (existsb _ (globbed (c :: pat) t)); intro H; injection H as <- <-; [auto|apply once_filter].
Qed.
(** The root is always guarded *)
Lemma unsafe_root : unsafe cwd home (spell []) = true. Proof. reflexivity. Qed.
Lemma remove_sound pat t t' r : sound_files t -> remove cwd home pat true t = (t', r) -> sound_files t'.
Proof.
  intros S H. pose proof (removed_once _ _ _ _ H (files_once t S)) as N. destruct (remove_cases _ _ _ _ H) as [(_ & -> & _)|(_ & [(_ & ->)|(_ & U & K)])]; [exact S|exact S|].
  constructor.
  - apply K. split; [apply files_root, S|]. intros [q k] M (r' & E). cbn in E. symmetry in E. apply app_eq_nil in E. destruct E as [-> _]. specialize (U _ M). cbn [fst] in U. rewrite unsafe_root in U. discriminate.
  - exact N.
  - intros q k I. apply K in I. exact (files_names t S q k (proj1 I)).
  - intros q c k I. apply K in I. destruct I as [I W]. apply K. split; [exact (files_in t S _ _ _ I)|]. intros m M V. apply (W m M). cbn [fst] in *. eapply within_trans; [exact V|]. exists [c]. reflexivity.
Qed.
Lemma written_nonempty q : written q <> [].
Proof. rewrite <- written_spell. discriminate. Qed.
Lemma remove_written q t t' r : sound_files t -> Forall plain_name q -> Forall literal q -> remove cwd home (written q) true t = (t', r) ->
  (r = true <-> (exists k, In (q, k) t) /\ unsafe cwd home (written q) = true) /\ (r = true -> t' = t) /\
  (r = false -> forall e, In e t' <-> In e t /\ ~ within q (fst e)).
Proof.
  intros S F L H. assert (G := fun e => globbed_written q t e F L (root_dir t S)).
  destruct (remove_cases _ _ _ _ H) as [(-> & -> & _ & (m & M & U))|(-> & [(E & _)|(_ & U & K)])].
  - apply G in M. destruct M as [M E]. rewrite E, written_spell in U. split; [|split; [reflexivity|discriminate]]. split; [intros _|reflexivity]. split; [|exact U]. exists (snd m). rewrite <- E, <- surjective_pairing. exact M.
  - exfalso. exact (written_nonempty q E).
  - split; [|split; [discriminate|]].
    + split; [discriminate|]. intros [(k & I) V]. assert (J : In (q, k) (globbed (written q) t)) by (apply G; auto). apply U in J. cbn [fst] in J. rewrite written_spell in J. congruence.
    + intros _ e. rewrite K. split; intros [I N]; (split; [exact I|]).
      * intros W. destruct e as [p k]. cbn [fst] in *. assert (X : exists j, In (q, j) t).
        { destruct W as (s & ->). destruct s as [|c s]; [rewrite app_nil_r in I; eauto|]. exists true. apply (in_prefix t q (c :: s) k S I). discriminate. }
        destruct X as (j & X). apply (N (q, j)); [apply G; auto|exact W].
      * intros m M. apply G in M. destruct M as [_ ->]. exact N.
Qed.
End Remove.

(** ** Making directories *)
Lemma has_some q t k : has q t = Some k -> In (q, k) t.
Proof.
  unfold has. destruct (find (fun e => path_eqb q (fst e)) t) as [[p j]|] eqn:E; [|discriminate]. cbn. intro H. injection H as ->.
  apply find_some in E. destruct E as [I E]. apply path_eqb_iff in E. cbn in E. now subst.
Qed.
Lemma has_none q t k : has q t = None -> ~ In (q, k) t.
Proof.
  unfold has. destruct (find (fun e => path_eqb q (fst e)) t) as [e|] eqn:E; [discriminate|]. intros _ I. apply (find_none _ _ E) in I. cbn in I.
  assert (X : path_eqb q q = true) by now apply path_eqb_iff. congruence.
Qed.
Lemma strict_step {A} (l : list A) c p : (exists a r, p = l ++ a :: r) -> forall todo, (exists r, l ++ c :: todo = p ++ r) -> p = l ++ [c] \/ (exists a r, p = (l ++ [c]) ++ a :: r).
Proof.
  intros (a & r & ->) todo (s & E). rewrite <- app_assoc in E. apply app_inv_head in E. injection E as -> E. destruct r as [|b r]; [left; reflexivity|right]. exists b, r. now rewrite <- app_assoc.
Qed.
Lemma makedirs_in todo : forall done t t', makedirs done todo t = (t', false) ->
  forall e, In e t' <-> In e t \/ (snd e = true /\ strictly_within done (fst e) /\ within (fst e) (done ++ todo)).
Proof.
  induction todo as [|c todo IH]; intros done t t' H e.
  - cbn in H. injection H as <-. split; [auto|]. intros [I|(_ & (a & r & E) & (s & E'))]; [exact I|]. exfalso.
    rewrite app_nil_r, E, <- app_assoc in E'. rewrite <- (app_nil_r done) in E' at 1. apply app_inv_head in E'. discriminate.
  - cbn [makedirs] in H.
    assert (K : exists t1, makedirs (done ++ [c]) todo t1 = (t', false) /\ forall x, In x t1 <-> In x t \/ x = (done ++ [c], true)).
    { destruct (has (done ++ [c]) t) as [[|]|] eqn:E; [|discriminate|].
      - exists t. split; [exact H|]. intro x. split; [auto|]. intros [I| ->]; [exact I|now apply has_some].
      - eexists. split; [exact H|]. intro x. rewrite in_app_iff. cbn. intuition congruence. }
    destruct K as (t1 & K1 & K2). rewrite (IH _ _ _ K1 e), K2. rewrite <- app_assoc. cbn [app]. split.
    + intros [[I| ->]|(D & (a & r & E) & W)]; [auto| |].
      * right. cbn. split; [reflexivity|]. split; [exists c, []; reflexivity|]. exists todo. now rewrite <- app_assoc.
      * right. split; [exact D|]. split; [|exact W]. exists c, (a :: r). rewrite E, <- app_assoc. reflexivity.
    + intros [I|(D & Sw & W)]; [auto|]. destruct (strict_step done c (fst e) Sw todo W) as [E|E].
      * left. right. destruct e as [p k]. cbn in *. now subst.
      * right. auto.
Qed.
Lemma makedirs_sound todo : forall done t t', sound_files t -> Forall plain_name (done ++ todo) -> In (done, true) t -> makedirs done todo t = (t', false) -> sound_files t'.
Proof.
  induction todo as [|c todo IH]; intros done t t' S F D H; [cbn in H; injection H as <-; exact S|]. cbn [makedirs] in H.
  assert (F' : Forall plain_name ((done ++ [c]) ++ todo)) by (rewrite <- app_assoc; exact F).
  destruct (has (done ++ [c]) t) as [[|]|] eqn:E; [|discriminate|].
  - apply (IH _ _ _ S F' (has_some _ _ _ E) H).
  - refine (IH _ _ _ _ F' _ H); [|apply in_or_app; right; left; reflexivity]. constructor.
    + apply in_or_app. left. apply files_root, S.
    + rewrite map_app. cbn. rewrite <- rev_involutive. apply NoDup_rev. rewrite rev_app_distr. cbn. constructor; [|apply NoDup_rev, files_once, S].
      intro I. apply in_rev, in_map_iff in I. destruct I as ([p k] & Ep & I). cbn in Ep. subst p. exact (has_none _ _ k E I).
    + intros q k I. apply in_app_or in I. destruct I as [I|[I|[]]]; [exact (files_names t S q k I)|]. injection I as <- <-. apply Forall_app in F'. apply F'.
    + intros q d k I. apply in_or_app. left. apply in_app_or in I. destruct I as [I|[I|[]]]; [exact (files_in t S q d k I)|]. injection I as I _. apply app_inj_tail in I. destruct I as [<- _]. exact D.
Qed.
Lemma makedirs_ok todo : forall done t, (forall p, strictly_within done p -> within p (done ++ todo) -> ~ In (p, false) t) -> exists t', makedirs done todo t = (t', false).
Proof.
  induction todo as [|c todo IH]; intros done t N; [eexists; reflexivity|]. cbn [makedirs].
  assert (M : forall t1, (forall x, In x t1 -> In x t \/ x = (done ++ [c], true)) -> exists t', makedirs (done ++ [c]) todo t1 = (t', false)).
  { intros t1 K. apply IH. intros p (a & r & E) W I. apply K in I. destruct I as [I|I]; [|discriminate]. apply (N p); [exists c, (a :: r); rewrite E, <- app_assoc; reflexivity|rewrite <- app_assoc in W; exact W|exact I]. }
  destruct (has (done ++ [c]) t) as [[|]|] eqn:E.
  - apply M. auto.
  - exfalso. apply has_some in E. refine (N _ _ _ E); [exists c, []; reflexivity|exists todo; now rewrite <- app_assoc].
  - apply M. intros x I. apply in_app_or in I. destruct I as [I|[I|[]]]; auto.
Qed.
