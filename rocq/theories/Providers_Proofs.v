(** Lemmas for C43. *)
From Coq Require Import Ascii String List Bool ZArith Lia Permutation Sorted.
From Verif Require Import Str_Model Str_Proofs Sstname_Model Sstname_Proofs Imgtypes_Model Imgtypes_Proofs Ksparser_Model Vercmp_Model Vercmp_Props Deps_Spec Deps_Proofs Providers_Model Providers_Spec.
Import ListNotations.
Open Scope list_scope.

(** ** Sorted keys *)
Lemma insert_z_in x l y : In y (insert_z x l) <-> y = x \/ In y l.
Proof.
  induction l as [|z l IH]; cbn [insert_z]; [cbn; intuition|]. destruct (Z.eqb_spec x z) as [->|N]; [cbn; intuition|]. destruct (Z.ltb_spec x z); cbn [In]; [intuition|]. rewrite IH. intuition.
Qed.
Lemma sorted_keys_in l y : In y (sorted_keys l) <-> In y l.
Proof. induction l as [|x l IH]; [reflexivity|]. change (sorted_keys (x :: l)) with (insert_z x (sorted_keys l)). rewrite insert_z_in, IH. cbn. intuition. Qed.
Lemma insert_z_sorted x l : StronglySorted Z.lt l -> StronglySorted Z.lt (insert_z x l).
Proof.
  induction 1 as [|z l S IH F]; cbn [insert_z]; [repeat constructor|]. destruct (Z.eqb_spec x z) as [->|N]; [now constructor|]. destruct (Z.ltb_spec x z).
  - constructor; [now constructor|]. constructor; auto. eapply Forall_impl; [|exact F]. intros. lia.
  - constructor; auto. apply Forall_forall. intros y Y. apply insert_z_in in Y. rewrite Forall_forall in F. destruct Y as [->|Y]; [lia|auto].
Qed.
Lemma sorted_keys_sorted l : StronglySorted Z.lt (sorted_keys l).
Proof. induction l as [|x l IH]; [constructor|]. change (sorted_keys (x :: l)) with (insert_z x (sorted_keys l)). now apply insert_z_sorted. Qed.
Definition desc (l : list Z) : list Z := rev (sorted_keys l).
Lemma rev_strong (l : list Z) : StronglySorted Z.lt l -> StronglySorted (fun a b => (b < a)%Z) (rev l).
Proof.
  induction 1 as [|z l S IH F]; [constructor|]. cbn [rev]. revert IH F. generalize (rev l) (fun y => proj2 (in_rev l y)). intros r R IH F.
  assert (G : Forall (fun y => (z < y)%Z) r) by (apply Forall_forall; intros y Y; rewrite Forall_forall in F; apply F, R, Y). clear -IH G.
  induction IH as [|y r S IH F]; cbn [app]; [repeat constructor|]. inversion G; subst. constructor; auto. apply Forall_app. split; auto.
Qed.
Lemma groups_map files : sort_priorities files = map (pref_group files) (desc (map f_pri files)).
Proof.
  unfold sort_priorities, desc. assert (G : forall l acc, fold_left (fun tmp pri => pref_group files pri :: tmp) l acc = map (pref_group files) (rev l) ++ acc).
  { induction l as [|x l IH]; intros acc; cbn [fold_left rev]; auto. rewrite IH, map_app. cbn. now rewrite <- app_assoc. }
  now rewrite G, app_nil_r.
Qed.
Lemma group_in files pri f : In f (pref_group files pri) <-> In f files /\ f_pri f = pri.
Proof.
  unfold pref_group. rewrite in_flat_map. split.
  - intros (p & _ & I). apply filter_In in I. destruct I as [I _]. apply filter_In in I. destruct I as [I E]. apply Z.eqb_eq in E. auto.
  - intros [I E]. exists (f_pref f). split.
    + apply sorted_keys_in. apply in_map. apply filter_In. split; auto. now apply Z.eqb_eq.
    + apply filter_In. split; [|apply Z.eqb_refl]. apply filter_In. split; auto. now apply Z.eqb_eq.
Qed.
Lemma concat_groups_in files f : In f (concat (sort_priorities files)) <-> In f files.
Proof.
  rewrite groups_map, in_concat. split.
  - intros (g & G & I). apply in_map_iff in G. destruct G as (p & <- & _). now apply group_in in I.
  - intros I. exists (pref_group files (f_pri f)). split; [|now apply group_in]. apply in_map. unfold desc. apply in_rev. rewrite rev_involutive. apply sorted_keys_in. now apply in_map.
Qed.
(** In the whole list, recipes of higher priority come first. *)
Lemma groups_ordered files : StronglySorted (fun a b => (f_pri b <= f_pri a)%Z) (concat (sort_priorities files)).
Proof.
  rewrite groups_map. assert (S : StronglySorted (fun a b => (b < a)%Z) (desc (map f_pri files))) by apply rev_strong, sorted_keys_sorted.
  induction S as [|p l S IH F]; [constructor|]. cbn [map concat].
  assert (G : forall a, In a (pref_group files p) -> f_pri a = p) by (intros a A; now apply group_in in A).
  revert G. generalize (pref_group files p) as g. induction g as [|a g IHg]; intros G; cbn [app]; auto. constructor; [apply IHg; intros; apply G; now right|].
  apply Forall_app. split.
  - apply Forall_forall. intros b B. rewrite (G a) by now left. rewrite (G b) by now right. lia.
  - apply Forall_forall. intros b B. rewrite (G a) by now left. apply in_concat in B. destruct B as (h & H & B). apply in_map_iff in H. destruct H as (q & <- & Q). apply group_in in B. rewrite Forall_forall in F. specialize (F q Q). cbn in F. lia.
Qed.
Lemma first_group files : files <> [] -> exists p gs, sort_priorities files = pref_group files p :: gs /\ In p (map f_pri files) /\ forall f, In f files -> (f_pri f <= p)%Z.
Proof.
  intros N. rewrite groups_map. assert (S : StronglySorted (fun a b => (b < a)%Z) (desc (map f_pri files))) by apply rev_strong, sorted_keys_sorted.
  assert (I : forall p, In p (desc (map f_pri files)) <-> In p (map f_pri files)) by (intros p; unfold desc; rewrite <- in_rev; apply sorted_keys_in).
  destruct (desc (map f_pri files)) as [|p l] eqn:E.
  - destruct files as [|f files]; [congruence|]. exfalso. apply (proj2 (I (f_pri f))). now left.
  - exists p, (map (pref_group files) l). split; auto. split; [apply I; now left|]. intros f F. apply (in_map f_pri) in F. apply I in F. inversion S; subst. rewrite Forall_forall in H2. destruct F as [->|F]; [lia|]. specialize (H2 _ F). cbn in H2. lia.
Qed.

(** ** The latest *)
Definition upto (x y : recipe) : Prop := (f_pref x < f_pref y)%Z \/ (f_pref x = f_pref y /\ (vercmp (version x) (version y) <= 0)%Z).
Lemma upto_refl x : upto x x.
Proof. right. split; auto. rewrite vercmp_reflexive. lia. Qed.
Lemma upto_trans x y z : upto x y -> upto y z -> upto x z.
Proof.
  intros [A|[A A']] [B|[B B']]; try (left; lia). right. split; [lia|]. eapply vercmp_transitive; eauto.
Qed.
Lemma latest_fold files : forall acc, exists r,
  fold_left (fun latest f => match latest with None => Some f
    | Some l => if ((f_pref l =? f_pref f)%Z && (vercmp (version l) (version f) <? 0)%Z) || (f_pref l <? f_pref f)%Z then Some f else Some l end) files (Some acc) = Some r /\
  (r = acc \/ In r files) /\ upto acc r /\ forall x, In x files -> upto x r.
Proof.
  induction files as [|f files IH]; intros acc; cbn [fold_left]; [exists acc; repeat split; auto; [apply upto_refl|intros x []]|].
  destruct (_ || _) eqn:C.
  - destruct (IH f) as (r & -> & I & U & M). exists r. split; auto. split; [destruct I; [subst; right; now left|right; now right]|].
    assert (AF : upto acc f). { apply orb_true_iff in C. rewrite andb_true_iff, Z.eqb_eq, !Z.ltb_lt in C. unfold upto. lia. }
    split; [eapply upto_trans; eauto|]. intros x [<-|X]; auto.
  - destruct (IH acc) as (r & -> & I & U & M). exists r. split; auto. split; [destruct I; [now left|right; now right]|]. split; auto.
    intros x [<-|X]; auto. assert (FA : upto f acc). { apply orb_false_iff in C. rewrite andb_false_iff, Z.eqb_neq, !Z.ltb_ge in C. unfold upto. pose proof (vercmp_antisymmetric (version acc) (version f)). lia. }
    eapply upto_trans; eauto.
Qed.
Lemma find_latest_spec files : files <> [] -> exists r, find_latest files = Some r /\ In r files /\ forall x, In x files -> upto x r.
Proof.
  destruct files as [|f files]; [congruence|]. intros _. unfold find_latest. cbn [fold_left]. destruct (latest_fold files f) as (r & -> & I & U & M). exists r. split; auto. split; [destruct I; [left; auto|now right]|].
  intros x [<-|X]; auto.
Qed.
Lemma latest_best files : files <> [] -> exists r, find_latest (hd [] (sort_priorities files)) = Some r /\ best files r.
Proof.
  intros N. destruct (first_group files N) as (p & gs & -> & P & M). cbn [hd].
  assert (NG : pref_group files p <> []). { apply in_map_iff in P. destruct P as (f & E & F). assert (I : In f (pref_group files p)) by (apply group_in; auto). destruct (pref_group files p); [contradiction|discriminate]. }
  destruct (find_latest_spec _ NG) as (r & -> & I & U). exists r. split; auto. apply group_in in I. destruct I as [I E]. split; auto. intros g G B.
  specialize (M g G). destruct B as [B|[B1 B2]]; [lia|]. assert (IG : In g (pref_group files p)) by (apply group_in; split; auto; lia). specialize (U g IG). unfold upto in U.
  pose proof (vercmp_antisymmetric (version r) (version g)). lia.
Qed.

(** ** The preferred *)
Lemma span_digits d r : digits d -> span is_digit (d ++ ":"%char :: r) = (d, ":"%char :: r).
Proof. intros [_ D]. apply span_all; [|reflexivity]. rewrite Forall_forall in D. auto. Qed.
Lemma epochs_step n e d r : digits d -> epochs (S n) e (d ++ ":"%char :: r) = epochs n (Some d) r.
Proof. intros D. cbn [epochs]. rewrite span_digits by auto. destruct d as [|c d]; [destruct D; congruence|]. reflexivity. Qed.
Lemma epochs_stop n e v : (forall d r, digits d -> v <> d ++ s_ ":" ++ r) -> epochs n e v = (e, v).
Proof.
  intros H. destruct n as [|n]; auto. cbn [epochs]. destruct (span is_digit v) as [[|c d] b] eqn:E; auto. destruct b as [|x b]; auto.
  destruct (ascii_dec x ":"%char) as [->|N].
  - exfalso. assert (S : forall p s a b, span p s = (a, b) -> s = a ++ b /\ Forall (fun c => p c = true) a).
    { clear. induction s as [|c s IH]; intros a b; cbn [span]; [intros X; injection X as <- <-; auto|]. destruct (p c) eqn:Pc; [|intros X; injection X as <- <-; auto].
      destruct (span p s) as [a' b']. intros X; injection X as <- <-. destruct (IH _ _ eq_refl) as [-> F]. auto. }
    apply S in E. destruct E as [E F]. apply (H (c :: d) b); [split; [discriminate|auto]|]. exact E.
  - destruct x as [[] [] [] [] [] [] [] []]; try reflexivity. congruence.
Qed.
Lemma split_preferred_text e w : plain_wanted e w -> split_preferred (wanted_text e w) = (e, match w with Exactly v => v | Prefix v => v ++ s_ "%" end).
Proof.
  intros [PE PW]. set (t := match w with Exactly v => v | Prefix v => v ++ s_ "%" end).
  assert (T : ~ In nl t /\ forall d r, digits d -> t <> d ++ s_ ":" ++ r).
  { unfold t. destruct w as [v|v]; [destruct PW as (_ & A & _ & B); auto|]. destruct PW as [A B]. split; [rewrite in_app_iff; intros [I|[I|[]]]; [auto|discriminate]|].
    intros d r D E. destruct (exists_last (l := ":"%char :: r)) as (m & x & EX); [discriminate|]. change (s_ ":" ++ r) with (":"%char :: r) in E. rewrite EX, app_assoc in E. apply app_inj_tail in E. destruct E as [E EC]. subst x.
    destruct m as [|y m]; [injection EX as EX _; discriminate|]. injection EX as <- EX. apply (B d m D). rewrite E. reflexivity. }
  destruct T as [TN TD]. unfold split_preferred.
  assert (EP : epochs (length (wanted_text e w)) None (wanted_text e w) = (e, t)).
  { assert (LN : exists n, length (wanted_text e w) = S n).
    { destruct (wanted_text e w) as [|c q] eqn:Q; [|cbn; eauto]. exfalso. unfold wanted_text in Q. apply app_eq_nil in Q. destruct Q as [_ Q]. destruct w as [v|v]; [destruct PW as (NV & _); exact (NV Q)|]. now destruct v. }
    destruct LN as (n & ->). destruct e as [x|].
    - change (wanted_text (Some x) w) with ((x ++ s_ ":") ++ t). rewrite <- app_assoc. change (s_ ":" ++ t) with (":"%char :: t). rewrite epochs_step by (now apply PE). now apply epochs_stop.
    - change (wanted_text None w) with t. now apply epochs_stop. }
  rewrite EP. f_equal. rewrite <- (app_nil_r t) at 1. rewrite span_all; auto. intros c I. apply negb_true_iff, aeqb_neq. intros ->. auto.
Qed.
Lemma version_match_fits e w f : plain_wanted e w -> version_match (f_pe f) (f_pv f) (f_pr f) e (match w with Exactly v => v | Prefix v => v ++ s_ "%" end) None = true <-> fits e w f.
Proof.
  intros [_ PW]. unfold version_match, fits. cbn [andb].
  assert (E : (match e with None => true | Some x => seqb (f_pe f) x end) = true <-> (forall x, e = Some x -> f_pe f = x)).
  { destruct e as [x|]; [rewrite seqb_eq; split; [intros <- y Y; congruence|auto]|split; [discriminate|auto]]. }
  rewrite andb_true_iff, E. clear E. apply and_iff_compat_l. rewrite orb_true_iff, andb_true_iff, seqb_eq. destruct w as [v|v].
  - split; [|auto]. intros [<-|[X _]]; auto. exfalso. apply endswith_iff in X. destruct X as (t & X). destruct PW as (_ & _ & A & _). apply (A t X).
  - rewrite endswith_iff. change (s_ "%") with ["%"%char]. rewrite removelast_last, startswith_iff. split; [intros [<-|[_ X]]; [exists ["%"%char]; auto|auto]|]. intros X. right. split; [now exists v|exact X].
Qed.
Lemma wanted_nonempty e w : plain_wanted e w -> wanted_text e w <> [].
Proof.
  intros [_ PW] E. unfold wanted_text in E. apply app_eq_nil in E. destruct E as [_ E]. destruct w as [v|v]; [destruct PW as (NV & _); exact (NV E)|]. now destruct v.
Qed.
Lemma find_some_first {A} (p : A -> bool) l x : find p l = Some x -> exists a b, l = a ++ x :: b /\ p x = true /\ forall y, In y a -> p y = false.
Proof.
  induction l as [|z l IH]; cbn [find]; [discriminate|]. destruct (p z) eqn:E.
  - intros X. injection X as <-. exists [], l. repeat split; auto. intros y [].
  - intros X. destruct (IH X) as (a & b & -> & P & F). exists (z :: a), b. repeat split; auto. intros y [<-|Y]; auto.
Qed.
Lemma asks_variable getvar k pn v : asks getvar k pn v -> version_variable getvar k pn = Some v.
Proof.
  unfold asks, version_variable, unset. cbv zeta. intros [N H]. destruct v as [|c v]; [congruence|].
  destruct H as [->|[[[->| ->] ->]|[[->| ->] [[->| ->] ->]]]]; reflexivity.
Qed.
Lemma asks_nothing_variable getvar k pn : asks_nothing getvar k pn -> version_variable getvar k pn = None.
Proof. unfold asks_nothing, version_variable, unset. intros ([->| ->] & [->| ->] & ->); reflexivity. Qed.
Lemma find_wanted getvar pn files e w : plain_wanted e w ->
  (match version_variable getvar (s_ "REQUIRED") pn with Some v => Some v | None => version_variable getvar (s_ "PREFERRED") pn end) = Some (wanted_text e w) ->
  match fst (find_preferred getvar pn (sort_priorities files)) with
  | Some f => In f files /\ fits e w f /\ forall g, In g files -> fits e w g -> (f_pri g <= f_pri f)%Z
  | None => forall g, In g files -> ~ fits e w g
  end.
Proof.
  intros PW E. unfold find_preferred. rewrite E. destruct (wanted_text e w) as [|c t] eqn:T; [now destruct (wanted_nonempty e w PW)|]. rewrite <- T.
  rewrite split_preferred_text by auto. cbn [fst]. destruct (find _ _) as [f|] eqn:F.
  - apply find_some_first in F. destruct F as (a & b & C & M & NA). apply version_match_fits in M; auto.
    assert (I : In f files) by (apply concat_groups_in; rewrite C; apply in_or_app; right; now left). split; auto. split; auto. intros g G W.
    apply concat_groups_in in G. pose proof (groups_ordered files) as S. rewrite C in G, S. apply in_app_or in G. destruct G as [G|[->|G]]; [|lia|].
    + specialize (NA g G). cbn beta in NA. apply (version_match_fits e w g PW) in W. congruence.
    + clear -S G. induction a as [|x a IH]; cbn [app] in S; inversion S; subst; auto. rewrite Forall_forall in H2. now apply H2.
  - intros g G W. apply concat_groups_in in G. apply (find_none _ _ F) in G. apply (version_match_fits e w g PW) in W. congruence.
Qed.
Lemma find_preferred_flag getvar pn groups : snd (find_preferred getvar pn groups) = match version_variable getvar (s_ "REQUIRED") pn with Some _ => true | None => false end.
Proof.
  unfold find_preferred. destruct (match version_variable getvar (s_ "REQUIRED") pn with Some v => Some v | None => version_variable getvar (s_ "PREFERRED") pn end) as [[|c v]|]; auto. now destruct (split_preferred (c :: v)).
Qed.
Lemma groups_nonempty files : files <> [] -> exists g gs, sort_priorities files = g :: gs.
Proof. intros N. destruct (first_group files N) as (p & gs & E & _). eauto. Qed.

(** ** Sorting by name *)
Definition sorted_names (l : list recipe) : Prop := ForallOrdPairs (fun x y => str_lt (f_name x) (f_name y)) l.
Lemma insert_file_perm f l : Permutation (insert_file f l) (f :: l).
Proof. induction l as [|x l IH]; cbn [insert_file]; auto. destruct (str_leb (f_name f) (f_name x)); auto. rewrite IH. constructor. Qed.
Lemma sort_files_perm l : Permutation (sort_files l) l.
Proof. induction l as [|e l IH]; cbn; auto. rewrite insert_file_perm. now constructor. Qed.
Lemma insert_file_sorted e l : sorted_names l -> ~ In (f_name e) (map f_name l) -> sorted_names (insert_file e l).
Proof.
  unfold sorted_names. induction l as [|x l IH]; intros S N; cbn [insert_file]; [repeat constructor|]. inversion S as [|? ? F S']; subst.
  assert (NE : f_name e <> f_name x) by (intros E; apply N; left; auto).
  destruct (str_leb (f_name e) (f_name x)) eqn:L.
  - constructor; auto. assert (Lt : str_lt (f_name e) (f_name x)). { destruct (str_trichotomy (f_name e) (f_name x)) as [H|[H|H]]; auto; [congruence|]. apply str_leb_lt in H. destruct H. congruence. }
    constructor; auto. rewrite Forall_forall in *. intros y Y. eapply str_lt_trans; eauto.
  - constructor; [|apply IH; auto; intros I; apply N; now right].
    assert (Lt : str_lt (f_name x) (f_name e)). { destruct (str_trichotomy (f_name e) (f_name x)) as [H|[H|H]]; auto; [|congruence]. apply str_leb_lt in H. destruct H. congruence. }
    apply (Permutation_Forall (Permutation_sym (insert_file_perm e l))). constructor; auto.
Qed.
Lemma sort_files_sorted l : NoDup (map f_name l) -> sorted_names (sort_files l).
Proof.
  induction l as [|e l IH]; intros N; [constructor|]. cbn [map] in N. inversion N; subst. cbn. apply insert_file_sorted; auto.
  intros I. apply H1. revert I. apply Permutation_in. apply Permutation_map. apply sort_files_perm.
Qed.
Lemma sorted_unique l : sorted_names l -> forall l', sorted_names l' -> Permutation l l' -> l = l'.
Proof.
  assert (IR : forall s, ~ str_lt s s) by (intros s H; pose proof (str_leb_lt _ _ H) as [A B]; congruence).
  induction 1 as [|x l F S IH]; intros l' S' P; [now apply Permutation_nil in P|]. destruct l' as [|y l']; [apply Permutation_sym, Permutation_nil in P; discriminate|].
  inversion S' as [|? ? F' S'']; subst. assert (E : x = y).
  { assert (X : In x (y :: l')) by (apply (Permutation_in _ P); now left). assert (Y : In y (x :: l)) by (apply (Permutation_in _ (Permutation_sym P)); now left).
    destruct X as [X|X]; auto. destruct Y as [Y|Y]; auto. rewrite Forall_forall in F, F'. exfalso. apply (IR (f_name x)). eapply str_lt_trans; eauto. }
  subst y. f_equal. apply IH; auto. now apply Permutation_cons_inv in P.
Qed.
Lemma sort_files_canonical l l' : NoDup (map f_name l) -> Permutation l l' -> sort_files l = sort_files l'.
Proof.
  intros N P. apply sorted_unique.
  - now apply sort_files_sorted.
  - apply sort_files_sorted. eapply Permutation_NoDup; [|exact N]. now apply Permutation_map.
  - rewrite !sort_files_perm. exact P.
Qed.

(** ** The list of providers *)
Definition pref_of getvar (l : list recipe) pn : list recipe := match fst (find_preferred getvar pn (sort_priorities (of_pn l pn))) with Some f => [f] | None => [] end.
Definition latest_of getvar (l : list recipe) pn : list recipe :=
  match fst (find_preferred getvar pn (sort_priorities (of_pn l pn))) with
  | Some _ => []
  | None => match find_latest (hd [] (sort_priorities (of_pn l pn))) with Some f => [f] | None => [] end
  end.
Lemma preferred_pass_spec getvar l names : forall el,
  (forall pn, In pn names -> find_preferred getvar pn (sort_priorities (of_pn l pn)) <> (None, true)) ->
  preferred_pass getvar l names el = (el ++ flat_map (pref_of getvar l) names, true).
Proof.
  induction names as [|pn names IH]; intros el H; cbn [preferred_pass flat_map]; [now rewrite app_nil_r|].
  assert (H0 := H pn (or_introl eq_refl)). unfold pref_of at 1. destruct (find_preferred getvar pn (sort_priorities (of_pn l pn))) as [[f|] r]; cbn [fst].
  - rewrite IH by (intros; apply H; now right). now rewrite <- app_assoc.
  - destruct r; [congruence|]. rewrite IH by (intros; apply H; now right). reflexivity.
Qed.
Lemma two_passes {A B} (P L C : A -> list B) names : (forall n, C n = P n ++ L n) -> Permutation (flat_map P names ++ flat_map L names) (flat_map C names).
Proof.
  intros E. induction names as [|n names IH]; [constructor|]. cbn [flat_map]. rewrite E, <- !app_assoc. apply Permutation_app_head. rewrite app_assoc, (Permutation_app_comm (flat_map P names)), <- app_assoc. now apply Permutation_app_head.
Qed.
Definition chosen_list getvar l pn : list recipe := match chosen_for getvar l pn with Some f => [f] | None => [] end.
Lemma of_pn_in l pn f : In f (of_pn l pn) <-> In f l /\ f_pn f = pn.
Proof. unfold of_pn. rewrite filter_In, seqb_eq. reflexivity. Qed.
Lemma chosen_some getvar l pn : In pn (map f_pn l) -> exists f, chosen_for getvar l pn = Some f /\ In f l /\ f_pn f = pn.
Proof.
  intros I. unfold chosen_for. assert (N : of_pn l pn <> []). { apply in_map_iff in I. destruct I as (f & E & F). assert (X : In f (of_pn l pn)) by (apply of_pn_in; auto). destruct (of_pn l pn); [contradiction|discriminate]. }
  destruct (fst (find_preferred getvar pn (sort_priorities (of_pn l pn)))) as [f|] eqn:E.
  - exists f. split; auto. apply of_pn_in. apply concat_groups_in. unfold find_preferred in E.
    destruct (match version_variable getvar (s_ "REQUIRED") pn with Some v => Some v | None => version_variable getvar (s_ "PREFERRED") pn end) as [[|c v]|]; try discriminate.
    destruct (split_preferred (c :: v)). cbn [fst] in E. now apply find_some in E.
  - destruct (latest_best _ N) as (r & -> & (R & _)). exists r. split; auto. now apply of_pn_in.
Qed.
Lemma chosen_names getvar l names : (forall pn, In pn names -> In pn (map f_pn l)) -> map f_pn (flat_map (chosen_list getvar l) names) = names.
Proof.
  induction names as [|n names IH]; intros H; auto. cbn [flat_map]. rewrite map_app, IH by (intros; apply H; now right). unfold chosen_list.
  destruct (chosen_some getvar l n (H n (or_introl eq_refl))) as (f & -> & _ & E). cbn. now rewrite E.
Qed.
Lemma pns_spec l : NoDup (pns l) /\ forall n, In n (pns l) <-> In n (map f_pn l).
Proof.
  split; [|intros; apply sorted_set_in]. unfold pns. generalize (map f_pn l). intros xs.
  assert (S : forall ys, ascending ys -> forall x, ascending (insert_str x ys)).
  { intros ys A. assert (K : ForallOrdPairs str_lt ys).
    { induction ys as [|y ys IH]; [constructor|]. constructor; [|apply IH; intros a u b v c E; apply (A (y :: a) u b v c); cbn; now rewrite E].
      apply Forall_forall. intros z Z. apply in_split in Z. destruct Z as (b & c & Z). apply (A [] y b z c). cbn. now rewrite Z. }
    clear A. assert (K2 : forall x, ForallOrdPairs str_lt (insert_str x ys)).
    { intros x. induction K as [|y ys F K IH]; cbn [insert_str]; [repeat constructor|]. destruct (seqb x y) eqn:E; [now constructor|]. apply seqb_neq in E.
      destruct (str_leb x y) eqn:L.
      - assert (Lt : str_lt x y). { destruct (str_trichotomy x y) as [H|[H|H]]; auto; [congruence|]. apply str_leb_lt in H. destruct H. congruence. }
        constructor; [|now constructor]. constructor; auto. rewrite Forall_forall in *. intros z Z. eapply str_lt_trans; eauto.
      - assert (Lt : str_lt y x). { destruct (str_trichotomy x y) as [H|[H|H]]; auto; [|congruence]. apply str_leb_lt in H. destruct H. congruence. }
        constructor; auto. apply Forall_forall. intros z Z. apply insert_str_in in Z. destruct Z as [->|Z]; auto. rewrite Forall_forall in F. auto. }
    intros x a u b v c E. specialize (K2 x). rewrite E in K2. clear -K2. induction a as [|z a IH]; cbn [app] in K2; inversion K2; subst; auto. rewrite Forall_forall in H1. apply H1. apply in_or_app. right. now left. }
  assert (A : ascending (sorted_set xs)).
  { induction xs as [|x xs IH]; [intros [|? ?]; discriminate|]. change (sorted_set (x :: xs)) with (insert_str x (sorted_set xs)). now apply S. }
  clear S. revert A. generalize (sorted_set xs). clear. intros ys A. assert (IR : forall s, ~ str_lt s s) by (intros s H; pose proof (str_leb_lt _ _ H) as [P Q]; congruence).
  induction ys as [|y ys IH]; constructor; [|apply IH; intros a u b v c E; apply (A (y :: a) u b v c); cbn; now rewrite E].
  intros I. apply in_split in I. destruct I as (b & c & E). apply (IR y). apply (A [] y b y c). cbn. now rewrite E.
Qed.
Lemma remove_file_perm f l : NoDup (map f_name l) -> In f l -> Permutation (f :: remove_file f l) l.
Proof.
  induction l as [|x l IH]; intros N I; [contradiction|]. cbn [remove_file]. cbn [map] in N. inversion N; subst. destruct (seqb (f_name x) (f_name f)) eqn:E.
  - apply seqb_eq in E. destruct I as [->|I]; auto. exfalso. apply H1. rewrite E. now apply in_map.
  - destruct I as [->|I]; [rewrite seqb_refl in E; discriminate|]. rewrite perm_swap. constructor. now apply IH.
Qed.
Lemma name_in f l : existsb (fun x => seqb (f_name x) (f_name f)) l = true <-> In (f_name f) (map f_name l).
Proof. rewrite existsb_exists, in_map_iff. split; intros (x & A & B); exists x; [apply seqb_eq in B; auto|split; auto; now apply seqb_eq]. Qed.
Lemma item_fold getvar l item ps : forall el, NoDup (map f_name el) ->
  (forall f, chosen_for getvar l item = Some f -> In f el) ->
  let r := fold_left (fun el p =>
      if seqb (f_pn p) item then
        match chosen_for getvar l (f_pn p) with
        | Some f => if existsb (fun x => seqb (f_name x) (f_name f)) el then f :: remove_file f el else el
        | None => el
        end
      else el) ps el in
  Permutation r el /\ (In item (map f_pn ps) -> forall f, chosen_for getvar l item = Some f -> exists t, r = f :: t) /\ (~ In item (map f_pn ps) -> r = el).
Proof.
  cbv zeta. induction ps as [|p ps IH]; intros el N C; cbn [fold_left map]; [split; [reflexivity|split; [intros []|auto]]|].
  destruct (seqb (f_pn p) item) eqn:E.
  - apply seqb_eq in E. rewrite E. destruct (chosen_for getvar l item) as [f|] eqn:CF.
    + assert (IF := C f eq_refl). assert (X : existsb (fun x => seqb (f_name x) (f_name f)) el = true) by (apply name_in; now apply in_map). rewrite X.
      pose proof (remove_file_perm f el N IF) as P.
      assert (N' : NoDup (map f_name (f :: remove_file f el))) by (eapply Permutation_NoDup; [|exact N]; apply Permutation_sym, Permutation_map, P).
      destruct (IH (f :: remove_file f el) N') as (P' & H1 & H2).
      { intros g G. injection G as <-. now left. }
      split; [now rewrite P'|]. split; [|intros NI; exfalso; apply NI; now left]. intros _ g G. injection G as <-.
      destruct (in_dec str_eq_dec item (map f_pn ps)) as [I|NI]; [now apply H1|]. rewrite (H2 NI). eauto.
    + destruct (IH el N) as (P' & H1 & H2); [discriminate|]. split; auto. split; [discriminate|]. intros NI. apply H2. intros I. apply NI. now right.
  - apply seqb_neq in E. destruct (IH el N C) as (P' & H1 & H2). split; auto. split; [intros [I|I]; [congruence|auto]|]. intros NI. apply H2. intros I. apply NI. now right.
Qed.
Lemma nodup_by_pn (el : list recipe) : (forall a b, In a el -> In b el -> f_name a = f_name b -> a = b) -> NoDup (map f_pn el) -> NoDup (map f_name el).
Proof.
  induction el as [|f el IH]; intros H N; [constructor|]. cbn [map] in *. inversion N; subst. constructor.
  - intros I. apply in_map_iff in I. destruct I as (g & E & G). apply H2. rewrite <- (H g f); [now apply in_map|now right|now left|auto].
  - apply IH; auto. intros a b A B. apply H; now right.
Qed.
Lemma nodup_inj (l : list recipe) a b : NoDup (map f_name l) -> In a l -> In b l -> f_name a = f_name b -> a = b.
Proof.
  induction l as [|x l IH]; intros N A B E; [contradiction|]. cbn [map] in N. inversion N; subst. destruct A as [->|A], B as [->|B]; auto.
  - exfalso. apply H1. rewrite E. now apply in_map.
  - exfalso. apply H1. rewrite <- E. now apply in_map.
Qed.
Definition consistent (l : list recipe) : Prop := forall a b, In a l -> In b l -> f_name a = f_name b -> a = b.
Lemma nodup_consistent l : NoDup (map f_name l) -> consistent l.
Proof. intros N a b A B. now apply (nodup_inj l). Qed.
Lemma filter_spec getvar providers item : consistent providers ->
  (forall pn, In pn (map f_pn providers) -> find_preferred getvar pn (sort_priorities (of_pn (sort_files providers) pn)) <> (None, true)) ->
  let el := filter_providers_ getvar providers item in
  NoDup (map f_pn el) /\ NoDup (map f_name el) /\ (forall pn, In pn (map f_pn el) <-> In pn (map f_pn providers)) /\
  (forall f, In f el -> chosen_for getvar (sort_files providers) (f_pn f) = Some f /\ In f providers) /\
  (In item (map f_pn providers) -> exists f t, el = f :: t /\ f_pn f = item).
Proof.
  intros N H. cbv zeta. unfold filter_providers_. set (l := sort_files providers).
  assert (PL : Permutation l providers) by apply sort_files_perm. assert (NL : consistent l) by (intros a b A B; apply N; now apply (Permutation_in _ PL)).
  destruct (pns_spec l) as [NP IP]. assert (PN : forall pn, In pn (map f_pn l) <-> In pn (map f_pn providers)) by (intros pn; split; apply Permutation_in, Permutation_map; auto using Permutation_sym).
  rewrite preferred_pass_spec by (intros pn I; apply H; apply PN, IP, I). cbn [negb app].
  set (el0 := flat_map (pref_of getvar l) (pns l) ++ latest_pass getvar l (pns l)).
  assert (P0 : Permutation el0 (flat_map (chosen_list getvar l) (pns l))).
  { unfold el0. change (latest_pass getvar l (pns l)) with (flat_map (latest_of getvar l) (pns l)). apply two_passes. intros n. unfold chosen_list, chosen_for, pref_of, latest_of.
    destruct (fst (find_preferred getvar n (sort_priorities (of_pn l n)))); [reflexivity|]. reflexivity. }
  assert (CH : forall f, In f el0 -> chosen_for getvar l (f_pn f) = Some f /\ In f l).
  { intros f I. apply (Permutation_in _ P0) in I. apply in_flat_map in I. destruct I as (n & I & J). unfold chosen_list in J. apply IP in I. destruct (chosen_some getvar l n I) as (g & E & G & Q). rewrite E in J. destruct J as [<-|[]]. subst n. auto. }
  assert (N1 : NoDup (map f_pn el0)). { eapply Permutation_NoDup; [apply Permutation_sym, Permutation_map, P0|]. rewrite chosen_names by (intros; now apply IP). exact NP. }
  assert (N2 : NoDup (map f_name el0)). { apply nodup_by_pn; auto. intros a b A B. apply CH in A, B. destruct A, B. now apply NL. }
  assert (I0 : forall pn, In pn (map f_pn el0) <-> In pn (map f_pn providers)).
  { intros pn. rewrite <- PN, <- IP. assert (Q : Permutation (map f_pn el0) (pns l)). { rewrite P0, chosen_names by (intros; now apply IP). reflexivity. } split; apply Permutation_in; auto using Permutation_sym. }
  destruct (item_fold getvar l item l el0 N2) as (PR & HD & _).
  { intros f F. destruct (in_dec str_eq_dec item (map f_pn l)) as [I|NI].
    - destruct (chosen_some getvar l item I) as (g & E & G & Q). rewrite F in E. injection E as <-. apply (Permutation_in _ (Permutation_sym P0)). apply in_flat_map. exists item. split; [now apply IP|]. unfold chosen_list. rewrite F. now left.
    - exfalso. unfold chosen_for in F. assert (E : of_pn l item = []). { destruct (of_pn l item) as [|x xs] eqn:E; auto. exfalso. apply NI. assert (X : In x (of_pn l item)) by (rewrite E; now left). apply of_pn_in in X. destruct X as [X <-]. now apply in_map. }
      rewrite E in F. unfold find_preferred in F. destruct (match version_variable getvar (s_ "REQUIRED") item with Some v => Some v | None => version_variable getvar (s_ "PREFERRED") item end) as [[|c v]|]; try discriminate. destruct (split_preferred (c :: v)). discriminate. }
  set (r := fold_left _ l el0) in *. split; [|split; [|split; [|split]]].
  - eapply Permutation_NoDup; [apply Permutation_sym, Permutation_map, PR|exact N1].
  - eapply Permutation_NoDup; [apply Permutation_sym, Permutation_map, PR|exact N2].
  - intros pn. rewrite <- I0. split; apply Permutation_in, Permutation_map; auto using Permutation_sym.
  - intros f F. apply (Permutation_in _ PR) in F. destruct (CH f F) as [A B]. split; auto. apply (Permutation_in _ PL B).
  - intros I. apply PN in I. destruct (chosen_some getvar l item I) as (f & E & F & Q). destruct (HD I f E) as (t & ->). eauto.
Qed.
