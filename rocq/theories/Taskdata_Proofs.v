(** Lemmas for C96-C99. *)
From Coq Require Import String Ascii List Bool Arith Lia.
From Verif Require Import Str_Model Str_Proofs Taskdata_Model Taskdata_Spec.
Import ListNotations.
Open Scope list_scope.

(** ** Tables *)
Lemma side_dec (x y : side) : {x = y} + {x <> y}. Proof. decide equality. Defined.
Lemma upd_same {A} (f : side -> A) x a : upd f x a x = a. Proof. now destruct x. Qed.
Lemma upd_other {A} (f : side -> A) x y a : x <> y -> upd f x a y = f y. Proof. destruct x, y; intros H; auto; now elim H. Qed.
Lemma get_put t v u l : get u (put t v l) = if seqb t u then v else get u l.
Proof.
  induction l as [|[k w] l IH]; cbn; [now destruct (seqb t u)|]. destruct (seqb k t) eqn:E; cbn.
  - apply seqb_eq in E. subst. now destruct (seqb t u).
  - rewrite IH. destruct (seqb k u) eqn:F; auto. destruct (seqb t u) eqn:G; auto. apply seqb_eq in F, G. subst. now rewrite seqb_refl in E.
Qed.
Lemma keys_put t v l : In t (keys l) -> keys (put t v l) = keys l.
Proof.
  induction l as [|[k w] l IH]; cbn; [intros []|]. destruct (seqb k t) eqn:E; cbn; auto. intros [->|I]; [now rewrite seqb_refl in E|]. f_equal. now apply IH.
Qed.
Lemma keys_put_new t v l : ~ In t (keys l) -> keys (put t v l) = keys l ++ [t].
Proof. induction l as [|[k w] l IH]; cbn; auto. destruct (seqb k t) eqn:E; cbn; [apply seqb_eq in E; tauto|]. intros N. f_equal. apply IH. auto. Qed.
Lemma keys_put_In t v l u : In u (keys (put t v l)) <-> u = t \/ In u (keys l).
Proof.
  destruct (in_dec str_eq_dec t (keys l)) as [I|I]; [rewrite keys_put|rewrite keys_put_new, in_app_iff]; auto; cbn; intuition (subst; auto).
Qed.
Lemma get_not_key t l : ~ In t (keys l) -> get t l = [].
Proof. induction l as [|[k w] l IH]; cbn; auto. intros N. destruct (seqb k t) eqn:E; [apply seqb_eq in E; tauto|]. tauto. Qed.
Lemma get_key t l g : In g (get t l) -> In t (keys l).
Proof. intros I. destruct (in_dec str_eq_dec t (keys l)) as [J|J]; auto. rewrite get_not_key in I; [destruct I|auto]. Qed.
Lemma get_snoc t u l : get u (l ++ [(t, [])]) = get u l.
Proof. induction l as [|[k w] l IH]; cbn; [now destruct (seqb t u)|]. now rewrite IH. Qed.
Lemma remove1_In f l g : In g (remove1 f l) -> In g l.
Proof. induction l as [|h l IH]; cbn; auto. destruct (seqb h f); cbn; tauto. Qed.
Lemma remove1_NoDup f l : NoDup l -> NoDup (remove1 f l) /\ ~ In f (remove1 f l).
Proof.
  induction 1 as [|h l NI N [IH1 IH2]]; cbn; [split; [constructor|intros []]|]. destruct (seqb h f) eqn:E; [apply seqb_eq in E; subst; auto|]. apply seqb_neq in E.
  split; [constructor; auto; intros I; apply NI; eauto using remove1_In|]. cbn. intros [H|H]; tauto.
Qed.

(** ** Outcomes *)
Definition out (PO PN PR : state -> Prop) (r : res) : Prop :=
  match r with Ok s => PO s | NoProv s => PN s | NoRProv s => PR s | Fatal => True | OutOfFuel => False end.
Lemma out_weaken (PO PN PR PO' PN' PR' : state -> Prop) r :
  out PO PN PR r -> (forall s, PO s -> PO' s) -> (forall s, PN s -> PN' s) -> (forall s, PR s -> PR' s) -> out PO' PN' PR' r.
Proof. destruct r; cbn; auto. Qed.
Lemma each_out {A} (f : A -> state -> res) (I PN PR : state -> Prop) (Q : A -> state -> Prop) l :
  (forall a s, In a l -> I s -> out (fun s' => I s' /\ Q a s' /\ forall b, Q b s -> Q b s') PN PR (f a s)) ->
  forall s, I s -> out (fun s' => I s' /\ (forall a, In a l -> Q a s') /\ forall b, Q b s -> Q b s') PN PR (each f l s).
Proof.
  induction l as [|a l IH]; intros H s Is; cbn; [repeat split; auto; intros a []|].
  pose proof (H a s (or_introl eq_refl) Is) as Ha. destruct (f a s) as [s1|s1|s1| |]; cbn in *; auto.
  destruct Ha as (I1 & Q1 & S1). specialize (IH (fun b s' J => H b s' (or_intror J)) s1 I1). eapply out_weaken; [exact IH| | |]; auto.
  intros s' (I2 & Q2 & S2). split; [auto|]. split; [|auto]. intros b [->|J]; auto.
Qed.

Section Resolve.
Variable C : cache.
Variables halt allow : bool.
Variable asked : list str.

(** ** What holds all the time *)
Record weak (s : state) : Prop := {
  w_nodup : forall x t, NoDup (providers s x t);
  w_elig : forall x t g, In g (providers s x t) -> c_ignored C t = false /\ eligible C x t g;
  w_need : forall x fn l, In (fn, l) (s_needs s x) -> l = dedupe (c_needs C x fn) /\ In fn (s_seen s);
  w_entry : forall e, In e (s_entries s) -> In (e_fn e) (s_seen s) /\ forall x p, In p (e_needs e x) -> flag_names C x (e_fn e) (fst p);
  w_ffns : forall fn, In fn (s_ffns s) -> bad_file C fn;
  w_failed : forall x t, In t (s_failed s x) -> bad_name C x t;
  w_seen : forall fn, In fn (s_seen s) -> wanted_file C asked fn;
  w_keys : forall x t, In t (keys (s_targets s x)) -> wanted_name C asked x t;
  w_ext : forall t, In t (s_external s) -> In t asked
}.
Definition broken (s : state) : Prop := halt = true /\ exists t, In t (s_external s) /\ In t (s_failed s Build).

(** What a failure changes *)
Record shrink (s s' : state) : Prop := {
  k_seen : s_seen s' = s_seen s;
  k_entries : s_entries s' = s_entries s;
  k_needs : forall x, s_needs s' x = s_needs s x;
  k_ext : s_external s' = s_external s;
  k_keys : forall x, keys (s_targets s' x) = keys (s_targets s x);
  k_prov : forall x t g, In g (providers s' x t) -> In g (providers s x t);
  k_ffns : forall fn, In fn (s_ffns s) -> In fn (s_ffns s');
  k_failed : forall x t, In t (s_failed s x) -> In t (s_failed s' x);
  k_emptied : forall x t, providers s x t <> [] -> providers s' x t = [] -> In t (s_failed s' x)
}.
Lemma shrink_refl s : shrink s s. Proof. constructor; auto. intros. congruence. Qed.
Lemma shrink_trans s1 s2 s3 : shrink s1 s2 -> shrink s2 s3 -> shrink s1 s3.
Proof.
  intros [a1 a2 a3 a4 a5 a6 a7 a8 a9] [b1 b2 b3 b4 b5 b6 b7 b8 b9]. constructor; try congruence; auto.
  intros x t N E. destruct (providers s2 x t) eqn:F; [|apply b9; congruence]. apply b8, a9; auto.
Qed.
Definition dependent (s : state) (x : side) (t fn : str) : Prop := In fn (dependees s x t) \/ In fn (namers s x t).
(** What a failure has done when it is complete *)
Record complete (s s' : state) : Prop := {
  c_gone : forall g, In g (s_ffns s') -> In g (s_ffns s) \/ forall x t, ~ In g (providers s' x t);
  c_spread : forall x t, In t (s_failed s' x) -> In t (s_failed s x) \/ forall fn, dependent s' x t fn -> In fn (s_ffns s');
  c_raised : forall t, In t (s_failed s' Build) -> In t (s_failed s Build) \/ halt = false \/ ~ In t (s_external s')
}.
Lemma complete_refl s : complete s s. Proof. constructor; auto. Qed.
Lemma dependent_eq s s' x t fn : shrink s s' -> dependent s' x t fn <-> dependent s x t fn.
Proof. intros K. unfold dependent, dependees, namers. rewrite (k_needs _ _ K), (k_entries _ _ K). tauto. Qed.
Lemma complete_trans s1 s2 s3 : complete s1 s2 -> shrink s2 s3 -> complete s2 s3 -> complete s1 s3.
Proof.
  intros [a1 a2 a3] K [b1 b2 b3]. constructor.
  - intros g I. destruct (b1 g I) as [J|J]; auto. destruct (a1 g J) as [L|L]; auto. right. intros x t M. apply (L x t). now apply (k_prov _ _ K).
  - intros x t I. destruct (b2 x t I) as [J|J]; auto. destruct (a2 x t J) as [L|L]; auto. right. intros fn D. apply (k_ffns _ _ K), L. now apply (dependent_eq _ _ _ _ _ K).
  - intros t I. rewrite (k_ext _ _ K). destruct (b3 t I) as [J|[J|J]]; auto. rewrite <- (k_ext _ _ K). auto.
Qed.

(** Files left that can fail *)
Definition left (s : state) : nat := length (filter (fun f => negb (mem_str f (s_ffns s))) (s_seen s)).
Lemma filter_incl_length {A} (p q : A -> bool) l : (forall a, In a l -> p a = true -> q a = true) -> length (filter p l) <= length (filter q l).
Proof.
  induction l as [|a l IH]; intros H; cbn; auto. assert (IH' := IH (fun b I => H b (or_intror I))). pose proof (H a (or_introl eq_refl)).
  destruct (p a), (q a); cbn; try lia; discriminate H0; auto.
Qed.
Lemma filter_lt_length {A} (p q : A -> bool) l a : (forall a, In a l -> p a = true -> q a = true) -> In a l -> p a = false -> q a = true -> length (filter p l) < length (filter q l).
Proof.
  induction l as [|b l IH]; intros H I P Q; [destruct I|]. cbn. assert (W := filter_incl_length p q l (fun b I => H b (or_intror I))). destruct I as [->|I].
  - rewrite P, Q. cbn. lia.
  - assert (IH' := IH (fun b I => H b (or_intror I)) I P Q). pose proof (H b (or_introl eq_refl)). destruct (p b), (q b); cbn; try lia; discriminate H0; auto.
Qed.
Lemma left_shrink s s' : shrink s s' -> left s' <= left s.
Proof.
  intros K. unfold left. rewrite (k_seen _ _ K). apply filter_incl_length. intros f _. rewrite !negb_true_iff, !mem_str_false. intros N I. apply N. now apply (k_ffns _ _ K).
Qed.
Lemma left_add s fn : In fn (s_seen s) -> ~ In fn (s_ffns s) -> left (add_ffn s fn) < left s.
Proof.
  intros I N. unfold left. cbn [add_ffn s_ffns s_seen]. apply filter_lt_length with (a := fn); auto.
  - intros f _. rewrite !negb_true_iff, !mem_str_false. intros M J. apply M. apply in_app_iff. auto.
  - rewrite negb_false_iff, mem_str_In. apply in_app_iff. cbn. auto.
  - now rewrite negb_true_iff, mem_str_false.
Qed.
Lemma left_depth s : left s < depth s.
Proof. unfold left, depth. enough (length (filter (fun f => negb (mem_str f (s_ffns s))) (s_seen s)) <= length (s_seen s)) by lia. induction (s_seen s) as [|f l IH]; cbn; auto. destruct (negb _); cbn; lia. Qed.

(** ** Failures *)
Definition fails (fl : str -> state -> res) (n : nat) : Prop :=
  forall fn s, weak s -> In fn (s_seen s) -> bad_file C fn -> left s < n ->
  out (fun s' => weak s' /\ shrink s s' /\ complete s s' /\ In fn (s_ffns s'))
      (fun s' => weak s' /\ shrink s s' /\ broken s' /\ In fn (s_ffns s')) (fun _ => False) (fl fn s).
Lemma weak_ffn s fn : weak s -> bad_file C fn -> weak (add_ffn s fn).
Proof. intros [] B. constructor; cbn; auto. intros f I. apply in_app_iff in I. destruct I as [I|[<-|[]]]; auto. Qed.
Lemma weak_add_failed s x t : weak s -> bad_name C x t -> weak (add_failed s x t).
Proof.
  intros [] B. constructor; cbn; auto. intros y u I. destruct (side_dec x y) as [<-|N]; [rewrite upd_same in I|rewrite upd_other in I; auto].
  apply in_app_iff in I. destruct I as [I|[<-|[]]]; auto.
Qed.
Lemma shrink_failed s x t : shrink s (add_failed s x t).
Proof.
  constructor; cbn; auto; [|intros y u; unfold providers; cbn; congruence]. intros y u I. destruct (side_dec x y) as [<-|N]; [rewrite upd_same; apply in_app_iff; auto|rewrite upd_other; auto].
Qed.
Lemma failed_add s x t : In t (s_failed (add_failed s x t) x).
Proof. cbn. rewrite upd_same. apply in_app_iff. cbn. auto. Qed.
Lemma failed_add_inv s x t y u : In u (s_failed (add_failed s x t) y) -> In u (s_failed s y) \/ (y = x /\ u = t).
Proof. cbn. destruct (side_dec x y) as [<-|N]; [rewrite upd_same, in_app_iff; cbn; intuition auto|rewrite upd_other; auto]. Qed.
Lemma dependees_In s x t fn : In fn (dependees s x t) <-> exists l, In (fn, l) (s_needs s x) /\ In t l.
Proof.
  unfold dependees. rewrite in_map_iff. split.
  - intros ([f l] & <- & I). apply filter_In in I. cbn in I. destruct I as [I M]. apply mem_str_In in M. eauto.
  - intros (l & I & M). exists (fn, l). split; auto. apply filter_In. split; auto. now apply mem_str_In.
Qed.
Lemma namers_In s x t fn : In fn (namers s x t) <-> exists e p, In e (s_entries s) /\ In p (e_needs e x) /\ fst p = t /\ e_fn e = fn.
Proof.
  unfold namers. rewrite in_flat_map. split.
  - intros (e & I & J). apply in_map_iff in J. destruct J as (p & <- & J). apply filter_In in J. destruct J as [J E]. apply seqb_eq in E. exists e, p. auto.
  - intros (e & p & I & J & E & F). exists e. split; auto. apply in_map_iff. exists p. split; auto. apply filter_In. split; auto. now apply seqb_eq.
Qed.
Lemma dedupe_In l d : In d (dedupe l) <-> In d l.
Proof.
  unfold dedupe. enough (G : forall acc, In d (fold_left (fun acc d => if mem_str d acc then acc else acc ++ [d]) l acc) <-> In d acc \/ In d l) by (rewrite G; cbn; tauto).
  induction l as [|a l IH]; intros acc; cbn; [tauto|]. rewrite IH. destruct (mem_str a acc) eqn:E; [apply mem_str_In in E; intuition (subst; auto)|]. rewrite in_app_iff. cbn. intuition auto.
Qed.
Lemma dependent_bad s x t fn : weak s -> bad_name C x t -> dependent s x t fn -> In fn (s_seen s) /\ bad_file C fn.
Proof.
  intros W B [D|D].
  - apply dependees_In in D. destruct D as (l & I & M). destruct (w_need s W _ _ _ I) as [-> J]. split; auto. apply bad_need with x t; auto. left. exact (proj1 (dedupe_In _ _) M).
  - apply namers_In in D. destruct D as (e & p & I & J & <- & <-). destruct (w_entry s W e I) as [S F]. split; auto. apply bad_need with x (fst p); auto. right. auto.
Qed.
Lemma remove_target_out fl n x t s : fails fl n -> weak s -> bad_name C x t -> left s < n ->
  out (fun s' => weak s' /\ shrink s s' /\ complete s s' /\ In t (s_failed s' x))
      (fun s' => weak s' /\ shrink s s' /\ broken s' /\ In t (s_failed s' x)) (fun _ => False) (remove_target halt fl x t s).
Proof.
  intros F W B L. unfold remove_target. cbv zeta. set (s0 := add_failed s x t). assert (W0 : weak s0) by now apply weak_add_failed. pose proof (shrink_failed s x t) as K0. fold s0 in K0.
  assert (I0 : In t (s_failed s0 x)) by apply failed_add.
  assert (X : forall l s1, (forall fn, In fn l -> dependent s0 x t fn) -> weak s1 -> shrink s0 s1 -> complete s0 s1 ->
    out (fun s' => (weak s' /\ shrink s0 s' /\ complete s0 s') /\ (forall fn, In fn l -> In fn (s_ffns s')) /\ forall fn, In fn (s_ffns s1) -> In fn (s_ffns s'))
        (fun s' => weak s' /\ shrink s s' /\ broken s' /\ In t (s_failed s' x)) (fun _ => False) (each fl l s1)).
  { intros l s1 HL W1 K1 C1. apply (each_out fl (fun s' => weak s' /\ shrink s0 s' /\ complete s0 s') _ _ (fun fn s' => In fn (s_ffns s'))); [|auto].
    intros fn s2 I (W2 & K2 & C2). apply HL in I. destruct (dependent_bad s0 x t fn W0 B I) as [S Bf].
    assert (L2 : left s2 < n). { pose proof (left_shrink _ _ (shrink_trans _ _ _ K0 K2)). lia. }
    assert (S2 : In fn (s_seen s2)) by now rewrite (k_seen _ _ K2).
    eapply out_weaken; [apply (F fn s2 W2 S2 Bf L2)| | |auto]; cbn.
    - intros s3 (W3 & K3 & C3 & I3). split; [split; [auto|split; [eauto using shrink_trans|exact (complete_trans _ _ _ C2 K3 C3)]]|].
      split; [auto|]. intros f. apply (k_ffns _ _ K3).
    - intros s3 (W3 & K3 & B3 & _). split; [auto|]. split; [eauto using shrink_trans|]. split; [auto|]. apply (k_failed _ _ K3), (k_failed _ _ K2), I0. }
  pose proof (X (dependees s0 x t) s0 (fun fn I => or_introl I) W0 (shrink_refl _) (complete_refl _)) as X1.
  destruct (each fl (dependees s0 x t) s0) as [s1|s1|s1| |]; cbn in X1; auto. destruct X1 as ((W1 & K1 & C1) & A1 & _).
  assert (N1 : namers s1 x t = namers s0 x t) by (unfold namers; now rewrite (k_entries _ _ K1)).
  assert (X2 := X (namers s1 x t) s1). rewrite N1 in X2. specialize (X2 (fun fn I => or_intror I) W1 K1 C1). rewrite N1.
  destruct (each fl (namers s0 x t) s1) as [s2|s2|s2| |]; cbn in X2; auto. destruct X2 as ((W2 & K2 & C2) & A2 & M2).
  assert (K : shrink s s2) by eauto using shrink_trans. assert (I2 : In t (s_failed s2 x)) by now apply (k_failed _ _ K2).
  assert (CC : (forall u, x = Build -> u = t -> halt = false \/ ~ In u (s_external s2)) -> complete s s2).
  { intros Ra. destruct C2 as [g1 g2 g3]. constructor; [intros g I; apply (g1 g I)| |].
    - intros y u I. destruct (g2 y u I) as [J|J]; auto.
      apply failed_add_inv in J. destruct J as [J|[-> ->]]; auto. right. intros fn D. apply (dependent_eq _ _ _ _ _ K2) in D. destruct D; auto.
    - intros u I. destruct (g3 u I) as [J|J]; auto. apply failed_add_inv in J. destruct J as [J|[<- ->]]; auto. }
  destruct x; cbn; [|split; [auto|]; split; [auto|]; split; [apply CC; discriminate|auto]]. destruct (halt && mem_str t (s_external s2)) eqn:E; cbn [out].
  - apply andb_true_iff in E. destruct E as [E1 E2]. apply mem_str_In in E2. split; [auto|]. split; [auto|]. split; [|auto]. split; auto. exists t. auto.
  - split; [auto|]. split; [auto|]. split; [|auto]. apply CC. intros u _ ->. apply andb_false_iff in E. destruct E as [E|E]; auto. apply mem_str_false in E. auto.
Qed.
Lemma lose_out fl n fn x t s : fails fl n -> weak s -> bad_file C fn -> left s < n ->
  out (fun s' => weak s' /\ shrink s s' /\ complete s s' /\ ~ In fn (providers s' x t))
      (fun s' => weak s' /\ shrink s s' /\ broken s') (fun _ => False) (lose halt fl fn x t s).
Proof.
  intros F W B L. unfold lose. destruct (mem_str fn (providers s x t)) eqn:E; cbn.
  2:{ apply mem_str_false in E. auto using shrink_refl, complete_refl. }
  apply mem_str_In in E. set (l := remove1 fn (providers s x t)). set (s1 := set_targets s x (put t l (s_targets s x))).
  assert (P1 : forall y u, providers s1 y u = if side_dec x y then if seqb t u then l else providers s y u else providers s y u).
  { intros y u. unfold providers, s1. cbn. destruct (side_dec x y) as [<-|N]; [rewrite upd_same, get_put|rewrite upd_other]; auto. }
  assert (PI : forall y u g, In g (providers s1 y u) -> In g (providers s y u)).
  { intros y u g. rewrite P1. destruct (side_dec x y) as [<-|N]; auto. destruct (seqb t u) eqn:G; auto. apply seqb_eq in G. subst u. unfold l. apply remove1_In. }
  assert (KI : forall y, keys (s_targets s1 y) = keys (s_targets s y)).
  { intros y. unfold s1. cbn. destruct (side_dec x y) as [<-|N]; [rewrite upd_same|now rewrite upd_other]. apply keys_put. now apply get_key with fn. }
  destruct (remove1_NoDup fn (providers s x t) (w_nodup s W x t)) as [ND NI]. fold l in ND, NI.
  assert (W1 : weak s1).
  { destruct W as [a b c d e f g h w]. constructor; auto.
    - intros y u. rewrite P1. destruct (side_dec x y) as [<-|N]; auto. destruct (seqb t u); auto.
    - intros y u. rewrite KI. auto. }
  assert (PT : providers s1 x t = l) by (rewrite P1; destruct (side_dec x x); [now rewrite seqb_refl|congruence]).
  assert (PO : forall y u, providers s y u <> [] -> providers s1 y u = [] -> y = x /\ u = t).
  { intros y u. rewrite P1. destruct (side_dec x y) as [<-|N]; [|congruence]. destruct (seqb t u) eqn:G; [|congruence]. apply seqb_eq in G. auto. }
  assert (Bn : bad_name C x t). { destruct (w_elig s W x t fn E) as [Ig El]. now apply bad_provider with fn. }
  assert (JK : forall s', shrink s1 s' -> (l = [] -> In t (s_failed s' x)) -> shrink s s').
  { intros s' [a b c d e f g h i] J. constructor; auto; [intros y; rewrite e; apply KI|]. intros y u N E'. destruct (providers s1 y u) eqn:G; [|apply i; congruence].
    destruct (PO y u N G) as [-> ->]. apply J. congruence. }
  assert (JC : forall s', complete s1 s' -> complete s s') by (intros s' [a b c]; constructor; auto).
  destruct l as [|f l'] eqn:El; cbn [out].
  - assert (R := remove_target_out fl n x t s1 F W1 Bn L). eapply out_weaken; [exact R| | |auto]; cbn.
    + intros s' (W2 & K2 & C2 & I2). split; [auto|]. split; [apply JK; auto|]. split; [auto|]. intros I. apply (k_prov _ _ K2) in I. rewrite PT in I. destruct I.
    + intros s' (W2 & K2 & B2 & I2). auto.
  - split; [auto|]. split; [apply JK; [apply shrink_refl|congruence]|]. split; [apply JC, complete_refl|]. now rewrite PT.
Qed.
Lemma fail_fn_out n : fails (fail_fn halt n) n.
Proof.
  induction n as [|n IH]; intros fn s W S B L; [lia|]. cbn [fail_fn]. destruct (mem_str fn (s_ffns s)) eqn:E.
  { apply mem_str_In in E. cbn. auto using shrink_refl, complete_refl. }
  apply mem_str_false in E. cbv zeta. set (s1 := add_ffn s fn). assert (W1 : weak s1) by now apply weak_ffn. assert (L1 : left s1 < n) by (pose proof (left_add s fn S E); fold s1 in H; lia).
  assert (I1 : In fn (s_ffns s1)) by (cbn; apply in_app_iff; cbn; auto).
  assert (K1 : shrink s s1) by (constructor; cbn; auto; [intros f I; apply in_app_iff; auto|intros x t N E'; elim (N E')]).
  assert (X : forall x s2, weak s2 -> shrink s1 s2 -> complete s1 s2 ->
    out (fun s' => (weak s' /\ shrink s2 s' /\ complete s2 s') /\ (forall t, In t (keys (s_targets s2 x)) -> ~ In fn (providers s' x t)) /\ forall t, ~ In fn (providers s2 x t) -> ~ In fn (providers s' x t))
        (fun s' => weak s' /\ shrink s s' /\ broken s' /\ In fn (s_ffns s')) (fun _ => False) (each (lose halt (fail_fn halt n) fn x) (keys (s_targets s2 x)) s2)).
  { intros x s2 W2 K2 C2. apply (each_out _ (fun s' => weak s' /\ shrink s2 s' /\ complete s2 s') _ _ (fun t s' => ~ In fn (providers s' x t))); [|auto using shrink_refl, complete_refl].
    intros t s3 _ (W3 & K3 & C3). assert (L3 : left s3 < n) by (pose proof (left_shrink _ _ (shrink_trans _ _ _ K2 K3)); lia).
    eapply out_weaken; [apply (lose_out _ n fn x t s3 IH W3 B L3)| | |auto]; cbn.
    - intros s4 (W4 & K4 & C4 & I4). split; [split; [auto|split; [eauto using shrink_trans|exact (complete_trans _ _ _ C3 K4 C4)]]|]. split; auto. intros u N I. apply N. now apply (k_prov _ _ K4).
    - intros s4 (W4 & K4 & B4). split; [auto|]. split; [eauto using shrink_trans|]. split; auto. now apply (k_ffns _ _ K4), (k_ffns _ _ K3), (k_ffns _ _ K2). }
  assert (X1 := X Build s1 W1 (shrink_refl _) (complete_refl _)).
  destruct (each (lose halt (fail_fn halt n) fn Build) (keys (s_targets s1 Build)) s1) as [s2|s2|s2| |]; cbn in X1; auto. destruct X1 as ((W2 & K2 & C2) & A2 & _).
  eapply out_weaken; [apply (X Runtime s2 W2 K2 C2)| | |]; cbn; auto.
  intros s3 ((W3 & K3 & C3) & A3 & _). assert (C13 := complete_trans _ _ _ C2 K3 C3).
  split; [auto|]. split; [eauto using shrink_trans|]. split; [|now apply (k_ffns _ _ K3), (k_ffns _ _ K2)].
  destruct C13 as [g1 g2 g3]. constructor; [|exact g2|exact g3]. intros g I. destruct (g1 g I) as [J|J]; auto. cbn in J. apply in_app_iff in J. destruct J as [J|[<-|[]]]; auto.
  right. intros x t J. destruct x.
  - apply (k_prov _ _ K3) in J. destruct (in_dec str_eq_dec t (keys (s_targets s1 Build))) as [H|H]; [now apply (A2 t)|]. rewrite <- (k_keys _ _ K2) in H. apply H. now apply get_key with fn.
  - destruct (in_dec str_eq_dec t (keys (s_targets s2 Runtime))) as [H|H]; [now apply (A3 t)|]. rewrite <- (k_keys _ _ K3) in H. apply H. now apply get_key with fn.
Qed.

(** ** What grows *)
Definition settled (s : state) (x : side) (t : str) : Prop := providers s x t <> [] \/ In t (s_failed s x).
Record mono (s s' : state) : Prop := {
  m_seen : forall fn, In fn (s_seen s) -> In fn (s_seen s');
  m_ext : forall t, In t (s_external s) -> In t (s_external s');
  m_keys : forall x t, In t (keys (s_targets s x)) -> In t (keys (s_targets s' x));
  m_ffns : forall fn, In fn (s_ffns s) -> In fn (s_ffns s');
  m_failed : forall x t, In t (s_failed s x) -> In t (s_failed s' x);
  m_settled : forall x t, settled s x t -> settled s' x t
}.
Lemma mono_refl s : mono s s. Proof. constructor; auto. Qed.
Lemma mono_trans s1 s2 s3 : mono s1 s2 -> mono s2 s3 -> mono s1 s3.
Proof. intros [] []. constructor; auto. Qed.
Lemma shrink_mono s s' : shrink s s' -> mono s s'.
Proof.
  intros [a b c d e f g h i]. constructor; auto.
  - intros fn. now rewrite a.
  - intros t. now rewrite d.
  - intros x t. now rewrite e.
  - intros x t [N|I]; [|right; auto]. destruct (providers s' x t) eqn:E; [right; auto|left; congruence].
Qed.
Lemma broken_mono s s' : broken s -> mono s s' -> broken s'.
Proof. intros [H (t & E & F)] M. split; auto. exists t. split; [now apply (m_ext _ _ M)|now apply (m_failed _ _ M)]. Qed.

(** Between two operations, but for the files [ex] *)
Record strong (ex : str -> Prop) (s : state) : Prop := {
  q_prov : forall x t g, In g (providers s x t) -> ~ In g (s_ffns s);
  q_pseen : forall x t g, In g (providers s x t) -> ex g \/ In g (s_seen s);
  q_fail : forall x t fn, In fn (s_seen s) -> In t (c_needs C x fn) -> In t (s_failed s x) -> ex fn \/ In fn (s_ffns s);
  q_keys : forall x t fn, In fn (s_seen s) -> file_needs C x fn t -> ex fn \/ In fn (s_ffns s) \/ In t (keys (s_targets s x));
  q_need : forall x fn, In fn (s_seen s) -> In (fn, dedupe (c_needs C x fn)) (s_needs s x);
  q_entry : forall x t fn, In fn (s_seen s) -> flag_names C x fn t -> In fn (namers s x t)
}.
Definition nobody (g : str) : Prop := False.
Lemma strong_shrink ex s s' : strong ex s -> shrink s s' -> complete s s' -> (forall f, ex f -> In f (s_ffns s')) -> strong nobody s'.
Proof.
  intros [a b c d e f] K [g1 g2 _] X.
  assert (P : forall x t g, In g (providers s' x t) -> ~ In g (s_ffns s')).
  { intros x t g I J. destruct (g1 g J) as [M|M]; [|now apply (M x t)]. apply (k_prov _ _ K) in I. now apply (a x t g). }
  constructor; auto.
  - intros x t g I. right. rewrite (k_seen _ _ K). destruct (b x t g (k_prov _ _ K _ _ _ I)) as [J|J]; auto. apply X in J. now apply P in I.
  - intros x t fn S N F. right. rewrite (k_seen _ _ K) in S. destruct (g2 x t F) as [J|J].
    + destruct (c x t fn S N J) as [M|M]; auto. now apply (k_ffns _ _ K).
    + apply J. left. apply dependees_In. exists (dedupe (c_needs C x fn)). rewrite (k_needs _ _ K). split; [now apply e|now apply dedupe_In].
  - intros x t fn S N. right. rewrite (k_seen _ _ K) in S. rewrite (k_keys _ _ K). destruct (d x t fn S N) as [M|[M|M]]; auto. left. now apply (k_ffns _ _ K).
  - intros x fn S. rewrite (k_needs _ _ K). apply e. now rewrite <- (k_seen _ _ K).
  - intros x t fn S. unfold namers. rewrite (k_entries _ _ K). rewrite (k_seen _ _ K) in S. now apply f.
Qed.

(** Names are looked at *)
Record grow (s s' : state) : Prop := {
  g_seen : s_seen s' = s_seen s;
  g_needs : forall x, s_needs s' x = s_needs s x;
  g_ffns : s_ffns s' = s_ffns s;
  g_failed : forall x, s_failed s' x = s_failed s x;
  g_ext : s_external s' = s_external s;
  g_prov : forall x t, providers s' x t = providers s x t;
  g_keys : forall x t, In t (keys (s_targets s x)) -> In t (keys (s_targets s' x));
  g_entries : forall x t fn, In fn (namers s x t) -> In fn (namers s' x t)
}.
Lemma grow_refl s : grow s s. Proof. constructor; auto. Qed.
Lemma grow_trans s1 s2 s3 : grow s1 s2 -> grow s2 s3 -> grow s1 s3.
Proof. intros [] []. constructor; auto; congruence. Qed.
Lemma grow_mono s s' : grow s s' -> mono s s'.
Proof. intros [a b c d e f g h]. constructor; auto; [intros fn; now rewrite a|intros t; now rewrite e|intros fn; now rewrite c|intros x t; now rewrite d|]. intros x t. unfold settled. now rewrite f, d. Qed.
Lemma strong_grow ex s s' : strong ex s -> grow s s' -> strong ex s'.
Proof.
  intros [a b c d e f] [k1 k2 k3 k4 k5 k6 k7 k8]. constructor.
  - intros x t g. rewrite k6, k3. apply a.
  - intros x t g. rewrite k6, k1. apply b.
  - intros x t fn. rewrite k1, k4, k3. apply c.
  - intros x t fn. rewrite k1, k3. intros S N. destruct (d x t fn S N) as [M|[M|M]]; auto.
  - intros x fn. rewrite k1, k2. apply e.
  - intros x t fn. rewrite k1. auto.
Qed.
Lemma seen_target_spec x t s : weak s -> wanted_name C asked x t ->
  weak (seen_target x t s) /\ grow s (seen_target x t s) /\ In t (keys (s_targets (seen_target x t s) x)).
Proof.
  intros W N. unfold seen_target. destruct (mem_str t (keys (s_targets s x))) eqn:E; [apply mem_str_In in E; auto using grow_refl|].
  set (s1 := set_targets s x (s_targets s x ++ [(t, [])])).
  assert (P : forall y u, providers s1 y u = providers s y u).
  { intros y u. unfold providers, s1. cbn. destruct (side_dec x y) as [<-|M]; [now rewrite upd_same, get_snoc|now rewrite upd_other]. }
  assert (K : forall y u, In u (keys (s_targets s1 y)) <-> In u (keys (s_targets s y)) \/ (y = x /\ u = t)).
  { intros y u. unfold s1. cbn. destruct (side_dec x y) as [<-|M]; [rewrite upd_same|rewrite upd_other; intuition congruence].
    unfold keys. rewrite map_app, in_app_iff. cbn. intuition auto. }
  split; [|split].
  - destruct W as [a b c d e f g h w]. constructor; auto.
    + intros y u. rewrite P. auto.
    + intros y u f0. rewrite P. auto.
    + intros y u I. apply K in I. destruct I as [I|[-> ->]]; auto.
  - constructor; auto. intros y u I. apply K. auto.
  - apply K. auto.
Qed.
Lemma seen_targets_spec {A} x (f : A -> str) l : forall s, weak s -> (forall d, In d l -> wanted_name C asked x (f d)) ->
  let s' := fold_left (fun s d => seen_target x (f d) s) l s in
  weak s' /\ grow s s' /\ forall d, In d l -> In (f d) (keys (s_targets s' x)).
Proof.
  induction l as [|d l IH]; intros s W N; cbn [fold_left]; cbv zeta; [split; [auto|split; [apply grow_refl|intros d []]]|].
  destruct (seen_target_spec x (f d) s W (N d (or_introl eq_refl))) as (W1 & G1 & K1).
  destruct (IH _ W1 (fun e I => N e (or_intror I))) as (W2 & G2 & K2). split; [auto|]. split; [eauto using grow_trans|].
  intros e [->|I]; auto. now apply (g_keys _ _ G2).
Qed.

(** ** A recipe *)
Lemma parse_dep_spec w a b : parse_dep w = Some (a, b) <-> split_on ":"%char w = [a; b].
Proof. unfold parse_dep. destruct (split_on ":"%char w) as [|u [|v [|? ?]]]; split; try discriminate; intros [= -> ->]; auto. Qed.
Lemma parse_deps_spec ws : forall l, parse_deps ws = Some l -> forall a b, In (a, b) l <-> exists w, In w ws /\ split_on ":"%char w = [a; b].
Proof.
  induction ws as [|w ws IH]; intros l; cbn [parse_deps]; [intros [= <-] a b; split; [intros []|intros (w & [] & _)]|].
  destruct (parse_dep w) as [[u v]|] eqn:E; [|discriminate]. destruct (parse_deps ws) as [l'|]; [|discriminate]. intros [= <-] a b. apply parse_dep_spec in E. cbn. rewrite (IH l' eq_refl). split.
  - intros [[= -> ->]|(w' & I & S)]; eauto.
  - intros (w' & [->|I] & S); [left; congruence|eauto].
Qed.
Lemma add_task_out fn t s : weak s -> In fn (s_seen s) -> In t (c_tasks C fn) ->
  out (fun s' => weak s' /\ grow s s' /\ forall x w a b, In w (t_flag t x) -> split_on ":"%char w = [a; b] -> In a (keys (s_targets s' x)) /\ In fn (namers s' x a))
      (fun _ => False) (fun _ => False) (add_task C fn t s).
Proof.
  intros W S T. unfold add_task. destruct (parse_deps (t_flag t Build)) as [b|] eqn:Eb; [|exact I]. destruct (parse_deps (t_flag t Runtime)) as [r|] eqn:Er; [|exact I]. cbv zeta.
  set (e := Build_entry _ _ _ _). set (s1 := add_entry s e).
  assert (FB : forall d, In d b -> flag_names C Build fn (fst d)).
  { intros [u v] I. apply (parse_deps_spec _ _ Eb) in I. destruct I as (w & I & E). exists t, w, v. auto. }
  assert (FR : forall d, In d r -> flag_names C Runtime fn (fst d)).
  { intros [u v] I. apply (parse_deps_spec _ _ Er) in I. destruct I as (w & I & E). exists t, w, v. auto. }
  assert (WF : wanted_file C asked fn) by now apply (w_seen s W).
  assert (W1 : weak s1).
  { destruct W. constructor; auto. cbn. intros e' I. apply in_app_iff in I. destruct I as [I|[<-|[]]]; auto. cbn. split; auto. intros [] p I; auto. }
  destruct (seen_targets_spec Build fst b s1 W1) as (W2 & G2 & K2); [intros d I; apply wanted_need with fn; auto; right; auto|].
  set (s2 := fold_left _ b s1) in *.
  destruct (seen_targets_spec Runtime fst r s2 W2) as (W3 & G3 & K3); [intros d I; apply wanted_need with fn; auto; right; auto|].
  set (s3 := fold_left _ r s2) in *. cbn [out]. split; [auto|]. split.
  - apply grow_trans with s2; auto. destruct G2 as [a1 a2 a3 a4 a5 a6 a7 a8]. constructor; auto. intros x u f I. apply a8. unfold namers in I |- *. cbn. rewrite flat_map_app. apply in_app_iff. auto.
  - assert (NE : forall x p, In p (e_needs e x) -> In fn (namers s3 x (fst p))).
    { intros x p I. apply (g_entries _ _ G3), (g_entries _ _ G2). apply namers_In. exists e, p. split; [cbn; apply in_app_iff; cbn; auto|auto]. }
    intros [] w u v I E.
    + assert (J : In (u, v) b) by (apply (parse_deps_spec _ _ Eb); eauto). split; [apply (g_keys _ _ G3); apply (K2 (u, v) J)|apply (NE Build (u, v) J)].
    + assert (J : In (u, v) r) by (apply (parse_deps_spec _ _ Er); eauto). split; [apply (K3 (u, v) J)|apply (NE Runtime (u, v) J)].
Qed.
Lemma check_deps_out x fn deps : forall s, weak s -> In fn (s_seen s) -> (forall d, In d deps -> In d (c_needs C x fn)) ->
  let (r, b) := check_deps halt x fn deps s in
  if b then exists s1, weak s1 /\ grow s s1 /\
    out (fun s' => weak s' /\ shrink s1 s' /\ complete s1 s' /\ In fn (s_ffns s')) (fun s' => weak s' /\ shrink s1 s' /\ broken s' /\ In fn (s_ffns s')) (fun _ => False) r
  else exists s', r = Ok s' /\ weak s' /\ grow s s' /\ forall d, In d deps -> In d (keys (s_targets s' x)) /\ ~ In d (s_failed s' x).
Proof.
  induction deps as [|d deps IH]; intros s W S N; cbn [check_deps].
  - exists s. split; [auto|]. split; [auto|]. split; [apply grow_refl|]. intros d [].
  - cbv zeta. assert (Wn : wanted_name C asked x d). { apply wanted_need with fn; [now apply (w_seen s W)|]. left. apply N. now left. }
    destruct (seen_target_spec x d s W Wn) as (W1 & G1 & K1). set (s1 := seen_target x d s) in *.
    assert (S1 : In fn (s_seen s1)) by now rewrite (g_seen _ _ G1).
    destruct (mem_str d (s_failed s1 x)) eqn:E.
    + apply mem_str_In in E. exists s1. split; [auto|]. split; [auto|]. unfold fail. apply fail_fn_out; auto using left_depth.
      apply bad_need with x d; [left; apply N; now left|]. now apply (w_failed s1 W1).
    + apply mem_str_false in E. specialize (IH s1 W1 S1 (fun d I => N d (or_intror I))). destruct (check_deps halt x fn deps s1) as [r b]. destruct b.
      * destruct IH as (s2 & W2 & G2 & O). exists s2. eauto using grow_trans.
      * destruct IH as (s2 & -> & W2 & G2 & A). exists s2. split; [auto|]. split; [auto|]. split; [eauto using grow_trans|].
        intros e [<-|I]; auto. split; [now apply (g_keys _ _ G2)|now rewrite (g_failed _ _ G2)].
Qed.
Lemma add_tasks_out fn s : weak s -> wanted_file C asked fn ->
  out (fun s' => weak s' /\ mono s s' /\ In fn (s_seen s') /\ (strong (eq fn) s -> (In fn (s_seen s) -> strong nobody s) -> strong nobody s'))
      (fun s' => weak s' /\ mono s s' /\ broken s' /\ In fn (s_ffns s')) (fun _ => False) (add_tasks C halt fn s).
Proof.
  intros W WF. unfold add_tasks. destruct (mem_str fn (s_ffns s)); [exact I|]. destruct (mem_str fn (s_seen s)) eqn:E.
  { apply mem_str_In in E. cbn. auto using mono_refl. }
  apply mem_str_false in E. set (s1 := add_seen s fn).
  assert (W1 : weak s1).
  { destruct W as [a b c d e f g h w]. constructor; auto; cbn.
    - intros x f0 l I. destruct (c x f0 l I). split; auto. apply in_app_iff. auto.
    - intros e0 I. destruct (d e0 I). split; auto. apply in_app_iff. auto.
    - intros f0 I. apply in_app_iff in I. destruct I as [I|[<-|[]]]; auto. }
  assert (M1 : mono s s1) by (constructor; cbn; auto; intros f I; apply in_app_iff; auto).
  assert (S1 : In fn (s_seen s1)) by (cbn; apply in_app_iff; cbn; auto).
  assert (X : out (fun s' => (weak s' /\ grow s1 s') /\ (forall t, In t (c_tasks C fn) -> forall x w a b, In w (t_flag t x) -> split_on ":"%char w = [a; b] -> In a (keys (s_targets s' x)) /\ In fn (namers s' x a)) /\
      forall t, (forall x w a b, In w (t_flag t x) -> split_on ":"%char w = [a; b] -> In a (keys (s_targets s1 x)) /\ In fn (namers s1 x a)) -> (forall x w a b, In w (t_flag t x) -> split_on ":"%char w = [a; b] -> In a (keys (s_targets s' x)) /\ In fn (namers s' x a)))
      (fun _ => False) (fun _ => False) (each (add_task C fn) (c_tasks C fn) s1)).
  { apply (each_out (add_task C fn) (fun s' => weak s' /\ grow s1 s') _ _ (fun t s' => forall x w a b, In w (t_flag t x) -> split_on ":"%char w = [a; b] -> In a (keys (s_targets s' x)) /\ In fn (namers s' x a))); [|auto using grow_refl].
    intros t s2 I (W2 & G2). assert (S2 : In fn (s_seen s2)) by now rewrite (g_seen _ _ G2).
    eapply out_weaken; [apply (add_task_out fn t s2 W2 S2 I)| | |]; auto. cbn. intros s3 (W3 & G3 & K3). split; [split; eauto using grow_trans|]. split; [auto|].
    intros u H x w a b I1 I2. destruct (H x w a b I1 I2). split; [now apply (g_keys _ _ G3)|now apply (g_entries _ _ G3)]. }
  destruct (each (add_task C fn) (c_tasks C fn) s1) as [s2|s2|s2| |]; cbn [out] in X; try contradiction; auto. destruct X as ((W2 & G2) & F2 & _).
  cbv zeta. set (s4 := add_need (add_need s2 Build fn _) Runtime fn _).
  assert (N4 : forall x, s_needs s4 x = s_needs s2 x ++ [(fn, dedupe (c_needs C x fn))]) by (intros []; reflexivity).
  assert (S4 : In fn (s_seen s4)) by (change (In fn (s_seen s2)); now rewrite (g_seen _ _ G2)).
  assert (W4 : weak s4).
  { destruct W2 as [a b c d e f g h w]. constructor; auto. intros x f0 l. rewrite N4, in_app_iff. intros [I|[[= <- <-]|[]]]; [exact (c x f0 l I)|]. split; auto. }
  assert (M4 : mono s s4). { apply mono_trans with s1; auto. apply mono_trans with s2; [now apply grow_mono|]. constructor; auto. }
  assert (Q4 : strong (eq fn) s -> strong (eq fn) s4).
  { intros [a b c d e f0]. destruct G2 as [k1 k2 k3 k4 k5 k6 k7 k8]. constructor.
    - intros x t g I J. change (In g (providers s2 x t)) in I. change (In g (s_ffns s2)) in J. rewrite k6 in I. rewrite k3 in J. exact (a x t g I J).
    - intros x t g I. change (In g (providers s2 x t)) in I. rewrite k6 in I. destruct (b x t g I) as [J|J]; auto. right. change (In g (s_seen s2)). rewrite k1. cbn. apply in_app_iff. auto.
    - intros x t f I N J. change (In f (s_seen s2)) in I. rewrite k1 in I. cbn in I. apply in_app_iff in I. destruct I as [I|[->|[]]]; auto.
      change (In t (s_failed s2 x)) in J. rewrite k4 in J. destruct (c x t f I N J) as [K|K]; auto. right. change (In f (s_ffns s2)). now rewrite k3.
    - intros x t f I N. change (In f (s_seen s2)) in I. rewrite k1 in I. cbn in I. apply in_app_iff in I. destruct I as [I|[->|[]]]; auto.
      destruct (d x t f I N) as [K|[K|K]]; auto; right; [left; change (In f (s_ffns s2)); now rewrite k3|right; change (In t (keys (s_targets s2 x))); now apply k7].
    - intros x f I. change (In f (s_seen s2)) in I. rewrite k1 in I. cbn in I. rewrite N4, k2. apply in_app_iff in I. apply in_app_iff. destruct I as [I|[->|[]]]; [left; exact (e x f I)|right; now left].
    - intros x t f I N. change (In f (s_seen s2)) in I. rewrite k1 in I. cbn in I. change (In f (namers s2 x t)). apply in_app_iff in I. destruct I as [I|[<-|[]]]; [apply k8; exact (f0 x t f I N)|].
      destruct N as (k & w & tk & I1 & I2 & I3). apply (F2 k I1 x w t tk I2 I3). }
  assert (F4 : forall x t, flag_names C x fn t -> In t (keys (s_targets s4 x))).
  { intros x t (k & w & tk & I & J & L). change (In t (keys (s_targets s2 x))). apply (F2 k I x w t tk J L). }
  assert (Fin : forall (s5 : state) (r : res), weak s5 -> mono s s5 -> (strong (eq fn) s -> strong (eq fn) s5) -> In fn (s_seen s5) ->
     out (fun s' => weak s' /\ shrink s5 s' /\ complete s5 s' /\ In fn (s_ffns s')) (fun s' => weak s' /\ shrink s5 s' /\ broken s' /\ In fn (s_ffns s')) (fun _ => False) r ->
     out (fun s' => weak s' /\ mono s s' /\ In fn (s_seen s') /\ (strong (eq fn) s -> (In fn (s_seen s) -> strong nobody s) -> strong nobody s'))
         (fun s' => weak s' /\ mono s s' /\ broken s' /\ In fn (s_ffns s')) (fun _ => False) r).
  { clear. intros s5 r W5 M5 Q5 S5 O. eapply out_weaken; [exact O| | |]; auto; cbn.
    - intros s7 (W7 & K7 & C7 & I7). split; [auto|]. split; [eauto using mono_trans, shrink_mono|]. split; [now rewrite (k_seen _ _ K7)|].
      intros Q _. apply (strong_shrink (eq fn) s5); auto. now intros f <-.
    - intros s7 (W7 & K7 & B7 & I7). split; [auto|]. split; [eauto using mono_trans, shrink_mono|]. auto. }
  assert (D1 := check_deps_out Build fn (dedupe (c_needs C Build fn)) s4 W4 S4 (fun d I => proj1 (dedupe_In _ _) I)).
  destruct (check_deps halt Build fn (dedupe (c_needs C Build fn)) s4) as [r [|]].
  { destruct D1 as (s5 & W5 & G5 & O). assert (R := Fin s5 r W5 (mono_trans _ _ _ M4 (grow_mono _ _ G5)) (fun Q => strong_grow _ _ _ (Q4 Q) G5)).
    rewrite (g_seen _ _ G5) in R. specialize (R S4 O). now destruct r. }
  destruct D1 as (s5 & -> & W5 & G5 & A5). assert (S5 : In fn (s_seen s5)) by now rewrite (g_seen _ _ G5).
  assert (D2 := check_deps_out Runtime fn (dedupe (c_needs C Runtime fn)) s5 W5 S5 (fun d I => proj1 (dedupe_In _ _) I)).
  destruct (check_deps halt Runtime fn (dedupe (c_needs C Runtime fn)) s5) as [r [|]]; cbn [fst].
  { destruct D2 as (s6 & W6 & G6 & O). assert (G46 := grow_trans _ _ _ G5 G6). apply (Fin s6 r W6 (mono_trans _ _ _ M4 (grow_mono _ _ G46)) (fun Q => strong_grow _ _ _ (Q4 Q) G46)); auto.
    now rewrite (g_seen _ _ G6). }
  destruct D2 as (s6 & -> & W6 & G6 & A6). assert (G46 := grow_trans _ _ _ G5 G6). cbn [out]. split; [auto|]. split; [exact (mono_trans _ _ _ M4 (grow_mono _ _ G46))|]. split; [now rewrite (g_seen _ _ G6)|].
  intros Q _. assert (Q6 := strong_grow _ _ _ (Q4 Q) G46). destruct Q6 as [a b c d e f0].
  assert (KN : forall x t, In t (c_needs C x fn) -> In t (keys (s_targets s6 x)) /\ ~ In t (s_failed s6 x)).
  { intros [] t I.
    - destruct (A5 t) as [H1 H2]; [now apply dedupe_In|]. split; [now apply (g_keys _ _ G6)|now rewrite (g_failed _ _ G6)].
    - apply A6. now apply dedupe_In. }
  constructor; auto.
  - intros x t g I. destruct (b x t g I) as [<-|J]; auto. right. now rewrite (g_seen _ _ G6).
  - intros x t f I N J. destruct (c x t f I N J) as [<-|K]; auto. now destruct (KN x t N).
  - intros x t f I N. destruct (d x t f I N) as [<-|K]; auto. right. right. destruct N as [N|N]; [now apply KN|]. apply (g_keys _ _ G46). auto.
Qed.

(** ** A name *)
Lemma add_target_spec x fn t s : weak s -> c_ignored C t = false -> eligible C x t fn -> wanted_name C asked x t ->
  let s' := add_target x fn t s in
  weak s' /\ mono s s' /\ providers s' x t <> [] /\ s_ffns s' = s_ffns s /\
  (strong nobody s -> ~ In fn (s_ffns s) -> strong (eq fn) s' /\ (In fn (s_seen s') -> strong nobody s')).
Proof.
  intros W Ig El Wn. unfold add_target. destruct (mem_str fn (providers s x t)) eqn:E; cbv zeta.
  { apply mem_str_In in E. split; [auto|]. split; [apply mono_refl|]. split; [intros F; now rewrite F in E|]. split; [auto|]. intros Q _. split; [|auto].
    destruct Q as [a b c d e f]. constructor; auto.
    - intros y u g I. destruct (b y u g I) as [[]|J]; auto.
    - intros y u f1 I N J. destruct (c y u f1 I N J) as [[]|K]; auto.
    - intros y u f1 I N. destruct (d y u f1 I N) as [[]|K]; auto. }
  apply mem_str_false in E. set (s1 := set_targets s x (put t (providers s x t ++ [fn]) (s_targets s x))).
  assert (P : forall y u, providers s1 y u = if side_dec x y then if seqb t u then providers s x t ++ [fn] else providers s y u else providers s y u).
  { intros y u. unfold providers, s1. cbn. destruct (side_dec x y) as [<-|N]; [rewrite upd_same, get_put|rewrite upd_other]; auto. }
  assert (PI : forall y u g, In g (providers s1 y u) -> In g (providers s y u) \/ (y = x /\ u = t /\ g = fn)).
  { intros y u g. rewrite P. destruct (side_dec x y) as [<-|N]; auto. destruct (seqb t u) eqn:G; auto. apply seqb_eq in G. subst u. rewrite in_app_iff. cbn. intuition auto. }
  assert (PN : forall y u, providers s y u <> [] -> providers s1 y u <> []).
  { intros y u. rewrite P. destruct (side_dec x y) as [<-|N]; auto. destruct (seqb t u) eqn:G; auto. intros _ H. now apply app_eq_nil in H. }
  assert (K : forall y u, In u (keys (s_targets s1 y)) <-> In u (keys (s_targets s y)) \/ (y = x /\ u = t)).
  { intros y u. unfold s1. cbn. destruct (side_dec x y) as [<-|M]; [rewrite upd_same, keys_put_In|rewrite upd_other; auto]; intuition congruence. }
  split; [|split; [|split; [|split]]].
  - destruct W as [a b c d e f g h w]. constructor; auto.
    + intros y u. rewrite P. destruct (side_dec x y) as [<-|N]; auto. destruct (seqb t u); auto.
      specialize (a x t). clear -a E. induction a as [|h l NI N IH]; cbn; [constructor; [intros []|constructor]|]. constructor; [rewrite in_app_iff; cbn in *; intuition auto|]. apply IH. cbn in E. tauto.
    + intros y u f0 I. apply PI in I. destruct I as [I|(-> & -> & ->)]; auto.
    + intros y u I. apply K in I. destruct I as [I|[-> ->]]; auto.
  - constructor; auto; [intros y u I; apply K; auto|]. intros y u [N|I]; [left; auto|right; exact I].
  - rewrite P. destruct (side_dec x x); [|congruence]. rewrite seqb_refl. intros H. now apply app_eq_nil in H.
  - auto.
  - intros [a b c d e f] NF. assert (A : forall y u g, In g (providers s1 y u) -> ~ In g (s_ffns s1)) by (intros y u g I; apply PI in I; destruct I as [I|(-> & -> & ->)]; eauto).
    split; [|intros S]; constructor; auto.
    + intros y u g I. apply PI in I. destruct I as [I|(-> & -> & ->)]; auto. destruct (b y u g I) as [[]|J]; auto.
    + intros y u f' I N J. destruct (c y u f' I N J) as [[]|M]; auto.
    + intros y u f' I N. destruct (d y u f' I N) as [[]|[M|M]]; auto. right. right. apply K. auto.
    + intros y u g I. apply PI in I. destruct I as [I|(-> & -> & ->)]; auto. destruct (b y u g I) as [[]|J]; auto.
    + intros y u f' I N. destruct (d y u f' I N) as [[]|[M|M]]; auto. right. right. apply K. auto.
Qed.
Lemma add_provider_file_out x t fn s : weak s -> c_ignored C t = false -> eligible C x t fn -> wanted_name C asked x t ->
  out (fun s' => weak s' /\ mono s s' /\ (strong nobody s -> strong nobody s') /\ (~ In fn (s_ffns s) -> settled s' x t))
      (fun s' => weak s' /\ mono s s' /\ broken s' /\ bad_name C x t) (fun _ => False) (add_provider_file C halt x t fn s).
Proof.
  intros W Ig El Wn. unfold add_provider_file. destruct (mem_str fn (s_ffns s)) eqn:E; cbn [out].
  { apply mem_str_In in E. split; [auto|]. split; [apply mono_refl|]. split; [auto|]. intros H. tauto. }
  apply mem_str_false in E. destruct (add_target_spec x fn t s W Ig El Wn) as (W1 & M1 & P1 & F1 & Q1). set (s1 := add_target x fn t s) in *.
  eapply out_weaken; [apply (add_tasks_out fn s1 W1)| | |auto]; cbn.
  - now apply wanted_choice with x t.
  - intros s2 (W2 & M2 & S2 & Q2). split; [auto|]. split; [eauto using mono_trans|]. split; [intros Q; destruct (Q1 Q E); auto|]. intros _. apply (m_settled _ _ M2). left. auto.
  - intros s2 (W2 & M2 & B2 & I2). split; [auto|]. split; [eauto using mono_trans|]. split; [auto|]. apply bad_provider with fn; auto. now apply (w_ffns s2 W2).
Qed.
Lemma provide_out x t s : weak s -> wanted_name C asked x t ->
  out (fun s' => weak s' /\ mono s s' /\ (strong nobody s -> strong nobody s') /\ (c_ignored C t = true \/ settled s' x t))
      (fun s' => bad_name C x t /\ ((x = Build /\ s' = s) \/ (weak s' /\ mono s s' /\ broken s')))
      (fun s' => bad_name C x t /\ x = Runtime /\ s' = s) (provide C halt x t s).
Proof.
  intros W Wn. unfold provide. destruct (c_ignored C t) eqn:Ig; [cbn; auto using mono_refl|].
  assert (NP : bad_name C x t -> out (fun s' => weak s' /\ mono s s' /\ (strong nobody s -> strong nobody s') /\ (false = true \/ settled s' x t))
      (fun s' => bad_name C x t /\ ((x = Build /\ s' = s) \/ (weak s' /\ mono s s' /\ broken s')))
      (fun s' => bad_name C x t /\ x = Runtime /\ s' = s) (no_provider x s)) by (intros B; destruct x; cbn; auto).
  destruct (c_choice C x t) as [l|] eqn:El; [|apply NP; now apply bad_nothing].
  destruct (have s x t) eqn:Hv.
  { cbn. split; [auto|]. split; [apply mono_refl|]. split; [auto|]. right. left. unfold have in Hv. destruct (providers s x t); congruence. }
  destruct (filter (fun f => negb (mem_str f (s_ffns s))) l) as [|f el] eqn:Ef.
  { apply NP. destruct l as [|g l]; [now apply bad_none|]. apply bad_provider with g; auto; [exists (g :: l); cbn; auto|]. apply (w_ffns s W). apply mem_str_In.
    destruct (mem_str g (s_ffns s)) eqn:G; auto. cbn [filter] in Ef. rewrite G in Ef. discriminate. }
  assert (IE : forall g, In g (f :: el) -> eligible C x t g /\ ~ In g (s_ffns s)).
  { intros g I. rewrite <- Ef in I. apply filter_In in I. destruct I as [I J]. apply negb_true_iff, mem_str_false in J. split; auto. now exists l. }
  cbn [each]. destruct (IE f (or_introl eq_refl)) as [Ef1 Ef2]. assert (X := add_provider_file_out x t f s W Ig Ef1 Wn).
  destruct (add_provider_file C halt x t f s) as [s1|s1|s1| |]; cbn [out] in X |- *; auto; [|destruct X as (W1 & M1 & B1 & Bn); auto|contradiction].
  destruct X as (W1 & M1 & Q1 & T1). specialize (T1 Ef2).
  eapply out_weaken; [apply (each_out (add_provider_file C halt x t) (fun s' => weak s' /\ mono s s' /\ (strong nobody s -> strong nobody s') /\ settled s' x t)
     (fun s' => bad_name C x t /\ weak s' /\ mono s s' /\ broken s') (fun _ => False) (fun _ _ => True)); [|auto]| | |]; cbn.
  - intros g s2 I (W2 & M2 & Q2 & T2). destruct (IE g (or_intror I)) as [Eg _].
    eapply out_weaken; [apply (add_provider_file_out x t g s2 W2 Ig Eg Wn)| | |auto]; cbn.
    + intros s3 (W3 & M3 & Q3 & _). split; [|auto]. split; [auto|]. split; [eauto using mono_trans|]. split; [auto|]. now apply (m_settled _ _ M3).
    + intros s3 (W3 & M3 & B3 & Bn). split; [auto|]. split; [auto|]. split; [eauto using mono_trans|auto].
  - intros s2 ((W2 & M2 & Q2 & T2) & _). auto.
  - intros s2 (Bn & W2 & M2 & B2). auto.
  - intros s2 [].
Qed.
Lemma remove_out x t s : weak s -> bad_name C x t ->
  out (fun s' => weak s' /\ mono s s' /\ (strong nobody s -> strong nobody s') /\ In t (s_failed s' x) /\ forall y, keys (s_targets s' y) = keys (s_targets s y))
      (fun s' => broken s') (fun _ => False) (remove halt x t s).
Proof.
  intros W B. unfold remove. eapply out_weaken; [apply (remove_target_out _ (depth s) x t s (fail_fn_out _) W B (left_depth s))| | |auto]; cbn.
  - intros s' (W' & K & CC & I). split; [auto|]. split; [now apply shrink_mono|]. split; [intros Q; apply (strong_shrink nobody s); auto; intros f []|]. split; auto. intros y. apply (k_keys _ _ K).
  - intros s' (_ & _ & Br & _). exact Br.
Qed.
Lemma mark_external_spec t s : weak s -> In t asked ->
  let s' := mark_external t s in weak s' /\ mono s s' /\ (strong nobody s -> strong nobody s') /\ In t (s_external s') /\
  (forall u, In u (s_external s') -> In u (s_external s) \/ u = t) /\ forall x u, settled s x u -> settled s' x u.
Proof.
  intros W A. unfold mark_external. destruct (mem_str t (s_external s)) eqn:E; cbv zeta.
  - apply mem_str_In in E. auto 10 using mono_refl.
  - split; [destruct W; constructor; auto; cbn; intros u I; apply in_app_iff in I; destruct I as [I|[<-|[]]]; auto|]. split; [constructor; cbn; auto; intros u I; apply in_app_iff; auto|]. split; [intros []; constructor; auto|].
    split; [cbn; apply in_app_iff; cbn; auto|]. split; [|auto]. intros u I. cbn in I. apply in_app_iff in I. destruct I as [I|[->|[]]]; auto.
Qed.
Lemma add_provider_out t s : weak s -> In t asked ->
  out (fun s' => weak s' /\ mono s s' /\ (strong nobody s -> strong nobody s') /\ In t (s_external s') /\ (c_ignored C t = true \/ settled s' Build t))
      (fun s' => True) (fun _ => False) (add_provider C halt t s).
Proof.
  intros W A. unfold add_provider. assert (Wn : wanted_name C asked Build t) by now constructor. assert (X := provide_out Build t s W Wn).
  destruct (provide C halt Build t s) as [s1|s1|s1| |]; cbn [out] in X |- *; auto.
  - destruct X as (W1 & M1 & Q1 & T1). destruct (mark_external_spec t s1 W1 A) as (W2 & M2 & Q2 & E2 & _ & S2). split; [auto|]. split; [eauto using mono_trans|]. split; [auto|]. split; [auto|]. destruct T1; auto.
  - destruct halt eqn:Hh; cbn; auto. destruct X as (Bn & [[_ ->]|(W1 & M1 & B1)]); [|destruct B1 as [B1 _]; congruence].
    assert (R := remove_out Build t s W Bn). rewrite Hh in R. destruct (remove false Build t s) as [s2|s2|s2| |]; cbn [out] in R |- *; auto.
    destruct R as (W2 & M2 & Q2 & I2 & _). destruct (mark_external_spec t s2 W2 A) as (W3 & M3 & Q3 & E3 & _ & S3). split; [auto|]. split; [eauto using mono_trans|]. split; [auto|]. split; [auto|].
    right. apply S3. now right.
  - destruct X as (_ & [=] & _).
Qed.

(** ** All names *)
Lemma settle_out x t s : weak s -> wanted_name C asked x t ->
  let (r, b) := settle C halt allow x t s in
  out (fun s' => weak s' /\ mono s s' /\ (strong nobody s -> ~ broken s' -> strong nobody s') /\
         (b = true -> c_ignored C t = true \/ settled s' x t) /\ (b = false -> allow = false -> In t (s_failed s' x)) /\
         (b = false -> ~ broken s' -> forall y, keys (s_targets s' y) = keys (s_targets s y)))
      (fun _ => True) (fun _ => True) r.
Proof.
  intros W Wn. assert (X := provide_out x t s W Wn). unfold settle.
  destruct x; destruct (provide C halt _ t s) as [s1|s1|s1| |]; cbn [out] in X |- *; auto.
  - destruct X as (W1 & M1 & Q1 & T1). split; [auto|]. split; [auto|]. split; [auto|]. split; [auto|]. split; discriminate.
  - destruct X as (Bn & X).
    assert (Y : weak s1 /\ mono s s1 /\ (s1 = s \/ broken s1)) by (destruct X as [[_ ->]|(W1 & M1 & B1)]; auto using mono_refl). clear X. destruct Y as (W1 & M1 & Y).
    destruct (halt && mem_str t (s_external s1) && negb allow); cbn; auto. destruct allow eqn:Al; cbn [out].
    + split; [auto|]. split; [auto|]. split; [intros Q N; destruct Y as [->|Y]; [auto|contradiction]|]. split; [discriminate|]. split; [discriminate|]. intros _ N y. destruct Y as [->|Y]; [auto|contradiction].
    + assert (R := remove_out Build t s1 W1 Bn). destruct (remove halt Build t s1) as [s2|s2|s2| |]; cbn [out] in R |- *; auto. destruct R as (W2 & M2 & Q2 & I2 & K2).
      split; [auto|]. split; [eauto using mono_trans|]. split; [intros Q N; destruct Y as [->|Y]; [auto|elim N; eauto using broken_mono]|]. split; [discriminate|]. split; [auto|].
      intros _ N y. destruct Y as [->|Y]; [auto|elim N; eauto using broken_mono].
  - destruct X as (W1 & M1 & Q1 & T1). split; [auto|]. split; [auto|]. split; [auto|]. split; [auto|]. split; discriminate.
  - destruct X as (Bn & _ & ->). assert (R := remove_out Runtime t s W Bn). destruct (remove halt Runtime t s) as [s2|s2|s2| |]; cbn [out] in R |- *; auto. destruct R as (W2 & M2 & Q2 & I2 & K2).
    split; [auto|]. split; [auto|]. split; [auto|]. split; [discriminate|]. auto.
Qed.
Lemma settle_all_out x ts : forall s added, weak s -> (forall t, In t ts -> wanted_name C asked x t) ->
  let (r, n) := settle_all C halt allow x ts s added in
  out (fun s' => weak s' /\ mono s s' /\ (strong nobody s -> ~ broken s' -> strong nobody s') /\ added <= n /\
         (added < n -> exists t, In t ts /\ (c_ignored C t = true \/ settled s' x t)) /\ (n = added -> allow = false -> forall t, In t ts -> In t (s_failed s' x)) /\
         (n = added -> ~ broken s' -> forall y, keys (s_targets s' y) = keys (s_targets s y)))
      (fun _ => True) (fun _ => True) r.
Proof.
  induction ts as [|t ts IH]; intros s added W N; cbn [settle_all].
  - cbn. split; [auto|]. split; [apply mono_refl|]. split; [auto|]. split; [auto|]. split; [lia|]. split; [intros _ _ t []|auto].
  - assert (X := settle_out x t s W (N t (or_introl eq_refl))). destruct (settle C halt allow x t s) as [r b]. destruct r as [s1|s1|s1| |]; cbn [out] in X |- *; auto.
    destruct X as (W1 & M1 & Q1 & T1 & F1 & K1). specialize (IH s1 (if b then S added else added) W1 (fun u I => N u (or_intror I))).
    destruct (settle_all C halt allow x ts s1 (if b then S added else added)) as [r n]. eapply out_weaken; [exact IH| | |]; auto. cbn.
    intros s2 (W2 & M2 & Q2 & L2 & T2 & F2 & K2). split; [auto|]. split; [eauto using mono_trans|].
    assert (NB : ~ broken s2 -> ~ broken s1) by (intros NB B; apply NB; eauto using broken_mono).
    split; [auto|]. destruct b.
    + split; [lia|]. split; [|split; intros; lia]. intros _. exists t. split; [auto|]. destruct (T1 eq_refl) as [H|H]; auto. right. now apply (m_settled _ _ M2).
    + split; [auto|]. split; [intros L; destruct (T2 L) as (u & I & H); eauto|]. split.
      * intros E Al u [<-|I]; auto. apply (m_failed _ _ M2). auto.
      * intros E B y. rewrite K2; auto.
Qed.
Lemma unresolved_In x s t : In t (unresolved C x s) <-> In t (keys (s_targets s x)) /\ c_ignored C t = false /\ ~ settled s x t.
Proof.
  unfold unresolved. rewrite filter_In, !andb_true_iff, !negb_true_iff, mem_str_false. unfold settled, have. split; intros (I & H); split; auto.
  - destruct H as [[H1 H2] H3]. split; auto. intros [H|H]; auto. destruct (providers s x t); congruence.
  - destruct H as [H1 H2]. split; [split; auto|]. destruct (providers s x t); auto. elim H2. left. discriminate.
Qed.
Lemma settled_dec s x t : settled s x t \/ ~ settled s x t.
Proof. unfold settled. destruct (providers s x t); [|left; left; discriminate]. destruct (in_dec str_eq_dec t (s_failed s x)); [auto|right; intuition]. Qed.
Definition resolved (s : state) : Prop := forall x t, In t (keys (s_targets s x)) -> c_ignored C t = true \/ settled s x t.
Lemma pass_out s : weak s ->
  let (r, n) := pass C halt allow s in
  out (fun s' => weak s' /\ mono s s' /\ (strong nobody s -> ~ broken s' -> strong nobody s') /\
         (0 < n -> exists x t, wanted_name C asked x t /\ ~ settled s x t /\ settled s' x t) /\ (n = 0 -> allow = false -> ~ broken s' -> resolved s'))
      (fun _ => True) (fun _ => True) r.
Proof.
  intros W. unfold pass.
  assert (U : forall x s, weak s -> forall t, In t (unresolved C x s) -> wanted_name C asked x t) by (intros x s1 W1 t I; apply (w_keys s1 W1); now apply unresolved_In in I).
  assert (X := settle_all_out Build (unresolved C Build s) s 0 W (U Build s W)). destruct (settle_all C halt allow Build (unresolved C Build s) s 0) as [r n].
  destruct r as [s1|s1|s1| |]; cbn [out] in X |- *; auto. destruct X as (W1 & M1 & Q1 & L1 & T1 & F1 & K1).
  assert (Y := settle_all_out Runtime (unresolved C Runtime s1) s1 n W1 (U Runtime s1 W1)). destruct (settle_all C halt allow Runtime (unresolved C Runtime s1) s1 n) as [r m].
  eapply out_weaken; [exact Y| | |]; auto. cbn. intros s2 (W2 & M2 & Q2 & L2 & T2 & F2 & K2).
  assert (NB : ~ broken s2 -> ~ broken s1) by (intros NB B; apply NB; eauto using broken_mono).
  split; [auto|]. split; [eauto using mono_trans|]. split; [auto|]. split.
  - intros P. destruct (Nat.eq_dec n 0) as [->|Nn].
    + destruct (T2 P) as (t & I & H). assert (Wt := U Runtime s1 W1 t I). apply unresolved_In in I. destruct I as (_ & Ig & NS). exists Runtime, t. split; [auto|]. destruct H as [H|H]; [congruence|].
      split; auto. intros S. apply NS. now apply (m_settled _ _ M1).
    + destruct (T1 ltac:(lia)) as (t & I & H). assert (Wt := U Build s W t I). apply unresolved_In in I. destruct I as (_ & Ig & NS). exists Build, t. split; [auto|]. destruct H as [H|H]; [congruence|].
      split; auto. now apply (m_settled _ _ M2).
  - intros -> Al B x t I. assert (n = 0) as -> by lia.
    assert (Z : forall x s, (forall t, In t (unresolved C x s) -> settled s2 x t) -> mono s s2 -> In t (keys (s_targets s x)) -> c_ignored C t = true \/ settled s2 x t).
    { intros y s0 H M I'. destruct (c_ignored C t) eqn:E; auto. right. destruct (settled_dec s0 y t) as [S|S]; [now apply (m_settled _ _ M)|]. apply H. now apply unresolved_In. }
    rewrite K2 in I; auto. destruct x.
    + rewrite K1 in I; auto. apply (Z Build s); [|eauto using mono_trans|auto]. intros u J. apply (m_settled _ _ M2). right. auto.
    + apply (Z Runtime s1); auto. intros u J. right. auto.
Qed.
Lemma add_unresolved_ok n : forall s s', weak s -> add_unresolved C halt allow n s = Ok s' ->
  weak s' /\ mono s s' /\ (strong nobody s -> ~ broken s' -> strong nobody s') /\ (allow = false -> ~ broken s' -> resolved s').
Proof.
  induction n as [|n IH]; intros s s' W; cbn [add_unresolved]; [discriminate|]. assert (X := pass_out s W). destruct (pass C halt allow s) as [r m]. destruct r as [s1|s1|s1| |]; try discriminate.
  cbn [out] in X. destruct X as (W1 & M1 & Q1 & T1 & R1). destruct m.
  - intros [= <-]. auto.
  - intros E. destruct (IH s1 s' W1 E) as (W2 & M2 & Q2 & R2). split; [auto|]. split; [eauto using mono_trans|]. split; [|auto]. intros Q B. apply Q2; auto. apply Q1; auto. intros B1. apply B. eauto using broken_mono.
Qed.

(** *** The end *)
Variable U : side -> list str.
Hypothesis U_all : forall x t, wanted_name C asked x t -> In t (U x).
Definition openb (s : state) (x : side) (t : str) : bool := match providers s x t with [] => negb (mem_str t (s_failed s x)) | _ => false end.
Lemma openb_spec s x t : openb s x t = true <-> ~ settled s x t.
Proof.
  unfold openb, settled. destruct (providers s x t); [rewrite negb_true_iff, mem_str_false; intuition congruence|]. split; [discriminate|]. intros H. elim H. left. discriminate.
Qed.
Definition still (s : state) : nat := length (filter (openb s Build) (U Build)) + length (filter (openb s Runtime) (U Runtime)).
Lemma still_less s s' x t : mono s s' -> wanted_name C asked x t -> ~ settled s x t -> settled s' x t -> still s' < still s.
Proof.
  intros M Wn N S. assert (A : forall y u, In u (U y) -> openb s' y u = true -> openb s y u = true).
  { intros y u _. rewrite !openb_spec. intros N' S'. apply N'. now apply (m_settled _ _ M). }
  assert (L : length (filter (openb s' x) (U x)) < length (filter (openb s x) (U x))).
  { apply filter_lt_length with (a := t); auto; [|now apply openb_spec]. destruct (openb s' x t) eqn:E; auto. now apply openb_spec in E. }
  unfold still. assert (B := filter_incl_length _ _ _ (A Build)). assert (R := filter_incl_length _ _ _ (A Runtime)). destruct x; lia.
Qed.
Lemma add_unresolved_ends n : forall s, weak s -> still s < n -> add_unresolved C halt allow n s <> OutOfFuel.
Proof.
  induction n as [|n IH]; intros s W L; [lia|]. cbn [add_unresolved]. assert (X := pass_out s W). destruct (pass C halt allow s) as [r m]. destruct r as [s1|s1|s1| |]; cbn [out] in X; try discriminate; [|contradiction].
  destruct X as (W1 & M1 & Q1 & T1 & R1). destruct m; [discriminate|]. destruct (T1 ltac:(lia)) as (x & t & Wn & N & S). apply IH; auto. pose proof (still_less s s1 x t M1 Wn N S). lia.
Qed.
End Resolve.

(** ** Without --continue, when every name has one provider *)
Section Strict.
Variable C : cache.
Variable asked : list str.
Definition untouched (s : state) : Prop := s_ffns s = [] /\ forall x, s_failed s x = [].
Record sees (N : side -> str -> Prop) (s s' : state) : Prop := {
  n_seen : s_seen s' = s_seen s;
  n_ffns : s_ffns s' = s_ffns s;
  n_failed : forall x, s_failed s' x = s_failed s x;
  n_ext : s_external s' = s_external s;
  n_prov : forall x t, providers s' x t = providers s x t;
  n_keys : forall x t, In t (keys (s_targets s' x)) -> In t (keys (s_targets s x)) \/ N x t
}.
Lemma sees_refl N s : sees N s s. Proof. constructor; auto. Qed.
Lemma sees_trans N s1 s2 s3 : sees N s1 s2 -> sees N s2 s3 -> sees N s1 s3.
Proof. intros [a b c d e f] [a' b' c' d' e' f']. constructor; try congruence. intros x t I. destruct (f' x t I); auto. Qed.
Lemma sees_target (N : side -> str -> Prop) x t s : N x t -> sees N s (seen_target x t s).
Proof.
  intros H. unfold seen_target. destruct (mem_str t (keys (s_targets s x))); [apply sees_refl|]. constructor; auto.
  - intros y u. unfold providers. cbn. destruct (side_dec x y) as [<-|M]; [now rewrite upd_same, get_snoc|now rewrite upd_other].
  - intros y u I. cbn in I. destruct (side_dec x y) as [<-|M]; [rewrite upd_same in I|rewrite upd_other in I; auto]. unfold keys in I. rewrite map_app, in_app_iff in I. destruct I as [I|[<-|[]]]; auto.
Qed.
Lemma sees_targets {A} (N : side -> str -> Prop) x (f : A -> str) l : (forall d, In d l -> N x (f d)) -> forall s, sees N s (fold_left (fun s d => seen_target x (f d) s) l s).
Proof. induction l as [|d l IH]; intros H s; cbn [fold_left]; [apply sees_refl|]. apply sees_trans with (seen_target x (f d) s); [apply sees_target, H; now left|]. apply IH. intros e I. apply H. now right. Qed.
Lemma sees_task fn t s : In t (c_tasks C fn) -> out (sees (fun x u => file_needs C x fn u) s) (fun _ => False) (fun _ => False) (add_task C fn t s).
Proof.
  intros T. unfold add_task. destruct (parse_deps (t_flag t Build)) as [b|] eqn:Eb; [|exact I]. destruct (parse_deps (t_flag t Runtime)) as [r|] eqn:Er; [|exact I]. cbv zeta. cbn [out].
  set (s1 := add_entry s _). apply sees_trans with s1; [constructor; auto|]. eapply sees_trans; [apply (sees_targets _ Build fst b)|apply (sees_targets _ Runtime fst r)].
  - intros [u v] I. apply (parse_deps_spec _ _ Eb) in I. destruct I as (w & I & E). right. exists t, w, v. auto.
  - intros [u v] I. apply (parse_deps_spec _ _ Er) in I. destruct I as (w & I & E). right. exists t, w, v. auto.
Qed.
Lemma sees_deps halt x fn deps : forall s, s_failed s x = [] -> (forall d, In d deps -> In d (c_needs C x fn)) ->
  exists s', check_deps halt x fn deps s = (Ok s', false) /\ sees (fun x u => file_needs C x fn u) s s'.
Proof.
  induction deps as [|d deps IH]; intros s F H; cbn [check_deps]; [eauto using sees_refl|]. cbv zeta.
  assert (S1 : sees (fun x u => file_needs C x fn u) s (seen_target x d s)) by (apply sees_target; left; apply H; now left).
  destruct (IH (seen_target x d s)) as (s' & E & S2); [now rewrite (n_failed _ _ _ S1)|intros e I; apply H; now right|].
  rewrite (n_failed _ _ _ S1), F. cbn [mem_str existsb]. exists s'. eauto using sees_trans.
Qed.
Lemma add_tasks_strict halt fn s : untouched s ->
  out (fun s' => untouched s' /\ s_external s' = s_external s /\ (forall x t, providers s' x t = providers s x t) /\ (forall f, In f (s_seen s) -> In f (s_seen s')) /\ In fn (s_seen s') /\
         forall x t, In t (keys (s_targets s' x)) -> In t (keys (s_targets s x)) \/ file_needs C x fn t)
      (fun _ => False) (fun _ => False) (add_tasks C halt fn s).
Proof.
  intros [U1 U2]. unfold add_tasks. rewrite U1. cbn [mem_str existsb]. destruct (mem_str fn (s_seen s)) eqn:E.
  { apply mem_str_In in E. cbn. unfold untouched. auto 10. }
  set (s1 := add_seen s fn).
  assert (X := each_out (add_task C fn) (sees (fun x u => file_needs C x fn u) s1) (fun _ => False) (fun _ => False) (fun _ _ => True) (c_tasks C fn)
    (fun t s2 I S => out_weaken _ _ _ _ _ _ _ (sees_task fn t s2 I) (fun s3 S' => conj (sees_trans _ _ _ _ S S') (conj Logic.I (fun _ _ => Logic.I))) (fun _ P => P) (fun _ P => P)) s1 (sees_refl _ s1)).
  destruct (each (add_task C fn) (c_tasks C fn) s1) as [s2|s2|s2| |]; cbn [out] in X; try contradiction; [|exact I]. destruct X as (S2 & _).
  cbv zeta. set (s4 := add_need (add_need s2 Build fn _) Runtime fn _). assert (S4 : sees (fun x u => file_needs C x fn u) s1 s4) by (apply sees_trans with s2; [auto|constructor; auto]).
  destruct (sees_deps halt Build fn (dedupe (c_needs C Build fn)) s4) as (s5 & E5 & S5); [rewrite (n_failed _ _ _ S4); exact (U2 Build)|intros d; apply dedupe_In|]. rewrite E5.
  assert (S15 := sees_trans _ _ _ _ S4 S5).
  destruct (sees_deps halt Runtime fn (dedupe (c_needs C Runtime fn)) s5) as (s6 & E6 & S6); [rewrite (n_failed _ _ _ S15); exact (U2 Runtime)|intros d; apply dedupe_In|]. rewrite E6. cbn [fst out].
  destruct (sees_trans _ _ _ _ S15 S6) as [a b c d e f]. split; [split; [rewrite b; exact U1|intros x; rewrite c; exact (U2 x)]|]. split; [auto|]. split; [exact e|]. rewrite a. cbn. split; [intros g I; apply in_app_iff; auto|]. split; [apply in_app_iff; cbn; auto|exact f].
Qed.

(** A name is asked for, or a recipe needs it that provides such a name *)
Inductive chain (s : state) : side -> str -> Prop :=
| chain_asked t : In t asked -> chain s Build t
| chain_need y u fn x t : chain s y u -> In fn (providers s y u) -> In fn (s_seen s) -> file_needs C x fn t -> chain s x t.
Definition chained (s : state) : Prop := forall x t, In t (keys (s_targets s x)) -> chain s x t.
Definition larger (s s' : state) : Prop := (forall x t g, In g (providers s x t) -> In g (providers s' x t)) /\ (forall f, In f (s_seen s) -> In f (s_seen s')) /\ s_external s' = s_external s.
Lemma larger_trans s1 s2 s3 : larger s1 s2 -> larger s2 s3 -> larger s1 s3.
Proof. intros (a & b & c) (a' & b' & c'). split; [auto|]. split; [auto|congruence]. Qed.
Lemma chain_larger s s' x t : larger s s' -> chain s x t -> chain s' x t.
Proof. intros (a & b & _) H. induction H as [|y u fn x t H IH I J N]; [now constructor|]. apply chain_need with y u fn; auto. Qed.
Lemma file_strict halt x t fn s : untouched s -> chained s -> chain s x t ->
  out (fun s' => untouched s' /\ chained s' /\ larger s s') (fun _ => False) (fun _ => False) (add_provider_file C halt x t fn s).
Proof.
  intros U Ch Ct. unfold add_provider_file. destruct (mem_str fn (s_ffns s)) eqn:E; [cbn; unfold larger; auto 10|]. set (s1 := add_target x fn t s).
  assert (F : untouched s1 /\ larger s s1 /\ In fn (providers s1 x t) /\ forall y u, In u (keys (s_targets s1 y)) -> In u (keys (s_targets s y)) \/ (y = x /\ u = t)).
  { unfold s1, add_target. destruct (mem_str fn (providers s x t)) eqn:M; [apply mem_str_In in M; unfold larger; auto 10|].
    set (s0 := set_targets s x _). split; [exact U|].
    assert (P : forall y u, providers s0 y u = if side_dec x y then if seqb t u then providers s x t ++ [fn] else providers s y u else providers s y u).
    { intros y u. unfold providers, s0. cbn. destruct (side_dec x y) as [<-|N]; [rewrite upd_same, get_put|rewrite upd_other]; auto. }
    split; [|split].
    - split; [|unfold s0; cbn; auto]. intros y u g I. rewrite P. destruct (side_dec x y) as [<-|N]; auto. destruct (seqb t u) eqn:G; auto. apply seqb_eq in G. subst u. apply in_app_iff. auto.
    - rewrite P. destruct (side_dec x x); [|congruence]. rewrite seqb_refl. apply in_app_iff. cbn. auto.
    - intros y u. unfold s0. cbn. destruct (side_dec x y) as [<-|M']; [rewrite upd_same, keys_put_In; intuition auto|rewrite upd_other; auto]. }
  destruct F as (U1 & L1 & I1 & K1). eapply out_weaken; [apply (add_tasks_strict halt fn s1 U1)| | |auto]; cbn; auto.
  intros s2 (U2 & X2 & P2 & S2 & F2 & K2). assert (L12 : larger s1 s2) by (split; [intros y u g; now rewrite P2|auto]). assert (L := larger_trans _ _ _ L1 L12).
  split; [auto|]. split; [|auto]. intros y u I. apply K2 in I. destruct I as [I|I].
  - apply K1 in I. destruct I as [I|[-> ->]]; apply (chain_larger s); auto.
  - apply chain_need with x t fn; auto; [now apply (chain_larger s)|now rewrite P2].
Qed.
Lemma provide_strict halt x t s : untouched s -> chained s -> chain s x t ->
  out (fun s' => untouched s' /\ chained s' /\ larger s s') (fun s' => s' = s) (fun s' => s' = s) (provide C halt x t s).
Proof.
  intros U Ch Ct. unfold provide. destruct (c_ignored C t); [cbn; unfold larger; auto 10|]. destruct (c_choice C x t) as [l|]; [|now destruct x].
  destruct (have s x t); [cbn; unfold larger; auto 10|]. destruct (filter (fun f => negb (mem_str f (s_ffns s))) l) as [|f el]; [now destruct x|].
  eapply out_weaken; [apply (each_out (add_provider_file C halt x t) (fun s' => untouched s' /\ chained s' /\ larger s s') (fun _ => False) (fun _ => False) (fun _ _ => True))| | |]; cbn.
  - intros g s1 _ (U1 & C1 & L1). eapply out_weaken; [apply (file_strict halt x t g s1 U1 C1 (chain_larger _ _ _ _ L1 Ct))| | |]; cbn; auto. intros s2 (U2 & C2 & L2). split; [|auto]. split; [auto|]. split; [auto|]. exact (larger_trans _ _ _ L1 L2).
  - unfold larger. auto 10.
  - intros s1 (H & _). exact H.
  - intros s1 [].
  - intros s1 [].
Qed.
Hypothesis one : forall x t g g', eligible C x t g -> eligible C x t g' -> g = g'.
Lemma remove_strict x t s s' : weak C asked s -> strong C nobody s -> untouched s -> chain s x t -> bad_name C x t -> (forall u, In u asked -> In u (s_external s)) ->
  remove true x t s = Ok s' -> False.
Proof.
  intros W Q [U1 U2] Ct Bn A E. assert (X := remove_target_out C true asked _ (depth s) x t s (fail_fn_out C true asked _) W Bn (left_depth s)). unfold remove in E. rewrite E in X. cbn [out] in X. destruct X as (W' & K & [g1 g2 g3] & I).
  revert I. clear Bn E. induction Ct as [t I|y u fn x t Ct IH J S N]; intros F.
  - destruct (g3 t F) as [G|[G|G]]; [now rewrite U2 in G|discriminate|]. apply G. rewrite (k_ext _ _ K). auto.
  - assert (F' : In fn (s_ffns s')).
    { destruct (g2 x t F) as [G|G]; [now rewrite U2 in G|]. apply G. apply (dependent_eq _ _ _ _ _ K). destruct N as [N|N]; [left|right; now apply (q_entry _ _ _ Q)].
      apply dependees_In. exists (dedupe (c_needs C x fn)). split; [now apply (q_need _ _ _ Q)|now apply dedupe_In]. }
    apply IH. apply (k_emptied _ _ K); [intros G; now rewrite G in J|]. destruct (providers s' y u) as [|g r] eqn:P; auto. exfalso.
    assert (Ig : In g (providers s' y u)) by (rewrite P; now left). assert (Jg := k_prov _ _ K _ _ _ Ig).
    assert (g = fn) as -> by (apply (one y u); [apply (w_elig _ _ _ W _ _ _ Jg)|apply (w_elig _ _ _ W _ _ _ J)]). destruct (g1 fn F') as [G|G]; [now rewrite U1 in G|]. now apply (G y u).
Qed.
Record steady (s : state) : Prop := {
  y_weak : weak C asked s; y_strong : strong C nobody s; y_untouched : untouched s; y_chained : chained s; y_asked : forall u, In u asked -> In u (s_external s)
}.
Lemma settle_strict x t s b s' : steady s -> chain s x t -> wanted_name C asked x t -> settle C true false x t s = (Ok s', b) -> steady s' /\ larger s s'.
Proof.
  intros [W Q U Ch A] Ct Wn. assert (X := provide_strict true x t s U Ch Ct). assert (Y := provide_out C true asked x t s W Wn). unfold settle.
  assert (Z : forall s1, weak C asked s1 /\ mono s s1 /\ (strong C nobody s -> strong C nobody s1) /\ (c_ignored C t = true \/ settled s1 x t) -> untouched s1 /\ chained s1 /\ larger s s1 -> steady s1 /\ larger s s1).
  { intros s1 (W1 & M1 & Q1 & _) (U1 & C1 & L1). split; auto. constructor; auto. intros u I. apply (m_ext _ _ M1). auto. }
  destruct x; destruct (provide C true _ t s) as [s1|s1|s1| |]; cbn [out] in X, Y; try discriminate.
  - intros [= <- <-]. auto.
  - subst s1. destruct Y as (Bn & _). destruct (true && mem_str t (s_external s) && negb false); [discriminate|]. intros [= E _]. exfalso. eauto using remove_strict.
  - intros [= <- <-]. auto.
  - subst s1. destruct Y as (Bn & _). intros [= E _]. exfalso. eauto using remove_strict.
Qed.
Lemma settle_all_strict x ts : forall s added n s', steady s -> (forall t, In t ts -> chain s x t /\ wanted_name C asked x t) -> settle_all C true false x ts s added = (Ok s', n) -> steady s' /\ larger s s'.
Proof.
  induction ts as [|t ts IH]; intros s added n s' Y H; cbn [settle_all]; [intros [= <- <-]; split; auto; unfold larger; auto|].
  destruct (settle C true false x t s) as [[s1|s1|s1| |] b] eqn:E; try discriminate. destruct (H t (or_introl eq_refl)) as [Ct Wn]. destruct (settle_strict x t s b s1 Y Ct Wn E) as [Y1 L1].
  intros E'. assert (H1 : forall u, In u ts -> chain s1 x u /\ wanted_name C asked x u) by (intros u I; destruct (H u (or_intror I)); split; auto; now apply (chain_larger s)).
  destruct (IH s1 _ n s' Y1 H1 E') as [Y2 L2]. eauto using larger_trans.
Qed.
Lemma pass_strict s n s' : steady s -> pass C true false s = (Ok s', n) -> steady s'.
Proof.
  intros Y. unfold pass. assert (H : forall x s, steady s -> forall t, In t (unresolved C x s) -> chain s x t /\ wanted_name C asked x t).
  { intros x s0 Y0 t I. apply unresolved_In in I. destruct I as (I & _). split; [now apply (y_chained _ Y0)|now apply (w_keys _ _ _ (y_weak _ Y0))]. }
  destruct (settle_all C true false Build (unresolved C Build s) s 0) as [[s1|s1|s1| |] m] eqn:E; try discriminate. destruct (settle_all_strict _ _ _ _ _ _ Y (H Build s Y) E) as [Y1 _].
  intros E'. now destruct (settle_all_strict _ _ _ _ _ _ Y1 (H Runtime s1 Y1) E').
Qed.
Lemma add_unresolved_strict n : forall s s', steady s -> add_unresolved C true false n s = Ok s' -> steady s'.
Proof.
  induction n as [|n IH]; intros s s' Y; cbn [add_unresolved]; [discriminate|]. destruct (pass C true false s) as [[s1|s1|s1| |] m] eqn:E; try discriminate. assert (Y1 := pass_strict _ _ _ Y E).
  destruct m; [intros [= <-]; auto|]. now apply IH.
Qed.
Lemma add_provider_strict t s s' : In t asked -> weak C asked s -> strong C nobody s -> untouched s -> chained s -> add_provider C true t s = Ok s' ->
  weak C asked s' /\ strong C nobody s' /\ untouched s' /\ chained s' /\ In t (s_external s') /\ (forall u, In u (s_external s) -> In u (s_external s')).
Proof.
  intros A W Q U Ch. assert (X := provide_strict true Build t s U Ch (chain_asked s t A)). assert (Y := add_provider_out C true asked t s W A). unfold add_provider in *.
  destruct (provide C true Build t s) as [s1|s1|s1| |]; cbn [out] in X, Y; try discriminate. destruct X as (U1 & C1 & L1). intros [= <-]. destruct Y as (W2 & M2 & Q2 & E2 & _).
  split; [auto|]. split; [auto|]. split; [unfold mark_external; destruct (mem_str t (s_external s1)); auto|]. split; [|split; [auto|apply (m_ext _ _ M2)]].
  unfold mark_external. destruct (mem_str t (s_external s1)); auto. intros x u I. specialize (C1 x u I). clear -C1. induction C1 as [|y v fn x u H IH I J N]; [now constructor|]. apply chain_need with y v fn; auto.
Qed.
End Strict.
