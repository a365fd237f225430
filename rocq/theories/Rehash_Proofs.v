(** Lemmas on new hashes. *)
From Coq Require Import Ascii String List Bool Arith Lia Relations Permutation.
From Verif Require Import Str_Model Str_Proofs Rehash_Model Rehash_Spec.
Import ListNotations.
Open Scope list_scope.

(** ** Sets *)
Lemma mem_In : forall t l, mem t l = true <-> In t l.
Proof. intros t l. unfold mem. rewrite existsb_exists. split; [intros (x & I & E); apply Nat.eqb_eq in E; subst; exact I|intro I; exists t; split; [exact I|apply Nat.eqb_refl]]. Qed.
Lemma mem_false : forall t l, mem t l = false <-> ~ In t l.
Proof. intros t l. rewrite <- mem_In. destruct (mem t l); split; congruence. Qed.
Lemma disjoint_iff : forall a b, disjoint a b = true <-> forall t, In t a -> ~ In t b.
Proof. intros a b. unfold disjoint. rewrite forallb_forall. split; intros H t I; specialize (H t I); [apply negb_true_iff, mem_false in H; exact H|apply negb_true_iff, mem_false; exact H]. Qed.
Lemma add_In : forall t u l, In u (add t l) <-> u = t \/ In u l.
Proof. intros t u l. unfold add. destruct (mem t l) eqn:E; [apply mem_In in E; split; [auto|intros [->|I]; auto]|]. rewrite in_app_iff. cbn. intuition. Qed.
Lemma add_NoDup : forall t l, NoDup l -> NoDup (add t l).
Proof.
  intros t l N. unfold add. destruct (mem t l) eqn:E; [exact N|]. apply mem_false in E. apply (Permutation_NoDup (l := t :: l)); [apply Permutation_cons_append|]. constructor; assumption.
Qed.
Lemma union_In : forall b a t, In t (union a b) <-> In t a \/ In t b.
Proof. induction b as [|x b IH]; intros a t; [cbn; intuition|]. unfold union in *. cbn [fold_left]. rewrite IH, add_In. cbn. intuition. Qed.
Lemma union_NoDup : forall b a, NoDup a -> NoDup (union a b).
Proof. induction b as [|x b IH]; intros a N; [exact N|]. unfold union in *. cbn [fold_left]. apply IH, add_NoDup, N. Qed.
Lemma minus_In : forall a b t, In t (minus a b) <-> In t a /\ ~ In t b.
Proof. intros. unfold minus. rewrite filter_In, negb_true_iff, mem_false. tauto. Qed.
Lemma inter_In : forall a b t, In t (inter a b) <-> In t a /\ In t b.
Proof. intros. unfold inter. rewrite filter_In, mem_In. tauto. Qed.
Lemma upd_same {A} (f : tid -> A) t x : upd f t x t = x.
Proof. unfold upd. rewrite Nat.eqb_refl. reflexivity. Qed.
Lemma upd_other {A} (f : tid -> A) t x u : u <> t -> upd f t x u = f u.
Proof. intro N. unfold upd. apply Nat.eqb_neq in N. rewrite N. reflexivity. Qed.

Section Graph.
Variables deps revdeps hashed : tid -> list tid.
Variable all : list tid.
Hypothesis G : graph deps revdeps hashed all.
Let revs : forall a b, In a (revdeps b) <-> In b (deps a) := proj1 G.
Let fin : forall a b, In b (deps a) -> In a all := proj1 (proj2 G).
Let noloop : forall t, ~ depends_on deps t t := proj1 (proj2 (proj2 G)).
Let part : forall a b, In b (hashed a) -> In b (deps a) := proj2 (proj2 (proj2 G)).

Lemma descend : forall n l seen x, NoDup seen -> incl seen l -> length l - length seen <= n -> In x seen -> (forall y, In y seen -> y = x \/ depends_on deps y x) ->
  exists t, In t l /\ disjoint (deps t) l = true.
Proof.
  induction n as [|n IH]; intros l seen x N S L I P; (destruct (disjoint (deps x) l) eqn:E; [exists x; auto|]);
  (assert (X : exists d, In d (deps x) /\ In d l) by (destruct (existsb (fun d => mem d l) (deps x)) eqn:Q; [apply existsb_exists in Q; destruct Q as (d & A & B); apply mem_In in B; exists d; auto|]; exfalso; assert (disjoint (deps x) l = true) by (apply disjoint_iff; intros t IT IL; assert (existsb (fun d => mem d l) (deps x) = true) by (apply existsb_exists; exists t; split; [exact IT|apply mem_In; exact IL]); congruence); congruence));
  destruct X as (d & D & DL); (destruct (in_dec Nat.eq_dec d seen) as [J|J]; [exfalso; destruct (P d J) as [->|Q]; [apply (noloop x); apply t_step; exact D|apply (noloop d); apply t_trans with x; [exact Q|apply t_step; exact D]]|]);
  (assert (B : length (d :: seen) <= length l) by (apply NoDup_incl_length; [constructor; assumption|intros y [<-|K]; auto]); cbn [length] in B).
  - lia.
  - apply (IH l (d :: seen) d).
    + constructor; assumption.
    + intros y [<-|K]; auto.
    + cbn [length]. lia.
    + left. reflexivity.
    + intros y [<-|K]; [left; reflexivity|]. right. destruct (P y K) as [->|Q]; [apply t_step; exact D|apply t_trans with x; [exact Q|apply t_step; exact D]].
Qed.
Lemma first_ready : forall l, l <> [] -> exists t, In t l /\ disjoint (deps t) l = true.
Proof.
  intros [|x l] N; [congruence|]. apply (descend (length (x :: l)) (x :: l) [x] x).
  - constructor; [intros []|constructor].
  - intros y [<-|[]]. left. reflexivity.
  - lia.
  - left. reflexivity.
  - intros y [<-|[]]. left. reflexivity.
Qed.

(** ** All dependents *)
Lemma revdeps_of_In : forall l acc t, In t (fold_left (fun acc t => union acc (revdeps t)) l acc) <-> In t acc \/ exists u, In u l /\ In u (deps t).
Proof.
  induction l as [|x l IH]; intros acc t; cbn [fold_left]; [split; [auto|intros [H|(u & [] & _)]; exact H]|]. rewrite IH, union_In, revs. split.
  - intros [[H|H]|(u & I & H)]; [auto|right; exists x; split; [left; reflexivity|exact H]|right; exists u; split; [right; exact I|exact H]].
  - intros [H|(u & [<-|I] & H)]; [auto|auto|right; exists u; auto].
Qed.
Lemma revdeps_of_all : forall l, incl (revdeps_of revdeps l) all.
Proof. intros l t I. apply revdeps_of_In in I. destruct I as [[]|(u & _ & D)]. exact (fin t u D). Qed.
Lemma revdeps_of_NoDup : forall l acc, NoDup acc -> NoDup (fold_left (fun acc t => union acc (revdeps t)) l acc).
Proof. induction l as [|x l IH]; intros acc N; [exact N|]. cbn [fold_left]. apply IH, union_NoDup, N. Qed.
Lemma collect_spec : forall top fuel next total,
  NoDup total -> incl total all -> incl next all -> NoDup next -> (forall t, In t next -> ~ In t total) -> length all - length total < fuel ->
  (forall t, In t total \/ In t next -> exists p, In p top /\ depends_on deps t p) ->
  (forall t p, In p top -> In p (deps t) -> In t total \/ In t next) ->
  (forall t u, In u total -> In u (deps t) -> In t total \/ In t next) ->
  NoDup (collect revdeps fuel next total) /\ forall t, In t (collect revdeps fuel next total) <-> exists p, In p top /\ depends_on deps t p.
Proof.
  intro top. induction fuel as [|fuel IH]; intros next total ND IA IN NN DJ L SS D1 D2; [lia|].
  destruct next as [|x next].
  - cbn [collect]. split; [exact ND|]. intro t. split; [intro I; apply SS; left; exact I|].
    intros (p & IP & D). apply clos_trans_t1n in D. induction D as [t p D|t u p D D' IHD]; [destruct (D1 t p IP D) as [H|[]]; exact H|]. destruct (D2 t u (IHD IP) D) as [H|[]]; exact H.
  - set (nx := x :: next) in *. change (collect revdeps (S fuel) nx total) with (collect revdeps fuel (minus (revdeps_of revdeps nx) (union total nx)) (union total nx)).
    assert (NU : NoDup (union total nx)) by (apply union_NoDup, ND). assert (IU : incl (union total nx) all) by (intros t I; apply union_In in I; destruct I as [I|I]; auto).
    apply IH.
    + exact NU.
    + exact IU.
    + intros t I. apply minus_In in I. exact (revdeps_of_all nx t (proj1 I)).
    + apply NoDup_filter, revdeps_of_NoDup. constructor.
    + intros t I. apply minus_In in I. exact (proj2 I).
    + assert (LT : S (length total) <= length (union total nx)).
      { apply (NoDup_incl_length (l := x :: total)); [constructor; [apply DJ; left; reflexivity|exact ND]|]. intros t [<-|I]; apply union_In; [right; left; reflexivity|left; exact I]. }
      assert (LA : length (union total nx) <= length all) by (apply NoDup_incl_length; assumption). lia.
    + intros t [I|I].
      * apply union_In in I. apply SS. exact I.
      * apply minus_In in I. destruct I as [I _]. apply revdeps_of_In in I. destruct I as [[]|(u & IU' & D)]. destruct (SS u (or_intror IU')) as (p & IP & DP). exists p. split; [exact IP|]. apply t_trans with u; [apply t_step; exact D|exact DP].
    + intros t p IP D. left. apply union_In. exact (D1 t p IP D).
    + intros t u IU' D. apply union_In in IU'. destruct IU' as [I|I]; [left; apply union_In; exact (D2 t u I D)|].
      destruct (in_dec Nat.eq_dec t (union total nx)) as [J|J]; [left; exact J|]. right. apply minus_In. split; [|exact J]. apply revdeps_of_In. right. exists u. split; assumption.
Qed.
Lemma collect_all : forall top fuel, length all < fuel -> let total := collect revdeps fuel (revdeps_of revdeps top) [] in
  NoDup total /\ forall t, In t total <-> exists p, In p top /\ depends_on deps t p.
Proof.
  intros top fuel L. cbv zeta. apply (collect_spec top).
  - constructor.
  - intros t [].
  - apply revdeps_of_all.
  - apply revdeps_of_NoDup. constructor.
  - intros t _ [].
  - cbn [length]. lia.
  - intros t [[]|I]. apply revdeps_of_In in I. destruct I as [[]|(u & IU & D)]. exists u. split; [exact IU|apply t_step; exact D].
  - intros t p IP D. right. apply revdeps_of_In. right. exists p. split; assumption.
  - intros t u [].
Qed.

(** ** The rounds *)
Variable make : tid -> list str -> str.
Variable iter : nat -> list tid -> list tid.
Hypothesis iter_any : any_order iter.
Variable done : tid -> bool.
Variable agree : tid -> str -> str -> bool.
Variable s0 : st.
Variable total0 : list tid.
(** [total0] is closed *)
Hypothesis closed : forall t u, In u total0 -> In u (deps t) -> In t total0.
(** the names of a task after its turn *)
Definition remap (t : tid) (now h : str) : str := if done t && seqb h now && negb (seqb (uni s0 t h) (rq_uni s0 t)) && agree t h (rq_uni s0 t) then rq_uni s0 t else uni s0 t h.
Definition invariant (total : list tid) (s : st) (changed : list tid) : Prop :=
  NoDup total /\ incl total total0 /\
  (forall t, In t total \/ ~ In t total0 -> forall h, uni s t h = uni s0 t h) /\
  (forall t, In t total0 -> ~ In t total -> forall d, In d (deps t) -> ~ In d total) /\
  (forall t, ~ In t total -> right hashed make s t) /\
  (forall t, In t total \/ ~ In t total0 -> th s t = th s0 t /\ rq_hash s t = rq_hash s0 t /\ rq_uni s t = rq_uni s0 t) /\
  (forall t, In t total0 -> ~ In t total -> rq_uni s t = if done t then rq_uni s0 t else name s t) /\
  (forall t, In t changed <-> rq_uni s t <> rq_uni s0 t) /\
  (forall t, rq_uni s t <> rq_uni s0 t -> rq_hash s t = th s t) /\
  (forall t, In t total0 -> ~ In t total -> forall h, uni s t h = remap t (th s t) h).
Lemma rehash_step : forall total s changed t, invariant total s changed -> In t total -> disjoint (deps t) total = true ->
  let '(s', changed') := rehash hashed make done agree t s changed in invariant (filter (fun u => negb (Nat.eqb u t)) total) s' changed'.
Proof.
  intros total s changed t (N & I0 & U & C1 & C2 & C3 & C4 & C5 & C6 & C7) IT R. pose proof (proj1 (disjoint_iff _ _) R) as RD.
  set (total' := filter (fun u => negb (Nat.eqb u t)) total). assert (F : forall u, In u total' <-> In u total /\ u <> t) by (intro u; unfold total'; rewrite filter_In, negb_true_iff, Nat.eqb_neq; tauto).
  assert (NT : ~ In t (deps t)) by (intro D; exact (RD t D IT)).
  set (h := make t (map (name s) (hashed t))). set (s1 := mkSt (upd (th s) t h) (uni s) (rq_hash s) (rq_uni s)).
  assert (NM : forall u, u <> t -> name s1 u = name s u) by (intros u NE; unfold name, s1; cbn [th uni]; rewrite upd_other by exact NE; reflexivity).
  assert (OLD : rq_uni s t = rq_uni s0 t) by (apply (C3 t); left; exact IT).
  assert (K1 : forall u, In u total0 -> ~ In u total' -> forall d, In d (deps u) -> ~ In d total').
  { intros u I NU d D ID. apply F in ID. destruct ID as [ID _]. destruct (Nat.eq_dec u t) as [->|NE]; [exact (RD d D ID)|]. apply (C1 u I) with (d := d); [|exact D|exact ID]. intro X. apply NU, F. split; assumption. }
  assert (KD : forall u, ~ In u total' -> forall d, In d (hashed u) -> d <> t).
  { intros u NU d D ->. destruct (Nat.eq_dec u t) as [->|NE]; [apply NT, part, D|]. assert (NU' : ~ In u total) by (intro X; apply NU, F; split; assumption).
    assert (IU : In u total0) by (apply (closed u t); [apply I0, IT|apply part, D]). exact (C1 u IU NU' t (part _ _ D) IT). }
  assert (K2 : forall u, ~ In u total' -> th s1 u = make u (map (name s) (hashed u))).
  { intros u NU. destruct (Nat.eq_dec u t) as [->|NE].
    - unfold s1. cbn [th]. rewrite upd_same. reflexivity.
    - unfold s1. cbn [th]. rewrite upd_other by exact NE. assert (NU' : ~ In u total) by (intro X; apply NU, F; split; assumption). exact (C2 u NU'). }
  assert (K3 : forall u, In u total' \/ ~ In u total0 -> u <> t /\ (In u total \/ ~ In u total0)).
  { intros u [I|I]; [apply F in I; tauto|]. split; [intros ->; apply I, I0, IT|right; exact I]. }
  assert (X : forall s' changed', th s' = th s1 -> (forall u g, u <> t -> uni s' u g = uni s u g) -> (forall u, u <> t -> rq_hash s' u = rq_hash s u /\ rq_uni s' u = rq_uni s u) -> (rq_uni s' t = if done t then rq_uni s0 t else name s' t) ->
    (forall u, In u changed' <-> (if Nat.eq_dec u t then rq_uni s' t <> rq_uni s0 t else In u changed)) -> (rq_uni s' t <> rq_uni s0 t -> rq_hash s' t = h) -> (forall g, uni s' t g = remap t h g) -> invariant total' s' changed').
  { intros s' changed' E1 E2 E3 E4 E5 E6 E7. assert (NS : forall u, u <> t -> name s' u = name s u) by (intros u NE; unfold name; rewrite E1, E2 by exact NE; unfold s1; cbn [th]; rewrite upd_other by exact NE; reflexivity).
    split; [apply NoDup_filter, N|]. split; [intros u I; apply I0, F, I|]. split; [intros u H g; destruct (K3 u H) as [NE H']; rewrite E2 by exact NE; apply U; exact H'|]. split; [exact K1|]. split; [|split; [|split; [|split; [|split]]]].
    - intros u NU. unfold right. rewrite E1, (K2 u NU). f_equal. apply map_ext_in. intros d D. symmetry. apply NS. exact (KD u NU d D).
    - intros u H. destruct (K3 u H) as [NE H']. destruct (C3 u H') as (A & B & C). destruct (E3 u NE) as [D E]. rewrite E1, D, E. unfold s1. cbn [th]. rewrite upd_other by exact NE. auto.
    - intros u I NU. destruct (Nat.eq_dec u t) as [->|NE]; [exact E4|]. rewrite (proj2 (E3 u NE)), NS by exact NE. apply C4; [exact I|]. intro Q. apply NU, F. split; assumption.
    - intro u. rewrite E5. destruct (Nat.eq_dec u t) as [->|NE]; [tauto|]. rewrite (proj2 (E3 u NE)). apply C5.
    - intros u H. destruct (Nat.eq_dec u t) as [->|NE]; [rewrite E1; unfold s1; cbn [th]; rewrite upd_same; exact (E6 H)|]. rewrite (proj2 (E3 u NE)) in H. rewrite (proj1 (E3 u NE)), E1. unfold s1. cbn [th]. rewrite upd_other by exact NE. exact (C6 u H).
    - intros u I NU g. rewrite E1. destruct (Nat.eq_dec u t) as [->|NE]; [unfold s1; cbn [th]; rewrite upd_same; apply E7|]. rewrite E2 by exact NE. unfold s1. cbn [th]. rewrite upd_other by exact NE. apply C7; [exact I|]. intro Q. apply NU, F. split; assumption. }
  assert (UT : forall g, uni s t g = uni s0 t g) by (intro g; apply U; left; exact IT).
  assert (N1 : name s1 t = uni s t h) by (unfold name, s1; cbn [th uni]; rewrite upd_same; reflexivity).
  assert (CT : ~ In t changed) by (rewrite C5; congruence).
  unfold rehash. fold h. fold s1. destruct (seqb (uni s t h) (rq_uni s t)) eqn:Q.
  - apply seqb_eq in Q. apply X; try reflexivity.
    + intros u NE. split; reflexivity.
    + rewrite N1, Q. unfold s1. cbn [rq_uni]. rewrite OLD. destruct (done t); reflexivity.
    + intro u. destruct (Nat.eq_dec u t) as [->|NE]; [|tauto]. unfold s1. cbn [rq_uni]. rewrite OLD. split; [intro Y; exfalso; exact (CT Y)|congruence].
    + unfold s1. cbn [rq_uni]. congruence.
    + intro g. unfold s1. cbn [uni]. rewrite UT. unfold remap. destruct (seqb g h) eqn:GH; [|rewrite andb_false_r; reflexivity]. apply seqb_eq in GH. subst g. rewrite <- UT, Q, OLD, (proj2 (seqb_eq _ _) eq_refl). rewrite andb_true_r, andb_false_r. reflexivity.
  - apply seqb_neq in Q. destruct (done t) eqn:DN.
    + apply X; cbn [th uni rq_hash rq_uni]; try reflexivity.
      * intros u g NE. destruct (agree t h (rq_uni s t)); [|reflexivity]. apply Nat.eqb_neq in NE. rewrite NE. reflexivity.
      * intros u NE. split; reflexivity.
      * exact OLD.
      * intro u. destruct (Nat.eq_dec u t) as [->|NE]; [|tauto]. rewrite OLD. split; [intro Y; exfalso; exact (CT Y)|congruence].
      * congruence.
      * intro g. unfold remap. rewrite DN. cbn [andb]. destruct (agree t h (rq_uni s t)) eqn:AG.
        -- rewrite Nat.eqb_refl. cbn [andb]. destruct (seqb g h) eqn:GH; [|apply UT]. apply seqb_eq in GH. subst g. rewrite <- OLD, <- UT, AG. apply seqb_neq in Q. rewrite Q. reflexivity.
        -- rewrite UT. destruct (seqb g h) eqn:GH; [|reflexivity]. apply seqb_eq in GH. subst g. rewrite <- OLD, AG, andb_false_r. reflexivity.
    + apply X; cbn [th uni rq_hash rq_uni]; try reflexivity.
      * intros u NE. rewrite !upd_other by exact NE. split; reflexivity.
      * rewrite upd_same. exact (eq_sym N1).
      * intro u. rewrite add_In. destruct (Nat.eq_dec u t) as [->|NE]; [|tauto]. rewrite upd_same. split; [intros _; rewrite <- OLD; exact Q|auto].
      * intros _. apply upd_same.
      * intro g. unfold remap. rewrite DN. apply UT.
Qed.
Lemma inner_spec : forall p, deps p <> [] -> forall current next total s changed, invariant total s changed -> NoDup current -> incl current total -> NoDup next -> incl next total ->
  (forall t, In t total -> disjoint (deps t) total = true -> In t next \/ In t current) ->
  exists next' total' s' changed', inner deps revdeps hashed make done agree p current next total s changed = Some (next', total', s', changed') /\ invariant total' s' changed' /\ NoDup next' /\ incl next' total' /\
  (forall t, In t total' -> disjoint (deps t) total' = true -> In t next') /\ incl total' total /\ (forall t, In t current -> disjoint (deps t) total = true -> ~ In t total').
Proof.
  intros p NP. induction current as [|t current IH]; intros next total s changed V NC IC NN INX RY.
  - exists next, total, s, changed. cbn [inner]. split; [reflexivity|]. split; [exact V|]. split; [exact NN|]. split; [exact INX|]. split; [intros t I R; destruct (RY t I R) as [H|[]]; exact H|]. split; [apply incl_refl|]. intros t [].
  - inversion NC as [|? ? NI NC']; subst. cbn [inner]. assert (E : match deps p with [] => true | _ => false end = false) by (destruct (deps p); [congruence|reflexivity]). rewrite E. cbn [negb andb].
    destruct (disjoint (deps t) total) eqn:D; cbn [negb].
    + pose proof (rehash_step total s changed t V (IC t (or_introl eq_refl)) D) as ST. destruct (rehash hashed make done agree t s changed) as [s1 c1]. rewrite (proj2 (mem_In t total) (IC t (or_introl eq_refl))).
      set (total1 := filter (fun u => negb (Nat.eqb u t)) total) in *. assert (F : forall u, In u total1 <-> In u total /\ u <> t) by (intro u; unfold total1; rewrite filter_In, negb_true_iff, Nat.eqb_neq; tauto).
      destruct (IH (inter (union next (revdeps t)) total1) total1 s1 c1 ST NC') as (n' & t' & s' & c' & E1 & E2 & E3 & E4 & E5 & E6 & E7).
      * intros u I. apply F. split; [apply IC; right; exact I|]. intros ->. exact (NI I).
      * apply NoDup_filter, union_NoDup, NN.
      * intros u I. apply inter_In in I. exact (proj2 I).
      * intros u I R. pose proof (proj1 (F u) I) as [IU NE]. destruct (disjoint (deps u) total) eqn:DU.
        -- destruct (RY u IU DU) as [H|[H|H]]; [left; apply inter_In; split; [apply union_In; left; exact H|exact I]|congruence|right; exact H].
        -- left. apply inter_In. split; [|exact I]. apply union_In. right. apply revs. destruct (in_dec Nat.eq_dec t (deps u)) as [J|J]; [exact J|]. exfalso. assert (disjoint (deps u) total = true); [|congruence]. apply disjoint_iff. intros d ID IT. apply (proj1 (disjoint_iff _ _) R d ID). apply F. split; [exact IT|]. intros ->. exact (J ID).
      * exists n', t', s', c'. split; [exact E1|]. split; [exact E2|]. split; [exact E3|]. split; [exact E4|]. split; [exact E5|]. split; [intros u I; apply E6, F in I; tauto|].
        intros u [<-|I] R; [intro J; apply E6, F in J; tauto|]. apply E7; [exact I|]. apply disjoint_iff. intros d ID IT. apply (proj1 (disjoint_iff _ _) R d ID). apply F in IT. tauto.
    + destruct (IH next total s changed V NC' (fun u I => IC u (or_intror I)) NN INX) as (n' & t' & s' & c' & E1 & E2 & E3 & E4 & E5 & E6 & E7).
      * intros u I R. destruct (RY u I R) as [H|[H|H]]; [left; exact H|subst; congruence|right; exact H].
      * exists n', t', s', c'. split; [exact E1|]. split; [exact E2|]. split; [exact E3|]. split; [exact E4|]. split; [exact E5|]. split; [exact E6|]. intros u [<-|I] R; [congruence|]. apply E7; assumption.
Qed.
Lemma rounds_spec : forall p, deps p <> [] -> forall fuel n next total s changed, invariant total s changed -> NoDup next -> incl next total -> length total < fuel ->
  (forall t, In t total -> disjoint (deps t) total = true -> In t next) ->
  exists s' changed', rounds deps revdeps hashed make iter done agree fuel n p next total s changed = Some (s', changed') /\ invariant [] s' changed'.
Proof.
  intros p NP. induction fuel as [|fuel IH]; intros n next total s changed V NN INX L RY; [lia|].
  destruct next as [|x next].
  - cbn [rounds]. exists s, changed. split; [reflexivity|]. destruct total as [|y total]; [exact V|]. exfalso. destruct (first_ready (y :: total)) as (t & I & R); [discriminate|]. exact (RY t I R).
  - set (nx := x :: next) in *. change (rounds deps revdeps hashed make iter done agree (S fuel) n p nx total s changed) with (match inner deps revdeps hashed make done agree p (iter n nx) [] total s changed with Some (next, total, s, changed) => rounds deps revdeps hashed make iter done agree fuel (S n) p next total s changed | None => None end).
    assert (PM := iter_any n nx).
    destruct (inner_spec p NP (iter n nx) [] total s changed V) as (n' & t' & s' & c' & E1 & E2 & E3 & E4 & E5 & E6 & E7).
    + apply (Permutation_NoDup (Permutation_sym PM)), NN.
    + intros u I. apply INX, (Permutation_in _ PM), I.
    + constructor.
    + intros u [].
    + intros u I R. right. apply (Permutation_in _ (Permutation_sym PM)), RY; assumption.
    + rewrite E1. apply IH; [exact E2|exact E3|exact E4| |exact E5].
      destruct (first_ready total) as (t & I & R); [intro Z; subst total; exact (INX x (or_introl eq_refl))|].
      assert (NT : ~ In t t') by (apply E7; [apply (Permutation_in _ (Permutation_sym PM)), RY; assumption|exact R]).
      assert (LT : S (length t') <= length total) by (apply (NoDup_incl_length (l := t :: t')); [constructor; [exact NT|apply E2]|intros u [<-|J]; [exact I|apply E6, J]]). lia.
Qed.
End Graph.

(** ** The queue *)
Section Queue.
Variable running : tid -> bool.
Variable deferred : list (tid * tid).
Lemma set_all : forall u l s, let s1 := fold_left (set_unihash u) l s in
  th s1 = th s /\ rq_hash s1 = rq_hash s /\ (forall t, ~ In t l -> rq_uni s1 t = rq_uni s t /\ forall h, uni s1 t h = uni s t h) /\
  (forall t, In t l -> rq_uni s1 t = u /\ name s1 t = u).
Proof.
  intros u. induction l as [|x l IH]; intros s; cbv zeta; cbn [fold_left]; [split; [reflexivity|]; split; [reflexivity|]; split; [auto|intros t []]|].
  destruct (IH (set_unihash u s x)) as (A & B & C & D). split; [exact A|]. split; [exact B|].
  split.
  - intros t N. destruct (C t) as [E F]; [intro I; apply N; right; exact I|]. assert (NE : t <> x) by (intros ->; apply N; left; reflexivity). split.
    + rewrite E. unfold set_unihash. cbn [rq_uni]. apply upd_other, NE.
    + intro h. rewrite F. unfold set_unihash. cbn [uni]. apply Nat.eqb_neq in NE. rewrite NE. reflexivity.
  - intros t I. destruct (in_dec Nat.eq_dec t l) as [J|J]; [apply D, J|]. destruct I as [->|I]; [|contradiction]. destruct (C t J) as [E F]. split.
    + rewrite E. unfold set_unihash. cbn [rq_uni]. apply upd_same.
    + unfold name. rewrite F, A. unfold set_unihash. cbn [uni th]. rewrite Nat.eqb_refl, (proj2 (seqb_eq _ _) eq_refl). reflexivity.
Qed.
Lemma read_queue_spec : forall q s top, let '(s1, top1, kept) := read_queue running deferred q s top in
  th s1 = th s /\ rq_hash s1 = rq_hash s /\ kept = filter (fun e => running (fst e)) q /\ incl top top1 /\
  (forall t, ~ In t top1 -> rq_uni s1 t = rq_uni s t /\ forall h, uni s1 t h = uni s t h) /\
  (forall t, rq_uni s t = name s t -> rq_uni s1 t = name s1 t) /\
  (forall t, In t top1 -> In t top \/ reported running deferred q t).
Proof.
  induction q as [|(p, u) q IH]; intros s top.
  - cbn [read_queue filter]. repeat split; auto. intros t I; auto.
  - cbn [read_queue filter fst]. destruct (running p) eqn:R.
    + specialize (IH s top). destruct (read_queue running deferred q s top) as [[s1 top1] kept]. destruct IH as (A & B & C & D & E & F & H). split; [exact A|]. split; [exact B|]. split; [f_equal; exact C|]. split; [exact D|]. split; [exact E|]. split; [exact F|].
      intros t I. destruct (H t I) as [J|(p' & u' & J)]; [auto|right; exists p', u'; split; [right; apply J|apply J]].
    + destruct (seqb u (rq_uni s p)) eqn:Q.
      * specialize (IH s top). destruct (read_queue running deferred q s top) as [[s1 top1] kept]. destruct IH as (A & B & C & D & E & F & H). split; [exact A|]. split; [exact B|]. split; [exact C|]. split; [exact D|]. split; [exact E|]. split; [exact F|].
        intros t I. destruct (H t I) as [J|(p' & u' & J)]; [auto|right; exists p', u'; split; [right; apply J|apply J]].
      * set (l := p :: map fst (filter (fun d => Nat.eqb (snd d) p) deferred)). set (s2 := fold_left (set_unihash u) l s). destruct (set_all u l s) as (A2 & B2 & C2 & D2). fold s2 in A2, B2, C2, D2.
        specialize (IH s2 (union top l)). destruct (read_queue running deferred q s2 (union top l)) as [[s1 top1] kept]. destruct IH as (A & B & C & D & E & F & H).
        split; [congruence|]. split; [congruence|]. split; [exact C|]. split; [intros t I; apply D, union_In; left; exact I|]. split; [|split].
        -- intros t N. destruct (E t N) as [E1 E2]. destruct (C2 t) as [C3 C4]; [intro I; apply N, D, union_In; right; exact I|]. split; [congruence|]. intro h. rewrite E2. apply C4.
        -- intros t EQ. apply F. destruct (in_dec Nat.eq_dec t l) as [J|J]; [destruct (D2 t J); congruence|]. destruct (C2 t J) as [C3 C4]. rewrite C3, EQ. unfold name. rewrite C4, A2. reflexivity.
        -- intros t I. destruct (H t I) as [J|(p' & u' & J)]; [|right; exists p', u'; split; [right; apply J|apply J]]. apply union_In in J. destruct J as [J|J]; [left; exact J|]. right. exists p, u. split; [left; reflexivity|]. split; [exact R|].
           destruct J as [->|J]; [left; reflexivity|]. right. apply in_map_iff in J. destruct J as ((a, b) & <- & J). apply filter_In in J. destruct J as [J K]. cbn in K. apply Nat.eqb_eq in K. subst b. exact J.
Qed.
End Queue.

(** ** All of it *)
Section Whole.
Variables deps revdeps hashed : tid -> list tid.
Variable all : list tid.
Hypothesis G : graph deps revdeps hashed all.
Variable make : tid -> list str -> str.
Variables running done : tid -> bool.
Variable agree : tid -> str -> str -> bool.
Variable deferred : list (tid * tid).
Lemma last_In : forall (l : list tid) d, l <> [] -> In (last l d) l.
Proof.
  induction l as [|x l IH]; intros d N; [congruence|]. destruct l as [|y l]; [left; reflexivity|]. right. exact (IH d (fun E => eq_ind (y :: l) (fun m => match m with [] => False | _ => True end) I [] E)).
Qed.
Lemma depends_all : forall t p, depends_on deps t p -> exists d, In d (deps t).
Proof. intros t p D. apply clos_trans_t1n in D. destruct D as [p D|u p D _]; eauto. Qed.
Lemma migrate_spec : forall iter fuel q s, any_order iter -> length all < fuel -> (forall t, right hashed make s t) ->
  let '(s1, top, kept) := read_queue running deferred q s [] in
  exists s' changed total0, migrate deps revdeps hashed make iter running done agree deferred fuel q s = Some (s', changed, kept) /\
    (forall t, In t total0 <-> exists p, In p top /\ depends_on deps t p) /\ invariant deps hashed make done agree s1 total0 [] s' changed.
Proof.
  intros iter fuel q s AO L RT. pose proof (read_queue_spec running deferred q s []) as RQ. unfold migrate. destruct (read_queue running deferred q s []) as [[s1 top] kept]. destruct RQ as (A & B & C & D & E & F & H).
  set (total0 := collect revdeps fuel (revdeps_of revdeps top) []). pose proof (collect_all deps revdeps hashed all G top fuel L) as CA. cbv zeta in CA. fold total0 in CA. destruct CA as [N0 T0].
  set (next := filter (fun p => match deps p with [] => true | _ => disjoint (deps p) total0 end) total0). set (p := last (iter 0 total0) 0).
  assert (V : invariant deps hashed make done agree s1 total0 total0 s1 []).
  { split; [exact N0|]. split; [apply incl_refl|]. split; [reflexivity|]. split; [intros t I NI; contradiction|]. split; [|split; [|split; [|split; [|split]]]].
    - intros t NT. unfold right. rewrite A, (RT t). f_equal. apply map_ext_in. intros d ID. symmetry. unfold name. rewrite A. apply E. intro I. apply NT, T0. exists d. split; [exact I|]. apply t_step. apply (proj2 (proj2 (proj2 G))), ID.
    - auto.
    - intros t I NI; contradiction.
    - intro t. split; [intros []|congruence].
    - congruence.
    - intros t I NI; contradiction. }
  assert (CS : total0 = [] \/ total0 <> []) by (destruct total0; [left; reflexivity|right; discriminate]). destruct CS as [ET|ET].
  - assert (EN : next = []) by (unfold next; rewrite ET; reflexivity). rewrite EN. exists s1, [], (@nil tid). split; [reflexivity|]. rewrite ET in T0, V. split; [exact T0|exact V].
  - assert (IP : In p total0).
    { apply (Permutation_in _ (AO 0 total0)). apply last_In. intro EI. pose proof (AO 0 total0) as PM. rewrite EI in PM. apply Permutation_nil in PM. congruence. }
    assert (NP : deps p <> []) by (apply T0 in IP; destruct IP as (p' & _ & DP); destruct (depends_all p p' DP) as (d & ID); destruct (deps p); [destruct ID|discriminate]).
    destruct (rounds_spec deps revdeps hashed all G make iter AO done agree s1 total0) with (p := p) (fuel := S (length total0)) (n := 0) (next := next) (total := total0) (s := s1) (changed := @nil tid) as (s' & changed & R & V').
    + intros t u I ID. apply T0 in I. destruct I as (p' & IP' & DP). apply T0. exists p'. split; [exact IP'|]. apply t_trans with u; [apply t_step; exact ID|exact DP].
    + exact NP.
    + exact V.
    + apply NoDup_filter, N0.
    + intros t I. apply filter_In in I. apply I.
    + lia.
    + intros t I R. apply filter_In. split; [exact I|]. destruct (deps t); [reflexivity|exact R].
    + exists s', changed, total0. rewrite R. split; [reflexivity|]. split; [exact T0|exact V'].
Qed.
End Whole.

(** ** What is passed to a task *)
Section Depdata.
Variable depends : tid -> list tid.
Variable mc : tid -> nat.
Variable t : tid.
Variable all : list tid.
Hypothesis fin : forall v, within depends mc t v -> In v all.
Lemma cached_In : forall u v, In v (cached depends mc u) <-> In v (depends u) /\ mc v = mc u.
Proof. intros u v. unfold cached, filtermcdeps. rewrite filter_In, Nat.eqb_eq. tauto. Qed.
Lemma within_mc : forall v, within depends mc t v -> mc v = mc t.
Proof. intros v W. destruct W; auto. Qed.
Lemma level_spec : forall next data additional, (forall v, In v next \/ In v data \/ In v additional -> within depends mc t v) -> NoDup data ->
  let '(data', additional') := level depends mc next data additional in
  NoDup data' /\ (forall v, In v data' <-> In v data \/ In v next) /\ (forall v, In v additional -> In v additional') /\ (forall v, In v additional' -> within depends mc t v) /\
  (forall u v, In u next -> In v (cached depends mc u) -> In v data' \/ In v additional') /\
  ((forall v, In v additional -> ~ In v data) -> incl next data -> (forall u v, In u next -> In v (cached depends mc u) -> In v data) -> data' = data /\ additional' = additional).
Proof.
  induction next as [|x next IH]; intros data additional W N; cbn [level].
  - split; [exact N|]. split; [cbn; tauto|]. split; [auto|]. split; [intros v I; apply W; auto|]. split; [intros u v []|]. intros _ _ _. split; reflexivity.
  - assert (Wx : within depends mc t x) by (apply W; left; left; reflexivity).
    specialize (IH (add x data) (additional ++ filter (fun d => negb (mem d (add x data))) (cached depends mc x))).
    destruct (level depends mc next (add x data) (additional ++ filter (fun d => negb (mem d (add x data))) (cached depends mc x))) as [data' additional'].
    destruct IH as (A & B & C & D & E & F).
    + intros v [I|[I|I]]; [apply W; left; right; exact I|apply add_In in I; destruct I as [->|I]; [exact Wx|apply W; auto]|]. apply in_app_or in I. destruct I as [I|I]; [apply W; auto|]. apply filter_In in I. destruct I as [I _]. apply cached_In in I. destruct I as [I M]. apply within_dep with x; [exact Wx|exact I|]. rewrite M. apply within_mc, Wx.
    + apply add_NoDup, N.
    + split; [exact A|]. split; [intro v; rewrite B, add_In; cbn; split; [intros [[->|H]|H]; auto|intros [H|[->|H]]; auto]|]. split; [intros v I; apply C, in_or_app; left; exact I|]. split; [exact D|]. split.
      * intros u v [<-|IU] IV; [|apply (E u v); assumption]. destruct (mem v (add x data)) eqn:M; [apply mem_In in M; left; apply B; left; exact M|]. right. apply C, in_or_app. right. apply filter_In. rewrite M. auto.
      * intros H1 H2 H3. assert (AX : add x data = data) by (unfold add; rewrite (proj2 (mem_In x data) (H2 x (or_introl eq_refl))); reflexivity).
        assert (FX : filter (fun d => negb (mem d (add x data))) (cached depends mc x) = []).
        { rewrite AX. destruct (filter (fun d => negb (mem d data)) (cached depends mc x)) as [|z zs] eqn:Z; [reflexivity|]. assert (IZ : In z (z :: zs)) by (left; reflexivity). rewrite <- Z in IZ. apply filter_In in IZ. destruct IZ as [IZ M]. apply negb_true_iff, mem_false in M. exfalso. apply M, (H3 x z); [left; reflexivity|exact IZ]. }
        rewrite FX, app_nil_r, AX in F. destruct F as [F1 F2]; [exact H1| | |split; [exact F1|exact F2]].
        -- intros v I. apply H2. right. exact I.
        -- intros u v IU IV. apply (H3 u v); [right; exact IU|exact IV].
Qed.
Lemma levels_spec : forall fuel next data, (forall v, In v next \/ In v data -> within depends mc t v) -> NoDup data -> (In t data \/ In t next) ->
  (forall u v, In u data -> In v (cached depends mc u) -> In v data \/ In v next) -> (2 + (length all - length data) <= fuel \/ (incl next data /\ 1 <= fuel)) ->
  exists l, levels depends mc fuel next data = Some l /\ forall v, In v l <-> within depends mc t v.
Proof.
  induction fuel as [|fuel IH]; intros next data W N T CH L; [exfalso; destruct L as [L|[_ L]]; lia|].
  destruct next as [|x next].
  - cbn [levels]. exists data. split; [reflexivity|]. intro v. split; [intro I; apply W; auto|]. intro WV. induction WV as [|u v WU IU IV M]; [destruct T as [T|[]]; exact T|]. destruct (CH u v IU) as [H|[]]; [|exact H]. apply cached_In. split; [exact IV|]. rewrite M. symmetry. apply within_mc, WU.
  - set (nx := x :: next) in *. change (levels depends mc (S fuel) nx data) with (let '(data, additional) := level depends mc nx data [] in levels depends mc fuel additional data).
    pose proof (level_spec nx data []) as LS. destruct (level depends mc nx data []) as [data' add'].
    destruct LS as (A & B & C & D & E & F).
    + intros v [I|[I|[]]]; apply W; auto.
    + exact N.
    + assert (QUIET : incl nx data -> data' = data /\ add' = []).
      { intro I. apply F; [intros v []|exact I|]. intros u v IU IV. destruct (CH u v (I u IU) IV) as [H|H]; [exact H|apply I, H]. }
      destruct (forallb (fun v => mem v data) nx) eqn:AL.
      * assert (I : incl nx data) by (intros v IV; apply mem_In; exact (proj1 (forallb_forall _ _) AL v IV)). destruct (QUIET I) as [-> ->].
        assert (LV : levels depends mc fuel [] data = Some data) by (destruct fuel; reflexivity). rewrite LV. exists data. split; [reflexivity|]. intro v. split; [intro IV; apply W; auto|]. intro WV. induction WV as [|u v WU IU IV M]; [destruct T as [T|T]; [exact T|apply I, T]|].
        destruct (CH u v IU) as [H|H]; [|exact H|apply I, H]. apply cached_In. split; [exact IV|]. rewrite M. symmetry. apply within_mc, WU.
      * assert (X : exists v, In v nx /\ ~ In v data).
        { destruct (existsb (fun v => negb (mem v data)) nx) eqn:EX; [apply existsb_exists in EX; destruct EX as (v & I & M); exists v; split; [exact I|apply mem_false, negb_true_iff, M]|]. exfalso. assert (forallb (fun v => mem v data) nx = true); [|congruence]. apply forallb_forall. intros v I. destruct (mem v data) eqn:M; [reflexivity|]. assert (existsb (fun v => negb (mem v data)) nx = true); [|congruence]. apply existsb_exists. exists v. rewrite M. auto. }
        destruct X as (z & IZ & NZ).
        assert (LD : S (length data) <= length data') by (apply (NoDup_incl_length (l := z :: data)); [constructor; assumption|]; intros v [<-|I]; apply B; auto).
        assert (LA : length data' <= length all) by (apply NoDup_incl_length; [exact A|]; intros v I; apply fin, W; apply B in I; tauto).
        destruct L as [L|[I _]]; [|exfalso; apply NZ, I, IZ].
        apply IH.
        -- intros v [I|I]; [apply D, I|apply B in I; apply W; tauto].
        -- exact A.
        -- left. apply B. tauto.
        -- intros u v IU IV. apply B in IU. destruct IU as [IU|IU]; [|apply (E u v); assumption]. destruct (CH u v IU IV) as [H|H]; left; apply B; auto.
        -- left. lia.
Qed.
End Depdata.
