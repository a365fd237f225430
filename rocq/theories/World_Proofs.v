(** Lemmas about world and universe. *)
From Coq Require Import Ascii String List Bool.
From Verif Require Import Str_Model Str_Proofs Graph_Proofs World_Model World_Spec.
Import ListNotations.
Open Scope list_scope.

Lemma set_same {A} (f : str -> A) k v : set_ f k v k = v.
Proof. unfold set_. now rewrite seqb_refl. Qed.
Lemma set_other {A} (f : str -> A) k v x : x <> k -> set_ f k v x = f x.
Proof. intro N. unfold set_. destruct (seqb x k) eqn:E; [apply seqb_eq in E; contradiction|reflexivity]. Qed.
Lemma add_new_in l x y : In y (add_new l x) <-> In y l \/ y = x.
Proof.
  unfold add_new. destruct (mem_str x l) eqn:M; [apply mem_str_In in M|rewrite in_app_iff; cbn; intuition congruence]. split; [now left|]. intros [H| ->]; assumption.
Qed.
Lemma fold_add_in xs : forall l y, In y (fold_left add_new xs l) <-> In y l \/ In y xs.
Proof. induction xs as [|x xs IH]; intros l y; cbn [fold_left]; [cbn; tauto|]. rewrite IH, add_new_in. cbn. intuition congruence. Qed.
Lemma fold_add_nodup xs : forall l, NoDup l -> NoDup (fold_left add_new xs l).
Proof.
  induction xs as [|x xs IH]; intros l N; cbn [fold_left]; [exact N|]. apply IH. unfold add_new. destruct (mem_str x l) eqn:M; [exact N|]. apply NoDup_app_intro; [exact N|repeat constructor; intros []|]. intros y Y [<-|[]]. apply mem_str_In in Y. congruence.
Qed.
Lemma all_provides_in r n : In n (all_provides r) <-> has_name r n.
Proof. unfold all_provides, has_name. rewrite fold_add_in. cbn. intuition congruence. Qed.
Lemma add_provides r ps : forall t n,
  (forall f, In f (fst (fold_left (add_provide r) ps t) n) <-> In f (fst t n) \/ (In n ps /\ f = r_file r)) /\
  (forall pn, In n (snd (fold_left (add_provide r) ps t) pn) <-> In n (snd t pn) \/ (In n ps /\ pn = r_pn r)).
Proof.
  induction ps as [|p ps IH]; intros t n; cbn [fold_left]; [split; intros; cbn; tauto|]. destruct (IH (add_provide r t p) n) as [A B]. split.
  - intro f. rewrite A. unfold add_provide. cbn [fst]. destruct (seqb n p) eqn:E.
    + apply seqb_eq in E. subst n. rewrite set_same, in_app_iff. cbn. intuition congruence.
    + apply seqb_neq in E. rewrite set_other by exact E. cbn. intuition congruence.
  - intro pn. rewrite B. unfold add_provide. cbn [snd]. destruct (seqb pn (r_pn r)) eqn:E.
    + apply seqb_eq in E. subst pn. rewrite set_same, add_new_in. cbn. intuition congruence.
    + apply seqb_neq in E. rewrite set_other by exact E. cbn. intuition congruence.
Qed.
Definition tables_of (rs : list recipe) (t : tables) : Prop :=
  (forall r, In r rs -> task_deps t (r_file r) = r_tasks r /\ pkg_fn t (r_file r) = r_pn r) /\
  (forall n f, In f (providers t n) <-> exists r, In r rs /\ r_file r = f /\ has_name r n) /\
  (forall n pn, In n (pn_provides t pn) <-> exists r, In r rs /\ r_pn r = pn /\ has_name r n) /\
  possible_world t = map r_file (filter r_in_world rs) /\ universe_target t = map r_pn rs /\ world_target t = [].
Lemma parsed_tables rs : different_files rs -> tables_of rs (parsed rs).
Proof.
  unfold parsed, different_files. induction rs as [|r rs IH] using rev_ind; intro N.
  - split; [intros r []|]. split; [|split; [|auto]]; (intros n f; split; [intros []|intros (r & [] & _)]).
  - rewrite map_app in N. cbn [map] in N. rewrite fold_left_app. cbn [fold_left]. destruct IH as (A & B & C & D & E & F).
    { apply NoDup_remove_1 in N. now rewrite app_nil_r in N. }
    assert (NF : forall x, In x rs -> r_file x <> r_file r). { intros x X Q. apply NoDup_remove_2 in N. rewrite app_nil_r in N. apply N. rewrite <- Q. now apply in_map. }
    set (t := fold_left add_recipe rs empty) in *. unfold add_recipe. unfold tables_of. cbn [task_deps pkg_fn providers pn_provides possible_world universe_target world_target].
    split; [|split; [|split; [|split; [|split; [|exact F]]]]].
    + intros x X. apply in_app_or in X. destruct X as [X|[<-|[]]]; [rewrite !set_other by (apply NF; exact X); now apply A|now rewrite !set_same].
    + intros n f. rewrite (proj1 (add_provides r _ _ n)). cbn [fst]. rewrite B, all_provides_in. split.
      * intros [(x & X & Y)|[H ->]]; [exists x; split; [apply in_or_app; now left|exact Y]|exists r; split; [apply in_or_app; right; now left|auto]].
      * intros (x & X & <- & H). apply in_app_or in X. destruct X as [X|[<-|[]]]; [left; exists x; auto|right; auto].
    + intros n pn. rewrite (proj2 (add_provides r _ _ n)). cbn [snd]. rewrite C, all_provides_in. split.
      * intros [(x & X & Y)|[H ->]]; [exists x; split; [apply in_or_app; now left|exact Y]|exists r; split; [apply in_or_app; right; now left|auto]].
      * intros (x & X & <- & H). apply in_app_or in X. destruct X as [X|[<-|[]]]; [left; exists x; auto|right; auto].
    + rewrite D, filter_app, map_app. cbn [filter]. destruct (r_in_world r); [reflexivity|now rewrite app_nil_r].
    + rewrite E, map_app. reflexivity.
Qed.
Lemma only_iff t pn ps : only_provider t pn ps = true <-> forall n, In n ps -> (forall x, n <> s_ "virtual/" ++ x) /\ (forall f, In f (providers t n) -> pkg_fn t f = pn).
Proof.
  induction ps as [|p ps IH]; cbn [only_provider]; [split; [intros _ n []|reflexivity]|]. destruct (startswith (s_ "virtual/") p) eqn:S.
  - split; [discriminate|]. intro H. apply startswith_iff in S. destruct S as (x & S). destruct (H p (or_introl eq_refl)) as [V _]. exfalso. exact (V x S).
  - rewrite andb_true_iff, forallb_forall, IH. split.
    + intros [A B] n [<-|I]; [|exact (B n I)]. split; [intros x ->; rewrite startswith_app in S; discriminate|]. intros f F. apply seqb_eq. exact (A f F).
    + intro H. split; [intros f F; apply seqb_eq; exact (proj2 (H p (or_introl eq_refl)) f F)|]. intros n I. exact (H n (or_intror I)).
Qed.
Lemma alone_iff rs t pn : tables_of rs t -> (only_provider t pn (pn_provides t pn) = true <-> alone rs pn).
Proof.
  intros (A & B & C & _). rewrite only_iff. unfold alone. split.
  - intros H r n R P Hn. destruct (H n (proj2 (C n pn) (ex_intro _ r (conj R (conj P Hn))))) as [V F]. split; [exact V|]. intros r' R' Hn'.
    rewrite <- (proj2 (A r' R')). apply F. apply B. exists r'. auto.
  - intros H n I. apply C in I. destruct I as (r & R & P & Hn). destruct (H r n R P Hn) as [V F]. split; [exact V|]. intros f I. apply B in I. destruct I as (r' & R' & <- & Hn'). rewrite (proj2 (A r' R')). exact (F r' R' Hn').
Qed.
