(** Lemmas about events. *)
From Coq Require Import Ascii String List Bool Arith Lia Permutation.
From Verif Require Import Str_Model Str_Proofs Events_Model Events_Spec.
Import ListNotations.
Open Scope list_scope.

Lemma known_iff : forall n hs, known n hs = true <-> In n (map fst hs).
Proof. intros n hs. unfold known. rewrite existsb_exists, in_map_iff. split; [intros (h & I & E)|intros (h & E & I)]; exists h; [apply seqb_eq in E|rewrite <- E, seqb_refl]; auto. Qed.
Lemma known_mem : forall n hs, known n hs = mem_str n (map fst hs).
Proof. intros. apply eq_iff_eq_true. rewrite known_iff, mem_str_In. reflexivity. Qed.
Lemma add_In : forall x y l, In x (add y l) <-> x = y \/ In x l.
Proof.
  intros x y l. unfold add. destruct (mem_str y l) eqn:M; [apply mem_str_In in M; split; [auto|intros [->|I]; auto]|]. rewrite in_app_iff. cbn. intuition.
Qed.
Lemma mem_add : forall x y l, mem_str x (add y l) = seqb x y || mem_str x l.
Proof. intros. apply eq_iff_eq_true. rewrite orb_true_iff, !mem_str_In, add_In, seqb_eq. reflexivity. Qed.
Lemma in_map_In : forall m n l, in_map m n l = true <-> In (m, n) l.
Proof.
  intros m n l. unfold in_map. rewrite existsb_exists. split; [intros ([a b] & I & E)|intros I; exists (m, n); split; [exact I|cbn; now rewrite !seqb_refl]].
  apply andb_true_iff in E. destruct E as [E1 E2]. apply seqb_eq in E1, E2. cbn in *. subst. exact I.
Qed.
Lemma add_map_In : forall m n x l, In x (add_map n m l) <-> x = (m, n) \/ In x l.
Proof.
  intros m n x l. unfold add_map. destruct (in_map m n l) eqn:M; [apply in_map_In in M; split; [auto|intros [->|I]; auto]|]. rewrite in_app_iff. cbn. intuition.
Qed.
Lemma fold_add_In : forall n mask x l, In x (fold_left (fun l m => add_map n m l) mask l) <-> (snd x = n /\ In (fst x) mask) \/ In x l.
Proof.
  intros n mask. induction mask as [|m mask IH]; intros x l; cbn [fold_left]; [cbn; tauto|]. rewrite IH, add_map_In. destruct x as [a b]. cbn [fst snd In].
  split; [intros [[-> I]|[E|I]]; [left; auto|injection E as -> ->; left; auto|right; auto]|intros [[-> [<-|I]]|I]; [right; left; reflexivity|left; auto|right; right; auto]].
Qed.

(** ** The table *)
Definition any (mask : list str) : bool := match mask with [] => true | _ => mem_str (s_ "*") mask end.
Lemma meant_any : forall mask e, meant mask e = any mask || mem_str e mask.
Proof. intros [|m mask] e; [reflexivity|reflexivity]. Qed.
(** the maps contain nothing that does not belong to the masks *)
Definition clean (masks : str -> list str) (t : table) : Prop :=
  (forall n, In n (t_catchall t) -> any (masks n) = true) /\ (forall m n, In (m, n) (t_map t) -> In m (masks n)).
(** and all that belongs to the handlers *)
Definition full (masks : str -> list str) (t : table) : Prop :=
  forall n, In n (map fst (t_handlers t)) -> if any (masks n) then In n (t_catchall t) else forall m, In m (masks n) -> In (m, n) (t_map t).
Lemma table_meant : forall masks t n e, clean masks t -> full masks t -> In n (map fst (t_handlers t)) ->
  mem_str n (t_catchall t) || in_map e n (t_map t) = meant (masks n) e.
Proof.
  intros masks t n e (C1 & C2) F I. rewrite meant_any. apply eq_iff_eq_true. rewrite !orb_true_iff, !mem_str_In, in_map_In. specialize (F n I). split.
  - intros [H|H]; [left; auto|right; eauto].
  - destruct (any (masks n)); [auto|]. intros [H|H]; [discriminate H|right; auto].
Qed.

Definition tail_names (t : table) : list str := map fst (t_handlers t).
Lemma register_step : forall masks mc h t seen t' seen', clean masks t -> full masks t -> h_code h <> None -> h_mask h = masks (full_name mc h) ->
  register mc (h_name h) (h_code h) (h_mask h) t seen = (t', seen') ->
  clean masks t' /\ full masks t' /\ (forall x, mem_str x seen' = seqb x (full_name mc h) || mem_str x seen) /\
  t_handlers t' = t_handlers t ++ firsts (map fst (t_handlers t)) [(full_name mc h, match h_code h with Some c => c | None => 0 end)] /\
  incl (t_catchall t) (t_catchall t') /\ incl (t_map t) (t_map t').
Proof.
  intros masks mc h t seen t' seen' C F NC HM R. unfold register in R. fold (full_name mc h) in R. set (n := full_name mc h) in *. cbn [firsts].
  rewrite <- known_mem. destruct (known n (t_handlers t)) eqn:K.
  - injection R as <- <-. rewrite app_nil_r. repeat split; try apply C; try exact F; try (intro x; apply mem_add); try (intros y Y; exact Y).
  - destruct (h_code h) as [c|]; [|congruence]. rewrite HM in R. fold (any (masks n)) in R. destruct C as (C1 & C2).
    assert (K' : ~ In n (map fst (t_handlers t))) by (rewrite <- known_iff, K; discriminate).
    destruct (any (masks n)) eqn:A; injection R as <- <-; cbn [t_handlers t_catchall t_map].
    + split; [|split; [|split; [|split; [reflexivity|split]]]].
      * split; [|exact C2]. intros x X. cbn [t_catchall] in X. apply add_In in X. destruct X as [->|X]; auto.
      * intros x X. cbn [t_handlers] in X. rewrite map_app, in_app_iff in X. cbn [t_catchall t_map]. destruct X as [X|[<-|[]]].
        -- specialize (F x X). destruct (any (masks x)); [apply add_In; auto|exact F].
        -- cbn [fst]. rewrite A. apply add_In. auto.
      * intro x. apply mem_add.
      * intros x X. apply add_In. auto.
      * intros x X. exact X.
    + split; [|split; [|split; [|split; [reflexivity|split]]]].
      * split; [exact C1|]. intros m x X. cbn [t_map] in X. apply fold_add_In in X. cbn in X. destruct X as [[-> X]|X]; auto.
      * intros x X. cbn [t_handlers] in X. rewrite map_app, in_app_iff in X. cbn [t_catchall t_map]. destruct X as [X|[<-|[]]].
        -- specialize (F x X). destruct (any (masks x)); [exact F|]. intros m M. apply fold_add_In. auto.
        -- cbn [fst]. rewrite A. intros m M. apply fold_add_In. left. auto.
      * intro x. apply mem_add.
      * intros x X. exact X.
      * intros x X. apply fold_add_In. auto.
Qed.
Lemma firsts_ext : forall l a b, (forall x, mem_str x a = mem_str x b) -> firsts a l = firsts b l.
Proof.
  induction l as [|[n c] l IH]; intros a b E; [reflexivity|]. cbn. rewrite (E n). destruct (mem_str n b); [apply IH, E|]. f_equal. apply IH. intro x. apply eq_iff_eq_true. specialize (E x). apply eq_iff_eq_true in E. rewrite !mem_str_In in *. cbn. tauto.
Qed.
Lemma firsts_app : forall x y b, firsts b (x ++ y) = firsts b x ++ firsts (rev (map fst x) ++ b) y.
Proof.
  induction x as [|[n c] x IH]; intros y b; [reflexivity|]. cbn [app firsts map fst rev]. destruct (mem_str n b) eqn:M.
  - rewrite IH. f_equal. apply firsts_ext. intro z. rewrite <- app_assoc. apply eq_iff_eq_true. rewrite !mem_str_In, !in_app_iff. apply mem_str_In in M. cbn. split; [tauto|]. intros [H|[[<-|[]]|H]]; auto.
  - cbn [app]. f_equal. rewrite IH. f_equal. apply firsts_ext. intro z. rewrite <- app_assoc. reflexivity.
Qed.
Lemma register_all_spec : forall masks mc hs t seen t' seen', clean masks t -> full masks t -> agree masks mc hs -> register_all mc hs t seen = (t', seen') ->
  clean masks t' /\ full masks t' /\ (forall x, mem_str x seen' = mem_str x seen || existsb (fun g => seqb x (full_name mc g)) hs) /\
  t_handlers t' = t_handlers t ++ firsts (map fst (t_handlers t)) (named mc hs).
Proof.
  intros masks mc. induction hs as [|h hs IH]; intros t seen t' seen' C F A R.
  - injection R as <- <-. rewrite app_nil_r. cbn. repeat split; try apply C; auto. intro x. rewrite orb_false_r. reflexivity.
  - cbn [register_all] in R. destruct (register mc (h_name h) (h_code h) (h_mask h) t seen) as [t1 s1] eqn:R1.
    destruct (A h (or_introl eq_refl)) as [A1 A2]. destruct (register_step _ _ _ _ _ _ _ C F A1 A2 R1) as (C1 & F1 & S1 & H1 & _ & _).
    destruct (IH t1 s1 t' seen' C1 F1 ltac:(intros g G; apply A; right; exact G) R) as (C2 & F2 & S2 & H2).
    split; [exact C2|]. split; [exact F2|]. split.
    + intro x. rewrite S2, S1. cbn [existsb]. rewrite (orb_comm (seqb x _)), orb_assoc. reflexivity.
    + rewrite H2, H1, <- app_assoc. f_equal. change (named mc (h :: hs)) with ([(full_name mc h, match h_code h with Some c => c | None => 0 end)] ++ named mc hs).
      rewrite (firsts_app [_]). f_equal. apply firsts_ext. intro z. cbn [map fst rev app]. rewrite map_app. apply eq_iff_eq_true. rewrite !mem_str_In, in_app_iff. cbn [In firsts].
      destruct (mem_str (full_name mc h) (map fst (t_handlers t))) eqn:M; cbn; [apply mem_str_In in M; split; [intros [H|[]]; auto|intros [<-|H]; auto]|tauto].
Qed.
Lemma called_spec : forall masks t seen e, clean masks t -> full masks t ->
  called t seen e = filter (fun h => meant (masks (fst h)) e && mem_str (fst h) seen) (t_handlers t).
Proof.
  intros masks t seen e C F. unfold called. apply filter_ext_in. intros h I. rewrite (table_meant masks) by first [exact C | exact F | exact (List.in_map fst _ _ I)]. reflexivity.
Qed.
Lemma clean_restore : forall masks t' hs, clean masks t' -> clean masks (mkTable hs (t_catchall t') (t_map t')).
Proof. intros masks t' hs C. exact C. Qed.
Lemma full_restore : forall masks t' hs, full masks t' -> incl (map fst hs) (map fst (t_handlers t')) -> full masks (mkTable hs (t_catchall t') (t_map t')).
Proof. intros masks t' hs F I n N. apply F, I, N. Qed.
Lemma finalize_spec : forall masks r t cs t', clean masks t -> full masks t -> NoDup (map fst (t_handlers t)) -> agree masks (r_mc r) (r_handlers r) ->
  finalize (r_mc r) (r_handlers r) (r_seen r) (r_events r) t = (cs, t') ->
  cs = map (expected masks (t_handlers t) r) (r_events r) /\ clean masks t' /\ full masks t' /\ t_handlers t' = t_handlers t.
Proof.
  intros masks r t cs t' C F ND A Z. unfold finalize in Z. destruct (register_all (r_mc r) (r_handlers r) t (r_seen r)) as [t1 s1] eqn:R. injection Z as <- <-.
  destruct (register_all_spec _ _ _ _ _ _ _ C F A R) as (C1 & F1 & S1 & H1). split; [|split; [exact C1|split; [|reflexivity]]].
  - apply map_ext. intro e. rewrite (called_spec masks) by auto. unfold expected. rewrite H1, firsts_app.
    assert (FI : forall l b, NoDup (map fst l) -> (forall x, In x (map fst l) -> ~ In x b) -> firsts b l = l).
    { induction l as [|[n c] l IH]; intros b N D; [reflexivity|]. cbn. assert (M : mem_str n b = false) by (apply mem_str_false; apply D; left; reflexivity). rewrite M. f_equal. inversion N; subst. apply IH; auto. intros x X [<-|Y]; [contradiction|]. eapply D; [right; exact X|exact Y]. }
    rewrite (FI (t_handlers t) []) by (auto; intros x _ []).
    rewrite (firsts_ext (named (r_mc r) (r_handlers r)) (map fst (t_handlers t)) (rev (map fst (t_handlers t)) ++ [])).
    + apply filter_ext. intro h. rewrite S1. reflexivity.
    + intro x. apply eq_iff_eq_true. rewrite app_nil_r, !mem_str_In, <- in_rev. reflexivity.
  - apply full_restore; auto. rewrite H1, map_app. intros x X. apply in_or_app. auto.
Qed.

(** ** User interfaces *)
Section Ui.
  Variable E : Type.
  Variable fails : nat -> E -> bool.
  Notation step := (@step E fails). Notation run := (@run E fails). Notation fire_ui := (@fire_ui E fails).
  Definition ids_ok (u : ui E) : Prop := (forall x, In x (u_handlers u) -> fst x <= u_seq u) /\ NoDup (map fst (u_handlers u)) /\ forall p, In p (u_sent u) -> fst p <= u_seq u.
  Lemma nodup_filter : forall (A B : Type) (f : A -> B) (p : A -> bool) l, NoDup (map f l) -> NoDup (map f (filter p l)).
  Proof.
    intros A B f p l. induction l as [|x l IH]; intro N; [exact N|]. inversion N as [|? ? N1 N2]; subst. cbn. destruct (p x); [|apply IH, N2]. cbn. constructor; [|apply IH, N2].
    intro I. apply N1. apply in_map_iff in I. destruct I as (y & <- & Y). apply filter_In in Y. apply List.in_map, Y.
  Qed.
  Lemma fire_ids : forall u e, ids_ok u -> ids_ok (fire_ui u e).
  Proof.
    intros u e (I1 & I2 & I3). unfold Events_Model.fire_ui. destruct (u_ready u); [|repeat split; auto]. repeat split; cbn [u_handlers u_seq u_sent].
    - intros x X. apply filter_In in X. apply I1, X.
    - apply nodup_filter, I2.
    - intros p P. apply in_app_or in P. destruct P as [P|P]; [auto|]. apply in_map_iff in P. destruct P as (x & <- & X). apply filter_In in X. destruct X as [X _]. apply filter_In in X. apply (I1 x), X.
  Qed.
  Lemma fold_fire_ids : forall q u, ids_ok u -> ids_ok (fold_left fire_ui q u).
  Proof. induction q as [|e q IH]; intros u I; [exact I|]. apply IH, fire_ids, I. Qed.
  Lemma step_ids : forall u o, ids_ok u -> ids_ok (step u o).
  Proof.
    intros u o I. destruct o as [e|e|m f|h m]; cbn [Events_Model.step].
    - apply fire_ids. destruct (u_ready u && _); [|exact I]. exact (fold_fire_ids _ _ I).
    - apply fire_ids, I.
    - destruct I as (I1 & I2 & I3). repeat split; cbn.
      + intros x X. apply in_app_or in X. destruct X as [X|[<-|[]]]; [specialize (I1 x X); lia|cbn; lia].
      + rewrite map_app. cbn. apply (Permutation_NoDup (l := S (u_seq u) :: map fst (u_handlers u))); [apply Permutation_cons_append|]. constructor; [|exact I2].
        intro X. apply in_map_iff in X. destruct X as (x & E1 & X). specialize (I1 x X). lia.
      + intros p P. specialize (I3 p P). lia.
    - destruct I as (I1 & I2 & I3). repeat split; cbn; auto; [|apply nodup_filter, I2]. intros x X. apply filter_In in X. apply I1, X.
  Qed.
  Lemma run_ids : forall os u, ids_ok u -> ids_ok (run u os).
  Proof. induction os as [|o os IH]; intros u I; [exact I|]. apply IH, step_ids, I. Qed.
  Lemma ids0 : ids_ok ui0.
  Proof. repeat split; cbn; try contradiction. constructor. Qed.

  (** the interface [h] with the filter [f] is there *)
  Definition there (h : nat) (f : E -> bool) (u : ui E) : Prop := In (h, f) (u_handlers u) /\ u_ready u = true.
  Lemma filter_one : forall (h : nat) (f : E -> bool) (e : E) l, NoDup (map fst l) -> In (h, f) l ->
    filter (fun p : nat * E => Nat.eqb h (fst p)) (map (fun x => (fst x, e)) (filter (fun x => negb (fails (fst x) e)) (filter (fun x : nat * (E -> bool) => snd x e) l))) =
    if f e && negb (fails h e) then [(h, e)] else [].
  Proof.
    intros h f e. induction l as [|[k g] l IH]; intros ND I; [contradiction|]. inversion ND as [|? ? N1 N2]; subst. cbn [fst snd map filter] in *.
    assert (none : ~ In h (map fst l) -> filter (fun p : nat * E => Nat.eqb h (fst p)) (map (fun x => (fst x, e)) (filter (fun x => negb (fails (fst x) e)) (filter (fun x : nat * (E -> bool) => snd x e) l))) = []).
    { intro N. clear - N. induction l as [|[k g] l IH]; [reflexivity|]. cbn [map fst] in N. cbn [filter snd fst]. assert (N' : ~ In h (map fst l)) by (intro X; apply N; right; exact X). destruct (g e); [|auto]. cbn [filter fst]. destruct (negb (fails k e)); [|auto]. cbn [map filter fst].
      destruct (Nat.eqb_spec h k) as [->|_]; [exfalso; apply N; left; reflexivity|auto]. }
    destruct I as [I|I].
    - injection I as -> ->. specialize (none N1). destruct (f e); cbn [andb]; [|exact none]. cbn [filter fst]. destruct (negb (fails h e)); [|exact none]. cbn [map filter fst]. rewrite Nat.eqb_refl, none. reflexivity.
    - assert (NK : h <> k) by (intros ->; apply N1; apply in_map_iff; exists (k, f); auto). specialize (IH N2 I). destruct (g e); [|exact IH]. cbn [filter fst]. destruct (negb (fails k e)); [|exact IH]. cbn [map filter fst].
      destruct (Nat.eqb_spec h k); [contradiction|exact IH].
  Qed.
  Lemma fire_there : forall h f u e, (forall e, fails h e = false) -> ids_ok u -> there h f u ->
    there h f (fire_ui u e) /\ sent_to h (fire_ui u e) = sent_to h u ++ (if f e then [e] else []) /\ u_queue (fire_ui u e) = u_queue u.
  Proof.
    intros h f u e NF (I1 & I2 & I3) (T1 & T2). unfold Events_Model.fire_ui. rewrite T2. split; [|split; [|reflexivity]].
    - split; [|reflexivity]. cbn [u_handlers]. apply filter_In. split; [exact T1|]. cbn [fst snd]. rewrite NF, andb_false_r. reflexivity.
    - unfold sent_to. cbn [u_sent]. rewrite filter_app, map_app. f_equal. rewrite (filter_one h f e _ I2 T1), NF, andb_true_r. destruct (f e); reflexivity.
  Qed.
  Lemma fold_there : forall h f, (forall e, fails h e = false) -> forall q u, ids_ok u -> there h f u ->
    there h f (fold_left fire_ui q u) /\ sent_to h (fold_left fire_ui q u) = sent_to h u ++ filter f q.
  Proof.
    intros h f NF. induction q as [|e q IH]; intros u I T; [cbn; rewrite app_nil_r; auto|]. cbn [fold_left]. destruct (fire_there h f u e NF I T) as (T1 & S1 & _).
    destruct (IH _ (fire_ids _ _ I) T1) as (T2 & S2). split; [exact T2|]. rewrite S2, S1, <- app_assoc. f_equal. cbn. destruct (f e); reflexivity.
  Qed.
  (** what arrives while [q] is waiting *)
  Fixpoint arrives (q : list E) (os : list (op E)) : list E :=
    match os with
    | [] => []
    | Fire e :: r => q ++ e :: arrives [] r
    | FireWorker e :: r => e :: arrives q r
    | _ :: r => arrives q r
    end.
  Fixpoint remains (q : list E) (os : list (op E)) : list E :=
    match os with
    | [] => q
    | Fire e :: r => remains [] r
    | _ :: r => remains q r
    end.
  Lemma run_there : forall h f, (forall e, fails h e = false) -> forall os u, stays h os -> ids_ok u -> there h f u ->
    sent_to h (run u os) = sent_to h u ++ filter f (arrives (u_queue u) os) /\ u_queue (run u os) = remains (u_queue u) os.
  Proof.
    intros h f NF. induction os as [|o os IH]; intros u ST I T; [cbn; rewrite app_nil_r; auto|].
    assert (ST' : stays h os) by (intros g m X; apply ST; right; exact X).
    cbn [Events_Model.run fold_left]. fold (run (step u o) os).
    destruct o as [e|e|m g|k m]; cbn [arrives remains].
    - cbn [Events_Model.step]. set (u1 := if u_ready u && match u_queue u with [] => false | _ => true end then clear_queue (fold_left fire_ui (u_queue u) u) else u).
      assert (U1 : ids_ok u1 /\ there h f u1 /\ sent_to h u1 = sent_to h u ++ filter f (u_queue u) /\ u_queue u1 = []).
      { unfold u1. rewrite (proj2 T). cbn [andb]. destruct (u_queue u) as [|x q] eqn:Q; [cbn [filter]; rewrite app_nil_r; auto|]. rewrite <- Q.
        destruct (fold_there h f NF (u_queue u) u I T) as (T1 & S1). split; [exact (fold_fire_ids _ _ I)|]. split; [exact T1|]. split; [exact S1|reflexivity]. }
      destruct U1 as (I1 & T1 & S1 & Q1). destruct (fire_there h f u1 e NF I1 T1) as (T2 & S2 & Q2).
      destruct (IH (fire_ui u1 e) ST' (fire_ids _ _ I1) T2) as (A & B). rewrite A, B, S2, Q2, Q1, S1. split; [|reflexivity].
      rewrite filter_app. cbn [filter]. rewrite <- !app_assoc. f_equal. f_equal. destruct (f e); reflexivity.
    - destruct (fire_there h f u e NF I T) as (T2 & S2 & Q2). cbn [Events_Model.step]. destruct (IH (fire_ui u e) ST' (fire_ids _ _ I) T2) as (A & B). rewrite A, B, S2, Q2. split; [|reflexivity]. rewrite <- app_assoc. f_equal. cbn. destruct (f e); reflexivity.
    - destruct (IH (step u (Connect m g)) ST') as (A & B); [apply step_ids, I| |].
      { split; cbn; [apply in_or_app; left; apply T|]. rewrite (proj2 T). apply orb_true_r. }
      rewrite A, B. split; reflexivity.
    - destruct (ST k m (or_introl eq_refl)) as [NK ->]. destruct (IH (step u (Disconnect k false)) ST') as (A & B); [apply step_ids, I| |].
      { split; cbn; [|apply T]. apply filter_In. split; [apply T|]. cbn. destruct (Nat.eqb_spec k h); [contradiction|reflexivity]. }
      rewrite A, B. split; reflexivity.
  Qed.
  Lemma arrives_nil : forall os, arrives [] os = fired os.
  Proof. induction os as [|[e|e|m f|h m] os IH]; cbn; auto; rewrite IH; reflexivity. Qed.
  Lemma arrives_first : forall os q, server_first os -> arrives q os = q ++ fired os.
  Proof.
    intros os q (a & e & b & -> & N). revert N. induction a as [|[x|x|m f|h m] a IH]; cbn; intro N; try discriminate N; auto. rewrite arrives_nil. reflexivity.
  Qed.
  Lemma arrives_perm : forall os q, Permutation (arrives q os ++ remains q os) (q ++ fired os).
  Proof.
    induction os as [|[e|e|m f|h m] os IH]; intro q; cbn [arrives remains fired]; auto.
    - rewrite app_nil_r. reflexivity.
    - rewrite <- app_assoc. cbn [app]. apply Permutation_app_head. constructor. apply (IH []).
    - cbn [app]. rewrite <- Permutation_middle. constructor. apply IH.
  Qed.
  Lemma waiting_queue : forall os u, u_ready u = false -> waiting os -> u_ready (run u os) = false /\ u_queue (run u os) = u_queue u ++ fired os /\ u_sent (run u os) = u_sent u /\ u_seq (run u os) = u_seq u + connects os.
  Proof.
    induction os as [|o os IH]; intros u R W; [cbn; rewrite app_nil_r; auto|].
    assert (W' : waiting os) by (intros f X; apply (W f); right; exact X). cbn [Events_Model.run fold_left]. fold (run (step u o) os).
    destruct o as [e|e|m f|h m]; cbn [fired connects Events_Model.step].
    - rewrite R. cbn [andb]. unfold Events_Model.fire_ui. rewrite R. destruct (IH (mkUi (u_handlers u) (u_seq u) false (u_queue u ++ [e]) (u_sent u)) eq_refl W') as (A & B & C & D). rewrite A, B, C, D. cbn. rewrite <- app_assoc. auto.
    - unfold Events_Model.fire_ui. rewrite R. destruct (IH (mkUi (u_handlers u) (u_seq u) false (u_queue u ++ [e]) (u_sent u)) eq_refl W') as (A & B & C & D). rewrite A, B, C, D. cbn. rewrite <- app_assoc. auto.
    - destruct m; [exfalso; apply (W f); left; reflexivity|]. destruct (IH (mkUi (u_handlers u ++ [(S (u_seq u), f)]) (S (u_seq u)) (false || u_ready u) (u_queue u) (u_sent u)) R W') as (A & B & C & D). rewrite A, B, C, D. cbn. repeat split; auto.
    - destruct (IH (mkUi (filter (fun x => negb (Nat.eqb h (fst x))) (u_handlers u)) (u_seq u) (negb m && u_ready u) (u_queue u) (u_sent u))) as (A & B & C & D); [cbn; rewrite R; apply andb_false_r|exact W'|]. rewrite A, B, C, D. auto.
  Qed.
  Lemma sent_new : forall u h, ids_ok u -> u_seq u < h -> sent_to h u = [].
  Proof.
    intros u h (_ & _ & I) L. unfold sent_to. assert (X : forall l : list (nat * E), (forall p, In p l -> fst p <= u_seq u) -> filter (fun p => Nat.eqb h (fst p)) l = []).
    { induction l as [|p l IH]; intro H; [reflexivity|]. cbn. destruct (Nat.eqb_spec h (fst p)); [specialize (H p (or_introl eq_refl)); lia|]. apply IH. intros q Q. apply H. right. exact Q. }
    rewrite (X _ I). reflexivity.
  Qed.
End Ui.
