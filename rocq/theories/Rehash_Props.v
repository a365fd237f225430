(** C142, C143: new hashes when an equal output is found; the dependencies passed to a task. *)
From Coq Require Import Ascii String List Bool Arith NArith Lia Relations Permutation.
From Verif Require Import Str_Model Str_Proofs Rehash_Model Rehash_Spec Rehash_Proofs.
Import ListNotations.
Open Scope list_scope.

Section C142.
Variables deps revdeps hashed : tid -> list tid.
Variable all : list tid.
Variable make : tid -> list str -> str.
Variables running done : tid -> bool.
Variable agree : tid -> str -> str -> bool.
Variable deferred : list (tid * tid).
Notation run iter fuel q s := (migrate deps revdeps hashed make iter running done agree deferred fuel q s).

(** C142: whatever names are reported, in whatever order sets are gone through: the step
    comes to an end, after it the hash of every task is the one made of the names its
    dependencies have now, and the entry of every task that is not in use has its name; what
    was reported for tasks that are being run waits. *)
Theorem rehash_all_right : forall iter fuel q s, graph deps revdeps hashed all -> any_order iter -> length all < fuel ->
  (forall t, right hashed make s t) -> (forall t, rq_uni s t = name s t) ->
  exists s' changed kept, run iter fuel q s = Some (s', changed, kept) /\
    (forall t, right hashed make s' t) /\ (forall t, done t = false -> rq_uni s' t = name s' t) /\ (forall e, In e kept <-> In e q /\ running (fst e) = true).
Proof.
  intros iter fuel q s G AO L RT AG. pose proof (migrate_spec deps revdeps hashed all G make running done agree deferred iter fuel q s AO L RT) as MS. pose proof (read_queue_spec running deferred q s []) as RQ.
  destruct (read_queue running deferred q s []) as [[s1 top] kept]. destruct MS as (s' & changed & total0 & R & T0 & (_ & _ & U & _ & C2 & C3 & C4 & _)). destruct RQ as (A & B & C & D & E & F & H).
  exists s', changed, kept. split; [exact R|]. split; [intro t; apply C2; intros []|]. split.
  - intros t DN. destruct (in_dec Nat.eq_dec t total0) as [I|I].
    + rewrite (C4 t I (fun X => X)), DN. reflexivity.
    + destruct (C3 t (or_intror I)) as (X & _ & Y). rewrite Y. unfold name. rewrite X, U by (right; exact I). apply F, AG.
  - intro e. rewrite C, filter_In. tauto.
Qed.
(** C142: tasks for which nothing was reported and that depend on none of those are left alone. *)
Theorem rehash_others : forall iter fuel q s s' changed kept t, graph deps revdeps hashed all -> any_order iter -> length all < fuel -> (forall t, right hashed make s t) ->
  run iter fuel q s = Some (s', changed, kept) ->
  ~ reported running deferred q t -> (forall p, reported running deferred q p -> ~ depends_on deps t p) ->
  th s' t = th s t /\ name s' t = name s t /\ rq_hash s' t = rq_hash s t /\ rq_uni s' t = rq_uni s t /\ ~ In t changed.
Proof.
  intros iter fuel q s s' changed kept t G AO L RT R0 NR ND. pose proof (migrate_spec deps revdeps hashed all G make running done agree deferred iter fuel q s AO L RT) as MS. pose proof (read_queue_spec running deferred q s []) as RQ.
  destruct (read_queue running deferred q s []) as [[s1 top] kept']. destruct MS as (s2 & c2 & total0 & R & T0 & (_ & _ & U & _ & _ & C3 & _ & C5 & _)). destruct RQ as (A & B & _ & _ & E & _ & H). rewrite R0 in R. inversion R; subst s2 c2 kept'.
  assert (NT : ~ In t total0) by (intro I; apply T0 in I; destruct I as (p & IP & DP); destruct (H p IP) as [[]|RP]; exact (ND p RP DP)).
  assert (NP : ~ In t top) by (intro I; destruct (H t I) as [[]|RP]; exact (NR RP)).
  destruct (C3 t (or_intror NT)) as (X & Y & Z). destruct (E t NP) as [E1 E2].
  split; [rewrite X, A; reflexivity|]. split; [unfold name; rewrite X, (U t (or_intror NT)), E2, A; reflexivity|]. split; [rewrite Y, B; reflexivity|]. split; [rewrite Z; exact E1|]. rewrite C5. congruence.
Qed.
(** C142: the tasks that are told to the workers are those whose entries got other names. *)
Theorem rehash_changed : forall iter fuel q s s' changed kept t, graph deps revdeps hashed all -> any_order iter -> length all < fuel -> (forall t, right hashed make s t) ->
  run iter fuel q s = Some (s', changed, kept) -> ~ reported running deferred q t ->
  (In t changed <-> rq_uni s' t <> rq_uni s t) /\ (In t changed -> done t = false /\ rq_hash s' t = th s' t /\ exists p, reported running deferred q p /\ depends_on deps t p).
Proof.
  intros iter fuel q s s' changed kept t G AO L RT R0 NR. pose proof (migrate_spec deps revdeps hashed all G make running done agree deferred iter fuel q s AO L RT) as MS. pose proof (read_queue_spec running deferred q s []) as RQ.
  destruct (read_queue running deferred q s []) as [[s1 top] kept']. destruct MS as (s2 & c2 & total0 & R & T0 & (_ & _ & U & _ & _ & C3 & C4 & C5 & C6 & _)). destruct RQ as (A & B & _ & _ & E & _ & H). rewrite R0 in R. inversion R; subst s2 c2 kept'.
  assert (NP : ~ In t top) by (intro I; destruct (H t I) as [[]|RP]; exact (NR RP)). destruct (E t NP) as [E1 _].
  split; [rewrite C5, E1; reflexivity|]. intro I. apply C5 in I. assert (IT : In t total0) by (destruct (in_dec Nat.eq_dec t total0) as [J|J]; [exact J|]; exfalso; apply I, C3; right; exact J).
  split; [destruct (done t) eqn:DN; [|reflexivity]; exfalso; apply I; rewrite (C4 t IT (fun X => X)), DN; reflexivity|]. split; [exact (C6 t I)|]. apply T0 in IT. destruct IT as (p & IP & DP). exists p. split; [destruct (H p IP) as [[]|RP]; exact RP|exact DP].
Qed.
(** C142: a task that has been taken from shared state, or is being taken, keeps its name. *)
Theorem rehash_done_keeps : forall iter fuel q s s' changed kept t, graph deps revdeps hashed all -> any_order iter -> length all < fuel -> (forall t, right hashed make s t) ->
  run iter fuel q s = Some (s', changed, kept) -> ~ reported running deferred q t -> done t = true -> rq_uni s' t = rq_uni s t.
Proof.
  intros iter fuel q s s' changed kept t G AO L RT R0 NR DN. destruct (rehash_changed iter fuel q s s' changed kept t G AO L RT R0 NR) as [X Y]. destruct (str_eq_dec (rq_uni s' t) (rq_uni s t)) as [Q|Q]; [exact Q|]. apply X in Q. destruct (Y Q) as [Z _]. congruence.
Qed.
(** C142: the reported name becomes the name of the task, and of those that wait for it. *)
Theorem rehash_reported : forall iter fuel t u s x, graph deps revdeps hashed all -> any_order iter -> length all < fuel -> (forall t, right hashed make s t) ->
  running t = false -> u <> rq_uni s t -> x = t \/ In (x, t) deferred -> (forall p, p = t \/ In (p, t) deferred -> ~ depends_on deps x p) ->
  exists s' changed, run iter fuel [(t, u)] s = Some (s', changed, []) /\ name s' x = u /\ rq_uni s' x = u /\ th s' x = th s x.
Proof.
  intros iter fuel t u s x G AO L RT RN NE X ND. pose proof (migrate_spec deps revdeps hashed all G make running done agree deferred iter fuel [(t, u)] s AO L RT) as MS.
  cbn [read_queue] in MS. rewrite RN in MS. apply seqb_neq in NE. rewrite NE in MS.
  set (l := t :: map fst (filter (fun d => Nat.eqb (snd d) t) deferred)) in *. destruct (set_all u l s) as (A & B & C & D). set (s1 := fold_left (set_unihash u) l s) in *.
  assert (IL : forall p, In p l -> p = t \/ In (p, t) deferred).
  { intros p [<-|J]; [left; reflexivity|]. right. apply in_map_iff in J. destruct J as ((a, b) & <- & J). apply filter_In in J. destruct J as [J K]. cbn in K. apply Nat.eqb_eq in K. subst b. exact J. }
  assert (IX : In x l) by (destruct X as [->|X]; [left; reflexivity|]; right; apply in_map_iff; exists (x, t); split; [reflexivity|]; apply filter_In; split; [exact X|apply Nat.eqb_refl]).
  destruct MS as (s' & changed & total0 & R & T0 & (_ & _ & U & _ & _ & C3 & _)). exists s', changed. split; [exact R|].
  assert (NT : ~ In x total0) by (intro I; apply T0 in I; destruct I as (p & IP & DP); apply union_In in IP; destruct IP as [[]|IP]; exact (ND p (IL p IP) DP)).
  destruct (C3 x (or_intror NT)) as (X1 & _ & X2). destruct (D x IX) as [D1 D2]. split; [unfold name; rewrite X1, (U x (or_intror NT)); exact D2|]. split; [rewrite X2; exact D1|]. rewrite X1, A. reflexivity.
Qed.
(** C142: the order sets are gone through makes no difference. *)
Theorem rehash_any_order : forall iter iter' fuel q s s1 s2 c1 c2 k1 k2, graph deps revdeps hashed all -> any_order iter -> any_order iter' -> length all < fuel -> (forall t, right hashed make s t) ->
  run iter fuel q s = Some (s1, c1, k1) -> run iter' fuel q s = Some (s2, c2, k2) ->
  (forall t, th s1 t = th s2 t /\ name s1 t = name s2 t /\ rq_uni s1 t = rq_uni s2 t) /\ (forall t, In t c1 <-> In t c2) /\ k1 = k2.
Proof.
  intros iter iter' fuel q s s1 s2 c1 c2 k1 k2 G AO AO' L RT R1 R2.
  pose proof (migrate_spec deps revdeps hashed all G make running done agree deferred iter fuel q s AO L RT) as M1. pose proof (migrate_spec deps revdeps hashed all G make running done agree deferred iter' fuel q s AO' L RT) as M2.
  destruct (read_queue running deferred q s []) as [[s0 top] kept]. destruct M1 as (a1 & b1 & t1 & E1 & T1 & V1). destruct M2 as (a2 & b2 & t2 & E2 & T2 & V2). rewrite R1 in E1. rewrite R2 in E2. inversion E1; subst a1 b1 k1. inversion E2; subst a2 b2 k2.
  assert (TT : forall t, In t t1 <-> In t t2) by (intro t; rewrite T1, T2; reflexivity).
  destruct V1 as (_ & _ & U1 & _ & A1 & B1 & C1 & D1 & _ & F1). destruct V2 as (_ & _ & U2 & _ & A2 & B2 & C2 & D2 & _ & F2).
  assert (NM : forall t, th s1 t = th s2 t -> name s1 t = name s2 t).
  { intros t E. unfold name. rewrite E. destruct (in_dec Nat.eq_dec t t1) as [I|I].
    - rewrite (F1 t I (fun X => X)), (F2 t (proj1 (TT t) I) (fun X => X)), E. reflexivity.
    - rewrite (U1 t (or_intror I)), (U2 t) by (right; intro X; apply I, TT, X). reflexivity. }
  assert (TH : forall t, th s1 t = th s2 t).
  { set (df := filter (fun t => negb (seqb (th s1 t) (th s2 t))) all).
    assert (DF : df = []).
    { destruct df as [|y df'] eqn:ED; [reflexivity|]. exfalso. destruct (first_ready deps revdeps hashed all G df) as (t & I & RD); [rewrite ED; discriminate|]. unfold df in I. apply filter_In in I. destruct I as [_ N]. apply negb_true_iff, seqb_neq in N. apply N.
      rewrite (A1 t (fun X => X)), (A2 t (fun X => X)). f_equal. apply map_ext_in. intros d ID. apply NM. destruct (str_eq_dec (th s1 d) (th s2 d)) as [Q|Q]; [exact Q|]. exfalso.
      pose proof (proj2 (proj2 (proj2 G)) t d ID) as DD. destruct (in_dec Nat.eq_dec d all) as [J|J].
      - apply (proj1 (disjoint_iff _ _) RD d DD). unfold df. apply filter_In. split; [exact J|]. apply negb_true_iff, seqb_neq, Q.
      - apply Q. assert (HN : hashed d = []) by (destruct (hashed d) as [|z zs] eqn:Z; [reflexivity|]; exfalso; apply J, (proj1 (proj2 G) d z), (proj2 (proj2 (proj2 G))); rewrite Z; left; reflexivity). pose proof (A1 d (fun X => X)) as P1. pose proof (A2 d (fun X => X)) as P2. unfold right in P1, P2. rewrite HN in P1, P2. cbn [map] in P1, P2. congruence. }
    intro t. destruct (str_eq_dec (th s1 t) (th s2 t)) as [Q|Q]; [exact Q|]. exfalso. destruct (in_dec Nat.eq_dec t all) as [J|J].
    - assert (X : In t df) by (unfold df; apply filter_In; split; [exact J|apply negb_true_iff, seqb_neq, Q]). rewrite DF in X. destruct X.
    - apply Q. assert (HN : hashed t = []) by (destruct (hashed t) as [|z zs] eqn:Z; [reflexivity|]; exfalso; apply J, (proj1 (proj2 G) t z), (proj2 (proj2 (proj2 G))); rewrite Z; left; reflexivity). pose proof (A1 t (fun X => X)) as P1. pose proof (A2 t (fun X => X)) as P2. unfold right in P1, P2. rewrite HN in P1, P2. cbn [map] in P1, P2. congruence. }
  assert (RU : forall t, rq_uni s1 t = rq_uni s2 t).
  { intro t. destruct (in_dec Nat.eq_dec t t1) as [I|I].
    - rewrite (C1 t I (fun X => X)), (C2 t (proj1 (TT t) I) (fun X => X)), (NM t (TH t)). reflexivity.
    - destruct (B1 t (or_intror I)) as (_ & _ & X). destruct (B2 t) as (_ & _ & Y); [right; intro Z; apply I, TT, Z|]. congruence. }
  split; [intro t; split; [apply TH|]; split; [apply NM, TH|apply RU]|]. split; [|reflexivity]. intro t. rewrite D1, D2, RU. reflexivity.
Qed.
End C142.

(** An example: 0 is at the bottom; 1 and 2 depend on it, 3 on both.  Hashes are made of the
    number of the task and of the names. *)
Definition ex_deps (t : tid) : list tid := match t with 1 => [0] | 2 => [0] | 3 => [1; 2] | _ => [] end.
Definition ex_revdeps (t : tid) : list tid := match t with 0 => [1; 2] | 1 => [3] | 2 => [3] | _ => [] end.
Definition ex_make (t : tid) (l : list str) : str := s_ "t" ++ dec (N.of_nat t) ++ concat l.
(** The name of every hash is the hash itself, but the server knows one hash of task 1 by
    its old name. *)
Definition ex_h0 : str := s_ "t0".
Definition ex_h1 : str := ex_make 1 [ex_h0].
Definition ex_h2 : str := ex_make 2 [ex_h0].
Definition ex_h3 : str := ex_make 3 [ex_h1; ex_h2].
Definition ex_th (t : tid) : str := match t with 0 => ex_h0 | 1 => ex_h1 | 2 => ex_h2 | 3 => ex_h3 | _ => ex_make t [] end.
Definition ex_uni (t : tid) (h : str) : str := if Nat.eqb t 1 && seqb h (ex_make 1 [s_ "new"]) then ex_h1 else h.
Definition ex_s : st := mkSt ex_th ex_uni ex_th ex_th.
Definition no (_ : tid) : bool := false.
Definition yes3 (_ : tid) (_ _ : str) : bool := true.
Definition ex_iter (_ : nat) (l : list tid) : list tid := rev l.
Example ex_graph : graph ex_deps ex_revdeps ex_deps [1; 2; 3].
Proof.
  assert (B : forall a b, depends_on ex_deps a b -> b < a) by (intros a b D; induction D as [a b D|a b c D1 I1 D2 I2]; [destruct a as [|[|[|[|a]]]]; cbn in D; lia|lia]).
  split; [|split; [|split]].
  - intros a b. destruct a as [|[|[|[|a]]]]; destruct b as [|[|[|[|b]]]]; cbn; lia.
  - intros a b I. destruct a as [|[|[|[|a]]]]; cbn in I; cbn; lia.
  - intros t D. apply B in D. lia.
  - auto.
Qed.
Example ex_order : any_order ex_iter.
Proof. intros n l. unfold ex_iter. symmetry. apply Permutation_rev. Qed.
Example ex_right : forall t, right ex_deps ex_make ex_s t.
Proof. intros [|[|[|[|t]]]]; reflexivity. Qed.
Example ex_agrees : forall t, rq_uni ex_s t = name ex_s t.
Proof. intros [|[|[|[|t]]]]; reflexivity. Qed.
(** 0 gets the name new: the hash of 1 is another one, but its name stays; 2 and 3 get new
    names; 2 has been taken from shared state in the second case, and keeps its own. *)
Definition ex_run (done : tid -> bool) := migrate ex_deps ex_revdeps ex_deps ex_make ex_iter no done yes3 [] 4 [(0, s_ "new")] ex_s.
Definition ex_names (r : option (st * list tid * list (tid * str))) : option (list str * list str * list tid) :=
  match r with Some (s, c, _) => Some (map (name s) [0; 1; 2; 3], map (rq_uni s) [0; 1; 2; 3], c) | None => None end.
Example ex_result : ex_names (ex_run no) =
  Some ([s_ "new"; ex_h1; s_ "t2new"; s_ "t3" ++ ex_h1 ++ s_ "t2new"], [s_ "new"; ex_h1; s_ "t2new"; s_ "t3" ++ ex_h1 ++ s_ "t2new"], [2; 3]).
Proof. vm_compute. reflexivity. Qed.
Example ex_result_done : ex_names (ex_run (Nat.eqb 2)) = Some ([s_ "new"; ex_h1; ex_h2; ex_h3], [s_ "new"; ex_h1; ex_h2; ex_h3], []).
Proof. vm_compute. reflexivity. Qed.
Example ex_reported_others : reported no [] [(0, s_ "new")] 0 /\ (forall t, t <> 0 -> ~ reported no [] [(0, s_ "new")] t) /\ s_ "new" <> rq_uni ex_s 0.
Proof. split; [exists 0, (s_ "new"); cbn; auto|]. split; [intros t N (p & u & [E|[]] & _ & [->|[]]); inversion E; subst; congruence|]. vm_compute. discriminate. Qed.
Definition ex_stale (r : option (st * list tid * list (tid * str))) : option (bool * bool) :=
  match r with Some (s, _, _) => Some (seqb (rq_hash s 1) (th s 1), seqb (rq_hash s 2) (th s 2)) | None => None end.
(** C142, refuted: the entry of a task does not always have its hash: when the name of the
    new hash is the name the task had, the entry keeps the old hash. *)
Theorem rehash_entry_refuted : exists s' changed, ex_run no = Some (s', changed, []) /\ rq_hash ex_s 1 = th ex_s 1 /\ rq_hash s' 1 <> th s' 1.
Proof.
  assert (E : ex_stale (ex_run no) = Some (false, true)) by (vm_compute; reflexivity).
  destruct (rehash_all_right ex_deps ex_revdeps ex_deps [1; 2; 3] ex_make no no yes3 [] ex_iter 4 [(0, s_ "new")] ex_s ex_graph ex_order) as (s' & c & k & R & _ & _ & K); [cbn; lia|exact ex_right|exact ex_agrees|].
  fold (ex_run no) in R. exists s', c. assert (KN : k = []) by (destruct k as [|e k]; [reflexivity|]; exfalso; destruct (proj1 (K e) (or_introl eq_refl)) as [_ X]; discriminate). subst k. split; [exact R|]. split; [reflexivity|]. rewrite R in E. unfold ex_stale in E. inversion E as [[E1 E2]]. apply seqb_neq, E1.
Qed.

(** C143: a task is told about itself and about every task of its own configuration it needs,
    over any number of tasks of that configuration, and about no other: for any
    dependencies, loops included. *)
Theorem depdata_exact : forall depends mc t all fuel, (forall v, within depends mc t v -> In v all) -> 2 + length all <= fuel ->
  exists l, build_taskdepdata depends mc fuel t = Some l /\ forall v, In v l <-> within depends mc t v.
Proof.
  intros depends mc t all fuel F L. unfold build_taskdepdata. assert (I0 : forall v, In v (filtermcdeps mc (mc t) (add t (depends t))) <-> (v = t \/ In v (depends t)) /\ mc v = mc t) by (intro v; unfold filtermcdeps; rewrite filter_In, add_In, Nat.eqb_eq; tauto).
  apply (levels_spec depends mc t all F).
  - intros v [I|[]]. apply I0 in I. destruct I as [[->|I] M]; [apply within_self|]. apply within_dep with t; [apply within_self|exact I|exact M].
  - constructor.
  - right. apply I0. auto.
  - intros u v [].
  - left. cbn [length]. lia.
Qed.
Definition ex_depends (t : tid) : list tid := match t with 0 => [1; 2] | 1 => [3; 0] | 2 => [4] | 3 => [5] | _ => [] end.
Definition ex_mc (t : tid) : nat := match t with 2 => 1 | _ => 0 end.
Example ex_depdata : build_taskdepdata ex_depends ex_mc 8 0 = Some [1; 0; 3; 5].
Proof. reflexivity. Qed.
Example ex_depdata_finite : forall v, within ex_depends ex_mc 0 v -> In v [0; 1; 2; 3; 4; 5].
Proof. intros v W. induction W as [|u v W I D M]; [cbn; auto|]. destruct u as [|[|[|[|u]]]]; cbn in D; cbn; intuition. Qed.

Print Assumptions rehash_all_right.
Print Assumptions rehash_others.
Print Assumptions rehash_changed.
Print Assumptions rehash_done_keeps.
Print Assumptions rehash_reported.
Print Assumptions rehash_any_order.
Print Assumptions rehash_entry_refuted.
Print Assumptions depdata_exact.
