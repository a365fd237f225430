(** Lemmas about the search for references. *)
From Coq Require Import Ascii String List Bool Arith Lia Sorted.
From Verif Require Import Str_Model Str_Proofs Graph_Proofs Refvars_Model Refvars_Spec.
Import ListNotations.
Open Scope list_scope.

Section R.
Variable ord : list str -> list str.
Variable refs : str -> list str.
Variable first : list str.
Hypothesis O : orders ord.
Notation R := (refers first refs).
Notation D := (distance first refs).

Lemma new_spec found sn : NoDup (new_vars ord found sn) /\ forall x, In x (new_vars ord found sn) <-> In x found /\ ~ In x sn.
Proof.
  unfold new_vars. destruct (O (filter (fun v => negb (mem_str v sn)) found)) as [N I]. split; [exact N|]. intro x. rewrite I, filter_In, negb_true_iff. split; intros [A B]; split; auto.
  - intro C. apply mem_str_In in C. congruence.
  - destruct (mem_str x sn) eqn:E; [|reflexivity]. apply mem_str_In in E. contradiction.
Qed.
Lemma refers_dec n : forall v, {R n v} + {~ R n v}.
Proof.
  assert (L : forall n, {l | forall v, R n v <-> In v l}).
  { induction n0 as [|k [l IH]].
    - exists first. intro v. split; [intro H; now inversion H|now constructor].
    - exists (flat_map refs l). intro v. rewrite in_flat_map. split; [intro H; inversion H; subst; exists u; split; [now apply IH|assumption]|]. intros (u & U & I). apply refers_by with u; [now apply IH|exact I]. }
  intro v. destruct (L n) as [l H]. destruct (in_dec str_eq_dec v l) as [I|I]; [left; now apply H|right; rewrite H; exact I].
Qed.
Lemma distance_exists k v : R k v -> exists n, n <= k /\ D v n.
Proof.
  revert k. induction k as [k IH] using lt_wf_ind. intro H.
  assert (Q : (exists j, j < k /\ R j v) \/ forall j, j < k -> ~ R j v).
  { clear IH H. induction k as [|k IHk]; [right; intros; lia|]. destruct IHk as [(j & L & J)|N]; [left; exists j; split; [lia|exact J]|]. destruct (refers_dec k v) as [Y|Y]; [left; exists k; split; [lia|exact Y]|]. right. intros j J. destruct (Nat.eq_dec j k) as [->|]; [exact Y|apply N; lia]. }
  destruct Q as [(j & L & J)|N]; [destruct (IH j L J) as (n & A & B); exists n; split; [lia|exact B]|]. exists k. split; [lia|]. split; [exact H|]. intros j J. destruct (le_lt_dec k j); [assumption|]. destruct (N j l J).
Qed.
Lemma distance_fun v n k : D v n -> D v k -> n = k.
Proof. intros [A B] [A' B']. specialize (B k A'). specialize (B' n A). lia. Qed.
Definition le_d (x y : str) : Prop := forall n k, D x n -> D y k -> n <= k.
Record inv (s : search) : Prop := Inv {
  i_nodup : NoDup (ret s ++ queue s);
  i_seen : forall x, In x (seen s) <-> In x (ret s ++ queue s);
  i_reach : forall x, In x (ret s ++ queue s) -> exists k, R k x;
  i_first : forall x, In x first -> In x (ret s ++ queue s);
  i_refs : forall x y, In x (ret s) -> In y (refs x) -> In y (ret s ++ queue s);
  i_sorted : StronglySorted le_d (ret s ++ queue s);
  i_near : forall v q, queue s = v :: q -> forall y n k, In y (ret s ++ queue s) -> D v n -> D y k -> k <= S n }.
Lemma sorted_app l r : StronglySorted le_d l -> StronglySorted le_d r -> (forall x y, In x l -> In y r -> le_d x y) -> StronglySorted le_d (l ++ r).
Proof.
  intros L Rr H. induction L as [|x l L IH F]; cbn; [exact Rr|]. constructor; [apply IH; intros; apply H; [now right|assumption]|]. rewrite Forall_forall in *. intros y Y. apply in_app_or in Y. destruct Y as [Y|Y]; [now apply F|apply H; [now left|exact Y]].
Qed.
Lemma sorted_same l n : (forall x, In x l -> D x n) -> StronglySorted le_d l.
Proof.
  intro H. induction l as [|x l IH]; constructor; [apply IH; intros; apply H; now right|]. apply Forall_forall. intros y Y a b A B. rewrite (distance_fun x a n A (H x (or_introl eq_refl))), (distance_fun y b n B (H y (or_intror Y))). lia.
Qed.
Lemma inv_begin : inv (begin ord first).
Proof.
  unfold begin. destruct (new_spec first []) as [N I]. set (n := new_vars ord first []) in *. assert (Z : forall x, In x n -> D x 0). { intros x X. apply I in X. split; [now constructor|intros; lia]. }
  constructor; cbn [queue seen ret app].
  - exact N.
  - reflexivity.
  - intros x X. apply I in X. exists 0. now constructor.
  - intros x X. apply I. cbn. auto.
  - intros x y [].
  - now apply sorted_same with 0.
  - intros v q _ y a b Y _ B. rewrite (distance_fun y b 0 B (Z y Y)). lia.
Qed.
(** What is reached and not done is behind something in the queue *)
Lemma frontier s : inv s -> forall k u, R k u -> In u (ret s) \/ exists x j, In x (queue s) /\ j <= k /\ R j x.
Proof.
  intros [_ _ _ A B _ _]. induction k as [|k IH]; intros u H; inversion H as [v F|n w v W E]; subst.
  - specialize (A u F). apply in_app_or in A. destruct A as [A|A]; [now left|right; exists u, 0; auto].
  - destruct (IH w W) as [I|(x & j & X & J & RX)]; [|right; exists x, j; repeat split; auto; lia]. specialize (B w u I E). apply in_app_or in B. destruct B as [B|B]; [now left|right; exists u, (S k); auto].
Qed.
Lemma sorted_cut l v q : StronglySorted le_d (l ++ v :: q) -> forall x, In x (v :: q) -> le_d v x.
Proof.
  induction l as [|y l IH]; cbn; intro S; [|apply IH; now inversion S]. inversion S as [|? ? S' F]; subst. rewrite Forall_forall in F. intros x [<-|X]; [|now apply F]. intros a b A B. rewrite (distance_fun v a b A B). lia.
Qed.
Lemma inv_step s : inv s -> inv (step ord refs s).
Proof.
  intro II. unfold step. destruct (queue s) as [|v q] eqn:Q; [exact II|]. pose proof (frontier s II) as FR. destruct II as [A B C F G S N]. rewrite Q in *. destruct (new_spec (refs v) (seen s)) as [NN NI]. set (n := new_vars ord (refs v) (seen s)) in *. clearbody n.
  assert (EQ : (ret s ++ [v]) ++ q ++ n = (ret s ++ v :: q) ++ n) by (rewrite <- !app_assoc; reflexivity).
  destruct (C v) as [k RV]; [apply in_or_app; right; now left|]. destruct (distance_exists k v RV) as (dv & _ & DV).
  assert (DN : forall w, In w n -> D w (Datatypes.S dv)).
  { intros w W. apply NI in W. destruct W as [W NS]. assert (RW : R (Datatypes.S dv) w) by (apply refers_by with v; [apply DV|exact W]). split; [exact RW|]. intros j J. destruct (le_lt_dec (Datatypes.S dv) j) as [|LT]; [assumption|]. exfalso. apply NS. apply B.
    inversion J as [x X|i u x U E]; subst; [now apply F|]. destruct (FR i u U) as [I|(x & m & X & M & RX)]; [now apply (G u w)|]. exfalso. destruct (distance_exists m x RX) as (dx & LX & DX).
    pose proof (sorted_cut _ _ _ S x X dv dx DV DX). lia. }
  constructor; cbn [queue seen ret]; rewrite ?EQ.
  - apply NoDup_app_intro; [exact A|exact NN|]. intros x X Y. apply NI in Y. destruct Y as [_ Y]. apply Y. now apply B.
  - intro x. rewrite !(in_app_iff _ n), B. reflexivity.
  - intros x X. apply in_app_or in X. destruct X as [X|X]; [now apply C|]. exists (Datatypes.S dv). apply (DN x X).
  - intros x X. apply in_or_app. left. now apply F.
  - intros x y X Y. apply in_app_or in X. destruct X as [X|[<-|[]]]; [apply in_or_app; left; now apply (G x y)|]. destruct (in_dec str_eq_dec y (seen s)) as [I|I]; apply in_or_app; [left; now apply B|right; now apply NI].
  - apply sorted_app; [exact S|now apply sorted_same with (Datatypes.S dv)|]. intros x y X Y a b DA DB. rewrite (distance_fun y b _ DB (DN y Y)). exact (N v q eq_refl x dv a X DV DA).
  - intros v' q' Q' y a b Y DA DB. assert (GE : dv <= a).
    { destruct q as [|v2 q]; cbn [app] in Q'.
      - assert (X : In v' n) by (rewrite Q'; now left). rewrite (distance_fun v' a _ DA (DN v' X)). lia.
      - injection Q' as <- _. exact (sorted_cut _ _ _ S v2 (or_intror (or_introl eq_refl)) dv a DV DA). }
    apply in_app_or in Y. destruct Y as [Y|Y]; [pose proof (N v q eq_refl y dv b Y DV DB); lia|]. rewrite (distance_fun y b _ DB (DN y Y)). lia.
Qed.
Lemma inv_steps n : forall s, inv s -> inv (steps n ord refs s).
Proof. induction n as [|n IH]; intros s I; cbn [steps]; [exact I|]. apply IH. now apply inv_step. Qed.
Lemma steps_grow n : forall s, queue (steps n ord refs s) <> [] -> length (ret s) + n <= length (ret (steps n ord refs s)).
Proof.
  induction n as [|n IH]; intros s Q; cbn [steps] in *; [lia|]. specialize (IH _ Q). unfold step in *. destruct (queue s) as [|v q] eqn:E.
  - exfalso. apply Q. clear - E. induction n as [|n IHn]; cbn [steps]; [exact E|]. unfold step. rewrite E. exact IHn.
  - cbn [ret] in IH. rewrite app_length in IH. cbn in IH. lia.
Qed.
End R.
