(** Lemmas about the layer of a file. *)
From Coq Require Import Ascii String List Bool Arith Lia.
From Verif Require Import Str_Model Str_Proofs Layerconf_Model Enforce_Spec Enforce_Proofs Filelayer_Model Filelayer_Spec.
Import ListNotations.
Open Scope list_scope.

Lemma to_layer_keep m path res : forall len best, (forall c p, In (c, p) res -> m p path = true -> length p <= len) -> to_layer m path res len best = best.
Proof.
  induction res as [|[c p] res IH]; intros len best H; cbn [to_layer]; [reflexivity|]. destruct (m p path) eqn:M.
  - specialize (H c p (or_introl eq_refl) M) as L. rewrite (proj2 (Nat.ltb_ge len (length p)) L). cbn [andb]. apply IH. intros; apply (H c0); [now right|assumption].
  - rewrite andb_false_r. apply IH. intros; apply (H c0); [now right|assumption].
Qed.
Lemma to_layer_some m path res : forall len best, (exists c p, In (c, p) res /\ m p path = true /\ len < length p) ->
  exists c before p after, to_layer m path res len best = Some c /\ res = before ++ (c, p) :: after /\ len < length p /\ m p path = true /\
    (forall c' p', In (c', p') before -> m p' path = true -> length p' < length p) /\ (forall c' p', In (c', p') after -> m p' path = true -> length p' <= length p).
Proof.
  induction res as [|[c p] res IH]; intros len best (c0 & p0 & I & M0 & L0); [destruct I|]. cbn [to_layer]. destruct (Nat.ltb len (length p) && m p path) eqn:T.
  - apply andb_true_iff in T. destruct T as [T M]. apply Nat.ltb_lt in T.
    assert (Q : (exists c1 p1, In (c1, p1) res /\ m p1 path = true /\ length p < length p1) \/ forall c1 p1, In (c1, p1) res -> m p1 path = true -> length p1 <= length p).
    { clear. induction res as [|[c p2] res IHr]; [right; intros ? ? []|]. destruct IHr as [(c1 & p1 & I & M & L)|N]; [left; exists c1, p1; split; [now right|auto]|]. destruct (m p2 path) eqn:M, (le_lt_dec (length p2) (length p)) as [L|L].
      - right. intros c1 p1 [E|I] MM; [injection E as <- <-; exact L|now apply (N c1)].
      - left. exists c, p2. split; [now left|auto].
      - right. intros c1 p1 [E|I] MM; [injection E as <- <-; congruence|now apply (N c1)].
      - right. intros c1 p1 [E|I] MM; [injection E as <- <-; congruence|now apply (N c1)]. }
    destruct Q as [Q|Q].
    + destruct (IH (length p) (Some c) Q) as (c1 & b & p1 & a & E & -> & L & M1 & B & A). exists c1, ((c, p) :: b), p1, a. repeat split; auto; [lia|]. intros c' p' [X|X] MM; [injection X as <- <-; exact L|now apply (B c')].
    + exists c, [], p, res. split; [now apply to_layer_keep|]. repeat split; auto. intros ? ? [].
  - destruct I as [E|I]; [injection E as <- <-; rewrite M0, (proj2 (Nat.ltb_lt len (length p)) L0) in T; discriminate|]. destruct (IH len best) as (c1 & b & p1 & a & E & -> & L & M1 & B & A); [eauto|]. exists c1, ((c, p) :: b), p1, a. repeat split; auto.
    intros c' p' [X|X] MM; [injection X as <- <-; rewrite MM, andb_true_r in T; apply Nat.ltb_ge in T; lia|now apply (B c')].
Qed.
Lemma best_unique m res path c c' : best_match m res path c -> best_match m res path c' -> c = c'.
Proof.
  intros (b & p & a & E & NP & M & B & A) (b' & p' & a' & E' & NP' & M' & B' & A'). rewrite E in E'. clear E. revert b' E' B'. induction b as [|[x px] b IH]; intros [|[y py] b'] E' B'; cbn [app] in E'; injection E' as E1 E2 E3.
  - exact E1.
  - subst. assert (I : In (c', p') (b' ++ (c', p') :: a')) by (apply in_or_app; right; now left). pose proof (A c' p' I M'). pose proof (B' y py (or_introl eq_refl) M). lia.
  - subst. assert (I : In (c, p) (b ++ (c, p) :: a)) by (apply in_or_app; right; now left). pose proof (A' c p I M). pose proof (B c' p' (or_introl eq_refl) M'). lia.
  - apply (IH ltac:(intros; apply (B c'0); [now right|assumption]) b' E3). intros; apply (B' c'0); [now right|assumption].
Qed.
Lemma set_item_get l k v : (exists e, In e (set_item l k v) /\ e = (k, v)) /\ forall x w, x <> k -> (In (x, w) (set_item l k v) <-> In (x, w) l).
Proof.
  unfold set_item. destruct (existsb (fun e => seqb (fst e) k) l) eqn:E.
  - split.
    + apply existsb_exists in E. destruct E as (e & I & Q). exists (k, v). split; [|reflexivity]. apply in_map_iff. exists e. rewrite Q. auto.
    + intros x w N. rewrite in_map_iff. split.
      * intros ([a b] & H & I). cbn [fst] in H. destruct (seqb a k) eqn:Q; [congruence|injection H as <- <-; exact I].
      * intro I. exists (x, w). cbn [fst]. rewrite (proj2 (seqb_neq x k) N). auto.
  - split; [exists (k, v); split; [apply in_or_app; right; now left|reflexivity]|]. intros x w N. rewrite in_app_iff. split; [intros [H|[H|[]]]; [exact H|congruence]|auto].
Qed.
Lemma set_item_only l k v w : In (k, w) (set_item l k v) -> w = v.
Proof.
  unfold set_item. destruct (existsb (fun e => seqb (fst e) k) l) eqn:E; intro I.
  - apply in_map_iff in I. destruct I as ([a b] & H & I). cbn [fst] in H. destruct (seqb a k) eqn:Q; [congruence|]. injection H as -> ->. rewrite seqb_refl in Q. discriminate.
  - apply in_app_or in I. destruct I as [I|[I|[]]]; [|congruence]. exfalso. assert (existsb (fun e => seqb (fst e) k) l = true) by (apply existsb_exists; exists (k, w); cbn; rewrite seqb_refl; auto). congruence.
Qed.
Lemma res_iff var c p : In (c, p) (collection_res var) <-> In c (split_ws (match var (s_ "BBFILE_COLLECTIONS") with Some v => v | None => [] end)) /\ p = pattern_of var c.
Proof.
  unfold collection_res. induction (split_ws _) as [|x l IH] using rev_ind; [cbn; tauto|]. rewrite fold_left_app. cbn [fold_left]. set (r := fold_left _ l []) in *. clearbody r. fold (pattern_of var x).
  destruct (str_eq_dec c x) as [->|N].
  - split; [intro I; split; [apply in_or_app; right; now left|now apply set_item_only in I]|]. intros [_ ->]. destruct (set_item_get r x (pattern_of var x)) as [(e & I & ->) _]. exact I.
  - destruct (set_item_get r x (pattern_of var x)) as [_ H]. rewrite (H c p N), IH, in_app_iff. cbn. split; [tauto|]. intros [[I|[E|[]]] P]; [auto|congruence].
Qed.
