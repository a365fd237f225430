From Coq Require Import Ascii String List Bool Arith ZArith Lia.
From Verif Require Import Str_Model Str_Proofs Lists_Model Lists_Spec.
Import ListNotations.
Open Scope list_scope.

Lemma split_ws_join_any l : split_ws (join (s_ " ") l) = concat (map split_ws l).
Proof.
  induction l as [|x l IH]; auto. destruct l as [|y l]; [cbn; now rewrite app_nil_r|].
  change (join (s_ " ") (x :: y :: l)) with (x ++ " "%char :: join (s_ " ") (y :: l)).
  rewrite split_ws_app by reflexivity. rewrite IH. reflexivity.
Qed.
Lemma concat_words l : Forall word l -> concat (map split_ws l) = l.
Proof. induction l as [|x l IH]; intros F; auto. inversion F; subst. cbn. rewrite split_ws_single by auto. cbn. now rewrite IH. Qed.
Lemma mem_str_reflect x l : reflect (In x l) (mem_str x l).
Proof. destruct (mem_str x l) eqn:E; constructor; [now apply mem_str_In|]. intros H. apply mem_str_In in H. congruence. Qed.

(** ** Counter *)
Fixpoint cget (c : counter) (k : str) : option Z :=
  match c with [] => None | (k', x) :: c' => if seqb k k' then Some x else cget c' k end.
Lemma cget_add c k n k2 : cget (count_add c k n) k2 =
  if seqb k2 k then Some (match cget c k with Some x => x + n | None => n end)%Z else cget c k2.
Proof.
  induction c as [|[k' x] c IH]; cbn.
  - destruct (seqb k2 k); reflexivity.
  - destruct (seqb k k') eqn:E.
    + apply seqb_eq in E. subst k'. cbn. rewrite ?seqb_refl. destruct (seqb k2 k); reflexivity.
    + cbn. rewrite IH. destruct (seqb k2 k') eqn:E2; auto. apply seqb_eq in E2. subst k2.
      destruct (seqb k' k) eqn:E3; auto. apply seqb_eq in E3. subst. rewrite seqb_refl in E. discriminate.
Qed.
Lemma count_add_keys c k n x : In x (map fst (count_add c k n)) <-> x = k \/ In x (map fst c).
Proof.
  induction c as [|[k' y] c IH]; cbn; [intuition|]. destruct (seqb k k') eqn:E; cbn.
  - apply seqb_eq in E. subst. intuition.
  - rewrite IH. intuition.
Qed.
Lemma count_add_nodup c k n : NoDup (map fst c) -> NoDup (map fst (count_add c k n)).
Proof.
  induction c as [|[k' y] c IH]; cbn; intros N; [repeat constructor; auto|]. inversion N; subst. destruct (seqb k k') eqn:E; cbn; constructor; auto.
  rewrite count_add_keys. intros [->|X]; auto. rewrite seqb_refl in E. discriminate.
Qed.
Lemma cget_In c k z : NoDup (map fst c) -> (In (k, z) c <-> cget c k = Some z).
Proof.
  induction c as [|[k' y] c IH]; cbn; intros N; [intuition discriminate|]. inversion N as [|? ? N1 N2]; subst. destruct (seqb k k') eqn:E.
  - apply seqb_eq in E. subst k'. split; [intros [X|X]; [congruence|]|intros X; left; congruence].
    exfalso. apply N1. apply in_map_iff. exists (k, z). auto.
  - rewrite <- IH by auto. split; [intros [X|X]; auto; inversion X; subst; rewrite seqb_refl in E; discriminate|auto].
Qed.
Lemma count_item_nodup c v : NoDup (map fst c) -> NoDup (map fst (count_item c v)).
Proof. intros N. unfold count_item. destruct (prefixed v); repeat apply count_add_nodup; auto. Qed.
Lemma fold_nodup ws c : NoDup (map fst c) -> NoDup (map fst (fold_left count_item ws c)).
Proof. revert c. induction ws as [|w ws IH]; intros c N; cbn; auto. apply IH. now apply count_item_nodup. Qed.

Lemma prefixed_marks v : prefixed v = true <-> is_mark v.
Proof.
  destruct v as [|c v]; cbn; [split; [discriminate|intros (x & [X|X]); discriminate]|]. rewrite orb_true_iff, !aeqb_eq. split.
  - intros [->| ->]; exists v; [left|right]; reflexivity.
  - intros (x & [X|X]); inversion X; auto.
Qed.
Lemma prefixed_tl v x : prefixed v && seqb (tl v) x = seqb v ("-"%char :: x) || seqb v ("~"%char :: x).
Proof.
  destruct v as [|c v]; [reflexivity|]. cbn [prefixed tl seqb]. destruct (aeqb c "-"%char), (aeqb c "~"%char), (seqb v x); reflexivity.
Qed.

Definition score (k : str) (ws : list str) : Z :=
  ((if prefixed k then - Z.of_nat (occurrences k ws) else Z.of_nat (occurrences k ws)) - Z.of_nat (cancels k ws))%Z.
Lemma occ_cons k w ws : occurrences k (w :: ws) = (if seqb k w then 1 else 0) + occurrences k ws.
Proof. unfold occurrences. cbn [filter]. destruct (seqb k w); reflexivity. Qed.
Lemma cancels_cons k w ws : cancels k (w :: ws) = (if prefixed w && seqb (tl w) k then 1 else 0) + cancels k ws.
Proof. unfold cancels. cbn [filter]. rewrite prefixed_tl. destruct (seqb w ("-"%char :: k) || seqb w ("~"%char :: k)); reflexivity. Qed.
Lemma seqb_sym a b : seqb a b = seqb b a.
Proof. destruct (seqb a b) eqn:E, (seqb b a) eqn:F; auto; [apply seqb_eq in E|apply seqb_eq in F]; subst; rewrite seqb_refl in *; discriminate. Qed.
Lemma tl_neq v : prefixed v = true -> seqb (tl v) v = false.
Proof. destruct v as [|c v]; [discriminate|]. intros _. apply seqb_neq. cbn. intros E. apply (f_equal (@length _)) in E. cbn in E. lia. Qed.

Lemma fold_cget ws k : forall c, cget (fold_left count_item ws c) k =
  match cget c k with
  | Some z => Some (z + score k ws)%Z
  | None => if (occurrences k ws + cancels k ws =? 0) then None else Some (score k ws)
  end.
Proof.
  induction ws as [|w ws IH]; intros c.
  - cbn. unfold score. cbn. destruct (cget c k); auto. f_equal. destruct (prefixed k); lia.
  - cbn [fold_left]. rewrite IH. rewrite occ_cons, cancels_cons. unfold score. rewrite occ_cons, cancels_cons.
    unfold count_item. destruct (prefixed w) eqn:P.
    + rewrite !cget_add. cbn [andb]. rewrite (seqb_sym (tl w) k).
      destruct (seqb k w) eqn:E1.
      * apply seqb_eq in E1. subst w. rewrite P. rewrite (seqb_sym k (tl k)), (tl_neq k P).
        destruct (cget c k); [|rewrite (proj2 (Nat.eqb_neq _ 0)) by lia]; f_equal; lia.
      * destruct (seqb k (tl w)) eqn:E2.
        -- apply seqb_eq in E2. rewrite <- E2. destruct (cget c k); [|rewrite (proj2 (Nat.eqb_neq _ 0)) by lia]; f_equal; destruct (prefixed k); lia.
        -- destruct (cget c k); [f_equal; destruct (prefixed k); lia|]. cbn [Nat.add]. reflexivity.
    + rewrite cget_add. cbn [andb]. destruct (seqb k w) eqn:E1.
      * apply seqb_eq in E1. subst w. rewrite P. destruct (cget c k); [|rewrite (proj2 (Nat.eqb_neq _ 0)) by lia]; f_equal; lia.
      * destruct (cget c k); [f_equal; destruct (prefixed k); lia|]. cbn [Nat.add]. reflexivity.
Qed.

Lemma word_tl w : word w -> tl w = [] \/ word (tl w).
Proof. intros [N F]. destruct w as [|c w]; [congruence|]. inversion F; subst. cbn. destruct w; auto. right. split; [discriminate|auto]. Qed.
Lemma keys_words ws : Forall word ws -> forall c, Forall (fun k => k = [] \/ word k) (map fst c) ->
  Forall (fun k => k = [] \/ word k) (map fst (fold_left count_item ws c)).
Proof.
  induction ws as [|w ws IH]; intros F c FC; cbn; auto. inversion F; subst. apply IH; auto.
  apply Forall_forall. intros k K. rewrite Forall_forall in FC. unfold count_item in K. destruct (prefixed w).
  - apply count_add_keys in K. destruct K as [->|K]; [auto|]. apply count_add_keys in K. destruct K as [->|K]; auto. now apply word_tl.
  - apply count_add_keys in K. destruct K as [->|K]; auto.
Qed.
(** which words the removal lists *)
Lemma removed_iff ws w : Forall word ws -> word w ->
  (In w (split_ws (remove_prefixed_items ws)) <-> occurrences w ws + cancels w ws <> 0 /\ (score w ws < 1)%Z).
Proof.
  intros F W. unfold remove_prefixed_items. rewrite split_ws_join_any.
  set (c := fold_left count_item ws []).
  assert (ND : NoDup (map fst c)) by (apply fold_nodup; constructor).
  assert (KW : Forall (fun k => k = [] \/ word k) (map fst c)) by (apply keys_words; [auto|constructor]).
  assert (G : cget c w = if (occurrences w ws + cancels w ws =? 0) then None else Some (score w ws)) by (unfold c; now rewrite fold_cget).
  rewrite in_concat. split.
  - intros (l & L1 & L2). apply in_map_iff in L1. destruct L1 as (k & <- & K). apply in_map_iff in K. destruct K as ([k' z] & E & K). cbn in E. subst k'.
    apply filter_In in K. destruct K as [K Z]. cbn in Z. apply Z.ltb_lt in Z.
    assert (KK : k = [] \/ word k) by (rewrite Forall_forall in KW; apply KW; apply in_map_iff; exists (k, z); auto).
    destruct KK as [->|KK]; [destruct L2|]. rewrite split_ws_single in L2 by auto. destruct L2 as [<-|[]].
    apply cget_In in K; auto. rewrite K in G. destruct (Nat.eqb_spec (occurrences k ws + cancels k ws) 0); [discriminate|]. split; auto. congruence.
  - intros [T Z]. exists [w]. split; [|now left]. rewrite <- (split_ws_single w W). apply in_map. apply in_map_iff. exists (w, score w ws). split; auto.
    apply filter_In. split; [|now apply Z.ltb_lt]. apply cget_In; auto. rewrite G. apply Nat.eqb_neq in T. now rewrite T.
Qed.
Lemma occ_pos k l : In k l <-> 0 < occurrences k l.
Proof.
  unfold occurrences. split.
  - intros H. assert (X : In k (filter (seqb k) l)) by (apply filter_In; split; auto; apply seqb_refl). destruct (filter (seqb k) l); [destruct X|cbn; lia].
  - intros H. destruct (filter (seqb k) l) as [|x xs] eqn:E; [cbn in H; lia|]. assert (In x (filter (seqb k) l)) as X by (rewrite E; now left).
    apply filter_In in X. destruct X as [X Y]. apply seqb_eq in Y. now subst.
Qed.
Lemma without_iff l r w : In w (without l r) <-> In w l /\ ~ In w (split_ws r).
Proof.
  unfold without. rewrite filter_In, negb_true_iff. split; intros [A B]; split; auto.
  - intros X. apply mem_str_In in X. congruence.
  - destruct (mem_str w (split_ws r)) eqn:E; auto. exfalso. apply B. now apply mem_str_In.
Qed.

(** ** Implied items *)
Definition succ (m : flags) (x : str) : list str := split_ws (flag_get m x).
Definition keys_left (m : flags) (seen : list str) : nat := length (filter (fun k => negb (mem_str k seen)) (map fst m)).
Lemma flag_get_none m x : ~ In x (map fst m) -> flag_get m x = [].
Proof. induction m as [|[k v] m IH]; intros H; auto. cbn in *. destruct (seqb x k) eqn:E; [apply seqb_eq in E; subst; exfalso; auto|]. apply IH. auto. Qed.
Lemma filter_length_le_imp {A} (p q : A -> bool) l : (forall x, p x = true -> q x = true) -> length (filter p l) <= length (filter q l).
Proof. intros H. induction l as [|x l IH]; cbn; auto. destruct (p x) eqn:E; [rewrite (H _ E); cbn; lia|]. destruct (q x); cbn; lia. Qed.
Lemma keys_left_mono m s t : incl s t -> keys_left m t <= keys_left m s.
Proof.
  intros I. unfold keys_left. apply filter_length_le_imp. intros x. rewrite !negb_true_iff. intros H.
  destruct (mem_str x s) eqn:E; auto. apply mem_str_In in E. apply I in E. apply mem_str_In in E. congruence.
Qed.
Lemma keys_left_dec m s x : In x (map fst m) -> ~ In x s -> keys_left m (x :: s) < keys_left m s.
Proof.
  intros H N. unfold keys_left. induction (map fst m) as [|k l IH]; [destruct H|]. cbn [filter].
  assert (LE : length (filter (fun k => negb (mem_str k (x :: s))) l) <= length (filter (fun k => negb (mem_str k s)) l)).
  { apply filter_length_le_imp. intros y. rewrite !negb_true_iff. intros Y. destruct (mem_str y s) eqn:E; auto. apply mem_str_In in E.
    assert (mem_str y (x :: s) = true) by (apply mem_str_In; now right). congruence. }
  destruct H as [->|H].
  - assert (E1 : mem_str x (x :: s) = true) by (apply mem_str_In; now left). assert (E2 : mem_str x s = false).
    { destruct (mem_str_reflect x s); auto. contradiction. }
    rewrite E1, E2. cbn [negb length]; lia.
  - specialize (IH H). destruct (mem_str k (x :: s)) eqn:E; cbn [negb].
    + destruct (negb (mem_str k s)); cbn [negb length]; lia.
    + assert (E2 : mem_str k s = false).
      { destruct (mem_str_reflect k s); auto. assert (mem_str k (x :: s) = true) by (apply mem_str_In; now right). congruence. }
      rewrite E2. cbn [negb length]; lia.
Qed.

Inductive reach (m : flags) : str -> str -> Prop :=
| r_refl a : reach m a a
| r_step a b c : In b (succ m a) -> reach m b c -> reach m a c.
Lemma reach_trans m a b c : reach m a b -> reach m b c -> reach m a c.
Proof. induction 1; auto. intros. eapply r_step; eauto. Qed.

Definition visited (m : flags) (seen seen' : list str) (ws : list str) (roots : list str) : Prop :=
  incl seen seen' /\ incl roots seen' /\
  (forall x, In x seen' -> ~ In x seen -> exists r, In r roots /\ reach m r x) /\
  (forall x, In x seen' -> ~ In x seen -> incl (succ m x) seen') /\
  (forall w, In w ws <-> exists x, In x seen' /\ ~ In x seen /\ In w (succ m x)).

Definition go_ (fuel : nat) (m : flags) :=
  fix go (l : list str) (seen : list str) : option (list str * list str) :=
          match l with
          | [] => Some ([], seen)
          | f :: l' =>
              match implied_items fuel m f seen with
              | None => None
              | Some (r, seen1) =>
                  match go l' seen1 with
                  | None => None
                  | Some (rs, seen2) => Some (r :: rs, seen2)
                  end
              end
          end.
Lemma implied_items_S fuel m item seen : implied_items (S fuel) m item seen =
  if mem_str item seen then Some ([], seen)
  else match go_ fuel m (succ m item) (item :: seen) with
       | None => None
       | Some (rs, seen') => Some (join (s_ " ") (succ m item ++ rs), seen')
       end.
Proof. reflexivity. Qed.

Lemma go_ok fuel m :
  (forall item seen, keys_left m seen < fuel -> exists r seen', implied_items fuel m item seen = Some (r, seen') /\ visited m seen seen' (split_ws r) [item]) ->
  forall l seen, keys_left m seen < fuel -> exists rs seen', go_ fuel m l seen = Some (rs, seen') /\ visited m seen seen' (concat (map split_ws rs)) l.
Proof.
  intros H. induction l as [|f l IH]; intros seen K.
  - exists [], seen. split; auto. repeat split; try (intros x X Y; contradiction); auto using incl_refl; try (intros x []).
    + intros [].
    + intros (x & A & B & _). contradiction.
  - destruct (H f seen K) as (r & s1 & E1 & (I1 & R1 & V1 & C1 & W1)).
    destruct (IH s1) as (rs & s2 & E2 & (I2 & R2 & V2 & C2 & W2)); [pose proof (keys_left_mono m seen s1 I1); lia|].
    exists (r :: rs), s2. cbn [go_]. rewrite E1. fold (go_ fuel m). rewrite E2. split; auto.
    assert (DEC : forall x, In x s1 \/ ~ In x s1) by (intros x; destruct (mem_str_reflect x s1); auto).
    split; [eapply incl_tran; eauto|]. split; [intros x [<-|X]; [apply I2, R1; now left|auto]|]. split; [|split].
    + intros x X N. destruct (DEC x) as [D|D].
      * destruct (V1 x D N) as (q & [<-|[]] & Q). exists f. split; auto. now left.
      * destruct (V2 x X D) as (q & Q1 & Q). exists q. split; auto. now right.
    + intros x X N. destruct (DEC x) as [D|D]; [eapply incl_tran; [apply (C1 x D N)|auto]|apply (C2 x X D)].
    + intros w. cbn [map concat]. rewrite in_app_iff, W1, W2. split.
      * intros [(x & A & B & C)|(x & A & B & C)]; exists x; repeat split; auto.
      * intros (x & A & B & C). destruct (DEC x) as [D|D]; [left|right]; exists x; auto.
Qed.
Lemma implied_items_ok m fuel : forall item seen, keys_left m seen < fuel ->
  exists r seen', implied_items fuel m item seen = Some (r, seen') /\ visited m seen seen' (split_ws r) [item].
Proof.
  induction fuel as [|fuel IH]; intros item seen K; [lia|]. rewrite implied_items_S. destruct (mem_str_reflect item seen) as [D|D].
  - exists [], seen. split; auto. repeat split; try (intros x X Y; contradiction); auto using incl_refl.
    + intros x [<-|[]]; auto.
    + intros [].
    + intros (x & A & B & _). contradiction.
  - assert (GO : exists rs seen', go_ fuel m (succ m item) (item :: seen) = Some (rs, seen') /\ visited m (item :: seen) seen' (concat (map split_ws rs)) (succ m item)).
    { destruct (mem_str_reflect item (map fst m)) as [M|M].
      - apply go_ok; auto. pose proof (keys_left_dec m seen item M D). lia.
      - unfold succ. rewrite flag_get_none by auto. exists [], (item :: seen). split; auto. repeat split; try (intros x X Y; contradiction); auto using incl_refl; try (intros x []).
        + intros [].
        + intros (x & A & B & _). contradiction. }
    destruct GO as (rs & s' & E & (I & R & V & C & W)). rewrite E. exists (join (s_ " ") (succ m item ++ rs)), s'. split; auto.
    assert (WI : Forall word (succ m item)) by apply split_ws_words.
    assert (DEC : forall x, x = item \/ x <> item) by (intros x; destruct (str_eq_dec x item); auto).
    split; [intros x X; apply I; now right|]. split; [intros x [<-|[]]; apply I; now left|]. split; [|split].
    + intros x X N. exists item. split; [now left|]. destruct (DEC x) as [->|Dx]; [constructor|].
      destruct (V x X) as (q & Q1 & Q); [intros [Y|Y]; [congruence|contradiction]|]. eapply r_step; eauto.
    + intros x X N. destruct (DEC x) as [->|Dx]; [auto|]. apply (C x X). intros [Y|Y]; [congruence|contradiction].
    + intros w. rewrite split_ws_join_any, map_app, concat_app, in_app_iff, concat_words by auto. rewrite W. split.
      * intros [A|(x & A & B & G)].
        -- exists item. split; [apply I; now left|]. auto.
        -- exists x. split; auto. split; auto. intros Y. apply B. now right.
      * intros (x & A & B & G). destruct (DEC x) as [->|Dx]; [now left|]. right. exists x. split; auto. split; auto. intros [Y|Y]; [congruence|contradiction].
Qed.
(** from an empty set of seen items *)
Lemma implied_top m item : exists r seen', implied_items (S (length m)) m item [] = Some (r, seen') /\
  forall w, In w (split_ws r) <-> exists x, reach m item x /\ In w (succ m x).
Proof.
  destruct (implied_items_ok m (S (length m)) item []) as (r & s' & E & (I & R & V & C & W)).
  { unfold keys_left. pose proof (filter_length_le_imp (fun k => negb (mem_str k [])) (fun _ => true) (map fst m) (fun _ _ => eq_refl)) as H.
    assert (X : length (filter (fun _ : str => true) (map fst m)) = length m).
    { rewrite <- (map_length fst m). generalize (map fst m). induction l as [|y l IH]; cbn [filter length]; auto. }
    rewrite X in H. lia. }
  exists r, s'. split; auto. intros w. rewrite W. split.
  - intros (x & A & _ & B). destruct (V x A (fun X => X)) as (q & [<-|[]] & Q). eauto.
  - intros (x & A & B). exists x. split; auto.
    assert (CL : forall a b, reach m a b -> In a s' -> In b s').
    { induction 1 as [a|a b c S _ IH]; auto. intros Y. apply IH. apply (C a Y (fun X => X)). exact S. }
    apply (CL item); auto. apply R. now left.
Qed.
Lemma flag_get_some m a : In a (map fst m) -> exists l1 v l2, m = l1 ++ (a, v) :: l2 /\ ~ In a (map fst l1) /\ flag_get m a = v.
Proof.
  induction m as [|[k v] m IH]; intros H; [destruct H|]. cbn in *. destruct (seqb a k) eqn:E.
  - apply seqb_eq in E. subst. exists [], v, m. auto.
  - destruct H as [->|H]; [rewrite seqb_refl in E; discriminate|]. destruct (IH H) as (l1 & v' & l2 & -> & N & G).
    exists ((k, v) :: l1), v', l2. split; auto. split; auto. cbn. intros [->|X]; auto. rewrite seqb_refl in E. discriminate.
Qed.
Lemma flag_get_first l1 a v l2 : ~ In a (map fst l1) -> flag_get (l1 ++ (a, v) :: l2) a = v.
Proof.
  induction l1 as [|[k x] l1 IH]; cbn; intros N; [now rewrite seqb_refl|]. destruct (seqb a k) eqn:E; [apply seqb_eq in E; subst; exfalso; auto|]. auto.
Qed.
Lemma implies_reach m a w : implies m a w <-> exists x, reach m a x /\ In w (succ m x).
Proof.
  split.
  - induction 1 as [a v b (l1 & l2 & -> & N) B|a b c _ (x & X1 & X2) _ (y & Y1 & Y2)].
    + exists a. split; [constructor|]. unfold succ. now rewrite flag_get_first.
    + exists y. split; auto. eapply reach_trans; [exact X1|]. eapply r_step; eauto.
  - intros (x & R & S). assert (ONE : forall a b, In b (succ m a) -> implies m a b).
    { intros p q Q. unfold succ in Q. destruct (mem_str_reflect p (map fst m)) as [M|M].
      - destruct (flag_get_some m p M) as (l1 & v & l2 & E & N & G). rewrite G in Q. apply (imp_one m p v q); eauto.
      - rewrite flag_get_none in Q by auto. destruct Q. }
    revert S. induction R as [a|a b c S' _ IH]; intros S; auto. eapply imp_step; eauto.
Qed.

Lemma add_implied_iff m value : exists r, add_implied_items m value = Some r /\
  forall w, In w (split_ws r) <-> exists f, In f (split_ws value) /\ implies m f w.
Proof.
  unfold add_implied_items. induction (split_ws value) as [|f l IH].
  - exists []. split; auto. intros w. cbn. split; [intros []|intros (f & [] & _)].
  - destruct IH as (r & E & H). destruct (implied_top m f) as (r1 & s1 & E1 & H1). rewrite E1.
    match goal with |- context [match ?g l with _ => _ end] => destruct (g l) as [rs|] eqn:G; [|discriminate] end.
    exists (join (s_ " ") (r1 :: rs)). split; auto. intros w. inversion E; subst r. rewrite split_ws_join_any in *. cbn [map concat].
    rewrite in_app_iff, H1, <- implies_reach, H. split.
    + intros [A|(g & A & B)]; [exists f|exists g]; split; auto; [now left|now right].
    + intros (g & [<-|A] & B); [now left|right; eauto].
Qed.
