(** Proofs about the PR server. *)
From Coq Require Import Ascii String List Bool ZArith Lia.
From Verif Require Import Str_Model Str_Proofs Prserv_Model Prserv_Spec.
Import ListNotations.
Open Scope Z_scope.
Open Scope list_scope.

(** * Tables as sets of rows *)
Definition key (r : row) : str * str * str := (r_version r, r_arch r, r_sum r).
Definition uniq (t : table) : Prop := forall r1 r2, In r1 t -> In r2 t -> key r1 = key r2 -> r1 = r2.
Definition inv (t : table) (v a c : str) (x : Z) : Prop := In (mkRow v a c x) t.

Lemma in_group_iff : forall v a r, in_group v a r = true <-> r_version r = v /\ r_arch r = a.
Proof. intros. unfold in_group. rewrite andb_true_iff, !seqb_eq. tauto. Qed.
Lemma has_key_iff : forall v a c r, has_key v a c r = true <-> r = mkRow v a c (r_value r).
Proof.
  intros v a c [v' a' c' x]. unfold has_key. rewrite andb_true_iff, in_group_iff, seqb_eq. cbn.
  split; [intros [[-> ->] ->]; auto|intros E; inversion E; auto].
Qed.
Lemma has_key_row : forall v a c x, has_key v a c (mkRow v a c x) = true.
Proof. intros. apply has_key_iff. auto. Qed.

Lemma find_value_none : forall t v a c, find_value t v a c = None <-> forall x, ~ inv t v a c x.
Proof.
  intros. unfold find_value, inv. destruct (find (has_key v a c) t) eqn:E.
  - apply find_some in E. destruct E as [I K]. apply has_key_iff in K. split; [discriminate|].
    intros H. exfalso. apply (H (r_value r)). rewrite <- K. auto.
  - split; auto. intros _ x I. apply (find_none _ _ E) in I. rewrite has_key_row in I. discriminate.
Qed.
Lemma find_value_in : forall t v a c x, find_value t v a c = Some x -> inv t v a c x.
Proof.
  intros t v a c x H. unfold find_value, inv in *. destruct (find (has_key v a c) t) eqn:E; [|discriminate].
  apply find_some in E. destruct E as [I K]. apply has_key_iff in K. inversion H; subst. rewrite <- K. auto.
Qed.
Lemma find_value_some : forall t v a c x, uniq t -> (find_value t v a c = Some x <-> inv t v a c x).
Proof.
  intros t v a c x U. split; [apply find_value_in|]. intros I.
  destruct (find_value t v a c) as [y|] eqn:E.
  - apply find_value_in in E. assert (Q := U _ _ I E eq_refl). inversion Q. auto.
  - exfalso. rewrite find_value_none in E. eapply E. eauto.
Qed.

Lemma fold_omax : forall l o,
  match fold_left omax l o with
  | None => o = None /\ l = []
  | Some m => (In m l \/ o = Some m) /\ (forall x, In x l -> x <= m) /\ (forall x, o = Some x -> x <= m)
  end.
Proof.
  induction l as [|x l IH]; intros o; cbn [fold_left].
  - destruct o as [m|]; auto. split; auto. split; [intros ? []|]. intros y E. inversion E. lia.
  - specialize (IH (omax o x)). destruct (fold_left omax l (omax o x)) as [m|].
    + destruct IH as (A & B & C). split; [|split].
      * destruct A as [A|A]; [left; right; auto|].
        destruct o as [y|]; cbn in A; inversion A; subst.
        -- destruct (Z.max_spec y x) as [[? Q]|[? Q]]; rewrite Q; [left; left; auto|right; auto].
        -- left. left. auto.
      * intros y [<-|I]; auto. destruct o as [y|]; cbn in C; [specialize (C _ eq_refl)|specialize (C _ eq_refl)]; lia.
      * intros y ->. cbn in C. specialize (C _ eq_refl). lia.
    + destruct IH as [A B]. destruct o; discriminate.
Qed.

Lemma find_max_none : forall t v a, find_max_value t v a = None <-> forall c x, ~ inv t v a c x.
Proof.
  intros. unfold find_max_value, max_of. pose proof (fold_omax (map r_value (filter (in_group v a) t)) None) as F.
  destruct (fold_left _ _ None) as [m|].
  - destruct F as ([A|A] & _); [|discriminate]. split; [discriminate|]. intros H. exfalso.
    apply in_map_iff in A. destruct A as (r & A1 & A2). apply filter_In in A2. destruct A2 as [A2 A3].
    apply in_group_iff in A3. destruct A3 as [E1 E2]. destruct r as [v' a' c' x']. cbn in *. subst.
    eapply H. exact A2.
  - split; auto. intros _ c x I. destruct F as [_ F]. apply map_eq_nil in F.
    assert (J : In (mkRow v a c x) (filter (in_group v a) t)).
    { apply filter_In. split; auto. apply in_group_iff. auto. }
    rewrite F in J. destruct J.
Qed.

Lemma find_max_some : forall t v a m, find_max_value t v a = Some m <->
  (exists c, inv t v a c m) /\ (forall c x, inv t v a c x -> x <= m).
Proof.
  assert (FW : forall t v a m, find_max_value t v a = Some m ->
    (exists c, inv t v a c m) /\ (forall c x, inv t v a c x -> x <= m)).
  { intros t v a m E. unfold find_max_value, max_of in E.
    pose proof (fold_omax (map r_value (filter (in_group v a) t)) None) as F. rewrite E in F.
    destruct F as ([A|A] & B & _); [|discriminate]. split.
    - apply in_map_iff in A. destruct A as (r & A1 & A2). apply filter_In in A2. destruct A2 as [A2 A3].
      apply in_group_iff in A3. destruct A3 as [E1 E2]. destruct r as [v' a' c' x']. cbn in *. subst.
      exists c'. exact A2.
    - intros c x I. apply B. apply in_map_iff. exists (mkRow v a c x). split; auto. apply filter_In.
      split; auto. apply in_group_iff. auto. }
  intros t v a m. split; [apply FW|]. intros [(c & A) B].
  destruct (find_max_value t v a) as [m'|] eqn:E.
  - apply FW in E. destruct E as [(c' & A') B']. specialize (B _ _ A'). specialize (B' _ _ A). f_equal. lia.
  - rewrite find_max_none in E. exfalso. eapply E. eauto.
Qed.

Lemma next_value_gt : forall t v a c x, inv t v a c x -> x < next_value t v a.
Proof.
  intros t v a c x I. unfold next_value. destruct (find_max_value t v a) as [m|] eqn:E.
  - apply find_max_some in E. destruct E as [_ B]. specialize (B _ _ I). lia.
  - rewrite find_max_none in E. exfalso. eapply E. eauto.
Qed.

(** Only the rows matter, not their order *)
Lemma next_value_ext : forall t1 t2 v a, (forall c x, inv t1 v a c x <-> inv t2 v a c x) ->
  find_max_value t1 v a = find_max_value t2 v a.
Proof.
  intros t1 t2 v a H. destruct (find_max_value t1 v a) as [m|] eqn:E.
  - symmetry. apply find_max_some. apply find_max_some in E. destruct E as [(c & A) B]. split.
    + exists c. apply H. auto.
    + intros c' x I. apply H in I. eauto.
  - symmetry. apply find_max_none. rewrite find_max_none in E. intros c x I. apply H in I. eapply E. eauto.
Qed.

(** * The two ways of getting a value *)
Lemma hist_found : forall t v a c x, find_value t v a c = Some x ->
  get_value_hist false t v a c = (t, false, Some x).
Proof. intros. unfold get_value_hist. rewrite H. auto. Qed.
Lemma find_value_snoc : forall t v a c x, find_value t v a c = None ->
  find_value (t ++ [mkRow v a c x]) v a c = Some x.
Proof.
  intros t v a c x H. unfold find_value in *.
  assert (F : find (has_key v a c) (t ++ [mkRow v a c x]) = Some (mkRow v a c x)).
  { revert H. induction t as [|r t IH]; cbn [find app].
    - rewrite has_key_row. auto.
    - destruct (has_key v a c r); [discriminate|auto]. }
  rewrite F. auto.
Qed.
Lemma hist_new : forall t v a c, find_value t v a c = None ->
  get_value_hist false t v a c = (t ++ [mkRow v a c (next_value t v a)], true, Some (next_value t v a)).
Proof. intros. unfold get_value_hist. rewrite H. rewrite find_value_snoc by auto. auto. Qed.

Lemma find_current_some : forall t v a c x, uniq t ->
  (find_current t v a c = Some x <-> inv t v a c x /\ find_max_value t v a = Some x).
Proof.
  intros t v a c x U. unfold find_current. split.
  - intros H. match type of H with context [find ?f t] => destruct (find f t) eqn:E end; [|discriminate].
    apply find_some in E. destruct E as [I K]. inversion H; subst. apply andb_true_iff in K. destruct K as [K1 K2].
    apply has_key_iff in K1. destruct (find_max_value t v a) as [m|] eqn:M; [|discriminate].
    apply Z.leb_le in K2. assert (J : inv t v a c (r_value r)) by (unfold inv; rewrite <- K1; auto).
    split; auto. f_equal. apply find_max_some in M. destruct M as [_ B]. specialize (B _ _ J). lia.
  - intros [I M]. rewrite M.
    match goal with |- context [find ?f t] => destruct (find f t) eqn:E end.
    + apply find_some in E. destruct E as [J K]. apply andb_true_iff in K. destruct K as [K _].
      apply has_key_iff in K. f_equal. rewrite K in J. assert (Q := U _ _ J I eq_refl). inversion Q. auto.
    + exfalso. apply (find_none _ _ E) in I. rewrite has_key_row in I. cbn [r_value andb] in I.
      rewrite Z.leb_refl in I. discriminate.
Qed.

Definition replace_row (t : table) (v a c : str) (x : Z) : table :=
  filter (fun r => negb (has_key v a c r)) t ++ [mkRow v a c x].
Lemma replace_inv : forall t v a c x v' a' c' x',
  inv (replace_row t v a c x) v' a' c' x' <->
  (inv t v' a' c' x' /\ (v', a', c') <> (v, a, c)) \/ (v', a', c', x') = (v, a, c, x).
Proof.
  intros. unfold inv, replace_row. rewrite in_app_iff, filter_In, negb_true_iff. cbn [In].
  split.
  - intros [[I K]|[I|[]]].
    + left. split; auto. intros E. inversion E; subst. rewrite has_key_row in K. discriminate.
    + right. inversion I; subst; auto.
  - intros [[I K]|E].
    + left. split; auto. destruct (has_key v a c _) eqn:H; auto. apply has_key_iff in H.
      exfalso. apply K. inversion H; subst; auto.
    + inversion E; subst. right. left. auto.
Qed.
Lemma append_inv : forall t v a c x v' a' c' x',
  inv (t ++ [mkRow v a c x]) v' a' c' x' <->
  inv t v' a' c' x' \/ (v', a', c', x') = (v, a, c, x).
Proof.
  intros. unfold inv. rewrite in_app_iff. cbn [In]. split.
  - intros [I|[I|[]]]; auto. right. inversion I; subst; auto.
  - intros [I|E]; auto. inversion E; subst. auto.
Qed.
Lemma uniq_inv : forall t, uniq t <-> forall v a c x y, inv t v a c x -> inv t v a c y -> x = y.
Proof.
  intros t. split.
  - intros U v a c x y I J. assert (Q := U _ _ I J eq_refl). inversion Q. auto.
  - intros H [v a c x] [v' a' c' y] I J K. inversion K. cbn in *. subst. f_equal. eapply H; eauto.
Qed.
Lemma uniq_replace : forall t v a c x, uniq t -> uniq (replace_row t v a c x).
Proof.
  intros t v a c x U. rewrite uniq_inv in *. intros v' a' c' y z I J.
  apply replace_inv in I. apply replace_inv in J.
  destruct I as [[I NI]|I], J as [[J NJ]|J]; [eauto| | |congruence].
  - exfalso. apply NI. congruence.
  - exfalso. apply NJ. congruence.
Qed.
Lemma uniq_append : forall t v a c x, uniq t -> find_value t v a c = None -> uniq (t ++ [mkRow v a c x]).
Proof.
  intros t v a c x U F. rewrite uniq_inv in *. rewrite find_value_none in F. intros v' a' c' y z I J.
  apply append_inv in I. apply append_inv in J.
  destruct I as [I|I], J as [J|J]; [eauto| | |congruence].
  - inversion J; subst. exfalso. eapply F. eauto.
  - inversion I; subst. exfalso. eapply F. eauto.
Qed.

Lemma nohist_current : forall t v a c x, find_current t v a c = Some x ->
  get_value_no_hist false t v a c = (t, false, Some x).
Proof. intros. unfold get_value_no_hist. rewrite H. auto. Qed.
Lemma nohist_new : forall t v a c, find_current t v a c = None ->
  get_value_no_hist false t v a c = (replace_row t v a c (next_value t v a), true, Some (next_value t v a)).
Proof.
  intros t v a c H. unfold get_value_no_hist. rewrite H. fold (replace_row t v a c (next_value t v a)).
  f_equal. unfold replace_row. apply find_value_snoc. apply find_value_none. intros x I.
  unfold inv in I. apply filter_In in I. destruct I as [_ I]. rewrite has_key_row in I. discriminate.
Qed.

(** * Imports *)
Definition raise_row (t : table) (v a c : str) (x : Z) : table :=
  map (fun r => if has_key v a c r && (r_value r <? x)
                then mkRow (r_version r) (r_arch r) (r_sum r) x else r) t.
Lemma raise_inv : forall t v a c x v' a' c' x',
  inv (raise_row t v a c x) v' a' c' x' <->
  (inv t v' a' c' x' /\ ((v', a', c') <> (v, a, c) \/ x <= x')) \/
  ((v', a', c', x') = (v, a, c, x) /\ exists y, inv t v a c y /\ y < x).
Proof.
  intros. unfold inv, raise_row. rewrite in_map_iff. split.
  - intros (r & E & I). destruct (has_key v a c r && (r_value r <? x)) eqn:K.
    + apply andb_true_iff in K. destruct K as [K1 K2]. apply has_key_iff in K1. apply Z.ltb_lt in K2.
      right. rewrite K1 in E, I. cbn in E. inversion E; subst. split; auto. exists (r_value r). auto.
    + left. subst r. split; auto. apply andb_false_iff in K. destruct K as [K|K].
      * left. intros E. inversion E; subst. rewrite has_key_row in K. discriminate.
      * right. cbn in K. apply Z.ltb_ge in K. auto.
  - intros [[I [K|K]]|[E (y & I & L)]].
    + eexists. split; [|exact I]. destruct (has_key v a c _) eqn:H; auto.
      apply has_key_iff in H. exfalso. apply K. inversion H; subst; auto.
    + eexists. split; [|exact I]. cbn [r_value]. replace (x' <? x) with false by (symmetry; apply Z.ltb_ge; lia).
      rewrite andb_false_r. auto.
    + eexists. split; [|exact I]. rewrite has_key_row. cbn [r_value r_version r_arch r_sum andb].
      replace (y <? x) with true by (symmetry; apply Z.ltb_lt; lia). inversion E; subst; auto.
Qed.
Lemma uniq_raise : forall t v a c x, uniq t -> uniq (raise_row t v a c x).
Proof.
  intros t v a c x U. rewrite uniq_inv in *. intros v' a' c' y z I J.
  apply raise_inv in I. apply raise_inv in J.
  destruct I as [[I NI]|[I (w & W1 & W2)]], J as [[J NJ]|[J (w' & W1' & W2')]].
  - eauto.
  - destruct NI as [NI|NI]; [exfalso; apply NI; congruence|].
    inversion J; subst. assert (y = w') by eauto. lia.
  - destruct NJ as [NJ|NJ]; [exfalso; apply NJ; congruence|].
    inversion I; subst. assert (z = w) by eauto. lia.
  - congruence.
Qed.

(** * One request *)
Definition handled (nh : bool) (t : table) (r : request) : table := fst (fst (handle nh false t r)).

(** Every change of the table is one of these *)
Inductive change (nh : bool) (t : table) : request -> table -> Prop :=
| ch_none : forall r, change nh t r t
| ch_hist : forall v a c, nh = false -> find_value t v a c = None ->
    change nh t (GetPr v a c) (t ++ [mkRow v a c (next_value t v a)])
| ch_nohist : forall v a c, nh = true -> find_current t v a c = None ->
    change nh t (GetPr v a c) (replace_row t v a c (next_value t v a))
| ch_import : forall v a c x, find_value t v a c = None ->
    change nh t (ImportOne v a c x) (t ++ [mkRow v a c x])
| ch_raise : forall v a c x, nh = true -> change nh t (ImportOne v a c x) (raise_row t v a c x).

Lemma handled_change : forall nh t r, change nh t r (handled nh t r).
Proof.
  intros nh t r. destruct r; unfold handled; cbn [handle]; try constructor.
  - destruct nh; cbn [get_value].
    + destruct (find_current t v a c) eqn:E.
      * rewrite (nohist_current _ _ _ _ _ E). constructor.
      * rewrite (nohist_new _ _ _ _ E). constructor; auto.
    + destruct (find_value t v a c) eqn:E.
      * rewrite (hist_found _ _ _ _ _ E). constructor.
      * rewrite (hist_new _ _ _ _ E). constructor; auto.
  - destruct nh; cbn [importone].
    + unfold import_no_hist. destruct (find_value t v a c) eqn:E.
      * fold (raise_row t v a c x). constructor; auto.
      * constructor; auto.
    + unfold import_hist. destruct (find_value t v a c) eqn:E; constructor; auto.
Qed.

Lemma handled_uniq : forall nh t r, uniq t -> uniq (handled nh t r).
Proof.
  intros nh t r U. destruct (handled_change nh t r); auto using uniq_append, uniq_replace, uniq_raise.
Qed.

(** The value of a row never goes down; in history mode it never changes *)
Lemma handled_grows : forall nh t r v a c x, inv t v a c x ->
  exists y, x <= y /\ inv (handled nh t r) v a c y /\ (nh = false -> y = x).
Proof.
  intros nh t r v a c x I. destruct (handled_change nh t r) as [|v' a' c' N F|v' a' c' N F|v' a' c' x' F|v' a' c' x' N].
  - exists x. auto with zarith.
  - exists x. split; [lia|]. split; auto. apply append_inv. auto.
  - subst nh. destruct (list_eq_dec ascii_dec v v'); [destruct (list_eq_dec ascii_dec a a'); [destruct (list_eq_dec ascii_dec c c')|]|].
    + subst. exists (next_value t v' a'). split; [apply Z.lt_le_incl; eapply next_value_gt; eauto|].
      split; [|discriminate]. apply replace_inv. auto.
    + exists x. split; [lia|]. split; [|discriminate]. apply replace_inv. left. split; auto. congruence.
    + exists x. split; [lia|]. split; [|discriminate]. apply replace_inv. left. split; auto. congruence.
    + exists x. split; [lia|]. split; [|discriminate]. apply replace_inv. left. split; auto. congruence.
  - exists x. split; [lia|]. split; auto. apply append_inv. auto.
  - subst nh. destruct (list_eq_dec ascii_dec v v'); [destruct (list_eq_dec ascii_dec a a'); [destruct (list_eq_dec ascii_dec c c')|]|].
    + subst. destruct (Z_lt_le_dec x x').
      * exists x'. split; [lia|]. split; [|discriminate]. apply raise_inv. right. split; eauto.
      * exists x. split; [lia|]. split; [|discriminate]. apply raise_inv. left. auto.
    + exists x. split; [lia|]. split; [|discriminate]. apply raise_inv. left. split; auto. left. congruence.
    + exists x. split; [lia|]. split; [|discriminate]. apply raise_inv. left. split; auto. left. congruence.
    + exists x. split; [lia|]. split; [|discriminate]. apply raise_inv. left. split; auto. left. congruence.
Qed.

(** Without imports into a group, its values identify its checksums *)
Definition inj_group (t : table) (v a : str) : Prop :=
  forall c c' x, inv t v a c x -> inv t v a c' x -> c = c'.
Lemma handled_inj : forall nh t r v a, inj_group t v a ->
  (forall c x, r <> ImportOne v a c x) -> inj_group (handled nh t r) v a.
Proof.
  intros nh t r v a J NI. destruct (handled_change nh t r) as [|v' a' c' N F|v' a' c' N F|v' a' c' x' F|v' a' c' x' N]; auto.
  - intros c1 c2 x I1 I2. apply append_inv in I1. apply append_inv in I2.
    destruct I1 as [I1|I1], I2 as [I2|I2]; [eauto| | |congruence].
    + inversion I2; subst. apply next_value_gt in I1. lia.
    + inversion I1; subst. apply next_value_gt in I2. lia.
  - intros c1 c2 x I1 I2. apply replace_inv in I1. apply replace_inv in I2.
    destruct I1 as [[I1 _]|I1], I2 as [[I2 _]|I2]; [eauto| | |congruence].
    + inversion I2; subst. apply next_value_gt in I1. lia.
    + inversion I1; subst. apply next_value_gt in I2. lia.
  - intros c1 c2 x I1 I2. apply append_inv in I1. apply append_inv in I2.
    destruct I1 as [I1|I1], I2 as [I2|I2]; [eauto| | |congruence].
    + inversion I2; subst. exfalso. eapply NI. eauto.
    + inversion I1; subst. exfalso. eapply NI. eauto.
  - intros c1 c2 x I1 I2. apply raise_inv in I1. apply raise_inv in I2.
    destruct I1 as [[I1 _]|[I1 _]], I2 as [[I2 _]|[I2 _]]; [eauto| | |congruence].
    + inversion I2; subst. exfalso. eapply NI. eauto.
    + inversion I1; subst. exfalso. eapply NI. eauto.
Qed.

(** Keys come from requests *)
Lemma handled_key : forall nh t r v a c x, inv (handled nh t r) v a c x ->
  (exists y, inv t v a c y) \/ r = GetPr v a c \/ exists y, r = ImportOne v a c y.
Proof.
  intros nh t r v a c x I. destruct (handled_change nh t r) as [|v' a' c' N F|v' a' c' N F|v' a' c' x' F|v' a' c' x' N].
  - eauto.
  - apply append_inv in I. destruct I as [I|I]; [eauto|]. inversion I; subst. auto.
  - apply replace_inv in I. destruct I as [[I _]|I]; [eauto|]. inversion I; subst. auto.
  - apply append_inv in I. destruct I as [I|I]; [eauto|]. inversion I; subst. eauto.
  - apply raise_inv in I. destruct I as [[I _]|[I _]]; [eauto|]. inversion I; subst. eauto.
Qed.

(** What a get answers *)
Lemma get_answer : forall nh t v a c x t' d, uniq t -> handle nh false t (GetPr v a c) = (t', d, AValue (Some x)) ->
  t' = handled nh t (GetPr v a c) /\ inv t' v a c x /\
  (nh = true -> find_max_value t' v a = Some x) /\
  (nh = false -> find_value t v a c = None -> forall c' y, inv t v a c' y -> y < x).
Proof.
  intros nh t v a c x t' d U E. unfold handled. rewrite E. cbn [fst]. split; auto.
  cbn [handle] in E. destruct nh; cbn [get_value] in E.
  - destruct (find_current t v a c) as [y|] eqn:F.
    + rewrite (nohist_current _ _ _ _ _ F) in E. inversion E; subst.
      apply find_current_some in F; auto. destruct F. split; auto. split; auto; discriminate.
    + rewrite (nohist_new _ _ _ _ F) in E. inversion E; subst. split; [apply replace_inv; auto|].
      split; [|discriminate]. intros _. apply find_max_some. split.
      * exists c. apply replace_inv. auto.
      * intros c' y I. apply replace_inv in I. destruct I as [[I _]|I]; [|inversion I; lia].
        apply next_value_gt in I. lia.
  - destruct (find_value t v a c) as [y|] eqn:F.
    + rewrite (hist_found _ _ _ _ _ F) in E. inversion E; subst. split; [apply find_value_in; auto|].
      split; [discriminate|]. intros _ Q. discriminate.
    + rewrite (hist_new _ _ _ _ F) in E. inversion E; subst. split; [apply append_inv; auto|].
      split; [discriminate|]. intros _ _ c' y I. eapply next_value_gt. eauto.
Qed.

Lemma import_answer : forall nh t v a c z x t' d, uniq t ->
  handle nh false t (ImportOne v a c z) = (t', d, AValue (Some x)) ->
  t' = handled nh t (ImportOne v a c z) /\ inv t' v a c x.
Proof.
  intros nh t v a c z x t' d U E. unfold handled. rewrite E. cbn [fst]. split; auto.
  cbn [handle] in E. destruct nh; cbn [importone] in E.
  - unfold import_no_hist in E. inversion E; subst.
    match goal with H : context [find ?f ?l] |- _ => destruct (find f l) eqn:F; [|discriminate];
      inversion H; subst end.
    apply find_some in F. destruct F as [I K]. apply andb_true_iff in K. destruct K as [K _].
    apply has_key_iff in K. unfold inv. rewrite <- K. auto.
  - unfold import_hist in E. destruct (find_value t v a c) eqn:F; inversion E; subst.
    + apply find_value_in. auto.
    + apply find_value_in. auto.
Qed.

(** * Runs *)
Lemma run_app : forall nh ro es1 es2 s,
  run nh ro s (es1 ++ es2) =
  (fst (run nh ro s es1) ++ fst (run nh ro (snd (run nh ro s es1)) es2),
   snd (run nh ro (snd (run nh ro s es1)) es2)).
Proof.
  intros nh ro. induction es1 as [|e es1 IH]; intros es2 s; cbn [app run fst snd].
  - destruct (run nh ro s es2). auto.
  - destruct (step nh ro s e) as [s' ans]. rewrite IH.
    destruct (run nh ro s' es1) as [tr s'']. cbn [fst snd].
    destruct (run nh ro s'' es2) as [tr2 s3]. cbn [fst snd app]. auto.
Qed.
Lemma run_events : forall nh ro es s, map fst (fst (run nh ro s es)) = es.
Proof.
  intros nh ro. induction es as [|e es IH]; intros s; cbn [run]; auto.
  destruct (step nh ro s e) as [s' ans]. specialize (IH s'). destruct (run nh ro s' es). cbn in *. congruence.
Qed.
Lemma run_cons_snd : forall nh ro e es s,
  snd (run nh ro s (e :: es)) = snd (run nh ro (fst (step nh ro s e)) es).
Proof.
  intros. cbn [run]. destruct (step nh ro s e) as [s' ans]. cbn [fst]. destruct (run nh ro s' es). auto.
Qed.

Lemma run_at : forall nh ro es s i e ans, nth_error (fst (run nh ro s es)) i = Some (e, ans) ->
  exists es1 es2, es = es1 ++ e :: es2 /\ length es1 = i /\
    snd (step nh ro (snd (run nh ro s es1)) e) = ans.
Proof.
  intros nh ro. induction es as [|e0 es IH]; intros s i e ans H.
  - destruct i; discriminate.
  - cbn [run] in H. destruct (step nh ro s e0) as [s' ans0] eqn:S.
    destruct (run nh ro s' es) as [tr s''] eqn:R. cbn [fst] in H. destruct i as [|i].
    + cbn in H. inversion H; subst. exists [], es. split; auto. split; auto. cbn. rewrite S. auto.
    + cbn in H. replace tr with (fst (run nh ro s' es)) in H by (rewrite R; auto).
      apply IH in H. destruct H as (es1 & es2 & -> & L & A).
      exists (e0 :: es1), es2. split; auto. split; [cbn; auto|]. rewrite run_cons_snd, S. auto.
Qed.

Lemma event_at_list : forall nh ro es s k P, event_at (fst (run nh ro s es)) k P <->
  exists e, nth_error es k = Some e /\ P e.
Proof.
  intros nh ro es s k P.
  assert (Q : nth_error es k = option_map fst (nth_error (fst (run nh ro s es)) k)).
  { rewrite <- nth_error_map, run_events. auto. }
  unfold event_at. rewrite Q. split.
  - intros (e & ans & H & R). exists e. split; auto. rewrite H. auto.
  - intros (e & H & R). destruct (nth_error (fst (run nh ro s es)) k) as [[e' ans]|] eqn:E; [|discriminate].
    cbn in H. inversion H; subst. exists e, ans. auto.
Qed.

(** Everything known about two positions of a run *)
Definition kept_list (es : list event) : Prop :=
  forall es1 es2, es = es1 ++ ECrash :: es2 -> exists e, In e es1 /\ commits e.

Lemma run_two : forall nh ro es s i j e1 ans1 e2 ans2, (i < j)%nat ->
  nth_error (fst (run nh ro s es)) i = Some (e1, ans1) ->
  nth_error (fst (run nh ro s es)) j = Some (e2, ans2) ->
  exists es1 es2 es3, es = es1 ++ e1 :: es2 ++ e2 :: es3 /\ length es1 = i /\
    j = (i + 1 + length es2)%nat /\
    let s1 := snd (run nh ro s es1) in
    let s2 := snd (run nh ro (fst (step nh ro s1 e1)) es2) in
    snd (step nh ro s1 e1) = ans1 /\ snd (step nh ro s2 e2) = ans2.
Proof.
  intros nh ro es s i j e1 ans1 e2 ans2 L H1 H2.
  apply run_at in H1. destruct H1 as (es1 & rest & E & L1 & A1).
  apply run_at in H2. destruct H2 as (esj & es3 & E' & L2 & A2).
  assert (D : exists es2, esj = es1 ++ e1 :: es2).
  { subst i j. rewrite E in E'. clear - E' L. revert es1 L E'. induction esj as [|x esj IH]; intros es1 L E'.
    - cbn in L. lia.
    - destruct es1 as [|y es1].
      + cbn in E'. inversion E'; subst. exists esj. auto.
      + cbn in E'. inversion E'; subst. destruct (IH es1) as (es2 & ->); auto.
        * cbn in L. lia.
        * exists es2. auto. }
  destruct D as (es2 & ->). exists es1, es2, es3. split; [rewrite E'; rewrite <- app_assoc; auto|].
  split; auto. split; [rewrite <- L2, app_length; cbn; lia|]. split; auto.
  rewrite run_app in A2. cbn [snd] in A2. rewrite run_cons_snd in A2. exact A2.
Qed.

Lemma kept_between : forall nh ro s es1 e1 es2 rest,
  kept (fst (run nh ro s (es1 ++ e1 :: es2 ++ rest))) (length es1) (length es1 + 1 + length es2) ->
  kept_list es2.
Proof.
  intros nh ro s es1 e1 es2 rest K a b E.
  destruct (K (length es1 + 1 + length a)%nat) as (l & L & H).
  - subst es2. rewrite app_length. cbn. lia.
  - apply event_at_list. exists ECrash. split; auto. subst es2.
    rewrite nth_error_app2 by lia. replace (length es1 + 1 + length a - length es1)%nat with (S (length a)) by lia.
    cbn. rewrite <- app_assoc. rewrite nth_error_app2 by lia. rewrite Nat.sub_diag. auto.
  - apply event_at_list in H. destruct H as (e & H & C). exists e. split; auto.
    subst es2. rewrite nth_error_app2 in H by lia.
    destruct (l - length es1)%nat as [|m] eqn:M; [lia|]. cbn in H. rewrite <- app_assoc in H.
    rewrite nth_error_app1 in H by lia. eapply nth_error_In. eauto.
Qed.

(** A server that is not dirty has everything on disk *)
Definition clean_inv (s : server) : Prop := dirty s = false -> mem s = disk s.
Lemma handle_dirty : forall nh t r, snd (fst (handle nh false t r)) = false -> handled nh t r = t.
Proof.
  intros nh t r H. unfold handled. destruct r; cbn [handle] in *; auto.
  - destruct nh; cbn [get_value] in *.
    + unfold get_value_no_hist in *. destruct (find_current t v a c); auto. discriminate.
    + unfold get_value_hist in *. destruct (find_value t v a c); auto. discriminate.
  - destruct nh; cbn [importone] in *; [discriminate|].
    unfold import_hist in *. destruct (find_value t v a c); auto. discriminate.
Qed.
Lemma step_request : forall nh s r, fst (step nh false s (ERequest r)) =
  mkServer (handled nh (mem s) r) (disk s) (dirty s || snd (fst (handle nh false (mem s) r))).
Proof.
  intros. unfold step, dispatch, handled. destruct (handle nh false (mem s) r) as [[t d] ans]. auto.
Qed.
Lemma step_clean_inv : forall nh s e, clean_inv s -> clean_inv (fst (step nh false s e)).
Proof.
  intros nh s e I. destruct e as [r| | | |]; try (intros _; reflexivity).
  - rewrite step_request. unfold clean_inv. cbn [dirty mem disk]. intros D.
    apply orb_false_iff in D. destruct D as [D1 D2]. rewrite handle_dirty by auto. apply I. auto.
Qed.
Lemma run_clean_inv : forall nh es s, clean_inv s -> clean_inv (snd (run nh false s es)).
Proof.
  intros nh. induction es as [|e es IH]; intros s I; [exact I|]. rewrite run_cons_snd.
  apply IH. apply step_clean_inv. auto.
Qed.
Lemma clean_fresh : clean_inv fresh.
Proof. intros _. reflexivity. Qed.

Lemma restart_mem : forall nh s, clean_inv s ->
  mem (fst (step nh false s ERestart)) = mem s /\ disk (fst (step nh false s ERestart)) = mem s.
Proof.
  intros nh s I. unfold step, sync_if_dirty. destruct (dirty s) eqn:D; cbn; auto.
  rewrite (I D). auto.
Qed.

(** A property of tables that every request of a class keeps *)
Definition stable (nh : bool) (E : event -> Prop) (Q : table -> Prop) : Prop :=
  forall t r, E (ERequest r) -> Q t -> Q (handled nh t r).

Lemma run_stable_both : forall nh (E : event -> Prop) Q es s, stable nh E Q -> Forall E es ->
  Q (mem s) -> Q (disk s) ->
  Q (mem (snd (run nh false s es))) /\ Q (disk (snd (run nh false s es))).
Proof.
  intros nh E Q. induction es as [|e es IH]; intros s ST F QM QD; [auto|].
  inversion F; subst. rewrite run_cons_snd. apply IH; auto.
  - destruct e; try rewrite step_request; cbn; auto. unfold sync_if_dirty. destruct (dirty s); auto.
  - destruct e; try rewrite step_request; cbn; auto. unfold sync_if_dirty. destruct (dirty s); auto.
Qed.

Lemma run_stable : forall nh (E : event -> Prop) Q es s, stable nh E Q -> Forall E es ->
  clean_inv s -> kept_list es -> Q (mem s) -> Q (mem (snd (run nh false s es))).
Proof.
  intros nh E Q. induction es as [|e es IH]; intros s ST F CI K QM; [auto|].
  inversion F as [|? ? Ee F']; subst. rewrite run_cons_snd.
  assert (KT : ~ commits e -> e <> ECrash -> kept_list es).
  { intros NC NX a b Eq. destruct (K (e :: a) b) as (x & [<-|I] & C); [rewrite Eq; auto|tauto|]. exists x. auto. }
  destruct e as [r| | | |].
  - apply IH; auto.
    + apply step_clean_inv. auto.
    + apply KT; [|discriminate]. intros [C|[C|C]]; discriminate.
    + rewrite step_request. cbn. auto.
  - apply (run_stable_both nh E Q); cbn; auto.
  - apply (run_stable_both nh E Q); cbn; auto.
  - destruct (restart_mem nh s CI) as [R1 R2].
    apply (run_stable_both nh E Q); auto; congruence.
  - exfalso. destruct (K [] es eq_refl) as (x & [] & _).
Qed.

Lemma run_uniq : forall nh es, uniq (mem (snd (run nh false fresh es))).
Proof.
  intros nh es. apply (run_stable_both nh (fun _ => True) uniq); cbn.
  - intros t r _ U. apply handled_uniq. auto.
  - apply Forall_forall. auto.
  - intros r1 r2 [].
  - intros r1 r2 [].
Qed.

(** After an answer the row is there, and stays *)
Definition answered (e : event) (v a c : str) : Prop := mentions v a c e.

Lemma step_answer_inv : forall nh s e v a c x, uniq (mem s) -> mentions v a c e ->
  snd (step nh false s e) = Some (AValue (Some x)) ->
  inv (mem (fst (step nh false s e))) v a c x.
Proof.
  intros nh s e v a c x U [->|(z & ->)] H.
  - rewrite step_request. cbn [mem]. unfold step, dispatch in H.
    destruct (handle nh false (mem s) (GetPr v a c)) as [[t' d] ans] eqn:E. cbn in H. inversion H; subst.
    apply get_answer in E; auto. destruct E as (<- & I & _). auto.
  - rewrite step_request. cbn [mem]. unfold step, dispatch in H.
    destruct (handle nh false (mem s) (ImportOne v a c z)) as [[t' d] ans] eqn:E. cbn in H. inversion H; subst.
    apply import_answer in E; auto. destruct E as (<- & I). auto.
Qed.

Lemma stable_grows : forall nh v a c x,
  stable nh (fun _ => True) (fun t => exists y, x <= y /\ inv t v a c y /\ (nh = false -> y = x)).
Proof.
  intros nh v a c x t r _ (y & L & I & N).
  destruct (handled_grows nh t r v a c y I) as (z & L' & I' & N'). exists z.
  split; [lia|]. split; auto. intros Q. rewrite N', N; auto.
Qed.
Lemma all_true : forall (l : list event), Forall (fun _ => True) l.
Proof. intros. apply Forall_forall. auto. Qed.

(** The common part: an acknowledged value is still in the table when the second
    request is handled. *)
Lemma answered_persists : forall nh es i j v a c x e1 e2 ans2,
  (i < j)%nat -> let tr := fst (run nh false fresh es) in kept tr i j ->
  nth_error tr i = Some (e1, Some (AValue (Some x))) -> mentions v a c e1 ->
  nth_error tr j = Some (e2, ans2) ->
  exists s2, clean_inv s2 /\ uniq (mem s2) /\
    (exists es1 es2, es = es1 ++ e2 :: es2 /\ length es1 = j /\ s2 = snd (run nh false fresh es1)) /\
    (exists y, x <= y /\ inv (mem s2) v a c y /\ (nh = false -> y = x)) /\
    snd (step nh false s2 e2) = ans2.
Proof.
  intros nh es i j v a c x e1 e2 ans2 L tr K H1 M H2. subst tr.
  destruct (run_two _ _ _ _ _ _ _ _ _ _ L H1 H2) as (es1 & es2 & es3 & -> & L1 & -> & A1 & A2).
  set (s1 := snd (run nh false fresh es1)) in *.
  set (s2 := snd (run nh false (fst (step nh false s1 e1)) es2)) in *.
  assert (S2 : s2 = snd (run nh false fresh (es1 ++ e1 :: es2))).
  { rewrite run_app. cbn [snd]. rewrite run_cons_snd. reflexivity. }
  exists s2. split; [rewrite S2; apply run_clean_inv, clean_fresh|].
  split; [rewrite S2; apply run_uniq|].
  split.
  { exists (es1 ++ e1 :: es2), es3. split; [rewrite <- app_assoc; auto|].
    split; auto. rewrite app_length. cbn. lia. }
  split; auto.
  apply (run_stable nh (fun _ => True) _ es2 _ (stable_grows nh v a c x)).
  - apply all_true.
  - apply step_clean_inv. apply run_clean_inv, clean_fresh.
  - subst i. eapply kept_between; eauto.
  - exists x. split; [lia|]. split; auto. apply step_answer_inv; auto. apply run_uniq.
Qed.

Lemma hist_same : forall es i j v a c x y, (i < j)%nat ->
  let tr := fst (run false false fresh es) in
  kept tr i j -> got tr i v a c x \/ imported tr i v a c x -> got tr j v a c y -> x = y.
Proof.
  intros es i j v a c x y L tr K G1 G2.
  assert (P : exists e1, nth_error tr i = Some (e1, Some (AValue (Some x))) /\ mentions v a c e1).
  { destruct G1 as [G1|(z & G1)]; eexists; (split; [exact G1|]); [left|right]; eauto. }
  destruct P as (e1 & G & M).
  destruct (answered_persists _ _ _ _ _ _ _ _ _ _ _ L K G M G2) as (s2 & _ & U & _ & (w & LW & I & N) & A).
  specialize (N eq_refl). subst w. unfold step, dispatch in A.
  assert (F : find_value (mem s2) v a c = Some x) by (apply find_value_some; auto).
  cbn [handle get_value] in A. rewrite (hist_found _ _ _ _ _ F) in A. cbn in A. congruence.
Qed.

Lemma key_mentioned : forall nh es v a c, 
  (exists x, inv (mem (snd (run nh false fresh es))) v a c x) \/
  (exists x, inv (disk (snd (run nh false fresh es))) v a c x) ->
  exists e, In e es /\ mentions v a c e.
Proof.
  intros nh es v a c. induction es as [|e es IH] using rev_ind.
  - intros [(x & [])|(x & [])].
  - rewrite run_app. cbn [snd]. set (s := snd (run nh false fresh es)) in *.
    assert (W : (exists x, inv (mem s) v a c x) \/ (exists x, inv (disk s) v a c x) ->
                exists e', In e' (es ++ [e]) /\ mentions v a c e').
    { intros H. destruct (IH H) as (e' & I & M). exists e'. split; auto. apply in_or_app. auto. }
    rewrite run_cons_snd. cbn [run snd]. intros H.
    destruct e as [r| | | |].
    + rewrite step_request in H. cbn [mem disk] in H. destruct H as [(x & H)|H]; [|auto].
      apply handled_key in H. destruct H as [H|H]; auto.
      exists (ERequest r). split; [apply in_or_app; right; left; auto|].
      destruct H as [->|(y & ->)]; [left; auto|right; eauto].
    + cbn in H. destruct H; auto.
    + cbn in H. destruct H; auto.
    + cbn in H. unfold sync_if_dirty in H. destruct (dirty s); cbn in H; destruct H; auto.
    + cbn in H. destruct H; auto.
Qed.

Lemma hist_new_larger : forall es i j v a c c' x y, (i < j)%nat ->
  let tr := fst (run false false fresh es) in
  kept tr i j -> got tr i v a c x \/ imported tr i v a c x -> got tr j v a c' y ->
  (forall k, (k < j)%nat -> ~ event_at tr k (mentions v a c')) -> x < y.
Proof.
  intros es i j v a c c' x y L tr K G1 G2 NM.
  assert (P : exists e1, nth_error tr i = Some (e1, Some (AValue (Some x))) /\ mentions v a c e1).
  { destruct G1 as [G1|(z & G1)]; eexists; (split; [exact G1|]); [left|right]; eauto. }
  destruct P as (e1 & G & M).
  destruct (answered_persists _ _ _ _ _ _ _ _ _ _ _ L K G M G2)
    as (s2 & _ & U & (es1 & es2 & E & LE & ->) & (w & LW & I & N) & A).
  specialize (N eq_refl). subst w. unfold step, dispatch in A.
  destruct (handle false false (mem (snd (run false false fresh es1))) (GetPr v a c')) as [[t' d] ans] eqn:H.
  cbn in A. inversion A; subst. apply get_answer in H; auto. destruct H as (_ & _ & _ & H).
  eapply H; eauto. apply find_value_none. intros z Z.
  destruct (key_mentioned false es1 v a c') as (e' & I' & M'); [left; eauto|].
  apply In_nth_error in I'. destruct I' as (k & Ek).
  apply (NM k).
  - apply nth_error_Some. congruence.
  - unfold tr. apply event_at_list. exists e'. split; auto. rewrite nth_error_app1; auto.
    apply nth_error_Some. congruence.
Qed.

(** inj_group along import-free runs *)
Lemma run_inj : forall nh es v a, Forall (fun e => ~ imports v a e) es ->
  inj_group (mem (snd (run nh false fresh es))) v a.
Proof.
  intros nh es v a F.
  refine (proj1 (run_stable_both nh (fun e => ~ imports v a e) (fun t => inj_group t v a) es fresh _ F _ _)).
  - intros t r NI J. apply handled_inj; auto. intros c x ->. apply NI. exists c, x. auto.
  - intros c c' x [].
  - intros c c' x [].
Qed.

Lemma get_inj_after : forall nh es v a c y s, Forall (fun e => ~ imports v a e) es ->
  s = snd (run nh false fresh es) ->
  snd (step nh false s (ERequest (GetPr v a c))) = Some (AValue (Some y)) ->
  inj_group (handled nh (mem s) (GetPr v a c)) v a /\ inv (handled nh (mem s) (GetPr v a c)) v a c y /\
  (nh = true -> find_max_value (handled nh (mem s) (GetPr v a c)) v a = Some y).
Proof.
  intros nh es v a c y s F -> A. split.
  - apply handled_inj; [apply run_inj; auto|discriminate].
  - unfold step, dispatch in A.
    destruct (handle nh false (mem (snd (run nh false fresh es))) (GetPr v a c)) as [[t' d] ans] eqn:H.
    cbn in A. inversion A; subst. apply get_answer in H; [|apply run_uniq].
    destruct H as (<- & I & MX & _). auto.
Qed.

Lemma no_imports_prefix : forall nh es s v a es1 es2, es = es1 ++ es2 ->
  (forall k, ~ event_at (fst (run nh false s es)) k (imports v a)) ->
  Forall (fun e => ~ imports v a e) es1.
Proof.
  intros nh es s v a es1 es2 E H. apply Forall_forall. intros e I Q.
  apply In_nth_error in I. destruct I as (k & K). apply (H k). apply event_at_list. exists e.
  split; auto. subst es. rewrite nth_error_app1; auto. apply nth_error_Some. congruence.
Qed.

Lemma distinct_sums : forall nh es i j v a c c' x y, (i < j)%nat ->
  let tr := fst (run nh false fresh es) in
  kept tr i j -> (forall k, ~ event_at tr k (imports v a)) ->
  got tr i v a c x -> got tr j v a c' y -> c <> c' -> x <> y /\ (nh = true -> x < y).
Proof.
  intros nh es i j v a c c' x y L tr K NI G1 G2 NE.
  assert (M : mentions v a c (ERequest (GetPr v a c))) by (left; auto).
  destruct (answered_persists _ _ _ _ _ _ _ _ _ _ _ L K G1 M G2)
    as (s2 & _ & U & (es1 & es2 & E & LE & S2) & (w & LW & I & N) & A).
  destruct (get_inj_after nh es1 v a c' y s2) as (J & IY & MX); auto.
  { unfold tr in NI. eapply no_imports_prefix; eauto. }
  destruct (handled_grows nh (mem s2) (GetPr v a c') v a c w I) as (z & LZ & IZ & NZ).
  split.
  - intros ->. destruct nh.
    + specialize (MX eq_refl). apply find_max_some in MX. destruct MX as [_ B]. specialize (B _ _ IZ).
      assert (z = y) by lia. subst z. apply NE. eapply J; eauto.
    + specialize (N eq_refl). specialize (NZ eq_refl). subst. apply NE. eapply J; eauto.
  - intros ->. specialize (MX eq_refl). apply find_max_some in MX. destruct MX as [_ B].
    specialize (B _ _ IZ). destruct (Z_lt_le_dec x y); auto. assert (z = y) by lia. subst z.
    exfalso. apply NE. eapply J; eauto.
Qed.

Lemma nohist_monotone : forall es i j v a c c' x y, (i < j)%nat ->
  let tr := fst (run true false fresh es) in
  kept tr i j -> got tr i v a c x \/ imported tr i v a c x -> got tr j v a c' y -> x <= y.
Proof.
  intros es i j v a c c' x y L tr K G1 G2.
  assert (P : exists e1, nth_error tr i = Some (e1, Some (AValue (Some x))) /\ mentions v a c e1).
  { destruct G1 as [G1|(z & G1)]; eexists; (split; [exact G1|]); [left|right]; eauto. }
  destruct P as (e1 & G & M).
  destruct (answered_persists _ _ _ _ _ _ _ _ _ _ _ L K G M G2) as (s2 & _ & U & _ & (w & LW & I & N) & A).
  unfold step, dispatch in A.
  destruct (handle true false (mem s2) (GetPr v a c')) as [[t' d] ans] eqn:H.
  cbn in A. inversion A; subst. apply get_answer in H; auto. destruct H as (-> & _ & MX & _).
  specialize (MX eq_refl). apply find_max_some in MX. destruct MX as [_ B].
  destruct (handled_grows true (mem s2) (GetPr v a c') v a c w I) as (z & LZ & IZ & _).
  specialize (B _ _ IZ). lia.
Qed.

(** Repeating the current checksum *)
Lemma handled_other_group : forall nh t r v a, ~ writes_group v a (ERequest r) ->
  forall c x, inv (handled nh t r) v a c x <-> inv t v a c x.
Proof.
  intros nh t r v a NW c x.
  destruct (handled_change nh t r) as [|v' a' c' N F|v' a' c' N F|v' a' c' x' F|v' a' c' x' N].
  - tauto.
  - rewrite append_inv. split; auto. intros [I|I]; auto. inversion I; subst. exfalso. apply NW. exists c'. left. auto.
  - rewrite replace_inv. split.
    + intros [[I _]|I]; auto. inversion I; subst. exfalso. apply NW. exists c'. left. auto.
    + intros I. left. split; auto. intros E. inversion E; subst. apply NW. exists c'. left. auto.
  - rewrite append_inv. split; auto. intros [I|I]; auto. inversion I; subst. exfalso. apply NW. exists c'. right. eauto.
  - rewrite raise_inv. split.
    + intros [[I _]|[I _]]; auto. inversion I; subst. exfalso. apply NW. exists c'. right. eauto.
    + intros I. left. split; auto. left. intros E. inversion E; subst. apply NW. exists c'. right. eauto.
Qed.

Lemma repeat_same : forall nh es i j v a c x y, (i < j)%nat ->
  let tr := fst (run nh false fresh es) in
  kept tr i j -> (forall k, (i < k < j)%nat -> ~ event_at tr k (writes_group v a)) ->
  got tr i v a c x -> got tr j v a c y -> x = y.
Proof.
  intros nh es i j v a c x y L tr K NW G1 G2. unfold tr, got in *.
  destruct (run_two _ _ _ _ _ _ _ _ _ _ L G1 G2) as (es1 & es2 & es3 & -> & L1 & -> & A1 & A2).
  set (s1 := snd (run nh false fresh es1)) in *.
  set (e1 := ERequest (GetPr v a c)) in *.
  set (s1' := fst (step nh false s1 e1)) in *.
  assert (I1 : inv (mem s1') v a c x /\ (nh = true -> find_max_value (mem s1') v a = Some x)).
  { unfold s1', e1. rewrite step_request. cbn [mem]. unfold e1, step, dispatch in A1.
    destruct (handle nh false (mem s1) (GetPr v a c)) as [[t' d] ans] eqn:H.
    cbn in A1. inversion A1; subst. apply get_answer in H; [|apply run_uniq]. destruct H as (<- & H1 & H2 & _). auto. }
  destruct I1 as [I1 MX].
  assert (S : forall c' z, inv (mem (snd (run nh false s1' es2))) v a c' z <-> inv (mem s1') v a c' z).
  { refine (run_stable nh (fun e => ~ writes_group v a e)
              (fun t => forall c' z, inv t v a c' z <-> inv (mem s1') v a c' z) es2 s1' _ _ _ _ _).
    - intros t r NWr H c' z. rewrite <- H. apply handled_other_group. auto.
    - apply Forall_forall. intros e I Q. apply In_nth_error in I. destruct I as (k & Ek).
      apply (NW (i + 1 + k)%nat).
      + assert (k < length es2)%nat by (apply nth_error_Some; congruence). lia.
      + apply event_at_list. exists e. split; auto. subst i. rewrite nth_error_app2 by lia.
        replace (length es1 + 1 + k - length es1)%nat with (S k) by lia. cbn.
        rewrite nth_error_app1; auto. apply nth_error_Some. congruence.
    - apply step_clean_inv. apply run_clean_inv, clean_fresh.
    - subst i. eapply kept_between; eauto.
    - tauto. }
  set (s2 := snd (run nh false s1' es2)) in *.
  assert (U2 : uniq (mem s2)).
  { replace s2 with (snd (run nh false fresh (es1 ++ e1 :: es2))) by (rewrite run_app; cbn [snd]; rewrite run_cons_snd; auto).
    apply run_uniq. }
  unfold e1, step, dispatch in A2. cbn [handle] in A2. destruct nh; cbn [get_value] in A2.
  - assert (F : find_current (mem s2) v a c = Some x).
    { apply find_current_some; auto. split; [apply S; auto|].
      rewrite (next_value_ext (mem s2) (mem s1') v a S). auto. }
    rewrite (nohist_current _ _ _ _ _ F) in A2. cbn in A2. congruence.
  - assert (F : find_value (mem s2) v a c = Some x) by (apply find_value_some; auto; apply S; auto).
    rewrite (hist_found _ _ _ _ _ F) in A2. cbn in A2. congruence.
Qed.

(** * Groups are independent *)
Definition gsim (v a : str) (t1 t2 : table) : Prop := filter (in_group v a) t1 = filter (in_group v a) t2.

Lemma find_filter : forall {A} (f g : A -> bool) l, (forall x, f x = true -> g x = true) ->
  find f l = find f (filter g l).
Proof.
  intros A f g l H. induction l as [|x l IH]; auto. cbn. destruct (f x) eqn:F.
  - rewrite (H x F). cbn. rewrite F. auto.
  - destruct (g x); cbn; [rewrite F|]; auto.
Qed.
Lemma has_key_group : forall v a c r, has_key v a c r = true -> in_group v a r = true.
Proof. intros v a c r H. unfold has_key in H. apply andb_true_iff in H. tauto. Qed.
Lemma gsim_find_value : forall v a c t1 t2, gsim v a t1 t2 -> find_value t1 v a c = find_value t2 v a c.
Proof.
  intros v a c t1 t2 G. unfold find_value.
  rewrite (find_filter _ (in_group v a) t1), (find_filter _ (in_group v a) t2) by apply has_key_group.
  rewrite G. auto.
Qed.
Lemma gsim_max : forall v a t1 t2, gsim v a t1 t2 -> find_max_value t1 v a = find_max_value t2 v a.
Proof. intros v a t1 t2 G. unfold find_max_value. rewrite G. auto. Qed.
Lemma gsim_next : forall v a t1 t2, gsim v a t1 t2 -> next_value t1 v a = next_value t2 v a.
Proof. intros. unfold next_value. erewrite gsim_max; eauto. Qed.
Lemma gsim_current : forall v a c t1 t2, gsim v a t1 t2 -> find_current t1 v a c = find_current t2 v a c.
Proof.
  intros v a c t1 t2 G. unfold find_current. rewrite (gsim_max _ _ _ _ G).
  set (f := fun r => _).
  assert (H : forall r, f r = true -> in_group v a r = true).
  { intros r H. unfold f in H. apply andb_true_iff in H. apply (has_key_group v a c). tauto. }
  rewrite (find_filter f (in_group v a) t1), (find_filter f (in_group v a) t2) by auto. rewrite G. auto.
Qed.

Lemma filter_comm : forall {A} (f g : A -> bool) l, filter f (filter g l) = filter g (filter f l).
Proof.
  intros A f g l. induction l as [|x l IH]; auto. cbn.
  destruct (g x) eqn:G, (f x) eqn:F; cbn; rewrite ?G, ?F, IH; auto.
Qed.
Lemma gsim_append : forall v a t1 t2 r, gsim v a t1 t2 -> gsim v a (t1 ++ [r]) (t2 ++ [r]).
Proof. intros. unfold gsim in *. rewrite !filter_app. congruence. Qed.
Lemma gsim_replace : forall v a t1 t2 c x, gsim v a t1 t2 -> gsim v a (replace_row t1 v a c x) (replace_row t2 v a c x).
Proof.
  intros. unfold replace_row. apply gsim_append. unfold gsim in *.
  rewrite (filter_comm (in_group v a)), (filter_comm (in_group v a) _ t2). congruence.
Qed.
Lemma filter_raise : forall v a t c x,
  filter (in_group v a) (raise_row t v a c x) = raise_row (filter (in_group v a) t) v a c x.
Proof.
  intros v a t c x. unfold raise_row. induction t as [|r t IH]; auto. cbn [map filter].
  destruct (has_key v a c r && (r_value r <? x)) eqn:K.
  - change (in_group v a (mkRow (r_version r) (r_arch r) (r_sum r) x)) with (in_group v a r).
    destruct (in_group v a r) eqn:G; [|auto]. cbn [map]. rewrite K. f_equal. auto.
  - destruct (in_group v a r); [cbn [map]; rewrite K; f_equal|]; auto.
Qed.
Lemma gsim_raise : forall v a t1 t2 c x, gsim v a t1 t2 -> gsim v a (raise_row t1 v a c x) (raise_row t2 v a c x).
Proof. intros. unfold gsim in *. rewrite !filter_raise. congruence. Qed.
Lemma gsim_find_ge : forall v a c x t1 t2, gsim v a t1 t2 ->
  find (fun r => has_key v a c r && (x <=? r_value r)) t1 = find (fun r => has_key v a c r && (x <=? r_value r)) t2.
Proof.
  intros v a c x t1 t2 G. set (f := fun r => _).
  assert (H : forall r, f r = true -> in_group v a r = true).
  { intros r H. unfold f in H. apply andb_true_iff in H. apply (has_key_group v a c). tauto. }
  rewrite (find_filter f (in_group v a) t1), (find_filter f (in_group v a) t2) by auto. rewrite G. auto.
Qed.
Lemma existsb_filter_ : forall {A} (f g : A -> bool) l, (forall x, f x = true -> g x = true) ->
  existsb f l = existsb f (filter g l).
Proof.
  intros A f g l H. induction l as [|x l IH]; auto. cbn. destruct (f x) eqn:F.
  - rewrite (H x F). cbn. rewrite F. auto.
  - destruct (g x); cbn; [rewrite F|]; auto.
Qed.

Lemma gsim_handle : forall nh ro v a t1 t2 r, gsim v a t1 t2 -> concerns v a (ERequest r) = true ->
  gsim v a (fst (fst (handle nh ro t1 r))) (fst (fst (handle nh ro t2 r))) /\
  snd (handle nh ro t1 r) = snd (handle nh ro t2 r).
Proof.
  intros nh ro v a t1 t2 r G C.
  destruct r as [v' a' c|v' a' c x|v' a' c|v' a'|v' a'|]; cbn [concerns] in C; try discriminate;
    (apply andb_true_iff in C; destruct C as [C1 C2]; apply seqb_eq in C1; apply seqb_eq in C2; subst v' a').
  - cbn [handle]. destruct nh; cbn [get_value].
    + unfold get_value_no_hist. rewrite <- (gsim_current _ _ c _ _ G), <- (gsim_next _ _ _ _ G).
      destruct (find_current t1 v a c); [cbn; auto|]. destruct ro; [cbn; auto|].
      fold (replace_row t1 v a c (next_value t1 v a)). fold (replace_row t2 v a c (next_value t1 v a)).
      assert (G' := gsim_replace v a t1 t2 c (next_value t1 v a) G). cbn [fst snd].
      rewrite (gsim_find_value _ _ c _ _ G'). auto.
    + unfold get_value_hist. rewrite <- (gsim_find_value _ _ c _ _ G), <- (gsim_next _ _ _ _ G).
      destruct (find_value t1 v a c); [cbn; auto|]. destruct ro; [cbn; auto|].
      assert (G' := gsim_append v a t1 t2 (mkRow v a c (next_value t1 v a)) G). cbn [fst snd].
      rewrite (gsim_find_value _ _ c _ _ G'). auto.
  - cbn [handle]. destruct ro; [cbn; auto|]. destruct nh; cbn [importone].
    + unfold import_no_hist. fold (raise_row t1 v a c x). fold (raise_row t2 v a c x).
      rewrite <- (gsim_find_value _ _ c _ _ G). destruct (find_value t1 v a c); cbn [fst snd].
      * assert (G' := gsim_raise v a t1 t2 c x G). rewrite (gsim_find_ge _ _ c x _ _ G'). auto.
      * assert (G' := gsim_append v a t1 t2 (mkRow v a c x) G). rewrite (gsim_find_ge _ _ c x _ _ G'). auto.
    + unfold import_hist. rewrite <- (gsim_find_value _ _ c _ _ G). destruct (find_value t1 v a c); cbn [fst snd]; auto.
      assert (G' := gsim_append v a t1 t2 (mkRow v a c x) G). rewrite (gsim_find_value _ _ c _ _ G'). auto.
  - cbn. rewrite (gsim_find_value _ _ c _ _ G). auto.
  - cbn. unfold test_package. rewrite (existsb_filter_ _ (in_group v a) t1), (existsb_filter_ _ (in_group v a) t2) by auto.
    rewrite G. auto.
  - cbn. rewrite (gsim_max _ _ _ _ G). auto.
Qed.

Lemma gsim_other : forall nh ro v a t r, concerns v a (ERequest r) = false ->
  gsim v a (fst (fst (handle nh ro t r))) t.
Proof.
  intros nh ro v a t r C. unfold gsim.
  assert (AP : forall v' a' c x, seqb v' v && seqb a' a = false ->
    filter (in_group v a) (t ++ [mkRow v' a' c x]) = filter (in_group v a) t).
  { intros v' a' c x H. rewrite filter_app. cbn. unfold in_group at 2. cbn. rewrite H. apply app_nil_r. }
  destruct r as [v' a' c|v' a' c x|v' a' c|v' a'|v' a'|v' a' c]; cbn [concerns] in C; auto.
  - cbn [handle]. destruct nh; cbn [get_value].
    + unfold get_value_no_hist. destruct (find_current t v' a' c); auto. destruct ro; auto. cbn [fst].
      rewrite filter_app. cbn. unfold in_group at 2. cbn. rewrite C, app_nil_r.
      clear AP. induction t as [|r t IH]; auto. cbn. destruct (has_key v' a' c r) eqn:K; cbn.
      * replace (in_group v a r) with false; auto. symmetry. apply has_key_group in K.
        apply in_group_iff in K. destruct K as [K1 K2]. unfold in_group. rewrite K1, K2. auto.
      * destruct (in_group v a r); [f_equal|]; auto.
    + unfold get_value_hist. destruct (find_value t v' a' c); auto. destruct ro; auto. cbn [fst]. auto.
  - cbn [handle]. destruct ro; auto. destruct nh; cbn [importone].
    + unfold import_no_hist. destruct (find_value t v' a' c); cbn [fst]; auto.
      clear AP. induction t as [|r t IH]; auto. cbn [map filter]. destruct (has_key v' a' c r && (r_value r <? x)) eqn:K; cbn.
      * unfold in_group at 1. cbn. fold (in_group v a r). apply andb_true_iff in K. destruct K as [K _].
        apply has_key_group in K. apply in_group_iff in K. destruct K as [K1 K2].
        replace (in_group v a r) with false; auto. unfold in_group. rewrite K1, K2. auto.
      * destruct (in_group v a r); [f_equal|]; auto.
    + unfold import_hist. destruct (find_value t v' a' c); auto. cbn [fst]. auto.
Qed.

Definition ssim (v a : str) (s1 s2 : server) : Prop :=
  gsim v a (mem s1) (mem s2) /\ gsim v a (disk s1) (disk s2) /\ clean_inv s1 /\ clean_inv s2.

Lemma ssim_step : forall nh v a s1 s2 e, ssim v a s1 s2 -> concerns v a e = true ->
  ssim v a (fst (step nh false s1 e)) (fst (step nh false s2 e)) /\
  snd (step nh false s1 e) = snd (step nh false s2 e).
Proof.
  intros nh v a s1 s2 e (G1 & G2 & C1 & C2) C.
  assert (CC1 := step_clean_inv nh s1 e C1). assert (CC2 := step_clean_inv nh s2 e C2).
  unfold ssim. destruct e as [r| | | |].
  - destruct (gsim_handle nh false v a (mem s1) (mem s2) r G1 C) as [H1 H2].
    rewrite !step_request in *. cbn [mem disk]. unfold handled.
    split; [split; [auto|split; [auto|split; auto]]|].
    unfold step, dispatch. destruct (handle nh false (mem s1) r) as [[? ?] ?].
    destruct (handle nh false (mem s2) r) as [[? ?] ?]. cbn in *. congruence.
  - split; [|auto]. cbn. split; [|split; [|split]]; auto.
  - split; [|auto]. cbn. split; [|split; [|split]]; auto.
  - destruct (restart_mem nh s1 C1) as [A1 A2]. destruct (restart_mem nh s2 C2) as [B1 B2].
    rewrite A1, A2, B1, B2. split; auto.
  - split; [|auto]. cbn. split; [|split; [|split]]; auto.
Qed.

Lemma ssim_run : forall nh v a es s1 s2, ssim v a s1 s2 ->
  filter (fun p => concerns v a (fst p)) (fst (run nh false s1 es)) =
  fst (run nh false s2 (filter (concerns v a) es)).
Proof.
  intros nh v a. induction es as [|e es IH]; intros s1 s2 S; auto. cbn [filter].
  destruct (concerns v a e) eqn:C.
  - destruct (ssim_step nh v a s1 s2 e S C) as [S' A]. specialize (IH _ _ S'). cbn [run].
    destruct (step nh false s1 e) as [s1' a1]. destruct (step nh false s2 e) as [s2' a2]. cbn [fst snd] in *.
    destruct (run nh false s1' es) as [tr1 ?]. destruct (run nh false s2' (filter (concerns v a) es)) as [tr2 ?].
    cbn [fst filter] in *. rewrite C. congruence.
  - destruct e as [r| | | |]; try discriminate.
    assert (S' : ssim v a (fst (step nh false s1 (ERequest r))) s2).
    { destruct S as (G1 & G2 & C1 & C2). assert (CC1 := step_clean_inv nh s1 (ERequest r) C1).
      rewrite step_request in *. unfold ssim. cbn [mem disk]. split; [|split; [|split]]; auto.
      unfold handled. unfold gsim in *. rewrite <- G1. apply gsim_other. auto. }
    specialize (IH _ _ S'). cbn [run]. destruct (step nh false s1 (ERequest r)) as [s1' a1]. cbn [fst] in IH.
    destruct (run nh false s1' es) as [tr1 ?]. cbn [fst filter] in *. rewrite C. auto.
Qed.

(** * Export and import *)
Lemma export_hist_in : forall t v a c x, inv (export false t [] [] []) v a c x <-> inv t v a c x /\ v <> [].
Proof.
  intros. unfold inv, export. rewrite !filter_In. cbn [opt_match r_version andb].
  rewrite negb_true_iff. split.
  - intros [[I _] N]. split; auto. intros ->. rewrite seqb_refl in N. discriminate.
  - intros [I N]. split; auto. destruct (seqb v []) eqn:E; auto. apply seqb_eq in E. congruence.
Qed.
Lemma export_nohist_in : forall t v a c x, inv (export true t [] [] []) v a c x <->
  inv t v a c x /\ find_max_value t v a = Some x /\ v <> [].
Proof.
  intros. unfold inv, export. rewrite !filter_In. cbn [opt_match r_version r_arch r_sum r_value].
  rewrite !andb_true_r, negb_true_iff. split.
  - intros [[I M] N]. split; auto. split; [|intros ->; rewrite seqb_refl in N; discriminate].
    destruct (find_max_value t v a); [|discriminate]. apply Z.eqb_eq in M. congruence.
  - intros (I & M & N). rewrite M, Z.eqb_refl. split; auto.
    destruct (seqb v []) eqn:E; auto. apply seqb_eq in E. congruence.
Qed.
Lemma uniq_sub : forall t t', uniq t -> (forall r, In r t' -> In r t) -> uniq t'.
Proof. intros t t' U H r1 r2 I J. apply U; auto. Qed.
Lemma export_sub : forall nh t v a c r, In r (export nh t v a c) -> In r t.
Proof. intros nh t v a c r I. unfold export in I. rewrite !filter_In in I. tauto. Qed.

(** Importing rows with distinct keys into a table without those keys adds them *)
Lemma import_all_in : forall nh rows t, uniq t -> uniq (t ++ rows) ->
  (forall v a c x, inv (import_all nh t rows) v a c x <-> inv t v a c x \/ inv rows v a c x) /\
  uniq (import_all nh t rows).
Proof.
  intros nh. induction rows as [|[v0 a0 c0 x0] rows IH]; intros t U UA.
  - cbn. split; auto. intros. unfold inv. cbn. tauto.
  - cbn [import_all fold_left r_version r_arch r_sum r_value].
    set (t1 := fst (fst (importone nh false t v0 a0 c0 x0))).
    assert (T1 : (forall v a c x, inv t1 v a c x <-> inv t v a c x \/ (v, a, c, x) = (v0, a0, c0, x0)) /\ uniq t1).
    { unfold t1, importone. destruct (find_value t v0 a0 c0) as [y|] eqn:F.
      - assert (y = x0).
        { apply find_value_in in F. rewrite uniq_inv in UA. eapply UA; [apply in_or_app; left; exact F|].
          apply in_or_app. right. left. auto. }
        subst y. apply find_value_in in F. destruct nh.
        + unfold import_no_hist. rewrite (proj2 (find_value_some t v0 a0 c0 x0 U) F). cbn [fst].
          fold (raise_row t v0 a0 c0 x0). split; [|apply uniq_raise; auto].
          intros v a c x. rewrite raise_inv. split.
          * intros [[I _]|[E _]]; auto.
          * intros [I|E].
            -- left. split; auto. destruct (list_eq_dec ascii_dec v v0); [|left; congruence].
               destruct (list_eq_dec ascii_dec a a0); [|left; congruence].
               destruct (list_eq_dec ascii_dec c c0); [|left; congruence]. subst. right.
               rewrite uniq_inv in U. rewrite (U _ _ _ _ _ I F). lia.
            -- inversion E; subst. left. split; auto. right. lia.
        + unfold import_hist. rewrite (proj2 (find_value_some t v0 a0 c0 x0 U) F). cbn [fst]. split; auto.
          intros v a c x. split; auto. intros [I|E]; auto. inversion E; subst. auto.
      - assert (E : fst (fst (if nh then import_no_hist false t v0 a0 c0 x0 else import_hist false t v0 a0 c0 x0))
                    = t ++ [mkRow v0 a0 c0 x0]).
        { destruct nh; unfold import_no_hist, import_hist; rewrite F; auto. }
        rewrite E. split; [intros; apply append_inv|apply uniq_append; auto]. }
    destruct T1 as [T1 U1].
    destruct (IH t1 U1) as [A B].
    { rewrite uniq_inv in *. intros v a c x y I J.
      assert (SW : forall z, inv (t1 ++ rows) v a c z -> inv (t ++ mkRow v0 a0 c0 x0 :: rows) v a c z).
      { intros z Z. unfold inv in Z. apply in_app_or in Z. apply in_or_app. destruct Z as [Z|Z]; [|right; right; auto].
        apply T1 in Z. destruct Z as [Z|Z]; [left; auto|]. inversion Z; subst. right. left. auto. }
      eapply UA; apply SW; eauto. }
    split; auto. intros v a c x. fold (import_all nh t1 rows). rewrite A, T1. unfold inv. cbn [In].
    split.
    + intros [[I|E]|I]; auto. inversion E; subst. auto.
    + intros [I|[E|I]]; auto. inversion E; subst. auto.
Qed.

Lemma import_export : forall nh t, uniq t ->
  (forall v a c x, inv (import_all nh [] (export nh t [] [] [])) v a c x <-> inv (export nh t [] [] []) v a c x) /\
  uniq (import_all nh [] (export nh t [] [] [])).
Proof.
  intros nh t U. destruct (import_all_in nh (export nh t [] [] []) []) as [A B].
  - intros r1 r2 [].
  - cbn. eapply uniq_sub; eauto. intros r I. eapply export_sub; eauto.
  - split; auto. intros. rewrite A. unfold inv. cbn. tauto.
Qed.

(** Tables that answer alike.  History mode: same rows; no-history mode: same
    current value, given to the same checksums. *)
Definition hsim (t1 t2 : table) : Prop := forall v a c x, v <> [] -> (inv t1 v a c x <-> inv t2 v a c x).
Definition nsim (t1 t2 : table) : Prop := forall v a c x, v <> [] ->
  ((inv t1 v a c x /\ find_max_value t1 v a = Some x) <-> (inv t2 v a c x /\ find_max_value t2 v a = Some x)).

Lemma nsim_max : forall t1 t2 v a, nsim t1 t2 -> v <> [] -> find_max_value t1 v a = find_max_value t2 v a.
Proof.
  assert (H : forall t1 t2 v a m, nsim t1 t2 -> v <> [] -> find_max_value t1 v a = Some m -> find_max_value t2 v a = Some m).
  { intros t1 t2 v a m S N E. assert (E' := E). apply find_max_some in E. destruct E as [(c & I) _].
    apply (S v a c m N). auto. }
  intros t1 t2 v a S N. destruct (find_max_value t1 v a) as [m|] eqn:E1.
  - symmetry. eapply H; eauto.
  - destruct (find_max_value t2 v a) as [m|] eqn:E2; auto.
    assert (S' : nsim t2 t1) by (intros ? ? ? ? Q; symmetry; apply S; auto).
    rewrite (H _ _ _ _ _ S' N E2) in E1. discriminate.
Qed.

Lemma sim_get : forall (nh : bool) t1 t2 v a c, uniq t1 -> uniq t2 -> v <> [] ->
  (if nh then nsim t1 t2 else hsim t1 t2) ->
  snd (handle nh false t1 (GetPr v a c)) = snd (handle nh false t2 (GetPr v a c)) /\
  (if nh then nsim (handled nh t1 (GetPr v a c)) (handled nh t2 (GetPr v a c))
   else hsim (handled nh t1 (GetPr v a c)) (handled nh t2 (GetPr v a c))).
Proof.
  intros nh t1 t2 v a c U1 U2 N S. unfold handled. cbn [handle]. destruct nh; cbn [get_value].
  - assert (MX := nsim_max t1 t2 v a S N).
    assert (NX : next_value t1 v a = next_value t2 v a) by (unfold next_value; rewrite MX; auto).
    destruct (find_current t1 v a c) as [x|] eqn:F1.
    + assert (F2 : find_current t2 v a c = Some x).
      { apply find_current_some; auto. apply find_current_some in F1; auto. apply S; auto. }
      rewrite (nohist_current _ _ _ _ _ F1), (nohist_current _ _ _ _ _ F2). cbn. auto.
    + assert (F2 : find_current t2 v a c = None).
      { destruct (find_current t2 v a c) as [x|] eqn:F2; auto. apply find_current_some in F2; auto.
        apply S in F2; auto. apply find_current_some in F2; auto. congruence. }
      rewrite (nohist_new _ _ _ _ F1), (nohist_new _ _ _ _ F2), <- NX. cbn [fst snd]. split; auto.
      assert (MR : forall t, next_value t v a = next_value t1 v a ->
        find_max_value (replace_row t v a c (next_value t1 v a)) v a = Some (next_value t1 v a)).
      { intros t E. apply find_max_some. split; [exists c; apply replace_inv; auto|].
        intros c' y I. apply replace_inv in I. destruct I as [[I _]|I]; [|inversion I; lia].
        apply next_value_gt in I. rewrite E in I. lia. }
      assert (OT : forall t v' a', (v', a') <> (v, a) ->
        find_max_value (replace_row t v a c (next_value t1 v a)) v' a' = find_max_value t v' a').
      { intros t v' a' NE. apply next_value_ext. intros c' x. rewrite replace_inv. split.
        - intros [[I _]|I]; auto. inversion I; subst. congruence.
        - intros I. left. split; auto. congruence. }
      intros v' a' c' x N'. 
      assert (D : (v', a') = (v, a) \/ (v', a') <> (v, a)).
      { destruct (list_eq_dec ascii_dec v' v); [|right; congruence].
        destruct (list_eq_dec ascii_dec a' a); [left|right]; congruence. }
      destruct D as [D|D].
      * inversion D; subst v' a'. rewrite !MR by auto. rewrite !replace_inv.
        split; intros [[[I _]|I] Q]; inversion Q; subst x.
        -- apply next_value_gt in I. lia.
        -- auto.
        -- apply next_value_gt in I. rewrite <- NX in I. lia.
        -- auto.
      * rewrite !OT by auto. rewrite !replace_inv. specialize (S v' a' c' x N'). split; intros [[[I _]|I] Q].
        -- destruct (proj1 S (conj I Q)). split; auto. left. split; auto. congruence.
        -- inversion I; subst. congruence.
        -- destruct (proj2 S (conj I Q)). split; auto. left. split; auto. congruence.
        -- inversion I; subst. congruence.
  - assert (NX : next_value t1 v a = next_value t2 v a).
    { unfold next_value. rewrite (next_value_ext t1 t2 v a); auto. }
    destruct (find_value t1 v a c) as [x|] eqn:F1.
    + assert (F2 : find_value t2 v a c = Some x).
      { apply find_value_some; auto. apply find_value_some in F1; auto. apply S; auto. }
      rewrite (hist_found _ _ _ _ _ F1), (hist_found _ _ _ _ _ F2). cbn. auto.
    + assert (F2 : find_value t2 v a c = None).
      { apply find_value_none. rewrite find_value_none in F1. intros x I. apply S in I; auto. eapply F1; eauto. }
      rewrite (hist_new _ _ _ _ F1), (hist_new _ _ _ _ F2), <- NX. cbn [fst snd]. split; auto.
      intros v' a' c' x N'. rewrite !append_inv, (S v' a' c' x N'). tauto.
Qed.

Lemma sim_same_gets : forall (nh : bool) s1 s2, uniq (mem s1) -> uniq (mem s2) ->
  (if nh then nsim (mem s1) (mem s2) else hsim (mem s1) (mem s2)) -> same_gets nh s1 s2.
Proof.
  intros nh s1 s2 U1 U2 S es F. revert s1 s2 U1 U2 S. induction F as [|e es (v & a & c & -> & N) F IH]; intros; auto.
  destruct (sim_get nh _ _ v a c U1 U2 N S) as [A S'].
  assert (E1 : fst (step nh false s1 (ERequest (GetPr v a c))) = fst (step nh false s1 (ERequest (GetPr v a c)))) by auto.
  specialize (IH (fst (step nh false s1 (ERequest (GetPr v a c)))) (fst (step nh false s2 (ERequest (GetPr v a c))))).
  rewrite !step_request in IH. cbn [mem] in IH. cbn [run].
  pose proof (step_request nh s1 (GetPr v a c)) as R1. pose proof (step_request nh s2 (GetPr v a c)) as R2.
  assert (B1 : snd (step nh false s1 (ERequest (GetPr v a c))) = Some (snd (handle nh false (mem s1) (GetPr v a c)))).
  { unfold step, dispatch. destruct (handle nh false (mem s1) (GetPr v a c)) as [[? ?] ?]. auto. }
  assert (B2 : snd (step nh false s2 (ERequest (GetPr v a c))) = Some (snd (handle nh false (mem s2) (GetPr v a c)))).
  { unfold step, dispatch. destruct (handle nh false (mem s2) (GetPr v a c)) as [[? ?] ?]. auto. }
  destruct (step nh false s1 (ERequest (GetPr v a c))) as [s1' a1].
  destruct (step nh false s2 (ERequest (GetPr v a c))) as [s2' a2].
  cbn [fst snd] in *. rewrite <- R1, <- R2 in IH.
  specialize (IH (handled_uniq _ _ _ U1) (handled_uniq _ _ _ U2) S').
  destruct (run nh false s1' es). destruct (run nh false s2' es). cbn in *. congruence.
Qed.

(** * Read-only servers *)
Lemma handle_readonly : forall nh t r, fst (handle nh true t r) = (t, false).
Proof.
  intros nh t r. destruct r; auto. cbn [handle]. destruct nh; cbn [get_value].
  - unfold get_value_no_hist. destruct (find_current t v a c); auto.
  - unfold get_value_hist. destruct (find_value t v a c); auto.
Qed.
Lemma readonly_run : forall nh es t, 
  mem (snd (run nh true (mkServer t t false) es)) = t /\ disk (snd (run nh true (mkServer t t false) es)) = t.
Proof.
  intros nh. induction es as [|e es IH]; intros t; [auto|]. rewrite run_cons_snd.
  assert (E : fst (step nh true (mkServer t t false) e) = mkServer t t false).
  { destruct e; auto. unfold step, dispatch. cbn [mem disk dirty].
    destruct (handle nh true t r) as [[t' d] ans] eqn:H. pose proof (handle_readonly nh t r) as Q. rewrite H in Q.
    cbn in Q. inversion Q; subst. auto. }
  rewrite E. apply IH.
Qed.
