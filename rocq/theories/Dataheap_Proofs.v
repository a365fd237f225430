(** Lemmas for C38. *)
From Coq Require Import Ascii String List Bool Arith Lia.
From Verif Require Import Str_Model Str_Proofs Data_Model Data_Proofs Dataheap_Model Dataheap_Spec.
Import ListNotations.
Open Scope list_scope.

Lemma upd_same {A} (f : nat -> A) k v : upd f k v k = v.
Proof. unfold upd. now rewrite Nat.eqb_refl. Qed.
Lemma upd_other {A} (f : nat -> A) k v x : x <> k -> upd f k v x = f x.
Proof. intros N. unfold upd. apply Nat.eqb_neq in N. now rewrite N. Qed.

(** ** Well-formed heaps: every dictionary of flags belongs to one variable of
    one datastore, and mutable objects are of one kind: 0 lists, 1 the set of
    exported names, 2 the table of renamed variables. *)
Definition kind_of (var flag : str) : nat := if seqb var (s_ "__exportlist") && seqb flag (s_ "_content") then 1 else 0.
Record wf (K : nat -> nat) (h : heap) : Prop := {
  w_owner : forall j k v w a, get (h_dict h j) v = Some a -> get (h_dict h k) w = Some a -> j = k /\ v = w;
  w_lt : forall j v a, get (h_dict h j) v = Some a -> a < h_next h;
  w_dict : forall j, h_stores h <= j -> h_dict h j = [];
  w_parent : forall j p, h_parent h j = Some p -> p < j /\ j < h_stores h;
  w_refs : forall j v a f c, get (h_dict h j) v = Some a -> In (f, Obj c) (h_flags h a) -> c < h_next h /\ K c = kind_of v f;
  w_over : forall j v c, get (h_over h j) v = Some c -> c < h_next h /\ K c = 0;
  w_ren : forall j, h_ren h j < h_next h /\ K (h_ren h j) = 2
}.
Definition owned (h : heap) (i a : nat) : Prop := exists v, get (h_dict h i) v = Some a.
Record frame (K : nat -> nat) (strict : bool) (h h' : heap) (i : nat) : Prop := {
  f_dict : forall j, j <> i -> j < h_stores h -> h_dict h' j = h_dict h j;
  f_parent : forall j, j < h_stores h -> h_parent h' j = h_parent h j;
  f_over : forall j, j <> i -> j < h_stores h -> h_over h' j = h_over h j;
  f_flags : forall a, a < h_next h -> ~ owned h i a -> h_flags h' a = h_flags h a;
  f_cont : forall c, c < h_next h -> strict = true \/ K c = 0 -> h_cont h' c = h_cont h c;
  f_next : h_next h <= h_next h';
  f_owned : forall a, a < h_next h -> owned h' i a -> owned h i a;
  f_stores : h_stores h <= h_stores h'
}.
Definition trans (strict : bool) (i : nat) (K : nat -> nat) (h : heap) (K' : nat -> nat) (h' : heap) : Prop :=
  wf K' h' /\ frame K strict h h' i /\ (forall c, c < h_next h -> K' c = K c) /\ (i < h_stores h -> i < h_stores h').
Lemma frame_refl K s h i : frame K s h h i.
Proof. constructor; auto. Qed.
Lemma trans_refl s i K h : wf K h -> trans s i K h K h.
Proof. intros W. split; auto. split; [apply frame_refl|auto]. Qed.
Lemma trans_trans s i K1 h1 K2 h2 K3 h3 : trans s i K1 h1 K2 h2 -> trans s i K2 h2 K3 h3 -> trans s i K1 h1 K3 h3.
Proof.
  intros (W2 & F & E & L) (W3 & G & E' & L'). split; auto. split; [|split; [|auto]].
  - pose proof (f_next _ _ _ _ _ F) as N1. pose proof (f_next _ _ _ _ _ G) as N2. pose proof (f_stores _ _ _ _ _ F) as S1. pose proof (f_stores _ _ _ _ _ G) as S2. constructor; try lia.
    + intros j N J. rewrite (f_dict _ _ _ _ _ G), (f_dict _ _ _ _ _ F); auto. lia.
    + intros j J. rewrite (f_parent _ _ _ _ _ G), (f_parent _ _ _ _ _ F); auto. lia.
    + intros j N J. rewrite (f_over _ _ _ _ _ G), (f_over _ _ _ _ _ F); auto. lia.
    + intros a A O. rewrite (f_flags _ _ _ _ _ G), (f_flags _ _ _ _ _ F); auto; [lia|]. intros O'. apply O. now apply (f_owned _ _ _ _ _ F).
    + intros c C P. rewrite (f_cont _ _ _ _ _ G), (f_cont _ _ _ _ _ F); auto; [lia|]. rewrite E; auto.
    + intros a A O. apply (f_owned _ _ _ _ _ F); auto. apply (f_owned _ _ _ _ _ G); auto. lia.
  - pose proof (f_next _ _ _ _ _ F). intros c C. rewrite E', E; auto. lia.
Qed.

(** ** Primitive changes *)
Definition refs_ok (K : nat -> nat) (h : heap) (var : str) (f : list (str * value)) : Prop :=
  forall fl c, In (fl, Obj c) f -> c < h_next h /\ K c = kind_of var fl.
Lemma attach_trans s i K h var f : wf K h -> i < h_stores h -> refs_ok K h var f ->
  let h1 := fst (new_flags h f) in
  trans s i K h K (write_dict h1 i (set (h_dict h1 i) var (h_next h))).
Proof.
  intros W I R h1. cbn [h1 new_flags fst]. split; [|split; [|split; auto]].
  - constructor; cbn [write_dict h_dict h_next h_stores h_parent h_flags h_over h_ren].
    + intros j k v w a Hj Hk. unfold upd in Hj, Hk.
      destruct (Nat.eqb j i) eqn:Qj, (Nat.eqb k i) eqn:Qk; try apply Nat.eqb_eq in Qj; try apply Nat.eqb_eq in Qk; subst; rewrite ?get_set in *.
      * destruct (seqb v var) eqn:Qv, (seqb w var) eqn:Qw; try apply seqb_eq in Qv; try apply seqb_eq in Qw; subst; auto.
        -- injection Hj as <-. apply (w_lt _ _ W) in Hk. lia.
        -- injection Hk as <-. apply (w_lt _ _ W) in Hj. lia.
        -- apply (w_owner _ _ W i i v w a); auto.
      * destruct (seqb v var) eqn:Qv; [injection Hj as <-; apply (w_lt _ _ W) in Hk; lia|]. apply (w_owner _ _ W i k v w a); auto.
      * destruct (seqb w var) eqn:Qw; [injection Hk as <-; apply (w_lt _ _ W) in Hj; lia|]. apply (w_owner _ _ W j i v w a); auto.
      * apply (w_owner _ _ W j k v w a); auto.
    + intros j v a H. unfold upd in H. destruct (Nat.eqb j i); [|apply (w_lt _ _ W) in H; lia]. rewrite get_set in H. destruct (seqb v var); [injection H as <-; lia|apply (w_lt _ _ W) in H; lia].
    + intros j J. rewrite upd_other by lia. now apply (w_dict _ _ W).
    + apply (w_parent _ _ W).
    + intros j v a fl c Hj Hf. assert (X : c < h_next h /\ K c = kind_of v fl); [|destruct X; split; auto; lia].
      unfold upd in Hj. destruct (Nat.eqb j i) eqn:Qj.
      * rewrite get_set in Hj. destruct (seqb v var) eqn:Qv.
        -- apply seqb_eq in Qv. injection Hj as <-. subst v. rewrite upd_same in Hf. now apply R.
        -- rewrite upd_other in Hf by (apply (w_lt _ _ W) in Hj; lia). apply (w_refs _ _ W i v a); auto.
      * rewrite upd_other in Hf by (apply (w_lt _ _ W) in Hj; lia). apply (w_refs _ _ W j v a); auto.
    + intros j v c H. apply (w_over _ _ W) in H. destruct H; split; auto; lia.
    + intros j. destruct (w_ren _ _ W j). split; auto; lia.
  - constructor; cbn [write_dict h_dict h_next h_stores h_parent h_flags h_over h_cont]; auto.
    + intros j N J. now rewrite upd_other.
    + intros a A O. rewrite upd_other by lia. reflexivity.
    + intros a A (v & H). cbn [write_dict h_dict] in H. rewrite upd_same, get_set in H. destruct (seqb v var); [injection H as <-; lia|]. now exists v.
Qed.
Lemma write_flags_trans s i K h var a f : wf K h -> get (h_dict h i) var = Some a -> refs_ok K h var f -> trans s i K h K (write_flags h a f).
Proof.
  intros W G R. split; [|split; [|split; auto]].
  - constructor; cbn [write_flags h_dict h_next h_stores h_parent h_flags h_over h_ren]; try apply W.
    intros j v b fl c Hj Hf. unfold upd in Hf. destruct (Nat.eqb b a) eqn:Q; [|apply (w_refs _ _ W j v b); auto].
    apply Nat.eqb_eq in Q. subst b. destruct (w_owner _ _ W j i v var a Hj G) as [-> ->]. now apply R.
  - constructor; cbn [write_flags h_dict h_next h_stores h_parent h_flags h_over h_cont]; auto.
    intros b B O. apply upd_other. intros ->. apply O. now exists var.
Qed.
Lemma new_cont_trans s i K h k c : wf K h -> trans s i K h (upd K (h_next h) k) (fst (new_cont h c)).
Proof.
  intros W. assert (E : forall x, x < h_next h -> upd K (h_next h) k x = K x) by (intros; apply upd_other; lia).
  split; [|split; [|split; auto]].
  - constructor; cbn [new_cont fst h_dict h_next h_stores h_parent h_flags h_over h_ren]; try apply W.
    + intros j v a H. apply (w_lt _ _ W) in H. lia.
    + intros j v a fl x H Hf. destruct (w_refs _ _ W j v a fl x H Hf) as [A B]. rewrite E by auto. split; auto; lia.
    + intros j v x H. destruct (w_over _ _ W j v x H) as [A B]. rewrite E by auto. split; auto; lia.
    + intros j. destruct (w_ren _ _ W j) as [A B]. rewrite E by auto. split; auto; lia.
  - constructor; cbn [new_cont fst h_dict h_next h_stores h_parent h_flags h_over h_cont]; auto. intros x X _. apply upd_other. lia.
Qed.
Lemma write_over_trans s i K h o : wf K h -> (forall v c, get o v = Some c -> c < h_next h /\ K c = 0) -> trans s i K h K (write_over h i o).
Proof.
  intros W R. split; [|split; [|split; auto]].
  - constructor; cbn [write_over h_dict h_next h_stores h_parent h_flags h_over h_ren]; try apply W.
    intros j v c H. unfold upd in H. destruct (Nat.eqb j i); [now apply (R v)|now apply (w_over _ _ W j v)].
  - constructor; cbn [write_over h_dict h_next h_stores h_parent h_flags h_over h_cont]; auto. intros j N J. now rewrite upd_other.
Qed.
Lemma del_dict_trans s i K h var : wf K h -> i < h_stores h -> trans s i K h K (write_dict h i (del (h_dict h i) var)).
Proof.
  intros W I.
  assert (G : forall j v a, get (upd (h_dict h) i (del (h_dict h i) var) j) v = Some a -> get (h_dict h j) v = Some a).
  { intros j v a H. unfold upd in H. destruct (Nat.eqb j i) eqn:Q; auto. apply Nat.eqb_eq in Q. subst j. rewrite get_del in H. destruct (seqb v var); [discriminate|auto]. }
  split; [|split; [|split; auto]].
  - constructor; cbn [write_dict h_dict h_next h_stores h_parent h_flags h_over h_ren]; try apply W.
    + intros j k v w a Hj Hk. apply G in Hj, Hk. apply (w_owner _ _ W j k v w a); auto.
    + intros j v a H. apply G in H. apply (w_lt _ _ W j v a H).
    + intros j J. rewrite upd_other by lia. now apply (w_dict _ _ W).
    + intros j v a fl c H Hf. apply G in H. apply (w_refs _ _ W j v a); auto.
  - constructor; cbn [write_dict h_dict h_next h_stores h_parent h_flags h_over h_cont]; auto.
    + intros j N J. now rewrite upd_other.
    + intros a A (v & H). exists v. now apply G.
Qed.
Lemma write_cont_trans i K h c x : wf K h -> K c <> 0 -> trans false i K h K (write_cont h c x).
Proof.
  intros W N. split; [|split; [|split; auto]].
  - constructor; cbn [write_cont h_dict h_next h_stores h_parent h_flags h_over h_ren]; apply W.
  - constructor; cbn [write_cont h_dict h_next h_stores h_parent h_flags h_over h_cont]; auto.
    intros y _ [D|D]; [discriminate|]. apply upd_other. congruence.
Qed.

Lemma find_from_owner K h : wf K h -> forall n i var a, find_from n h i var = Some a -> exists j, get (h_dict h j) var = Some a /\ origin h j i.
Proof.
  intros W. induction n as [|n IH]; intros i var a H; cbn [find_from] in H; [discriminate|]. destruct (get (h_dict h i) var) as [b|] eqn:G.
  - injection H as <-. exists i. split; auto. constructor.
  - destruct (h_parent h i) as [p|] eqn:P; [|discriminate]. destruct (IH p var a H) as (j & Gj & O). exists j. split; auto. eapply o_copy; eauto.
Qed.
Lemma shadow_trans s i K h var : wf K h -> i < h_stores h ->
  trans s i K h K (fst (shadow h i var)) /\ get (h_dict (fst (shadow h i var)) i) var = Some (snd (shadow h i var)).
Proof.
  intros W I. unfold shadow. destruct (get (h_dict h i) var) as [a|] eqn:G; [split; auto; now apply trans_refl|].
  cbn [new_flags fst snd]. split.
  - apply (attach_trans s i K h var); auto. intros fl c Hf. destruct (find h i var) as [a|] eqn:F; [|contradiction].
    destruct (find_from_owner K h W _ _ _ _ F) as (j & Gj & _). apply (w_refs _ _ W j var a); auto.
  - cbn [write_dict h_dict]. rewrite upd_same, get_set_same. reflexivity.
Qed.
Lemma In_set {A} (m : list (str * A)) k v x : In x (set m k v) -> x = (k, v) \/ In x m.
Proof.
  induction m as [|[a w] m IH]; cbn [set]; [intros [<-|[]]; auto|]. destruct (seqb k a) eqn:E.
  - intros [<-|H]; [|right; now right]. apply seqb_eq in E. subst. auto.
  - intros [<-|H]; [right; now left|]. destruct (IH H); auto. right. now right.
Qed.
Lemma own_refs K h i var a : wf K h -> get (h_dict h i) var = Some a -> refs_ok K h var (h_flags h a).
Proof. intros W G fl c Hf. now apply (w_refs _ _ W i var a). Qed.
Lemma set_flag_trans s i K h var flag v : wf K h -> i < h_stores h ->
  (forall c, v = Obj c -> c < h_next h /\ K c = kind_of var flag) -> trans s i K h K (set_flag h i var flag v).
Proof.
  intros W I V. unfold set_flag. destruct (shadow_trans s i K h var W I) as [T G]. destruct (shadow h i var) as [h1 a]. cbn [fst snd] in *.
  eapply trans_trans; [exact T|]. destruct T as (W1 & F & _). apply (write_flags_trans s i K h1 var a); auto. intros fl c Hf. apply In_set in Hf. destruct Hf as [X|Hf].
  - injection X as -> <-. destruct (V c eq_refl). split; auto. pose proof (f_next _ _ _ _ _ F). lia.
  - apply (own_refs K h1 i var a W1 G fl c Hf).
Qed.
Lemma kw_kind var k : kind_of var (kw_text k) = 0.
Proof. unfold kind_of. destruct k; rewrite andb_false_r; reflexivity. Qed.

Lemma step_trans i K h o : wf K h -> i < h_stores h -> exists K', trans (match o with Export _ | Rename _ _ => false | _ => true end) i K h K' (step h i o).
Proof.
  intros W I. destruct o as [var flag t|var k x|var flag|var fs|var|var|short x|short x|var| |var|var t]; cbn [step].
  - exists K. apply set_flag_trans; auto. discriminate.
  - exists (upd K (h_next h) 0). pose proof (new_cont_trans true i K h 0 (copied h i var (kw_text k) ++ [x]) W) as T.
    unfold new_cont in T |- *. cbn [fst] in T. eapply trans_trans; [exact T|]. destruct T as (W1 & F & _). apply set_flag_trans; auto.
    intros c E. injection E as <-. cbn [h_next]. rewrite upd_same, kw_kind. split; auto.
  - exists K. destruct (find h i var) as [a|]; [|now apply trans_refl]. destruct (h_flags h a); [now apply trans_refl|].
    destruct (shadow_trans true i K h var W I) as [T G]. destruct (shadow h i var) as [h1 b]. cbn [fst snd] in *. eapply trans_trans; [exact T|]. destruct T as (W1 & _).
    apply (write_flags_trans true i K h1 var b); auto. intros fl c Hf. unfold del in Hf. apply filter_In in Hf. apply (own_refs K h1 i var b W1 G fl c). apply Hf.
  - exists K. destruct (shadow_trans true i K h var W I) as [T G]. destruct (shadow h i var) as [h1 a]. cbn [fst snd] in *. eapply trans_trans; [exact T|]. destruct T as (W1 & _).
    apply (write_flags_trans true i K h1 var a); auto. pose proof (own_refs K h1 i var a W1 G) as R. revert R. generalize (h_flags h1 a). clear. induction fs as [|e fs IH]; intros f R; auto.
    cbn [fold_left]. apply IH. destruct (seqb (fst e) (s_ "_content")); auto. intros fl c Hf. apply In_set in Hf. destruct Hf as [X|Hf]; [discriminate|now apply R].
  - exists K. destruct (shadow_trans true i K h var W I) as [T G]. destruct (shadow h i var) as [h1 a]. cbn [fst snd] in *.
    assert (I1 : i < h_stores h1) by (destruct T as (_ & _ & _ & L); auto).
    eapply trans_trans; [exact T|]. destruct T as (W1 & _). destruct (get (h_flags h1 a) (s_ "_content")) as [v|] eqn:C; [|now apply del_dict_trans].
    unfold new_flags. apply (attach_trans true i K h1 var [(s_ "_content", v)] W1 I1). intros fl c [X|[]]. injection X as <- ->. apply (own_refs K h1 i var a W1 G). now apply get_In.
  - exists K. unfold new_flags. apply (attach_trans true i K h var [] W I). intros fl c [].
  - destruct (has _ _); [exists K; now apply trans_refl|]. set (l := _ ++ _). exists (upd K (h_next h) 0).
    pose proof (new_cont_trans true i K h 0 l W) as T. unfold new_cont in T |- *. cbn [fst] in T. eapply trans_trans; [exact T|]. destruct T as (W1 & _). apply write_over_trans; auto.
    cbn [h_next h_over]. intros v c H. rewrite get_set in H. destruct (seqb v short); [injection H as <-; rewrite upd_same; auto|]. apply (w_over _ _ W1 i v c). exact H.
  - destruct (get (h_over h i) short) as [a|]; [|exists K; now apply trans_refl]. set (l := remove_one _ _). exists (upd K (h_next h) 0).
    pose proof (new_cont_trans true i K h 0 l W) as T. unfold new_cont in T |- *. cbn [fst] in T. eapply trans_trans; [exact T|]. destruct T as (W1 & _). apply write_over_trans; auto.
    cbn [h_next h_over]. intros v c H. rewrite get_set in H. destruct (seqb v short); [injection H as <-; rewrite upd_same; auto|]. apply (w_over _ _ W1 i v c). exact H.
  - exists K. apply write_over_trans; auto. intros v c H. rewrite get_del in H. destruct (seqb v var); [discriminate|]. now apply (w_over _ _ W i v).
  - exists K. assert (D : h_dict h (h_stores h) = []) by (apply (w_dict _ _ W); lia).
    assert (G : forall j v a, get (upd (h_dict h) (h_stores h) [] j) v = Some a -> get (h_dict h j) v = Some a).
    { intros j v a H. unfold upd in H. destruct (Nat.eqb j (h_stores h)); [discriminate|auto]. }
    split; [|split; [|split; auto]].
    + constructor; cbn [h_dict h_next h_stores h_parent h_flags h_over h_ren].
      * intros j k v w a Hj Hk. apply G in Hj, Hk. apply (w_owner _ _ W j k v w a); auto.
      * intros j v a H. apply G in H. apply (w_lt _ _ W j v a H).
      * intros j J. rewrite upd_other by lia. apply (w_dict _ _ W). lia.
      * intros j p H. unfold upd in H. destruct (Nat.eqb j (h_stores h)) eqn:Q.
        -- apply Nat.eqb_eq in Q. subst j. injection H as <-. lia.
        -- apply (w_parent _ _ W) in H. lia.
      * intros j v a fl c H Hf. apply G in H. apply (w_refs _ _ W j v a); auto.
      * intros j v c H. unfold upd in H. destruct (Nat.eqb j (h_stores h)); [now apply (w_over _ _ W i v)|now apply (w_over _ _ W j v)].
      * intros j. unfold upd. destruct (Nat.eqb j (h_stores h)); apply (w_ren _ _ W).
    + constructor; cbn [h_dict h_next h_stores h_parent h_flags h_over h_cont]; auto.
      * intros j N J. rewrite upd_other by lia. reflexivity.
      * intros j J. rewrite upd_other by lia. reflexivity.
      * intros j N J. rewrite upd_other by lia. reflexivity.
      * intros a A (v & H). exists v. now apply G.
    + cbn [h_stores]. lia.
  - assert (T1 : trans false i K h K (set_flag h i var (s_ "export") (Text (s_ "1")))) by (apply set_flag_trans; auto; discriminate).
    set (h1 := set_flag h i var (s_ "export") (Text (s_ "1"))) in *. assert (W1 : wf K h1) by apply T1. assert (I1 : i < h_stores h1) by (destruct T1 as (_ & _ & _ & L); auto).
    destruct (shadow_trans false i K h1 (s_ "__exportlist") W1 I1) as [T2 G]. destruct (shadow h1 i (s_ "__exportlist")) as [h2 a]. cbn [fst snd] in *.
    assert (W2 : wf K h2) by apply T2. assert (T : trans false i K h K h2) by (eapply trans_trans; eauto).
    destruct (get (h_flags h2 a) (s_ "_content")) as [[t|c]|] eqn:C.
    + exists K. exact T.
    + exists K. eapply trans_trans; [exact T|]. apply write_cont_trans; auto. apply get_In in C. destruct (w_refs _ _ W2 i _ a _ c G C) as [_ E]. rewrite E. discriminate.
    + exists (upd K (h_next h2) 1). eapply trans_trans; [exact T|]. pose proof (new_cont_trans false i K h2 1 [(var, None)] W2) as T3. unfold new_cont in T3 |- *. cbn [fst] in T3.
      eapply trans_trans; [exact T3|]. destruct T3 as (W3 & _). apply (write_flags_trans false i _ _ (s_ "__exportlist") a); auto.
      intros fl c Hf. apply In_set in Hf. destruct Hf as [X|Hf]; [injection X as -> <-; cbn [h_next]; rewrite upd_same; split; auto|]. apply (own_refs _ _ i (s_ "__exportlist") a W3 G fl c Hf).
  - exists K. assert (T : trans false i K h K (write_cont h (h_ren h i) ((var, Some t) :: h_cont h (h_ren h i)))).
    { apply write_cont_trans; auto. destruct (w_ren _ _ W i) as [_ ->]. discriminate. }
    eapply trans_trans; [exact T|]. apply set_flag_trans; [apply T|auto|discriminate].
Qed.
Lemma wf_start : wf (fun _ => 2) start.
Proof. constructor; cbn; try discriminate; auto. Qed.
Lemma wf_run os : forall K h, wf K h -> exists K', wf K' (run h os).
Proof.
  induction os as [|[i o] os IH]; intros K h W; [eauto|]. cbn [run fold_left fst snd]. fold (run (if Nat.ltb i (h_stores h) then step h i o else h) os).
  destruct (Nat.ltb i (h_stores h)) eqn:L; [|now apply (IH K)]. apply Nat.ltb_lt in L. destruct (step_trans i K h o W L) as (K' & W' & _). now apply (IH K').
Qed.
Lemma wf_reachable h : reachable h -> exists K, wf K h.
Proof. intros [os ->]. apply (wf_run os _ _ wf_start). Qed.

(** ** What a change of one datastore leaves alone *)
Lemma origin_parent h i j p : h_parent h j = Some p -> ~ origin h i j -> ~ origin h i p.
Proof. intros P N O. apply N. eapply o_copy; eauto. Qed.
Lemma find_frame K s h h' i : wf K h -> frame K s h h' i -> forall n j var, j < h_stores h -> ~ origin h i j ->
  find_from n h' j var = find_from n h j var.
Proof.
  intros W F. induction n as [|n IH]; intros j var J N; auto. cbn [find_from].
  rewrite (f_dict _ _ _ _ _ F) by (auto; intros ->; apply N; constructor). destruct (get (h_dict h j) var); auto.
  rewrite (f_parent _ _ _ _ _ F) by auto. destruct (h_parent h j) as [p|] eqn:P; auto. apply IH; [apply (w_parent _ _ W) in P; lia|]. eapply origin_parent; eauto.
Qed.
Lemma entry_same K s h h' i j var a : wf K h -> frame K s h h' i -> get (h_dict h j) var = Some a -> j <> i ->
  (forall fl c, In (fl, Obj c) (h_flags h a) -> s = true \/ K c = 0) ->
  map (fun e => (fst e, seen h' (snd e))) (h_flags h' a) = map (fun e => (fst e, seen h (snd e))) (h_flags h a).
Proof.
  intros W F G N P. rewrite (f_flags _ _ _ _ _ F).
  - apply map_ext_in. intros [fl [t|c]] I; auto. cbn [fst snd seen]. rewrite (f_cont _ _ _ _ _ F); auto; [apply (w_refs _ _ W j var a fl c G I)|eapply P; eauto].
  - apply (w_lt _ _ W j var a G).
  - intros (v & O). destruct (w_owner _ _ W j i var v a G O). contradiction.
Qed.
Lemma flags_same K s h h' i j var : wf K h -> frame K s h h' i -> j < h_stores h -> ~ origin h i j ->
  (s = true \/ var <> s_ "__exportlist") -> flags_of h' j var = flags_of h j var.
Proof.
  intros W F J N NX. unfold flags_of, find. rewrite (find_frame K s h h' i W F) by auto. destruct (find_from (S j) h j var) as [a|] eqn:E; auto. f_equal.
  destruct (find_from_owner K h W _ _ _ _ E) as (k & G & O). apply (entry_same K s h h' i k var a); auto; [intros ->; contradiction|].
  intros fl c I. destruct NX as [NX|NX]; auto. right. destruct (w_refs _ _ W k var a fl c G I) as [_ ->]. unfold kind_of. apply seqb_neq in NX. now rewrite NX.
Qed.
Lemma own_same K s h h' i j var : wf K h -> frame K s h h' i -> j < h_stores h -> j <> i -> own h j var ->
  (s = true \/ var <> s_ "__exportlist") -> flags_of h' j var = flags_of h j var.
Proof.
  intros W F J N O NX. unfold own in O. destruct (get (h_dict h j) var) as [a|] eqn:G; [|congruence]. unfold flags_of, find. cbn [find_from].
  rewrite (f_dict _ _ _ _ _ F), G by auto. f_equal. apply (entry_same K s h h' i j var a); auto.
  intros fl c I. destruct NX as [NX|NX]; auto. right. destruct (w_refs _ _ W j var a fl c G I) as [_ ->]. unfold kind_of. apply seqb_neq in NX. now rewrite NX.
Qed.
Lemma variants_same K s h h' i j var : wf K h -> frame K s h h' i -> j < h_stores h -> j <> i -> variants_of h' j var = variants_of h j var.
Proof.
  intros W F J N. unfold variants_of. rewrite (f_over _ _ _ _ _ F) by auto. destruct (get (h_over h j) var) as [c|] eqn:G; auto.
  destruct (w_over _ _ W j var c G) as [L E]. rewrite (f_cont _ _ _ _ _ F); auto.
Qed.
Lemma origin_frame K s h h' i k j : wf K h -> frame K s h h' i -> j < h_stores h -> origin h' k j -> origin h k j.
Proof.
  intros W F J O. revert J. induction O as [|j p P O IH]; intros J; [constructor|]. rewrite (f_parent _ _ _ _ _ F) in P by auto.
  eapply o_copy; eauto. apply IH. apply (w_parent _ _ W) in P. lia.
Qed.
