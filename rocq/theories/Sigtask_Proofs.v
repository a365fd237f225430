From Coq Require Import String Ascii List Arith Bool Lia Permutation Sorted.
From Verif Require Import Str_Model Str_Proofs Imgtypes_Model Deps_Spec Deps_Proofs Words_Proofs Sigtask_Model Sigtask_Spec.
Import ListNotations.

(** ** Orders *)
Lemma str_leb_iff a b : str_leb a b = true <-> a = b \/ str_lt a b.
Proof.
  split.
  - intros L. destruct (str_trichotomy a b) as [H|[H|H]]; auto. apply str_leb_lt in H. destruct H. congruence.
  - intros [->|H]; [|now apply str_leb_lt in H]. induction b as [|c b IH]; [reflexivity|]. cbn. now rewrite aeqb_refl.
Qed.
Lemma str_leb_refl a : str_leb a a = true. Proof. apply str_leb_iff. auto. Qed.
Lemma str_leb_trans a b c : str_leb a b = true -> str_leb b c = true -> str_leb a c = true.
Proof. rewrite !str_leb_iff. intros [->|A] [->|B]; auto. right. eapply str_lt_trans; eauto. Qed.
Lemma str_leb_anti a b : str_leb a b = true -> str_leb b a = true -> a = b.
Proof. rewrite !str_leb_iff. intros [->|A] [E|B]; auto. exfalso. eapply str_lt_irrefl, str_lt_trans; eauto. Qed.
Lemma str_leb_total a b : str_leb a b = false -> str_leb b a = true.
Proof. intros F. apply str_leb_iff. destruct (str_trichotomy a b) as [H|[H|H]]; auto. apply str_leb_lt in H. destruct H. congruence. Qed.

Lemma pair_leb_iff a b : pair_leb a b = true <-> fst a = fst b /\ str_leb (snd a) (snd b) = true \/ fst a <> fst b /\ str_leb (fst a) (fst b) = true.
Proof. unfold pair_leb. destruct (seqb (fst a) (fst b)) eqn:E; [apply seqb_eq in E|apply seqb_neq in E]; intuition. Qed.
Lemma pair_leb_trans a b c : pair_leb a b = true -> pair_leb b c = true -> pair_leb a c = true.
Proof.
  rewrite !pair_leb_iff. intros [[E A]|[N A]] [[E' B]|[N' B]].
  - left. split; [congruence|]. eapply str_leb_trans; eauto.
  - right. rewrite E. auto. - right. rewrite <- E'. auto.
  - destruct (str_eq_dec (fst a) (fst c)) as [Q|Q].
    + exfalso. apply N. apply str_leb_anti; auto. now rewrite Q.
    + right. split; auto. eapply str_leb_trans; eauto.
Qed.
Lemma pair_leb_anti a b : pair_leb a b = true -> pair_leb b a = true -> a = b.
Proof.
  rewrite !pair_leb_iff. intros [[E A]|[N A]] [[E' B]|[N' B]]; try congruence.
  - destruct a, b; cbn in *; subst. f_equal. now apply str_leb_anti.
  - exfalso. apply N. now apply str_leb_anti.
Qed.
Lemma pair_leb_total a b : pair_leb a b = false -> pair_leb b a = true.
Proof.
  unfold pair_leb. rewrite (seqb_sym (fst b)). destruct (seqb (fst a) (fst b)); apply str_leb_total.
Qed.

(** ** Sorting *)
Section Sort.
  Variable A : Type.
  Variable le : A -> A -> bool.
  Lemma insert_le_perm x l : Permutation (insert_le le x l) (x :: l).
  Proof. induction l as [|y l IH]; cbn; auto. destruct (le x y); auto. rewrite IH. apply perm_swap. Qed.
  Lemma sort_le_perm l : Permutation (sort_le le l) l.
  Proof. induction l as [|x l IH]; auto. change (sort_le le (x :: l)) with (insert_le le x (sort_le le l)). rewrite insert_le_perm, IH. reflexivity. Qed.
  Hypothesis trans : forall a b c, le a b = true -> le b c = true -> le a c = true.
  Hypothesis total : forall a b, le a b = false -> le b a = true.
  Lemma insert_le_sorted x l : StronglySorted (fun a b => le a b = true) l -> StronglySorted (fun a b => le a b = true) (insert_le le x l).
  Proof.
    induction 1 as [|y l S IH F]; cbn; [repeat constructor|]. destruct (le x y) eqn:L.
    - constructor; [now constructor|]. constructor; auto. eapply Forall_impl; [|exact F]. intros z Z. eapply trans; eauto.
    - constructor; auto. rewrite Forall_forall in *. intros z Z. apply (Permutation_in _ (insert_le_perm x l)) in Z. destruct Z as [<-|Z]; auto.
  Qed.
  Lemma sort_le_sorted l : StronglySorted (fun a b => le a b = true) (sort_le le l).
  Proof. induction l as [|x l IH]; [constructor|]. now apply insert_le_sorted. Qed.
End Sort.

Lemma sorted_unique {A} (R : A -> A -> Prop) : (forall a b, R a b -> R b a -> a = b) -> forall l l',
  StronglySorted R l -> StronglySorted R l' -> Permutation l l' -> l = l'.
Proof.
  intros anti. induction l as [|x l IH]; intros l' S S' P.
  - apply Permutation_nil in P. auto.
  - destruct l' as [|y l']; [apply Permutation_sym, Permutation_nil in P; discriminate|].
    inversion S as [|? ? S1 F]; subst. inversion S' as [|? ? S1' F']; subst. rewrite Forall_forall in F, F'.
    assert (x = y).
    { pose proof (Permutation_in x P (or_introl eq_refl)) as [->|I]; auto.
      pose proof (Permutation_in y (Permutation_sym P) (or_introl eq_refl)) as [->|J]; auto. }
    subst y. f_equal. apply IH; auto. eapply Permutation_cons_inv; eauto.
Qed.

Lemma sort_pairs_perm l l' : Permutation l l' -> sort_le pair_leb l = sort_le pair_leb l'.
Proof.
  intros P. apply (sorted_unique (fun a b => pair_leb a b = true)); [apply pair_leb_anti| | |].
  - apply sort_le_sorted; [apply pair_leb_trans|apply pair_leb_total].
  - apply sort_le_sorted; [apply pair_leb_trans|apply pair_leb_total].
  - rewrite !sort_le_perm. exact P.
Qed.

(** ** Files *)
Definition fkey (fc : str * str) : str * str := (clean_path fc, snd fc).
Lemma by_checksum_sorted l : StronglySorted (fun a b => str_leb (snd a) (snd b) = true) (by_checksum l).
Proof. apply sort_le_sorted; intros a b; [intros c; apply str_leb_trans|apply str_leb_total]. Qed.
Lemma by_path_lex l : StronglySorted (fun a b => str_leb (snd a) (snd b) = true) l ->
  StronglySorted (fun a b => pair_leb (fkey a) (fkey b) = true) (by_path l).
Proof.
  induction 1 as [|x l S IH F]; [constructor|]. change (by_path (x :: l)) with (insert_le (fun a b => str_leb (clean_path a) (clean_path b)) x (by_path l)).
  assert (F' : Forall (fun y => str_leb (snd x) (snd y) = true) (by_path l)).
  { rewrite Forall_forall in *. intros y Y. apply F. eapply Permutation_in; [apply sort_le_perm|exact Y]. }
  clear F S. induction IH as [|y r S IH F]; cbn [insert_le]; [repeat constructor|]. inversion F' as [|? ? X F'']; subst.
  destruct (str_leb (clean_path x) (clean_path y)) eqn:L.
  - assert (XY : pair_leb (fkey x) (fkey y) = true).
    { apply pair_leb_iff. cbn [fkey fst snd]. destruct (str_eq_dec (clean_path x) (clean_path y)); auto. }
    constructor; [now constructor|]. constructor; auto. eapply Forall_impl; [|exact F]. intros z Z. eapply pair_leb_trans; eauto.
  - constructor; auto. rewrite Forall_forall in *. intros z Z. apply (Permutation_in _ (insert_le_perm _ _ x r)) in Z. destruct Z as [<-|Z]; auto.
    apply pair_leb_iff. right. cbn [fkey fst snd]. split; [intros Q; rewrite Q, str_leb_refl in L; discriminate|now apply str_leb_total].
Qed.
Lemma map_sorted {A B} (f : A -> B) (R : B -> B -> Prop) l : StronglySorted (fun a b => R (f a) (f b)) l -> StronglySorted R (map f l).
Proof. induction 1 as [|x l S IH F]; cbn; constructor; auto. rewrite Forall_forall in *. intros y Y. apply in_map_iff in Y. destruct Y as (z & <- & Z). auto. Qed.

Definition ftext (k : str * str) : str :=
  match snd k with [] => [] | cs => (if startswith (s_ "./") (fst k) then fst k else []) ++ cs end.
Lemma ftext_ok fc : absolute (fst fc) -> file_text fc = ftext (fkey fc).
Proof.
  intros [r E]. unfold file_text, ftext, fkey. cbn [fst snd]. destruct (snd fc) as [|c cs]; [reflexivity|]. f_equal. unfold clean_path.
  destruct (after_mark (fst fc)) as [x|].
  - now rewrite startswith_app.
  - rewrite E. reflexivity.
Qed.
Lemma files_perm l l' : Permutation l l' -> Forall (fun fc => absolute (fst fc)) l ->
  map file_text (by_path (by_checksum l)) = map file_text (by_path (by_checksum l')).
Proof.
  intros P F. assert (F' : Forall (fun fc => absolute (fst fc)) l') by (rewrite Forall_forall in *; intros x X; apply F; eapply Permutation_in; [apply Permutation_sym, P|exact X]).
  assert (G : forall l, Forall (fun fc => absolute (fst fc)) l -> map file_text (by_path (by_checksum l)) = map ftext (map fkey (by_path (by_checksum l)))).
  { clear. intros l F. rewrite map_map. apply map_ext_in. intros x X. apply ftext_ok. rewrite Forall_forall in F. apply F.
    eapply Permutation_in; [|exact X]. unfold by_path, by_checksum. rewrite !sort_le_perm. reflexivity. }
  rewrite !G by auto. f_equal. apply (sorted_unique (fun a b => pair_leb a b = true)); [apply pair_leb_anti| | |].
  - apply map_sorted, by_path_lex, by_checksum_sorted.
  - apply map_sorted, by_path_lex, by_checksum_sorted.
  - apply Permutation_map. unfold by_path, by_checksum. rewrite !sort_le_perm. exact P.
Qed.

(** *** Moving a directory *)
Lemma startswith_mark_app p r : no_mark p -> absolute r -> p <> [] -> startswith mark (p ++ r) = false.
Proof.
  intros N [r' ->] NE. destruct (startswith mark (p ++ "/"%char :: r')) eqn:E; auto. exfalso. apply startswith_iff in E. destruct E as [t E].
  destruct p as [|a [|b [|c p]]]; [congruence| | |]; cbn in E.
  - discriminate.
  - injection E as -> -> _. apply (N [] []). reflexivity.
  - injection E as -> -> -> _. apply (N [] (p ++ s_ "/")). reflexivity.
Qed.
Lemma no_mark_tail c p : no_mark (c :: p) -> no_mark p.
Proof. intros N a b E. apply (N (c :: a) b). exact (f_equal (cons c) E). Qed.
Lemma after_mark_app p r : no_mark p -> absolute r -> after_mark (p ++ r) = after_mark r.
Proof.
  intros N A. induction p as [|c p IH]; [reflexivity|]. assert (S : startswith mark ((c :: p) ++ r) = false) by (apply startswith_mark_app; auto; discriminate).
  cbn [app after_mark]. cbn [app] in S. rewrite S. apply IH. eapply no_mark_tail, N.
Qed.
Lemma moved_text p q a b : no_mark p -> no_mark q -> moved p q a b -> file_text a = file_text b.
Proof. intros P Q (S & r & R & A & B). unfold file_text. rewrite S, A, B. now rewrite !after_mark_app. Qed.
Lemma str_leb_common p a b : str_leb (p ++ a) (p ++ b) = str_leb a b.
Proof. induction p as [|c p IH]; [reflexivity|]. cbn. now rewrite aeqb_refl. Qed.
Lemma moved_order p q a b a' b' : no_mark p -> no_mark q -> absolute p -> absolute q -> moved p q a a' -> moved p q b b' ->
  str_leb (clean_path a) (clean_path b) = str_leb (clean_path a') (clean_path b').
Proof.
  intros NP NQ [p' P] [q' Q] (_ & r & R & A & A') (_ & s & S & B & B'). unfold clean_path. rewrite A, A', B, B'. rewrite !after_mark_app by auto.
  destruct (after_mark r), (after_mark s); rewrite ?str_leb_common; auto; rewrite P, Q; reflexivity.
Qed.
Lemma sort_le_compat {A} (R : A -> A -> Prop) le : (forall a b a' b', R a a' -> R b b' -> le a b = le a' b') ->
  forall l l', Forall2 R l l' -> Forall2 R (sort_le le l) (sort_le le l').
Proof.
  intros C. assert (I : forall l l' x x', R x x' -> Forall2 R l l' -> Forall2 R (insert_le le x l) (insert_le le x' l')).
  { intros l l' x x' X F. induction F as [|y y' l l' Y F IH]; cbn; [auto|]. rewrite <- (C x y x' y') by auto. destruct (le x y); auto. }
  induction 1 as [|x x' l l' X F IH]; [constructor|]. now apply I.
Qed.
Lemma Forall2_map_eq {A B} (f : A -> B) (R : A -> A -> Prop) l l' : (forall a b, R a b -> f a = f b) -> Forall2 R l l' -> map f l = map f l'.
Proof. intros E. induction 1; cbn; [reflexivity|]. f_equal; auto. Qed.
Lemma files_moved p q l l' : no_mark p -> no_mark q -> absolute p -> absolute q -> Forall2 (moved p q) l l' ->
  map file_text (by_path (by_checksum l)) = map file_text (by_path (by_checksum l')).
Proof.
  intros NP NQ AP AQ F. apply (Forall2_map_eq _ (moved p q)); [intros; now apply (moved_text p q)|].
  unfold by_path, by_checksum. apply sort_le_compat; [intros; now apply (moved_order p q)|].
  apply sort_le_compat; auto. intros a b a' b' (A & _) (B & _). now rewrite A, B.
Qed.

(** *** One checksum *)
Lemma by_path_keys_sorted l : NoDup (map clean_path l) -> StronglySorted (fun a b => str_lt (clean_path a) (clean_path b)) (by_path (by_checksum l)).
Proof.
  intros ND. assert (P : Permutation (by_path (by_checksum l)) l) by (unfold by_path, by_checksum; rewrite !sort_le_perm; reflexivity).
  assert (ND' : NoDup (map clean_path (by_path (by_checksum l)))) by (eapply Permutation_NoDup; [|exact ND]; apply Permutation_map, Permutation_sym, P).
  assert (S : StronglySorted (fun a b => str_leb (clean_path a) (clean_path b) = true) (by_path (by_checksum l))).
  { apply sort_le_sorted; intros a b; [intros c; apply str_leb_trans|apply str_leb_total]. }
  revert ND' S. generalize (by_path (by_checksum l)). clear. induction l as [|x l IH]; intros ND S; [constructor|].
  inversion S as [|? ? S1 F]; subst. inversion ND as [|? ? N ND1]; subst. constructor; auto. rewrite Forall_forall in *. intros y Y.
  destruct (proj1 (str_leb_iff _ _) (F y Y)) as [E|L]; auto. exfalso. apply N. rewrite E. now apply in_map.
Qed.
Lemma by_path_replace a b f c c' : NoDup (map clean_path (a ++ (f, c) :: b)) ->
  exists x y, by_path (by_checksum (a ++ (f, c) :: b)) = x ++ (f, c) :: y /\ by_path (by_checksum (a ++ (f, c') :: b)) = x ++ (f, c') :: y.
Proof.
  intros ND. set (l := a ++ (f, c) :: b). set (l' := a ++ (f, c') :: b).
  assert (K : map clean_path l' = map clean_path l) by (unfold l, l'; rewrite !map_app; reflexivity).
  assert (P : forall l, Permutation (by_path (by_checksum l)) l) by (intros; unfold by_path, by_checksum; rewrite !sort_le_perm; reflexivity).
  assert (I : In (f, c) (by_path (by_checksum l))). { eapply Permutation_in; [apply Permutation_sym, P|]. apply in_app_iff. right. now left. }
  apply in_split in I. destruct I as (x & y & E). exists x, y. split; auto.
  pose proof (by_path_keys_sorted l ND) as S. rewrite E in S.
  assert (S' : StronglySorted (fun a b => str_lt (clean_path a) (clean_path b)) (x ++ (f, c') :: y)).
  { clear -S. induction x as [|z x IH]; cbn [app] in *; inversion S as [|? ? S1 F]; subst; constructor; auto.
    rewrite Forall_forall in *. intros w W. apply in_app_iff in W. destruct W as [W|[<-|W]].
    - apply F, in_app_iff. auto.
    - change (clean_path (f, c')) with (clean_path (f, c)). apply F, in_app_iff. right. now left.
    - apply F, in_app_iff. right. now right. }
  apply (sorted_unique (fun a b => str_lt (clean_path a) (clean_path b))); auto.
  - intros u v U V. exfalso. eapply str_lt_irrefl, str_lt_trans; eauto.
  - apply by_path_keys_sorted. fold l'. now rewrite K.
  - rewrite P. apply Permutation_sym. assert (Q : Permutation (x ++ y) (a ++ b)).
    { apply (Permutation_cons_inv (a := (f, c))). rewrite !Permutation_middle, <- E. apply P. }
    unfold l'. rewrite <- !Permutation_middle. now constructor.
Qed.

(** ** Hashing the graph *)
Section Graph.
  Variable H : str -> str.
  Variable g : str -> task.

  Definition known (m : hashes) (t : str) : Prop := exists h, lookup m t = Some h.
  Inductive built : hashes -> Prop :=
  | b_nil : built []
  | b_cons t m : built m -> ~ known m t -> (forall p d, In (p, d) (t_deps (g t)) -> known m d) ->
      built ((t, H (task_text (g t) (unihash m))) :: m).

  Lemma lookup_cons k v m t : lookup ((k, v) :: m) t = if seqb t k then Some v else lookup m t.
  Proof. reflexivity. Qed.
  Lemma known_cons k v m t : known ((k, v) :: m) t <-> t = k \/ known m t.
  Proof.
    unfold known. rewrite lookup_cons. destruct (seqb t k) eqn:E.
    - apply seqb_eq in E. split; [auto|eauto]. - apply seqb_neq in E. split; [auto|intros [|]; [congruence|auto]].
  Qed.
  Lemma concat_ext {A} (f f' : A -> str) l : (forall x, In x l -> f x = f' x) -> List.concat (map f l) = List.concat (map f' l).
  Proof. intros E. f_equal. now apply map_ext_in. Qed.
  Lemma text_ext (t : task) u u' : (forall p d, In (p, d) (t_deps t) -> u d = u' d) -> task_text t u = task_text t u'.
  Proof.
    intros E. unfold task_text. f_equal. f_equal. apply concat_ext. intros [p d] I. cbn. apply (E p).
    eapply Permutation_in; [apply sort_le_perm|exact I].
  Qed.
  Lemma unihash_cons_other k v m t : t <> k -> unihash ((k, v) :: m) t = unihash m t.
  Proof. intros N. unfold unihash. rewrite lookup_cons. apply seqb_neq in N. now rewrite N. Qed.

  Definition consistent (m : hashes) : Prop := forall t h, lookup m t = Some h ->
    h = H (task_text (g t) (unihash m)) /\ forall p d, In (p, d) (t_deps (g t)) -> known m d.
  Lemma built_consistent m : built m -> consistent m.
  Proof.
    induction 1 as [|t m B IH F D]; [intros t h; discriminate|]. intros v h. rewrite lookup_cons.
    assert (X : forall v, (forall p d, In (p, d) (t_deps (g v)) -> known m d) ->
      task_text (g v) (unihash ((t, H (task_text (g t) (unihash m))) :: m)) = task_text (g v) (unihash m)).
    { intros w W. apply text_ext. intros p d I. apply unihash_cons_other. intros ->. apply F. eapply W, I. }
    destruct (seqb v t) eqn:E.
    - apply seqb_eq in E. subst. intros [= <-]. rewrite X by auto. split; auto. intros p d I. apply known_cons. right. eauto.
    - intros L. destruct (IH v h L) as [A C]. rewrite X by auto. split; auto. intros p d I. apply known_cons. right. eauto.
  Qed.
  Lemma hash_task_built m t m' : built m -> ~ known m t -> hash_task H g m t = Some m' ->
    built m' /\ forall x, known m' x <-> x = t \/ known m x.
  Proof.
    unfold hash_task. intros B F. destruct (forallb _ _) eqn:E; [|discriminate]. intros [= <-]. split; [|intros; apply known_cons].
    constructor; auto. intros p d I. rewrite forallb_forall in E. specialize (E _ I). cbn in E. unfold known. destruct (lookup m d); [eauto|discriminate].
  Qed.

  Variable depends : str -> list str.
  Lemma pass_built : forall todo dealt m dealt' m', pass H g depends todo dealt m = Some (dealt', m') ->
    built m -> (forall x, known m x <-> In x dealt) -> NoDup todo -> (forall x, In x todo -> ~ In x dealt) ->
    built m' /\ (forall x, known m' x <-> In x dealt') /\ (forall x, In x dealt -> In x dealt') /\ (forall x, In x dealt' -> In x dealt \/ In x todo).
  Proof.
    induction todo as [|t r IH]; intros dealt m dealt' m' P B K ND DJ; cbn [pass] in P.
    - injection P as <- <-. auto.
    - inversion ND as [|? ? N ND1]; subst. destruct (forallb (fun d => mem_str d dealt) (depends t)).
      + destruct (hash_task H g m t) as [m1|] eqn:HT; [|discriminate].
        assert (F : ~ known m t) by (rewrite K; apply DJ; now left).
        destruct (hash_task_built _ _ _ B F HT) as [B1 K1]. apply IH in P; auto.
        * destruct P as (Q1 & Q2 & Q3 & Q4). split; [auto|]. split; [auto|]. split; [intros x X; apply Q3; now right|].
          intros x X. apply Q4 in X. destruct X as [[<-|X]|X]; auto. right. now left. right. now right.
        * intros x. rewrite K1, K. cbn. intuition.
        * intros x X [<-|Y]; [auto|]. apply (DJ x); auto. now right.
      + apply IH in P; auto.
        * destruct P as (Q1 & Q2 & Q3 & Q4). split; [auto|]. split; [auto|]. split; [auto|].
          intros x X. apply Q4 in X. destruct X; auto. right. now right.
        * intros x X. apply DJ. now right.
  Qed.

  Lemma loop_built order : any_order order -> forall fuel todeal dealt m r, hash_loop H g depends order fuel todeal dealt m = Some (Some r) ->
    built m -> (forall x, known m x <-> In x dealt) -> NoDup todeal -> (forall x, In x todeal -> ~ In x dealt) ->
    built r /\ forall x, known r x <-> In x dealt \/ In x todeal.
  Proof.
    intros O. induction fuel as [|n IH]; intros todeal dealt m r L B K ND DJ.
    - destruct todeal; [|discriminate]. injection L as <-. split; auto. intros x. rewrite K. cbn. tauto.
    - destruct todeal as [|t todeal]; [injection L as <-; split; auto; intros x; rewrite K; cbn; tauto|]. cbn [hash_loop] in L. set (td := t :: todeal) in *.
      destruct (pass H g depends (order n td) dealt m) as [[dealt' m']|] eqn:P; [|discriminate].
      apply pass_built in P; auto.
      + destruct P as (B' & K' & I1 & I2). apply IH in L; auto.
        * destruct L as [L1 L2]. split; auto. intros x. rewrite L2, filter_In. rewrite negb_true_iff, mem_str_false. split.
          -- intros [X|[X _]]; [|auto]. apply I2 in X. destruct X as [X|X]; auto. right. eapply Permutation_in; [apply O|exact X].
          -- intros [X|X]; [left; auto|]. destruct (in_dec str_eq_dec x dealt'); auto.
        * now apply NoDup_filter.
        * intros x X. apply filter_In in X. destruct X as [_ X]. now apply negb_true_iff, mem_str_false in X.
      + eapply Permutation_NoDup; [apply Permutation_sym, O|auto].
      + intros x X. apply DJ. eapply Permutation_in; [apply O|exact X].
  Qed.

  (** *** It finishes *)
  Lemma hash_task_some m t : (forall p d, In (p, d) (t_deps (g t)) -> known m d) -> hash_task H g m t <> None.
  Proof.
    intros D. unfold hash_task. replace (forallb _ _) with true; [discriminate|]. symmetry. apply forallb_forall. intros [p d] I. cbn.
    destruct (D p d I) as [h ->]. reflexivity.
  Qed.
  Variable tids : list str.
  Hypothesis WF : well_formed g depends tids.
  Lemma pass_some : forall todo dealt m, built m -> (forall x, known m x <-> In x dealt) -> NoDup todo -> (forall x, In x todo -> ~ In x dealt) ->
    exists dealt' m', pass H g depends todo dealt m = Some (dealt', m') /\
      (forall x, In x todo -> (forall d, In d (depends x) -> In d dealt) -> In x dealt').
  Proof.
    destruct WF as (_ & W2 & _).
    induction todo as [|t r IH]; intros dealt m B K ND DJ; cbn [pass].
    - exists dealt, m. split; auto. intros x [].
    - inversion ND as [|? ? N ND1]; subst. destruct (forallb (fun d => mem_str d dealt) (depends t)) eqn:R.
      + rewrite forallb_forall in R. assert (R' : forall d, In d (depends t) -> In d dealt) by (intros d D; apply mem_str_In; auto).
        assert (F : ~ known m t) by (rewrite K; apply DJ; now left).
        destruct (hash_task H g m t) as [m1|] eqn:HT.
        2:{ exfalso. revert HT. apply hash_task_some. intros p d I. apply K. eapply R', W2, I. }
        destruct (hash_task_built _ _ _ B F HT) as [B1 K1].
        assert (K2 : forall x, known m1 x <-> In x (t :: dealt)) by (intros x; rewrite K1, K; cbn; intuition).
        assert (D2 : forall x, In x r -> ~ In x (t :: dealt)) by (intros x X [<-|Y]; [auto|]; apply (DJ x); auto; now right).
        destruct (IH (t :: dealt) m1 B1 K2 ND1 D2) as (d' & m' & E & G). exists d', m'. split; auto. intros x [<-|X] D.
        * apply pass_built in E; auto. destruct E as (_ & _ & E & _). apply E. now left.
        * apply G; auto. intros d I. right. auto.
      + destruct (IH dealt m B K ND1) as (d' & m' & E & G); [intros x X; apply DJ; now right|]. exists d', m'. split; auto. intros x [<-|X] D; auto.
        exfalso. rewrite <- not_true_iff_false in R. apply R. apply forallb_forall. intros d I. apply mem_str_In. auto.
  Qed.
  Lemma least (rank : str -> nat) l : l <> [] -> exists x, In x l /\ forall y, In y l -> rank x <= rank y.
  Proof.
    induction l as [|x l IH]; [congruence|]. intros _. destruct l as [|y l]; [exists x; split; [now left|intros y [<-|[]]; lia]|].
    destruct IH as (z & Z & M); [discriminate|]. destruct (le_lt_dec (rank x) (rank z)).
    - exists x. split; [now left|]. intros w [<-|W]; [lia|]. specialize (M w W). lia.
    - exists z. split; [now right|]. intros w [<-|W]; [lia|auto].
  Qed.
  Lemma filter_shorter {A} (f : A -> bool) l x : In x l -> f x = false -> length (filter f l) < length l.
  Proof.
    induction l as [|y l IH]; [intros []|]. intros I F. cbn. assert (L : length (filter f l) <= length l) by (clear; induction l; cbn; [lia|destruct (f a); cbn; lia]).
    destruct I as [->|I]; [rewrite F; lia|]. specialize (IH I F). destruct (f y); cbn; lia.
  Qed.
  Lemma loop_some order : any_order order -> acyclic depends -> forall fuel todeal dealt m, length todeal <= fuel ->
    built m -> (forall x, known m x <-> In x dealt) -> NoDup todeal -> (forall x, In x todeal -> ~ In x dealt) -> (forall x, In x tids <-> In x todeal \/ In x dealt) ->
    exists r, hash_loop H g depends order fuel todeal dealt m = Some (Some r).
  Proof.
    intros O [rank AC]. induction fuel as [|n IH]; intros todeal dealt m L B K ND DJ C.
    - destruct todeal; [|cbn in L; lia]. exists m. reflexivity.
    - destruct todeal as [|t todeal]; [exists m; reflexivity|]. cbn [hash_loop]. set (td := t :: todeal) in *.
      assert (ND' : NoDup (order n td)) by (eapply Permutation_NoDup; [apply Permutation_sym, O|auto]).
      assert (DJ' : forall x, In x (order n td) -> ~ In x dealt) by (intros x X; apply DJ; eapply Permutation_in; [apply O|exact X]).
      destruct (pass_some (order n td) dealt m B K ND' DJ') as (dealt' & m' & P & G). rewrite P.
      pose proof (pass_built _ _ _ _ _ P B K ND' DJ') as (B' & K' & I1 & I2).
      destruct (least rank td) as (x & X & M); [discriminate|].
      assert (DX : In x dealt').
      { apply G; [eapply Permutation_in; [apply Permutation_sym, O|exact X]|]. intros d D. pose proof (AC x d D) as LT.
        destruct WF as (_ & _ & W3). assert (TD : In d tids) by (apply (W3 x d); auto; apply C; auto). apply C in TD. destruct TD as [TD|]; auto.
        exfalso. specialize (M d TD). lia. }
      apply IH; auto.
      + assert (F : length (filter (fun t => negb (mem_str t dealt')) td) < length td).
        { apply (filter_shorter _ _ x); auto. apply negb_false_iff, mem_str_In. exact DX. }
        lia.
      + now apply NoDup_filter.
      + intros y Y. apply filter_In in Y. destruct Y as [_ Y]. now apply negb_true_iff, mem_str_false in Y.
      + intros y. rewrite filter_In, negb_true_iff, mem_str_false, C. split.
        * intros [Y|Y]; auto. destruct (in_dec str_eq_dec y dealt'); auto.
        * intros [[Y _]|Y]; auto. apply I2 in Y. destruct Y as [Y|Y]; auto. left. eapply Permutation_in; [apply O|exact Y].
  Qed.
End Graph.

Lemma consistent_unique H g m1 m2 : built H g m1 -> consistent H g m2 -> forall t h1 h2, lookup m1 t = Some h1 -> lookup m2 t = Some h2 -> h1 = h2.
Proof.
  intros B C. induction B as [|v m B IH F D]; [discriminate|]. intros t h1 h2. rewrite lookup_cons. destruct (seqb t v) eqn:E.
  - apply seqb_eq in E. subst. intros [= <-] L2. destruct (C v h2 L2) as [-> K]. f_equal. apply text_ext. intros p d I.
    destruct (D p d I) as [a A], (K p d I) as [b Bb]. unfold unihash. rewrite A, Bb. eauto.
  - apply IH.
Qed.

(** ** One changed input *)
Lemma concat_same_length {A} (f f' : A -> str) n l : (forall x, In x l -> length (f x) = n /\ length (f' x) = n) ->
  List.concat (map f l) = List.concat (map f' l) -> forall x, In x l -> f x = f' x.
Proof.
  intros L. induction l as [|y l IH]; intros E x; [intros []|]. cbn [map List.concat] in E.
  destruct (L y) as [La Lb]; [now left|].
  assert (Y : f y = f' y). { apply (f_equal (firstn n)) in E. rewrite !firstn_app, La, Lb, Nat.sub_diag, !firstn_O, !app_nil_r in E. rewrite <- La in E at 1. rewrite <- Lb in E. now rewrite !firstn_all in E. }
  rewrite Y in E. apply app_inv_head in E. intros [<-|I]; auto. apply IH; auto. intros z Z. apply L. now right.
Qed.
Lemma needs_trans g a b c : needs g a b -> needs g b c -> needs g a c.
Proof. induction 1; auto. intros. eapply n_dep; eauto. Qed.

Section Change.
  Variable H : str -> str.
  Variable n : nat.
  Hypothesis LEN : forall x, length (H x) = n.
  Variables g g' : str -> task.
  Variable t : str.
  Hypothesis OTHER : forall v, v <> t -> g' v = g v.
  Hypothesis DEPS : t_deps (g' t) = t_deps (g t).
  Lemma same_deps v : t_deps (g' v) = t_deps (g v).
  Proof. destruct (str_eq_dec v t) as [->|N]; [auto|now rewrite OTHER]. Qed.

  Lemma unaffected m m' : built H g m -> consistent H g' m' -> forall v h h', lookup m v = Some h -> lookup m' v = Some h' -> ~ needs g v t -> h = h'.
  Proof.
    intros B C. induction B as [|u m B IH F D]; [discriminate|]. intros v h h'. rewrite lookup_cons. destruct (seqb v u) eqn:E.
    - apply seqb_eq in E. subst. intros [= <-] L N. destruct (C u h' L) as [-> K]. rewrite same_deps in K.
      assert (NT : u <> t) by (intros ->; apply N; constructor). rewrite (OTHER u NT). f_equal. apply text_ext. intros p d I.
      destruct (D p d I) as [a A], (K p d I) as [b Bb]. unfold unihash. rewrite A, Bb. apply (IH d a b); auto. intros X. apply N. eapply n_dep; eauto.
    - apply IH.
  Qed.

  Hypothesis ONE : one_input (g t) (g' t).
  (** No task before [t] in the order needs it. *)
  Lemma before_not_needs m : built H g m -> ~ known m t -> forall v, known m v -> ~ needs g v t.
  Proof.
    intros B NT v K N. revert K. induction N as [x|v p u x I N IH]; [auto|]. intros K. apply IH; auto.
    destruct K as [h K]. destruct (built_consistent H g m B v h K) as [_ D]. eapply D, I.
  Qed.
  Lemma affected m m' : built H g m -> consistent H g' m' -> forall v h h', lookup m v = Some h -> lookup m' v = Some h' -> needs g v t ->
    h <> h' \/ exists u a a', needs g v u /\ needs g u t /\ a <> a' /\ H a = H a' /\ lookup m u = Some (H a) /\ lookup m' u = Some (H a') /\
      a = task_text (g u) (unihash m) /\ a' = task_text (g' u) (unihash m').
  Proof.
    intros B C. induction B as [|u m B IH F D]; [discriminate|]. intros v h h'. set (m1 := (u, H (task_text (g u) (unihash m))) :: m).
    assert (B1 : built H g m1) by (constructor; auto).
    assert (X : forall w, (forall p d, In (p, d) (t_deps (g w)) -> known m d) -> task_text (g w) (unihash m1) = task_text (g w) (unihash m)).
    { intros w W. apply text_ext. intros p d I. apply unihash_cons_other. intros ->. apply F. eapply W, I. }
    assert (XO : forall w, w <> u -> lookup m1 w = lookup m w) by (intros w W; unfold m1; rewrite lookup_cons; apply seqb_neq in W; now rewrite W).
    destruct (str_eq_dec v u) as [->|NV].
    2:{ rewrite XO by auto. intros L L' N. destruct (IH v h h' L L' N) as [Q|(w & a & a' & Q1 & Q2 & Q3 & Q4 & Q5 & Q6 & Q7 & Q8)]; auto.
        right. exists w, a, a'. assert (WU : w <> u). { intros ->. apply F. eexists. exact Q5. }
        rewrite XO by auto. split; [auto|]. split; [auto|]. split; [auto|]. split; [auto|]. split; [auto|]. split; [auto|]. split; [|auto].
        rewrite X; auto. intros p d I. destruct (built_consistent H g m B w _ Q5) as [_ K]. eapply K, I. }
    unfold m1 at 1. rewrite lookup_cons, seqb_refl. intros [= <-] L' N. destruct (C u h' L') as [E K]. rewrite same_deps in K.
    set (a := task_text (g u) (unihash m)) in *. set (a' := task_text (g' u) (unihash m')) in *.
    assert (FIN : a <> a' -> H a <> h' \/ exists w b b', needs g u w /\ needs g w t /\ b <> b' /\ H b = H b' /\ lookup m1 w = Some (H b) /\ lookup m' w = Some (H b') /\
      b = task_text (g w) (unihash m1) /\ b' = task_text (g' w) (unihash m')).
    { intros NA. destruct (str_eq_dec (H a) h') as [Q|Q]; auto. right. exists u, a, a'. split; [constructor|]. split; [auto|]. split; [auto|]. split; [congruence|].
      split; [unfold m1; rewrite lookup_cons, seqb_refl; reflexivity|]. split; [congruence|]. split; [|reflexivity]. unfold a. symmetry. apply X. exact D. }
    destruct (str_eq_dec u t) as [->|NU].
    - apply FIN. unfold a, a', task_text. destruct ONE as [_ O]. rewrite DEPS.
      assert (S : List.concat (map (fun d : str * str => unihash m (snd d)) (sort_le pair_leb (t_deps (g t)))) =
                  List.concat (map (fun d : str * str => unihash m' (snd d)) (sort_le pair_leb (t_deps (g t))))).
      { apply concat_ext. intros [p d] I. cbn. assert (I' : In (p, d) (t_deps (g t))) by (eapply Permutation_in; [apply sort_le_perm|exact I]).
        destruct (D p d I') as [x1 A1], (K p d I') as [x2 A2]. unfold unihash. rewrite A1, A2. eapply (unaffected m m'); eauto. apply (before_not_needs m); auto. exists x1. auto. }
      rewrite S. destruct O as [(O1 & O2 & O3)|[(O1 & O2 & O3)|(O1 & O2 & O3)]].
      + rewrite O2, O3. intros Q. apply app_inv_tail in Q. auto.
      + rewrite O1, O3. intros Q. apply app_inv_head in Q. apply app_inv_head in Q. apply app_inv_tail in Q. auto.
      + rewrite O1, O2. intros Q. do 3 apply app_inv_head in Q. auto.
    - assert (NX : exists p d, In (p, d) (t_deps (g u)) /\ needs g d t). { inversion N; subst; [congruence|eauto]. }
      destruct NX as (p & d & I & ND). destruct (D p d I) as [h1 L1], (K p d I) as [h2 L2].
      assert (DU : d <> u) by (intros ->; apply F; eexists; exact L1).
      destruct (IH d h1 h2 L1 L2 ND) as [Q|(w & b & b' & Q1 & Q2 & Q3 & Q4 & Q5 & Q6 & Q7 & Q8)].
      + apply FIN. unfold a, a'. rewrite (OTHER u NU). unfold task_text. intros S. apply app_inv_head in S. apply app_inv_tail in S. apply Q.
        assert (Z : unihash m d = unihash m' d).
        { apply (concat_same_length (fun d : str * str => unihash m (snd d)) (fun d : str * str => unihash m' (snd d)) n _ ) with (x := (p, d)) in S; auto.
          - intros [p' d'] I'. cbn. assert (I2 : In (p', d') (t_deps (g u))) by (eapply Permutation_in; [apply sort_le_perm|exact I']).
            destruct (D p' d' I2) as [y1 Y1], (K p' d' I2) as [y2 Y2]. unfold unihash. rewrite Y1, Y2.
            destruct (built_consistent H g m B d' y1 Y1) as [-> _], (C d' y2 Y2) as [-> _]. auto.
          - eapply Permutation_in; [apply Permutation_sym, sort_le_perm|exact I]. }
        unfold unihash in Z. now rewrite L1, L2 in Z.
      + right. exists w, b, b'. assert (WU : w <> u). { intros ->. apply F. eexists. exact Q5. } rewrite XO by auto.
        split; [eapply n_dep; eauto|]. split; [auto|]. split; [auto|]. split; [auto|]. split; [auto|]. split; [auto|]. split; [|auto].
        rewrite X; auto. intros p' d' I'. destruct (built_consistent H g m B w _ Q5) as [_ KK]. eapply KK, I'.
  Qed.
End Change.

(** ** Identifiers *)
Lemma split_on_app c a b : split_on c (a ++ c :: b) = split_on c a ++ split_on c b.
Proof.
  unfold split_on. assert (G : forall a cur, split_aux c cur (a ++ c :: b) = split_aux c cur a ++ split_aux c [] b).
  { clear a. induction a as [|x a IH]; intros cur; cbn [app split_aux].
    - now rewrite aeqb_refl.
    - destruct (aeqb x c); [cbn [app]; f_equal|]; apply IH. }
  apply G.
Qed.
Lemma colon_eq : s_ ":" = [colon]. Proof. reflexivity. Qed.
Lemma split_mc_tid mc fn task : ~ In colon mc -> ~ In colon task ->
  split_on colon (s_ "mc:" ++ mc ++ s_ ":" ++ fn ++ s_ ":" ++ task) = s_ "mc" :: mc :: split_on colon fn ++ [task].
Proof.
  intros M T. apply no_char_In in M, T. change (s_ "mc:") with (s_ "mc" ++ [colon]). rewrite <- app_assoc. cbn [app].
  rewrite split_on_cons by (apply no_char_In; cbn; intuition discriminate). f_equal. rewrite !colon_eq. cbn [app]. rewrite split_on_cons by auto. f_equal. rewrite split_on_app. f_equal. now apply split_on_single.
Qed.
Lemma is_mc_tid mc rest : is_mc (s_ "mc:" ++ mc ++ s_ ":" ++ rest) = true.
Proof.
  unfold is_mc. rewrite startswith_app. cbn [andb]. apply Nat.leb_le. unfold count_colons. rewrite !filter_app, !app_length. cbn. lia.
Qed.
Lemma rsplit1_app fn task : ~ In colon task -> rsplit1 (fn ++ s_ ":" ++ task) = Some (fn, task).
Proof.
  intros T. unfold rsplit1. rewrite !rev_app_distr. change (rev (s_ ":")) with [colon]. rewrite <- app_assoc. cbn [app].
  rewrite cut_at_some; [now rewrite !rev_involutive|]. apply no_char_In. intros I. apply T. now apply in_rev.
Qed.
Lemma split_build mc fn task : ~ In colon mc -> ~ In colon task -> (mc = [] -> forall r, fn <> s_ "mc:" ++ r) ->
  split_tid_mcfn (build_tid mc fn task) = Some (mc, fn, task, match mc with [] => fn | _ => s_ "mc:" ++ mc ++ s_ ":" ++ fn end).
Proof.
  intros M T F. unfold split_tid_mcfn, build_tid. destruct mc as [|c mc].
  - specialize (F eq_refl).
    assert (E : is_mc (fn ++ s_ ":" ++ task) = false \/ exists r, fn ++ s_ ":" ++ task = s_ "mc:" ++ r /\ count_colons (fn ++ s_ ":" ++ task) >= 2).
    { unfold is_mc. destruct (startswith (s_ "mc:") (fn ++ s_ ":" ++ task)) eqn:S; auto. apply startswith_iff in S. destruct S as [r S].
      cbn [andb]. destruct (Nat.leb_spec 2 (count_colons (fn ++ s_ ":" ++ task))) as [L|L]; auto. right. exists r. split; auto. }
    destruct E as [->|(r & E & C)]; [now rewrite rsplit1_app|]. exfalso.
    destruct fn as [|a [|b [|d fn]]]; cbn [app s_ list_ascii_of_string] in E.
    + discriminate. + discriminate. + 
      injection E as -> -> E. change (s_ ":" ++ task) with (colon :: task) in C. unfold count_colons in C. cbn in C.
      assert (Z : filter (aeqb colon) task = []).
      { destruct (filter (aeqb colon) task) as [|x l] eqn:Q; auto. exfalso. apply T. assert (I : In x (filter (aeqb colon) task)) by (rewrite Q; now left).
        apply filter_In in I. destruct I as [I J]. apply aeqb_eq in J. now subst. }
      rewrite Z in C. cbn in C. lia.
    + injection E as -> -> -> _. apply (F fn). reflexivity.
  - rewrite is_mc_tid. rewrite split_mc_tid by auto. rewrite removelast_last, last_last. do 4 f_equal; [|].
    + f_equal. apply (proj2 (proj2 (split_on_spec colon fn))). + do 3 f_equal. apply (proj2 (proj2 (split_on_spec colon fn))).
Qed.

(** ** Dumped data *)
Lemma base_name_no_slash f : ~ In "/"%char (base_name f).
Proof.
  unfold base_name. pose proof (split_on_spec "/" f) as (F & NE & _). apply no_char_In.
  destruct (split_on "/" f) as [|x l] using rev_ind; [congruence|]. rewrite last_last. apply Forall_app in F. destruct F as [_ F]. now inversion F.
Qed.
Lemma lookup_in m k v : NoDup (map fst m) -> In (k, v) m -> lookup m k = Some v.
Proof.
  induction m as [|[a b] m IH]; [intros _ []|]. intros ND I. inversion ND as [|? ? N ND1]; subst. cbn [lookup]. destruct I as [[= -> ->]|I].
  - now rewrite seqb_refl.
  - destruct (seqb k a) eqn:E; auto. apply seqb_eq in E. subst. exfalso. apply N. change a with (fst (a, v)). now apply in_map.
Qed.
Lemma dump_hashes t u : NoDup (map fst (t_deps t)) -> forall p d, In (p, d) (t_deps t) -> unihash (rev (map (fun d => (fst d, u (snd d))) (t_deps t))) p = u d.
Proof.
  intros ND p d I. unfold unihash. rewrite (lookup_in _ p (u d)); auto.
  - rewrite map_rev, map_map. cbn [fst]. eapply Permutation_NoDup; [apply Permutation_rev|exact ND].
  - rewrite <- in_rev. apply in_map_iff. exists (p, d). auto.
Qed.
Lemma dump_text t u file : NoDup (map fst (t_deps t)) ->
  (match t_taint t with
   | Some x => (exists r, x = nostamp ++ r) \/ (file = Some x /\ x <> [] /\ forall a b, x <> a ++ nostamp ++ b)
   | None => file = None \/ file = Some []
   end) -> calc_text (dump t u file) = task_text t u.
Proof.
  intros ND T. unfold calc_text, dump, task_text. cbn [d_base d_deps d_hashes d_files d_taint]. f_equal. f_equal; [|f_equal].
  - rewrite map_map. apply concat_ext. intros [p d] I. cbn [fst snd]. apply dump_hashes; auto. eapply Permutation_in; [apply sort_le_perm|exact I].
  - rewrite map_map. apply concat_ext. intros [f c] _. unfold file_text. cbn [fst snd]. destruct c as [|x c]; [reflexivity|]. f_equal.
    destruct (after_mark f) as [r|].
    + assert (C : contains_sub (s_ "./") (s_ "./" ++ r) = true) by (apply contains_sub_iff; exists [], r; reflexivity). now rewrite C.
    + replace (contains_sub (s_ "./") (base_name f)) with false; auto. symmetry. apply not_true_iff_false. intros C. apply contains_sub_iff in C.
      destruct C as (a & b & C). apply (base_name_no_slash f). rewrite C. apply in_app_iff. right. cbn. auto.
  - unfold taint_text. destruct (t_taint t) as [x|].
    + destruct T as [[r ->]|(-> & NE & N)].
      * replace (contains_sub nostamp (nostamp ++ r)) with true by (symmetry; apply contains_sub_iff; exists [], r; reflexivity).
        rewrite startswith_app. replace (contains_sub nostamp (nostamp ++ r)) with true by (symmetry; apply contains_sub_iff; exists [], r; reflexivity). reflexivity.
      * assert (C : contains_sub nostamp x = false). { apply not_true_iff_false. intros C. apply contains_sub_iff in C. destruct C as (a & b & C). exact (N a b C). }
        rewrite C. destruct x as [|c x]; [congruence|]. rewrite C. replace (startswith nostamp (c :: x)) with false; auto. symmetry. apply not_true_iff_false. intros S. apply startswith_iff in S. destruct S as [r S].
        exact (N [] r S).
    + destruct T as [->| ->]; reflexivity.
Qed.
