(** Lemmas for the claims on revisions of git sources. *)
From Coq Require Import Ascii String List Bool Arith Lia.
From Verif Require Import Str_Model Str_Proofs Gitrev_Model Gitrev_Spec.
Import ListNotations.
Open Scope list_scope.

(** ** The revision asked for *)
Lemma valid_usable : forall getVar a, valid (getVar a) = true <-> exists v, usable getVar a v.
Proof.
  intros g a. unfold valid, usable. destruct (g a) as [[|c v]|]; cbn [filled andb].
  - split; [discriminate|]. intros (v & E & N & _). injection E as <-. congruence.
  - rewrite negb_true_iff. split.
    + intro H. exists (c :: v). split; [reflexivity|]. split; [discriminate|]. intro E. rewrite E, seqb_refl in H. discriminate H.
    + intros (w & E & _ & N). injection E as <-. apply not_true_iff_false. intro H. apply seqb_eq in H. apply N. exact H.
  - split; [discriminate|]. intros (v & E & _). discriminate E.
Qed.
Lemma look_decided : forall g l last v, decided g l v -> look_up g last l = Some v /\ valid (look_up g last l) = true.
Proof.
  induction l as [|a l IH]; intros last v (l1 & b & l2 & E & U & N); [destruct l1; discriminate E|]. cbn.
  destruct l1 as [|x l1]; injection E as -> ->.
  - assert (V : valid (g b) = true) by (apply valid_usable; eauto). rewrite V. split; [apply U|exact V].
  - assert (V : valid (g x) = false). { apply not_true_iff_false. intro V. apply valid_usable in V. destruct V as [w W]. apply (N x w (or_introl eq_refl) W). }
    rewrite V. apply IH. exists l1, b, l2. split; [reflexivity|]. split; [exact U|]. intros y w I. apply N. right. exact I.
Qed.
Lemma look_undecided : forall g l last, undecided g l -> valid last = false -> valid (look_up g last l) = false.
Proof.
  induction l as [|a l IH]; intros last U V; [exact V|]. cbn. assert (W : valid (g a) = false). { apply not_true_iff_false. intro X. apply valid_usable in X. destruct X as [w X]. apply (U a w (or_introl eq_refl) X). }
  rewrite W. apply IH; [|exact W]. intros b w I. apply U. right. exact I.
Qed.
Lemma decide : forall g l, (exists v, decided g l v) \/ undecided g l.
Proof.
  induction l as [|a l [[v (l1 & b & l2 & -> & U & N)]|IH]]; [right; intros b w []| |].
  - destruct (valid (g a)) eqn:V.
    + apply valid_usable in V. destruct V as [w W]. left. exists w, [], a, (l1 ++ b :: l2). split; [reflexivity|]. split; [exact W|]. intros ? ? [].
    + left. exists v, (a :: l1), b, l2. split; [reflexivity|]. split; [exact U|]. intros x w [<-|I]; [|apply N, I]. intro X. assert (T : valid (g a) = true) by (apply valid_usable; eauto). congruence.
  - destruct (valid (g a)) eqn:V.
    + apply valid_usable in V. destruct V as [w W]. left. exists w, [], a, l. split; [reflexivity|]. split; [exact W|]. intros ? ? [].
    + right. intros x w [<-|I]; [|apply IH, I]. intro X. assert (T : valid (g a) = true) by (apply valid_usable; eauto). congruence.
Qed.
Lemma not_both : forall g l v, decided g l v -> undecided g l -> False.
Proof. intros g l v (l1 & a & l2 & -> & U & _) N. apply (N a v); [apply in_or_app; right; left; reflexivity|exact U]. Qed.
Lemma decided_one : forall g l v w, decided g l v -> decided g l w -> v = w.
Proof. intros g l v w D E. destruct (look_decided g l None v D) as [H _], (look_decided g l None w E) as [K _]. congruence. Qed.
Lemma attempts_variables : forall pn name : str, pn <> [] -> name <> [] -> attempts (Some pn) name = variables pn name.
Proof. intros [|c pn] [|e name] P N; try congruence. reflexivity. Qed.

(** ** Refs *)
Lemma find_ref_some : forall out s c, refs_once out -> (find_ref s out = Some c <-> points out s c).
Proof.
  unfold find_ref, refs_once, points. induction out as [|[o r] out IH]; intros s c N; [cbn; split; [discriminate|contradiction]|].
  inversion_clear N as [|? ? NI N']. cbn [find snd]. destruct (seqb s r) eqn:E.
  - apply seqb_eq in E. subst r. cbn. split; [intro H; injection H as ->; left; reflexivity|]. intros [H|H]; [injection H as ->; reflexivity|]. exfalso. apply NI. apply (List.in_map snd) in H. exact H.
  - rewrite (IH s c N'). split; [right; assumption|]. intros [H|H]; [|exact H]. injection H as -> ->. rewrite seqb_refl in E. discriminate E.
Qed.
Lemma find_ref_none : forall out s, find_ref s out = None <-> absent out s.
Proof.
  unfold find_ref, absent, points. induction out as [|[o r] out IH]; intro s; [cbn; tauto|]. cbn [find snd]. destruct (seqb s r) eqn:E.
  - apply seqb_eq in E. subst r. split; [discriminate|]. intro H. exfalso. apply (H o). left. reflexivity.
  - rewrite IH. split; [|intros H c I; apply (H c); right; exact I]. intros H c [I|I]; [|apply (H c I)]. injection I as -> ->. rewrite seqb_refl in E. discriminate E.
Qed.
Lemma find_ref_In : forall out s c, find_ref s out = Some c -> points out s c.
Proof.
  unfold find_ref, points. intros out s c H. destruct (find _ out) as [[o r]|] eqn:F; [|discriminate H]. injection H as <-. apply find_some in F. destruct F as [I E]. apply seqb_eq in E. cbn in E. subst r. exact I.
Qed.
Lemma three : forall out a b d c, refs_once out ->
  (match find_ref a out with Some c => Some c | None => match find_ref b out with Some c => Some c | None => find_ref d out end end = Some c <->
   points out a c \/ (absent out a /\ points out b c) \/ (absent out a /\ absent out b /\ points out d c)).
Proof.
  intros out a b d c N. destruct (find_ref a out) as [x|] eqn:A.
  - pose proof (find_ref_In _ _ _ A) as P. pose proof (proj2 (find_ref_some out a c N)) as Q. split.
    + intro H. injection H as <-. left. exact P.
    + intros [H|[[H _]|[H _]]]; [|exfalso; apply (H x P)|exfalso; apply (H x P)]. specialize (Q H). congruence.
  - apply find_ref_none in A. destruct (find_ref b out) as [x|] eqn:B.
    + pose proof (find_ref_In _ _ _ B) as P. pose proof (proj2 (find_ref_some out b c N)) as Q. split.
      * intro H. injection H as <-. auto.
      * intros [H|[[_ H]|[_ [H _]]]]; [exfalso; apply (A c H)| |exfalso; apply (H x P)]. specialize (Q H). congruence.
    + apply find_ref_none in B. rewrite (find_ref_some out d c N). split; [auto|]. intros [H|[[_ H]|[_ [_ H]]]]; [exfalso; apply (A c H)|exfalso; apply (B c H)|exact H].
Qed.
Lemma is_ref_iff : forall u, is_ref u = true <-> begins_refs u.
Proof.
  intro u. unfold is_ref, begins_refs. rewrite seqb_eq. split.
  - intro H. exists (skipn 5 u). rewrite <- H. symmetry. apply firstn_skipn.
  - intros [v ->]. reflexivity.
Qed.
Lemma three_In : forall out a b d c, match find_ref a out with Some c => Some c | None => match find_ref b out with Some c => Some c | None => find_ref d out end end = Some c -> exists r, points out r c.
Proof.
  intros out a b d c. destruct (find_ref a out) as [x|] eqn:A; [intro H; injection H as <-; exists a; apply find_ref_In, A|].
  destruct (find_ref b out) as [x|] eqn:B; [intro H; injection H as <-; exists b; apply find_ref_In, B|]. intro H. exists d. apply find_ref_In, H.
Qed.
Lemma resolve_In : forall h u out c, resolve h u out = Some c -> exists r, points out r c.
Proof. intros h u out c. unfold resolve. apply three_In. Qed.
Lemma hexdigit_In : forall c, hexdigit c = true <-> In c (s_ "0123456789abcdef").
Proof.
  intro c. split.
  - destruct c as [[] [] [] [] [] [] [] []]; intro H; vm_compute in H; try discriminate H; vm_compute; tauto.
  - intro H. cbv [s_ list_ascii_of_string] in H. repeat (destruct H as [<-|H]; [reflexivity|]). contradiction.
Qed.
Lemma is_sha1_iff : forall r, is_sha1 r = true <-> sha1 r.
Proof.
  intro r. unfold is_sha1, sha1. rewrite andb_true_iff, Nat.eqb_eq, forallb_forall. split; intros [L H]; (split; [exact L|]); intros c I; apply hexdigit_In, H, I.
Qed.

(** ** The store of revisions *)
Lemma get_rev_kept : forall revs w u out k r, get_rev k revs = Some r -> get_rev k (snd (latest_revision revs w u out)) = Some r.
Proof.
  intros revs w u out k r H. unfold latest_revision. set (key := revision_key _ _ _). destruct (get_rev key revs) eqn:G; [exact H|].
  destruct (resolve _ u out) as [c|]; [|exact H]. cbn [snd]. unfold get_rev. cbn [find fst]. destruct (seqb k key) eqn:E; [|exact H]. apply seqb_eq in E. rewrite E, G in H. discriminate H.
Qed.
Lemma latest_stored : forall revs w u out r, fst (latest_revision revs w u out) = Some r -> get_rev (revision_key (u_host w) (u_path w) u) (snd (latest_revision revs w u out)) = Some r.
Proof.
  intros revs w u out r. unfold latest_revision. set (key := revision_key _ _ _). destruct (get_rev key revs) eqn:G; [cbn [fst snd]; intro H; rewrite <- H; exact G|].
  destruct (resolve _ u out) as [c|]; [|discriminate]. cbn. intro H. injection H as <-. unfold get_rev. cbn. rewrite seqb_refl. reflexivity.
Qed.
Definition key_of (q : request) : str := let '(w, u, _) := q in revision_key (u_host w) (u_path w) u.
Definition res_of (q : request) : option str := let '(w, u, o) := q in resolve (u_usehead w) u o.
Fixpoint store (revs : headrevs) (l : list request) : headrevs :=
  match l with [] => revs | (w, u, o) :: l => store (snd (latest_revision revs w u o)) l end.
Lemma ask_all_app : forall l l' revs, ask_all revs (l ++ l') = ask_all revs l ++ ask_all (store revs l) l'.
Proof.
  induction l as [|[[w u] o] l IH]; intros l' revs; [reflexivity|]. cbn [app ask_all store]. destruct (latest_revision revs w u o) as [r revs']. cbn [snd]. rewrite IH. reflexivity.
Qed.
Lemma ask_all_length : forall l revs, length (ask_all revs l) = length l.
Proof. induction l as [|[[w u] o] l IH]; intro revs; [reflexivity|]. cbn. destruct (latest_revision revs w u o). cbn. rewrite IH. reflexivity. Qed.
Lemma store_kept : forall l revs k r, get_rev k revs = Some r -> get_rev k (store revs l) = Some r.
Proof. induction l as [|[[w u] o] l IH]; intros revs k r H; [exact H|]. apply IH, get_rev_kept, H. Qed.
Fixpoint first_some (l : list (option str)) : option str := match l with [] => None | Some r :: _ => Some r | None :: l => first_some l end.
Lemma get_latest : forall revs q k, get_rev k (snd (latest_revision revs (fst (fst q)) (snd (fst q)) (snd q))) =
  match get_rev k revs with Some r => Some r | None => if seqb k (key_of q) then res_of q else None end.
Proof.
  intros revs [[w u] o] k. cbn [fst snd key_of res_of]. unfold latest_revision. set (key := revision_key _ _ _).
  destruct (get_rev key revs) as [x|] eqn:G.
  - cbn [snd]. destruct (get_rev k revs) eqn:K; [reflexivity|]. destruct (seqb k key) eqn:E; [|reflexivity]. apply seqb_eq in E. rewrite E, G in K. discriminate K.
  - destruct (resolve (u_usehead w) u o) as [c|]; cbn [snd].
    + unfold get_rev at 1. cbn [find fst]. destruct (seqb k key) eqn:E.
      * apply seqb_eq in E. rewrite E, G. reflexivity.
      * fold (get_rev k revs). destruct (get_rev k revs); reflexivity.
    + destruct (get_rev k revs); [reflexivity|]. destruct (seqb k key); reflexivity.
Qed.
Lemma store_get : forall l revs k, get_rev k (store revs l) =
  match get_rev k revs with Some r => Some r | None => first_some (map res_of (filter (fun q => seqb k (key_of q)) l)) end.
Proof.
  induction l as [|[[w u] o] l IH]; intros revs k; [cbn; destruct (get_rev k revs); reflexivity|]. cbn [store]. rewrite IH. rewrite (get_latest revs (w, u, o) k : get_rev k (snd (latest_revision revs w u o)) = _).
  cbn [filter]. destruct (get_rev k revs); [reflexivity|]. destruct (seqb k (key_of (w, u, o))); [|reflexivity]. cbn [map first_some]. destruct (res_of (w, u, o)); reflexivity.
Qed.
Lemma latest_fst : forall revs w u o, fst (latest_revision revs w u o) = match get_rev (key_of (w, u, o)) revs with Some r => Some r | None => res_of (w, u, o) end.
Proof. intros revs w u o. unfold latest_revision, key_of, res_of. destruct (get_rev _ revs); [reflexivity|]. destruct (resolve _ u o); reflexivity. Qed.

(** ** Names *)
Lemma dots_inj : forall p q b, ~ In "."%char p -> ~ In "."%char q -> (forall a c, p <> a ++ s_ "//" ++ c) -> (forall a c, q <> a ++ s_ "//" ++ c) ->
  (b = true -> (forall c, p <> "/"%char :: c) /\ forall c, q <> "/"%char :: c) -> dots b p = dots b q -> p = q.
Proof.
  assert (T : forall x p, (forall a c, x :: p <> a ++ s_ "//" ++ c) -> forall a c, p <> a ++ s_ "//" ++ c).
  { intros x p H a c E. apply (H (x :: a) c). cbn. rewrite E. reflexivity. }
  assert (S : forall p, (forall a c, "/"%char :: p <> a ++ s_ "//" ++ c) -> forall c, p <> "/"%char :: c).
  { intros p H c E. apply (H [] c). rewrite E. reflexivity. }
  assert (D : forall b x q, dots b (x :: q) = [] -> b = true /\ x = "/"%char).
  { intros b x q E. cbn in E. destruct (aeqb x "/") eqn:A; [apply aeqb_eq in A|discriminate E]. destruct b; [auto|discriminate E]. }
  induction p as [|x p IH]; intros [|y q] b NP NQ DP DQ B E.
  - reflexivity.
  - symmetry in E. destruct (D _ _ _ E) as [-> ->]. destruct (B eq_refl) as [_ B']. exfalso. apply (B' q eq_refl).
  - destruct (D _ _ _ E) as [-> ->]. destruct (B eq_refl) as [B' _]. exfalso. apply (B' p eq_refl).
  - cbn in E. assert (NP' : ~ In "."%char p) by (intro; apply NP; right; assumption). assert (NQ' : ~ In "."%char q) by (intro; apply NQ; right; assumption).
    destruct (aeqb x "/") eqn:A, (aeqb y "/") eqn:C.
    + apply aeqb_eq in A. apply aeqb_eq in C. subst x y. destruct b; [destruct (B eq_refl) as [B' _]; exfalso; apply (B' p eq_refl)|]. injection E as E. f_equal. apply (IH q true NP' NQ' (T _ _ DP) (T _ _ DQ)); [|exact E]. intros _. split; [apply S, DP|apply S, DQ].
    + apply aeqb_eq in A. subst x. destruct b; [destruct (B eq_refl) as [B' _]; exfalso; apply (B' p eq_refl)|]. injection E as E _. exfalso. apply NQ. left. symmetry. exact E.
    + apply aeqb_eq in C. subst y. destruct b; [destruct (B eq_refl) as [_ B']; exfalso; apply (B' q eq_refl)|]. injection E as E _. exfalso. apply NP. left. exact E.
    + injection E as -> E. f_equal. apply (IH q false NP' NQ' (T _ _ DP) (T _ _ DQ)); [discriminate|exact E].
Qed.
Lemma clean_inj : forall p q, (forall c, In c p -> ~ In c (s_ "._* ()")) -> (forall c, In c q -> ~ In c (s_ "._* ()")) -> map clean_char p = map clean_char q -> p = q.
Proof.
  assert (X : forall x y, ~ In x (s_ "._* ()") -> ~ In y (s_ "._* ()") -> clean_char x = clean_char y -> x = y).
  { assert (Y : forall x, ~ In x (s_ "._* ()") -> clean_char x = x \/ (x = "/"%char /\ clean_char x = "."%char)).
    { intros x N. unfold clean_char. destruct (aeqb x "/") eqn:A; [apply aeqb_eq in A; right; auto|]. destruct (aeqb x "*") eqn:B; [apply aeqb_eq in B; subst x; exfalso; apply N; cbn; tauto|].
      destruct (aeqb x " ") eqn:C; [apply aeqb_eq in C; subst x; exfalso; apply N; cbn; tauto|]. destruct (aeqb x "(") eqn:F; [apply aeqb_eq in F; subst x; exfalso; apply N; cbn; tauto|].
      destruct (aeqb x ")") eqn:G; [apply aeqb_eq in G; subst x; exfalso; apply N; cbn; tauto|]. left. reflexivity. }
    intros x y NX NY E. destruct (Y x NX) as [H|[-> H]], (Y y NY) as [K|[-> K]]; rewrite ?H, ?K in E; auto; subst; exfalso; first [apply NX; cbn; tauto | apply NY; cbn; tauto]. }
  induction p as [|x p IH]; intros [|y q] P Q E; try discriminate E; [reflexivity|]. cbn [map] in E. injection E as E1 E2. f_equal.
  - apply X; auto; [apply P|apply Q]; left; reflexivity.
  - apply IH; auto; intros c I; [apply P|apply Q]; right; exact I.
Qed.
Lemma clean_no_slash : forall c, clean_char c <> "/"%char.
Proof. intro c. unfold clean_char. destruct (aeqb c "/") eqn:A; [discriminate|]. destruct (aeqb c "*"); [discriminate|]. destruct (aeqb c " " || aeqb c "(" || aeqb c ")"); [discriminate|]. cbn. intros ->. discriminate A. Qed.

(** ** Versions *)
Lemma set_rev_In : forall m q t n r, NoDup (map fst t) -> (In (n, r) (set_rev m q t) <-> (n = m /\ r = q) \/ (n <> m /\ In (n, r) t)).
Proof.
  induction t as [|[k v] t IH]; intros n r N.
  - cbn. split; [intros [H|[]]; injection H as <- <-; auto|]. intros [[-> ->]|[_ []]]. auto.
  - inversion_clear N as [|? ? NI N']. cbn [set_rev]. destruct (seqb m k) eqn:E.
    + apply seqb_eq in E. subst k. cbn [In]. split.
      * intros [H|H]; [injection H as <- <-; auto|]. right. split; [|auto]. intros ->. apply NI. apply (List.in_map fst) in H. exact H.
      * intros [[-> ->]|[D [H|H]]]; auto. injection H as -> ->. congruence.
    + cbn [In]. rewrite IH by exact N'. assert (D : m <> k) by (intros ->; rewrite seqb_refl in E; discriminate E). split.
      * intros [H|[H|[H I]]]; auto. injection H as <- <-. right. split; [congruence|auto].
      * intros [H|[H [I|I]]]; auto.
Qed.
Lemma set_rev_names : forall m q t x, In x (map fst (set_rev m q t)) <-> x = m \/ In x (map fst t).
Proof.
  induction t as [|[k v] t IH]; intro x; cbn; [intuition|]. destruct (seqb m k) eqn:E; cbn.
  - apply seqb_eq in E. subst k. intuition.
  - rewrite IH. intuition.
Qed.
Lemma set_rev_nodup : forall m q t, NoDup (map fst t) -> NoDup (map fst (set_rev m q t)).
Proof.
  induction t as [|[k v] t IH]; intro N; cbn; [constructor; [intros []|constructor]|]. inversion_clear N as [|? ? NI N']. destruct (seqb m k) eqn:E; cbn.
  - apply seqb_eq in E. subst k. constructor; auto.
  - constructor; [|apply IH, N']. rewrite set_rev_names. intros [->|H]; [rewrite seqb_refl in E; discriminate E|apply NI, H].
Qed.
Lemma name_to_rev_snoc : forall l e, name_to_rev (l ++ [e]) = set_rev (fst e) (short (snd e)) (name_to_rev l).
Proof. intros l e. unfold name_to_rev. rewrite fold_left_app. reflexivity. Qed.
Lemma name_to_rev_spec : forall l, NoDup (map fst (name_to_rev l)) /\ forall n r, In (n, r) (name_to_rev l) <-> exists q, last_rev n l = Some q /\ r = short q.
Proof.
  induction l as [|[m q] l [N S]] using rev_ind.
  - split; [constructor|]. intros n r. cbn. split; [contradiction|]. intros (q & H & _). discriminate H.
  - rewrite name_to_rev_snoc. cbn [fst snd]. split; [apply set_rev_nodup, N|]. intros n r. rewrite set_rev_In by exact N. unfold last_rev. rewrite rev_app_distr. cbn [rev app find fst].
    destruct (seqb n m) eqn:E.
    + apply seqb_eq in E. subst m. cbn. split; [intros [[_ ->]|[D _]]; [eauto|congruence]|]. intros (x & H & ->). injection H as <-. auto.
    + fold (last_rev n l). rewrite <- S. assert (D : n <> m) by (intros ->; rewrite seqb_refl in E; discriminate E). intuition congruence.
Qed.
Lemma insert_len_In : forall x l y, In y (insert_len x l) <-> y = x \/ In y l.
Proof. induction l as [|z l IH]; intro y; cbn; [intuition|]. destruct (Nat.leb _ _); cbn; [intuition|]. rewrite IH. intuition. Qed.
Lemma by_length_In : forall l y, In y (by_length l) <-> In y l.
Proof. induction l as [|x l IH]; intro y; [reflexivity|]. cbn. rewrite insert_len_In, IH. intuition. Qed.
Inductive longest_first : list (str * str) -> Prop :=
| lf_nil : longest_first []
| lf_cons : forall (x : str * str) (l : list (str * str)), (forall y : str * str, In y l -> length (fst y) <= length (fst x)) -> longest_first l -> longest_first (x :: l).
Lemma insert_len_sorted : forall x l, longest_first l -> longest_first (insert_len x l).
Proof.
  intros x l S. induction S as [|z l M S IH]; cbn; [constructor; [intros y []|constructor]|]. destruct (Nat.leb _ _) eqn:L.
  - apply Nat.leb_le in L. constructor; [|constructor; assumption]. intros y [<-|I]; [exact L|]. exact (Nat.le_trans _ _ _ (M y I) L).
  - apply Nat.leb_gt in L. constructor; [|exact IH]. intros y I. apply insert_len_In in I. destruct I as [->|I]; [exact (Nat.lt_le_incl _ _ L)|apply M, I].
Qed.
Lemma by_length_sorted : forall l, longest_first (by_length l).
Proof. induction l as [|x l IH]; [constructor|]. cbn. apply insert_len_sorted, IH. Qed.
Lemma find_longest : forall t f n r, longest_first t -> find (fun e => startswith (fst e) f) t = Some (n, r) ->
  In (n, r) t /\ startswith n f = true /\ forall m q, In (m, q) t -> startswith m f = true -> length m <= length n.
Proof.
  intros t f n r S. induction S as [|x l M S IH]; intro H; [discriminate H|]. cbn [find] in H. destruct (startswith (fst x) f) eqn:E.
  - injection H as ->. split; [left; reflexivity|]. split; [exact E|]. intros m q [H|H] _; [injection H as <- <-; reflexivity|]. apply (M (m, q) H).
  - destruct (IH H) as (I & P & L). split; [right; exact I|]. split; [exact P|]. intros m q [K|K] Z; [subst x; cbn in E; congruence|]. apply (L m q K Z).
Qed.
Lemma sub_skip : forall t n f, sub_names t (length n) (n ++ f) = sub_names t 0 f.
Proof. induction n as [|c n IH]; intro f; [reflexivity|]. cbn. apply IH. Qed.
Lemma starts_ex : forall p s, startswith p s = true <-> exists r, s = p ++ r.
Proof. intros. apply startswith_iff. Qed.
Section Table.
  Variables (t : list (str * str)) (names : list str) (val : token -> str).
  Hypothesis sorted : longest_first t.
  Hypothesis same : forall n, In n names <-> exists r, In (n, r) t.
  Hypothesis vals : forall n r, In (n, r) t -> val (Name n) = r.
  Hypothesis chars : forall c, val (Char c) = [c].
  Hypothesis nonempty : forall n, In n names -> n <> [].
  Lemma sub_reads_fuel : forall k f, length f <= k -> exists toks, reads names f toks /\ sub_names t 0 f = flat_map val toks.
  Proof.
    induction k as [|k IH]; intros [|c f] L; try (cbn in L; lia); try (exists []; split; [constructor|reflexivity]).
    cbn [sub_names]. destruct (find _ t) as [[n r]|] eqn:F.
    - destruct (find_longest _ _ _ _ sorted F) as (I & P & M). apply starts_ex in P. destruct P as [g P].
      assert (NE : n <> []) by (apply nonempty, same; eauto). destruct n as [|c' n]; [congruence|]. cbn in P. injection P as <- P. subst f.
      cbn [length pred]. rewrite sub_skip. destruct (IH g) as (toks & R & E); [cbn in L; rewrite app_length in L; lia|].
      exists (Name (c :: n) :: toks). split; [|cbn [flat_map]; rewrite E, (vals _ _ I); reflexivity].
      change (c :: n ++ g) with ((c :: n) ++ g). constructor; [apply same; eauto| |exact R]. intros m h IM EQ. apply same in IM. destruct IM as [q IM]. apply (M m q IM). apply starts_ex. exists h. exact EQ.
    - destruct (IH f) as (toks & R & E); [cbn in L; lia|]. exists (Char c :: toks). split; [|cbn [flat_map]; rewrite E, chars; reflexivity].
      constructor; [|exact R]. intros m g IM EQ. apply same in IM. destruct IM as [q IM]. pose proof (find_none _ _ F _ IM) as X. cbn in X. rewrite (proj2 (starts_ex m (c :: f)) (ex_intro _ g EQ)) in X. discriminate X.
  Qed.
  Lemma sub_reads : forall f, exists toks, reads names f toks /\ sub_names t 0 f = flat_map val toks.
  Proof. intro f. apply (sub_reads_fuel (length f)). reflexivity. Qed.
End Table.
Lemma app_inj_len : forall (A : Type) (a b c d : list A), length a = length c -> a ++ b = c ++ d -> a = c /\ b = d.
Proof. intro A. induction a as [|x a IH]; intros b [|y c] d L E; try discriminate L; [auto|]. cbn in *. injection E as -> E. injection L as L. destruct (IH _ _ _ L E) as [-> ->]. auto. Qed.
Lemma reads_unique : forall names f a, (forall n, In n names -> n <> []) -> reads names f a -> forall b, reads names f b -> a = b.
Proof.
  intros names f a NE R. induction R as [|n f toks I M R IH|c f toks N R IH]; intros b S.
  - inversion S as [|m g tk J K T E|]; [reflexivity|]. subst. destruct m; [exfalso; apply (NE _ J eq_refl)|discriminate E].
  - inversion S as [E|m g tk J K T E|c g tk K T E].
    + exfalso. destruct n; [apply (NE _ I eq_refl)|discriminate E].
    + assert (L : length m <= length n) by (apply (M m g J); congruence). assert (L' : length n <= length m) by (apply (K n f I); congruence).
      assert (Q : m = n /\ g = f). { apply app_inj_len; [lia|congruence]. } destruct Q as [-> ->]. f_equal. apply IH, T.
    + exfalso. apply (K n f I). congruence.
  - inversion S as [|m g tk J K T E|c' g tk K T E].
    + exfalso. apply (N m g J). congruence.
    + subst. f_equal. apply IH, T.
Qed.
