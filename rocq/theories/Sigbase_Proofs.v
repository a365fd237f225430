From Coq Require Import String Ascii List Arith Bool Lia.
From Verif Require Import Str_Model Str_Proofs Imgtypes_Model Imgtypes_Proofs Words_Proofs Sigbase_Model Sigbase_Spec.
Import ListNotations.

Lemma minus_in a b x : In x (minus a b) <-> In x a /\ ~ In x b.
Proof. unfold minus. rewrite filter_In, negb_true_iff, mem_str_false. tauto. Qed.
Lemma meet_in a b x : In x (meet a b) <-> In x b /\ In x a.
Proof. unfold meet. rewrite filter_In, mem_str_In. tauto. Qed.

Lemma flag_of_some flags n v : flag_of flags n = Some v <-> flag_is flags n v.
Proof.
  induction flags as [|[k w] r IH]; cbn [flag_of].
  - split; [discriminate|]. intros (l & r & E & _). destruct l; discriminate.
  - destruct (seqb n k) eqn:E.
    + apply seqb_eq in E. subst k. split.
      * intros [= ->]. exists [], r. split; [reflexivity|]. intros p [].
      * intros (l & r' & E & F). destruct l as [|p l]; cbn [app] in E.
        -- injection E as -> _. reflexivity.
        -- injection E as <- _. exfalso. apply (F (n, w)); [left; reflexivity|reflexivity].
    + apply seqb_neq in E. rewrite IH. split.
      * intros (l & r' & -> & F). exists ((k, w) :: l), r'. split; [reflexivity|].
        intros p [<-|P]; [cbn; congruence|auto].
      * intros (l & r' & Q & F). destruct l as [|p l]; cbn [app] in Q.
        -- injection Q as -> _ _. congruence.
        -- injection Q as <- ->. exists l, r'. split; [reflexivity|]. intros q Q. apply F. now right.
Qed.
Lemma flag_of_none flags n : flag_of flags n = None <-> no_flag flags n.
Proof.
  induction flags as [|[k w] r IH]; cbn [flag_of].
  - split; [intros _ p []|reflexivity].
  - destruct (seqb n k) eqn:E.
    + apply seqb_eq in E. subst. split; [discriminate|]. intros F. exfalso. apply (F (k, w)); [now left|reflexivity].
    + apply seqb_neq in E. rewrite IH. split.
      * intros F p [<-|P]; [cbn; congruence|auto].
      * intros F p P. apply F. now right.
Qed.
Lemma flag_words_in flags n x : In x (flag_words flags n) <-> flag_word flags n x.
Proof.
  unfold flag_words, flag_word. split.
  - destruct (flag_of flags n) as [v|] eqn:E; [|intros []]. intros I. exists v. split; [now apply flag_of_some|auto].
  - intros (v & E & I). apply flag_of_some in E. now rewrite E.
Qed.

Lemma split_on_two c s v f l : split_on c s = v :: f :: l ->
  exists rest, s = v ++ c :: f ++ rest /\ no_char c v /\ no_char c f /\ (rest = [] \/ exists r, rest = c :: r).
Proof.
  intros E. pose proof (split_on_spec c s) as (F & _ & J). rewrite E in J, F. apply Forall_cons_iff in F. destruct F as [Fv F]. apply Forall_cons_iff in F. destruct F as [Ff _]. clear E.
  destruct l as [|w l].
  - exists []. rewrite app_nil_r. cbn in J. rewrite <- J. cbn. auto.
  - exists (c :: join [c] (w :: l)). rewrite <- J. rewrite join_cons by discriminate. rewrite join_cons by discriminate. cbn [app]. split; [reflexivity|]. split; auto. split; auto. right. eauto.
Qed.
Lemma flag_key_some k v f : flag_key k = Some (v, f) <-> names_flag k v f.
Proof.
  unfold flag_key, names_flag. split.
  - destruct (rev k) as [|c r] eqn:R; [discriminate|]. destruct (aeqb c "]") eqn:C; [|discriminate].
    apply aeqb_eq in C. subst c. destruct (split_on "[" (rev r)) as [|v' [|f' l]] eqn:E; try discriminate.
    intros [= -> ->]. apply split_on_two in E. destruct E as (rest & E & V & F & D). exists rest.
    assert (K : k = rev r ++ ["]"%char]). { rewrite <- (rev_involutive k), R. reflexivity. }
    split; [|rewrite no_char_In in V, F; auto]. rewrite K, E. cbn [app s_ list_ascii_of_string]. rewrite <- app_assoc. cbn [app]. now rewrite <- app_assoc.
  - intros (rest & -> & V & F & D).
    assert (R : rev (v ++ s_ "[" ++ f ++ rest ++ s_ "]") = "]"%char :: rev (v ++ "["%char :: f ++ rest)).
    { assert (Q : v ++ s_ "[" ++ f ++ rest ++ s_ "]" = (v ++ "["%char :: f ++ rest) ++ ["]"%char]).
      { rewrite <- app_assoc. cbn [app s_ list_ascii_of_string]. now rewrite <- app_assoc. }
      rewrite Q. exact (rev_app_distr (v ++ "["%char :: f ++ rest) ["]"%char]). }
    rewrite R.
    rewrite aeqb_refl, rev_involutive.
    apply no_char_In in V, F. rewrite split_on_cons by auto.
    destruct D as [->|[r ->]].
    + rewrite app_nil_r, split_on_single by auto. reflexivity.
    + rewrite split_on_cons by auto. reflexivity.
Qed.
Lemma flag_key_none k : flag_key k = None <-> ordinary k.
Proof.
  unfold ordinary. split.
  - intros E v f N. apply flag_key_some in N. congruence.
  - intros O. destruct (flag_key k) as [[v f]|] eqn:E; auto. exfalso. eapply O, flag_key_some, E.
Qed.
Lemma names_flag_fun k v f v' f' : names_flag k v f -> names_flag k v' f' -> v = v' /\ f = f'.
Proof. rewrite <- !flag_key_some. intros A B. rewrite A in B. injection B as -> ->. auto. Qed.

Lemma insert_by_in {A} (x : str * A) l y : In y (insert_by x l) <-> y = x \/ In y l.
Proof.
  induction l as [|z l IH]; cbn [insert_by]; [cbn; intuition|]. destruct (str_leb (fst x) (fst z)); cbn [In]; [|rewrite IH]; intuition.
Qed.
Lemma sort_by_in {A} (l : list (str * A)) y : In y (sort_by l) <-> In y l.
Proof. induction l as [|x l IH]; [reflexivity|]. change (sort_by (x :: l)) with (insert_by x (sort_by l)). rewrite insert_by_in, IH. cbn. intuition. Qed.

Lemma remove_refs_in removes x : length removes <= 1 ->
  (In x (remove_refs removes) <-> exists t p, In (t, p) removes /\ In x (p_refs p)).
Proof.
  destruct removes as [|[t p] [|q r]]; intros L; cbn in L; try lia.
  - cbn. split; [intros []|intros (t & p & [] & _)].
  - cbn. split; [intros I; exists t, p; auto|intros (t' & p' & [[= <- <-]|[]] & I); auto].
Qed.

Lemma word_sub w : forall t, In w (split_ws t) -> exists a b, t = a ++ w ++ b.
Proof.
  intros t.
  assert (G : forall t cur, In w (split_ws_aux cur t) ->
    (exists a b, t = a ++ w ++ b) \/ exists a b, rev cur ++ t = a ++ w ++ b).
  { clear t. induction t as [|c t IH]; intros cur I; cbn [split_ws_aux] in I.
    - destruct cur; [destruct I|]. destruct I as [<-|[]]. right. exists [], []. reflexivity.
    - destruct (is_space c).
      + destruct cur.
        * apply IH in I. destruct I as [(a & b & ->)|(a & b & E)]; left; [exists (c :: a), b; reflexivity|exists (c :: a), b; cbn in *; now rewrite E].
        * destruct I as [<-|I].
          -- right. exists [], (c :: t). reflexivity.
          -- apply IH in I. destruct I as [(a' & b & ->)|(a' & b & E)]; left; [exists (c :: a'), b; reflexivity|exists (c :: a'), b; cbn in *; now rewrite E].
      + apply IH in I. destruct I as [(a & b & ->)|(a & b & E)].
        * left. exists (c :: a), b. reflexivity.
        * right. exists a, b. cbn [rev] in E. rewrite <- app_assoc in E. exact E. }
  intros I. apply G in I. destruct I as [I|(a & b & E)]; [exact I|]. exists a, b. exact E.
Qed.

Lemma flag_deps_in s k x : whole_flag_names s ->
  (In x (flag_deps s k (e_flags (s_entry s k))) <->
   s_flagsexcl s <> [] /\ exists f v, In (f, v) (e_flags (s_entry s k)) /\ ~ In f (split_ws (s_flagsexcl s)) /\ x = k ++ s_ "[" ++ f ++ s_ "]").
Proof.
  intros W. unfold flag_deps. destruct (s_flagsexcl s) as [|c ex] eqn:E.
  - split; [intros []|intros [N _]; congruence].
  - rewrite in_map_iff. split.
    + intros ([f v] & <- & I). apply filter_In in I. destruct I as [I N]. split; [discriminate|]. exists f, v. split; auto. split; auto.
      intros B. apply word_sub in B. apply negb_true_iff in N. cbn [fst] in N.
      destruct B as (a & b & B). assert (contains_sub f (c :: ex) = true) by (apply contains_sub_iff; eauto). congruence.
    + intros (_ & f & v & I & N & ->). exists (f, v). split; [reflexivity|]. apply filter_In. split; auto. apply negb_true_iff. cbn [fst].
      destruct (contains_sub f (c :: ex)) eqn:C; auto. apply contains_sub_iff in C. destruct C as (a & b & C). exfalso. apply N. rewrite <- E.
      apply (W k f v a b I). rewrite E. exact C.
Qed.

Lemma build_deps_in s k x : one_remove s -> whole_flag_names s ->
  (In x (fst (build_dependencies s k)) <-> depends s k x).
Proof.
  intros O W. unfold build_dependencies. destruct (s_mod s k) as [m|] eqn:M.
  - cbn [fst]. rewrite minus_in, in_app_iff, meet_in. split.
    + intros [A B]. eapply d_lib; eauto.
    + intros [D|D|m' E A B]; try congruence. rewrite M in E. injection E as <-. auto.
  - destruct (flag_key k) as [[v f]|] eqn:F.
    + pose proof F as F'. apply flag_key_some in F'. destruct (seqb f (s_ "vardepvalueexclude")) eqn:V.
      * apply seqb_eq in V. cbn. split; [intros []|]. intros [_ N|v' f' _ N NE|m E]; [exact (N _ _ F')| |congruence].
        destruct (names_flag_fun _ _ _ _ _ F' N) as [<- <-]. congruence.
      * apply seqb_neq in V. destruct (s_flag s v f) as [val p] eqn:SF. cbn [fst]. rewrite minus_in, in_app_iff, meet_in. split.
        -- intros [A B]. eapply d_flag; eauto. now rewrite SF.
        -- intros [_ N|v' f' _ N NE A B|m E]; [exfalso; exact (N _ _ F')| |congruence].
           destruct (names_flag_fun _ _ _ _ _ F' N) as [<- <-]. rewrite SF in A. auto.
    + pose proof F as F'. apply flag_key_none in F'.
      set (e := s_entry s k). set (ex := flag_words (e_flags e) (s_ "vardepsexclude")).
      assert (G : In x (fst (body_deps s ex e) ++ flag_deps s k (e_flags e) ++ flag_words (e_flags e) (s_ "vardeps")) <-> uses s k x).
      { rewrite !in_app_iff, flag_words_in. pose proof (flag_deps_in s k x W) as FD. fold e in FD. rewrite FD. clear FD.
        assert (B : In x (fst (body_deps s ex e)) <-> no_flag (e_flags e) (s_ "vardepvalue") /\
          (In x (p_refs (e_parse e)) \/ (In x (p_execs (e_parse e)) /\ In x (s_keys s)) \/ (e_kind e = Shell /\ In x (s_shelldeps s)) \/
           (e_kind e <> Python /\ exists t p, In (t, p) (e_removes e) /\ In x (p_refs p)) \/
           (e_kind e <> Plain /\ exists n, In n [s_ "prefuncs"; s_ "postfuncs"; s_ "exports"] /\ flag_word (e_flags e) n x))).
        { unfold body_deps. destruct (flag_of (e_flags e) (s_ "vardepvalue")) as [v|] eqn:V.
          - cbn [fst]. split; [intros []|]. intros [N _]. apply flag_of_none in N. congruence.
          - apply flag_of_none in V.
            assert (FW : (flag_word (e_flags e) (s_ "prefuncs") x \/ flag_word (e_flags e) (s_ "postfuncs") x \/ flag_word (e_flags e) (s_ "exports") x) <->
              exists n, In n [s_ "prefuncs"; s_ "postfuncs"; s_ "exports"] /\ flag_word (e_flags e) n x).
            { split.
              - intros [A|[A|A]]; eexists; (split; [|exact A]); cbn [In]; auto.
              - intros (n & [<-|[<-|[<-|[]]]] & A); auto. }
            pose proof (remove_refs_in (e_removes e) x (O k)) as RR.
            destruct (e_kind e) eqn:K; cbn [fst]; rewrite !in_app_iff, meet_in, ?flag_words_in, ?RR, ?FW;
              (split; [intros A; split; [exact V|]|intros [_ A]]); intuition (try congruence; eauto). }
        rewrite B. unfold e. split.
        - intros [[N [A|[[A C]|[[A C]|[[A (t & p & C & D)]|[A (n & C & D)]]]]]]|[[A (f & v & C & D & E)]|A]].
          + now apply u_ref. + now apply u_call. + now apply u_export. + eapply u_remove; eauto. + eapply u_func; eauto. + eapply u_flag; eauto. + now apply u_vardeps.
        - intros [N A|N A C|N A C|t p N A C D|n N A C D|f v A C D E|A].
          + left. split; auto. + left. split; auto. + left. split; auto. + left. split; [auto|]. right; right; right; left. eauto. + left. split; [auto|]. do 4 right. eauto.
          + right; left. split; eauto. + right; right. exact A. }
      fold e. fold ex. destruct (body_deps s ex e) as [deps value] eqn:BD. cbn [fst] in G |- *. rewrite !minus_in, G. unfold ex. rewrite flag_words_in. split.
      * intros [[A B] C]. now apply d_var.
      * intros [_ _ A B C|v f _ N|m E]; [auto|exfalso; exact (F' _ _ N)|congruence].
Qed.

(** ** The closure loop *)
Section Closure.
  Variable deps : str -> list str.
  Definition inv (task : str) (new seen : list str) : Prop :=
    (forall y, In y seen -> forall x, In x (deps y) -> In x seen \/ In x new) /\ (forall x, In x (deps task) -> In x seen \/ In x new).
  Inductive path : str -> str -> Prop :=
  | p_one k x : In x (deps k) -> path k x
  | p_more k y x : In y (deps k) -> path y x -> path k x.
  Lemma path_snoc k y x : path k y -> In x (deps y) -> path k x.
  Proof. induction 1; intros I; eapply p_more; eauto using p_one. Qed.

  Lemma closure_sound task : forall fuel new seen r, closure deps fuel new seen = Some r ->
    (forall x, In x (new ++ seen) -> path task x) -> forall x, In x r -> path task x.
  Proof.
    induction fuel as [|fuel IH]; intros new seen r C P x I.
    - destruct new; cbn in C; [injection C as <-; apply P; exact I|discriminate].
    - destruct new as [|n new]; cbn [closure] in C; [injection C as <-; apply P; exact I|].
      apply (IH _ _ _ C); auto. intros z Z. apply in_app_iff in Z. destruct Z as [Z|Z].
      + apply minus_in in Z. destruct Z as [Z _]. apply in_flat_map in Z. destruct Z as (y & Y & Z). eapply path_snoc; [|exact Z]. apply P. apply in_app_iff. now left.
      + apply P. rewrite in_app_iff in *. tauto.
  Qed.
  Lemma closure_complete task : forall fuel new seen r, closure deps fuel new seen = Some r ->
    inv task new seen -> inv task [] r /\ forall x, In x seen -> In x r.
  Proof.
    induction fuel as [|fuel IH]; intros new seen r C I.
    - destruct new; cbn in C; [injection C as <-; auto|discriminate].
    - destruct new as [|n new]; cbn [closure] in C; [injection C as <-; auto|].
      apply IH in C.
      + destruct C as [A B]. split; auto. intros x X. apply B. apply in_app_iff. now left.
      + destruct I as [I J]. split.
        * intros y Y x X. apply in_app_iff in Y. destruct (in_dec str_eq_dec x (seen ++ n :: new)) as [D|D]; [now left|].
          right. apply minus_in. split; auto. destruct Y as [Y|Y].
          -- destruct (I y Y x X); exfalso; apply D; apply in_app_iff; tauto.
          -- apply in_flat_map. eauto.
        * intros x X. left. apply in_app_iff. apply J in X. tauto.
  Qed.
  Lemma closure_exact task fuel r : closure deps fuel (deps task) [] = Some r -> forall x, In x r <-> path task x.
  Proof.
    intros C. assert (I : inv task (deps task) []) by (split; [intros y []|auto]).
    destruct (closure_complete task _ _ _ _ C I) as [[A B] _].
    intros x. split.
    - apply (closure_sound task _ _ _ _ C). intros z Z. rewrite app_nil_r in Z. now apply p_one.
    - intros P. assert (G : forall k x, path k x -> (k = task \/ In k r) -> In x r).
      { clear x P. induction 1 as [k x X|k y x Y P IH]; intros [->|K].
        - destruct (B x X) as [|[]]; auto.
        - destruct (A k K x X) as [|[]]; auto.
        - apply IH. right. destruct (B y Y) as [|[]]; auto.
        - apply IH. right. destruct (A k K y Y) as [|[]]; auto. }
      eapply G; eauto.
  Qed.
  Lemma NoDup_minus a b : NoDup a -> NoDup (minus a b).
  Proof. apply NoDup_filter. Qed.
  Lemma closure_stops U : forall fuel new seen, (forall x, In x new -> In x U /\ ~ In x seen) ->
    (forall k x, In k U -> In x (deps k) -> In x U) ->
    length (nodup str_eq_dec (minus U seen)) <= fuel -> closure deps fuel new seen <> None.
  Proof.
    induction fuel as [|fuel IH]; intros new seen N C L.
    - destruct new as [|n new]; [discriminate|]. exfalso. destruct (N n) as [A B]; [now left|].
      assert (I : In n (nodup str_eq_dec (minus U seen))) by (apply nodup_In, minus_in; auto).
      destruct (nodup str_eq_dec (minus U seen)); [destruct I|cbn in L; lia].
    - destruct new as [|n new]; [discriminate|]. cbn [closure]. apply IH; auto.
      + intros x X. apply minus_in in X. destruct X as [X Y]. split; auto. apply in_flat_map in X. destruct X as (k & K & X). eapply C; eauto. now apply N.
      + assert (I : incl (n :: nodup str_eq_dec (minus U (seen ++ n :: new))) (nodup str_eq_dec (minus U seen))).
        { intros x [<-|X]; apply nodup_In, minus_in; [apply N; now left|]. apply nodup_In, minus_in in X. destruct X as [X Y]. split; auto. intros S. apply Y. apply in_app_iff. now left. }
        apply NoDup_incl_length in I; [cbn in I; lia|]. constructor; [|apply NoDup_nodup].
        intros X. apply nodup_In, minus_in in X. destruct X as [_ X]. apply X, in_app_iff. right. now left.
  Qed.
End Closure.

Lemma closure_ext d d' task : forall fuel new seen, (forall x, path d task x -> d' x = d x) ->
  (forall x, In x new -> path d task x) -> closure d' fuel new seen = closure d fuel new seen.
Proof.
  induction fuel as [|fuel IH]; intros new seen E N.
  - destruct new; reflexivity.
  - destruct new as [|n new]; [reflexivity|]. cbn [closure].
    assert (F : flat_map d' (n :: new) = flat_map d (n :: new)).
    { rewrite !flat_map_concat_map. f_equal. apply map_ext_in. intros x X. apply E. now apply N. }
    rewrite F. apply IH; auto. intros x X. apply minus_in in X. destruct X as [X _]. apply in_flat_map in X. destruct X as (y & Y & X). eapply path_snoc; eauto.
Qed.

Lemma reaches_path s : one_remove s -> whole_flag_names s -> forall k x,
  reaches s k x <-> path (fun k => fst (build_dependencies s k)) k x.
Proof.
  intros O W k x. split.
  - induction 1 as [k x D|k y x D R IH]; [apply p_one|eapply p_more; [|exact IH]]; now apply build_deps_in.
  - induction 1 as [k x D|k y x D R IH]; [apply r_one|eapply r_step; [|exact IH]]; now apply build_deps_in.
Qed.

(** ** Same view, same text *)
Lemma concat_map_ext {A} (f g : A -> str) l : (forall x, In x l -> f x = g x) -> List.concat (map f l) = List.concat (map g l).
Proof. intros E. f_equal. now apply map_ext_in. Qed.

Lemma handle_contains_ext s s' ex v c : s_ignored s' = s_ignored s ->
  (forall q items item w, In (q, items) c -> In item items -> ~ In q (s_ignored s) -> In w (split_ws item) ->
     (In w (split_ws (s_getvar s' q)) <-> In w (split_ws (s_getvar s q)))) ->
  handle_contains s' ex v c = handle_contains s ex v c.
Proof.
  intros I E. unfold handle_contains. f_equal. apply concat_map_ext. intros [q items] Q. apply (proj1 (sort_by_in c _)) in Q. cbn [fst snd]. rewrite I.
  destruct (mem_str q ex || mem_str q (s_ignored s)) eqn:M; [reflexivity|]. apply orb_false_iff in M. destruct M as [_ M]. apply mem_str_false in M.
  apply concat_map_ext. intros item T. apply (proj1 (sorted_set_in items _)) in T. unfold answer. do 5 f_equal.
  assert (X : forallb (fun w => mem_str w (split_ws (s_getvar s' q))) (split_ws item) = forallb (fun w => mem_str w (split_ws (s_getvar s q))) (split_ws item)).
  { apply eq_true_iff_eq. rewrite !forallb_forall. split; intros F w Wd; specialize (F w Wd); rewrite mem_str_In in *; eapply E; eauto. }
  now rewrite X.
Qed.

Lemma fold_left_ext_in {A B} (f g : A -> B -> A) l : (forall a b, In b l -> f a b = g a b) -> forall a, fold_left f l a = fold_left g l a.
Proof. induction l as [|x l IH]; intros E a; [reflexivity|]. cbn [fold_left]. rewrite E by now left. apply IH. intros; apply E; now right. Qed.

Lemma build_same s s' k : same_config s s' -> same_for s s' k -> build_dependencies s' k = build_dependencies s k.
Proof.
  intros (K & SD & FE & IG) (M & E & F & A). unfold build_dependencies. rewrite M. destruct (s_mod s k) as [m|] eqn:MK.
  - rewrite K, IG. f_equal. f_equal. apply handle_contains_ext; auto. intros q items item w Q T N W. eapply A; eauto. eapply a_lib; eauto.
  - destruct (flag_key k) as [[v f]|] eqn:FK.
    + apply flag_key_some in FK. rewrite (F v f FK), K, IG. reflexivity.
    + rewrite E. set (e := s_entry s k). set (ex := flag_words (e_flags e) (s_ "vardepsexclude")).
      assert (C : handle_contains s' ex (e_value e) (p_contains (e_parse e)) = handle_contains s ex (e_value e) (p_contains (e_parse e))).
      { apply handle_contains_ext; auto. intros q items item w Q T N W. eapply A; eauto. eapply a_var; eauto. }
      assert (R : forall v, handle_remove s' ex (e_removes e) v = handle_remove s ex (e_removes e) v).
      { intros v. unfold handle_remove. apply fold_left_ext_in. intros a [t p] T. apply (proj1 (sort_by_in _ _)) in T. cbn [fst snd].
        apply handle_contains_ext; auto. intros q items item w Q T' N W. eapply A; eauto. eapply a_remove; eauto. }
      assert (B : body_deps s' ex e = body_deps s ex e).
      { unfold body_deps. rewrite C, K, SD. destruct (flag_of (e_flags e) (s_ "vardepvalue")); [reflexivity|]. destruct (e_kind e); rewrite ?R; reflexivity. }
      unfold flag_deps. rewrite B, FE, IG. reflexivity.
Qed.

Lemma reaches_path_incl s s' task : (forall x, x = task \/ path (fun k => fst (build_dependencies s k)) task x -> build_dependencies s' x = build_dependencies s x) ->
  forall H fuel, base_hash H s' fuel task = base_hash H s fuel task.
Proof.
  intros E H fuel. unfold base_hash, task_deps. rewrite (E task) by now left.
  set (d := fun k => fst (build_dependencies s k)). set (d' := fun k => fst (build_dependencies s' k)).
  assert (C : closure d' fuel (d task) [] = closure d fuel (d task) []).
  { apply (closure_ext d d' task). - intros x X. unfold d, d'. rewrite E; auto. - intros x X. now apply p_one. }
  change (fst (build_dependencies s task)) with (d task). rewrite C. destruct (closure d fuel (d task) []) as [seen|] eqn:S; [|reflexivity].
  f_equal. f_equal. unfold base_text. f_equal.
  - unfold text_of. now rewrite E by now left.
  - apply concat_map_ext. intros x X. apply (proj1 (sorted_set_in seen _)) in X. f_equal. unfold text_of. rewrite E; auto. right.
    apply (proj1 (closure_exact d task fuel seen S x)). exact X.
Qed.

(** ** One change is seen *)
Lemma concat_one_diff {A} (f g : A -> str) l x : In x l -> NoDup l -> (forall y, In y l -> y <> x -> f y = g y) -> f x <> g x ->
  List.concat (map f l) <> List.concat (map g l).
Proof.
  intros I ND E D. apply in_split in I. destruct I as (a & b & ->). rewrite !map_app, !concat_app. cbn [map List.concat].
  apply NoDup_remove in ND. destruct ND as [_ N].
  rewrite (map_ext_in f g a), (map_ext_in f g b).
  - intros Q. apply app_inv_head in Q. apply app_inv_tail in Q. auto.
  - intros y Y. apply E; [apply in_app_iff; right; now right|]. intros ->. apply N, in_app_iff. now right.
  - intros y Y. apply E; [apply in_app_iff; now left|]. intros ->. apply N, in_app_iff. now left.
Qed.
Lemma sorted_set_nodup l : NoDup (sorted_set l).
Proof.
  pose proof (sorted_set_pairs l) as P. induction P as [|x r F P IH]; constructor; auto. intros I. rewrite Forall_forall in F.
  specialize (F x I). apply Deps_Proofs.str_leb_lt in F. destruct F. congruence.
Qed.

Lemma base_text_diff v v' seen task x : (x = task \/ In x seen) -> (forall y, y <> x -> v' y = v y) ->
  text_of v' x <> text_of v x -> base_text v' seen task <> base_text v seen task.
Proof.
  intros I E D. unfold base_text.
  destruct (str_eq_dec x task) as [->|NX].
  - destruct (Nat.eq_dec (length (text_of v' task)) (length (text_of v task))) as [L|L].
    + intros Q. apply D. apply (f_equal (firstn (length (text_of v task)))) in Q.
      rewrite !firstn_app, L, Nat.sub_diag, firstn_O, app_nil_r, firstn_all in Q. rewrite <- L, firstn_all in Q. cbn in Q. rewrite app_nil_r in Q. exact Q.
    + intros Q. apply (f_equal (@length ascii)) in Q. rewrite !app_length in Q.
      assert (G : forall l, NoDup l -> exists n m, n <= 1 /\ length (List.concat (map (fun d : str => d ++ text_of v' d) l)) = m + n * length (text_of v' task) /\
        length (List.concat (map (fun d : str => d ++ text_of v d) l)) = m + n * length (text_of v task)).
      { clear Q. intros l ND. destruct (in_dec str_eq_dec task l) as [IT|NT].
        - exists 1. apply in_split in IT. destruct IT as (a & b & ->). apply NoDup_remove in ND. destruct ND as [_ N].
          rewrite !map_app, !concat_app. cbn [map List.concat]. rewrite !app_length.
          rewrite (map_ext_in (fun d : str => d ++ text_of v' d) (fun d : str => d ++ text_of v d) a).
          2:{ intros y Y. unfold text_of. rewrite E; auto. intros ->. apply N, in_app_iff. now left. }
          rewrite (map_ext_in (fun d : str => d ++ text_of v' d) (fun d : str => d ++ text_of v d) b).
          2:{ intros y Y. unfold text_of. rewrite E; auto. intros ->. apply N, in_app_iff. now right. }
          exists (length (List.concat (map (fun d : str => d ++ text_of v d) a)) + length task + length (List.concat (map (fun d : str => d ++ text_of v d) b))). lia.
        - exists 0. rewrite (map_ext_in (fun d : str => d ++ text_of v' d) (fun d : str => d ++ text_of v d) l).
          2:{ intros y Y. unfold text_of. rewrite E; auto. intros ->. auto. }
          exists (length (List.concat (map (fun d : str => d ++ text_of v d) l))). lia. }
      destruct (G _ (sorted_set_nodup seen)) as (n & m & N & A & B). rewrite A, B in Q. destruct n as [|[|n]]; lia.
  - destruct I as [->|I]; [congruence|].
    assert (T : text_of v' task = text_of v task) by (unfold text_of; rewrite E; congruence).
    rewrite T. intros Q. apply app_inv_head in Q. revert Q. apply (concat_one_diff _ _ _ x).
    + now apply sorted_set_in.
    + apply sorted_set_nodup.
    + intros y Y N. unfold text_of. now rewrite E.
    + intros Q. apply app_inv_head in Q. auto.
Qed.

(** ** What is tracked is used, in every configuration *)
Lemma remove_refs_sub removes x : In x (remove_refs removes) -> exists t p, In (t, p) removes /\ In x (p_refs p).
Proof.
  unfold remove_refs. destruct (sort_by removes) as [|[t p] r] eqn:S; [intros []|]. intros I. exists t, p. split; auto.
  apply (sort_by_in removes). rewrite S. now left.
Qed.
Lemma flag_deps_sub s k x : In x (flag_deps s k (e_flags (s_entry s k))) ->
   s_flagsexcl s <> [] /\ exists f v, In (f, v) (e_flags (s_entry s k)) /\ ~ In f (split_ws (s_flagsexcl s)) /\ x = k ++ s_ "[" ++ f ++ s_ "]".
Proof.
  unfold flag_deps. destruct (s_flagsexcl s) as [|c ex] eqn:E; [intros []|]. rewrite in_map_iff.
  intros ([f v] & <- & I). apply filter_In in I. destruct I as [I N]. split; [discriminate|]. exists f, v. split; auto. split; auto.
  intros B. apply word_sub in B. apply negb_true_iff in N. cbn [fst] in N.
  destruct B as (a & b & B). assert (contains_sub f (c :: ex) = true) by (apply contains_sub_iff; eauto). congruence.
Qed.
Lemma build_deps_sub s k x : In x (fst (build_dependencies s k)) -> depends s k x.
Proof.
  unfold build_dependencies. destruct (s_mod s k) as [m|] eqn:M.
  - cbn [fst]. rewrite minus_in, in_app_iff, meet_in. intros [A B]. eapply d_lib; eauto.
  - destruct (flag_key k) as [[v f]|] eqn:F.
    + apply flag_key_some in F. destruct (seqb f (s_ "vardepvalueexclude")) eqn:V; [intros []|]. apply seqb_neq in V.
      destruct (s_flag s v f) as [val p] eqn:SF. cbn [fst]. rewrite minus_in, in_app_iff, meet_in. intros [A B]. eapply d_flag; eauto. now rewrite SF.
    + apply flag_key_none in F. set (e := s_entry s k). set (ex := flag_words (e_flags e) (s_ "vardepsexclude")).
      assert (B : In x (fst (body_deps s ex e)) -> uses s k x).
      { unfold body_deps. destruct (flag_of (e_flags e) (s_ "vardepvalue")) as [v|] eqn:V; [intros []|]. apply flag_of_none in V.
        assert (FN : e_kind e <> Plain -> forall n, In n [s_ "prefuncs"; s_ "postfuncs"; s_ "exports"] -> In x (flag_words (e_flags e) n) -> uses s k x).
        { intros K n N I. eapply u_func; eauto. now apply flag_words_in. }
        assert (RM : e_kind e <> Python -> In x (remove_refs (e_removes e)) -> uses s k x).
        { intros K I. apply remove_refs_sub in I. destruct I as (t & p & I & J). eapply u_remove; eauto. }
        destruct (e_kind e) eqn:K; cbn [fst]; rewrite !in_app_iff, meet_in.
        - intros [A|[[A C]|A]]; [now apply u_ref|now apply u_call|apply RM; [discriminate|auto]].
        - intros [A|[A|[[A C]|[A|[A|[A|A]]]]]]; [now apply u_export|now apply u_ref|now apply u_call|apply RM; [discriminate|auto]| | | ];
            (eapply FN; [discriminate| |exact A]); cbn [In]; auto.
        - intros [A|[[A C]|[A|[A|A]]]]; [now apply u_ref|now apply u_call| | | ]; (eapply FN; [discriminate| |exact A]); cbn [In]; auto. }
      destruct (body_deps s ex e) as [deps value]. cbn [fst] in *. rewrite !minus_in, !in_app_iff. unfold ex. rewrite !flag_words_in.
      intros [[A C] D]. apply d_var; auto. destruct A as [A|[A|A]]; [auto| |now apply u_vardeps].
      apply flag_deps_sub in A. destruct A as (A & f & v & I & J & ->). eapply u_flag; eauto.
Qed.
Lemma path_reaches s k x : path (fun k => fst (build_dependencies s k)) k x -> reaches s k x.
Proof. induction 1 as [k x D|k y x D R IH]; [apply r_one|eapply r_step; [|exact IH]]; now apply build_deps_sub. Qed.
Lemma depends_not_ignored s k x : depends s k x -> ~ In x (s_ignored s).
Proof. intros []; auto. Qed.
Lemma reaches_not_ignored s k x : reaches s k x -> ~ In x (s_ignored s).
Proof. induction 1; eauto using depends_not_ignored. Qed.

(** ** Replacing one text *)
Lemma handle_contains_app s ex c : exists suf, forall v, handle_contains s ex v c = v ++ suf.
Proof. unfold handle_contains. eexists. reflexivity. Qed.
Lemma handle_remove_app s ex rs : exists suf, forall v, handle_remove s ex rs v = v ++ suf.
Proof.
  unfold handle_remove. induction (sort_by rs) as [|r l [suf IH]]; [exists []; intros; symmetry; apply app_nil_r|].
  destruct (handle_contains_app s ex (p_contains (snd r))) as [c C]. exists (((nl :: s_ "_remove of ") ++ fst r) ++ c ++ suf). intros v. cbn [fold_left]. rewrite IH, C.
  now rewrite <- !app_assoc.
Qed.
Lemma set_text_other s x v k : k <> x -> build_dependencies (set_text s x v) k = build_dependencies s k.
Proof. intros N. unfold build_dependencies, set_text. cbn [s_mod s_entry s_flag s_ignored s_keys]. apply seqb_neq in N. rewrite N. reflexivity. Qed.
Lemma set_text_deps s x v k : fst (build_dependencies (set_text s x v) k) = fst (build_dependencies s k).
Proof.
  destruct (str_eq_dec k x) as [->|N]; [|now rewrite set_text_other].
  unfold build_dependencies, set_text. cbn [s_mod s_entry s_flag s_ignored s_keys]. rewrite seqb_refl.
  destruct (s_mod s x); [reflexivity|]. destruct (flag_key x) as [[a b]|]; [reflexivity|]. cbn [e_flags].
  unfold body_deps. cbn [e_flags e_parse e_kind e_removes e_value s_keys s_shelldeps]. destruct (flag_of (e_flags (s_entry s x)) (s_ "vardepvalue")); [reflexivity|].
  destruct (e_kind (s_entry s x)); reflexivity.
Qed.
Lemma set_text_self s x v : s_mod s x = None -> ordinary x -> no_flag (e_flags (s_entry s x)) (s_ "vardepvalue") ->
  no_flag (e_flags (s_entry s x)) (s_ "vardepvalueexclude") ->
  exists suf, snd (build_dependencies (set_text s x v) x) = Some (v ++ suf) /\ snd (build_dependencies s x) = Some (e_value (s_entry s x) ++ suf).
Proof.
  intros M O N1 N2. apply flag_key_none in O. apply flag_of_none in N1, N2.
  set (ex := flag_words (e_flags (s_entry s x)) (s_ "vardepsexclude")).
  destruct (handle_contains_app s ex (p_contains (e_parse (s_entry s x)))) as [c C].
  destruct (handle_remove_app s ex (e_removes (s_entry s x))) as [r R].
  assert (C' : forall v, handle_contains (set_text s x v) ex v (p_contains (e_parse (s_entry s x))) = v ++ c) by (intros; exact (C _)).
  assert (R' : forall v w, handle_remove (set_text s x v) ex (e_removes (s_entry s x)) w = w ++ r) by (intros; exact (R _)).
  exists (match e_kind (s_entry s x) with Python => c | _ => c ++ r end).
  unfold build_dependencies. rewrite O. cbn [set_text s_mod s_entry]. fold (set_text s x v). rewrite M, seqb_refl. cbn [e_flags].
  unfold body_deps. cbn [e_flags e_parse e_kind e_removes e_value]. rewrite N1. fold ex.
  unfold value_exclude. rewrite N2.
  destruct (e_kind (s_entry s x)); cbn [snd]; rewrite ?C', ?R', ?C, ?R, <- ?app_assoc; auto.
Qed.
