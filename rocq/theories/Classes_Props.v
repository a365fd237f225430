(** Classes and exported functions: theorems C84, C85, C86. *)
From Coq Require Import String Ascii List Bool Arith NArith Lia.
From Verif Require Import Str_Model Str_Proofs Posix_Model Search_Model Classes_Model Classes_Spec Classes_Proofs.
Import ListNotations.
Open Scope list_scope.

(** The recipe and its appends: they exist, are not inherited as classes, and each is listed once *)
Definition recipe_files (content : str -> option (list stmt)) (bbpath ctype : str) (files : list str) : Prop :=
  (forall f, In f files -> exists_file content f) /\ (forall f, In f files -> ~ class_of content bbpath ctype files f) /\ NoDup files.

(** C84: a class is taken from the first place on the search path where there is one; the directory for the type of
    the file goes before classes, on the whole path *)
Theorem class_search : forall content bbpath ctype name,
  (forall f, lookup content bbpath ctype name = Some f <-> found content bbpath ctype name f) /\
  (lookup content bbpath ctype name = None <-> nowhere content bbpath ctype name).
Proof. intros. split; [intros f; apply lookup_found|apply lookup_nowhere]. Qed.

Section Classes.
  Variable content : str -> option (list stmt).
  Variable bbpath ctype recipe : str.
  Variable appends : list str.
  Notation files := (recipe :: appends).
  Notation parse fuel rounds := (parse content bbpath ctype fuel rounds recipe appends).

  (** C84: the classes of a recipe are exactly those that it, its appends or its classes name, directly or deferred *)
  Theorem classes_exact : forall fuel rounds st, recipe_files content bbpath ctype files -> parse fuel rounds = Done st ->
    NoDup (cache st) /\ forall g, In g (cache st) <-> class_of content bbpath ctype files g.
  Proof.
    intros fuel rounds st (A & B & C) D. destruct (parse_done content bbpath ctype files A B C fuel rounds recipe appends st eq_refl D) as (st1 & L & E & _ & _ & O).
    split; [eapply outcome_nodup; eauto|]. intros g. split; [eapply outcome_sound; eauto|eapply outcome_complete; eauto].
  Qed.
  (** C84: inherits_class is true exactly for these *)
  Theorem inherits_class_exact : forall fuel rounds st klass, recipe_files content bbpath ctype files -> parse fuel rounds = Done st ->
    (inherits_class klass st = true <-> exists g dir, class_of content bbpath ctype files g /\ g = dir ++ s_ "/" ++ klass ++ s_ ".bbclass").
  Proof.
    intros fuel rounds st klass R D. destruct (classes_exact fuel rounds st R D) as [_ X]. unfold inherits_class. rewrite existsb_exists. split.
    - intros (g & G & E). apply endswith_iff in E. destruct E as [dir E]. exists g, dir. split; auto. now apply X.
    - intros (g & dir & G & E). exists g. split; [now apply X|]. apply endswith_iff. now exists dir.
  Qed.
  (** C84: the recipe, each append and each class is evaluated once, from its start to its end, all its
      statements in order; no other file is *)
  Theorem classes_evaluated : forall fuel rounds st g, recipe_files content bbpath ctype files -> parse fuel rounds = Done st ->
    (In g files \/ class_of content bbpath ctype files g -> evaluated content g (filter (about g) (events st))) /\
    (~ In g files -> ~ class_of content bbpath ctype files g -> forall e, In e (events st) -> about g e = false).
  Proof.
    intros fuel rounds st g R D. destruct (classes_exact fuel rounds st R D) as [_ X]. destruct R as (A & B & C). destruct (parse_done content bbpath ctype files A B C fuel rounds recipe appends st eq_refl D) as (st1 & L & E & _ & _ & O). split.
    - intros I. apply whole_evaluated. eapply outcome_whole; eauto. destruct I as [I|I]; auto. right. now apply X.
    - intros NF NC e I. destruct (about g e) eqn:AB; auto. exfalso. assert (Q : filter (about g) (events st) = []) by (eapply outcome_quiet; eauto; rewrite X; auto). apply (about_in g) in I; auto. rewrite Q in I. exact I.
  Qed.
  (** C84: when a statement is evaluated, the classes inherited above it in its file have been evaluated before (or
      are just being evaluated, if they inherit the file in turn) *)
  Theorem classes_first : forall fuel rounds st a f k b, recipe_files content bbpath ctype files -> parse fuel rounds = Done st ->
    events st = a ++ Ran f k :: b -> prepared content bbpath ctype a f k.
  Proof.
    intros fuel rounds st a f k b (A & B & C) D EV. destruct (parse_done content bbpath ctype files A B C fuel rounds recipe appends st eq_refl D) as (st1 & L & E & _ & _ & O).
    rewrite (o_events _ _ _ _ _ _ _ _ O) in EV. apply split_app in EV. destruct EV as [(b' & EV)|(a' & -> & EV)].
    - exact (p_prep _ _ _ _ _ _ _ _ _ (o_first _ _ _ _ _ _ _ _ O) _ _ _ _ EV).
    - exact (p_prep _ _ _ _ _ _ _ _ _ (o_second _ _ _ _ _ _ _ _ O) _ _ _ _ EV).
  Qed.
  (** C84: with finitely many files the parsing ends, even if classes inherit each other *)
  Theorem classes_end : forall dom, (forall f, content f <> None -> In f dom) -> recipe_files content bbpath ctype files ->
    exists fuel0 rounds0, forall fuel rounds, fuel0 <= fuel -> rounds0 <= rounds -> parse fuel rounds <> Loops.
  Proof.
    intros dom HD (A & B & C). exists (S (length dom)), (total content files + total content dom). intros fuel rounds HF HR. unfold Classes_Model.parse.
    assert (I0 : inv dom begin_state) by (split; [constructor|intros ? []]).
    pose proof (each_ends content bbpath ctype dom HD fuel files begin_state I0 ltac:(cbn; lia)) as NE. destruct (handle_each content bbpath ctype fuel files begin_state) as [| |st1] eqn:D1; cbn [bind]; [discriminate|congruence|].
    destruct (each_grows content bbpath ctype dom HD fuel files begin_state I0 st1 D1) as [I1 _]. destruct (first_phase content bbpath ctype files A B C fuel st1 D1) as (P1 & _ & W1).
    assert (Q1 : length (queue st1) = total content files + total content (cache st1)).
    { rewrite (p_queue _ _ _ _ _ _ _ _ _ P1). cbn [begin_state queue app]. rewrite <- total_app. apply sum_whole.
      - pose proof (p_nodup _ _ _ _ _ _ _ _ _ P1) as N. assert (DJ : forall x, In x files -> ~ In x (cache st1)). { intros x X Y. pose proof (p_rch _ _ _ _ _ _ _ _ _ P1 x Y) as K. apply (files_not_classes content bbpath ctype files B x X). now apply now_class. }
        clear -N C DJ. induction files as [|x l IH]; auto. inversion C; subst. cbn. constructor; [rewrite in_app_iff; intros [K|K]; [contradiction|apply (DJ x); [now left|auto]]|]. apply IH; auto. intros y Y. apply DJ. now right.
      - intros e E. apply in_or_app. destruct (in_dec str_eq_dec (file_of e) files) as [F|F]; auto. right. destruct (in_dec str_eq_dec (file_of e) (cache st1)) as [K|K]; auto. exfalso.
        pose proof (p_quiet _ _ _ _ _ _ _ _ _ P1 (file_of e) K F) as Q. apply (about_in (file_of e)) in E; [rewrite Q in E; exact E|]. rewrite about_file. apply seqb_refl.
      - intros f F. apply in_app_iff in F. destruct F as [F|F]; auto. now apply (p_whole _ _ _ _ _ _ _ _ _ P1). }
    assert (T1 : total content (cache st1) <= total content dom) by (apply total_incl; apply I1).
    assert (M : length (queue st1) + total content dom <= rounds + total content (cache st1)) by lia.
    pose proof (first_ready content bbpath ctype files A B C fuel st1 D1) as R1.
    assert (HQ : forall t name g, In t (queue st1) -> In name (split_ws t) -> found content bbpath ctype name g -> class_of content bbpath ctype files g).
    { intros t name g T J G. destruct (first_queue content bbpath ctype files A B C fuel st1 t D1 T) as (f & k & [X|X] & DF); eapply class_file; eauto. right. now apply now_class. }
    clear -M I1 R1 HQ HD HF. revert st1 M I1 R1 HQ. induction rounds as [|n IH]; intros st M I R HQ; cbn [deferred]; destruct (queue st) as [|t rest] eqn:Q; try discriminate.
    - exfalso. assert (total content (cache st) <= total content dom) by (apply total_incl; apply I). cbn in M. lia.
    - pose proof (names_end content bbpath ctype dom HD (handle content bbpath ctype fuel) fuel (handle_grows content bbpath ctype dom HD fuel) (handle_ends content bbpath ctype dom HD fuel) (split_ws t) (mkState (cache st) rest (events st)) I ltac:(lia)) as NE.
      destruct (inherit_names content bbpath ctype (handle content bbpath ctype fuel) (split_ws t) (mkState (cache st) rest (events st))) as [| |st1] eqn:D1; cbn [bind]; [discriminate|congruence|].
      destruct (names_grow content bbpath ctype dom HD (handle content bbpath ctype fuel) (handle_grows content bbpath ctype dom HD fuel) (split_ws t) (mkState (cache st) rest (events st)) I st1 D1) as [I1 _].
      destruct (names_done content bbpath ctype (class_of content bbpath ctype files) (handle content bbpath ctype fuel) [] (split_ws t) (handle_ok content bbpath ctype (class_of content bbpath ctype files) (of_closed content bbpath ctype files) fuel) (mkState (cache st) rest (events st)) st1) as (L & E & P & _); auto.
      { intros name g. apply HQ. now left. }
      pose proof (p_queue _ _ _ _ _ _ _ _ _ P) as PQ. pose proof (p_cache _ _ _ _ _ _ _ _ _ P) as PC. cbn in PQ, PC.
      assert (LE : length (dtexts content E) = total content L).
      { apply sum_whole; [apply (p_nodup _ _ _ _ _ _ _ _ _ P)| |apply (p_whole _ _ _ _ _ _ _ _ _ P)]. intros e X. destruct (in_dec str_eq_dec (file_of e) L) as [K|K]; auto. exfalso.
        pose proof (p_quiet _ _ _ _ _ _ _ _ _ P (file_of e) K (fun x => x)) as Y. apply (about_in (file_of e)) in X; [rewrite Y in X; exact X|]. rewrite about_file. apply seqb_refl. }
      apply IH; auto.
      + rewrite PQ, PC, app_length, total_app, LE. cbn in M. lia.
      + eapply part_ready; [|exact P]. exact R.
      + intros x name g X J G. rewrite PQ in X. apply in_app_iff in X. destruct X as [X|X]; [eapply HQ; eauto; now right|]. apply dtexts_in in X. destruct X as (f & k & ss & IE & C & N).
        apply (class_file content bbpath ctype files f k name g); auto; [right; apply (p_rch _ _ _ _ _ _ _ _ _ P); eapply part_ran_in; [exact P|intros []|exact IE]|]. right. exists ss, x. auto.
  Qed.
  (** C84: and it fails exactly if a class named in a file that belongs to the recipe is found nowhere *)
  Theorem classes_missing : forall fuel rounds, recipe_files content bbpath ctype files -> parse fuel rounds <> Loops ->
    (parse fuel rounds = Missing <-> exists f i name, (In f files \/ class_of content bbpath ctype files f) /\ (inherits_at content f i name \/ defers_at content f i name) /\ nowhere content bbpath ctype name).
  Proof.
    intros fuel rounds (A & B & C) NL. split.
    - unfold Classes_Model.parse. destruct (handle_each content bbpath ctype fuel files begin_state) as [| |st1] eqn:D1; cbn [bind]; [|discriminate|].
      + intros _. destruct (each_missing content bbpath ctype (class_of content bbpath ctype files)) with (fuel := fuel) (files := files) (st := begin_state) as (G & i & name & X & Y & Z); auto.
        * apply of_closed.
        * intros f i name g F I J. eapply class_file; eauto.
        * exists G, i, name. auto.
      + intros D. destruct (deferred_missing content bbpath ctype (class_of content bbpath ctype files)) with (fuel := fuel) (rounds := rounds) (st := st1) as [(t & name & T & I & N)|(G & i & name & X & Y & Z)]; auto.
        * apply of_closed.
        * intros f i name g F I J. eapply class_file; eauto.
        * eapply first_ready; eauto.
        * intros t name g T I G. destruct (first_queue content bbpath ctype files A B C fuel st1 t D1 T) as (f & k & [X|X] & DF); eapply class_file; eauto. right. now apply now_class.
        * destruct (first_queue content bbpath ctype files A B C fuel st1 t D1 T) as (f & k & X & DF). exists f, k, name. split; [destruct X as [X|X]; [auto|right; now apply now_class]|]. auto.
        * exists G, i, name. auto.
    - intros (f & i & name & F & J & N). destruct (parse fuel rounds) as [| |st] eqn:D; auto; [congruence|]. exfalso.
      destruct (parse_done content bbpath ctype files A B C fuel rounds recipe appends st eq_refl D) as (st1 & L & E & _ & _ & O). assert (F' : In f files \/ In f (cache st)) by (destruct F as [F|F]; auto; right; eapply outcome_complete; eauto).
      destruct (outcome_closed content bbpath ctype files B st1 st L E f i name O F' J) as (g & (x & y & P & X & _) & _). apply (N g); auto. rewrite P. apply in_or_app. right. now left.
  Qed.
  (** C85: the classes of inherit_defer that are not inherited otherwise are evaluated after the recipe and all its
      appends, in the order in which they are named: whatever starts before such a class belongs to the first part or is
      inherited by a class deferred before it *)
  Theorem deferred_last : forall fuel rounds st, recipe_files content bbpath ctype files -> parse fuel rounds = Done st ->
    exists A B, events st = A ++ B /\
      (forall f e, In f files -> In e B -> about f e = false) /\
      (forall g, In (Start g) A <-> In g files \/ class_now content bbpath ctype files g) /\
      (forall g, In (Start g) B <-> class_of content bbpath ctype files g /\ ~ class_now content bbpath ctype files g) /\
      (forall N1 x N2 g a b h, deferred_names content A = N1 ++ x :: N2 -> found content bbpath ctype x g -> ~ class_now content bbpath ctype files g ->
        events st = a ++ Start g :: b -> In (Start h) a ->
        In h files \/ class_now content bbpath ctype files h \/ exists y gy, In y N1 /\ found content bbpath ctype y gy /\ below content bbpath ctype gy h).
  Proof.
    intros fuel rounds st (HA & HB & HC) D. destruct (parse_done content bbpath ctype files HA HB HC fuel rounds recipe appends st eq_refl D) as (st1 & L & E & D1 & D2 & O).
    pose proof (o_first _ _ _ _ _ _ _ _ O) as P1. pose proof (o_second _ _ _ _ _ _ _ _ O) as P2.
    assert (SA : forall g, In (Start g) (events st1) <-> In g files \/ class_now content bbpath ctype files g).
    { intros g. split.
      - intros I. destruct (in_dec str_eq_dec g files) as [F|F]; auto. right. apply (p_rch _ _ _ _ _ _ _ _ _ P1). destruct (in_dec str_eq_dec g (cache st1)) as [K|K]; auto. exfalso. pose proof (p_quiet _ _ _ _ _ _ _ _ _ P1 g K F) as Q. apply (about_in g) in I; [rewrite Q in I; exact I|cbn; apply seqb_refl].
      - intros [F|(f & h & F & (i & name & I & G) & BL)]; [eapply whole_in, (o_files_whole _ _ _ _ _ _ _ _ O); auto|].
        assert (K : In h (cache st1)). { destruct (o_files_closed _ _ _ _ _ _ _ _ O f F i name I) as (g' & G' & X). now rewrite (found_fun content bbpath ctype _ _ _ G G'). }
        assert (K' : In g (cache st1)). { clear -K BL P1. induction BL as [|f g h (i & name & I & G) _ IH]; auto. apply IH. destruct (p_closed _ _ _ _ _ _ _ _ _ P1 f K i name I) as (g' & G' & X). now rewrite (found_fun content bbpath ctype _ _ _ G G'). }
        eapply whole_in, (p_whole _ _ _ _ _ _ _ _ _ P1); auto. }
    assert (CN : forall g, In g (cache st1) <-> class_now content bbpath ctype files g).
    { intros g. split; [apply (p_rch _ _ _ _ _ _ _ _ _ P1)|]. intros K. assert (I : In (Start g) (events st1)) by (apply SA; now right). destruct (in_dec str_eq_dec g (cache st1)) as [Y|Y]; auto. exfalso.
      assert (NF : ~ In g files) by (intros F; apply (files_not_classes content bbpath ctype files HB g F); now apply now_class).
      pose proof (p_quiet _ _ _ _ _ _ _ _ _ P1 g Y NF) as Q. apply (about_in g) in I; [rewrite Q in I; exact I|cbn; apply seqb_refl]. }
    assert (SL : forall e, In e E -> In (file_of e) L).
    { intros e I. destruct (in_dec str_eq_dec (file_of e) L) as [K|K]; auto. exfalso. pose proof (p_quiet _ _ _ _ _ _ _ _ _ P2 (file_of e) K (fun x => x)) as Y. apply (about_in (file_of e)) in I; [rewrite Y in I; exact I|]. rewrite about_file. apply seqb_refl. }
    exists (events st1), E. split; [apply (o_events _ _ _ _ _ _ _ _ O)|]. split; [|split; [exact SA|split]].
    - intros f e F I. destruct (about f e) eqn:AB; auto. exfalso. rewrite about_file in AB. apply seqb_eq in AB. specialize (SL e I). rewrite AB in SL. apply (files_not_classes content bbpath ctype files HB f F). now apply (p_rch _ _ _ _ _ _ _ _ _ P2).
    - intros g. split.
      + intros I. specialize (SL _ I). cbn in SL. split; [now apply (p_rch _ _ _ _ _ _ _ _ _ P2)|]. rewrite <- CN. now apply (p_new _ _ _ _ _ _ _ _ _ P2).
      + intros [C NC]. assert (I : In g (cache st)) by (eapply outcome_complete; eauto). rewrite (o_cache _ _ _ _ _ _ _ _ O) in I. apply in_app_iff in I. destruct I as [I|I]; [exfalso; apply NC; now apply CN|]. eapply whole_in, (p_whole _ _ _ _ _ _ _ _ _ P2); auto.
    - intros N1 x N2 g a b h DN G NC EV SH. assert (Q1 : flat_map split_ws (queue st1) = N1 ++ x :: N2).
      { rewrite <- DN, deferred_names_texts. now rewrite (p_queue _ _ _ _ _ _ _ _ _ P1). }
      destruct (deferred_flat content bbpath ctype fuel (queue st1) [] rounds st1 st) as (stm & r' & EN & q2 & D3); [now rewrite app_nil_r|auto|].
      rewrite Q1, names_app in EN. destruct (inherit_names content bbpath ctype (handle content bbpath ctype fuel) N1 (setq [] st1)) as [| |st2] eqn:EN1; cbn [bind] in EN; try discriminate.
      set (Rch := fun h => class_now content bbpath ctype files h \/ exists y gy, In y N1 /\ found content bbpath ctype y gy /\ below content bbpath ctype gy h).
      assert (RC : forall f g, Rch f -> needs content bbpath ctype f g -> Rch g).
      { intros f k [X|(y & gy & Y & FY & BY)] N; [left; eapply now_closed; eauto|right; exists y, gy; split; auto; split; auto; eapply below_trans; eauto; eapply below_next; eauto; constructor]. }
      pose proof (first_ready content bbpath ctype files HA HB HC fuel st1 D1) as R1.
      destruct (names_done content bbpath ctype Rch (handle content bbpath ctype fuel) [] N1 (handle_ok content bbpath ctype Rch RC fuel) (setq [] st1) st2) as (L2 & E2 & PN & _); auto.
      { intros name gy I FY. right. exists name, gy. split; auto. split; auto. constructor. }
      pose proof (p_events _ _ _ _ _ _ _ _ _ PN) as PE. pose proof (p_cache _ _ _ _ _ _ _ _ _ PN) as PC. cbn in PE, PC.
      assert (S2 : forall k, In (Start k) (events st2) -> In k files \/ Rch k).
      { intros k I. rewrite PE in I. apply in_app_iff in I. destruct I as [I|I]; [apply SA in I; destruct I as [I|I]; [auto|right; now left]|]. right. apply (p_rch _ _ _ _ _ _ _ _ _ PN). destruct (in_dec str_eq_dec k L2) as [K|K]; auto. exfalso.
        pose proof (p_quiet _ _ _ _ _ _ _ _ _ PN k K (fun x => x)) as Y. apply (about_in k) in I; [rewrite Y in I; exact I|cbn; apply seqb_refl]. }
      assert (WG : whole content g (filter (about g) (events st))).
      { eapply outcome_whole; eauto. right. eapply outcome_complete; eauto. destruct (in_dec str_eq_dec x (flat_map split_ws (queue st1))) as [I|I]; [|exfalso; apply I; rewrite Q1; apply in_or_app; right; now left].
        apply in_flat_map in I. destruct I as (t & T & I). destruct (first_queue content bbpath ctype files HA HB HC fuel st1 t D1 T) as (f & k & [X|X] & DF); eapply class_file; eauto. right. now apply now_class. }
      cbn [inherit_names] in EN. rewrite (proj2 (lookup_found content bbpath ctype x g) G) in EN. apply deferred_extend in D3. destruct D3 as [E3 EV3]. cbn [setq events] in EV3.
      assert (done : forall a', In (Start h) a' -> a = a' -> (forall k, In (Start k) a' -> In (Start k) (events st2)) -> In h files \/ class_now content bbpath ctype files h \/ exists y gy, In y N1 /\ found content bbpath ctype y gy /\ below content bbpath ctype gy h).
      { intros a' SH' _ IN. destruct (S2 h (IN h SH')) as [F|R]; auto. }
      destruct (mem_str g (cache st2)) eqn:M; cbn [bind] in EN.
      + apply mem_str_In in M. rewrite PC in M. apply in_app_iff in M. destruct M as [M|M]; [exfalso; apply NC; now apply CN|].
        destruct (whole_in content g E2 (p_whole _ _ _ _ _ _ _ _ _ PN g M)) as [SG _]. assert (SG2 : In (Start g) (events st2)) by (rewrite PE; apply in_or_app; now right). apply in_split in SG2. destruct SG2 as (a' & b' & EV2).
        apply (names_extend content bbpath ctype _ (handle_extend content bbpath ctype fuel)) in EN. destruct EN as [E4 EV4].
        assert (X : a = a') by (eapply (whole_unique content g (events st) a b a' (b' ++ E4 ++ E3)); auto; rewrite EV3, EV4, EV2, <- !app_assoc; reflexivity).
        apply (done a'); auto; [now rewrite <- X|]. intros k K. rewrite EV2. apply in_or_app. now left.
      + destruct (handle content bbpath ctype fuel g (remember g st2)) as [| |st3] eqn:H3; cbn [bind] in EN; try discriminate.
        apply handle_extend in H3. destruct H3 as [E5 EV5]. cbn [remember events] in EV5. apply (names_extend content bbpath ctype _ (handle_extend content bbpath ctype fuel)) in EN. destruct EN as [E4 EV4].
        assert (X : a = events st2) by (eapply (whole_unique content g (events st) a b (events st2) (E5 ++ E4 ++ E3)); auto; rewrite EV3, EV4, EV5, <- !app_assoc; reflexivity).
        apply (done (events st2)); auto. now rewrite <- X.
  Qed.
End Classes.

(** C86: a function that the recipe or a class defines itself is the one that counts, whatever functions of this name
    are exported by classes inherited before or after it *)
Theorem own_function_wins : forall h1 f t py h2 d, define_all (h1 ++ Method f t py :: h2) nothing = Some d ->
  own_text t -> never_empty h1 f -> (forall e, In e h2 -> ~ defines e f) ->
  body (d f) = Some t /\ python (d f) = py.
Proof.
  intros h1 f t py h2 d E O N L. rewrite define_app in E. destruct (define_all h1 nothing) as [d1|] eqn:E1; [|discriminate]. cbn [define_all] in E.
  assert (T : tidy d1 f) by (eapply define_tidy; eauto; intros K; discriminate K).
  assert (X : method f t py d1 f = mkFunction (Some t) py).
  { unfold method. rewrite fupd_same. f_equal. destruct py; auto. destruct (nonempty (body (d1 f))) eqn:B; auto. destruct (python (d1 f)) eqn:P; auto. now rewrite T in B. }
  rewrite (kept h2 f _ _ E L) by (rewrite X; now apply own_real). now rewrite X.
Qed.
(** C86: a function with no definition of its own is what the class inherited last makes it: it calls the function
    of this class, and is Python exactly if that one is *)
Theorem exported_function : forall h1 g p t h2 c fs h3 f d,
  define_all (h1 ++ Method g t p :: h2 ++ Export c fs :: h3) nothing = Some d ->
  g = c ++ s_ "_" ++ f -> In f (split_ws fs) -> ~ In g (split_ws fs) ->
  never_empty h1 g -> own_text t -> (forall e, In e h2 -> ~ defines e g) ->
  (forall e, In e (h1 ++ h2 ++ h3) -> ~ defines e f) -> (forall e, In e h3 -> ~ exports e f) ->
  python (d f) = p /\
  body (d f) = Some (s_ "    # Export function set" ++ [newline] ++
    (if p then s_ "    bb.build.exec_func('" ++ g ++ s_ "', d)" else s_ "    " ++ g) ++ [newline]).
Proof.
  intros h1 g p t h2 c fs h3 f d E -> I NI NE O L NF NX. set (g := c ++ s_ "_" ++ f) in *.
  change (h1 ++ Method g t p :: h2 ++ Export c fs :: h3) with (h1 ++ (Method g t p :: h2) ++ Export c fs :: h3) in E. rewrite app_assoc, define_app in E.
  destruct (define_all (h1 ++ Method g t p :: h2) nothing) as [d1|] eqn:E1; [|discriminate]. cbn [define_all] in E. destruct (export_each c (split_ws fs) d1) as [d2|] eqn:E2; [|discriminate].
  destruct (own_function_wins h1 g t p h2 d1 E1 O NE L) as [_ P].
  assert (M : made d1 f).
  { eapply define_made; [left; reflexivity|exact E1|]. intros e J. apply in_app_iff in J. destruct J as [J|[<-|J]]; [apply NF; apply in_or_app; auto| |apply NF; rewrite !in_app_iff; auto].
    intros (t' & py & K). injection K as K _ _. now apply (called_other c f). }
  pose proof (export_each_last c _ f _ _ M I NI E2) as X. fold g in X. rewrite P in X.
  rewrite (untouched h3 f _ _ E). { rewrite X. cbn [python body]. split; auto. f_equal. unfold call_text, g. destruct p; unfold sentinel; rewrite <- !app_assoc; reflexivity. }
  intros e J. split; [apply NF; rewrite !in_app_iff; auto|now apply NX].
Qed.
(** C86: what is neither defined nor exported is untouched *)
Theorem function_untouched : forall h d f, define_all h nothing = Some d -> (forall e, In e h -> ~ defines e f /\ ~ exports e f) ->
  body (d f) = None /\ python (d f) = false.
Proof. intros h d f E N. now rewrite (untouched h f _ _ E N). Qed.
Definition called_x : str := s_ "    # Export function set" ++ [newline] ++ s_ "    base_do_x" ++ [newline].
(** C86: an empty function of the recipe (that does nothing on purpose) does not count: a class inherited below it
    replaces it by its own.
    REFUTED: "a function that the recipe defines itself is never replaced by one that a class exports". *)
Theorem empty_function_refuted : exists d,
  define_all [Method (s_ "do_x") [] false; Method (s_ "base_do_x") (s_ "    make") false; Export (s_ "base") (s_ "do_x")] nothing = Some d /\
  body (d (s_ "do_x")) = Some called_x.
Proof. eexists. split; [cbn [define_all]; reflexivity|]. vm_compute. reflexivity. Qed.
(** C86: the language of an empty function stays when the function is defined anew in the other language.
    REFUTED: "a function defined as a shell function is run as one". *)
Theorem leftover_python_refuted : exists d,
  define_all [Method (s_ "do_x") [] true; Method (s_ "do_x") (s_ "    make") false] nothing = Some d /\
  d (s_ "do_x") = mkFunction (Some (s_ "    make")) true.
Proof. eexists. split; [cbn [define_all]; reflexivity|]. vm_compute. reflexivity. Qed.
(** C86: a class that exports a Python function above its definition has it run as a shell function.
    REFUTED: "the place of EXPORT_FUNCTIONS in a class does not matter". *)
Theorem early_export_refuted : exists d,
  define_all [Export (s_ "base") (s_ "do_x"); Method (s_ "base_do_x") (s_ "    pass") true] nothing = Some d /\
  d (s_ "do_x") = mkFunction (Some called_x) false /\ python (d (s_ "base_do_x")) = true.
Proof. eexists. split; [vm_compute; reflexivity|]. split; vm_compute; reflexivity. Qed.

(** C87: every anonymous function of the recipe and of its classes is run once, in the order in which they are
    evaluated *)
Theorem anonymous_once : forall l, distinct_places l -> run_anon l = map (fun a => Some (snd a)) l.
Proof.
  intros l D. unfold run_anon. apply map_ext_in. intros a I. apply defined_once; auto. now apply anon_names.
Qed.
(** C87: two classes whose names differ in a special character, with anonymous functions that end in the same line:
    one runs twice, the other not at all.
    REFUTED: "every anonymous function is run". *)
Theorem anonymous_lost_refuted :
  run_anon [(s_ "/l/classes/a-b.bbclass", 5, 1); (s_ "/l/classes/a_b.bbclass", 5, 2)] = [Some 2; Some 2].
Proof. vm_compute. reflexivity. Qed.

(** ** Examples *)
Definition ex_content (f : str) : option (list stmt) :=
  if seqb f (s_ "/m/r.bb") then Some [Act; Inh (s_ "a  c"); Defer (s_ "d a"); Act]
  else if seqb f (s_ "/m/r.bbappend") then Some [Act; Inh (s_ "b")]
  else if seqb f (s_ "/m/classes-recipe/a.bbclass") then Some [Inh (s_ "b"); Act]
  else if seqb f (s_ "/m/classes/a.bbclass") then Some [Act; Act]
  else if seqb f (s_ "/n/classes/b.bbclass") then Some [Inh (s_ "a"); Act]
  else if seqb f (s_ "/n/classes/c.bbclass") then Some [Defer (s_ "e")]
  else if seqb f (s_ "/n/classes/d.bbclass") then Some [Act]
  else if seqb f (s_ "/n/classes/e.bbclass") then Some [Act]
  else None.
Definition ex_files := [s_ "/m/r.bb"; s_ "/m/r.bbappend"].
Definition ex_parse := parse ex_content (s_ "/m:/n") (s_ "recipe") 20 20 (s_ "/m/r.bb") [s_ "/m/r.bbappend"].
Lemma ex_class f g i name : (inherits_at ex_content f i name \/ defers_at ex_content f i name) -> found ex_content (s_ "/m:/n") (s_ "recipe") name g ->
  In g [s_ "/m/classes-recipe/a.bbclass"; s_ "/n/classes/b.bbclass"; s_ "/n/classes/c.bbclass"; s_ "/n/classes/d.bbclass"; s_ "/n/classes/e.bbclass"].
Proof.
  intros H G. apply lookup_found in G. assert (N : In name [s_ "a"; s_ "b"; s_ "c"; s_ "d"; s_ "e"]).
  { assert (X : forall ss text, ex_content f = Some ss -> In (Inh text) ss \/ In (Defer text) ss -> forall x, In x (split_ws text) -> In x [s_ "a"; s_ "b"; s_ "c"; s_ "d"; s_ "e"]).
    { intros ss text C J x I. apply mem_str_In. assert (Y : forallb (fun t => match t with Inh t => forallb (fun x => mem_str x [s_ "a"; s_ "b"; s_ "c"; s_ "d"; s_ "e"]) (split_ws t) | Defer t => forallb (fun x => mem_str x [s_ "a"; s_ "b"; s_ "c"; s_ "d"; s_ "e"]) (split_ws t) | Act => true end) ss = true).
      { unfold ex_content in C. repeat match type of C with (if ?b then _ else _) = _ => destruct b; [injection C as <-; vm_compute; reflexivity|] end. discriminate. }
      rewrite forallb_forall in Y. destruct J as [J|J]; apply Y in J; rewrite forallb_forall in J; now apply J. }
    destruct H as [(ss & text & C & K & I)|(ss & text & C & K & I)]; apply nth_error_In in K; eapply X; eauto. }
  destruct N as [<-|[<-|[<-|[<-|[<-|[]]]]]]; vm_compute in G; injection G as <-; apply mem_str_In; vm_compute; reflexivity.
Qed.
Example ex_recipe_files : recipe_files ex_content (s_ "/m:/n") (s_ "recipe") ex_files.
Proof.
  split; [|split].
  - intros f [<-|[<-|[]]]; intros E; vm_compute in E; discriminate E.
  - intros f I C. inversion C as [f' i name g _ H G]; subst. apply (ex_class _ _ _ _ H) in G.
    assert (X : mem_str f ex_files && mem_str f [s_ "/m/classes-recipe/a.bbclass"; s_ "/n/classes/b.bbclass"; s_ "/n/classes/c.bbclass"; s_ "/n/classes/d.bbclass"; s_ "/n/classes/e.bbclass"] = true) by (apply andb_true_iff; split; now apply mem_str_In).
    destruct I as [<-|[<-|[]]]; vm_compute in X; discriminate X.
  - constructor; [intros [E|[]]; discriminate E|constructor; [intros []|constructor]].
Qed.
Example ex_parse_done : match ex_parse with
  | Done st => events st = [Start (s_ "/m/r.bb"); Ran (s_ "/m/r.bb") 0;
      Start (s_ "/m/classes-recipe/a.bbclass"); Start (s_ "/n/classes/b.bbclass"); Ran (s_ "/n/classes/b.bbclass") 1; End (s_ "/n/classes/b.bbclass");
      Ran (s_ "/m/classes-recipe/a.bbclass") 1; End (s_ "/m/classes-recipe/a.bbclass");
      Start (s_ "/n/classes/c.bbclass"); Ran (s_ "/n/classes/c.bbclass") 0; End (s_ "/n/classes/c.bbclass");
      Ran (s_ "/m/r.bb") 2; Ran (s_ "/m/r.bb") 3; End (s_ "/m/r.bb");
      Start (s_ "/m/r.bbappend"); Ran (s_ "/m/r.bbappend") 0; End (s_ "/m/r.bbappend");
      Start (s_ "/n/classes/e.bbclass"); Ran (s_ "/n/classes/e.bbclass") 0; End (s_ "/n/classes/e.bbclass");
      Start (s_ "/n/classes/d.bbclass"); Ran (s_ "/n/classes/d.bbclass") 0; End (s_ "/n/classes/d.bbclass")]
  | _ => False
  end.
Proof. vm_compute. reflexivity. Qed.
Example ex_missing : parse ex_content (s_ "/m") (s_ "recipe") 20 20 (s_ "/m/r.bb") [s_ "/m/r.bbappend"] = Missing.
Proof. vm_compute. reflexivity. Qed.
Example ex_exported : match define_all [Method (s_ "base_do_x") (s_ "    pass") true; Export (s_ "base") (s_ "do_x do_y"); Method (s_ "do_y") (s_ "    make") false; Export (s_ "image") (s_ "do_y")] nothing with
  | Some d => python (d (s_ "do_x")) = true /\ d (s_ "do_y") = mkFunction (Some (s_ "    make")) false | None => False end.
Proof. vm_compute. split; reflexivity. Qed.
Example ex_anon : run_anon [(s_ "/l/a.bbclass", 5, 1); (s_ "/l/b.bbclass", 5, 2); (s_ "/l/a.bbclass", 15, 3)] = [Some 1; Some 2; Some 3].
Proof. vm_compute. reflexivity. Qed.

Print Assumptions class_search.
Print Assumptions classes_exact.
Print Assumptions inherits_class_exact.
Print Assumptions classes_evaluated.
Print Assumptions classes_first.
Print Assumptions classes_end.
Print Assumptions classes_missing.
Print Assumptions deferred_last.
Print Assumptions own_function_wins.
Print Assumptions exported_function.
Print Assumptions function_untouched.
Print Assumptions empty_function_refuted.
Print Assumptions leftover_python_refuted.
Print Assumptions early_export_refuted.
Print Assumptions anonymous_once.
Print Assumptions anonymous_lost_refuted.

(** ** Further cases that meet the hypotheses *)
Lemma own_checked t : contains_sub sentinel t = false -> t <> [] -> own_text t.
Proof. intros H N. split; auto. intros a b ->. assert (X : contains_sub sentinel (a ++ sentinel ++ b) = true) by (apply contains_sub_iff; eauto). congruence. Qed.
Example own_function_met : exists d, define_all ([Method (s_ "base_do_x") (s_ "    a") false; Export (s_ "base") (s_ "do_x")] ++ Method (s_ "do_x") (s_ "    make") false :: [Export (s_ "base") (s_ "do_x")]) nothing = Some d /\ body (d (s_ "do_x")) = Some (s_ "    make").
Proof.
  eexists. split; [vm_compute; reflexivity|]. eapply (own_function_wins [Method (s_ "base_do_x") (s_ "    a") false; Export (s_ "base") (s_ "do_x")] (s_ "do_x") (s_ "    make") false [Export (s_ "base") (s_ "do_x")]).
  - vm_compute. reflexivity.
  - apply own_checked; [vm_compute; reflexivity|discriminate].
  - intros t py [E|[E|[]]]; discriminate E.
  - intros e [<-|[]] (t & py & E). discriminate E.
Qed.
Example exported_function_met : exists d, define_all ([] ++ Method (s_ "base_do_x") (s_ "    pass") true :: [Method (s_ "other") (s_ "x") false] ++ Export (s_ "base") (s_ "do_y do_x") :: [Export (s_ "base") (s_ "do_z")]) nothing = Some d /\ python (d (s_ "do_x")) = true.
Proof.
  eexists. split; [vm_compute; reflexivity|]. eapply (exported_function [] (s_ "base_do_x") true (s_ "    pass") [Method (s_ "other") (s_ "x") false] (s_ "base") (s_ "do_y do_x") [Export (s_ "base") (s_ "do_z")] (s_ "do_x")).
  - vm_compute. reflexivity.
  - reflexivity.
  - apply mem_str_In. vm_compute. reflexivity.
  - intros I. apply mem_str_In in I. vm_compute in I. discriminate I.
  - intros ? ? [].
  - apply own_checked; [vm_compute; reflexivity|discriminate].
  - intros e [<-|[]] (t & py & E). discriminate E.
  - intros e [<-|[<-|[]]] (t & py & E); discriminate E.
  - intros e [<-|[]] (c & fs & E & I). injection E as <- <-. apply mem_str_In in I. vm_compute in I. discriminate I.
Qed.
Example anonymous_met : distinct_places [(s_ "/l/a.bbclass", 5, 1); (s_ "/l/b.bbclass", 5, 2); (s_ "/l/a.bbclass", 15, 3)].
Proof.
  split; [repeat constructor; cbn; intuition discriminate|]. intros f g lf lg ef eg A B E. cbn in A, B. destruct A as [A|[A|[A|[]]]]; injection A as <- <- <-; destruct B as [B|[B|[B|[]]]]; injection B as <- <- <-; auto; vm_compute in E; discriminate E.
Qed.

