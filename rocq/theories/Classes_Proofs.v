(** Lemmas about classes and exported functions. *)
From Coq Require Import NArith String Ascii List Bool Arith Lia.
From Verif Require Import Str_Model Str_Proofs Posix_Model Search_Model Classes_Model Classes_Spec.
Import ListNotations.
Open Scope list_scope.

(** ** The search *)
Section Lookup.
  Variable content : str -> option (list stmt).
  Variable bbpath ctype : str.
  Notation there := (there content).
  Lemma there_iff f : there f = true <-> exists_file content f.
  Proof. unfold Classes_Model.there, exists_file. destruct (content f); split; congruence. Qed.
  Lemma find_first l f : find there l = Some f <-> exists a b, l = a ++ f :: b /\ exists_file content f /\ forall g, In g a -> ~ exists_file content g.
  Proof.
    induction l as [|x l IH]; cbn [find].
    - split; [discriminate|]. intros (a & b & E & _). destruct a; discriminate.
    - destruct (there x) eqn:T.
      + split.
        * intros E. injection E as ->. exists [], l. split; auto. split; [now apply there_iff|intros ? []].
        * intros (a & b & E & X & N). destruct a as [|y a]; cbn in E; injection E as -> ->; auto. exfalso. apply (N y); [now left|]. now apply there_iff.
      + assert (T' : ~ exists_file content x) by (rewrite <- there_iff; congruence). rewrite IH. split.
        * intros (a & b & -> & X & N). exists (x :: a), b. split; auto. split; auto. intros g [<-|G]; auto.
        * intros (a & b & E & X & N). destruct a as [|y a]; cbn in E; injection E as -> ->; [contradiction|]. exists a, b. split; auto. split; auto. intros g G. apply N. now right.
  Qed.
  Lemma find_none l : find there l = None <-> forall g, In g l -> ~ exists_file content g.
  Proof.
    split.
    - intros N g G X. apply there_iff in X. pose proof (find_none _ _ N g G). congruence.
    - intros N. destruct (find there l) as [f|] eqn:E; auto. apply find_some in E. destruct E as [I T]. exfalso. apply (N f I). now apply there_iff.
  Qed.
  Lemma which_find item paths hist : fst (which_loop there item paths hist) = find there (map (fun d => pjoin d item) paths).
  Proof. revert hist. induction paths as [|p paths IH]; intros hist; cbn [which_loop map find]; auto. destruct (there (pjoin p item)); auto. Qed.
  Lemma find_app {A} (p : A -> bool) a b : find p (a ++ b) = match find p a with Some x => Some x | None => find p b end.
  Proof. induction a as [|x a IH]; cbn [app find]; auto. destruct (p x); auto. Qed.
  Lemma cand_find rel : (let c := match fst (which there bbpath rel false) with Some f => f | None => rel end in if there c then Some c else None) = find there (along bbpath rel).
  Proof.
    cbn zeta. unfold which, along. rewrite which_find, find_app. change colon with ":"%char. destruct (find there (map (fun d => pjoin d rel) (split_on ":" bbpath))) as [f|] eqn:E.
    - apply find_some in E. now rewrite (proj2 E).
    - cbn [find]. destruct (there rel); auto.
  Qed.
  Lemma lookup_find name : lookup content bbpath ctype name = find there (places bbpath ctype name).
  Proof.
    unfold lookup, candidate, places. destruct (isabs name) eqn:A.
    - cbn [negb andb]. rewrite A. cbn [find]. destruct (there name); auto.
    - destruct (endswith (s_ ".bbclass") name) eqn:B; cbn [negb andb].
      + rewrite A. rewrite <- (cand_find name). cbn zeta. destruct (there _); auto.
      + assert (R : forall t c r, t = c :: r -> is_slash c = false -> isabs (pjoin t (name ++ s_ ".bbclass")) = false).
        { intros t c r -> C. unfold pjoin. destruct (isabs (name ++ s_ ".bbclass")) eqn:D; [destruct name; [discriminate|cbn in A, D; congruence]|]. destruct (rev (c :: r)) as [|x y]; auto. destruct (is_slash x); cbn; auto. }
        rewrite (R (s_ "classes-" ++ ctype) "c"%char (s_ "lasses-" ++ ctype) eq_refl eq_refl), (R (s_ "classes") "c"%char (s_ "lasses") eq_refl eq_refl).
        rewrite find_app, <- !cand_find. cbn zeta. destruct (there _); auto.
  Qed.
  Lemma lookup_found name f : lookup content bbpath ctype name = Some f <-> found content bbpath ctype name f.
  Proof. rewrite lookup_find. apply find_first. Qed.
  Lemma lookup_nowhere name : lookup content bbpath ctype name = None <-> nowhere content bbpath ctype name.
  Proof. rewrite lookup_find. apply find_none. Qed.
  Lemma found_exists name f : found content bbpath ctype name f -> exists ss, content f = Some ss.
  Proof. intros (a & b & _ & X & _). unfold exists_file in X. destruct (content f) as [ss|]; [eauto|congruence]. Qed.
End Lookup.

(** ** Evaluation *)
Section Evaluation.
  Variable content : str -> option (list stmt).
  Variable bbpath ctype : str.
  Notation found := (found content bbpath ctype).
  Notation inherits_at := (inherits_at content).
  Notation needs := (needs content bbpath ctype).
  Notation handle := (handle content bbpath ctype).
  Notation inherit_names := (inherit_names content bbpath ctype).
  Notation eval_from := (eval_from content bbpath ctype).
  Notation prepared := (prepared content bbpath ctype).

  Fixpoint idx (k : nat) (ss : list stmt) : list nat :=
    match ss with
    | [] => []
    | Inh _ :: r => idx (S k) r
    | _ :: r => k :: idx (S k) r
    end.
  Definition whole (f : str) (es : list event) : Prop := exists ss, content f = Some ss /\ es = Start f :: map (Ran f) (idx 0 ss) ++ [End f].
  Definition dtext (e : event) : list str :=
    match e with
    | Ran f k => match content f with Some ss => match nth_error ss k with Some (Defer t) => [t] | _ => [] end | None => [] end
    | _ => []
    end.
  Definition dtexts (es : list event) : list str := flat_map dtext es.
  Lemma dtexts_app a b : dtexts (a ++ b) = dtexts a ++ dtexts b.
  Proof. apply flat_map_app. Qed.
  Lemma deferred_names_texts es : deferred_names content es = flat_map split_ws (dtexts es).
  Proof.
    induction es as [|e es IH]; [reflexivity|]. unfold deferred_names, dtexts in *. cbn [flat_map]. rewrite flat_map_app, <- IH. f_equal.
    unfold dtext. destruct e as [f|f k|f]; try reflexivity. destruct (content f) as [ss|]; [|reflexivity]. destruct (nth_error ss k) as [[t|t|]|]; try reflexivity. cbn. now rewrite app_nil_r.
  Qed.
  Definition closed (f : str) (c : list str) : Prop := forall i name, inherits_at f i name -> exists g, found name g /\ In g c.
  Definition ready (S : list str) (st : state) : Prop :=
    (forall g, In g (cache st) -> In (Start g) (events st) /\ (In (End g) (events st) \/ In g S)) /\
    (forall x, In x S -> In (Start x) (events st)).
  Variable Rch : str -> Prop.
  Hypothesis Rch_closed : forall f g, Rch f -> needs f g -> Rch g.

  (** one part of the evaluation: the classes L are entered, the events E are added; [quiet] says which
      other files have no events *)
  Record part (F : list str) (st st' : state) (L : list str) (E : list event) : Prop := {
    p_cache : cache st' = cache st ++ L;
    p_events : events st' = events st ++ E;
    p_queue : queue st' = queue st ++ dtexts E;
    p_nodup : NoDup L;
    p_new : forall f, In f L -> ~ In f (cache st);
    p_whole : forall f, In f L -> whole f (filter (about f) E);
    p_prep : forall a G k b, E = a ++ Ran G k :: b -> prepared (events st ++ a) G k;
    p_closed : forall f, In f L -> closed f (cache st');
    p_rch : forall f, In f L -> Rch f;
    p_quiet : forall f, ~ In f L -> ~ In f F -> filter (about f) E = []
  }.
  Lemma part_nil F st : part F st st [] [].
  Proof.
    constructor; [now rewrite app_nil_r|now rewrite app_nil_r|cbn; now rewrite app_nil_r|constructor|intros f []|intros f []| |intros f []|intros f []|auto].
    intros a G k b H. destruct a; discriminate.
  Qed.
  Lemma prepared_app a G k c : forall b, prepared (a ++ b) G k -> a ++ b = c -> prepared c G k.
  Proof. now intros b H <-. Qed.
  Lemma filter_app_about f a b : filter (about f) (a ++ b) = filter (about f) a ++ filter (about f) b.
  Proof. apply filter_app. Qed.
  Lemma split_app {A} (E1 E2 a : list A) x b : E1 ++ E2 = a ++ x :: b -> (exists b', E1 = a ++ x :: b') \/ (exists a', a = E1 ++ a' /\ E2 = a' ++ x :: b).
  Proof.
    revert a. induction E1 as [|y E1 IH]; intros a E.
    - right. exists a. auto.
    - destruct a as [|z a]; cbn in E; injection E as -> E.
      + left. exists E1. reflexivity.
      + destruct (IH a E) as [(b' & ->)|(a' & -> & X)]; [left; exists b'; reflexivity|right; exists a'; auto].
  Qed.
  Lemma closed_more f c d : closed f c -> closed f (c ++ d).
  Proof. intros C i name I. destruct (C i name I) as (g & G & X). exists g. split; auto. apply in_or_app. now left. Qed.
  Lemma part_trans F st st1 st2 L1 E1 L2 E2 : (forall x, In x F -> ~ In x L1 /\ ~ In x L2) ->
    part F st st1 L1 E1 -> part F st1 st2 L2 E2 -> part F st st2 (L1 ++ L2) (E1 ++ E2).
  Proof.
    intros HF P Q. assert (DJ : forall f, In f L1 -> ~ In f L2).
    { intros f I J. apply (p_new _ _ _ _ _ Q f J). rewrite (p_cache _ _ _ _ _ P). apply in_or_app. now right. }
    constructor.
    - rewrite (p_cache _ _ _ _ _ Q), (p_cache _ _ _ _ _ P). now rewrite app_assoc.
    - rewrite (p_events _ _ _ _ _ Q), (p_events _ _ _ _ _ P). now rewrite app_assoc.
    - rewrite (p_queue _ _ _ _ _ Q), (p_queue _ _ _ _ _ P), dtexts_app. now rewrite app_assoc.
    - pose proof (p_nodup _ _ _ _ _ P) as N1. pose proof (p_nodup _ _ _ _ _ Q) as N2. clear -N1 N2 DJ. induction L1 as [|x L1 IH]; cbn; auto. inversion N1 as [|? ? X Y]; subst. constructor.
      + rewrite in_app_iff. intros [I|I]; [contradiction|]. apply (DJ x); [now left|auto].
      + apply IH; auto. intros f I. apply DJ. now right.
    - intros f I. apply in_app_iff in I. destruct I as [I|I]; [now apply (p_new _ _ _ _ _ P)|]. intros C. apply (p_new _ _ _ _ _ Q f I). rewrite (p_cache _ _ _ _ _ P). apply in_or_app. now left.
    - intros f I. rewrite filter_app_about. apply in_app_iff in I. destruct I as [I|I].
      + rewrite (p_quiet _ _ _ _ _ Q f (DJ f I)), app_nil_r; [now apply (p_whole _ _ _ _ _ P)|]. intros K. now apply (proj1 (HF f K)).
      + rewrite (p_quiet _ _ _ _ _ P f); [now apply (p_whole _ _ _ _ _ Q)|intros J; now apply (DJ f)|]. intros K. now apply (proj2 (HF f K)).
    - intros a G k b E. apply split_app in E. destruct E as [(b' & E)|(a' & -> & E)]; [now apply (p_prep _ _ _ _ _ P _ _ _ _ E)|]. pose proof (p_prep _ _ _ _ _ Q _ _ _ _ E) as X. rewrite (p_events _ _ _ _ _ P) in X. now rewrite app_assoc.
    - intros f I. apply in_app_iff in I. destruct I as [I|I]; [|now apply (p_closed _ _ _ _ _ Q)]. rewrite (p_cache _ _ _ _ _ Q). apply closed_more. now apply (p_closed _ _ _ _ _ P).
    - intros f I. apply in_app_iff in I. destruct I as [I|I]; [now apply (p_rch _ _ _ _ _ P)|now apply (p_rch _ _ _ _ _ Q)].
    - intros f N K. rewrite filter_app_about, (p_quiet _ _ _ _ _ P f), (p_quiet _ _ _ _ _ Q f); auto; intros I; apply N; apply in_or_app; auto.
  Qed.
  Lemma part_weaken F F' st st' L E : incl F' F -> part F' st st' L E -> part F st st' L E.
  Proof. intros I []. constructor; auto. Qed.
  Lemma nil_incl {A} (l : list A) : incl [] l.
  Proof. intros x []. Qed.
  Lemma about_in f e es : about f e = true -> In e es -> In e (filter (about f) es).
  Proof. intros A I. apply filter_In. auto. Qed.
  Lemma whole_in f es : whole f (filter (about f) es) -> In (Start f) es /\ In (End f) es.
  Proof.
    intros (ss & _ & E). assert (A : In (Start f) (filter (about f) es) /\ In (End f) (filter (about f) es)) by (rewrite E; split; [now left|right; apply in_or_app; right; now left]).
    destruct A as [A B]. apply filter_In in A, B. tauto.
  Qed.
  Lemma part_ready F S st st' L E : ready S st -> part F st st' L E -> ready S st'.
  Proof.
    intros [R1 R2] P. split.
    - intros g G. rewrite (p_cache _ _ _ _ _ P) in G. rewrite (p_events _ _ _ _ _ P). apply in_app_iff in G. destruct G as [G|G].
      + destruct (R1 g G) as [A [B|B]]; split; try (apply in_or_app; now left); auto. left. apply in_or_app. now left.
      + destruct (whole_in g E (p_whole _ _ _ _ _ P g G)) as [A B]. split; [|left]; apply in_or_app; now right.
    - intros x X. rewrite (p_events _ _ _ _ _ P). apply in_or_app. left. auto.
  Qed.

  (** a handler that does what it should *)
  Definition handles (h : str -> state -> result) : Prop :=
    (forall f st S st', content f <> None -> Rch f -> ready S st -> ~ In f (cache st) -> h f (remember f st) = Done st' -> exists L E, part [] st st' L E /\ In f L) /\
    (forall f st, content f <> None -> Rch f -> h f st = Missing -> exists G i name, Rch G /\ inherits_at G i name /\ nowhere content bbpath ctype name).

  Lemma names_done h S names : handles h -> forall st st', (forall name g, In name names -> found name g -> Rch g) -> ready S st -> inherit_names h names st = Done st' ->
    exists L E, part [] st st' L E /\ forall name, In name names -> exists g, found name g /\ In g (cache st').
  Proof.
    intros H. induction names as [|name names IH]; intros st st' HR R; cbn [Classes_Model.inherit_names].
    - intros E. injection E as <-. exists [], []. split; [apply part_nil|intros ? []].
    - destruct (lookup content bbpath ctype name) as [f|] eqn:LK; [|discriminate]. apply lookup_found in LK.
      assert (RF : Rch f) by (apply (HR name); auto; now left). assert (HR' : forall name g, In name names -> found name g -> Rch g) by (intros; eapply HR; eauto; now right).
      destruct (mem_str f (cache st)) eqn:M; cbn [bind].
      + apply mem_str_In in M. intros D. destruct (IH st st' HR' R D) as (L & E & P & C). exists L, E. split; auto. intros x [<-|X]; auto. exists f. split; auto. rewrite (p_cache _ _ _ _ _ P). apply in_or_app. now left.
      + apply mem_str_false in M. destruct (h f (remember f st)) as [| |st1] eqn:D1; cbn [bind]; try discriminate. intros D. destruct (found_exists _ _ _ _ _ LK) as [ss SS].
        destruct (proj1 H f st S st1) as (L1 & E1 & P1 & I1); auto; [congruence|]. destruct (IH st1 st' HR' (part_ready _ _ _ _ _ _ R P1) D) as (L2 & E2 & P2 & C2).
        exists (L1 ++ L2), (E1 ++ E2). split; [eapply part_trans; [intros ? []|exact P1|exact P2]|]. intros x [<-|X]; auto. exists f. split; auto. rewrite (p_cache _ _ _ _ _ P2), (p_cache _ _ _ _ _ P1). apply in_or_app. left. apply in_or_app. now right.
  Qed.
  Lemma names_missing h names : handles h -> forall st, (forall name g, In name names -> found name g -> Rch g) -> inherit_names h names st = Missing ->
    (exists name, In name names /\ nowhere content bbpath ctype name) \/ exists G i name, Rch G /\ inherits_at G i name /\ nowhere content bbpath ctype name.
  Proof.
    intros H. induction names as [|name names IH]; intros st HR; cbn [Classes_Model.inherit_names]; [discriminate|].
    destruct (lookup content bbpath ctype name) as [f|] eqn:LK; [|intros _; left; exists name; split; [now left|now apply lookup_nowhere]]. apply lookup_found in LK.
    assert (HR' : forall name g, In name names -> found name g -> Rch g) by (intros; eapply HR; eauto; now right). assert (RF : Rch f) by (apply (HR name); auto; now left).
    assert (rec : forall st0, inherit_names h names st0 = Missing -> (exists name0, In name0 (name :: names) /\ nowhere content bbpath ctype name0) \/ exists G i name, Rch G /\ inherits_at G i name /\ nowhere content bbpath ctype name).
    { intros st0 X. destruct (IH st0 HR' X) as [(n & N & Y)|Y]; [left; exists n; split; auto; now right|now right]. }
    destruct (mem_str f (cache st)) eqn:M; cbn [bind]; [apply rec|]. destruct (h f (remember f st)) as [| |st1] eqn:D1; cbn [bind]; [|discriminate|apply rec]. intros _. right. destruct (found_exists _ _ _ _ _ LK) as [ss SS]. apply (proj2 H f (remember f st)); auto. congruence.
  Qed.

  Lemma seqb_false a b : a <> b -> seqb a b = false.
  Proof. intros N. now apply seqb_neq. Qed.
  Lemma nth_pre {A} (pre ss : list A) s r : ss = s :: r -> nth_error (pre ++ ss) (length pre) = Some s.
  Proof. intros ->. rewrite nth_error_app2 by lia. now rewrite Nat.sub_diag. Qed.
  (** one event of an open file *)
  Lemma part_ran F k st st' (T : list str) : prepared (events st) F k -> dtext (Ran F k) = T ->
    st' = mkState (cache st) (queue st ++ T) (events st ++ [Ran F k]) -> part [F] st st' [] [Ran F k].
  Proof.
    intros P T1 ->. constructor; cbn [cache queue events]; [now rewrite app_nil_r|auto| |constructor|intros f []|intros f []| |intros f []|intros f []|].
    - unfold dtexts. cbn [flat_map]. now rewrite T1, app_nil_r.
    - intros a G j b E. destruct a as [|x a]; cbn in E; [|injection E as _ E; destruct a; discriminate]. injection E as <- <- <-. now rewrite app_nil_r.
    - intros f _ N. cbn. rewrite (seqb_false F f); auto. intros ->. apply N. now left.
  Qed.
  Lemma eval_done h F S a1 (H : handles h) : (forall x, In x S -> In (Start x) a1) -> (forall i name g, inherits_at F i name -> found name g -> Rch g) ->
    forall ss pre st st' a2, content F = Some (pre ++ ss) -> events st = a1 ++ Start F :: a2 -> ready (F :: S) st -> (In F (cache st) \/ ~ Rch F) ->
    (forall i name, i < length pre -> inherits_at F i name -> exists g, found name g /\ In g (cache st)) ->
    eval_from h F (length pre) ss st = Done st' ->
    exists L E, part [F] st st' L E /\ ~ In F L /\ filter (about F) E = map (Ran F) (idx (length pre) ss) /\ closed F (cache st').
  Proof.
    intros HS HF. induction ss as [|s ss IH]; intros pre st st' a2 C EV R SH PR D.
    - cbn [Classes_Model.eval_from] in D. injection D as <-. exists [], []. split; [apply part_nil|]. split; [intros []|]. split; auto. intros i name I. apply (PR i name); auto.
      destruct I as (sl & t & C' & N & _). rewrite C, app_nil_r in C'. injection C' as <-. apply nth_error_Some. congruence.
    - assert (C1 : content F = Some ((pre ++ [s]) ++ ss)) by (now rewrite <- app_assoc).
      assert (AT : forall name, inherits_at F (length pre) name -> exists text, s = Inh text /\ In name (split_ws text)).
      { intros name (sl & t & C' & N & I). rewrite C in C'. injection C' as <-. rewrite (nth_pre pre (s :: ss) s ss eq_refl) in N. injection N as ->. eauto. }
      assert (PREP : prepared (events st) F (length pre)).
      { intros i name g I J G. destruct (PR i name I J) as (g' & G' & X). assert (g' = g) by (apply lookup_found in G, G'; congruence). subst g'. destruct (proj1 R g X) as [A B]. split; auto. destruct B as [B|[<-|B]]; auto.
        - right. exists a1, a2. split; auto. apply in_or_app. right. now left.
        - right. exists a1, a2. split; auto. apply in_or_app. left. auto. }
      assert (LP : length (pre ++ [s]) = Datatypes.S (length pre)) by (rewrite app_length; cbn; lia).
      assert (other : (forall text, s <> Inh text) -> forall T st1, dtext (Ran F (length pre)) = T -> st1 = mkState (cache st) (queue st ++ T) (events st ++ [Ran F (length pre)]) ->
        eval_from h F (Datatypes.S (length pre)) ss st1 = Done st' ->
        exists L E, part [F] st st' L E /\ ~ In F L /\ filter (about F) E = map (Ran F) (length pre :: idx (Datatypes.S (length pre)) ss) /\ closed F (cache st')).
      { intros NI T st1 T1 E1 D1. assert (P1 : part [F] st st1 [] [Ran F (length pre)]) by (eapply part_ran; eauto).
        rewrite <- LP in D1. destruct (IH (pre ++ [s]) st1 st' (a2 ++ [Ran F (length pre)])) as (L & E & P & NF & FE & CL); auto.
        - rewrite E1. cbn [events]. rewrite EV, <- app_assoc. reflexivity.
        - eapply part_ready; eauto.
        - rewrite E1. exact SH.
        - intros i name I J. rewrite E1. cbn [cache]. apply (PR i name); auto. rewrite LP in I. destruct (Nat.eq_dec i (length pre)) as [->|]; [|lia]. destruct (AT name J) as (t & X & _). now apply NI in X.
        - exists L, (Ran F (length pre) :: E). split; [change L with ([] ++ L); change (Ran F (length pre) :: E) with ([Ran F (length pre)] ++ E); eapply part_trans; [intros x [<-|[]]; split; auto|exact P1|exact P]|].
          split; auto. split; auto. cbn [filter about]. rewrite seqb_refl, FE, LP. reflexivity. }
      destruct s as [text|text|]; cbn [Classes_Model.eval_from] in D; cbn [idx].
      + destruct (inherit_names h (split_ws text) st) as [| |st1] eqn:D1; cbn [bind] in D; try discriminate.
        assert (INH : forall name, In name (split_ws text) -> inherits_at F (length pre) name) by (intros name I; exists (pre ++ Inh text :: ss), text; split; auto; split; auto; eapply nth_pre; reflexivity).
        destruct (names_done h (F :: S) (split_ws text) H st st1) as (L1 & E1 & P1 & C2); auto.
        { intros name g I G. eapply HF; eauto. }
        assert (NF1 : ~ In F L1).
        { intros I. destruct SH as [X|X]; [now apply (p_new _ _ _ _ _ P1 F I)|]. now apply X, (p_rch _ _ _ _ _ P1 F I). }
        rewrite <- LP in D.
        assert (Q1 : filter (about F) E1 = []) by (apply (p_quiet _ _ _ _ _ P1); auto).
        destruct (IH (pre ++ [Inh text]) st1 st' (a2 ++ E1)) as (L & E & P & NF & FE & CL); auto.
        * rewrite (p_events _ _ _ _ _ P1), EV, <- app_assoc. reflexivity.
        * eapply part_ready; eauto.
        * destruct SH as [X|X]; [left|now right]. rewrite (p_cache _ _ _ _ _ P1). apply in_or_app. now left.
        * intros i name I J. rewrite LP in I. destruct (Nat.eq_dec i (length pre)) as [->|NE].
          -- destruct (AT name J) as (t & X & Y). injection X as <-. auto.
          -- destruct (PR i name) as (g & G & X); auto; [lia|]. exists g. split; auto. rewrite (p_cache _ _ _ _ _ P1). apply in_or_app. now left.
        * exists (L1 ++ L), (E1 ++ E). split; [eapply part_trans; [intros x [<-|[]]; split; auto|apply (part_weaken [F] [] _ _ _ _ (nil_incl _)); exact P1|exact P]|].
          split; [rewrite in_app_iff; tauto|]. split; auto. rewrite filter_app_about, Q1, FE, LP. reflexivity.
      + apply (other ltac:(discriminate) [text] (later text (log (Ran F (length pre)) st))); auto. unfold dtext. rewrite C, (nth_pre pre _ (Defer text) ss eq_refl). reflexivity.
      + apply (other ltac:(discriminate) [] (log (Ran F (length pre)) st)); auto; [|unfold log; now rewrite app_nil_r]. unfold dtext. rewrite C, (nth_pre pre _ Act ss eq_refl). reflexivity.
  Qed.
  Lemma eval_missing h F (H : handles h) : (forall i name g, inherits_at F i name -> found name g -> Rch g) ->
    forall ss pre st, content F = Some (pre ++ ss) -> eval_from h F (length pre) ss st = Missing ->
    exists G i name, (G = F \/ Rch G) /\ inherits_at G i name /\ nowhere content bbpath ctype name.
  Proof.
    intros HF. induction ss as [|s ss IH]; intros pre st C; cbn [Classes_Model.eval_from]; [discriminate|].
    assert (C1 : content F = Some ((pre ++ [s]) ++ ss)) by (now rewrite <- app_assoc). assert (LP : length (pre ++ [s]) = Datatypes.S (length pre)) by (rewrite app_length; cbn; lia).
    destruct s as [text|text|].
    - assert (INH : forall name, In name (split_ws text) -> inherits_at F (length pre) name) by (intros name I; exists (pre ++ Inh text :: ss), text; split; auto; split; auto; eapply nth_pre; reflexivity).
      destruct (inherit_names h (split_ws text) st) as [| |st1] eqn:D1; cbn [bind]; [|discriminate|].
      + intros _. destruct (names_missing h (split_ws text) H st) as [(name & I & N)|(G & i & name & X & Y & Z)]; auto.
        * intros name g I G. eapply HF; eauto.
        * exists F, (length pre), name. auto.
        * exists G, i, name. auto.
      + rewrite <- LP. now apply IH.
    - rewrite <- LP. now apply IH.
    - rewrite <- LP. now apply IH.
  Qed.
  Lemma handle_part n F S st st' : handles (handle n) -> content F <> None -> (forall i name g, inherits_at F i name -> found name g -> Rch g) ->
    (forall g, In g (cache st) -> g = F \/ (In (Start g) (events st) /\ (In (End g) (events st) \/ In g S))) -> (forall x, In x S -> In (Start x) (events st)) ->
    (In F (cache st) \/ ~ Rch F) -> handle (Datatypes.S n) F st = Done st' ->
    exists L E, part [F] st st' L (Start F :: E ++ [End F]) /\ ~ In F L /\ whole F (filter (about F) (Start F :: E ++ [End F])) /\ closed F (cache st').
  Proof.
    intros H X HF R1 R2 SH. cbn [Classes_Model.handle]. destruct (content F) as [ss|] eqn:C; [|congruence].
    destruct (eval_from (handle n) F 0 ss (log (Start F) st)) as [| |st1] eqn:D; cbn [bind]; try discriminate. intros E. injection E as <-.
    destruct (eval_done (handle n) F S (events st) H R2 HF ss [] (log (Start F) st) st1 []) as (L & E & P & NF & FE & CL); auto.
    - split; cbn [log cache events].
      + intros g G. destruct (R1 g G) as [->|[A B]]; [split; [apply in_or_app; right; now left|right; now left]|]. split; [apply in_or_app; now left|]. destruct B as [B|B]; [left; apply in_or_app; now left|right; now right].
      + intros x [<-|I]; apply in_or_app; [right; now left|left; auto].
    - intros i name I. cbn in I. lia.
    - exists L, E. assert (W : filter (about F) (Start F :: E ++ [End F]) = Start F :: map (Ran F) (idx 0 ss) ++ [End F]).
      { cbn [filter about]. rewrite seqb_refl, filter_app_about, FE. cbn [filter about length]. now rewrite seqb_refl. }
      split; [|split; [auto|split; [rewrite W; exists ss; auto|exact CL]]]. destruct P as [Pc Pe Pq Pn Pw Pwh Pp Pcl Pr Pqu]. cbn [log cache events queue] in *. constructor; cbn [log cache events queue]; auto.
      + rewrite Pe, <- !app_assoc. reflexivity.
      + rewrite Pq. unfold dtexts. cbn [flat_map dtext app]. rewrite flat_map_app. cbn. now rewrite app_nil_r.
      + intros f I. assert (FN : f <> F) by (intros ->; contradiction). cbn [filter about]. rewrite (seqb_false F f) by congruence. rewrite filter_app_about. cbn [filter about]. rewrite (seqb_false F f) by congruence. rewrite app_nil_r. auto.
      + intros a G k b E1. destruct a as [|y a]; cbn in E1; [discriminate|]. injection E1 as <- E1. apply split_app in E1. destruct E1 as [(b' & E1)|(a' & -> & E1)].
        * specialize (Pp _ _ _ _ E1). now rewrite <- app_assoc in Pp.
        * destruct a' as [|z a']; cbn in E1; [discriminate|]. injection E1 as _ E1. destruct a'; discriminate.
      + intros f NI K. assert (FN : f <> F) by (intros ->; apply K; now left). cbn [filter about]. rewrite (seqb_false F f) by congruence. rewrite filter_app_about. cbn [filter about]. rewrite (seqb_false F f) by congruence. rewrite app_nil_r. auto.
  Qed.
  Lemma handle_ok n : handles (handle n).
  Proof.
    induction n as [|n IH]; split.
    - intros f st S st' _ _ _ _ D. discriminate.
    - intros f st _ _ D. discriminate.
    - intros f st S st' X RF [R1 R2] NI D. assert (HF : forall i name g, inherits_at f i name -> found name g -> Rch g) by (intros i name g I G; apply (Rch_closed f); auto; now exists i, name).
      destruct (handle_part n f S (remember f st) st' IH X HF) as (L & E & P & NF & W & CL); auto.
      + intros g G. cbn [remember cache events] in *. apply in_app_iff in G. destruct G as [G|[<-|[]]]; auto.
      + left. cbn [remember cache]. apply in_or_app. right. now left.
      + exists (f :: L), (Start f :: E ++ [End f]). split; [|now left]. destruct P as [Pc Pe Pq Pn Pw Pwh Pp Pcl Pr Pqu]. cbn [remember cache events queue] in *. constructor; auto.
        * rewrite Pc, <- app_assoc. reflexivity.
        * constructor; auto.
        * intros g [<-|G]; auto. intros I. apply (Pw g G). apply in_or_app. now left.
        * intros g [<-|G]; auto.
        * intros g [<-|G]; auto.
        * intros g [<-|G]; auto.
        * intros g N _. apply Pqu; [intros I; apply N; now right|]. intros [->|[]]. apply N. now left.
    - intros f st X RF. cbn [Classes_Model.handle]. destruct (content f) as [ss|] eqn:C; [|congruence]. destruct (eval_from (handle n) f 0 ss (log (Start f) st)) as [| |st1] eqn:D; cbn [bind]; try discriminate. intros _.
      assert (HF : forall i name g, inherits_at f i name -> found name g -> Rch g) by (intros i name g I G; apply (Rch_closed f); auto; now exists i, name).
      destruct (eval_missing (handle n) f IH HF ss [] (log (Start f) st)) as (G & i & name & [->|Y] & Z & W); eauto.
      + exists f, i, name. auto.
      + exists G, i, name. auto.
  Qed.
  (** the recipe and its appends *)
  Lemma each_done fuel Fs : (forall f, In f Fs -> ~ Rch f) -> forall files st st', incl files Fs -> (forall f, In f files -> content f <> None) ->
    (forall f i name g, In f files -> inherits_at f i name -> found name g -> Rch g) -> ready [] st -> handle_each content bbpath ctype fuel files st = Done st' ->
    exists L E, part Fs st st' L E /\ (forall f, In f files -> closed f (cache st')) /\ (NoDup files -> forall f, In f files -> whole f (filter (about f) E)) /\
      (forall f, In f Fs -> ~ In f files -> filter (about f) E = []).
  Proof.
    intros NFs. assert (out : forall st st' L E F, part F st st' L E -> forall x, In x Fs -> ~ In x L).
    { intros st st' L E F P x X I. now apply (NFs x X), (p_rch _ _ _ _ _ P x I). }
    induction files as [|f files IH]; intros st st' I X HF R D; cbn [handle_each] in D.
    - injection D as <-. exists [], []. split; [apply part_nil|]. split; [intros ? []|]. split; [intros _ ? []|auto].
    - destruct (handle fuel f st) as [| |st1] eqn:D1; cbn [bind] in D; try discriminate. destruct fuel as [|n]; [discriminate|].
      destruct (handle_part n f [] st st1 (handle_ok n)) as (L1 & E1 & P1 & NF1 & W1 & C1); auto.
      { apply X. now left. } { intros i name g. apply HF. now left. } { intros g G. right. apply R, G. } { intros ? []. } { right. apply NFs, I. now left. }
      assert (P1' : part Fs st st1 L1 (Start f :: E1 ++ [End f])) by (eapply part_weaken; [|exact P1]; intros x [<-|[]]; apply I; now left).
      destruct (IH st1 st') as (L2 & E2 & P2 & C2 & W2 & Q2); auto.
      { intros x Y. apply I. now right. } { intros x Y. apply X. now right. } { intros x i name g Y. apply HF. now right. } { eapply part_ready; eauto. }
      exists (L1 ++ L2), ((Start f :: E1 ++ [End f]) ++ E2). split; [eapply part_trans; [|exact P1'|exact P2]; intros x Y; split; eapply out; eauto|]. split; [|split].
      + intros x [<-|Y]; auto. rewrite (p_cache _ _ _ _ _ P2). now apply closed_more.
      + intros N x Y. inversion N as [|? ? NX ND]; subst. rewrite filter_app_about. destruct Y as [<-|Y].
        * rewrite (Q2 f); auto; [|apply I; now left]. now rewrite app_nil_r.
        * assert (x <> f) by (intros ->; contradiction). rewrite (p_quiet _ _ _ _ _ P1 x); [apply W2; auto|eapply out; eauto; apply I; now right|]. intros [K|[]]. congruence.
      + intros x Y N. rewrite filter_app_about, (Q2 x Y); [|intros K; apply N; now right]. rewrite app_nil_r. apply (p_quiet _ _ _ _ _ P1); [eapply out; eauto|]. intros [K|[]]. apply N. now left.
  Qed.
  Lemma each_missing fuel files : forall st, (forall f, In f files -> content f <> None) ->
    (forall f i name g, In f files -> inherits_at f i name -> found name g -> Rch g) -> handle_each content bbpath ctype fuel files st = Missing ->
    exists G i name, (In G files \/ Rch G) /\ inherits_at G i name /\ nowhere content bbpath ctype name.
  Proof.
    induction files as [|f files IH]; intros st X HF D; cbn [handle_each] in D; [discriminate|]. destruct (handle fuel f st) as [| |st1] eqn:D1; cbn [bind] in D; [|discriminate|].
    - destruct fuel as [|n]; [discriminate|]. cbn [Classes_Model.handle] in D1. destruct (content f) as [ss|] eqn:C; [|exfalso; apply (X f); [now left|auto]].
      destruct (eval_from (handle n) f 0 ss (log (Start f) st)) as [| |st1] eqn:D2; cbn [bind] in D1; try discriminate.
      destruct (eval_missing (handle n) f (handle_ok n) (fun i name g => HF f i name g (or_introl eq_refl)) ss [] _ C D2) as (G & i & name & [->|Y] & Z & W).
      + exists f, i, name. split; auto. left. now left.
      + exists G, i, name. auto.
    - destruct (IH st1) as (G & i & name & [Y|Y] & Z & W); auto; [intros x I; apply X; now right|intros x i name g I; apply HF; now right| |]; exists G, i, name; split; auto. left. now right.
  Qed.

  (** ** The deferred classes *)
  Definition setq (q : list str) (st : state) : state := mkState (cache st) q (events st).
  Lemma part_setq F st st' L E q : part F st st' L E -> part F (setq q st) (setq (q ++ dtexts E) st') L E.
  Proof. intros []. constructor; auto. Qed.
  Lemma dtexts_in t E : In t (dtexts E) -> exists f k ss, In (Ran f k) E /\ content f = Some ss /\ nth_error ss k = Some (Defer t).
  Proof.
    unfold dtexts. rewrite in_flat_map. intros (e & I & T). unfold dtext in T. destruct e as [f|f k|f]; try contradiction. destruct (content f) as [ss|] eqn:C; [|contradiction]. destruct (nth_error ss k) as [[x|x|]|] eqn:N; try contradiction. destruct T as [<-|[]]. eauto 6.
  Qed.
  Lemma part_ran_in F st st' L E f k : part F st st' L E -> ~ In f F -> In (Ran f k) E -> In f L.
  Proof.
    intros P NF I. destruct (in_dec str_eq_dec f L) as [Y|N]; auto. exfalso. pose proof (p_quiet _ _ _ _ _ P f N NF) as Q. apply (about_in f (Ran f k)) in I; [rewrite Q in I; exact I|]. cbn. apply seqb_refl.
  Qed.
  Hypothesis Rch_deferred : forall f i name g, Rch f -> defers_at content f i name -> found name g -> Rch g.
  Lemma deferred_done fuel rounds : forall st st', ready [] st -> (forall t name g, In t (queue st) -> In name (split_ws t) -> found name g -> Rch g) ->
    deferred content bbpath ctype fuel rounds st = Done st' -> exists L E, part [] (setq [] st) (setq (dtexts E) st') L E /\
      forall t name, In t (queue st ++ dtexts E) -> In name (split_ws t) -> exists g, found name g /\ In g (cache st').
  Proof.
    induction rounds as [|n IH]; intros st st' R HQ D; cbn [deferred] in D; destruct (queue st) as [|text rest] eqn:Q; try discriminate.
    - injection D as <-. exists [], []. split; [apply part_nil|]. cbn. contradiction.
    - injection D as <-. exists [], []. split; [apply part_nil|]. cbn. contradiction.
    - destruct (inherit_names (handle fuel) (split_ws text) (mkState (cache st) rest (events st))) as [| |st1] eqn:D1; cbn [bind] in D; try discriminate.
      destruct (names_done (handle fuel) [] (split_ws text) (handle_ok fuel) (mkState (cache st) rest (events st)) st1) as (L1 & E1 & P1 & C1); auto.
      { intros name g. apply HQ. now left. }
      assert (Q1 : queue st1 = rest ++ dtexts E1) by apply (p_queue _ _ _ _ _ P1).
      destruct (IH st1 st') as (L2 & E2 & P2 & C2); auto.
      { eapply part_ready; [|exact P1]. exact R. }
      { intros t name g T I F. rewrite Q1 in T. apply in_app_iff in T. destruct T as [T|T]; [eapply HQ; eauto; now right|]. apply dtexts_in in T. destruct T as (f & k & ss & IE & C & N). apply (Rch_deferred f k name); auto.
        - apply (p_rch _ _ _ _ _ P1). eapply part_ran_in; [exact P1|intros []|exact IE].
        - exists ss, t. auto. }
      exists (L1 ++ L2), (E1 ++ E2). apply (part_setq [] _ _ _ _ []) in P1. apply (part_setq [] _ _ _ _ (dtexts E1)) in P2. rewrite app_nil_l in P1. split.
      + rewrite dtexts_app. eapply part_trans; [intros ? []|exact P1|exact P2].
      + intros t name T I. rewrite dtexts_app in T. cbn in T. destruct T as [<-|T].
        * destruct (C1 name I) as (g & G & Y). exists g. split; auto. pose proof (p_cache _ _ _ _ _ P2) as PC. cbn in PC. rewrite PC. apply in_or_app. now left.
        * apply (C2 t name); auto. rewrite Q1. rewrite app_assoc in T. exact T.
  Qed.
  Lemma deferred_missing fuel rounds : forall st, ready [] st -> (forall t name g, In t (queue st) -> In name (split_ws t) -> found name g -> Rch g) ->
    deferred content bbpath ctype fuel rounds st = Missing ->
    (exists t name, In t (queue st) /\ In name (split_ws t) /\ nowhere content bbpath ctype name) \/
    exists G i name, Rch G /\ (inherits_at G i name \/ defers_at content G i name) /\ nowhere content bbpath ctype name.
  Proof.
    induction rounds as [|n IH]; intros st R HQ D; cbn [deferred] in D; destruct (queue st) as [|text rest] eqn:Q; try discriminate.
    destruct (inherit_names (handle fuel) (split_ws text) (mkState (cache st) rest (events st))) as [| |st1] eqn:D1; cbn [bind] in D; try discriminate.
    - destruct (names_missing (handle fuel) (split_ws text) (handle_ok fuel) (mkState (cache st) rest (events st))) as [(name & I & N)|(G & i & name & X & Y & Z)]; auto.
      + intros name g. apply HQ. now left.
      + left. exists text, name. split; auto. now left.
      + right. exists G, i, name. auto.
    - destruct (names_done (handle fuel) [] (split_ws text) (handle_ok fuel) (mkState (cache st) rest (events st)) st1) as (L1 & E1 & P1 & C1); auto.
      { intros name g. apply HQ. now left. }
      assert (Q1 : queue st1 = rest ++ dtexts E1) by apply (p_queue _ _ _ _ _ P1).
      assert (from : forall t, In t (dtexts E1) -> exists f k, Rch f /\ forall name, In name (split_ws t) -> defers_at content f k name).
      { intros t T. apply dtexts_in in T. destruct T as (f & k & ss & IE & C & N). exists f, k. split; [apply (p_rch _ _ _ _ _ P1); eapply part_ran_in; [exact P1|intros []|exact IE]|]. intros name I. exists ss, t. auto. }
      destruct (IH st1) as [(t & name & T & I & N)|Y]; auto.
      + eapply part_ready; [|exact P1]. exact R.
      + intros t name g T I F. rewrite Q1 in T. apply in_app_iff in T. destruct T as [T|T]; [eapply HQ; eauto; now right|]. destruct (from t T) as (f & k & RF & DF). eapply Rch_deferred; eauto.
      + rewrite Q1 in T. apply in_app_iff in T. destruct T as [T|T].
        * left. exists t, name. split; auto. now right.
        * right. destruct (from t T) as (f & k & RF & DF). exists f, k, name. auto.
  Qed.
End Evaluation.

(** ** Enough fuel *)
Section Enough.
  Variable content : str -> option (list stmt).
  Variable bbpath ctype : str.
  Variable dom : list str.
  Hypothesis Hdom : forall f, content f <> None -> In f dom.
  Notation inherit_names := (inherit_names content bbpath ctype).
  Notation eval_from := (eval_from content bbpath ctype).
  Notation handle := (handle content bbpath ctype).
  Definition inv (st : state) : Prop := NoDup (cache st) /\ incl (cache st) dom.
  Definition grows (r : result) (st : state) : Prop := forall st', r = Done st' -> inv st' /\ length (cache st) <= length (cache st').
  Lemma inv_remember f st : inv st -> ~ In f (cache st) -> content f <> None -> inv (remember f st).
  Proof.
    intros [N I] NI C. split; cbn [remember cache].
    - rewrite <- (rev_involutive (cache st ++ [f])). apply NoDup_rev. rewrite rev_app_distr. constructor; [now rewrite <- in_rev|now apply NoDup_rev].
    - intros x X. apply in_app_iff in X. destruct X as [X|[<-|[]]]; auto.
  Qed.
  Section Handler.
    Variable h : str -> state -> result.
    Variable b : nat.
    Hypothesis h_grows : forall f st, inv st -> grows (h f st) st.
    Hypothesis h_ends : forall f st, inv st -> b + length (cache st) > length dom -> h f st <> Loops.
    Lemma names_grow names : forall st, inv st -> grows (inherit_names h names st) st.
    Proof.
      induction names as [|name names IH]; intros st I st'; cbn [Classes_Model.inherit_names]; [intros E; injection E as <-; auto|].
      destruct (lookup content bbpath ctype name) as [f|] eqn:L; [|discriminate]. destruct (mem_str f (cache st)) eqn:M; cbn [bind]; [now apply IH|].
      destruct (h f (remember f st)) as [| |st1] eqn:D; cbn [bind]; try discriminate. apply mem_str_false in M. apply lookup_found, found_exists in L. destruct L as [ss L].
      destruct (h_grows f (remember f st)) with (st' := st1) as [I1 G1]; auto; [apply inv_remember; auto; congruence|]. intros E. destruct (IH st1 I1 st' E) as [I2 G2]. split; auto. cbn in G1. rewrite app_length in G1. lia.
    Qed.
    Lemma names_end names : forall st, inv st -> S b + length (cache st) > length dom -> inherit_names h names st <> Loops.
    Proof.
      induction names as [|name names IH]; intros st I B; cbn [Classes_Model.inherit_names]; [discriminate|].
      destruct (lookup content bbpath ctype name) as [f|] eqn:L; [|discriminate]. destruct (mem_str f (cache st)) eqn:M; cbn [bind]; [now apply IH|].
      apply mem_str_false in M. apply lookup_found, found_exists in L. destruct L as [ss L].
      assert (IR : inv (remember f st)) by (apply inv_remember; auto; congruence). assert (LR : length (cache (remember f st)) = S (length (cache st))) by (cbn; rewrite app_length; cbn; lia).
      pose proof (h_ends f (remember f st) IR ltac:(lia)) as NE. destruct (h f (remember f st)) as [| |st1] eqn:D; cbn [bind]; [discriminate|congruence|].
      destruct (h_grows f (remember f st) IR st1 D) as [I1 G1]. apply IH; auto. lia.
    Qed.
    Lemma eval_grows f ss : forall k st, inv st -> grows (eval_from h f k ss st) st.
    Proof.
      induction ss as [|s ss IH]; intros k st I st'; cbn [Classes_Model.eval_from]; [intros E; injection E as <-; auto|]. destruct s as [t|t|].
      - destruct (inherit_names h (split_ws t) st) as [| |st1] eqn:D; cbn [bind]; try discriminate. destruct (names_grow (split_ws t) st I st1 D) as [I1 G1]. intros E. destruct (IH (S k) st1 I1 st' E) as [I2 G2]. split; auto. lia.
      - intros E. apply (IH (S k) (later t (log (Ran f k) st)) I st' E).
      - intros E. apply (IH (S k) (log (Ran f k) st) I st' E).
    Qed.
    Lemma eval_ends f ss : forall k st, inv st -> S b + length (cache st) > length dom -> eval_from h f k ss st <> Loops.
    Proof.
      induction ss as [|s ss IH]; intros k st I B; cbn [Classes_Model.eval_from]; [discriminate|]. destruct s as [t|t|]; try (now apply IH).
      pose proof (names_end (split_ws t) st I B) as NE. destruct (inherit_names h (split_ws t) st) as [| |st1] eqn:D; cbn [bind]; [discriminate|congruence|].
      destruct (names_grow (split_ws t) st I st1 D) as [I1 G1]. apply IH; auto. lia.
    Qed.
  End Handler.
  Lemma handle_grows n : forall f st, inv st -> grows (handle n f st) st.
  Proof.
    induction n as [|n IH]; intros f st I st'; cbn [Classes_Model.handle]; [discriminate|]. destruct (content f) as [ss|]; [|discriminate].
    destruct (eval_from (handle n) f 0 ss (log (Start f) st)) as [| |st1] eqn:D; cbn [bind]; try discriminate. intros E. injection E as <-. apply (eval_grows _ IH f ss 0 (log (Start f) st) I st1 D).
  Qed.
  Lemma handle_ends n : forall f st, inv st -> n + length (cache st) > length dom -> handle n f st <> Loops.
  Proof.
    induction n as [|n IH]; intros f st I B.
    - destruct I as [N I]. apply NoDup_incl_length in I; auto. cbn in B. lia.
    - cbn [Classes_Model.handle]. destruct (content f) as [ss|]; [|discriminate]. pose proof (eval_ends (handle n) n (handle_grows n) IH f ss 0 (log (Start f) st) I ltac:(cbn in *; lia)) as NE.
      destruct (eval_from (handle n) f 0 ss (log (Start f) st)) as [| |st1] eqn:D; cbn [bind]; congruence.
  Qed.
  Lemma each_grows n files : forall st, inv st -> grows (handle_each content bbpath ctype n files st) st.
  Proof.
    induction files as [|f files IH]; intros st I st'; cbn [handle_each]; [intros E; injection E as <-; auto|]. destruct (handle n f st) as [| |st1] eqn:D; cbn [bind]; try discriminate.
    destruct (handle_grows n f st I st1 D) as [I1 G1]. intros E. destruct (IH st1 I1 st' E). split; auto. lia.
  Qed.
  Lemma each_ends n files : forall st, inv st -> n + length (cache st) > length dom -> handle_each content bbpath ctype n files st <> Loops.
  Proof.
    induction files as [|f files IH]; intros st I B; cbn [handle_each]; [discriminate|]. pose proof (handle_ends n f st I B) as NE. destruct (handle n f st) as [| |st1] eqn:D; cbn [bind]; [discriminate|congruence|].
    destruct (handle_grows n f st I st1 D) as [I1 G1]. apply IH; auto. lia.
  Qed.

  (** *** the number of rounds *)
  Definition nd (f : str) : nat := match content f with Some ss => length (filter (fun s => match s with Defer _ => true | _ => false end) ss) | None => 0 end.
  Definition total (l : list str) : nat := list_sum (map nd l).
  Notation dtexts := (dtexts content).
  Notation dtext := (dtext content).
  Definition file_of (e : event) : str := match e with Start f => f | Ran f _ => f | End f => f end.
  Lemma about_file f e : about f e = seqb (file_of e) f.
  Proof. destruct e; reflexivity. Qed.
  Lemma count_not e E : forall K, ~ In (file_of e) K -> map (fun f => length (dtexts (filter (about f) (e :: E)))) K = map (fun f => length (dtexts (filter (about f) E))) K.
  Proof.
    intros K N. apply map_ext_in. intros f F. cbn [filter]. rewrite about_file. destruct (seqb (file_of e) f) eqn:X; auto. apply seqb_eq in X. subst f. contradiction.
  Qed.
  Lemma count_one e E : forall K, NoDup K -> In (file_of e) K ->
    list_sum (map (fun f => length (dtexts (filter (about f) (e :: E)))) K) = length (dtext e) + list_sum (map (fun f => length (dtexts (filter (about f) E))) K).
  Proof.
    induction K as [|f K IH]; intros N I; [destruct I|]. inversion N as [|? ? NI N']; subst. destruct (str_eq_dec (file_of e) f) as [<-|X].
    - cbn [map list_sum fold_right]. unfold list_sum in *. rewrite count_not by auto. cbn [filter]. rewrite about_file, seqb_refl. unfold Classes_Proofs.dtexts at 1. cbn [flat_map]. rewrite app_length. fold (dtexts (filter (about (file_of e)) E)). cbn [map fold_right]. lia.
    - destruct I as [I|I]; [congruence|]. specialize (IH N' I). cbn [map list_sum fold_right]. unfold list_sum in *. rewrite IH. cbn [filter]. rewrite about_file. rewrite (seqb_false _ _ X). cbn [map fold_right]. lia.
  Qed.
  Lemma count_all E : forall K, NoDup K -> (forall e, In e E -> In (file_of e) K) -> length (dtexts E) = list_sum (map (fun f => length (dtexts (filter (about f) E))) K).
  Proof.
    induction E as [|e E IH]; intros K N A.
    - unfold Classes_Proofs.dtexts. cbn. clear. induction K; cbn; auto.
    - rewrite count_one by (auto; apply A; now left). rewrite <- IH; auto; [|intros x X; apply A; now right]. unfold Classes_Proofs.dtexts. cbn [flat_map]. now rewrite app_length.
  Qed.
  Lemma dtexts_run f pre : forall ss, content f = Some (pre ++ ss) ->
    length (dtexts (map (Ran f) (idx (length pre) ss))) = length (filter (fun s => match s with Defer _ => true | _ => false end) ss).
  Proof.
    intros ss. revert pre. induction ss as [|s ss IH]; intros pre C; [reflexivity|]. specialize (IH (pre ++ [s])). rewrite <- app_assoc in IH. specialize (IH C). rewrite app_length in IH. cbn [length] in IH. rewrite Nat.add_1_r in IH.
    destruct s as [t|t|]; cbn [idx map filter]; auto; unfold Classes_Proofs.dtexts in *; cbn [flat_map]; rewrite app_length, IH; unfold Classes_Proofs.dtext; rewrite C, (nth_pre pre _ _ ss eq_refl); reflexivity.
  Qed.
  Lemma whole_count f es : whole content f es -> length (dtexts es) = nd f.
  Proof.
    intros (ss & C & ->). unfold nd. rewrite C. rewrite <- (dtexts_run f [] ss C). unfold Classes_Proofs.dtexts. cbn [flat_map]. change (dtext (Start f)) with (@nil str). cbn [app]. rewrite flat_map_app. cbn. now rewrite app_nil_r.
  Qed.
  Lemma sum_whole E K : NoDup K -> (forall e, In e E -> In (file_of e) K) -> (forall f, In f K -> whole content f (filter (about f) E)) -> length (dtexts E) = total K.
  Proof.
    intros N A W. rewrite (count_all E K N A). unfold total. f_equal. apply map_ext_in. intros f F. apply whole_count. auto.
  Qed.
  Lemma total_app a b : total (a ++ b) = total a + total b.
  Proof. unfold total. rewrite map_app. unfold list_sum. rewrite fold_right_app. induction (map nd a) as [|x l IH]; cbn; auto. rewrite IH. lia. Qed.
  Lemma total_incl l : NoDup l -> forall m, incl l m -> total l <= total m.
  Proof.
    induction 1 as [|x l N _ IH]; intros m I; [cbn; lia|]. assert (X : In x m) by (apply I; now left). apply in_split in X. destruct X as (a & b & ->).
    assert (I' : incl l (a ++ b)). { intros y Y. assert (Z : In y (a ++ x :: b)) by (apply I; now right). apply in_app_iff in Z. apply in_or_app. destruct Z as [Z|[<-|Z]]; auto. contradiction. }
    specialize (IH _ I'). rewrite total_app in *. change (x :: b) with ([x] ++ b). change (x :: l) with ([x] ++ l). rewrite !total_app. lia.
  Qed.
End Enough.

(** ** The queue is only appended to *)
Section Queue.
  Variable content : str -> option (list stmt).
  Variable bbpath ctype : str.
  Notation inherit_names := (inherit_names content bbpath ctype).
  Notation eval_from := (eval_from content bbpath ctype).
  Notation handle := (handle content bbpath ctype).
  Definition pre (q : list str) (st : state) : state := mkState (cache st) (q ++ queue st) (events st).
  Definition mapr (f : state -> state) (r : result) : result := match r with Done st => Done (f st) | x => x end.
  Lemma names_pre q h : (forall f st, h f (pre q st) = mapr (pre q) (h f st)) -> forall names st, inherit_names h names (pre q st) = mapr (pre q) (inherit_names h names st).
  Proof.
    intros H. induction names as [|name names IH]; intros st; cbn [Classes_Model.inherit_names]; auto. destruct (lookup content bbpath ctype name) as [f|]; auto. cbn [pre cache]. destruct (mem_str f (cache st)); cbn [bind]; [apply IH|].
    change (remember f (pre q st)) with (pre q (remember f st)). rewrite H. destruct (h f (remember f st)); cbn [bind mapr]; auto.
  Qed.
  Lemma eval_pre q h f : (forall f st, h f (pre q st) = mapr (pre q) (h f st)) -> forall ss k st, eval_from h f k ss (pre q st) = mapr (pre q) (eval_from h f k ss st).
  Proof.
    intros H. induction ss as [|s ss IH]; intros k st; cbn [Classes_Model.eval_from]; auto. destruct s as [t|t|].
    - rewrite names_pre by auto. destruct (inherit_names h (split_ws t) st); cbn [bind mapr]; auto.
    - rewrite <- IH. f_equal. unfold later, log, pre. cbn. now rewrite app_assoc.
    - rewrite <- IH. reflexivity.
  Qed.
  Lemma handle_pre q n : forall f st, handle n f (pre q st) = mapr (pre q) (handle n f st).
  Proof.
    induction n as [|n IH]; intros f st; cbn [Classes_Model.handle]; auto. destruct (content f) as [ss|]; auto. change (log (Start f) (pre q st)) with (pre q (log (Start f) st)). rewrite eval_pre by auto.
    destruct (eval_from (handle n) f 0 ss (log (Start f) st)); cbn [bind mapr]; auto.
  Qed.
  Lemma names_app h a b st : inherit_names h (a ++ b) st = bind (inherit_names h a st) (inherit_names h b).
  Proof.
    revert st. induction a as [|x a IH]; intros st; cbn [app Classes_Model.inherit_names]; auto. destruct (lookup content bbpath ctype x) as [f|]; auto. destruct (mem_str f (cache st)); cbn [bind]; auto. destruct (h f (remember f st)); cbn [bind]; auto.
  Qed.
  Notation noq := (setq []).
  (** the queue as it is when the loop starts is inherited name by name *)
  Lemma names_noq h names q st : (forall q f st, h f (pre q st) = mapr (pre q) (h f st)) -> forall st', inherit_names h names (mkState (cache st) q (events st)) = Done st' ->
    exists st1, inherit_names h names (noq st) = Done st1 /\ st' = pre q st1.
  Proof.
    intros H st' E. replace (mkState (cache st) q (events st)) with (pre q (noq st)) in E by (unfold pre, setq; cbn; now rewrite app_nil_r). rewrite (names_pre q h (H q)) in E.
    destruct (inherit_names h names (noq st)) as [| |st1]; cbn in E; try discriminate. injection E as <-. eauto.
  Qed.
  Lemma noq_done h names st : (forall q f st, h f (pre q st) = mapr (pre q) (h f st)) -> forall st1, inherit_names h names st = Done st1 -> exists st2, inherit_names h names (noq st) = Done st2 /\ cache st2 = cache st1 /\ events st2 = events st1.
  Proof.
    intros H st1 E. destruct st as [c q e]. destruct (names_noq h names q (mkState c q e) H st1 E) as (st2 & X & ->). exists st2. auto.
  Qed.
End Queue.
Lemma deferred_flat content bbpath ctype fuel : forall q q' rounds st st', queue st = q ++ q' -> deferred content bbpath ctype fuel rounds st = Done st' ->
  exists stm rounds', inherit_names content bbpath ctype (handle content bbpath ctype fuel) (flat_map split_ws q) (setq [] st) = Done stm /\
    exists q2, deferred content bbpath ctype fuel rounds' (setq (q' ++ q2) stm) = Done st'.
Proof.
  induction q as [|t q IH]; intros q' rounds st st' Q D.
  - exists (setq [] st), rounds. split; auto. exists []. rewrite app_nil_r. replace (setq q' (setq [] st)) with st; auto. destruct st. cbn in Q. now subst.
  - destruct rounds as [|n]; cbn [deferred] in D; rewrite Q in D; cbn [app] in D; try discriminate.
    destruct (inherit_names content bbpath ctype (handle content bbpath ctype fuel) (split_ws t) (mkState (cache st) (q ++ q') (events st))) as [| |st1] eqn:D1; cbn [bind] in D; try discriminate.
    destruct (names_noq content bbpath ctype _ _ _ _ (fun q => handle_pre content bbpath ctype q fuel) _ D1) as (st2 & E2 & ->).
    destruct (IH (q' ++ queue st2) n (pre (q ++ q') st2) st') as (stm & r' & E & q2 & D2); auto.
    { cbn. now rewrite <- app_assoc. }
    change (setq [] (pre (q ++ q') st2)) with (setq [] st2) in E. cbn [flat_map]. rewrite names_app, E2. cbn [bind].
    destruct st2 as [c2 qq e2]. cbn [queue] in *.
    assert (E' : inherit_names content bbpath ctype (handle content bbpath ctype fuel) (flat_map split_ws q) (mkState c2 qq e2) = Done (pre qq stm)).
    { replace (mkState c2 qq e2) with (pre qq (setq [] (mkState c2 qq e2))) by (unfold pre, setq; cbn; now rewrite app_nil_r). rewrite names_pre by (intros; apply handle_pre). now rewrite E. }
    rewrite E'. exists (pre qq stm), r'. split; auto. exists (qq ++ q2). rewrite <- app_assoc in D2. exact D2.
Qed.

(** ** One start *)
Lemma whole_start content f es : whole content f (filter (about f) es) -> forall a b, es = a ++ Start f :: b -> ~ In (Start f) a /\ ~ In (Start f) b.
Proof.
  intros (ss & _ & W) a b ->. rewrite filter_app in W. cbn [filter about] in W. rewrite seqb_refl in W.
  assert (NR : ~ In (Start f) (map (Ran f) (idx 0 ss) ++ [End f])). { rewrite in_app_iff, in_map_iff. intros [(k & K & _)|[K|[]]]; discriminate. }
  destruct (filter (about f) a) as [|x l] eqn:FA.
  - cbn in W. injection W as W. split.
    + intros I. apply (about_in f) in I; [rewrite FA in I; exact I|cbn; apply seqb_refl].
    + intros I. apply (about_in f) in I; [rewrite W in I; contradiction|cbn; apply seqb_refl].
  - cbn in W. injection W as -> W. exfalso. apply NR. rewrite <- W. apply in_or_app. right. now left.
Qed.
Lemma whole_unique content f es a b a' b' : whole content f (filter (about f) es) -> es = a ++ Start f :: b -> es = a' ++ Start f :: b' -> a = a'.
Proof.
  intros W E E'. destruct (whole_start _ _ _ W _ _ E) as [NA _]. destruct (whole_start _ _ _ W _ _ E') as [NA' _]. rewrite E in E'. clear -E' NA NA'.
  revert a' E' NA'. induction a as [|x a IH]; intros [|y a'] E NA'; auto.
  - cbn in E. injection E as <- _. exfalso. apply NA'. now left.
  - cbn in E. injection E as -> _. exfalso. apply NA. now left.
  - cbn in E. injection E as -> E. f_equal. apply IH; auto; [intros I; apply NA; now right|intros I; apply NA'; now right].
Qed.
(** ** The numbers of the statements *)
Lemma idx_in ss : forall pre k, In k (idx (length pre) ss) <-> length pre <= k /\ exists s, nth_error (pre ++ ss) k = Some s /\ forall t, s <> Inh t.
Proof.
  induction ss as [|s ss IH]; intros pre k.
  - cbn [idx]. split; [intros []|]. intros (L & s & N & _). rewrite app_nil_r in N. assert (k < length pre) by (apply nth_error_Some; congruence). lia.
  - specialize (IH (pre ++ [s]) k). rewrite <- app_assoc, app_length in IH. cbn [length app] in IH. rewrite Nat.add_1_r in IH. assert (H0 : nth_error (pre ++ s :: ss) (length pre) = Some s) by (eapply nth_pre; reflexivity).
    assert (yes : (forall t, s <> Inh t) -> (In k (length pre :: idx (S (length pre)) ss) <-> length pre <= k /\ exists s0, nth_error (pre ++ s :: ss) k = Some s0 /\ forall t, s0 <> Inh t)).
    { intros NI. cbn [In]. rewrite IH. split.
      - intros [<-|(L & X)]; [split; [lia|eauto]|split; [lia|auto]].
      - intros (L & X). destruct (Nat.eq_dec (length pre) k) as [E|E]; [now left|right; split; [lia|auto]]. }
    destruct s as [t|t|]; cbn [idx]; [|apply yes; discriminate|apply yes; discriminate]. rewrite IH. split; intros (L & s & N & X).
    + split; [lia|eauto].
    + destruct (Nat.eq_dec (length pre) k) as [E|E]; [|split; [lia|eauto]]. subst k. rewrite H0 in N. injection N as <-. now apply X in H0 || (exfalso; now apply (X t)).
Qed.
Lemma idx_sorted ss : forall n a k b, idx n ss = a ++ k :: b -> forall x, (In x a -> x < k) /\ (In x b -> k < x).
Proof.
  assert (low : forall ss n x, In x (idx n ss) -> n <= x).
  { induction ss0 as [|s ss0 IH]; intros n x I; [destruct I|]. destruct s; cbn [idx] in I; try (apply IH in I; lia); destruct I as [<-|I]; auto; apply IH in I; lia. }
  assert (gen : forall n a k b, idx n ss = a ++ k :: b -> (forall x, In x a -> x < k) /\ (forall x, In x b -> k < x)).
  { induction ss as [|s ss IH]; intros n a k b E; [destruct a; discriminate|].
    assert (yes : n :: idx (S n) ss = a ++ k :: b -> (forall x, In x a -> x < k) /\ (forall x, In x b -> k < x)).
    { intros E1. destruct a as [|y a]; cbn in E1; injection E1 as <- E1.
      - split; [intros ? []|]. intros x X. rewrite <- E1 in X. apply low in X. lia.
      - destruct (IH _ _ _ _ E1) as [A B]. split; auto. intros x [<-|X]; auto. assert (In k (idx (S n) ss)) by (rewrite E1; apply in_or_app; right; now left). apply low in H. lia. }
    destruct s; cbn [idx] in E; eauto. }
  intros n a k b E x. destruct (gen n a k b E). auto.
Qed.
Lemma whole_evaluated content f es : whole content f es -> evaluated content f es.
Proof.
  intros (ss & C & ->). exists (idx 0 ss). split; auto. split.
  - intros k. rewrite (idx_in ss [] k). cbn. unfold plain. split.
    + intros (_ & s & N & X). exists ss, s. auto.
    + intros (ss' & s & C' & N & X). rewrite C in C'. injection C' as <-. split; [lia|eauto].
  - apply idx_sorted.
Qed.

(** ** The whole *)
Section Whole.
  Variable content : str -> option (list stmt).
  Variable bbpath ctype : str.
  Notation found := (found content bbpath ctype).
  Notation inherits_at := (inherits_at content).
  Notation defers_at := (defers_at content).
  Notation needs := (needs content bbpath ctype).
  Notation below := (below content bbpath ctype).
  Notation part := (part content bbpath ctype).
  Notation whole := (whole content).
  Notation nowhere := (nowhere content bbpath ctype).
  Variable files : list str.
  Notation class_now := (class_now content bbpath ctype files).
  Notation class_of := (class_of content bbpath ctype files).
  Hypothesis files_there : forall f, In f files -> exists_file content f.
  Hypothesis files_own : forall f, In f files -> ~ class_of f.
  Hypothesis files_once : NoDup files.

  Lemma found_fun name f g : found name f -> found name g -> f = g.
  Proof. intros A B. apply lookup_found in A, B. congruence. Qed.
  Lemma below_trans f g h : below f g -> below g h -> below f h.
  Proof. induction 1; auto. intros. eapply below_next; eauto. Qed.
  Lemma now_closed f g : class_now f -> needs f g -> class_now g.
  Proof. intros (x & h & X & N & B) M. exists x, h. split; auto. split; auto. eapply below_trans; eauto. eapply below_next; eauto. constructor. Qed.
  Lemma now_class f : class_now f -> class_of f.
  Proof.
    intros (x & h & X & (i & name & I & F) & B). assert (K : class_of h) by (eapply class_file; eauto). clear -B K. induction B as [|f g h (i & name & I & F) _ IH]; auto. apply IH. eapply class_file; eauto.
  Qed.
  Lemma of_closed f g : class_of f -> needs f g -> class_of g.
  Proof. intros C (i & name & I & F). eapply class_file; eauto. Qed.
  Lemma start_ready : ready [] begin_state.
  Proof. split; intros ? []. Qed.

  (** phase one *)
  Lemma first_phase fuel st : handle_each content bbpath ctype fuel files begin_state = Done st ->
    part class_now files begin_state st (cache st) (events st) /\
    (forall f, In f files -> closed content bbpath ctype f (cache st)) /\ (forall f, In f files -> whole f (filter (about f) (events st))).
  Proof.
    intros D. destruct (each_done content bbpath ctype class_now now_closed fuel files (fun f F C => files_own f F (now_class f C)) files begin_state st) as (L & E & P & C & W & _); auto; [apply incl_refl|intros f i name g I J F; exists f, g; split; auto; split; [now exists i, name|constructor]|apply start_ready|].
    pose proof (p_cache _ _ _ _ _ _ _ _ _ P) as PC. pose proof (p_events _ _ _ _ _ _ _ _ _ P) as PE. cbn in PC, PE. subst L E. auto.
  Qed.
  Lemma files_not_classes f : In f files -> ~ class_of f.
  Proof. apply files_own. Qed.
  Lemma first_ready fuel st : handle_each content bbpath ctype fuel files begin_state = Done st -> ready [] st.
  Proof. intros D. eapply part_ready; [apply start_ready|apply (first_phase fuel st D)]. Qed.
  Lemma first_queue fuel st t : handle_each content bbpath ctype fuel files begin_state = Done st -> In t (queue st) ->
    exists f k, (In f files \/ class_now f) /\ forall name, In name (split_ws t) -> defers_at f k name.
  Proof.
    intros D I. destruct (first_phase fuel st D) as (P & _ & _). rewrite (p_queue _ _ _ _ _ _ _ _ _ P) in I. cbn in I. apply dtexts_in in I. destruct I as (f & k & ss & IE & C & N).
    exists f, k. split; [|intros name I; exists ss, t; auto]. destruct (in_dec str_eq_dec f files) as [F|F]; auto. right. apply (p_rch _ _ _ _ _ _ _ _ _ P). eapply part_ran_in; [exact P|auto|exact IE].
  Qed.
  (** both phases *)
  Record outcome (st1 st : state) (L : list str) (E : list event) : Prop := {
    o_cache : cache st = cache st1 ++ L;
    o_events : events st = events st1 ++ E;
    o_first : part class_now files begin_state st1 (cache st1) (events st1);
    o_second : part class_of [] (setq [] st1) (setq (dtexts content E) st) L E;
    o_files_whole : forall f, In f files -> whole f (filter (about f) (events st1));
    o_files_closed : forall f, In f files -> closed content bbpath ctype f (cache st1);
    o_deferred : forall t name, In t (dtexts content (events st)) -> In name (split_ws t) -> exists g, found name g /\ In g (cache st)
  }.
  Lemma parse_done fuel rounds recipe appends st : files = recipe :: appends -> parse content bbpath ctype fuel rounds recipe appends = Done st ->
    exists st1 L E, handle_each content bbpath ctype fuel files begin_state = Done st1 /\ deferred content bbpath ctype fuel rounds st1 = Done st /\ outcome st1 st L E.
  Proof.
    intros F D. unfold parse in D. rewrite <- F in D. destruct (handle_each content bbpath ctype fuel files begin_state) as [| |st1] eqn:D1; cbn [bind] in D; try discriminate.
    destruct (first_phase fuel st1 D1) as (P1 & C1 & W1). destruct (deferred_done content bbpath ctype class_of of_closed) with (fuel := fuel) (rounds := rounds) (st := st1) (st' := st) as (L & E & P2 & C2); auto.
    - intros f i name g CF DF G. eapply class_file; eauto.
    - eapply first_ready; eauto.
    - intros t name g T I G. destruct (first_queue fuel st1 t D1 T) as (f & k & [X|X] & DF); eapply class_file; eauto. right. now apply now_class.
    - exists st1, L, E. split; auto. split; auto. pose proof (p_cache _ _ _ _ _ _ _ _ _ P2) as PC. pose proof (p_events _ _ _ _ _ _ _ _ _ P2) as PE. cbn in PC, PE. constructor; auto.
      intros t name T I. apply (C2 t name); auto. rewrite PE in T. rewrite dtexts_app in T. pose proof (p_queue _ _ _ _ _ _ _ _ _ P1) as PQ. cbn in PQ. rewrite PQ. exact T.
  Qed.
  Lemma outcome_nodup st1 st L E : outcome st1 st L E -> NoDup (cache st).
  Proof.
    intros O. rewrite (o_cache _ _ _ _ O). pose proof (p_nodup _ _ _ _ _ _ _ _ _ (o_first _ _ _ _ O)) as N1. pose proof (p_nodup _ _ _ _ _ _ _ _ _ (o_second _ _ _ _ O)) as N2. pose proof (p_new _ _ _ _ _ _ _ _ _ (o_second _ _ _ _ O)) as DJ. cbn in DJ.
    clear -N1 N2 DJ. induction (cache st1) as [|x l IH]; auto. inversion N1; subst. cbn. constructor.
    - rewrite in_app_iff. intros [I|I]; [contradiction|]. apply (DJ x I). now left.
    - apply IH; auto. intros f F I. apply (DJ f F). now right.
  Qed.
  Lemma outcome_sound st1 st L E g : outcome st1 st L E -> In g (cache st) -> class_of g.
  Proof.
    intros O I. rewrite (o_cache _ _ _ _ O) in I. apply in_app_iff in I. destruct I as [I|I]; [apply now_class; now apply (p_rch _ _ _ _ _ _ _ _ _ (o_first _ _ _ _ O))|now apply (p_rch _ _ _ _ _ _ _ _ _ (o_second _ _ _ _ O))].
  Qed.
  Lemma outcome_whole st1 st L E g : outcome st1 st L E -> (In g files \/ In g (cache st)) -> whole g (filter (about g) (events st)).
  Proof.
    intros O I. rewrite (o_events _ _ _ _ O), filter_app_about. rewrite (o_cache _ _ _ _ O) in I. pose proof (o_second _ _ _ _ O) as P2. pose proof (o_first _ _ _ _ O) as P1.
    assert (NL : In g files \/ In g (cache st1) -> ~ In g L). { intros [X|X] Y; [apply (files_not_classes g X); now apply (p_rch _ _ _ _ _ _ _ _ _ P2)|]. now apply (p_new _ _ _ _ _ _ _ _ _ P2 g Y). }
    destruct I as [I|I]; [|apply in_app_iff in I; destruct I as [I|I]].
    - rewrite (p_quiet _ _ _ _ _ _ _ _ _ P2 g); auto. rewrite app_nil_r. now apply (o_files_whole _ _ _ _ O).
    - rewrite (p_quiet _ _ _ _ _ _ _ _ _ P2 g); auto. rewrite app_nil_r. now apply (p_whole _ _ _ _ _ _ _ _ _ P1).
    - rewrite (p_quiet _ _ _ _ _ _ _ _ _ P1 g).
      + now apply (p_whole _ _ _ _ _ _ _ _ _ P2).
      + intros X. now apply (p_new _ _ _ _ _ _ _ _ _ P2 g I).
      + intros X. apply (files_not_classes g X). now apply (p_rch _ _ _ _ _ _ _ _ _ P2).
  Qed.
  Lemma outcome_quiet st1 st L E g : outcome st1 st L E -> ~ In g files -> ~ In g (cache st) -> filter (about g) (events st) = [].
  Proof.
    intros O NF NC. rewrite (o_cache _ _ _ _ O), in_app_iff in NC. rewrite (o_events _ _ _ _ O), filter_app_about, (p_quiet _ _ _ _ _ _ _ _ _ (o_first _ _ _ _ O) g), (p_quiet _ _ _ _ _ _ _ _ _ (o_second _ _ _ _ O) g); auto.
  Qed.
  (** everything named in a file that is evaluated is found and evaluated *)
  Lemma outcome_closed st1 st L E f i name : outcome st1 st L E -> (In f files \/ In f (cache st)) -> (inherits_at f i name \/ defers_at f i name) -> exists g, found name g /\ In g (cache st).
  Proof.
    intros O I [J|J].
    - assert (K : closed content bbpath ctype f (cache st)).
      { rewrite (o_cache _ _ _ _ O) in *. destruct I as [I|I]; [apply closed_more; now apply (o_files_closed _ _ _ _ O)|]. apply in_app_iff in I. destruct I as [I|I]; [apply closed_more; now apply (p_closed _ _ _ _ _ _ _ _ _ (o_first _ _ _ _ O))|].
        pose proof (p_closed _ _ _ _ _ _ _ _ _ (o_second _ _ _ _ O) f I) as C. cbn in C. now rewrite (o_cache _ _ _ _ O) in C. }
      apply (K i name J).
    - destruct J as (ss & t & C & N & M). apply (o_deferred _ _ _ _ O t); auto. destruct (outcome_whole _ _ _ _ f O I) as (ss' & C' & W). rewrite C in C'. injection C' as <-.
      unfold dtexts. apply in_flat_map. exists (Ran f i). split; [|unfold dtext; rewrite C, N; now left].
      assert (X : In (Ran f i) (filter (about f) (events st))); [|apply filter_In in X; tauto]. rewrite W. right. apply in_or_app. left. apply in_map. apply (idx_in ss [] i). split; [cbn; lia|]. exists (Defer t). split; auto. discriminate.
  Qed.
  Lemma outcome_complete st1 st L E : outcome st1 st L E -> forall g, class_of g -> In g (cache st).
  Proof.
    intros O. fix IH 2. intros g C. destruct C as [f i name g F J G]. assert (I : In f files \/ In f (cache st)) by (destruct F as [F|F]; [now left|right; now apply IH]).
    destruct (outcome_closed _ _ _ _ f i name O I J) as (g' & G' & X). now rewrite (found_fun _ _ _ G G').
  Qed.
End Whole.

(** ** Events are only appended *)
Section Extend.
  Variable content : str -> option (list stmt).
  Variable bbpath ctype : str.
  Notation inherit_names := (inherit_names content bbpath ctype).
  Notation eval_from := (eval_from content bbpath ctype).
  Notation handle := (handle content bbpath ctype).
  Lemma names_extend h : (forall f s0 s1, h f s0 = Done s1 -> exists E, events s1 = events s0 ++ Start f :: E) ->
    forall names s0 s1, inherit_names h names s0 = Done s1 -> exists E, events s1 = events s0 ++ E.
  Proof.
    intros H. induction names as [|m names IH]; intros s0 s1; cbn [Classes_Model.inherit_names]; [intros X; injection X as <-; exists []; now rewrite app_nil_r|].
    destruct (lookup content bbpath ctype m) as [f|]; [|discriminate]. destruct (mem_str f (cache s0)); cbn [bind]; [apply IH|].
    destruct (h f (remember f s0)) as [| |s2] eqn:X; cbn [bind]; try discriminate. intros Y. apply H in X. destruct X as [E4 X]. apply IH in Y. destruct Y as [E5 Y]. rewrite Y, X. cbn. exists (Start f :: E4 ++ E5). now rewrite <- app_assoc.
  Qed.
  Lemma eval_extend h f : (forall f s0 s1, h f s0 = Done s1 -> exists E, events s1 = events s0 ++ Start f :: E) ->
    forall ss k s0 s1, eval_from h f k ss s0 = Done s1 -> exists E, events s1 = events s0 ++ E.
  Proof.
    intros H. induction ss as [|s ss IH]; intros k s0 s1; cbn [Classes_Model.eval_from]; [intros X; injection X as <-; exists []; now rewrite app_nil_r|]. destruct s as [t|t|].
    - destruct (inherit_names h (split_ws t) s0) as [| |s2] eqn:X; cbn [bind]; try discriminate. intros Y. apply (names_extend h H) in X. destruct X as [E4 X]. apply IH in Y. destruct Y as [E5 Y]. rewrite Y, X. exists (E4 ++ E5). now rewrite <- app_assoc.
    - intros Y. apply IH in Y. destruct Y as [E5 Y]. rewrite Y. cbn. exists (Ran f k :: E5). now rewrite <- app_assoc.
    - intros Y. apply IH in Y. destruct Y as [E5 Y]. rewrite Y. cbn. exists (Ran f k :: E5). now rewrite <- app_assoc.
  Qed.
  Lemma handle_extend n : forall f s0 s1, handle n f s0 = Done s1 -> exists E, events s1 = events s0 ++ Start f :: E.
  Proof.
    induction n as [|n IH]; intros f s0 s1; cbn [Classes_Model.handle]; [discriminate|]. destruct (content f) as [ss|]; [|discriminate].
    destruct (eval_from (handle n) f 0 ss (log (Start f) s0)) as [| |s2] eqn:X; cbn [bind]; try discriminate. intros Y. injection Y as <-. apply (eval_extend _ f IH) in X. destruct X as [E X]. cbn. rewrite X. cbn. exists (E ++ [End f]). now rewrite <- !app_assoc.
  Qed.
  Lemma deferred_extend fuel rounds : forall s0 s1, deferred content bbpath ctype fuel rounds s0 = Done s1 -> exists E, events s1 = events s0 ++ E.
  Proof.
    induction rounds as [|n IH]; intros s0 s1; cbn [deferred]; destruct (queue s0) as [|t rest]; try discriminate; try (intros X; injection X as <-; exists []; now rewrite app_nil_r).
    destruct (inherit_names (handle fuel) (split_ws t) (mkState (cache s0) rest (events s0))) as [| |s2] eqn:X; cbn [bind]; try discriminate. intros Y. apply (names_extend _ (handle_extend fuel)) in X. destruct X as [E4 X]. apply IH in Y. destruct Y as [E5 Y]. rewrite Y, X. cbn. exists (E4 ++ E5). now rewrite <- app_assoc.
  Qed.
End Extend.
(** ** Functions *)
Lemma fupd_same d k v : fupd d k v k = v.
Proof. unfold fupd. now rewrite seqb_refl. Qed.
Lemma fupd_other d k v x : x <> k -> fupd d k v x = d x.
Proof. intros N. unfold fupd. now rewrite (seqb_false _ _ N). Qed.
Lemma define_app a b d : define_all (a ++ b) d = match define_all a d with Some d' => define_all b d' | None => None end.
Proof. revert d. induction a as [|x a IH]; intros d; cbn [app define_all]; auto. destruct x as [n t py|c fs]; auto. destruct (export_each c (split_ws fs) d); auto. Qed.
Definition real (o : option str) : bool := nonempty o && negb (match o with Some t => contains_sub sentinel t | None => false end).
Lemma own_real t : own_text t -> real (Some t) = true.
Proof.
  intros [N S]. unfold real. destruct t as [|c t]; [congruence|]. cbn [nonempty andb]. destruct (contains_sub sentinel (c :: t)) eqn:E; auto. apply contains_sub_iff in E. destruct E as (a & b & E). exfalso. now apply (S a b).
Qed.
Lemma called_other c f : c ++ s_ "_" ++ f <> f.
Proof. intros E. apply (f_equal (@length ascii)) in E. rewrite !app_length in E. cbn in E. lia. Qed.
Lemma export_one_eq c f d : export_one c f d =
  (if real (body (d f)) then Some d
   else let p := python (d (c ++ s_ "_" ++ f)) in
        if negb p && existsb (aeqb "-"%char) c then None
        else Some (fupd (fupd d f (mkFunction (body (d f)) (if p then true else if nonempty (body (d f)) then false else python (d f)))) f (mkFunction (Some (call_text c f p)) (if p then true else if nonempty (body (d f)) then false else python (d f))))).
Proof.
  unfold export_one. fold (real (body (d f))). destruct (real (body (d f))); auto. cbn zeta. rewrite (fupd_other d f _ (c ++ s_ "_" ++ f)) by apply called_other. rewrite fupd_same. reflexivity.
Qed.
Lemma export_one_other c f d d' x : export_one c f d = Some d' -> x <> f -> d' x = d x.
Proof.
  rewrite export_one_eq. destruct (real (body (d f))); [congruence|]. cbn zeta. destruct (negb _ && _); [discriminate|]. intros E N. injection E as <-. now rewrite !fupd_other.
Qed.
Lemma export_each_other c fs x : forall d d', export_each c fs d = Some d' -> ~ In x fs -> d' x = d x.
Proof.
  induction fs as [|f fs IH]; intros d d' E N; cbn [export_each] in E; [congruence|]. destruct (export_one c f d) as [d1|] eqn:E1; [|discriminate].
  rewrite (IH d1 d' E) by (intros I; apply N; now right). apply (export_one_other _ _ _ _ _ E1). intros ->. apply N. now left.
Qed.
Lemma untouched h x : forall d d', define_all h d = Some d' -> (forall e, In e h -> ~ defines e x /\ ~ exports e x) -> d' x = d x.
Proof.
  induction h as [|e h IH]; intros d d' E N; cbn [define_all] in E; [congruence|]. destruct (N e (or_introl eq_refl)) as [N1 N2]. assert (N' : forall e, In e h -> ~ defines e x /\ ~ exports e x) by (intros; apply N; now right). destruct e as [n t py|c fs].
  - rewrite (IH _ _ E N'). unfold method. apply fupd_other. intros ->. apply N1. now exists t, py.
  - destruct (export_each c (split_ws fs) d) as [d1|] eqn:E1; [|discriminate]. rewrite (IH _ _ E N'). apply (export_each_other _ _ _ _ _ E1). intros I. apply N2. now exists c, fs.
Qed.
Lemma export_each_kept c fs x : forall d d', export_each c fs d = Some d' -> real (body (d x)) = true -> d' x = d x.
Proof.
  induction fs as [|f fs IH]; intros d d' E R; cbn [export_each] in E; [congruence|]. destruct (export_one c f d) as [d1|] eqn:E1; [|discriminate].
  assert (X : d1 x = d x). { destruct (str_eq_dec x f) as [->|N]; [|now apply (export_one_other _ _ _ _ _ E1)]. rewrite export_one_eq, R in E1. congruence. }
  rewrite (IH d1 d' E); [auto|now rewrite X].
Qed.
Lemma kept h x : forall d d', define_all h d = Some d' -> (forall e, In e h -> ~ defines e x) -> real (body (d x)) = true -> d' x = d x.
Proof.
  induction h as [|e h IH]; intros d d' E N R; cbn [define_all] in E; [congruence|]. pose proof (N e (or_introl eq_refl)) as N1. assert (N' : forall e, In e h -> ~ defines e x) by (intros; apply N; now right). destruct e as [n t py|c fs].
  - assert (X : method n t py d x = d x) by (unfold method; apply fupd_other; intros ->; apply N1; now exists t, py). rewrite (IH _ _ E N'); auto. now rewrite X.
  - destruct (export_each c (split_ws fs) d) as [d1|] eqn:E1; [|discriminate]. pose proof (export_each_kept _ _ _ _ _ E1 R) as X. rewrite (IH _ _ E N'); auto. now rewrite X.
Qed.
(** the flag python is not left over *)
Definition tidy (d : store) (x : str) : Prop := python (d x) = true -> nonempty (body (d x)) = true.
Lemma call_nonempty c f p : nonempty (Some (call_text c f p)) = true.
Proof. destruct p; reflexivity. Qed.
Lemma call_not_real c f p : real (Some (call_text c f p)) = false.
Proof.
  unfold real. rewrite call_nonempty. cbn [andb]. replace (contains_sub sentinel (call_text c f p)) with true; auto. symmetry. apply contains_sub_iff.
  unfold call_text. destruct p; [exists [], (s_ "    bb.build.exec_func('" ++ c ++ s_ "_" ++ f ++ s_ "', d)" ++ [newline])|exists [], (s_ "    " ++ c ++ s_ "_" ++ f ++ [newline])]; reflexivity.
Qed.
Lemma export_each_tidy c fs x : forall d d', export_each c fs d = Some d' -> tidy d x -> tidy d' x.
Proof.
  induction fs as [|f fs IH]; intros d d' E T; cbn [export_each] in E; [injection E as <-; exact T|]. destruct (export_one c f d) as [d1|] eqn:E1; [|discriminate]. apply (IH d1 d' E).
  destruct (str_eq_dec x f) as [->|N]; [|unfold tidy; now rewrite (export_one_other _ _ _ _ _ E1 N)]. rewrite export_one_eq in E1. destruct (real (body (d f))); [injection E1 as <-; auto|]. cbn zeta in E1. destruct (negb _ && _); [discriminate|]. injection E1 as <-. unfold tidy. rewrite fupd_same. intros _. apply call_nonempty.
Qed.
Lemma define_tidy h x : forall d d', define_all h d = Some d' -> never_empty h x -> tidy d x -> tidy d' x.
Proof.
  induction h as [|e h IH]; intros d d' E N T; cbn [define_all] in E; [injection E as <-; exact T|]. assert (N' : never_empty h x) by (intros t py I; apply (N t py); now right). destruct e as [n t py|c fs].
  - apply (IH _ _ E N'). unfold tidy, method. destruct (str_eq_dec x n) as [->|NE]; [|rewrite fupd_other by auto; exact T]. rewrite fupd_same. intros _. cbn. pose proof (N t py (or_introl eq_refl)). destruct t; [congruence|auto].
  - destruct (export_each c (split_ws fs) d) as [d1|] eqn:E1; [|discriminate]. apply (IH _ _ E N'). eapply export_each_tidy; eauto.
Qed.
(** a function without a definition of its own is what the last export made *)
Definition made (d : store) (x : str) : Prop := d x = mkFunction None false \/ exists c p, d x = mkFunction (Some (call_text c x p)) p.
Lemma made_not_real d x : made d x -> real (body (d x)) = false.
Proof. intros [->|(c & p & ->)]; [reflexivity|apply call_not_real]. Qed.
Lemma export_made c f d d' : made d f -> export_one c f d = Some d' -> d' f = mkFunction (Some (call_text c f (python (d (c ++ s_ "_" ++ f))))) (python (d (c ++ s_ "_" ++ f))).
Proof.
  intros M. rewrite export_one_eq, (made_not_real _ _ M). cbn zeta. destruct (negb _ && _); [discriminate|]. intros E. injection E as <-. rewrite fupd_same.
  assert (X : (if nonempty (body (d f)) then false else python (d f)) = false) by (destruct M as [->|(c' & p & ->)]; auto; cbn [body python]; now rewrite call_nonempty).
  change (c ++ "_"%char :: f) with (c ++ s_ "_" ++ f). destruct (python (d (c ++ s_ "_" ++ f))); [reflexivity|]. now rewrite X.
Qed.
Lemma export_each_made c fs x : forall d d', made d x -> export_each c fs d = Some d' -> made d' x.
Proof.
  induction fs as [|f fs IH]; intros d d' M E; cbn [export_each] in E; [injection E as <-; exact M|]. destruct (export_one c f d) as [d1|] eqn:E1; [|discriminate]. apply (IH d1 d'); auto.
  destruct (str_eq_dec x f) as [->|N]; [right; eexists _, _; eapply export_made; eauto|unfold made; now rewrite (export_one_other _ _ _ _ _ E1 N)].
Qed.
Lemma define_made h x : forall d d', made d x -> define_all h d = Some d' -> (forall e, In e h -> ~ defines e x) -> made d' x.
Proof.
  induction h as [|e h IH]; intros d d' M E N; cbn [define_all] in E; [injection E as <-; exact M|]. pose proof (N e (or_introl eq_refl)) as N1. assert (N' : forall e, In e h -> ~ defines e x) by (intros; apply N; now right). destruct e as [n t py|c fs].
  - apply (IH (method n t py d)); auto. assert (X : method n t py d x = d x) by (unfold method; apply fupd_other; intros ->; apply N1; now exists t, py). unfold made. now rewrite X.
  - destruct (export_each c (split_ws fs) d) as [d1|] eqn:E1; [|discriminate]. apply (IH d1 d'); auto. eapply export_each_made; eauto.
Qed.
Lemma export_each_last c fs x : forall d d', made d x -> In x fs -> ~ In (c ++ s_ "_" ++ x) fs -> export_each c fs d = Some d' ->
  d' x = mkFunction (Some (call_text c x (python (d (c ++ s_ "_" ++ x))))) (python (d (c ++ s_ "_" ++ x))).
Proof.
  induction fs as [|f fs IH]; intros d d' M I NI E; cbn [export_each] in E; [destruct I|]. destruct (export_one c f d) as [d1|] eqn:E1; [|discriminate].
  assert (P : d1 (c ++ s_ "_" ++ x) = d (c ++ s_ "_" ++ x)) by (apply (export_one_other _ _ _ _ _ E1); intros K; apply NI; now left).
  assert (NI' : ~ In (c ++ s_ "_" ++ x) fs) by (intros K; apply NI; now right).
  assert (M1 : made d1 x). { destruct (str_eq_dec x f) as [->|N]; [right; eexists _, _; eapply export_made; eauto|unfold made; now rewrite (export_one_other _ _ _ _ _ E1 N)]. }
  destruct (in_dec str_eq_dec x fs) as [J|J].
  - rewrite <- P. now apply IH.
  - destruct I as [->|I]; [|contradiction]. rewrite (export_each_other _ _ _ _ _ E J). now apply export_made.
Qed.
(** ** Anonymous functions *)
Lemma anon_names l : distinct_places l -> NoDup (map name_of l).
Proof.
  intros [N D]. induction l as [|[[f n] e] l IH]; cbn [map]; [constructor|]. cbn [map fst] in N. inversion N as [|? ? NI N']; subst. constructor.
  - intros I. apply in_map_iff in I. destruct I as ([[g m] e'] & E & I). cbn [name_of] in E. unfold anon_name in E. apply app_inv_head in E.
    assert (S : forall k (r : str) k' r', dec (N.of_nat k) ++ s_ "_" ++ r = dec (N.of_nat k') ++ s_ "_" ++ r' -> k = k' /\ r = r').
    { intros k r k' r' X. assert (U : forall a b u v, Forall (fun c => is_digit c = true) a -> Forall (fun c => is_digit c = true) b -> a ++ s_ "_" ++ u = b ++ s_ "_" ++ v -> a = b /\ u = v).
      { clear. induction a as [|c a IHa]; intros [|d b] u v A B X; cbn in X.
        - injection X as ->. auto.
        - injection X as <- _. inversion B; subst. discriminate.
        - injection X as -> _. inversion A; subst. discriminate.
        - injection X as -> X. inversion A; inversion B; subst. destruct (IHa b u v) as [-> ->]; auto. }
      destruct (U (dec (N.of_nat k)) (dec (N.of_nat k')) r r') as [A B]; [apply dec_spec|apply dec_spec|exact X|]. split; auto. apply dec_inj in A. lia. }
    apply S in E. destruct E as [-> E]. assert (f = g) by (eapply (D f g n n e e'); [now left|now right|auto]). subst g. apply NI. apply in_map_iff. exists (f, n, e'). auto.
  - apply IH; auto. intros x y lx ly ex ey X Y. apply (D x y lx ly ex ey); now right.
Qed.
Lemma defined_once l : NoDup (map name_of l) -> forall a, In a l -> defined l (name_of a) = Some (snd a).
Proof.
  induction l as [|b l IH]; intros N a I; [destruct I|]. cbn [map] in N. inversion N as [|? ? NI N']; subst. cbn [defined]. destruct I as [->|I].
  - assert (X : forall k, ~ In (name_of a) (map name_of k) -> defined k (name_of a) = None).
    { induction k as [|c k IHk]; intros K; cbn [defined]; auto. rewrite IHk by (intros J; apply K; now right). rewrite (seqb_false (name_of c)); auto. intros J. apply K. left. auto. }
    rewrite X by auto. now rewrite seqb_refl.
  - now rewrite (IH N' a I).
Qed.
