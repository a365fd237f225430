From Coq Require Import String Ascii List Bool Arith Lia Permutation.
From Verif Require Import Str_Model Str_Proofs Fetch_Model Fetch_Spec.
Import ListNotations.
Open Scope list_scope.

Lemma opt_eqb_eq : forall a b, opt_eqb a b = true <-> a = b.
Proof.
  intros [a|] [b|]; cbn; try (split; [discriminate|congruence]); try (split; reflexivity).
  rewrite seqb_eq. split; congruence.
Qed.
Lemma sums_eqb_eq : forall a b, sums_eqb a b = true <-> forall i, a i = b i.
Proof.
  intros a b. unfold sums_eqb. rewrite forallb_forall. split.
  - intros X i. apply opt_eqb_eq, X. destruct i; cbn; tauto.
  - intros X i _. apply opt_eqb_eq, X.
Qed.
Lemma in_ids : forall i, In i ids.
Proof. destruct i; cbn; tauto. Qed.

Section Sum.
Variable H : cid -> str -> str.
Hypothesis Hne : forall i c, H i c <> [].
Variable cf : cfg.

Lemma want_some : forall i x, want cf i = Some x <-> expected cf i = Some x /\ x <> [].
Proof.
  intros i x. unfold want. destruct (expected cf i) as [[|a y]|].
  - split; [discriminate|]. intros [E N]. congruence.
  - split; [intros E; split; [exact E|]; intros ->; discriminate|tauto].
  - split; [discriminate|intros [E _]; discriminate].
Qed.
Definition none_stated : bool := forallb (fun i => match want cf i with None => true | Some _ => false end) ids.
Lemma none_stated_spec : none_stated = true <-> nothing_stated cf.
Proof.
  unfold none_stated, nothing_stated. rewrite forallb_forall. split.
  - intros X i x E. specialize (X i (in_ids i)). destruct x as [|a x]; [reflexivity|].
    assert (W : want cf i = Some (a :: x)) by (apply want_some; split; [exact E|discriminate]). rewrite W in X. discriminate.
  - intros X i _. destruct (want cf i) as [x|] eqn:W; [|reflexivity]. apply want_some in W. destruct W as [E N]. now apply X in E.
Qed.
Lemma nothing_good : forall c, nothing_stated cf -> good H cf c.
Proof. intros c N i x E NE. now apply N in E. Qed.

(** What verify_checksum does, when what it is given is true *)
Lemma verify_spec : forall fatal pre c, (forall i x, pre i = Some x -> x = H i c) ->
  match verify_checksum H cf false fatal pre c with
  | inl r => good H cf c /\ (forall i, r i = Some (H i c)) /\ ~ (fatal = true /\ nothing_stated cf /\ strict cf = Some (s_ "1"))
  | inr (EMismatch x) => ~ good H cf c
  | inr e => e = ENoSum /\ fatal = true /\ nothing_stated cf /\ strict cf = Some (s_ "1")
  end.
Proof.
  intros fatal pre c P.
  set (data := fun i => match pre i with Some x => x | None => H i c end).
  assert (D : forall i, data i = H i c).
  { intros i. unfold data. destruct (pre i) as [x|] eqn:E; [|reflexivity]. now apply P. }
  set (wrong := filter (fun i => match want cf i with Some e => negb (seqb e (data i)) | None => false end) ids).
  assert (S0 := none_stated_spec).
  replace (verify_checksum H cf false fatal pre c) with
    (if fatal && none_stated && opt_eqb (strict cf) (Some (s_ "1")) then inr ENoSum else
     if fatal && none_stated && opt_eqb (strict cf) (Some (s_ "ignore")) then inl (fun i => Some (data i)) else
     match rev wrong with
     | i :: _ => match data i with [] => inl (fun i => Some (data i)) | x => inr (EMismatch x) end
     | [] => inl (fun i => Some (data i))
     end : sums + exc) by reflexivity.
  assert (W : forall i, In i wrong <-> exists e, want cf i = Some e /\ e <> H i c).
  { intros i. unfold wrong. rewrite filter_In. split.
    - intros [_ X]. destruct (want cf i) as [e|] eqn:E; [|discriminate]. exists e. split; [reflexivity|].
      rewrite D in X. apply negb_true_iff, seqb_neq in X. exact X.
    - intros (e & E & N). split; [apply in_ids|]. rewrite E, D. apply negb_true_iff, seqb_neq. exact N. }
  destruct (fatal && none_stated && opt_eqb (strict cf) (Some (s_ "1"))) eqn:A.
  { apply andb_true_iff in A. destruct A as [A B]. apply andb_true_iff in A. destruct A as [A A2].
    apply opt_eqb_eq in B. split; [reflexivity|]. split; [exact A|]. split; [now apply S0|exact B]. }
  assert (NA : ~ (fatal = true /\ nothing_stated cf /\ strict cf = Some (s_ "1"))).
  { intros (X & Y & Z). apply S0 in Y. rewrite X, Y, Z in A. discriminate. }
  destruct (fatal && none_stated && opt_eqb (strict cf) (Some (s_ "ignore"))) eqn:B.
  { apply andb_true_iff in B. destruct B as [B _]. apply andb_true_iff in B. destruct B as [_ B].
    split; [apply nothing_good; now apply S0|]. split; [intros i; exact (f_equal Some (D i))|exact NA]. }
  destruct (rev wrong) as [|i rw] eqn:R.
  - split; [|split; [intros i; exact (f_equal Some (D i))|exact NA]]. intros i x E N.
    destruct (str_eq_dec (H i c) x) as [X|X]; [exact X|]. exfalso.
    assert (I : In i wrong) by (apply W; exists x; split; [now apply want_some|congruence]).
    apply in_rev in I. rewrite R in I. destruct I.
  - assert (I : In i wrong) by (apply in_rev; rewrite R; now left). apply W in I. destruct I as (e & E & N).
    assert (NE : data i <> []) by (rewrite D; apply Hne).
    destruct (data i) as [|a x] eqn:DD; [congruence|].
    intros G. apply want_some in E. destruct E as [E1 E2]. apply N. symmetry. now apply G.
Qed.
Lemma no_sums_true : forall c i x, no_sums i = Some x -> x = H i c.
Proof. discriminate. Qed.

(** The file is there, has what is stated, and the stamp says so *)
Definition full (s : st) : Prop := exists c m r t, content s = Some (c, m) /\ stamp s = Some (r, t) /\ (forall i, r i = Some (H i c)) /\ good H cf c /\
  ~ (nothing_stated cf /\ strict cf = Some (s_ "1")).
Lemma full_honest : forall s, full s -> honest H s.
Proof.
  intros s (c & m & r & t & C & S & R & _) c' m' l t' C' S' _ i x L. rewrite C in C'. rewrite S in S'.
  injection C' as <- <-. injection S' as <- <-. rewrite R in L. now injection L.
Qed.
Lemma none_honest : forall s, stamp s = None -> honest H s.
Proof. intros s S c m l t C S'. congruence. Qed.
Lemma drop_bad_stamp : forall x s, stamp (drop_bad cf x s) = None.
Proof. reflexivity. Qed.

Lemma vd_spec : forall s, honest H s ->
  match verify_donestamp H cf false s with
  | (s', inl true) => full s' /\ content s' = content s /\ file s' = file s /\ lm s' = lm s
  | (s', inl false) => stamp s' = None /\ (content s = None -> s' = set_stamp None s) /\ (forall c m, content s = Some (c, m) -> ~ good H cf c)
  | (s', inr e) => e = ENoSum /\ s' = s /\ nothing_stated cf /\ strict cf = Some (s_ "1") /\ content s <> None
  end.
Proof.
  intros s HO. unfold verify_donestamp. destruct (content s) as [[c m]|] eqn:C.
  2: { split; [reflexivity|]. split; [reflexivity|]. intros c m X. discriminate. }
  set (pre := match stamp s with Some (l, t) => if m <? t then l else no_sums | None => no_sums end).
  assert (P : forall i x, pre i = Some x -> x = H i c).
  { intros i x E. unfold pre in E. destruct (stamp s) as [[l t]|] eqn:S; [|discriminate].
    destruct (m <? t) eqn:T; [|discriminate]. apply Nat.ltb_lt in T. now apply (HO c m l t C S T). }
  assert (V := verify_spec true pre c P). destruct (verify_checksum H cf false true pre c) as [r|e].
  - destruct V as (G & R & N). assert (N' : ~ (nothing_stated cf /\ strict cf = Some (s_ "1"))) by tauto.
    destruct (sums_eqb r pre) eqn:E.
    + split; [|split; [exact C|split; reflexivity]]. rewrite sums_eqb_eq in E. unfold pre in E.
      destruct (stamp s) as [[l t]|] eqn:S; [|exfalso; specialize (E MD5); rewrite R in E; discriminate].
      destruct (m <? t) eqn:T; [|exfalso; specialize (E MD5); rewrite R in E; discriminate].
      exists c, m, l, t. split; [exact C|]. split; [exact S|]. split; [intros i; now rewrite <- E|]. now split.
    + split; [|split; [exact C|split; reflexivity]]. exists c, m, r, (clock cf).
      split; [exact C|]. split; [reflexivity|]. split; [exact R|]. now split.
  - destruct e as [x| | | | | |]; try (destruct V as (E & _ & N & S); try discriminate E).
    + split; [reflexivity|]. split; [discriminate|]. intros c' m' X. injection X as <- <-. exact V.
    + split; [reflexivity|]. split; [reflexivity|]. split; [exact N|]. split; [exact S|discriminate].
Qed.
Lemma vd_mirror : forall s, stamp s = None -> verify_donestamp H cf true s = (s, inl (here s)).
Proof.
  intros s S. unfold verify_donestamp, here. destruct (content s) as [[c m]|] eqn:C.
  - rewrite S. cbn [verify_checksum]. change (sums_eqb no_sums no_sums) with true. reflexivity.
  - destruct s as [f sm b l]. cbn in S. subst sm. reflexivity.
Qed.
Lemma upd_none : forall s, stamp s = None ->
  match update_stamp H cf s with
  | (s', inl _) => full s' /\ content s' = content s /\ file s' = file s /\ lm s' = lm s
  | (s', inr e) => stamp s' = None /\
      ((exists x, e = EMismatch x /\ forall c m, content s = Some (c, m) -> ~ good H cf c) \/
       (e = EIO /\ content s = None /\ s' = s) \/ (e = ENoSum /\ nothing_stated cf /\ strict cf = Some (s_ "1") /\ s' = s))
  end.
Proof.
  intros s S. unfold update_stamp. rewrite S. destruct (content s) as [[c m]|] eqn:C; [|split; [exact S|tauto]].
  assert (V := verify_spec true no_sums c (no_sums_true c)). destruct (verify_checksum H cf false true no_sums c) as [r|e].
  - destruct V as (G & R & N). split; [|split; [exact C|split; reflexivity]]. exists c, m, r, (clock cf). split; [exact C|].
    split; [reflexivity|]. split; [exact R|]. split; [exact G|tauto].
  - destruct e as [x| | | | | |]; try (destruct V as (E & _ & N & T); try discriminate E).
    + split; [reflexivity|]. left. exists x. split; [reflexivity|]. intros c' m' X. injection X as <- <-. exact V.
    + split; [exact S|]. tauto.
Qed.
Lemma upd_full : forall s, full s -> exists s', update_stamp H cf s = (s', inl tt) /\ full s' /\ content s' = content s /\ file s' = file s /\ lm s' = lm s.
Proof.
  intros s (c & m & r & t & C & S & R & G & N). unfold update_stamp. rewrite S. eexists. split; [reflexivity|].
  split; [|split; [reflexivity|split; reflexivity]]. exists c, m, r, (clock cf). split; [exact C|]. split; [reflexivity|].
  split; [exact R|]. now split.
Qed.
Lemma wget_stamp : forall ig nn o s, stamp (fst (wget H cf ig nn o s)) = stamp s.
Proof.
  intros ig nn o s. unfold wget. destruct nn; [reflexivity|]. destruct o as [c m| | |]; try reflexivity.
  destruct (verify_checksum H cf ig false no_sums c); [|reflexivity]. destruct c; reflexivity.
Qed.

Definition after_mirror (r : st * (bool + exc)) : Prop :=
  match r with
  | (s', inl true) => (stamp s' = None /\ here s' = true) \/ full s'
  | (s', inl false) => stamp s' = None
  | (s', inr e) => stamp s' = None /\ (e = ENet \/ e = EIO \/ e = ENoSum)
  end.
Lemma rename_bad_stamp : forall x s, stamp (rename_bad cf x s) = stamp s.
Proof. intros x s. unfold rename_bad. destruct (file s); [|reflexivity]. now destruct (movable cf). Qed.
Lemma mirror_spec : forall nn m s, stamp s = None -> after_mirror (try_mirror_url H cf nn m s).
Proof.
  intros nn [o|n] s S; cbn [try_mirror_url].
  - unfold catch, bind. rewrite (vd_mirror s S). cbn [get]. unfold get at 1.
    unfold when. destruct (negb (here s) || negb (here s)) eqn:E.
    + assert (W := wget_stamp true nn o s). destruct (wget H cf true nn o s) as [s' [[]|e]] eqn:G; cbn [fst] in W; rewrite S in W.
      * unfold get. cbn [after_mirror]. destruct (here s') eqn:HS; cbn; [left; now split|exact W].
      * destruct e; cbn; try (split; [exact W|tauto]); try exact W.
        unfold modify. cbn. destruct (here s'); [|exact W]. now rewrite rename_bad_stamp.
    + unfold ret, get. apply orb_false_iff in E. destruct E as [E _]. apply negb_false_iff in E. cbn [after_mirror]. rewrite E. cbn. left. now split.
  - unfold bind at 1, get. destruct (lm s n) as [p|] eqn:L; [|cbn; exact S].
    unfold bind, modify, catch. set (s1 := ensure_symlink n s).
    assert (S1 : stamp s1 = None) by (unfold s1, ensure_symlink; destruct (here s); exact S).
    assert (U := upd_none s1 S1). destruct (update_stamp H cf s1) as [s2 [u|e]].
    + cbn. right. apply U.
    + destruct U as [S2 U]. destruct e; cbn; try exact S2; try (split; [exact S2|tauto]).
      unfold rename_mirror. destruct (lm s2 n) as [[c m]|]; [|exact S2]. destruct (movable cf); exact S2.
Qed.
Lemma mirrors_spec : forall nn ms s, stamp s = None -> after_mirror (try_mirrors H cf nn ms s).
Proof.
  intros nn. induction ms as [|m ms IH]; intros s S; cbn [try_mirrors]; [exact S|].
  unfold bind. assert (M1 := mirror_spec nn m s S). destruct (try_mirror_url H cf nn m s) as [s' [[|]|e]]; cbn in M1 |- *.
  - exact M1.
  - now apply IH.
  - exact M1.
Qed.

Definition ok_result (r : st * (unit + exc)) : Prop :=
  match r with (s', inl _) => full s' | (s', inr _) => honest H s' end.
Lemma finish_spec : forall s (done : bool), (done = true -> (stamp s = None /\ here s = true) \/ full s) -> (done = false -> stamp s = None) ->
  ok_result (bind (get here) (fun h => if negb done || negb h then raise EFetch else update_stamp H cf) s).
Proof.
  intros s done D1 D2. unfold bind, get. destruct done; cbn [negb orb].
  - destruct (D1 eq_refl) as [[S HS]|F].
    + rewrite HS. cbn [negb]. assert (U := upd_none s S). destruct (update_stamp H cf s) as [s' [u|e]]; cbn.
      * apply U.
      * apply none_honest. apply U.
    + destruct F as (c & m & r & t & C & R). assert (HS : here s = true) by (unfold here; now rewrite C). rewrite HS. cbn [negb].
      destruct (upd_full s) as (s' & E & F & _); [exists c, m, r, t; now split|]. rewrite E. exact F.
  - cbn. apply none_honest. now apply D2.
Qed.
Lemma upstream_spec : forall nn up mirrors s, stamp s = None ->
  match catch (bind (if trusted cf then ret tt else raise EUntrusted) (fun _ => bind (wget H cf false nn up) (fun _ => bind (update_stamp H cf) (fun _ => ret true))))
            (fun e => match e with
                      | ENet | EIO | EStale | ENoSum => raise e
                      | EMismatch x =>
                          bind (modify (fun s => if here s then rename_bad cf x s else s)) (fun _ =>
                          bind (when true (modify (set_file None))) (fun _ => try_mirrors H cf nn mirrors))
                      | EFetch | EUntrusted => bind (when true (modify (set_file None))) (fun _ => try_mirrors H cf nn mirrors)
                      end) s with
  | (s', inl true) => (stamp s' = None /\ here s' = true) \/ full s'
  | (s', inl false) => stamp s' = None
  | (s', inr e) => stamp s' = None
  end.
Proof.
  intros nn up mirrors s S. unfold catch.
  assert (X : match bind (if trusted cf then ret tt else raise EUntrusted) (fun _ => bind (wget H cf false nn up) (fun _ => bind (update_stamp H cf) (fun _ => ret true))) s with
              | (s', inl b) => b = true /\ full s' | (s', inr _) => stamp s' = None end).
  { unfold bind. destruct (trusted cf); [|exact S]. unfold ret at 1. assert (W := wget_stamp false nn up s).
    destruct (wget H cf false nn up s) as [s1 [[]|e]]; cbn [fst] in W; rewrite S in W; [|exact W].
    assert (U := upd_none s1 W). destruct (update_stamp H cf s1) as [s2 [u|e]]; [split; [reflexivity|apply U]|apply U]. }
  destruct (bind _ _ s) as [s1 [b|e]].
  - destruct X as [-> F]. now right.
  - assert (MS : forall s2, stamp s2 = None -> match try_mirrors H cf nn mirrors s2 with
        | (s', inl true) => (stamp s' = None /\ here s' = true) \/ full s' | (s', inl false) => stamp s' = None | (s', inr e) => stamp s' = None end).
    { intros s2 S2. assert (Y := mirrors_spec nn mirrors s2 S2). destruct (try_mirrors H cf nn mirrors s2) as [s' [[|]|e']]; cbn in Y; tauto. }
    destruct e; try exact X; unfold bind, when, modify; apply MS; cbn; try exact X.
    destruct (here s1); [now rewrite rename_bad_stamp|exact X].
Qed.
Lemma bind_assoc_run : forall A B (x : M A) (f : A -> M B) s s' a, x s = (s', inl a) -> bind x f s = f a s'.
Proof. intros A B x f s s' a E. unfold bind. now rewrite E. Qed.
Lemma bind_raise_run : forall A B (x : M A) (f : A -> M B) s s' e, x s = (s', inr e) -> bind x f s = (s', inr e).
Proof. intros A B x f s s' e E. unfold bind. now rewrite E. Qed.

(** The state after the premirrors *)
Definition pre_part (pre : list mirror) (v h : bool) : M bool :=
  if v && h then ret true else
        bind (try_mirrors H cf (no_network cf) pre) (fun d =>
          if d then catch (bind (update_stamp H cf) (fun _ => ret true)) (fun e => match e with EMismatch _ => ret false | _ => raise e end)
          else ret false).
Lemma pre_spec : forall pre s v, (v = true -> full s) -> (v = false -> stamp s = None) ->
  match pre_part pre v (here s) s with
  | (s', inl true) => full s' | (s', inl false) => stamp s' = None | (s', inr e) => honest H s' end.
Proof.
  intros pre s v V1 V2. unfold pre_part. destruct v; cbn [andb].
  - assert (F := V1 eq_refl). assert (HS : here s = true) by (destruct F as (c & m & r & t & C & _); unfold here; now rewrite C).
    rewrite HS. exact F.
  - unfold bind. assert (Y := mirrors_spec (no_network cf) pre s (V2 eq_refl)).
    destruct (try_mirrors H cf (no_network cf) pre s) as [s1 [[|]|e]]; cbn in Y.
    + unfold catch. destruct Y as [[S1 _]|F].
      * assert (U := upd_none s1 S1). destruct (update_stamp H cf s1) as [s2 [u|e]]; [apply U|]. destruct U as [S2 U].
        destruct e; cbn; try (now apply none_honest). exact S2.
      * destruct (upd_full s1 F) as (s2 & E & F2 & _). rewrite E. exact F2.
    + exact Y.
    + apply none_honest. apply Y.
Qed.
Definition post_part (up : outcome) (mirrors : list mirror) (done : bool) : M unit :=
  let no_net := no_network cf || premirror_only cf in
  bind (if done then verify_donestamp H cf false else ret false) (fun verified => bind (get here) (fun h =>
  bind (if negb done && (negb verified || negb h) then
          catch (bind (if trusted cf then ret tt else raise EUntrusted) (fun _ => bind (wget H cf false no_net up) (fun _ => bind (update_stamp H cf) (fun _ => ret true))))
            (fun e => match e with
                      | ENet | EIO | EStale | ENoSum => raise e
                      | EMismatch x =>
                          bind (modify (fun s => if here s then rename_bad cf x s else s)) (fun _ =>
                          bind (when (negb verified) (modify (set_file None))) (fun _ => try_mirrors H cf no_net mirrors))
                      | EFetch | EUntrusted => bind (when (negb verified) (modify (set_file None))) (fun _ => try_mirrors H cf no_net mirrors)
                      end)
        else ret done) (fun done => bind (get here) (fun h =>
  if negb done || negb h then raise EFetch else update_stamp H cf)))).
Lemma download_parts : forall pre up mirrors s,
  download_one H cf pre up mirrors s =
  bind (verify_donestamp H cf false) (fun v => bind (get here) (fun h => bind (pre_part pre v h) (post_part up mirrors))) s.
Proof. reflexivity. Qed.
(** A file that is there and verified needs nothing more *)
Lemma post_done : forall up mirrors s, full s ->
  exists s', post_part up mirrors true s = (s', inl tt) /\ full s' /\ content s' = content s /\ file s' = file s /\ lm s' = lm s.
Proof.
  intros up mirrors s F. unfold post_part. unfold bind at 1. assert (V := vd_spec s (full_honest s F)).
  destruct F as (c & m & r & t & C & S & R & G & N).
  destruct (verify_donestamp H cf false s) as [s1 [[|]|e]].
  - destruct V as (F1 & E1 & E2 & E3). cbn [get]. unfold bind at 1, get. cbn [negb andb]. unfold bind at 1, ret.
    assert (HS : here s1 = true) by (unfold here; now rewrite E1, C). unfold bind, get. rewrite HS. cbn [negb orb].
    destruct (upd_full s1 F1) as (s2 & E & F2 & A1 & A2 & A3). exists s2. rewrite E. split; [reflexivity|]. split; [exact F2|]. split; [congruence|]. split; congruence.
  - destruct V as (_ & _ & B). now destruct (B c m C).
  - destruct V as (_ & _ & A & B & _). tauto.
Qed.
Lemma post_not_done : forall up mirrors s, stamp s = None -> ok_result (post_part up mirrors false s).
Proof.
  intros up mirrors s S. unfold post_part. unfold bind at 1, ret at 1. unfold bind at 1. unfold get at 1. cbn [negb andb orb].
  assert (U := upstream_spec (no_network cf || premirror_only cf) up mirrors s S). unfold bind at 1.
  destruct (catch _ _ s) as [s1 [b|e]].
  - destruct b; apply finish_spec; try discriminate; intros _; exact U.
  - cbn. now apply none_honest.
Qed.
Lemma download_spec : forall pre up mirrors s, honest H s -> ok_result (download_one H cf pre up mirrors s).
Proof.
  intros pre up mirrors s HO. rewrite download_parts. unfold bind at 1. assert (V := vd_spec s HO).
  destruct (verify_donestamp H cf false s) as [s1 [v|e]].
  2: { cbn. destruct V as (_ & -> & _). exact HO. }
  unfold bind at 1. unfold get at 1. unfold bind at 1.
  assert (P : match pre_part pre v (here s1) s1 with
              | (s', inl true) => full s' | (s', inl false) => stamp s' = None | (s', inr e) => honest H s' end).
  { apply pre_spec; intros ->; apply V. }
  destruct (pre_part pre v (here s1) s1) as [s2 [[|]|e]].
  - destruct (post_done up mirrors s2 P) as (s3 & E & F & _). rewrite E. exact F.
  - now apply post_not_done.
  - exact P.
Qed.
End Sum.

(** * When a download succeeds *)
Section Live.
Variable H : cid -> str -> str.
Hypothesis Hne : forall i c, H i c <> [].
Variable cf : cfg.
Hypothesis Stated : ~ (nothing_stated cf /\ strict cf = Some (s_ "1")).

Lemma mirror_raises : forall m s s' e, stamp s = None -> try_mirror_url H cf false m s = (s', inr e) -> m = Server DiskError.
Proof.
  intros [o|n] s s' e S E; cbn [try_mirror_url] in E.
  - unfold catch, bind in E. rewrite (vd_mirror H cf s S) in E. unfold get at 1 in E. unfold when in E.
    destruct (negb (here s) || negb (here s)) eqn:N.
    + unfold wget in E. destruct o as [c m| | |].
      * cbn [verify_checksum] in E. destruct c; cbn in E; discriminate.
      * cbn in E. discriminate.
      * reflexivity.
      * cbn in E. discriminate.
    + unfold ret, get in E. discriminate.
  - exfalso. unfold bind at 1, get in E. destruct (lm s n) as [p|] eqn:L; [|discriminate E].
    unfold bind, modify, catch in E. set (s1 := ensure_symlink n s) in *.
    assert (S1 : stamp s1 = None) by (unfold s1, ensure_symlink; destruct (here s); exact S).
    assert (C1 : content s1 <> None).
    { unfold s1, ensure_symlink. destruct (here s) eqn:HS; [unfold here in HS; intros X; rewrite X in HS; discriminate|]. cbn. rewrite L. discriminate. }
    assert (U := upd_none H Hne cf s1 S1). destruct (update_stamp H cf s1) as [s2 [u|x]]; [discriminate|].
    destruct U as [S2 [(y & -> & _)|[(-> & X & _)|(-> & X)]]]; [discriminate E|tauto|tauto].
Qed.
Lemma mirrors_raise : forall ms s s' e, stamp s = None -> try_mirrors H cf false ms s = (s', inr e) -> In (Server DiskError) ms.
Proof.
  induction ms as [|m ms IH]; intros s s' e S E; cbn [try_mirrors] in E; [discriminate|]. unfold bind in E.
  assert (A := mirror_spec H Hne cf false m s S). destruct (try_mirror_url H cf false m s) as [s1 [[|]|x]] eqn:X.
  - discriminate.
  - right. now apply (IH s1 s' e).
  - left. now apply (mirror_raises m s s1 x).
Qed.
Lemma upd_good : forall s c m, stamp s = None -> content s = Some (c, m) -> good H cf c ->
  exists s', update_stamp H cf s = (s', inl tt) /\ full H cf s' /\ content s' = Some (c, m).
Proof.
  intros s c m S C G. assert (U := upd_none H Hne cf s S). destruct (update_stamp H cf s) as [s2 [[]|x]].
  - exists s2. split; [reflexivity|]. split; [apply U|]. rewrite <- C. apply U.
  - destruct U as [_ [(y & _ & X)|[(_ & X & _)|(_ & X & Y & _)]]]; [now destruct (X c m C)|congruence|tauto].
Qed.
Lemma wget_good : forall ig c m s, c <> [] -> good H cf c -> wget H cf ig false (Got c m) s = (set_file (Some (Real c m)) s, inl tt).
Proof.
  intros ig c m s N G. unfold wget. assert (V : exists r, verify_checksum H cf ig false no_sums c = inl r).
  { destruct ig; [now exists no_sums|]. assert (V := verify_spec H Hne cf false no_sums c (no_sums_true H c)).
    destruct (verify_checksum H cf false false no_sums c) as [r|e]; [now exists r|].
    destruct e as [x| | | | | |]; try (destruct V as (_ & X & _); discriminate). tauto. }
  destruct V as [r ->]. destruct c; [congruence|reflexivity].
Qed.
Lemma post_good : forall c m mirrors s, stamp s = None -> no_network cf = false -> premirror_only cf = false -> trusted cf = true ->
  c <> [] -> good H cf c -> exists s', post_part H cf (Got c m) mirrors false s = (s', inl tt) /\ content s' = Some (c, m).
Proof.
  intros c m mirrors s S N1 N2 T NE G. unfold post_part. unfold bind at 1, ret at 1. unfold bind at 1. unfold get at 1. cbn [negb andb orb].
  unfold bind at 1. unfold catch. rewrite T, N1, N2. cbn [orb]. unfold bind at 1, ret at 1. unfold bind at 1.
  rewrite (wget_good false c m s NE G). unfold bind at 1.
  destruct (upd_good (set_file (Some (Real c m)) s) c m S eq_refl G) as (s1 & E & F & C). rewrite E. unfold ret at 1.
  unfold bind, get, here. rewrite C. cbn [negb orb]. destruct (upd_full H cf s1 F) as (s2 & E2 & _ & C2 & _).
  exists s2. split; [exact E2|rewrite C2; exact C].
Qed.
Lemma live : forall pre c m mirrors s, honest H s -> no_network cf = false -> premirror_only cf = false -> trusted cf = true ->
  c <> [] -> good H cf c -> ~ In (Server DiskError) pre ->
  exists s', download_one H cf pre (Got c m) mirrors s = (s', inl tt).
Proof.
  intros pre c m mirrors s HO N1 N2 T NE G Q. rewrite download_parts. unfold bind at 1. assert (V := vd_spec H Hne cf s HO).
  destruct (verify_donestamp H cf false s) as [s1 [v|e]]; [|tauto].
  unfold bind at 1. unfold get at 1. unfold bind at 1.
  assert (P := pre_spec H Hne cf pre s1 v). assert (V1 : v = true -> full H cf s1) by (intros ->; apply V).
  assert (V2 : v = false -> stamp s1 = None) by (intros ->; apply V). specialize (P V1 V2).
  destruct (pre_part H cf pre v (here s1) s1) as [s2 [[|]|e]] eqn:PE.
  - destruct (post_done H Hne cf (Got c m) mirrors s2 P) as (s3 & E & _). now exists s3.
  - destruct (post_good c m mirrors s2 P N1 N2 T NE G) as (s3 & E & _). now exists s3.
  - exfalso. unfold pre_part in PE. destruct (v && here s1) eqn:VH; [discriminate|].
    assert (VF : v = false).
    { destruct v; [|reflexivity]. destruct (V1 eq_refl) as (c' & m' & r' & t' & C' & _). unfold here in VH. rewrite C' in VH. discriminate. }
    unfold bind in PE. rewrite N1 in PE. assert (Y := mirrors_spec H Hne cf false pre s1 (V2 VF)).
    destruct (try_mirrors H cf false pre s1) as [s3 [[|]|x]] eqn:TM.
    + unfold catch in PE. cbn in Y. destruct Y as [[S3 H3]|F].
      * assert (U := upd_none H Hne cf s3 S3). destruct (update_stamp H cf s3) as [s4 [u|x]]; [discriminate|].
        destruct U as [_ [(y & -> & _)|[(_ & X & _)|(_ & X & X2 & _)]]]; [discriminate| |tauto].
        unfold here in H3. rewrite X in H3. discriminate.
      * destruct (upd_full H cf s3 F) as (s4 & E & _). rewrite E in PE. discriminate.
    + discriminate.
    + apply Q. exact (mirrors_raise pre s1 s3 x (V2 VF) TM).
Qed.
Lemma first_premirror : forall c m pre up mirrors s, content s = None -> no_network cf = false -> c <> [] -> good H cf c ->
  exists s', download_one H cf (Server (Got c m) :: pre) up mirrors s = (s', inl tt) /\ content s' = Some (c, m).
Proof.
  intros c m pre up mirrors s C N NE G. rewrite download_parts. unfold bind at 1. unfold verify_donestamp at 1. rewrite C.
  set (s1 := set_stamp None s). unfold bind at 1. unfold get at 1. unfold bind at 1.
  assert (H1 : here s1 = false) by (unfold here, s1, content in *; cbn in *; now rewrite C).
  assert (S1 : stamp s1 = None) by reflexivity.
  unfold pre_part. rewrite H1. cbn [andb]. unfold bind at 1. cbn [try_mirrors]. unfold bind at 1. cbn [try_mirror_url].
  unfold catch. unfold bind at 1. rewrite (vd_mirror H cf s1 S1), H1. unfold bind at 1. unfold get at 1. rewrite H1. unfold bind at 1.
  cbn [negb orb when]. rewrite N, (wget_good true c m s1 NE G). unfold get at 1. cbn [here content set_file file].
  unfold ret at 1. destruct (upd_good (set_file (Some (Real c m)) s1) c m S1 eq_refl G) as (s2 & E & F & C2).
  unfold bind at 1. rewrite E. unfold ret at 1.
  destruct (post_done H Hne cf up mirrors s2 F) as (s3 & E3 & _ & C3 & _). exists s3. split; [exact E3|rewrite C3; exact C2].
Qed.
Lemma there : forall c m pre up mirrors s, honest H s -> content s = Some (c, m) -> good H cf c ->
  exists s', download_one H cf pre up mirrors s = (s', inl tt) /\ content s' = content s /\ file s' = file s /\ lm s' = lm s.
Proof.
  intros c m pre up mirrors s HO C G. rewrite download_parts. unfold bind at 1. assert (V := vd_spec H Hne cf s HO).
  destruct (verify_donestamp H cf false s) as [s1 [[|]|e]].
  - destruct V as (F & E1 & E2 & E3). unfold bind at 1. unfold get at 1. unfold bind at 1. unfold pre_part.
    assert (H1 : here s1 = true) by (unfold here; now rewrite E1, C). rewrite H1. cbn [andb]. unfold ret at 1.
    destruct (post_done H Hne cf up mirrors s1 F) as (s3 & E & _ & A1 & A2 & A3). exists s3. split; [exact E|].
    split; [congruence|]. split; congruence.
  - destruct V as (_ & _ & B). now destruct (B c m C).
  - tauto.
Qed.
End Live.

(** * Without the network *)
Definition keeps {A} (x : M A) : Prop := forall s c m, file (fst (x s)) = Some (Real c m) -> file s = Some (Real c m).
Lemma keeps_ret : forall A (a : A), keeps (ret a). Proof. intros A a s c m E. exact E. Qed.
Lemma keeps_raise : forall A e, keeps (@raise A e). Proof. intros A a s c m E. exact E. Qed.
Lemma keeps_get : forall A (f : st -> A), keeps (get f). Proof. intros A f s c m E. exact E. Qed.
Lemma keeps_bind : forall A B (x : M A) (f : A -> M B), keeps x -> (forall a, keeps (f a)) -> keeps (bind x f).
Proof.
  intros A B x f X F s c m E. unfold bind in E. specialize (X s). destruct (x s) as [s' [a|e]]; cbn in X.
  - apply X. now apply (F a s').
  - now apply X.
Qed.
Lemma keeps_catch : forall A (x : M A) h, keeps x -> (forall e, keeps (h e)) -> keeps (catch x h).
Proof.
  intros A x h X F s c m E. unfold catch in E. specialize (X s). destruct (x s) as [s' [a|e]]; cbn in X.
  - now apply X.
  - apply X. now apply (F e s').
Qed.
Lemma keeps_clear : keeps (modify (set_file None)). Proof. intros s c m E. discriminate. Qed.
Lemma rename_keeps : forall cf x s c m, file (rename_bad cf x s) = Some (Real c m) -> file s = Some (Real c m).
Proof. intros cf x s c m E. unfold rename_bad in E. destruct (file s) as [f|] eqn:F; [|congruence]. destruct (movable cf); [discriminate|congruence]. Qed.
Lemma keeps_rename : forall cf x, keeps (modify (fun s => if here s then rename_bad cf x s else s)).
Proof. intros cf x s c m E. cbn in E. destruct (here s); [now apply rename_keeps in E|exact E]. Qed.
Lemma drop_keeps : forall cf x s c m, file (drop_bad cf x s) = Some (Real c m) -> file s = Some (Real c m).
Proof. intros cf x s c m E. unfold drop_bad in E. cbn in E. destruct (here s); [now apply rename_keeps in E|exact E]. Qed.
Lemma keeps_vd : forall H cf ig, keeps (verify_donestamp H cf ig).
Proof.
  intros H cf ig s c m E. unfold verify_donestamp in E. destruct (content s) as [[c' m']|]; [|exact E].
  destruct (verify_checksum H cf ig true _ c') as [r|e].
  - cbn [fst] in E. match type of E with file (if ?b then _ else _) = _ => destruct b end; exact E.
  - destruct e; try exact E. now apply drop_keeps in E.
Qed.
Lemma keeps_upd : forall H cf, keeps (update_stamp H cf).
Proof.
  intros H cf s c m E. unfold update_stamp in E. destruct (stamp s) as [[l t]|]; [exact E|].
  destruct (content s) as [[c' m']|]; [|exact E]. destruct (verify_checksum H cf false true no_sums c') as [r|e]; [exact E|].
  destruct e; try exact E. now apply drop_keeps in E.
Qed.
Lemma keeps_wget : forall H cf ig o, keeps (wget H cf ig true o).
Proof. intros. apply keeps_raise. Qed.
Lemma keeps_mirror : forall H cf m, keeps (try_mirror_url H cf true m).
Proof.
  intros H cf [o|n]; cbn [try_mirror_url].
  - apply keeps_catch.
    + apply keeps_bind; [apply keeps_vd|]. intros v. apply keeps_bind; [apply keeps_get|]. intros h.
      apply keeps_bind; [|intros; apply keeps_get]. unfold when. destruct (negb v || negb h); [apply keeps_wget|apply keeps_ret].
    + intros e. destruct e; try apply keeps_raise; try apply keeps_ret.
      * apply keeps_bind; [apply keeps_rename|]. intros. apply keeps_bind; [apply keeps_clear|]. intros. apply keeps_ret.
      * apply keeps_bind; [apply keeps_clear|]. intros. apply keeps_ret.
      * apply keeps_bind; [apply keeps_clear|]. intros. apply keeps_ret.
  - apply keeps_bind; [apply keeps_get|]. intros [|]; [|apply keeps_ret]. apply keeps_bind.
    + intros s c m E. cbn in E. unfold ensure_symlink in E. destruct (here s); [exact E|discriminate].
    + intros _. apply keeps_catch; [apply keeps_bind; [apply keeps_upd|intros; apply keeps_ret]|].
      intros e. destruct e; try apply keeps_raise; try apply keeps_ret. apply keeps_bind; [|intros; apply keeps_ret].
      intros s c m E. cbn in E. unfold rename_mirror in E. destruct (lm s n) as [[c' m']|]; [|exact E]. destruct (movable cf); exact E.
Qed.
Lemma keeps_mirrors : forall H cf ms, keeps (try_mirrors H cf true ms).
Proof.
  intros H cf. induction ms as [|m ms IH]; cbn [try_mirrors]; [apply keeps_ret|]. apply keeps_bind; [apply keeps_mirror|].
  intros [|]; [apply keeps_ret|exact IH].
Qed.
Lemma keeps_download : forall H cf pre up mirrors, no_network cf = true -> keeps (download_one H cf pre up mirrors).
Proof.
  intros H cf pre up mirrors N. unfold download_one. rewrite N. cbn [orb].
  apply keeps_bind; [apply keeps_vd|]. intros v. apply keeps_bind; [apply keeps_get|]. intros h.
  apply keeps_bind.
  { destruct (v && h); [apply keeps_ret|]. apply keeps_bind; [apply keeps_mirrors|]. intros [|]; [|apply keeps_ret].
    apply keeps_catch; [apply keeps_bind; [apply keeps_upd|intros; apply keeps_ret]|]. intros e. destruct e; try apply keeps_raise. apply keeps_ret. }
  intros done. apply keeps_bind; [destruct done; [apply keeps_vd|apply keeps_ret]|]. intros verified.
  apply keeps_bind; [apply keeps_get|]. intros h2. apply keeps_bind.
  { destruct (negb done && (negb verified || negb h2)); [|apply keeps_ret]. apply keeps_catch.
    - apply keeps_bind; [destruct (trusted cf); [apply keeps_ret|apply keeps_raise]|]. intros _.
      apply keeps_bind; [apply keeps_wget|]. intros _. apply keeps_bind; [apply keeps_upd|]. intros. apply keeps_ret.
    - intros e. destruct e; try apply keeps_raise.
      + apply keeps_bind; [apply keeps_rename|]. intros _. apply keeps_bind; [unfold when; destruct (negb verified); [apply keeps_clear|apply keeps_ret]|].
        intros _. apply keeps_mirrors.
      + apply keeps_bind; [unfold when; destruct (negb verified); [apply keeps_clear|apply keeps_ret]|]. intros _. apply keeps_mirrors.
      + apply keeps_bind; [unfold when; destruct (negb verified); [apply keeps_clear|apply keeps_ret]|]. intros _. apply keeps_mirrors. }
  intros d. apply keeps_bind; [apply keeps_get|]. intros h3. destruct (negb d || negb h3); [apply keeps_raise|apply keeps_upd].
Qed.

(** * Which mirrors are tried *)
Section Uris.
Variable line : Type.
Variable line_eqb : line -> line -> bool.
Hypothesis line_eqb_eq : forall x y, line_eqb x y = true <-> x = y.
Variable repl : str -> line -> nat -> option str.
Variable trust ok : str -> bool.
Variable orig : str.
Notation remove_line := (remove_line line line_eqb).
Notation adduri := (adduri line line_eqb repl trust ok orig).
Notation adduri_step := (adduri_step line line_eqb repl trust ok orig).

Lemma remove_perm : forall x l, In x l -> Permutation l (x :: remove_line x l).
Proof.
  intros x. induction l as [|y l IH]; intros I; [destruct I|]. cbn [Fetch_Model.remove_line]. destruct (line_eqb x y) eqn:E.
  - apply line_eqb_eq in E. now subst y.
  - destruct I as [->|I]; [rewrite (proj2 (line_eqb_eq x x) eq_refl) in E; discriminate|].
    transitivity (y :: x :: remove_line x l); [constructor; now apply IH|constructor].
Qed.
Lemma remove_len : forall x l, In x l -> S (length (remove_line x l)) = length l.
Proof. intros x l I. rewrite (Permutation_length (remove_perm x l I)). reflexivity. Qed.
Definition fine (tbs : list nat) (u : str) (lines : list line) (w : str) : Prop :=
  trust w = true /\ ok w = true /\ w <> orig /\ w <> [] /\ follows repl tbs u lines w.
Lemma fold_inv : forall (A B : Type) (f : A -> B -> A) (P : A -> Prop) l a, P a -> (forall a b, In b l -> P a -> P (f a b)) -> P (fold_left f l a).
Proof.
  intros A B f P. induction l as [|b l IH]; intros a PA S; [exact PA|]. cbn [fold_left]. apply IH.
  - apply S; [now left|exact PA].
  - intros a' b' I. apply S. now right.
Qed.
Lemma adduri_sound : forall fuel tbs u lines uris, NoDup uris ->
  exists new, adduri fuel tbs u lines uris = uris ++ new /\ NoDup (uris ++ new) /\ forall w, In w new -> fine tbs u lines w.
Proof.
  induction fuel as [|fuel IH]; intros tbs u lines uris ND; cbn [Fetch_Model.adduri].
  - exists []. rewrite app_nil_r. split; [reflexivity|]. split; [exact ND|]. intros w [].
  - apply (fold_inv _ _ _ (fun r => exists new, r = uris ++ new /\ NoDup (uris ++ new) /\ forall w, In w new -> fine tbs u lines w)).
    { exists []. rewrite app_nil_r. split; [reflexivity|]. split; [exact ND|]. intros w []. }
    intros r x IX R. apply (fold_inv _ _ _ (fun r => exists new, r = uris ++ new /\ NoDup (uris ++ new) /\ forall w, In w new -> fine tbs u lines w)); [exact R|].
    clear r R. intros r tb IT (new & -> & N & F). unfold Fetch_Model.adduri_step.
    destruct (repl u x tb) as [v|] eqn:E; [|now exists new]. destruct v as [|a v]; [now exists new|]. set (w0 := a :: v) in *.
    destruct (mem_str w0 (uris ++ new) || seqb w0 orig) eqn:D; [now exists new|]. apply orb_false_iff in D. destruct D as [D1 D2].
    apply mem_str_false in D1. apply seqb_neq in D2.
    destruct (trust w0) eqn:T; cbn [negb]; [|now exists new].
    assert (MORE : forall w, fine tbs w0 (remove_line x lines) w -> fine tbs u lines w).
    { intros w (A & B & C & D & G). repeat split; try assumption. apply (f_more repl tbs u lines (remove_line x lines) x tb w0 w); auto.
      now apply remove_perm. }
    destruct (ok w0) eqn:O.
    + assert (N1 : NoDup ((uris ++ new) ++ [w0])).
      { apply NoDup_rev in N. rewrite <- (rev_involutive ((uris ++ new) ++ [w0])). apply NoDup_rev. rewrite rev_app_distr. cbn [rev app].
        constructor; [|exact N]. rewrite <- in_rev. exact D1. }
      destruct (IH tbs w0 (remove_line x lines) _ N1) as (new2 & Q & N2 & F2). exists (new ++ [w0] ++ new2).
      rewrite <- !app_assoc in N2. split; [etransitivity; [exact Q|]; now rewrite <- !app_assoc|]. split; [exact N2|]. intros w I. rewrite !in_app_iff in I.
      destruct I as [I|[[<-|[]]|I]]; [now apply F| |now apply MORE, F2].
      split; [exact T|]. split; [exact O|]. split; [exact D2|]. split; [discriminate|]. now apply (f_one repl tbs u lines x tb).
    + destruct (IH tbs w0 (remove_line x lines) _ N) as (new2 & Q & N2 & F2). exists (new ++ new2).
      rewrite <- !app_assoc in N2. split; [etransitivity; [exact Q|]; now rewrite <- !app_assoc|]. split; [exact N2|]. intros w I. rewrite in_app_iff in I.
      destruct I as [I|I]; [now apply F|now apply MORE, F2].
Qed.
(** Nothing is ever taken from the list *)
Lemma adduri_mono : forall fuel tbs u lines uris w, In w uris -> In w (adduri fuel tbs u lines uris).
Proof.
  induction fuel as [|fuel IH]; intros tbs u lines uris w I; cbn [Fetch_Model.adduri]; [exact I|].
  apply (fold_inv _ _ _ (fun r => In w r)); [exact I|]. intros r x _ R. apply (fold_inv _ _ _ (fun r => In w r)); [exact R|].
  clear r R. intros r tb _ R. unfold Fetch_Model.adduri_step. destruct (repl u x tb) as [[|a v]|]; try exact R.
  destruct (mem_str (a :: v) r || seqb (a :: v) orig); [exact R|]. destruct (negb (trust (a :: v))); [exact R|].
  destruct (ok (a :: v)); apply IH; [rewrite in_app_iff; now left|exact R].
Qed.
Lemma step_mono : forall fuel tbs u lines x uris tb w, In w uris -> In w (adduri_step (adduri fuel tbs) u lines x uris tb).
Proof.
  intros fuel tbs u lines x r tb w R. unfold Fetch_Model.adduri_step. destruct (repl u x tb) as [[|a v]|]; try exact R.
  destruct (mem_str (a :: v) r || seqb (a :: v) orig); [exact R|]. destruct (negb (trust (a :: v))); [exact R|].
  destruct (ok (a :: v)); apply adduri_mono; [rewrite in_app_iff; now left|exact R].
Qed.
Lemma step_adds : forall fuel tbs u lines x uris tb v, repl u x tb = Some v -> v <> [] -> v <> orig -> trust v = true -> ok v = true ->
  In v (adduri_step (adduri fuel tbs) u lines x uris tb).
Proof.
  intros fuel tbs u lines x uris tb v E N1 N2 T O. unfold Fetch_Model.adduri_step. rewrite E. destruct v as [|a v]; [congruence|].
  apply seqb_neq in N2. rewrite N2, T, O, orb_false_r. cbn [negb]. destruct (mem_str (a :: v) uris) eqn:M; [now apply mem_str_In|].
  apply adduri_mono. rewrite in_app_iff. right. now left.
Qed.
Lemma fold_reaches : forall (A B : Type) (f : A -> B -> A) (P : A -> Prop) l a b, In b l -> (forall a, P (f a b)) -> (forall a b, P a -> P (f a b)) -> P (fold_left f l a).
Proof.
  intros A B f P l a b I S K. apply in_split in I. destruct I as (l1 & l2 & ->). rewrite fold_left_app. cbn [fold_left].
  apply fold_inv; [apply S|]. intros a' b' _. apply K.
Qed.
Lemma adduri_direct : forall fuel tbs u lines uris x tb v, In x lines -> In tb tbs -> repl u x tb = Some v -> v <> [] -> v <> orig ->
  trust v = true -> ok v = true -> In v (adduri (S fuel) tbs u lines uris).
Proof.
  intros fuel tbs u lines uris x tb v IX IT E N1 N2 T O. cbn [Fetch_Model.adduri].
  apply (fold_reaches _ _ _ (fun r => In v r) lines uris x IX).
  - intros r. apply (fold_reaches _ _ _ (fun r => In v r) tbs r tb IT).
    + intros r'. now apply step_adds.
    + intros r' tb'. apply step_mono.
  - intros r x'. intros I. apply (fold_inv _ _ _ (fun r => In v r)); [exact I|]. intros r' tb' _. apply step_mono.
Qed.
(** The number of lines is fuel enough *)
Lemma fold_ext_in : forall (A B : Type) (f g : A -> B -> A) l a, (forall a b, In b l -> f a b = g a b) -> fold_left f l a = fold_left g l a.
Proof.
  intros A B f g. induction l as [|b l IH]; intros a S; [reflexivity|]. cbn [fold_left]. rewrite S by now left. apply IH. intros. apply S. now right.
Qed.
Lemma adduri_fuel : forall fuel fuel' tbs u lines uris, length lines <= fuel -> length lines <= fuel' ->
  adduri fuel tbs u lines uris = adduri fuel' tbs u lines uris.
Proof.
  induction fuel as [|fuel IH]; intros fuel' tbs u lines uris L L'.
  - destruct lines as [|x lines]; [|cbn in L; lia]. destruct fuel'; reflexivity.
  - destruct fuel' as [|fuel']; [destruct lines as [|x lines]; [reflexivity|cbn in L'; lia]|]. cbn [Fetch_Model.adduri].
    apply fold_ext_in. intros r x IX. apply fold_ext_in. intros r' tb _. unfold Fetch_Model.adduri_step.
    assert (LEN := remove_len x lines IX).
    destruct (repl u x tb) as [[|a v]|]; try reflexivity. destruct (mem_str (a :: v) r' || seqb (a :: v) orig); [reflexivity|].
    destruct (negb (trust (a :: v))); [reflexivity|]. destruct (ok (a :: v)); apply IH; lia.
Qed.
End Uris.
