From Coq Require Import String Ascii List Bool Arith Lia.
From Verif Require Import Str_Model Str_Proofs Taskdata_Model Taskdata_Spec Taskdata_Proofs Multiconf_Model Multiconf_Spec.
Import ListNotations.
Open Scope list_scope.

(** More names asked for *)
Lemma wanted_more C a b : (forall t : str, In t a -> In t b) ->
  (forall x t, wanted_name C a x t -> wanted_name C b x t) /\ forall fn, wanted_file C a fn -> wanted_file C b fn.
Proof.
  intros H.
  assert (N : forall x t, wanted_name C a x t -> wanted_name C b x t).
  { apply (wanted_name_mut C a (fun x t _ => wanted_name C b x t) (fun fn _ => wanted_file C b fn)).
    - intros t I. apply wanted_target; auto.
    - intros x fn t _ F N. eapply wanted_need; eauto.
    - intros x t g _ N I E. eapply wanted_choice; eauto. }
  split; [exact N|]. intros fn [x t g W I E]. eapply wanted_choice; eauto.
Qed.
Lemma weak_more C a b s : (forall t : str, In t a -> In t b) -> weak C a s -> weak C b s.
Proof. intros H [w1 w2 w3 w4 w5 w6 w7 w8 w9]. destruct (wanted_more C a b H) as [N F]. constructor; auto. Qed.

Section Multi.
Variable mcs : list str.
Variable C : str -> cache.
Variable mcwords : str -> str -> list str.
Variable order : list str -> list str.
Variable halt allow : bool.
Variable targets : list (str * str).
Notation required := (required mcs C mcwords targets).

(** What holds for every configuration at any time *)
Definition sound (st : states) : Prop := forall mc, exists asked, (forall t, In t asked -> required mc t) /\ weak (C mc) asked (st mc) /\
  (~ broken halt (st mc) -> strong (C mc) nobody (st mc)) /\ forallb well_formed (mcdepends mcwords mc (st mc)) = true.
Definition later (st st' : states) : Prop := forall mc, mono (st mc) (st' mc).
Lemma later_refl st : later st st. Proof. intros mc. apply mono_refl. Qed.
Lemma later_trans a b c : later a b -> later b c -> later a c. Proof. intros H K mc. eapply mono_trans; eauto. Qed.
Lemma set_same st mc s : set_state st mc s mc = s. Proof. unfold set_state. now rewrite seqb_refl. Qed.
Lemma set_other st mc s m : m <> mc -> set_state st mc s m = st m.
Proof. intros N. unfold set_state. destruct (seqb m mc) eqn:E; auto. apply seqb_eq in E. contradiction. Qed.
(** A name that has been asked for is provided, ignored or failed *)
Definition answered (st : states) (mc t : str) : Prop := In t (s_external (st mc)) /\ (c_ignored (C mc) t = true \/ settled (st mc) Build t).
Lemma answered_later st st' mc t : later st st' -> answered st mc t -> answered st' mc t.
Proof. intros L [A B]. split; [apply (m_ext _ _ (L mc)); auto|]. destruct B as [B|B]; auto. right. apply (m_settled _ _ (L mc)); auto. Qed.

Lemma step_ok mc f st st' : step mcwords mc f st = inl (Some st') ->
  exists s, f (st mc) = Ok s /\ st' = set_state st mc s /\ forallb well_formed (mcdepends mcwords mc s) = true.
Proof.
  unfold step. destruct (f (st mc)) as [s|s|s| |]; try discriminate. destruct (forallb well_formed (mcdepends mcwords mc s)) eqn:E; [|discriminate].
  intros [= <-]. eauto.
Qed.
Lemma provider_step mc t st st' : sound st -> required mc t -> step mcwords mc (add_provider (C mc) halt t) st = inl (Some st') ->
  sound st' /\ later st st' /\ answered st' mc t.
Proof.
  intros S R E. apply step_ok in E. destruct E as (s & E & -> & WF). destruct (S mc) as (asked & Ra & W & Q & _).
  assert (W' : weak (C mc) (t :: asked) (st mc)) by (apply (weak_more _ asked); auto; intros u U; now right).
  assert (X := add_provider_out (C mc) halt (t :: asked) t (st mc) W' (or_introl eq_refl)). rewrite E in X. cbn [out] in X. destruct X as (W1 & M1 & Q1 & E1 & T1).
  split; [|split].
  - intros m. destruct (str_eq_dec m mc) as [->|N]; [rewrite set_same|rewrite set_other by auto; apply S].
    exists (t :: asked). split; [intros u [<-|U]; auto|]. split; [exact W1|]. split; [|exact WF].
    intros B. apply Q1, Q. intros B0. apply B. eapply broken_mono; eauto.
  - intros m. destruct (str_eq_dec m mc) as [->|N]; [now rewrite set_same|rewrite set_other by auto; apply mono_refl].
  - split; rewrite set_same; auto.
Qed.
Lemma unresolved_step n mc st st' : sound st -> step mcwords mc (add_unresolved (C mc) halt allow n) st = inl (Some st') ->
  sound st' /\ later st st' /\ (allow = false -> ~ broken halt (st' mc) -> resolved (C mc) (st' mc)) /\ forall m, m <> mc -> st' m = st m.
Proof.
  intros S E. apply step_ok in E. destruct E as (s & E & -> & WF). destruct (S mc) as (asked & Ra & W & Q & _).
  destruct (add_unresolved_ok (C mc) halt allow asked n (st mc) s W E) as (W1 & M1 & Q1 & R1). split; [|split; [|split]].
  - intros m. destruct (str_eq_dec m mc) as [->|N]; [rewrite set_same|rewrite set_other by auto; apply S].
    exists asked. split; [auto|]. split; [exact W1|]. split; [|exact WF].
    intros B. apply Q1; auto. apply Q. intros B0. apply B. eapply broken_mono; eauto.
  - intros m. destruct (str_eq_dec m mc) as [->|N]; [now rewrite set_same|rewrite set_other by auto; apply mono_refl].
  - now rewrite set_same.
  - intros m N. now apply set_other.
Qed.
Lemma unresolved_all_ok n l : NoDup l -> forall st st', sound st -> unresolved_all C mcwords halt allow n l st = inl (Some st') ->
  sound st' /\ later st st' /\ (allow = false -> forall mc, In mc l -> ~ broken halt (st' mc) -> resolved (C mc) (st' mc)) /\ forall m, ~ In m l -> st' m = st m.
Proof.
  induction l as [|mc l IH]; intros ND st st' S E; cbn [unresolved_all] in E.
  { injection E as <-. split; [auto|]. split; [apply later_refl|]. split; [intros _ mc []|auto]. }
  inversion ND as [|? ? NI ND']; subst.
  destruct (step mcwords mc (add_unresolved (C mc) halt allow n) st) as [[st1|]|] eqn:E1; try discriminate.
  destruct (unresolved_step n mc st st1 S E1) as (S1 & L1 & R1 & O1). destruct (IH ND' st1 st' S1 E) as (S2 & L2 & R2 & O2).
  split; [auto|]. split; [eapply later_trans; eauto|]. split.
  - intros A m [<-|I] B; [|auto]. rewrite O2 in * by auto. auto.
  - intros m N. rewrite O2, O1; auto; intros H; apply N; [left; congruence|now right].
Qed.

(** A pass over resolved configurations changes nothing *)
Lemma unresolved_same n s mc : resolved (C mc) s -> forall s', add_unresolved (C mc) halt allow n s = Ok s' -> s' = s.
Proof.
  intros R s'. destruct n as [|n]; [discriminate|]. cbn [add_unresolved]. unfold pass.
  assert (U : forall x, unresolved (C mc) x s = []).
  { intros x. destruct (unresolved (C mc) x s) as [|t l] eqn:E; auto. exfalso. assert (I : In t (unresolved (C mc) x s)) by (rewrite E; now left).
    apply unresolved_In in I. destruct I as (K & Ig & NS). destruct (R x t K) as [H|H]; [congruence|auto]. }
  rewrite (U Build). cbn [settle_all]. rewrite (U Runtime). cbn [settle_all]. now intros [= <-].
Qed.

Lemma parts5 k : well_formed k = true -> exists from to t task, mcword k from to t task /\ nth 2 (parts k) [] = to /\ nth 3 (parts k) [] = t.
Proof.
  unfold well_formed, parts, mcword. intros E. apply Nat.eqb_eq in E. destruct (split_on ":"%char k) as [|p [|f [|t [|n [|k' [|]]]]]]; try discriminate.
  exists f, t, n, k'. split; [exists p; auto|auto].
Qed.
Definition served_ok (st : states) (k : str) : Prop := forall from to t task, mcword k from to t task -> In to mcs /\ answered st to t.
Lemma serve_ok l : forall st seen new st' seen' new', sound st ->
  (forall k, In k l -> exists mc fn, In mc mcs /\ In k (mcwords mc fn) /\ In fn (s_seen (st mc))) ->
  (forall k, In k seen -> served_ok st k) ->
  serve mcs C mcwords halt l st seen new = inl (Some (st', seen', new')) ->
  sound st' /\ later st st' /\ (forall k, In k seen' -> served_ok st' k) /\ (forall k, In k l \/ In k seen -> In k seen') /\
  (new' = false -> st' = st /\ seen' = seen /\ new = false) /\
  (new' = true -> new = true \/ exists k, In k l /\ ~ In k seen /\ In k seen').
Proof.
  induction l as [|k l IH]; intros st seen new st' seen' new' S F V E; cbn [serve] in E.
  { injection E as <- <- <-. split; [auto|]. split; [apply later_refl|]. split; [auto|]. split; [intros k [[]|I]; auto|]. split; auto. }
  destruct (mem_str k seen) eqn:M.
  - apply mem_str_In in M. destruct (IH st seen new st' seen' new' S (fun q I => F q (or_intror I)) V E) as (A & B & D & G & H & K).
    split; [auto|]. split; [auto|]. split; [auto|]. split; [|split; [auto|]].
    + intros q [[<-|I]|I]; apply G; auto.
    + intros Q. destruct (K Q) as [Z|(q & Z1 & Z2)]; auto. right. exists q. split; [now right|auto].
  - apply mem_str_false in M. destruct (mem_str (nth 2 (parts k) []) mcs) eqn:MM; [|discriminate]. apply mem_str_In in MM.
    destruct (F k (or_introl eq_refl)) as (mc & fn & IM & IW & IS). destruct (S mc) as (asked & Ra & W & _ & WF).
    assert (WK : well_formed k = true). { rewrite forallb_forall in WF. apply WF. unfold mcdepends. apply in_flat_map. eauto. }
    destruct (parts5 k WK) as (from & to & t & task & MW & P2 & P3). rewrite P2, P3 in *.
    assert (R : required to t). { eapply R_mc; [exact IM|exact MM|exact Ra| |exact IW|exact MW]. apply (w_seen _ _ _ W fn IS). }
    destruct (step mcwords to (add_provider (C to) halt t) st) as [[st1|]|] eqn:E1; try discriminate.
    destruct (provider_step to t st st1 S R E1) as (S1 & L1 & A1).
    destruct (IH st1 (seen ++ [k]) true st' seen' new' S1) as (A & B & D & G & H & K); auto.
    + intros q I. destruct (F q (or_intror I)) as (m & f & Z & X & Y). exists m, f. split; [auto|]. split; [auto|]. now apply (m_seen _ _ (L1 m)).
    + intros q I. apply in_app_or in I. destruct I as [I|[<-|[]]].
      * intros a b c d Q. destruct (V q I a b c d Q) as [X Y]. split; auto. eapply answered_later; eauto.
      * intros a b c d Q. destruct MW as [p MW], Q as [p' Q]. rewrite MW in Q. injection Q as -> -> -> -> ->. auto.
    + split; [auto|]. split; [eapply later_trans; eauto|]. split; [auto|]. split; [|split].
      * intros q [[<-|I]|I]; apply G; auto; right; apply in_or_app; cbn; auto.
      * intros Q. destruct (H Q) as (_ & _ & Z). discriminate.
      * intros _. right. exists k. split; [now left|]. split; [auto|]. apply G. right. apply in_or_app. cbn. auto.
Qed.
Hypothesis order_In : forall l k, In k (order l) <-> In k l.
Lemma all_mcdepends_In st k : In k (all_mcdepends mcs mcwords order st) <-> exists mc fn, In mc mcs /\ In fn (s_seen (st mc)) /\ In k (mcwords mc fn).
Proof.
  unfold all_mcdepends. rewrite order_In, in_flat_map. unfold mcdepends. split.
  - intros (mc & M & I). apply in_flat_map in I. destruct I as (fn & F & I). eauto.
  - intros (mc & fn & M & F & I). exists mc. split; auto. apply in_flat_map. eauto.
Qed.
Lemma mc_loop_ok n m : NoDup mcs -> forall st seen st' seen', sound st -> (forall k, In k seen -> served_ok st k) ->
  mc_loop mcs C mcwords order halt allow n m st seen = Done st' seen' ->
  sound st' /\ later st st' /\ (forall k, In k seen' -> served_ok st' k) /\
  (forall mc fn k, In mc mcs -> In fn (s_seen (st' mc)) -> In k (mcwords mc fn) -> In k seen') /\
  (allow = false -> forall mc, In mc mcs -> ~ broken halt (st' mc) -> resolved (C mc) (st' mc)).
Proof.
  intros ND. induction n as [|n IH]; intros st seen st' seen' S V E; [discriminate|]. cbn [mc_loop] in E.
  destruct (unresolved_all C mcwords halt allow m mcs st) as [[st1|]|] eqn:E1; try discriminate.
  destruct (unresolved_all_ok m mcs ND st st1 S E1) as (S1 & L1 & R1 & _).
  destruct (serve mcs C mcwords halt (all_mcdepends mcs mcwords order st1) st1 seen false) as [[[[st2 seen2] new]|]|] eqn:E2; try discriminate.
  destruct (serve_ok (all_mcdepends mcs mcwords order st1) st1 seen false st2 seen2 new S1) as (S2 & L2 & V2 & G2 & N2 & _); auto.
  - intros k K. apply all_mcdepends_In in K. destruct K as (mc & fn & M & F & I). eauto.
  - intros k K a b c d Q. destruct (V k K a b c d Q) as [X Y]. split; auto. eapply answered_later; eauto.
  - destruct new.
    + destruct (IH st2 seen2 st' seen' S2 V2 E) as (A & B & D & G & H). split; [auto|]. split; [eapply later_trans; [exact L1|]; eapply later_trans; eauto|]. auto.
    + injection E as <- <-. destruct (N2 eq_refl) as (-> & -> & _). split; [auto|]. split; [auto|]. split; [auto|]. split; [|auto].
      intros mc fn k M F I. apply G2. left. apply all_mcdepends_In. eauto.
Qed.
Lemma ask_ok l : forall st st', sound st -> (forall p, In p l -> In p targets) -> ask C mcwords halt l st = inl (Some st') ->
  sound st' /\ later st st' /\ forall mc t, In (mc, t) l -> answered st' mc t.
Proof.
  induction l as [|[mc t] l IH]; intros st st' S T E; cbn [ask] in E.
  { injection E as <-. split; [auto|]. split; [apply later_refl|]. intros mc t []. }
  destruct (step mcwords mc (add_provider (C mc) halt t) st) as [[st1|]|] eqn:E1; try discriminate.
  destruct (provider_step mc t st st1 S) as (S1 & L1 & A1); [apply R_target, T; now left|auto|].
  destruct (IH st1 st' S1 (fun p I => T p (or_intror I)) E) as (S2 & L2 & A2). split; [auto|]. split; [eapply later_trans; eauto|].
  intros m u [H|I]; [|auto]. injection H as <- <-. eapply answered_later; eauto.
Qed.
(** *** The end *)
Variable files : str -> list str.
Hypothesis files_all : forall mc x t g, eligible (C mc) x t g -> In g (files mc).
Definition words : list str := flat_map (fun mc => flat_map (mcwords mc) (files mc)) mcs.
Definition named : list str := map snd targets ++ map (fun k => nth 3 (parts k) []) words.
Definition names_in (mc : str) (x : side) : list str :=
  named ++ flat_map (fun fn => c_needs (C mc) x fn ++ flat_map (fun k => map (fun w => hd [] (split_on ":"%char w)) (t_flag k x)) (c_tasks (C mc) fn)) (files mc).
Definition bound : nat := list_sum (map (fun mc => length (names_in mc Build) + length (names_in mc Runtime)) mcs).
Lemma wanted_files mc names fn : wanted_file (C mc) names fn -> In fn (files mc).
Proof. intros [x t g _ _ E]. eauto. Qed.
Lemma required_named mc t : required mc t -> In t named.
Proof.
  unfold named. intros [mc0 u I|mc0 names fn k from to u task M _ _ F I W]; apply in_or_app; [left|right].
  - apply in_map_iff. exists (mc0, u). auto.
  - apply in_map_iff. exists k. split; [destruct W as [p W]; unfold parts; now rewrite W|]. unfold words. apply in_flat_map. exists mc0. split; auto. apply in_flat_map. exists fn. split; eauto using wanted_files.
Qed.
Lemma wanted_in mc names x t : (forall u, In u names -> required mc u) -> wanted_name (C mc) names x t -> In t (names_in mc x).
Proof.
  intros R [t0 I|x0 fn t0 Wf N]; unfold names_in; apply in_or_app; [left; eauto using required_named|right]. apply in_flat_map. exists fn. split; [eauto using wanted_files|].
  apply in_or_app. destruct N as [N|(k & w & tk & I & J & E)]; auto.
  right. apply in_flat_map. exists k. split; auto. apply in_map_iff. exists w. now rewrite E.
Qed.
Lemma filter_le {A} (f : A -> bool) l : length (filter f l) <= length l.
Proof. induction l as [|a l IH]; cbn; auto. destruct (f a); cbn; lia. Qed.
Lemma bound_in mc : In mc mcs -> length (names_in mc Build) + length (names_in mc Runtime) <= bound.
Proof. unfold bound. induction mcs as [|m l IH]; [intros []|]. cbn [map list_sum fold_right]. intros [->|I]; [lia|]. specialize (IH I). unfold list_sum in IH. lia. Qed.
Lemma unresolved_step_ends n mc st : sound st -> In mc mcs -> bound < n -> step mcwords mc (add_unresolved (C mc) halt allow n) st <> inr tt.
Proof.
  intros S M L. destruct (S mc) as (asked & Ra & W & _ & _).
  assert (X := add_unresolved_ends (C mc) halt allow asked (names_in mc) (fun x t H => wanted_in mc asked x t Ra H) n (st mc) W).
  assert (B := bound_in mc M). unfold still in X. pose proof (filter_le (openb (st mc) Build) (names_in mc Build)). pose proof (filter_le (openb (st mc) Runtime) (names_in mc Runtime)). specialize (X ltac:(lia)).
  unfold step. destruct (add_unresolved (C mc) halt allow n (st mc)); try discriminate; [|contradiction]. now destruct (forallb well_formed (mcdepends mcwords mc s)).
Qed.
Lemma provider_step_ends mc t st : sound st -> required mc t -> step mcwords mc (add_provider (C mc) halt t) st <> inr tt.
Proof.
  intros S R. destruct (S mc) as (asked & Ra & W & _). assert (W' : weak (C mc) (t :: asked) (st mc)) by (apply (weak_more _ asked); auto; intros u U; now right).
  assert (X := add_provider_out (C mc) halt (t :: asked) t (st mc) W' (or_introl eq_refl)). unfold step.
  destruct (add_provider (C mc) halt t (st mc)); try discriminate; [|contradiction]. now destruct (forallb well_formed (mcdepends mcwords mc s)).
Qed.
Lemma unresolved_all_ends n l : (forall mc, In mc l -> In mc mcs) -> bound < n -> forall st, sound st -> unresolved_all C mcwords halt allow n l st <> inr tt.
Proof.
  intros I L. induction l as [|mc l IH]; intros st S; cbn [unresolved_all]; [discriminate|].
  assert (X := unresolved_step_ends n mc st S (I mc (or_introl eq_refl)) L).
  destruct (step mcwords mc (add_unresolved (C mc) halt allow n) st) as [[st1|]|[]] eqn:E; try discriminate; [|contradiction].
  apply IH; [intros m M; apply I; now right|]. now destruct (unresolved_step n mc st st1 S E).
Qed.
Lemma serve_ends l : forall st seen new, sound st -> (forall k, In k l -> exists mc fn, In mc mcs /\ In k (mcwords mc fn) /\ In fn (s_seen (st mc))) ->
  serve mcs C mcwords halt l st seen new <> inr tt.
Proof.
  induction l as [|k l IH]; intros st seen new S F; cbn [serve]; [discriminate|]. destruct (mem_str k seen); [apply IH; auto; intros q Q; apply F; now right|].
  destruct (mem_str (nth 2 (parts k) []) mcs) eqn:MM; [|discriminate]. apply mem_str_In in MM.
  destruct (F k (or_introl eq_refl)) as (mc & fn & IM & IW & IS). destruct (S mc) as (asked & Ra & W & _ & WF).
  assert (WK : well_formed k = true). { rewrite forallb_forall in WF. apply WF. unfold mcdepends. apply in_flat_map. eauto. }
  destruct (parts5 k WK) as (from & to & t & task & MW & P2 & P3). rewrite P2, P3 in *.
  assert (R : required to t). { eapply R_mc; [exact IM|exact MM|exact Ra| |exact IW|exact MW]. apply (w_seen _ _ _ W fn IS). }
  assert (X := provider_step_ends to t st S R).
  destruct (step mcwords to (add_provider (C to) halt t) st) as [[st1|]|[]] eqn:E1; try discriminate; [|contradiction].
  destruct (provider_step to t st st1 S R E1) as (S1 & L1 & _). apply IH; auto.
  intros q Q. destruct (F q (or_intror Q)) as (m & f & A & B & D). exists m, f. split; [auto|]. split; [auto|]. now apply (m_seen _ _ (L1 m)).
Qed.
Definition unserved (seen : list str) : nat := length (filter (fun k => negb (mem_str k seen)) words).
Lemma mc_loop_ends n m : NoDup mcs -> bound < m -> forall st seen, sound st -> (forall k, In k seen -> served_ok st k) -> unserved seen < n ->
  mc_loop mcs C mcwords order halt allow n m st seen <> Stuck.
Proof.
  intros ND B. induction n as [|n IH]; intros st seen S V L; [lia|]. cbn [mc_loop].
  assert (X := unresolved_all_ends m mcs (fun mc I => I) B st S).
  destruct (unresolved_all C mcwords halt allow m mcs st) as [[st1|]|[]] eqn:E1; try discriminate; [|contradiction].
  destruct (unresolved_all_ok m mcs ND st st1 S E1) as (S1 & L1 & R1 & _).
  assert (F : forall k, In k (all_mcdepends mcs mcwords order st1) -> exists mc fn, In mc mcs /\ In k (mcwords mc fn) /\ In fn (s_seen (st1 mc))).
  { intros k K. apply all_mcdepends_In in K. destruct K as (mc & fn & M & F & I). eauto. }
  assert (V1 : forall k, In k seen -> served_ok st1 k). { intros k K a b c d Q. destruct (V k K a b c d Q) as [P Y]. split; auto. eapply answered_later; eauto. }
  assert (Y := serve_ends (all_mcdepends mcs mcwords order st1) st1 seen false S1 F).
  destruct (serve mcs C mcwords halt (all_mcdepends mcs mcwords order st1) st1 seen false) as [[[[st2 seen2] new]|]|[]] eqn:E2; try discriminate; [|contradiction].
  destruct new; [|discriminate].
  destruct (serve_ok (all_mcdepends mcs mcwords order st1) st1 seen false st2 seen2 true S1 F V1 E2) as (S2 & L2 & V2 & G2 & _ & K2).
  apply IH; auto. destruct (K2 eq_refl) as [Q|(k & K & NS & IS)]; [discriminate|].
  assert (LT : unserved seen2 < unserved seen); [|lia].
  unfold unserved. apply filter_lt_length with (a := k).
  - intros q _. rewrite !negb_true_iff, !mem_str_false. intros N I. apply N, G2. auto.
  - destruct (F k K) as (mc & fn & M & W & I). unfold words. apply in_flat_map. exists mc. split; auto. apply in_flat_map. exists fn. split; auto.
    destruct (S1 mc) as (asked & _ & Wk & _). eapply wanted_files. apply (w_seen _ _ _ Wk fn I).
  - rewrite negb_false_iff. now apply mem_str_In.
  - rewrite negb_true_iff. now apply mem_str_false.
Qed.
Lemma ask_ends l : forall st, sound st -> (forall p, In p l -> In p targets) -> ask C mcwords halt l st <> inr tt.
Proof.
  induction l as [|[mc t] l IH]; intros st S T; cbn [ask]; [discriminate|].
  assert (R : required mc t) by (apply R_target, T; now left). assert (X := provider_step_ends mc t st S R).
  destruct (step mcwords mc (add_provider (C mc) halt t) st) as [[st1|]|[]] eqn:E1; try discriminate; [|contradiction].
  destruct (provider_step mc t st st1 S R E1) as (S1 & _ & _). apply IH; auto. intros p I. apply T. now right.
Qed.
Lemma init_sound : sound (fun _ => init).
Proof.
  intros mc. exists []. split; [intros t []|]. split; [constructor; cbn; try tauto; intros x t; unfold providers; cbn; constructor|]. split; [|reflexivity].
  intros _. constructor; cbn; tauto.
Qed.
End Multi.
