(** Lemmas for C35. *)
From Coq Require Import Ascii String List Bool Arith Lia Permutation Wf_nat.
From Verif Require Import Str_Model Str_Proofs Imgtypes_Model Imgtypes_Spec.
Import ListNotations.
Open Scope list_scope.

Lemma mem_iff x l : mem_str x l = true <-> In x l.
Proof. apply mem_str_In. Qed.
Lemma mem_false x l : mem_str x l = false <-> ~ In x l.
Proof. rewrite <- mem_iff. destruct (mem_str x l); split; congruence. Qed.

Lemma cut_last_app a b : cut_last (length b) (a ++ b) = a.
Proof. unfold cut_last. rewrite app_length, Nat.add_sub, firstn_app, Nat.sub_diag, firstn_all. cbn. apply app_nil_r. Qed.
Lemma ends_iff c t : endswith (suffix c) t = true <-> t = cut_last (length (suffix c)) t ++ suffix c.
Proof.
  rewrite endswith_iff. split.
  - intros (u & ->). now rewrite cut_last_app.
  - intros H. eexists. exact H.
Qed.
Lemma ends_app c u : endswith (suffix c) (u ++ suffix c) = true.
Proof. apply endswith_iff. eauto. Qed.

(** ** Base types *)
Lemma strip_one_some cs t b : strip_one cs t = Some b -> exists c, In c cs /\ t = b ++ suffix c.
Proof.
  induction cs as [|c cs IH]; cbn [strip_one]; [discriminate|]. destruct (endswith (suffix c) t) eqn:E.
  - intros H. injection H as <-. exists c. split; [now left|]. now apply ends_iff.
  - intros H. destruct (IH H) as (c' & A & B). exists c'. split; [now right|auto].
Qed.
Lemma strip_one_none cs t : strip_one cs t = None -> plain cs t.
Proof.
  induction cs as [|c cs IH]; cbn [strip_one]; intros H; [intros u c []|]. destruct (endswith (suffix c) t) eqn:E; [discriminate|].
  intros u c' [->|I] X; [|eapply IH; eauto]. subst t. change ("."%char :: c') with (suffix c') in E. rewrite ends_app in E. discriminate.
Qed.
Lemma derived_trans cs a b c : derived cs a b -> derived cs b c -> derived cs a c.
Proof. intros A B. induction B; auto. constructor; auto. Qed.
Lemma base_aux_spec cs fuel t : length t <= fuel -> derived cs (base_type_aux fuel cs t) t /\ plain cs (base_type_aux fuel cs t).
Proof.
  revert t. induction fuel as [|n IH]; intros t L; cbn [base_type_aux].
  - destruct t; [|cbn in L; lia]. split; [constructor|]. intros u c _ X. destruct u; discriminate.
  - destruct (strip_one cs t) as [b|] eqn:E.
    + apply strip_one_some in E. destruct E as (c & I & ->). destruct (IH b) as [A B].
      { rewrite app_length in L. cbn in L. lia. }
      split; auto. now constructor.
    + split; [constructor|]. now apply strip_one_none.
Qed.
Lemma base_spec cf t : derived (cf_conversions cf) (base_type cf t) t /\ plain (cf_conversions cf) (base_type cf t).
Proof. apply base_aux_spec. auto. Qed.

Lemma app_split {A} (a b c d : list A) : a ++ b = c ++ d -> (exists e, a = c ++ e /\ d = e ++ b) \/ (exists e, c = a ++ e /\ b = e ++ d).
Proof.
  revert c. induction a as [|x a IH]; intros c E.
  - right. exists c. auto.
  - destruct c as [|y c].
    + left. exists (x :: a). auto.
    + cbn in E. injection E as E1 E2. subst y. destruct (IH _ E2) as [(e & -> & ->)|(e & -> & ->)]; [left|right]; exists e; auto.
Qed.
Lemma suffix_unique cs t u c d : unambiguous cs -> In c cs -> In d cs -> t ++ suffix c = u ++ suffix d -> t = u /\ c = d.
Proof.
  intros U C D E. destruct (app_split _ _ _ _ E) as [(e & -> & X)|(e & -> & X)].
  - destruct e as [|x e]; [rewrite app_nil_r; injection X as X; subst; auto|]. injection X as X1 X2. exfalso. exact (U d c e D C X2).
  - destruct e as [|x e]; [rewrite app_nil_r; injection X as X; subst; auto|]. injection X as X1 X2. exfalso. exact (U c d e C D X2).
Qed.
Lemma derived_unique cs b b' t : unambiguous cs -> plain cs b -> plain cs b' -> derived cs b t -> derived cs b' t -> b = b'.
Proof.
  intros U P P' D. induction D as [|t c D IH I]; intros D'.
  - inversion D' as [|u c D2 I2 E]; subst; auto. exfalso. eapply P; eauto.
  - inversion D' as [E|u d D2 I2 E]; subst; [exfalso; eapply P'; eauto|].
    destruct (suffix_unique cs u t d c U I2 I E) as [-> ->]. auto.
Qed.
Lemma derived_inv cs b t c : unambiguous cs -> In c cs -> derived cs b (t ++ suffix c) -> b = t ++ suffix c \/ derived cs b t.
Proof.
  intros U I D. inversion D as [E|u d D2 I2 E]; subst; auto. destruct (suffix_unique cs u t d c U I2 I E) as [-> ->]. auto.
Qed.
Lemma base_unique cf b t : unambiguous (cf_conversions cf) -> plain (cf_conversions cf) b -> derived (cf_conversions cf) b t -> base_type cf t = b.
Proof. intros U P D. destruct (base_spec cf t) as [A B]. eapply derived_unique; eauto. Qed.
Lemma base_base cf t : base_type cf (base_type cf t) = base_type cf t.
Proof.
  destruct (base_spec cf t) as [_ P]. unfold base_type at 1. set (b := base_type cf t) in *. clearbody b. destruct (length b) as [|n]; auto. cbn [base_type_aux].
  destruct (strip_one (cf_conversions cf) b) as [x|] eqn:E; auto. apply strip_one_some in E. destruct E as (c & I & E). exfalso. eapply P; eauto.
Qed.

(** ** Sorting *)
Lemma insert_str_in x l y : In y (insert_str x l) <-> y = x \/ In y l.
Proof.
  induction l as [|z l IH]; cbn [insert_str]; [cbn; intuition|]. destruct (seqb x z) eqn:E; [apply seqb_eq in E; subst; cbn; intuition|].
  destruct (str_leb x z); cbn [In]; [intuition|]. rewrite IH. intuition.
Qed.
Lemma sorted_set_in l y : In y (sorted_set l) <-> In y l.
Proof. induction l as [|x l IH]; cbn [sorted_set fold_right]; [reflexivity|]. rewrite insert_str_in. fold (sorted_set l). rewrite IH. cbn. intuition. Qed.

(** ** One task *)
Lemma run_app a b fs : run_cmds (a ++ b) fs = match run_cmds a fs with None => None | Some f => run_cmds b f end.
Proof. revert fs. induction a as [|c a IH]; intros fs; cbn [app run_cmds]; auto. destruct (run_cmd c fs); auto. Qed.
Lemma add_str_in x l y : In y (add_str x l) <-> y = x \/ In y l.
Proof. unfold add_str. destruct (mem_str x l) eqn:E; [apply mem_iff in E; intuition; subst; auto|]. rewrite in_app_iff. cbn. intuition. Qed.
Lemma nodup_snoc {A} (x : A) l : NoDup l -> ~ In x l -> NoDup (l ++ [x]).
Proof.
  intros N I. apply (Permutation_NoDup (l := x :: l)); [apply Permutation_cons_append|]. now constructor.
Qed.
Lemma add_str_nodup x l : NoDup l -> NoDup (add_str x l).
Proof. intros N. unfold add_str. destruct (mem_str x l) eqn:E; auto. apply nodup_snoc; auto. now apply mem_false. Qed.
Lemma cmd_eqb_eq a b : cmd_eqb a b = true <-> a = b.
Proof.
  destruct a, b; cbn [cmd_eqb]; try (split; [discriminate|congruence]); rewrite ?andb_true_iff, ?seqb_eq; split; [intros ->|intros X; inversion X|intros [-> ->]|intros X; inversion X|intros ->|intros X; inversion X]; auto.
Qed.
Lemma existsb_cmd c l : existsb (cmd_eqb c) l = true <-> In c l.
Proof.
  rewrite existsb_exists. split.
  - intros (x & I & E). apply cmd_eqb_eq in E. now subst.
  - intros I. exists c. split; auto. now apply cmd_eqb_eq.
Qed.

Section Task.
  Variables (cs0 cs kept : list str) (bt : str) (fs0 : list str) (Q Z : str -> Prop).
  Hypothesis same : forall c, In c cs <-> In c cs0.
  Hypothesis unamb : unambiguous cs0.
  Hypothesis bplain : plain cs0 bt.

  Definition inv (st : list cmd * list str) (fs : list str) : Prop :=
    run_cmds (fst st) fs0 = Some fs /\ In bt fs /\ incl fs0 fs /\
    (forall u c, In (Convert u c) (fst st) -> In (u ++ suffix c) fs) /\
    (forall x, In x (snd st) -> In x fs /\ Z x) /\ NoDup (snd st) /\
    (forall x, In x fs -> In x fs0 \/ Q x).

  Definition allowed (t : str) : Prop :=
    forall x, derived cs0 bt x -> derived cs0 x t -> Q x /\ (x <> t -> ~ In x kept -> Z x).
  Lemma allowed_sub t c : In c cs0 -> allowed (t ++ suffix c) -> allowed t.
  Proof.
    intros I A x D1 D2. destruct (A x D1) as [B C].
    - now constructor.
    - split; auto. intros _ K. apply C; auto. intros E.
      assert (L : length t < length x) by (rewrite E, app_length; cbn; lia).
      assert (L2 : forall a b, derived cs0 a b -> length a <= length b).
      { clear. intros a b D. induction D; auto. rewrite app_length. lia. }
      apply L2 in D2. lia.
  Qed.

  Definition post (t : str) (st st' : list cmd * list str) (fs fs' : list str) : Prop :=
    inv st' fs' /\ incl fs fs' /\ incl (snd st) (snd st').

  Fixpoint loop (rec : str -> list cmd * list str -> list cmd * list str) (l : list str) (t : str) (st : list cmd * list str) : list cmd * list str :=
    match l with
    | [] => st
    | c :: l' =>
        if endswith (suffix c) t then
          let t1 := cut_last (length (suffix c)) t in
          let st1 := rec t1 st in
          let cmds := if existsb (cmd_eqb (Convert t1 c)) (fst st1) then fst st1 else fst st1 ++ [Convert t1 c] in
          let rm := if mem_str t1 kept then snd st1 else add_str t1 (snd st1) in
          loop rec l' t1 (cmds, rm)
        else loop rec l' t st
    end.
  Lemma conversions_S n t st : conversions (S n) cs kept t st = loop (conversions n cs kept) cs t st.
  Proof.
    cbn [conversions]. match goal with |- ?f cs t st = _ => assert (E : forall l t st, f l t st = loop (conversions n cs kept) l t st) end; [|apply E].
    intros l. induction l as [|d l IH]; intros t' st'; cbn [loop]; auto.
    destruct (endswith (suffix d) t'); auto.
  Qed.

  Definition good (rec : str -> list cmd * list str -> list cmd * list str) (n : nat) : Prop :=
    forall t st fs, length t < n -> inv st fs -> derived cs0 bt t -> allowed t ->
      exists fs', post t st (rec t st) fs fs' /\ (forall u, derived cs0 bt u -> derived cs0 u t -> In u fs') /\
        (forall u, derived cs0 bt u -> derived cs0 u t -> u <> t -> ~ In u kept -> In u (snd (rec t st))).

  Lemma step_inv st fs t c : inv st fs -> In t fs -> derived cs0 bt t -> In c cs0 -> allowed (t ++ suffix c) ->
    exists fs', inv (if existsb (cmd_eqb (Convert t c)) (fst st) then fst st else fst st ++ [Convert t c],
                     if mem_str t kept then snd st else add_str t (snd st)) fs' /\ incl fs fs' /\ In (t ++ suffix c) fs'.
  Proof.
    intros (R & B & I0 & C & M & N & X) T D IC AL.
    assert (MR : forall fs', incl fs fs' -> forall x, In x (if mem_str t kept then snd st else add_str t (snd st)) -> In x fs' /\ Z x).
    { intros fs' J x H. destruct (mem_str t kept) eqn:EK; [apply M in H; split; [apply J|]; tauto|]. apply add_str_in in H. destruct H as [->|H]; [|apply M in H; split; [apply J|]; tauto].
      split; [apply J; auto|]. apply mem_false in EK. destruct (AL t D) as [_ K].
      { constructor; [constructor|auto]. }
      apply K; auto. intros E. apply (f_equal (@length _)) in E. rewrite app_length in E. cbn in E. lia. }
    assert (NR : NoDup (if mem_str t kept then snd st else add_str t (snd st))).
    { destruct (mem_str t kept); auto. now apply add_str_nodup. }
    destruct (existsb (cmd_eqb (Convert t c)) (fst st)) eqn:E.
    - apply existsb_cmd in E. exists fs. split; [|split; [apply incl_refl|apply C; auto]]. unfold inv. cbn [fst snd].
      refine (conj R (conj B (conj I0 (conj C (conj (MR fs (incl_refl _)) (conj NR X)))))).
    - exists ((t ++ suffix c) :: fs). split; [|split; [intros x H; now right|now left]]. unfold inv. cbn [fst snd].
      refine (conj _ (conj _ (conj _ (conj _ (conj (MR _ _) (conj NR _)))))).
      + rewrite run_app, R. cbn [run_cmds run_cmd]. apply mem_iff in T. now rewrite T.
      + now right.
      + intros x H. right. auto.
      + intros u d H. apply in_app_iff in H. destruct H as [H|[H|[]]]; [right; auto|]. inversion H; subst. now left.
      + intros x H. now right.
      + intros x [<-|H]; auto. right. apply AL.
        * constructor; auto.
        * constructor.
  Qed.

  Lemma not_base_suffix u c : In c cs0 -> derived cs0 bt (u ++ suffix c) -> derived cs0 bt u.
  Proof. intros I D. destruct (derived_inv _ _ _ _ unamb I D) as [E|]; auto. exfalso. eapply bplain; eauto. Qed.

  Lemma loop_ok rec n : good rec n -> forall l t st fs, incl l cs0 -> length t < S n -> inv st fs -> derived cs0 bt t -> allowed t ->
    (t = bt -> True) ->
    exists fs', post t st (loop rec l t st) fs fs' /\
      (forall u c, t = u ++ suffix c -> In c l -> (forall v, derived cs0 bt v -> derived cs0 v t -> In v fs') /\
        (forall v, derived cs0 bt v -> derived cs0 v t -> v <> t -> ~ In v kept -> In v (snd (loop rec l t st)))).
  Proof.
    intros G. induction l as [|c l IH]; intros t st fs IL L IV D AL _; cbn [loop].
    - exists fs. split; [split; [auto|split; apply incl_refl]|]. intros u c _ [].
    - assert (IL' : incl l cs0) by (intros x H; apply IL; now right). assert (Ic : In c cs0) by (apply IL; now left).
      destruct (endswith (suffix c) t) eqn:E.
      + apply ends_iff in E. set (t1 := cut_last (length (suffix c)) t) in *. clearbody t1. subst t.
        assert (D1 : derived cs0 bt t1) by (eapply not_base_suffix; eauto).
        assert (L1 : length t1 < n) by (rewrite app_length in L; cbn in L; lia).
        assert (AL1 : allowed t1) by (eapply allowed_sub; eauto).
        destruct (G t1 st fs L1 IV D1 AL1) as (fs1 & (IV1 & J1 & S1) & T1 & C1).
        destruct (step_inv (rec t1 st) fs1 t1 c IV1 (T1 t1 D1 (d_base _ _)) D1 Ic AL) as (fs2 & IV2 & J2 & T2).
        set (st2 := (if existsb (cmd_eqb (Convert t1 c)) (fst (rec t1 st)) then fst (rec t1 st) else fst (rec t1 st) ++ [Convert t1 c],
                     if mem_str t1 kept then snd (rec t1 st) else add_str t1 (snd (rec t1 st)))) in *.
        destruct (IH t1 st2 fs2 IL' ltac:(lia) IV2 D1 AL1 (fun _ => I)) as (fs3 & (IV3 & J3 & S3) & _).
        assert (S2 : incl (snd (rec t1 st)) (snd st2)).
        { unfold st2. cbn [snd]. destruct (mem_str t1 kept); [apply incl_refl|]. intros x H. apply add_str_in. auto. }
        exists fs3. split.
        * split; auto. split; [intros x H; apply J3, J2, J1, H|intros x H; apply S3, S2, S1, H].
        * intros u d EU ID. split; [intros v V1 V2; apply J3; destruct (derived_inv _ _ _ _ unamb Ic V2) as [->|V5]; [exact T2|apply J2; auto]|]. intros v V1 V2 V3 V4. apply S3. destruct (derived_inv _ _ _ _ unamb Ic V2) as [->|V5]; [congruence|].
          destruct (str_eq_dec v t1) as [->|NE].
          -- unfold st2. cbn [snd]. apply mem_false in V4. rewrite V4. apply add_str_in. auto.
          -- apply S2. apply C1; auto.
      + destruct (IH t st fs IL' L IV D AL (fun _ => I)) as (fs1 & P & K). exists fs1. split; auto.
        intros u d EU [->|ID]; [|apply K with (u := u) (c := d); auto]. subst t. rewrite ends_app in E. discriminate.
  Qed.

  Lemma good_conversions n : good (conversions n cs kept) n.
  Proof.
    induction n as [|n IH]; intros t st fs L IV D AL; [lia|]. rewrite conversions_S.
    destruct (loop_ok _ _ IH cs t st fs) as (fs' & P & K); auto.
    { intros c H. now apply same. }
    exists fs'. split; auto. inversion D as [E|u c D' I E].
    - assert (Et : t = bt) by auto. subst t. split.
      { intros v V1 V2. inversion V2 as [E2|w d V4 V5 E2]; [exact (proj1 (proj2 (proj1 P)))|]. exfalso. eapply bplain; [exact V5|symmetry; exact E2]. }
      intros v V1 V2 V3. exfalso. inversion V2 as [E2|w d V4 V5 E2]; [congruence|]. eapply bplain; eauto.
    - rewrite E. apply (K u c); auto. now apply same.
  Qed.

  Definition done (ts : list str) (st : list cmd * list str) (fs : list str) : Prop :=
    inv st fs /\ (forall t u, In t ts -> derived cs0 bt u -> derived cs0 u t -> In u fs) /\
    (forall t u, In t ts -> derived cs0 bt u -> derived cs0 u t -> u <> t -> ~ In u kept -> In u (snd st)).
  Lemma all_conversions ts : forall pre st fs, done pre st fs -> Forall (derived cs0 bt) ts -> Forall allowed ts ->
    exists fs', done (pre ++ ts) (fold_left (fun st t => conversions (S (length t)) cs kept t st) ts st) fs'.
  Proof.
    induction ts as [|t ts IH]; intros pre st fs (IV & A & B) FD FA; cbn [fold_left].
    - exists fs. rewrite app_nil_r. split; auto.
    - inversion FD; inversion FA; subst. destruct (good_conversions (S (length t)) t st fs) as (fs1 & (IV1 & J1 & S1) & T1 & C1); auto.
      destruct (IH (pre ++ [t]) (conversions (S (length t)) cs kept t st) fs1) as (fs' & DN); auto.
      + split; auto. split.
        * intros x u H. apply in_app_iff in H. destruct H as [H|[<-|[]]]; auto. intros. apply J1. eapply A; eauto.
        * intros x u H. apply in_app_iff in H. destruct H as [H|[<-|[]]]; auto. intros. apply S1. eapply B; eauto.
      + exists fs'. rewrite <- app_assoc in DN. exact DN.
  Qed.
End Task.

Lemma run_removes rm fs : NoDup rm -> incl rm fs -> run_cmds (map Remove rm) fs = Some (filter (fun x => negb (mem_str x rm)) fs).
Proof.
  revert fs. induction rm as [|r rm IH]; intros fs N I; cbn [map run_cmds run_cmd].
  - f_equal. induction fs as [|x fs IHf]; cbn; auto. f_equal. apply IHf. intros y [].
  - assert (R : In r fs) by (apply I; now left). apply mem_iff in R. rewrite R. inversion N; subst. rewrite IH; auto.
    + f_equal. clear. induction fs as [|x fs IHf]; cbn [filter]; auto. change (mem_str x (r :: rm)) with (seqb x r || mem_str x rm).
      destruct (seqb x r) eqn:E; cbn [negb orb]; [exact IHf|]. cbn [filter]. destruct (mem_str x rm); cbn [negb]; rewrite IHf; auto.
    + intros x X. apply filter_In. split; [apply I; now right|]. destruct (seqb x r) eqn:E; auto. apply seqb_eq in E. subst. contradiction.
Qed.

(** The exact effect of one task on the files. *)
Lemma task_exact cs0 cs kept bt ts : (forall c, In c cs <-> In c cs0) -> unambiguous cs0 -> plain cs0 bt -> Forall (derived cs0 bt) ts ->
  forall fs0, exists fs, run_cmds (task_cmds cs kept bt ts) fs0 = Some fs /\
  forall x, In x fs <->
    (In x fs0 \/ x = bt \/ exists t, In t ts /\ derived cs0 bt x /\ derived cs0 x t) /\
    ~ ((exists t, In t ts /\ derived cs0 bt x /\ derived cs0 x t /\ x <> t /\ ~ In x kept) \/ (~ In bt kept /\ x = last ts bt)).
Proof.
  intros SM U P FD fs0. unfold task_cmds.
  set (Q := fun x => x = bt \/ exists t, In t ts /\ derived cs0 bt x /\ derived cs0 x t).
  set (Z := fun x => exists t, In t ts /\ derived cs0 bt x /\ derived cs0 x t /\ x <> t /\ ~ In x kept).
  destruct (all_conversions cs0 cs kept bt fs0 Q Z SM U P ts [] ([Build bt], []) (bt :: fs0)) as (fs1 & (R & B & I0 & C & M & N & X) & T & CC).
  - split; [|split; intros t u []]. unfold inv. cbn [fst snd run_cmds run_cmd].
    split; auto. split; [now left|]. split; [intros x H; now right|]. split; [intros u c [H|[]]; discriminate|]. split; [intros x []|]. split; [constructor|].
    intros x [<-|H]; auto. right. now left.
  - auto.
  - rewrite Forall_forall in *. intros t H x D1 D2. split; [right; eauto|]. intros NE K. exists t. auto.
  - cbn [app] in *. match type of R with run_cmds (fst ?e) _ = _ => set (st := e) in * end. clearbody st.
    set (rm := if mem_str bt kept then snd st else add_str (last ts bt) (snd st)).
    assert (LF : In (last ts bt) fs1).
    { destruct ts as [|t ts'] eqn:Ets; [exact B|]. rewrite <- Ets in *. assert (NE : ts <> []) by (rewrite Ets; discriminate).
      destruct (exists_last NE) as (l & a & El). assert (La : In a ts) by (rewrite El; apply in_or_app; right; now left). rewrite El, last_last. rewrite Forall_forall in FD. apply (T a a La (FD a La)). constructor. }
    assert (IRM : forall x, In x rm <-> Z x \/ (~ In bt kept /\ x = last ts bt)).
    { intros x. unfold rm. split.
      - intros H. destruct (mem_str bt kept) eqn:E; [left; now apply M|]. apply mem_false in E. apply add_str_in in H. destruct H as [->|H]; auto. left. now apply M.
      - intros [(t & T1 & T2 & T3 & T4 & T5)|[K ->]].
        + destruct (mem_str bt kept); [|apply add_str_in; right]; eapply CC; eauto.
        + apply mem_false in K. rewrite K. apply add_str_in. auto. }
    exists (filter (fun x => negb (mem_str x rm)) fs1). split.
    + rewrite run_app, R. apply run_removes.
      * unfold rm. destruct (mem_str bt kept); auto. now apply add_str_nodup.
      * intros x H. unfold rm in H. destruct (mem_str bt kept); [now apply M|]. apply add_str_in in H. destruct H as [->|H]; auto. now apply M.
    + intros x. rewrite filter_In, negb_true_iff, mem_false, IRM. split.
      * intros [A1 A2]. split; auto. apply X in A1. destruct A1 as [A1|[A1|A1]]; auto.
      * intros [A1 A2]. split; auto. destruct A1 as [A1|[->|(t & A3 & A4 & A5)]]; auto.
        eapply T; eauto.
Qed.


(** ** Collecting the types *)
Lemma lookup_add_to m k x k' y : In y (lookup (add_to m k x) k') <-> In y (lookup m k') \/ (k' = k /\ y = x).
Proof.
  induction m as [|[a v] m IH]; cbn [add_to lookup].
  - destruct (seqb k' k) eqn:E; [apply seqb_eq in E; subst; cbn; intuition|]. cbn. split; [tauto|]. intros [[]|[-> _]]. rewrite seqb_refl in E. discriminate.
  - destruct (seqb k a) eqn:E; cbn [lookup].
    + apply seqb_eq in E. subst a. destruct (seqb k' k) eqn:E2.
      * apply seqb_eq in E2. subst. destruct (mem_str x v) eqn:M; [apply mem_iff in M; intuition; subst; auto|]. rewrite in_app_iff. cbn. intuition.
      * split; auto. intros [H|[-> _]]; auto. rewrite seqb_refl in E2. discriminate.
    + destruct (seqb k' a) eqn:E2; [|apply IH]. split; auto. intros [H|[-> _]]; auto. congruence.
Qed.
Lemma lookup_add_key m k k' : lookup (add_key m k) k' = lookup m k'.
Proof.
  induction m as [|[a v] m IH]; cbn [add_key lookup]; [destruct (seqb k' k); auto|]. destruct (seqb k a); cbn [lookup]; auto. rewrite IH. reflexivity.
Qed.
Lemma add_to_keys m k x k' : In k' (map fst (add_to m k x)) <-> k' = k \/ In k' (map fst m).
Proof.
  induction m as [|[a v] m IH]; cbn [add_to map fst In]; [intuition|]. destruct (seqb k a) eqn:E; cbn [map fst In]; [apply seqb_eq in E; subst; intuition|]. rewrite IH. intuition.
Qed.
Lemma add_to_nodup m k x : NoDup (map fst m) -> NoDup (map fst (add_to m k x)).
Proof.
  induction m as [|[a v] m IH]; cbn [add_to map fst]; intros N; [repeat constructor; auto|]. inversion N; subst. destruct (seqb k a) eqn:E; cbn [map fst]; [constructor; auto|].
  constructor; auto. rewrite add_to_keys. intros [->|H]; auto. rewrite seqb_refl in E. discriminate.
Qed.
Lemma lookup_entry m k v : NoDup (map fst m) -> In (k, v) m -> lookup m k = v.
Proof.
  induction m as [|[a w] m IH]; cbn [map fst lookup]; intros N I; [destruct I|]. inversion N; subst. destruct I as [E|I].
  - inversion E; subst. now rewrite seqb_refl.
  - destruct (seqb k a) eqn:E; auto. apply seqb_eq in E. subst. exfalso. apply H1. apply (in_map fst) in I. exact I.
Qed.
Lemma lookup_key m k y : In y (lookup m k) -> In (k, lookup m k) m.
Proof.
  induction m as [|[a w] m IH]; cbn [lookup]; [intros []|]. destruct (seqb k a) eqn:E; [apply seqb_eq in E; subst; now left|]. intros H. right. auto.
Qed.

Section Collect.
  Variable cf : config.
  Notation base := (base_type cf).
  Notation deps := (deps_of cf).

  Lemma needed_trans req t u : needed base deps req t -> needed base deps [t] u -> needed base deps req u.
  Proof.
    intros A B. induction B as [x [<-|[]]|x y B IH I|x B IH]; [exact A|eapply n_dep; eauto|now apply n_base].
  Qed.
  Lemma needed_cases t u : needed base deps [t] u -> u = t \/ (exists d, In d (deps t) /\ needed base deps [d] u) \/ (base t <> t /\ needed base deps [base t] u).
  Proof.
    intros N. induction N as [x [<-|[]]|x y N IH I|x N IH]; auto.
    - destruct IH as [->|[(d & D & E)|[D E]]].
      + right. left. exists y. split; auto. apply n_req. now left.
      + right. left. exists d. split; auto. eapply n_dep; eauto.
      + right. right. split; auto. eapply n_dep; eauto.
    - destruct IH as [->|[(d & D & E)|[D E]]].
      + destruct (str_eq_dec (base t) t) as [E|E]; [left; exact E|]. right. right. split; auto. apply n_req. now left.
      + right. left. exists d. split; auto. now apply n_base.
      + right. right. split; auto. now apply n_base.
  Qed.

  Definition step_types (s : collected) (dep : str) : collected :=
    {| cl_base := cl_base s; cl_deps := cl_deps s; cl_types := if mem_str dep (cl_types s) then cl_types s else cl_types s ++ [dep] |}.
  Definition step_deps (s : collected) (bt dep : str) : collected :=
    {| cl_base := cl_base s; cl_deps := add_to (cl_deps s) bt (base dep); cl_types := cl_types s |}.
  Definition start (s : collected) (bt t : str) : collected :=
    {| cl_base := add_to (cl_base s) bt t; cl_deps := add_key (cl_deps s) bt; cl_types := cl_types s |}.
  Fixpoint dep_loop (rec : str -> collected -> option collected) (bt : str) (l : list str) (s : collected) : option collected :=
    match l with
    | [] => Some s
    | dep :: l' => match rec dep (step_types s dep) with None => None | Some s2 => dep_loop rec bt l' (step_deps s2 bt dep) end
    end.
  Lemma collect_S n t s : collect (S n) cf t s =
    match dep_loop (collect n cf) (base t) (deps t) (start s (base t) t) with
    | None => None
    | Some s1 => if seqb (base t) t then Some s1 else collect n cf (base t) s1
    end.
  Proof.
    cbn [collect]. fold (start s (base t) t).
    match goal with |- match ?f (deps t) ?x with _ => _ end = _ => assert (E : forall l s, f l s = dep_loop (collect n cf) (base t) l s) end.
    { induction l as [|d l IH]; intros s'; cbn [dep_loop]; auto. fold (step_types s' d). destruct (collect n cf d (step_types s' d)); auto. }
    rewrite E. reflexivity.
  Qed.

  Definition mono (s s' : collected) : Prop :=
    (forall k x, In x (lookup (cl_base s) k) -> In x (lookup (cl_base s') k)) /\
    (forall k x, In x (lookup (cl_deps s) k) -> In x (lookup (cl_deps s') k)) /\
    incl (cl_types s) (cl_types s').
  Lemma mono_refl s : mono s s.
  Proof. split; [|split]; auto. apply incl_refl. Qed.
  Lemma mono_trans a b c : mono a b -> mono b c -> mono a c.
  Proof. intros (A1 & A2 & A3) (B1 & B2 & B3). split; [|split]; auto. intros x H. auto. Qed.
  Lemma mono_start s bt t : mono s (start s bt t).
  Proof. split; [|split]; cbn [start cl_base cl_deps cl_types]; [intros; apply lookup_add_to; auto|intros; now rewrite lookup_add_key|apply incl_refl]. Qed.
  Lemma mono_types s d : mono s (step_types s d).
  Proof. split; [|split]; cbn [step_types cl_base cl_deps cl_types]; auto. destruct (mem_str d (cl_types s)); [apply incl_refl|]. apply incl_appl, incl_refl. Qed.
  Lemma mono_deps s b d : mono s (step_deps s b d).
  Proof. split; [|split]; cbn [step_deps cl_base cl_deps cl_types]; auto; [intros; apply lookup_add_to; auto|apply incl_refl]. Qed.
  Definition okt (s : collected) (u : str) : Prop :=
    In u (lookup (cl_base s) (base u)) /\ forall d, In d (deps u) -> In d (cl_types s) /\ In (base d) (lookup (cl_deps s) (base u)).
  Lemma okt_mono s s' u : mono s s' -> okt s u -> okt s' u.
  Proof. intros (A1 & A2 & A3) [B C]. split; auto. intros d D. destruct (C d D). auto. Qed.

  Definition cpost (t : str) (s s' : collected) : Prop :=
    mono s s' /\ (forall u, needed base deps [t] u -> okt s' u) /\
    (forall k x, In x (lookup (cl_base s') k) -> In x (lookup (cl_base s) k) \/ (k = base x /\ needed base deps [t] x)) /\
    (forall x, In x (cl_types s') -> In x (cl_types s) \/ exists u, needed base deps [t] u /\ In x (deps u)) /\
    (NoDup (map fst (cl_base s)) -> NoDup (map fst (cl_base s'))).

  Lemma dep_loop_post rec bt l : (forall t s s', rec t s = Some s' -> cpost t s s') ->
    forall s s', dep_loop rec bt l s = Some s' ->
    mono s s' /\ (forall d, In d l -> In d (cl_types s') /\ In (base d) (lookup (cl_deps s') bt) /\ forall u, needed base deps [d] u -> okt s' u) /\
    (forall k x, In x (lookup (cl_base s') k) -> In x (lookup (cl_base s) k) \/ (k = base x /\ exists d, In d l /\ needed base deps [d] x)) /\
    (forall x, In x (cl_types s') -> In x (cl_types s) \/ In x l \/ exists d u, In d l /\ needed base deps [d] u /\ In x (deps u)) /\
    (NoDup (map fst (cl_base s)) -> NoDup (map fst (cl_base s'))).
  Proof.
    intros R. induction l as [|d l IH]; intros s s' H; cbn [dep_loop] in H.
    - injection H as <-. split; [apply mono_refl|]. split; [intros d []|]. auto.
    - destruct (rec d (step_types s d)) as [s2|] eqn:E; [|discriminate]. apply R in E. destruct E as (M1 & C1 & B1 & T1 & N1).
      destruct (IH _ _ H) as (M2 & C2 & B2 & T2 & N2).
      assert (M3 : mono s2 s') by (eapply mono_trans; [apply mono_deps|exact M2]).
      assert (M4 : mono (step_types s d) s') by (eapply mono_trans; eauto).
      split; [|split; [|split; [|split]]].
      + eapply mono_trans; [apply (mono_types s d)|exact M4].
      + intros x [<-|I]; auto. split; [|split].
        * apply M4. cbn [step_types cl_types]. destruct (mem_str d (cl_types s)) eqn:E; [now apply mem_iff|]. apply in_or_app. right. now left.
        * apply M2. cbn [step_deps cl_deps]. apply lookup_add_to. auto.
        * intros u U. eapply okt_mono; [exact M3|]. auto.
      + intros k x I. apply B2 in I. destruct I as [I|(-> & y & Y & Z)]; [|right; split; auto; exists y; split; auto; now right].
        apply B1 in I. destruct I as [I|[-> Z]]; [left; exact I|]. right. split; auto. exists d. split; auto. now left.
      + intros x I. apply T2 in I. destruct I as [I|[I|(y & u & Y & Z)]].
        * apply T1 in I. destruct I as [I|(u & U & V)].
          -- cbn [step_types cl_types] in I. destruct (mem_str d (cl_types s)); auto. apply in_app_iff in I. destruct I as [I|[<-|[]]]; auto. right. left. now left.
          -- right. right. exists d, u. split; [now left|auto].
        * right. left. now right.
        * right. right. exists y, u. split; [now right|auto].
      + intros N. apply N2. cbn [step_deps cl_base]. apply N1. exact N.
  Qed.

  Lemma collect_post n : forall t s s', collect n cf t s = Some s' -> cpost t s s'.
  Proof.
    induction n as [|n IH]; intros t s s' H; [discriminate|]. rewrite collect_S in H.
    destruct (dep_loop (collect n cf) (base t) (deps t) (start s (base t) t)) as [s1|] eqn:E; [|discriminate].
    destruct (dep_loop_post _ _ _ IH _ _ E) as (M1 & C1 & B1 & T1 & N1).
    assert (NT : needed base deps [t] t) by (apply n_req; now left).
    assert (G : mono s s1 /\ okt s1 t /\
      (forall k x, In x (lookup (cl_base s1) k) -> In x (lookup (cl_base s) k) \/ (k = base x /\ needed base deps [t] x)) /\
      (forall x, In x (cl_types s1) -> In x (cl_types s) \/ exists u, needed base deps [t] u /\ In x (deps u)) /\
      (NoDup (map fst (cl_base s)) -> NoDup (map fst (cl_base s1)))).
    { split; [eapply mono_trans; [apply mono_start|exact M1]|]. split; [|split; [|split]].
      - split; [apply M1; cbn [start cl_base]; apply lookup_add_to; auto|]. intros d D. destruct (C1 d D) as (Y1 & Y2 & _). auto.
      - intros k x I. apply B1 in I. destruct I as [I|(-> & d & D & Z)].
        + cbn [start cl_base] in I. apply lookup_add_to in I. destruct I as [I|[-> ->]]; auto.
        + right. split; auto. eapply needed_trans; [|exact Z]. eapply n_dep; eauto.
      - intros x I. apply T1 in I. destruct I as [I|[I|(d & u & D & U & V)]]; auto; [right; exists t; auto|].
        right. exists u. split; auto. eapply needed_trans; [|exact U]. eapply n_dep; eauto.
      - intros N. apply N1. cbn [start cl_base]. now apply add_to_nodup. }
    destruct G as (G1 & G2 & G3 & G4 & G5). destruct (seqb (base t) t) eqn:EB.
    - injection H as <-. apply seqb_eq in EB. split; auto. split; auto. intros u U. destruct (needed_cases t u U) as [->|[(d & D & Z)|[X _]]]; auto; [|congruence].
      apply (C1 d D). auto.
    - destruct (IH _ _ _ H) as (M2 & C2 & B2 & T2 & N2). assert (NB : needed base deps [t] (base t)) by now apply n_base.
      split; [eapply mono_trans; eauto|]. split; [|split; [|split]]; auto.
      + intros u U. destruct (needed_cases t u U) as [->|[(d & D & Z)|[_ X]]]; auto; (eapply okt_mono; [exact M2|]); auto. apply (C1 d D). auto.
      + intros k x I. apply B2 in I. destruct I as [I|[-> Z]]; auto. right. split; auto. eapply needed_trans; eauto.
      + intros x I. apply T2 in I. destruct I as [I|(u & U & V)]; auto. right. exists u. split; auto. eapply needed_trans; eauto.
  Qed.

  Definition lpost (req : list str) (s s' : collected) : Prop :=
    mono s s' /\ (forall u, needed base deps req u -> okt s' u) /\
    (forall k x, In x (lookup (cl_base s') k) -> In x (lookup (cl_base s) k) \/ (k = base x /\ needed base deps req x)) /\
    (forall x, In x (cl_types s') -> In x (cl_types s) \/ exists u, needed base deps req u /\ In x (deps u)) /\
    (NoDup (map fst (cl_base s)) -> NoDup (map fst (cl_base s'))).
  Lemma needed_incl a b u : incl a b -> needed base deps a u -> needed base deps b u.
  Proof. intros I N. induction N; [apply n_req; auto|eapply n_dep; eauto|now apply n_base]. Qed.
  Lemma needed_split a req u : needed base deps (a :: req) u -> needed base deps [a] u \/ needed base deps req u.
  Proof.
    intros N. induction N as [x [<-|I]|x y N IH I|x N IH].
    - left. apply n_req. now left.
    - right. now apply n_req.
    - destruct IH; [left|right]; eapply n_dep; eauto.
    - destruct IH; [left|right]; now apply n_base.
  Qed.
  Lemma collect_list_post n req : forall s s', collect_list n cf req s = Some s' -> lpost req s s'.
  Proof.
    induction req as [|t req IH]; intros s s' H; cbn [collect_list] in H.
    - injection H as <-. split; [apply mono_refl|]. split; [|auto]. intros u N. exfalso. induction N as [x []|x y N IH I|x N IH]; auto.
    - destruct (collect n cf t s) as [s1|] eqn:E; [|discriminate]. apply collect_post in E. destruct E as (M1 & C1 & B1 & T1 & N1).
      destruct (IH _ _ H) as (M2 & C2 & B2 & T2 & N2).
      assert (I1 : incl [t] (t :: req)) by (intros x [<-|[]]; now left). assert (I2 : incl req (t :: req)) by (intros x X; now right).
      split; [eapply mono_trans; eauto|]. split; [|split; [|split]]; auto.
      + intros u U. apply needed_split in U. destruct U as [U|U]; auto. eapply okt_mono; [exact M2|]. auto.
      + intros k x I. apply B2 in I. destruct I as [I|[-> Z]]; [|right; split; [auto|exact (needed_incl _ _ _ I2 Z)]].
        apply B1 in I. destruct I as [I|[-> Z]]; [left; exact I|]. right. split; [auto|exact (needed_incl _ _ _ I1 Z)].
      + intros x I. apply T2 in I. destruct I as [I|(u & U & V)]; [|right; exists u; split; [exact (needed_incl _ _ _ I2 U)|exact V]].
        apply T1 in I. destruct I as [I|(u & U & V)]; [left; exact I|]. right. exists u. split; [exact (needed_incl _ _ _ I1 U)|exact V].
  Qed.

  (** What has been collected in the end. *)
  Lemma collect_all_spec n s : collect_all n cf = Some s ->
    (forall k x, In x (lookup (cl_base s) k) <-> k = base x /\ needed base deps (cf_fstypes cf) x) /\
    (forall x, In x (cl_types s) <-> wanted base deps (cf_fstypes cf) x) /\
    (forall u d, needed base deps (cf_fstypes cf) u -> In d (deps u) -> In (base d) (lookup (cl_deps s) (base u))) /\
    NoDup (map fst (cl_base s)).
  Proof.
    intros H. apply collect_list_post in H. destruct H as (M & C & B & T & N). cbn [cl_base cl_types map] in *. split; [|split; [|split]].
    - intros k x. split; [intros I; apply B in I; destruct I as [[]|I]; exact I|]. intros [-> U]. apply C. exact U.
    - intros x. unfold wanted. split; [apply T|]. intros [I|(u & U & V)]; [apply M; exact I|]. apply (C u U). exact V.
    - intros u d U D. apply (C u U). exact D.
    - apply N. constructor.
  Qed.

  (** Every key has a non-empty list. *)
  Definition nonempty (s : collected) : Prop := forall k v, In (k, v) (cl_base s) -> v <> [].
  Lemma add_to_nonempty m k x : (forall k v, In (k, v) m -> v <> []) -> forall k' v, In (k', v) (add_to m k x) -> v <> [].
  Proof.
    induction m as [|[a w] m IH]; cbn [add_to]; intros A k' v I.
    - destruct I as [E|[]]. inversion E. discriminate.
    - destruct (seqb k a); destruct I as [E|I].
      + inversion E; subst. destruct (mem_str x w); [eapply A; now left|]. destruct w; discriminate.
      + eapply A. right. eauto.
      + inversion E; subst. eapply A. now left.
      + eapply IH; eauto. intros. eapply A. right. eauto.
  Qed.
  Lemma collect_nonempty n : forall t s s', collect n cf t s = Some s' -> nonempty s -> nonempty s'.
  Proof.
    induction n as [|n IH]; intros t s s' H N; [discriminate|]. rewrite collect_S in H.
    destruct (dep_loop (collect n cf) (base t) (deps t) (start s (base t) t)) as [s1|] eqn:E; [|discriminate].
    assert (N1 : nonempty s1).
    { assert (N0 : nonempty (start s (base t) t)) by (intros k v; cbn [start cl_base]; apply add_to_nonempty; auto).
      revert N0 E. generalize (start s (base t) t). generalize (deps t). induction l as [|d l IHl]; intros c N0 E; cbn [dep_loop] in E; [injection E as <-; auto|].
      destruct (collect n cf d (step_types c d)) as [s2|] eqn:E2; [|discriminate]. apply IHl in E; auto. apply IH in E2; auto. }
    destruct (seqb (base t) t); [injection H as <-; auto|]. eapply IH; eauto.
  Qed.
  Lemma collect_all_nonempty n s : collect_all n cf = Some s -> nonempty s.
  Proof.
    unfold collect_all. match goal with |- collect_list _ _ _ ?x = _ -> _ => assert (N : nonempty x) by (intros k v []); revert N; generalize x end.
    generalize (cf_fstypes cf). induction l as [|t l IH]; intros c N H; cbn [collect_list] in H; [injection H as <-; auto|].
    destruct (collect n cf t c) as [s1|] eqn:E; [|discriminate]. apply collect_nonempty in E; auto. eapply IH; eauto.
  Qed.

  (** The order of the names of a base type that is not wanted itself. *)
  Section Last.
    Variables (req : list str) (b t0 : str).
    Hypothesis unwanted : ~ wanted base deps req b.
    Hypothesis tb : t0 <> b.
    Hypothesis only : forall u, needed base deps req u -> base u = b -> u <> b -> u = t0.
    Definition linv (s : collected) : Prop :=
      lookup (cl_base s) b = [] \/ lookup (cl_base s) b = [t0] \/ lookup (cl_base s) b = [t0; b].

    Lemma lookup_add_other m k x : k <> b -> lookup (add_to m k x) b = lookup m b.
    Proof.
      intros NE. induction m as [|[a v] m IH]; cbn [add_to lookup].
      - destruct (seqb b k) eqn:E; auto. apply seqb_eq in E. congruence.
      - destruct (seqb k a) eqn:E; cbn [lookup]; [apply seqb_eq in E; subst; destruct (seqb b a) eqn:E2; auto; apply seqb_eq in E2; congruence|]. now rewrite IH.
    Qed.
    Lemma lookup_add_same m x : lookup (add_to m b x) b = if mem_str x (lookup m b) then lookup m b else lookup m b ++ [x].
    Proof.
      induction m as [|[a v] m IH]; cbn [add_to lookup].
      - now rewrite seqb_refl.
      - destruct (seqb b a) eqn:E; cbn [lookup]; rewrite E; auto.
    Qed.
    Lemma start_linv s u : linv s -> needed base deps req u -> (u <> b \/ In t0 (lookup (cl_base s) b)) -> linv (start s (base u) u).
    Proof.
      intros L N C. unfold linv, start. cbn [cl_base]. destruct (str_eq_dec (base u) b) as [E|E]; [|rewrite lookup_add_other by auto; exact L].
      rewrite E, lookup_add_same. destruct (mem_str u (lookup (cl_base s) b)) eqn:M; [exact L|]. apply mem_false in M.
      destruct (str_eq_dec u b) as [->|NE].
      - destruct C as [C|C]; [congruence|]. destruct L as [L|[L|L]]; rewrite L in *; [destruct C|right; right; auto|]. exfalso. apply M. cbn. auto.
      - assert (u = t0) by (apply only; auto). subst u. destruct L as [L|[L|L]]; rewrite L in *; [right; left; auto| |]; exfalso; apply M; cbn; auto.
    Qed.
    Lemma collect_linv n : forall u s s', collect n cf u s = Some s' -> needed base deps req u -> (u <> b \/ In t0 (lookup (cl_base s) b)) -> linv s -> linv s'.
    Proof.
      induction n as [|n IH]; intros u s s' H N C L; [discriminate|]. rewrite collect_S in H.
      destruct (dep_loop (collect n cf) (base u) (deps u) (start s (base u) u)) as [s1|] eqn:E; [|discriminate].
      assert (L1 : linv s1).
      { assert (L0 := start_linv s u L N C). assert (D : forall d, In d (deps u) -> needed base deps req d /\ d <> b).
        { intros d D. split; [eapply n_dep; eauto|]. intros ->. apply unwanted. right. eauto. }
        revert L0 D E. generalize (start s (base u) u). generalize (deps u). induction l as [|d l IHl]; intros c L0 D E; cbn [dep_loop] in E; [injection E as <-; auto|].
        destruct (collect n cf d (step_types c d)) as [s2|] eqn:E2; [|discriminate]. apply IHl in E; auto; [|intros; apply D; now right].
        destruct (D d) as [D1 D2]; [now left|]. apply IH in E2; auto. }
      destruct (seqb (base u) u) eqn:EB; [injection H as <-; auto|]. eapply IH; [exact H|now apply n_base| |exact L1].
      destruct (str_eq_dec (base u) b) as [E2|E2]; [|left; exact E2]. right. assert (NE : u <> b). { intros ->. rewrite E2 in EB. rewrite seqb_refl in EB. discriminate. }
      assert (u = t0) by (apply only; auto). subst u.
      destruct (dep_loop_post _ _ _ (collect_post n) _ _ E) as (M1 & _). apply M1. cbn [start cl_base]. apply lookup_add_to. auto.
    Qed.
    Lemma collect_list_linv n l : incl l req -> (forall s s', collect_list n cf l s = Some s' -> linv s -> linv s').
    Proof.
      induction l as [|t l IH]; intros I s s' H L; cbn [collect_list] in H; [injection H as <-; auto|].
      destruct (collect n cf t s) as [s1|] eqn:E; [|discriminate]. eapply IH; [intros x X; apply I; now right|exact H|].
      assert (It : In t req) by (apply I; now left). eapply collect_linv; [exact E|now apply n_req| |exact L]. left. intros ->. apply unwanted. now left.
    Qed.
  End Last.
  Lemma needed_unwanted req b : needed base deps req b -> ~ wanted base deps req b -> exists t, needed base deps req t /\ base t = b /\ t <> b.
  Proof.
    intros N W. remember b as x eqn:Ex in N. revert Ex. induction N as [x I|x y N IH I|x N IH]; intros Ex.
    - subst. exfalso. apply W. now left.
    - subst. exfalso. apply W. right. eauto.
    - destruct (str_eq_dec x b) as [E|E]; auto. exists x. auto.
  Qed.
  Lemma last_is_base n s b : collect_all n cf = Some s -> needed base deps (cf_fstypes cf) b -> ~ wanted base deps (cf_fstypes cf) b ->
    (forall t u, needed base deps (cf_fstypes cf) t -> needed base deps (cf_fstypes cf) u -> base t = b -> base u = b -> t <> b -> u <> b -> t = u) ->
    base b = b -> last (lookup (cl_base s) b) b = b.
  Proof.
    intros H N W O BB. destruct (needed_unwanted _ _ N W) as (t0 & T1 & T2 & T3).
    assert (L : linv b t0 s).
    { eapply (collect_list_linv (cf_fstypes cf) b t0 W) with (l := cf_fstypes cf); [|apply incl_refl|exact H|left; reflexivity].
      intros u U1 U2 U3. eapply O; eauto. }
    destruct (collect_all_spec _ _ H) as (S1 & _). assert (I : In b (lookup (cl_base s) b)) by (apply S1; auto).
    destruct L as [L|[L|L]]; rewrite L in *; [reflexivity| |reflexivity]. destruct I as [I|[]]. congruence.
  Qed.

  (** Termination. *)
  Definition calls (x y : str) : Prop := In x (deps y) \/ (x = base y /\ x <> y).
  Definition succeeds (n : nat) (t : str) : Prop := forall m s, n <= m -> collect m cf t s <> None.
  Lemma dep_loop_total n bt l : (forall d, In d l -> succeeds n d) -> forall m s, n <= m -> dep_loop (collect m cf) bt l s <> None.
  Proof.
    induction l as [|d l IH]; intros A m s L; cbn [dep_loop]; [discriminate|]. assert (B := A d (or_introl eq_refl) m (step_types s d) L).
    destruct (collect m cf d (step_types s d)); [|congruence]. apply IH; auto. intros; apply A; now right.
  Qed.
  Lemma collect_terminates : well_founded calls -> forall t, exists n, succeeds n t.
  Proof.
    intros W t. induction t as [t IH] using (well_founded_ind W).
    assert (D : exists n, forall d, In d (deps t) -> succeeds n d).
    { assert (A : forall d, In d (deps t) -> exists n, succeeds n d) by (intros d I; apply IH; now left). revert A. generalize (deps t).
      induction l as [|d l IHl]; intros A; [exists 0; intros d []|]. destruct IHl as (n1 & N1); [intros; apply A; now right|]. destruct (A d (or_introl eq_refl)) as (n2 & N2).
      exists (max n1 n2). intros x [<-|I]; intros m s L; [apply N2; lia|apply N1; auto; lia]. }
    destruct D as (n1 & N1). assert (B : exists n, base t = t \/ succeeds n (base t)).
    { destruct (str_eq_dec (base t) t) as [E|E]; [exists 0; auto|]. destruct (IH (base t)) as (n & N); [right; auto|]. exists n. auto. }
    destruct B as (n2 & N2). exists (S (max n1 n2)). intros m s L. destruct m as [|m]; [lia|]. rewrite collect_S.
    assert (X := dep_loop_total n1 (base t) (deps t) N1 m (start s (base t) t) ltac:(lia)).
    destruct (dep_loop (collect m cf) (base t) (deps t) (start s (base t) t)) as [s1|]; [|congruence].
    destruct N2 as [->|N2]; [rewrite seqb_refl; discriminate|]. destruct (seqb (base t) t); [discriminate|]. apply N2. lia.
  Qed.
  Lemma collect_all_terminates : well_founded calls -> exists n s, collect_all n cf = Some s.
  Proof.
    intros W. assert (A : exists n, forall t, In t (cf_fstypes cf) -> succeeds n t).
    { generalize (cf_fstypes cf). induction l as [|d l (n1 & N1)]; [exists 0; intros d []|]. destruct (collect_terminates W d) as (n2 & N2).
      exists (max n1 n2). intros x [<-|I]; intros m s L; [apply N2; lia|apply N1; auto; lia]. }
    destruct A as (n & A). exists n. unfold collect_all. match goal with |- exists s, collect_list _ _ _ ?x = _ => generalize x end. revert A. generalize (cf_fstypes cf).
    induction l as [|t l IH]; intros A c; cbn [collect_list]; [eauto|]. assert (B := A t (or_introl eq_refl) n c (le_n n)). destruct (collect n cf t c); [|congruence].
    apply IH. intros; apply A; now right.
  Qed.
End Collect.
