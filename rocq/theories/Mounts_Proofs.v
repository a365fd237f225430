(** Lemmas for C50. *)
From Coq Require Import Ascii String List Bool Arith Lia.
From Verif Require Import Str_Model Str_Proofs Posix_Model Mounts_Model Mounts_Spec.
Import ListNotations.
Open Scope list_scope.

Lemma below_iff : forall p q, below p q = true <-> under p q.
Proof.
  intros. unfold below, under. rewrite startswith_iff. split; intros [t ->]; exists t.
  - rewrite <- app_assoc. reflexivity.
  - rewrite <- app_assoc. reflexivity.
Qed.
Lemma below_false : forall p q, below p q = false <-> ~ under p q.
Proof. intros. rewrite <- below_iff. destruct (below p q); split; intros; congruence. Qed.
Lemma startswith_app_l : forall r a b, startswith (r ++ a) (r ++ b) = startswith a b.
Proof. induction r as [|c r IH]; intros; auto. cbn. rewrite aeqb_refl. apply IH. Qed.
Lemma seqb_app_l : forall r a b, seqb (r ++ a) (r ++ b) = seqb a b.
Proof. induction r as [|c r IH]; intros; auto. cbn. rewrite aeqb_refl. apply IH. Qed.
Lemma below_app_l : forall r a b, below (r ++ a) (r ++ b) = below a b.
Proof. intros. unfold below. rewrite <- app_assoc. apply startswith_app_l. Qed.
Lemma under_trans : forall a b c, under a b -> under b c -> under a c.
Proof. intros a b c [x ->] [y ->]. exists (x ++ s_ "/" ++ y). now rewrite <- !app_assoc. Qed.
Lemma under_irrefl : forall a, ~ under a a.
Proof. intros a [x E]. apply (f_equal (@length ascii)) in E. rewrite !app_length in E. cbn in E. lia. Qed.
(** Two directories above the same path are one above the other. *)
Lemma above_both : forall a b p, under a p -> under b p -> a = b \/ under a b \/ under b a.
Proof.
  intros a b p [x ->] [y E]. revert b E. induction a as [|c a IH]; intros b E.
  - destruct b as [|c b]; auto. cbn in E. injection E as <- E. right. left. exists b. reflexivity.
  - destruct b as [|d b].
    + cbn in E. injection E as -> E. right. right. exists a. reflexivity.
    + cbn in E. injection E as <- E. destruct (IH b E) as [->|[[z ->]|[z ->]]]; auto.
      * right. left. exists z. reflexivity.
      * right. right. exists z. reflexivity.
Qed.

(** ** A generic simulation *)
Section Sim.
  Variable r : str.
  Variable e e' : nat -> table -> table.
  Variable R : state -> state -> Prop.
  Hypothesis Htick : forall s s', R s s' -> R (tick e s) (tick e' s').
  Hypothesis Hvis : forall s s' p, R s s' -> under r p -> visible self p (fst s) = visible self p (fst s').
  Hypothesis Hmount : forall s s' p, R s s' -> under r p -> R (p :: fst s, snd s) (p :: fst s', snd s').
  Hypothesis Humount : forall s s' p, R s s' -> under r p ->
    match umount self p (fst s), umount self p (fst s') with
    | Some a, Some b => R (a, snd s) (b, snd s')
    | None, None => True
    | _, _ => False
    end.
  Definition sim (f g : state -> state * bool) : Prop := forall s s', R s s' -> R (fst (f s)) (fst (g s')) /\ snd (f s) = snd (g s').
  Lemma sim_mount1 : forall o p, under r p -> sim (mount1 e o p) (mount1 e' o p).
  Proof.
    intros o p U s s' H. unfold mount1. apply Htick in H. destruct (o p); cbn [fst snd]; auto.
  Qed.
  Lemma sim_umount1 : forall p, under r p -> sim (umount1 e p) (umount1 e' p).
  Proof.
    intros p U s s' H. unfold umount1. apply Htick in H. pose proof (Humount _ _ _ H U) as M.
    destruct (umount self p (fst (tick e s))), (umount self p (fst (tick e' s'))); cbn [fst snd]; auto; contradiction.
  Qed.
  Lemma sim_seq : forall A (f g : A -> state -> state * bool) l, (forall a, In a l -> sim (f a) (g a)) -> sim (seq_all f l) (seq_all g l).
  Proof.
    induction l as [|a l IH]; intros F s s' H; cbn; auto. destruct (F a (or_introl eq_refl) s s' H) as [H1 H2]. rewrite <- H2.
    destruct (snd (f a s)) eqn:E.
    - apply IH; [|assumption]. intros b I. apply F. now right.
    - split; [assumption|]. now rewrite E.
  Qed.
  Definition placed (i : instr) : Prop :=
    match i with Unless p ms => under r p /\ Forall (under r) ms | Always p | UmountIf p => under r p | Check _ => True end.
  Lemma sim_instr : forall o i, placed i -> sim (instr1 e o i) (instr1 e' o i).
  Proof.
    intros o [p ms|p|b|p] P s s' H; cbn [instr1 placed] in *.
    - destruct P as [P M]. apply Htick in H. rewrite <- (Hvis _ _ _ H P). destruct (visible self p (fst (tick e s))); auto.
      apply sim_seq; auto. intros m I. apply sim_mount1. rewrite Forall_forall in M. auto.
    - apply sim_mount1; auto.
    - apply Htick in H. auto.
    - apply Htick in H. rewrite <- (Hvis _ _ _ H P). destruct (visible self p (fst (tick e s))); auto. apply sim_umount1; auto.
  Qed.
  Lemma sim_script : forall c l, Forall placed l -> sim (script e c l) (script e' c l).
  Proof. intros c l F. apply sim_seq. intros i I. apply sim_instr. rewrite Forall_forall in F. auto. Qed.
  Lemma sim_command : forall c x, Forall placed (do_umounts c) -> sim (command1 e c x) (command1 e' c x).
  Proof.
    intros c [b|b] F s s' H; cbn [command1].
    - apply Htick in H. auto.
    - destruct (sim_script c _ F s s' H) as [H1 H2]. rewrite <- H2. destruct (snd (script e c (do_umounts c) s)) eqn:E; cbn [fst snd]; auto.
      rewrite E. auto.
  Qed.
  Lemma sim_commands : forall c l, Forall placed (do_umounts c) -> sim (commands e c l) (commands e' c l).
  Proof. intros c l F. apply sim_seq. intros. now apply sim_command. Qed.
  Lemma sim_then : forall f g h k, sim f g -> sim h k -> sim (fun s => then_ (f s) h) (fun s => then_ (g s) k).
  Proof.
    intros f g h k F H s s' I. unfold then_. destruct (F s s' I) as [H1 H2]. rewrite <- H2. destruct (snd (f s)) eqn:E; [apply H; assumption|]. split; [assumption|]. now rewrite E.
  Qed.
  Lemma sim_finally : forall c f g, Forall placed (do_umounts c) -> sim f g -> sim (fun s => finally e c (f s)) (fun s => finally e' c (g s)).
  Proof.
    intros c f g F H s s' I. unfold finally. destruct (H s s' I) as [H1 H2]. destruct (sim_script c _ F _ _ H1) as [H3 H4].
    cbn [fst snd]. rewrite H2, H4. auto.
  Qed.
End Sim.
Lemma umounts_placed : forall c, Forall (placed (root c)) (do_umounts c).
Proof. intros. unfold do_umounts, umount_order. repeat constructor; cbn [placed]; eexists; reflexivity. Qed.
Lemma mounts_placed : forall c, Forall (placed (root c)) (do_mounts c).
Proof.
  intros. unfold do_mounts. destruct (has_firmware c), (apt_copied c), (cached_base c); cbn [app];
    repeat (apply Forall_cons || apply Forall_nil); cbn [placed]; auto; try (split; [|repeat constructor]); eexists; reflexivity.
Qed.

(** ** Mounts elsewhere do not matter *)
Lemma visible_clean : forall r t p, nothing_below r t -> under r p -> visible self p t = false.
Proof.
  induction t as [|m t IH]; intros p C U; auto. cbn. unfold self at 1 2. destruct (seqb m p) eqn:E.
  - apply seqb_eq in E. subst. destruct (C p); cbn; auto.
  - destruct (below m p); auto. apply IH; auto. intros x I. apply C. now right.
Qed.
Lemma visible_app : forall r L t p, nothing_below r t -> under r p -> visible self p (L ++ t) = visible self p L.
Proof.
  induction L as [|m L IH]; intros t p C U; cbn; [eapply visible_clean; eauto|]. rewrite (IH t); auto.
Qed.
Lemma umount_clean : forall r t p, nothing_below r t -> under r p -> umount self p t = None.
Proof.
  induction t as [|m t IH]; intros p C U; auto. cbn. unfold self at 1 2 3. destruct (seqb m p) eqn:E.
  - apply seqb_eq in E. subst. destruct (C p); cbn; auto.
  - destruct (below m p || below p m); auto. rewrite IH; auto. intros x I. apply C. now right.
Qed.
Lemma umount_app : forall r L t p, nothing_below r t -> under r p -> umount self p (L ++ t) = option_map (fun x => x ++ t) (umount self p L).
Proof.
  induction L as [|m L IH]; intros t p C U; cbn; [eapply umount_clean; eauto|]. destruct (seqb (self m) p); auto.
  destruct (below (self m) p || below p (self m)); auto. rewrite (IH t) by auto. destruct (umount self p L); auto.
Qed.
Definition R_app (t : table) (s s' : state) : Prop := fst s = fst s' ++ t /\ snd s = snd s'.
Section App.
  Variable r : str.
  Variable t : table.
  Hypothesis C : nothing_below r t.
  Lemma R_app_tick : forall s s', R_app t s s' -> R_app t (tick alone s) (tick alone s').
  Proof. intros s s' [A B]. split; cbn; auto. Qed.
  Lemma R_app_vis : forall s s' p, R_app t s s' -> under r p -> visible self p (fst s) = visible self p (fst s').
  Proof. intros s s' p [A B] U. rewrite A. eapply visible_app; eauto. Qed.
  Lemma R_app_mount : forall s s' p, R_app t s s' -> under r p -> R_app t (p :: fst s, snd s) (p :: fst s', snd s').
  Proof. intros s s' p [A B] U. split; cbn; [now rewrite A|auto]. Qed.
  Lemma R_app_umount : forall s s' p, R_app t s s' -> under r p ->
    match umount self p (fst s), umount self p (fst s') with
    | Some a, Some b => R_app t (a, snd s) (b, snd s')
    | None, None => True
    | _, _ => False
    end.
  Proof. intros s s' p [A B] U. rewrite A, (umount_app r) by auto. destruct (umount self p (fst s')); cbn; auto. split; auto. Qed.
End App.

(** ** What other tasks do does not matter *)
Definition concernsb (dir m : str) : bool := seqb m dir || below dir m || below m dir.
Lemma concernsb_iff : forall dir m, concernsb dir m = true <-> concerns dir m.
Proof. intros. unfold concernsb, concerns. rewrite !orb_true_iff, seqb_eq, !below_iff. tauto. Qed.
Definition own (dir : str) (t : table) : table := filter (concernsb dir) t.
Lemma same_for_own : forall dir a b, same_for dir a b <-> own dir a = own dir b.
Proof.
  intros dir a b. split.
  - induction 1; cbn; auto.
    + destruct (concernsb dir m) eqn:E; auto. apply concernsb_iff in E. contradiction.
    + destruct (concernsb dir m) eqn:E; auto. apply concernsb_iff in E. contradiction.
    + apply concernsb_iff in H. rewrite H. now f_equal.
  - revert b. induction a as [|m a IH]; intros b.
    + induction b as [|m b IHb]; cbn; intros E; [constructor|]. destruct (concernsb dir m) eqn:M; [discriminate|].
      apply same_right; auto. intros H. apply concernsb_iff in H. congruence.
    + cbn. destruct (concernsb dir m) eqn:M.
      * induction b as [|x b IHb]; cbn; intros E; [discriminate|]. destruct (concernsb dir x) eqn:X.
        -- injection E as -> E. apply same_both; [now apply concernsb_iff|auto].
        -- apply same_right; auto. intros H. apply concernsb_iff in H. congruence.
      * intros E. apply same_left; auto. intros H. apply concernsb_iff in H. congruence.
Qed.
Lemma not_concerned : forall dir m p, concernsb dir m = false -> under dir p -> m <> p /\ below m p = false /\ below p m = false.
Proof.
  intros dir m p N U. unfold concernsb in N. rewrite !orb_false_iff, !below_false in N. destruct N as [[N1 N2] N3]. apply seqb_neq in N1.
  rewrite !below_false. split; [intros ->; contradiction|]. split.
  - intros M. destruct (above_both _ _ _ M U) as [->|[H|H]]; contradiction.
  - intros M. apply N2. eapply under_trans; eauto.
Qed.
Lemma visible_own : forall dir t p, under dir p -> visible self p (own dir t) = visible self p t.
Proof.
  induction t as [|m t IH]; intros p U; auto. cbn. destruct (concernsb dir m) eqn:E; cbn.
  - now rewrite IH.
  - destruct (not_concerned _ _ _ E U) as (A & B & D). unfold self. apply seqb_neq in A. rewrite A, B. now apply IH.
Qed.
Lemma umount_own : forall dir t p, under dir p -> umount self p (own dir t) = option_map (own dir) (umount self p t).
Proof.
  induction t as [|m t IH]; intros p U; auto. cbn. destruct (concernsb dir m) eqn:E; cbn.
  - destruct (seqb (self m) p); auto. destruct (below (self m) p || below p (self m)); auto. rewrite IH by auto.
    destruct (umount self p t); cbn; auto. now rewrite E.
  - destruct (not_concerned _ _ _ E U) as (A & B & D). unfold self at 2 3 4. apply seqb_neq in A. rewrite A, B, D. cbn. rewrite IH by auto.
    destruct (umount self p t); cbn; auto. now rewrite E.
Qed.
Definition R_own (dir : str) (s s' : state) : Prop := own dir (fst s) = fst s' /\ snd s = snd s'.
Section Own.
  Variable r : str.
  Variable env : nat -> table -> table.
  Hypothesis U : unrelated r env.
  Lemma R_own_tick : forall s s', R_own r s s' -> R_own r (tick env s) (tick alone s').
  Proof.
    intros s s' [A B]. split; cbn; auto. unfold alone. rewrite <- A. apply same_for_own. apply U.
  Qed.
  Lemma R_own_vis : forall s s' p, R_own r s s' -> under r p -> visible self p (fst s) = visible self p (fst s').
  Proof. intros s s' p [A B] P. rewrite <- A. now rewrite visible_own. Qed.
  Lemma R_own_mount : forall s s' p, R_own r s s' -> under r p -> R_own r (p :: fst s, snd s) (p :: fst s', snd s').
  Proof.
    intros s s' p [A B] P. split; cbn; auto. assert (E : concernsb r p = true) by (apply concernsb_iff; right; auto). rewrite E. now rewrite <- A.
  Qed.
  Lemma R_own_umount : forall s s' p, R_own r s s' -> under r p ->
    match umount self p (fst s), umount self p (fst s') with
    | Some a, Some b => R_own r (a, snd s) (b, snd s')
    | None, None => True
    | _, _ => False
    end.
  Proof. intros s s' p [A B] P. rewrite <- A, umount_own by auto. destruct (umount self p (fst s)); cbn; auto. split; auto. Qed.
End Own.
Lemma own_clean : forall r t, nothing_below r t -> nothing_below r (own r t).
Proof. intros r t C m I. apply filter_In in I. apply C. tauto. Qed.

(** ** The scripts on an otherwise empty table *)
Record inv (r : str) (L : table) : Prop := {
  inv_nodup : NoDup L;
  inv_points : incl L (map (app r) umount_order);
  inv_order : forall l1 a l2 b, L = l1 ++ a :: l2 -> In b l1 -> below b a = false;
  inv_dev : In (r ++ shm) L \/ In (r ++ pts) L -> In (r ++ dev) L;
  inv_sys : In (r ++ firmware) L -> In (r ++ sys) L }.
Lemma inv_nil : forall r, inv r [].
Proof. intros. split; cbn; try tauto; [constructor|intros a []|]. intros l1 a l2 b E. now destruct l1. Qed.
Lemma first_occurrence : forall (p : str) L, In p L -> exists l1 l2, L = l1 ++ p :: l2 /\ ~ In p l1.
Proof.
  induction L as [|m L IH]; intros I; [destruct I|]. destruct (str_eq_dec m p) as [->|N].
  - exists [], L. auto.
  - destruct I as [->|I]; [congruence|]. destruct (IH I) as (l1 & l2 & -> & N1). exists (m :: l1), l2. split; auto. intros [H|H]; auto.
Qed.
Lemma visible_found : forall p l1 l2, ~ In p l1 -> (forall b, In b l1 -> below b p = false) -> visible self p (l1 ++ p :: l2) = true.
Proof.
  induction l1 as [|m l1 IH]; intros l2 N H; cbn; unfold self at 1.
  - now rewrite seqb_refl.
  - assert (E : seqb m p = false) by (apply seqb_neq; intros ->; apply N; now left). rewrite E. unfold self. rewrite (H m) by now left. apply IH; cbn in *; auto.
Qed.
Lemma visible_In : forall p t, visible self p t = true -> In p t.
Proof.
  induction t as [|m t IH]; cbn; [discriminate|]. unfold self. destruct (seqb m p) eqn:E; [apply seqb_eq in E; auto|].
  destruct (below m p); [discriminate|auto].
Qed.
Lemma inv_visible : forall r L p, inv r L -> (visible self p L = true <-> In p L).
Proof.
  intros r L p I. split; [apply visible_In|]. intros H. destruct (first_occurrence _ _ H) as (l1 & l2 & -> & N). apply visible_found; auto.
  intros b B. eapply (inv_order _ _ I); eauto.
Qed.
Lemma umount_found : forall p l1 l2, ~ In p l1 -> (forall b, In b l1 -> below b p = false /\ below p b = false) -> umount self p (l1 ++ p :: l2) = Some (l1 ++ l2).
Proof.
  induction l1 as [|m l1 IH]; intros l2 N H; cbn; unfold self at 1.
  - now rewrite seqb_refl.
  - assert (E : seqb m p = false) by (apply seqb_neq; intros ->; apply N; now left). rewrite E. unfold self. destruct (H m) as [-> ->]; [now left|]. cbn.
    fold self. change (fun p0 : str => p0) with self. rewrite IH; cbn in *; auto.
Qed.
Definition drop (p : str) (L : table) : table := filter (fun x => negb (seqb x p)) L.
Lemma drop_in : forall p L x, In x (drop p L) <-> In x L /\ x <> p.
Proof. intros. unfold drop. rewrite filter_In, negb_true_iff, seqb_neq. tauto. Qed.
Lemma drop_split : forall p l1 l2, ~ In p l1 -> ~ In p l2 -> drop p (l1 ++ p :: l2) = l1 ++ l2.
Proof.
  assert (H : forall p l, ~ In p l -> drop p l = l).
  { induction l as [|x l IH]; intros N; auto. cbn. assert (E : seqb x p = false) by (apply seqb_neq; intros ->; apply N; now left). rewrite E. cbn. f_equal. apply IH. intros X. apply N. now right. }
  intros. unfold drop. rewrite filter_app. cbn. rewrite seqb_refl. cbn. fold (drop p l1). fold (drop p l2). now rewrite !H.
Qed.
Lemma drop_absent : forall p l, ~ In p l -> drop p l = l.
Proof.
  induction l as [|x l IH]; intros N; auto. cbn. assert (E : seqb x p = false) by (apply seqb_neq; intros ->; apply N; now left). rewrite E. cbn. f_equal. apply IH. intros X. apply N. now right.
Qed.
Lemma inv_umount : forall r L p, inv r L -> In p L -> (forall b, In b L -> below p b = false) -> umount self p L = Some (drop p L).
Proof.
  intros r L p I H B. destruct (first_occurrence _ _ H) as (l1 & l2 & -> & N). pose proof (inv_nodup _ _ I) as D. apply NoDup_remove_2 in D.
  rewrite drop_split; auto; [|intros X; apply D; apply in_or_app; auto]. apply umount_found; auto. intros b Ib. split; [eapply (inv_order _ _ I); eauto|].
  apply B. apply in_or_app. auto.
Qed.
Lemma filter_cut : forall A (f : A -> bool) L l1 a l2, filter f L = l1 ++ a :: l2 -> exists k1 k2, L = k1 ++ a :: k2 /\ filter f k1 = l1.
Proof.
  induction L as [|x L IH]; intros l1 a l2 E; cbn in E; [now destruct l1|]. destruct (f x) eqn:F.
  - destruct l1 as [|y l1]; cbn in E; injection E as -> E; [exists [], L; auto|]. destruct (IH _ _ _ E) as (k1 & k2 & -> & <-).
    exists (y :: k1), k2. split; auto. cbn. now rewrite F.
  - destruct (IH _ _ _ E) as (k1 & k2 & -> & <-). exists (x :: k1), k2. split; auto. cbn. now rewrite F.
Qed.
(** One step of rootfs_do_umounts *)
Lemma umountif_step : forall r L n o p, inv r L -> (forall b, In b L -> below (r ++ p) b = false) ->
  exists n', instr1 alone o (UmountIf (r ++ p)) (L, n) = ((drop (r ++ p) L, n'), true).
Proof.
  intros r L n o p I B. cbn [instr1 tick alone fst snd]. unfold alone. destruct (visible self (r ++ p) L) eqn:V.
  - apply (inv_visible r) in V; auto. unfold umount1, tick, alone. cbn [fst snd]. rewrite (inv_umount r) by auto. eauto.
  - rewrite drop_absent; [eexists; reflexivity|]. intros H. apply (inv_visible r) in H; auto. congruence.
Qed.
Lemma app_inj_l : forall (r a b : str), r ++ a = r ++ b -> a = b.
Proof. intros. now apply app_inv_head in H. Qed.
Lemma inv_drop : forall r L p, inv r L -> (p = dev -> ~ In (r ++ shm) L /\ ~ In (r ++ pts) L) -> (p = sys -> ~ In (r ++ firmware) L) -> inv r (drop (r ++ p) L).
Proof.
  intros r L p I D S. split.
  - apply NoDup_filter. apply (inv_nodup _ _ I).
  - intros x H. apply drop_in in H. now apply (inv_points _ _ I).
  - intros l1 a l2 b E H. unfold drop in E. destruct (filter_cut _ _ _ _ _ _ E) as (k1 & k2 & -> & <-). apply filter_In in H. eapply (inv_order _ _ I); [reflexivity|tauto].
  - rewrite !drop_in. intros H. assert (In (r ++ dev) L) by (apply (inv_dev _ _ I); tauto). split; auto. intros E. apply app_inj_l in E. symmetry in E. apply D in E. tauto.
  - rewrite !drop_in. intros H. assert (In (r ++ sys) L) by (apply (inv_sys _ _ I); tauto). split; auto. intros E. apply app_inj_l in E. symmetry in E. apply S in E. tauto.
Qed.
Definition drops (r : str) (ps : list str) (L : table) : table := fold_left (fun L p => drop (r ++ p) L) ps L.
Lemma drops_in : forall r ps L x, In x (drops r ps L) <-> In x L /\ ~ In x (map (app r) ps).
Proof.
  induction ps as [|p ps IH]; intros L x; cbn; [tauto|]. fold (drops r ps (drop (r ++ p) L)). rewrite IH, drop_in. split; intros H.
  - split; [tauto|]. intros [E|E]; [symmetry in E|]; tauto.
  - split; [split|]; try tauto. intros E. symmetry in E. tauto.
Qed.
Lemma umounts_run : forall r o ps L n, inv r L ->
  (forall p before after, ps = before ++ p :: after -> forall b, In b (map (app r) umount_order) -> below (r ++ p) b = true -> In b (map (app r) before) \/ ~ In b L) ->
  (forall before after, ps = before ++ dev :: after -> forall q, q = shm \/ q = pts -> In q before \/ ~ In (r ++ q) L) ->
  (forall before after, ps = before ++ sys :: after -> In firmware before \/ ~ In (r ++ firmware) L) ->
  exists n', seq_all (instr1 alone o) (map (fun p => UmountIf (r ++ p)) ps) (L, n) = ((drops r ps L, n'), true).
Proof.
  intros r o. induction ps as [|p ps IH]; intros L n I H D S.
  - cbn. eauto.
  - cbn [map seq_all]. destruct (umountif_step r L n o p I) as [n1 E].
    { intros b Ib. destruct (below (r ++ p) b) eqn:B; auto. destruct (H p [] ps eq_refl b) as [[]|N]; auto; [now apply (inv_points _ _ I)|contradiction]. }
    rewrite E. cbn [fst snd]. cbn [drops fold_left]. apply IH.
    + apply inv_drop; auto.
      * intros ->. split; [destruct (D [] ps eq_refl shm) as [[]|]|destruct (D [] ps eq_refl pts) as [[]|]]; auto.
      * intros ->. destruct (S [] ps eq_refl) as [[]|]; auto.
    + intros q before after -> b Ib B. rewrite drop_in. destruct (H q (p :: before) after eq_refl b Ib B) as [X|X]; [|tauto].
      cbn in X. destruct X as [->|X]; [right; tauto|auto].
    + intros before after -> q Q. rewrite drop_in. destruct (D (p :: before) after eq_refl q Q) as [X|X]; [|tauto]. cbn in X. destruct X as [->|X]; [right; tauto|auto].
    + intros before after ->. rewrite drop_in. destruct (S (p :: before) after eq_refl) as [X|X]; [|tauto]. cbn in X. destruct X as [->|X]; [right; tauto|auto].
Qed.
(** rootfs_do_umounts removes everything. *)
Lemma split_all : forall A (P : list A -> A -> list A -> Prop) l pre, 
  (fix go (pre l : list A) := match l with [] => True | x :: l' => P pre x l' /\ go (pre ++ [x]) l' end) pre l ->
  forall before x after, l = before ++ x :: after -> P (pre ++ before) x after.
Proof.
  induction l as [|y l IH]; intros pre G before x after E; [now destruct before|]. destruct G as [G1 G2].
  destruct before as [|z before]; cbn in E; injection E as -> ->; [now rewrite app_nil_r|].
  replace (pre ++ z :: before) with ((pre ++ [z]) ++ before) by (rewrite <- app_assoc; reflexivity). eapply IH; eauto.
Qed.
Lemma umounts_all : forall c L n, inv (root c) L -> exists n', script alone c (do_umounts c) (L, n) = (([], n'), true).
Proof.
  intros c L n I. unfold script, do_umounts. destruct (umounts_run (root c) (ok c) umount_order L n I) as [n' E].
  - intros p before after. apply (split_all _ (fun before p _ => forall b, In b (map (app (root c)) umount_order) -> below (root c ++ p) b = true -> In b (map (app (root c)) before) \/ ~ In b L) umount_order []).
    cbn [umount_order app]. repeat apply conj; try exact Logic.I; intros b Ib B; cbn [map umount_order In] in Ib;
    repeat (destruct Ib as [<-|Ib]; [rewrite below_app_l in B; vm_compute in B; try discriminate B; left; cbn [map In]; auto 10|]); destruct Ib.
  - intros before after E q Q. left. revert before after E. 
    assert (G : forall before p after, umount_order = before ++ p :: after -> p = dev -> In q before).
    { apply (split_all _ (fun before p _ => p = dev -> In q before) umount_order []). cbn [umount_order app]. repeat apply conj; try exact Logic.I; intros X; vm_compute in X; try discriminate X. destruct Q as [->| ->]; cbn; auto 10. }
    intros. eapply G; eauto.
  - assert (G : forall before p after, umount_order = before ++ p :: after -> p = sys -> In firmware before).
    { apply (split_all _ (fun before p _ => p = sys -> In firmware before) umount_order []). cbn [umount_order app]. repeat apply conj; try exact Logic.I; intros X; vm_compute in X; try discriminate X. cbn; auto 12. }
    intros. left. eapply G; eauto.
  - exists n'. rewrite E. f_equal. f_equal. destruct (drops (root c) umount_order L) as [|x l] eqn:X; auto. exfalso.
    assert (H : In x (drops (root c) umount_order L)) by (rewrite X; now left). apply drops_in in H. destruct H as [H1 H2]. apply H2. now apply (inv_points _ _ I).
Qed.

(** ** rootfs_do_mounts *)
Lemma below_points : forall p q, In p umount_order -> In q umount_order -> below p q = true -> (p = dev /\ (q = shm \/ q = pts)) \/ (p = sys /\ q = firmware).
Proof.
  intros p q P Q B. cbn [umount_order In] in P, Q.
  repeat (destruct P as [<-|P]; [repeat (destruct Q as [<-|Q]; [vm_compute in B; first [discriminate B | auto]|]); destruct Q|]). destruct P.
Qed.
Lemma inv_add : forall r L p, inv r L -> In p umount_order -> ~ In (r ++ p) L -> (p = shm \/ p = pts -> In (r ++ dev) L) -> (p = firmware -> In (r ++ sys) L) -> inv r ((r ++ p) :: L).
Proof.
  intros r L p I P N D S.
  assert (B : forall b, In b L -> below (r ++ p) b = false).
  { intros b Ib. pose proof (inv_points _ _ I b Ib) as Q. apply in_map_iff in Q. destruct Q as (q & <- & Q). rewrite below_app_l. destruct (below p q) eqn:E; auto. exfalso.
    apply below_points in E; auto. destruct E as [[-> [->| ->]]|[-> ->]]; apply N; [apply (inv_dev _ _ I)|apply (inv_dev _ _ I)|apply (inv_sys _ _ I)]; auto. }
  split.
  - constructor; auto. apply (inv_nodup _ _ I).
  - intros x [<-|H]; [now apply in_map|]. now apply (inv_points _ _ I).
  - intros l1 a l2 b E H. destruct l1 as [|x l1]; [destruct H|]. cbn in E. injection E as <- E. destruct H as [<-|H].
    + apply B. rewrite E. apply in_or_app. right. now left.
    + eapply (inv_order _ _ I); eauto.
  - intros [[E|H]|[E|H]]; try (apply app_inj_l in E); cbn; auto using (inv_dev _ _ I).
  - intros [E|H]; [apply app_inj_l in E|]; cbn; auto using (inv_sys _ _ I).
Qed.
Definition keeps (Q : table -> Prop) (f : state -> state * bool) : Prop := forall s, Q (fst s) -> Q (fst (fst (f s))).
Lemma keeps_seq : forall Q A (f : A -> state -> state * bool) l, (forall a, In a l -> keeps Q (f a)) -> keeps Q (seq_all f l).
Proof.
  intros Q A f. induction l as [|a l IH]; intros F s H; cbn; auto. pose proof (F a (or_introl eq_refl) s H) as H1. destruct (snd (f a s)); auto.
  apply IH; auto. intros b B. apply F. now right.
Qed.
Lemma seq_app : forall A (f : A -> state -> state * bool) a b s, seq_all f (a ++ b) s = then_ (seq_all f a s) (seq_all f b).
Proof.
  intros A f. induction a as [|x a IH]; intros b s; cbn; [reflexivity|]. unfold then_ in *. destruct (snd (f x s)) eqn:E; [apply IH|]. now rewrite E.
Qed.
Lemma keeps_one : forall r o p X, In p umount_order -> p <> shm -> p <> pts -> p <> firmware -> X <> r ++ p ->
  keeps (fun L => inv r L /\ ~ In X L) (instr1 alone o (Unless (r ++ p) [r ++ p])).
Proof.
  intros r o p X P A B C N [L n] [I NX]. cbn [instr1 tick alone fst snd] in *. unfold alone. destruct (visible self (r ++ p) L) eqn:V; cbn [fst snd seq_all]; auto.
  unfold mount1, tick, alone. cbn [fst snd]. destruct (o (r ++ p)); cbn [fst snd]; auto. split.
  - apply inv_add; auto; try tauto. intros H. apply (inv_visible r) in H; auto. congruence.
  - intros [E|H]; [now symmetry in E|auto].
Qed.
Lemma keeps_dev : forall r o, keeps (fun L => inv r L /\ ~ In (r ++ firmware) L) (instr1 alone o (Unless (r ++ dev) [r ++ dev; r ++ shm; r ++ pts])).
Proof.
  intros r o [L n] [I NX]. cbn [instr1 tick alone fst snd] in *. unfold alone. destruct (visible self (r ++ dev) L) eqn:V; cbn [fst snd seq_all]; auto.
  assert (N : ~ In (r ++ dev) L) by (intros H; apply (inv_visible r) in H; auto; congruence).
  unfold mount1, tick, alone. cbn [fst snd]. destruct (o (r ++ dev)); cbn [fst snd]; auto.
  assert (I1 : inv r ((r ++ dev) :: L)) by (apply inv_add; auto; [cbn; auto 12|intros [H|H]; discriminate H|intros H; discriminate H]).
  assert (I2 : inv r ((r ++ shm) :: (r ++ dev) :: L)).
  { apply inv_add; auto; [cbn; auto 12| |intros; now left|intros H; discriminate H]. intros [E|H]; [now apply app_inj_l in E|]. apply N. apply (inv_dev _ _ I). auto. }
  assert (I3 : inv r ((r ++ pts) :: (r ++ shm) :: (r ++ dev) :: L)).
  { apply inv_add; auto; [cbn; auto 12| |intros; right; now left|intros H; discriminate H]. intros [E|[E|H]]; [now apply app_inj_l in E|now apply app_inj_l in E|]. apply N. apply (inv_dev _ _ I). auto. }
  assert (D : forall a b : str, a <> b -> r ++ a <> r ++ b) by (intros a b X E; apply app_inj_l in E; contradiction).
  destruct (o (r ++ shm)); cbn [fst snd]; [destruct (o (r ++ pts)); cbn [fst snd]|]; (split; [assumption|]); cbn [In]; intros H;
    repeat (destruct H as [H|H]; [apply app_inj_l in H; discriminate H|]); auto.
Qed.
Lemma one_in : forall r o p L n L' n', instr1 alone o (Unless (r ++ p) [r ++ p]) (L, n) = ((L', n'), true) -> In (r ++ p) L'.
Proof.
  intros r o p L n L' n' E. cbn [instr1 tick alone fst snd] in E. unfold alone in E. destruct (visible self (r ++ p) L) eqn:V.
  - injection E as <- <-. now apply visible_In.
  - cbn [seq_all] in E. unfold mount1, tick, alone in E. cbn [fst snd] in E. destruct (o (r ++ p)); cbn [fst snd] in E; [|discriminate]. injection E as <- <-. now left.
Qed.
Lemma keeps_check : forall Q o b, keeps Q (instr1 alone o (Check b)).
Proof. intros Q o b [L n] H. exact H. Qed.
Lemma under_not_nil : forall r p, under r p -> p <> [].
Proof. intros r p [x ->] E. apply app_eq_nil in E. destruct E as [_ E]. discriminate. Qed.
Lemma keeps_one_inv : forall r o p, In p umount_order -> p <> shm -> p <> pts -> p <> firmware ->
  keeps (inv r) (instr1 alone o (Unless (r ++ p) [r ++ p])).
Proof.
  intros r o p P A B C [L n] I. assert (N : ~ In (@nil ascii) L).
  { intros H. apply (inv_points _ _ I) in H. apply in_map_iff in H. destruct H as (q & E & Q). apply app_eq_nil in E. destruct E as [_ ->]. cbn in Q.
    repeat (destruct Q as [Q|Q]; [discriminate Q|]). destruct Q. }
  apply (keeps_one r o p [] P A B C) with (s := (L, n)); [|split; assumption]. intros E. symmetry in E. apply app_eq_nil in E. destruct E as [_ ->]. cbn in P.
  repeat (destruct P as [Q|P]; [discriminate Q|]). destruct P.
Qed.
Lemma fw_not : forall r p, p <> firmware -> r ++ firmware <> r ++ p.
Proof. intros r p N E. apply app_inj_l in E. congruence. Qed.
Lemma mounts_inv : forall c L n, inv (root c) L -> ~ In (root c ++ firmware) L -> inv (root c) (fst (fst (script alone c (do_mounts c) (L, n)))).
Proof.
  intros c L n I N. unfold script, do_mounts.
  set (r := root c) in *. set (a := [_; _; _; _]) at 1.
  assert (Ka : keeps (fun L => inv r L /\ ~ In (r ++ firmware) L) (seq_all (instr1 alone (ok c)) a)).
  { apply keeps_seq. intros i H. cbn [a In] in H. destruct H as [<-|[<-|[<-|[<-|[]]]]].
    - apply keeps_dev.
    - apply keeps_one; try discriminate; [cbn; auto 12|now apply fw_not].
    - apply keeps_one; try discriminate; [cbn; auto 12|now apply fw_not].
    - apply keeps_check. }
  set (b := if has_firmware c then _ else _). set (d := (if apt_copied c then _ else _) ++ _).
  assert (Kd : keeps (inv r) (seq_all (instr1 alone (ok c)) d)).
  { apply keeps_seq. intros i H. unfold d in H. rewrite !in_app_iff in H.
    destruct (apt_copied c), (cached_base c); cbn [In] in H;
      repeat match goal with H : _ \/ _ |- _ => destruct H as [H|H] | H : False |- _ => destruct H end; subst i;
      try apply keeps_check; apply keeps_one_inv; try discriminate; cbn; auto 12. }
  rewrite seq_app. unfold then_ at 1. pose proof (Ka (L, n) (conj I N)) as [I1 N1].
  destruct (seq_all (instr1 alone (ok c)) a (L, n)) as [[L1 n1] b1] eqn:E. cbn [fst snd] in *. destruct b1; cbn [fst snd]; auto.
  assert (S : In (r ++ sys) L1).
  { change a with ([Unless (r ++ dev) [r ++ dev; r ++ shm; r ++ pts]; Unless (r ++ proc) [r ++ proc]] ++ [Unless (r ++ sys) [r ++ sys]; Check (slave_ok c)]) in E.
    rewrite seq_app in E. unfold then_ in E. match type of E with (if snd ?x then _ else _) = _ => destruct x as [[L2 n2] b2] end. cbn [fst snd] in E. destruct b2; [|discriminate].
    cbn [seq_all] in E. destruct (instr1 alone (ok c) (Unless (r ++ sys) [r ++ sys]) (L2, n2)) as [[L3 n3] b3] eqn:E3. cbn [fst snd] in E. destruct b3; [|discriminate].
    cbn [instr1 tick alone fst snd] in E. unfold alone in E. destruct (slave_ok c); [|discriminate]. cbn [fst snd] in E. injection E as <- <-. eapply one_in; eauto. }
  rewrite seq_app. unfold then_. unfold b. destruct (has_firmware c); cbn [seq_all snd fst]; [|apply Kd; assumption].
  cbn [instr1]. unfold mount1, tick. cbn [fst snd]. destruct (ok c (r ++ firmware)); cbn [fst snd]; auto. apply Kd. cbn [fst].
  apply inv_add; auto; [cbn; auto 12|intros [H|H]; discriminate H].
Qed.

Definition mounted (c : config) : table :=
  (if cached_base c then [root c ++ base_apt] else []) ++ [root c ++ isar_work] ++
  (if apt_copied c then [] else [root c ++ isar_apt]) ++
  (if has_firmware c then [root c ++ firmware] else []) ++
  [root c ++ sys; root c ++ proc; root c ++ pts; root c ++ shm; root c ++ dev].
Lemma vis_step : forall r a b t, seqb a b = false -> below a b = false -> visible self (r ++ b) ((r ++ a) :: t) = visible self (r ++ b) t.
Proof. intros r a b t A B. cbn [visible]. unfold self at 1 2. now rewrite seqb_app_l, A, below_app_l, B. Qed.
Ltac vis := repeat (rewrite vis_step by reflexivity); change (visible self _ []) with false.
Lemma needed_in : forall c x, In x (mounted c) <-> In x (needed c).
Proof.
  intros. unfold mounted, needed. rewrite !map_app, !in_app_iff. destruct (cached_base c), (apt_copied c), (has_firmware c); cbn [map In]; unfold base_apt, isar_work, isar_apt, firmware, sys, proc, pts, shm, dev; intuition.
Qed.
Lemma one_new : forall r p o t n, visible self (r ++ p) t = false ->
  instr1 alone o (Unless (r ++ p) [r ++ p]) (t, n) = if o (r ++ p) then (((r ++ p) :: t, S (S n)), true) else ((t, S (S n)), false).
Proof.
  intros r p o t n V. cbn [instr1 tick fst snd]. change (alone n t) with t. rewrite V. cbn [seq_all]. unfold mount1, tick. cbn [fst snd]. change (alone (S n) t) with t.
  destruct (o (r ++ p)); reflexivity.
Qed.
Lemma check_new : forall o b t n, instr1 alone o (Check b) (t, n) = ((t, S n), b).
Proof. reflexivity. Qed.
Lemma always_new : forall o p t n, instr1 alone o (Always p) (t, n) = if o p then ((p :: t, S n), true) else ((t, S n), false).
Proof. reflexivity. Qed.
Lemma dev_new : forall r o t n, visible self (r ++ dev) t = false ->
  instr1 alone o (Unless (r ++ dev) [r ++ dev; r ++ shm; r ++ pts]) (t, n) =
  if o (r ++ dev) then if o (r ++ shm) then if o (r ++ pts) then ((r ++ pts) :: (r ++ shm) :: (r ++ dev) :: t, 4 + n, true)
    else ((r ++ shm) :: (r ++ dev) :: t, 4 + n, false) else ((r ++ dev) :: t, 3 + n, false) else (t, 2 + n, false).
Proof.
  intros r o t n V. cbn [instr1 tick fst snd]. change (alone n t) with t. rewrite V. cbn [seq_all]. unfold mount1, tick, alone. cbn [fst snd].
  destruct (o (r ++ dev)); cbn [fst snd]; [destruct (o (r ++ shm)); cbn [fst snd]; [destruct (o (r ++ pts)); cbn [fst snd]|]|]; reflexivity.
Qed.
Definition all_ok (c : config) : bool :=
  let r := root c in
  ok c (r ++ dev) && ok c (r ++ shm) && ok c (r ++ pts) && ok c (r ++ proc) && ok c (r ++ sys) && slave_ok c &&
  (if has_firmware c then ok c (r ++ firmware) else true) &&
  (if apt_copied c then true else mkdir_ok c isar_apt && ok c (r ++ isar_apt)) &&
  (mkdir_ok c isar_work && ok c (r ++ isar_work)) &&
  (if cached_base c then mkdir_ok c base_apt && ok c (r ++ base_apt) else true).
Lemma mounts_exact : forall c n, exists t n', script alone c (do_mounts c) ([], n) = ((t, n'), all_ok c) /\ (all_ok c = true -> t = mounted c).
Proof.
  intros c n. unfold script, do_mounts, all_ok, mounted. set (r := root c).
  destruct (has_firmware c), (apt_copied c), (cached_base c); cbn [app seq_all];
    rewrite dev_new by reflexivity;
    repeat (first
      [ match goal with |- context [if ?o (r ++ ?p) then _ else _] => destruct (o (r ++ p)) end
      | match goal with |- context [if snd (instr1 alone _ (Check ?b) _) then _ else _] => rewrite check_new; cbn [fst snd]; destruct b end
      | rewrite one_new by (vis; reflexivity)
      | rewrite always_new ]; cbn [fst snd andb seq_all]);
    eexists; eexists; (split; [reflexivity|first [discriminate | reflexivity]]).
Qed.
Lemma all_ok_work : forall c, all_ok c = true <-> mounts_work c.
Proof.
  intros c. unfold all_ok, mounts_work, needed. rewrite !andb_true_iff. split.
  - intros H. destruct H as [[[[[[[[[H1 H2] H3] H4] H5] H6] H7] H8] [H9 H10]] H11]. split; [|split; [assumption|split; [assumption|split]]].
    + intros p I. rewrite map_app, in_app_iff in I. rewrite !map_app, !in_app_iff in I. cbn [map In] in I.
      destruct I as [I|[I|[I|I]]]; [repeat (destruct I as [<-|I]; [assumption|]); destruct I| | |].
      * destruct (has_firmware c); [destruct I as [<-|[]]; assumption|destruct I].
      * destruct (apt_copied c); [destruct I|]. destruct I as [<-|[]]. apply andb_true_iff in H8. tauto.
      * destruct (cached_base c); [|destruct I]. destruct I as [<-|[]]. apply andb_true_iff in H11. tauto.
    + intros A. rewrite A in H8. apply andb_true_iff in H8. tauto.
    + intros A. rewrite A in H11. apply andb_true_iff in H11. tauto.
  - intros (N & S & W & A & B). rewrite !map_app in N. cbn [map] in N.
    assert (N0 : forall p, In p (map (app (root c)) [s_ "/dev"; s_ "/dev/shm"; s_ "/dev/pts"; s_ "/proc"; s_ "/sys"; s_ "/isar-work"]) -> ok c p = true) by (intros p I; apply N; apply in_or_app; left; exact I).
    repeat split; try (apply N0; cbn [map In]; auto 8; fail); auto.
    + destruct (has_firmware c); auto. apply N. rewrite !in_app_iff. right. left. now left.
    + destruct (apt_copied c) eqn:E; auto. apply andb_true_iff. split; [now apply A|]. apply N. rewrite !in_app_iff. right. right. left. now left.
    + destruct (cached_base c) eqn:E; auto. apply andb_true_iff. split; [now apply B|]. apply N. rewrite !in_app_iff. right. right. right. now left.
Qed.

(** ** Commands and tasks *)
Definition succeedsb (x : command) : bool := match x with Plain b | Unmounting b => b end.
Lemma command_keeps : forall c (Q : table -> Prop) x s, Q [] -> (forall L, Q L -> inv (root c) L) -> Q (fst s) -> Q (fst (fst (command1 alone c x s))) /\ snd (command1 alone c x s) = succeedsb x.
Proof.
  intros c Q [b|b] [L n] Q0 QI H; cbn [command1 succeedsb].
  - split; [exact H|reflexivity].
  - destruct (umounts_all c L n (QI _ H)) as [n' E]. rewrite E. cbn. auto.
Qed.
Lemma commands_keep : forall c (Q : table -> Prop) l s, Q [] -> (forall L, Q L -> inv (root c) L) -> Q (fst s) ->
  Q (fst (fst (commands alone c l s))) /\ snd (commands alone c l s) = forallb succeedsb l.
Proof.
  intros c Q. induction l as [|x l IH]; intros s Q0 QI H; cbn [commands seq_all forallb]; auto. unfold commands in *. cbn [seq_all].
  destruct (command_keeps c Q x s Q0 QI H) as [H1 H2]. rewrite H2. destruct (succeedsb x) eqn:S; cbn [andb]; auto.
Qed.
Lemma succeeds_all : forall l, forallb succeedsb l = true <-> Forall succeeds l.
Proof.
  induction l as [|x l IH]; cbn; [split; auto|]. rewrite andb_true_iff, IH. split.
  - intros [A B]. constructor; auto. now destruct x.
  - intros F. inversion F; subst. split; auto. now destruct x.
Qed.
Lemma finally_inv : forall c r, inv (root c) (fst (fst r)) -> exists n', finally alone c r = (([], n'), snd r).
Proof.
  intros c [[L n] b] I. cbn [fst snd] in *. destruct (umounts_all c L n I) as [n' E]. exists n'. unfold finally. cbn [fst snd]. rewrite E. cbn [fst snd]. now rewrite andb_true_r.
Qed.
Definition fresh (r : str) (L : table) : Prop := inv r L /\ ~ In (r ++ firmware) L.
Lemma fresh_nil : forall r, fresh r [].
Proof. intros. split; [apply inv_nil|auto]. Qed.
Lemma install_fresh : forall c pre cmds L n, fresh (root c) L -> exists n' b, rootfs_install alone c pre cmds (L, n) = (([], n'), b).
Proof.
  intros c pre cmds L n F. unfold rootfs_install.
  destruct (commands_keep c (fresh (root c)) pre (L, n) (fresh_nil _) (fun L H => proj1 H) F) as [F1 _].
  match goal with |- context [finally alone c ?x] => assert (I : inv (root c) (fst (fst x))) end.
  { unfold then_. destruct (snd (commands alone c pre (L, n))); [|apply F1]. destruct (commands alone c pre (L, n)) as [[L1 n1] b1]. cbn [fst snd] in *.
    pose proof (mounts_inv c L1 n1 (proj1 F1) (proj2 F1)) as I1. destruct (snd (script alone c (do_mounts c) (L1, n1))); [|exact I1].
    apply (commands_keep c (inv (root c)) cmds); auto using inv_nil. }
  destruct (finally_inv c _ I) as [n' E]. exists n'. eexists. exact E.
Qed.
Lemma install_result : forall c pre cmds n, snd (rootfs_install alone c pre cmds ([], n)) = forallb succeedsb pre && all_ok c && forallb succeedsb cmds.
Proof.
  intros c pre cmds n. unfold rootfs_install.
  assert (K : (fun L : table => L = []) (fst (fst (commands alone c pre ([], n)))) /\ snd (commands alone c pre ([], n)) = forallb succeedsb pre).
  { apply (commands_keep c (fun L : table => L = []) pre ([], n)); [reflexivity| |reflexivity]. intros L H. rewrite H. apply inv_nil. }
  destruct K as [K1 K2]. destruct (commands alone c pre ([], n)) as [[L1 n1] b1]. cbn [fst snd] in K1, K2. subst L1 b1.
  unfold then_ at 1. cbn [fst snd]. destruct (forallb succeedsb pre); cbn [andb].
  - destruct (mounts_exact c n1) as (t & n2 & E & X). cbv beta. match goal with |- context [script alone c (do_mounts c) ?x] => replace (script alone c (do_mounts c) x) with (t, n2, all_ok c) by (symmetry; exact E) end. unfold then_. cbn [fst snd].
    assert (I : inv (root c) t).
    { pose proof (mounts_inv c [] n1 (inv_nil _) (fun H => H)) as I. replace t with (fst (fst (script alone c (do_mounts c) ([], n1)))); [exact I|]. now rewrite E. }
    destruct (all_ok c) eqn:O; cbn [andb].
    + destruct (commands_keep c (inv (root c)) cmds (t, n2) (inv_nil _) (fun L H => H) I) as [J1 J2].
      destruct (finally_inv c _ J1) as [n' ->]. cbn [snd]. exact J2.
    + destruct (finally_inv c ((t, n2), false) I) as [n' ->]. reflexivity.
  - match goal with |- snd (finally alone c ?x) = _ => destruct (finally_inv c x) as [n' E]; [apply inv_nil|rewrite E; reflexivity] end.
Qed.

(** ** The clean-up at the end of a build *)
Lemma mentions_iff : forall base e, contains_sub base (line_text e) = true <-> mentions base e.
Proof. intros. unfold mentions. apply contains_sub_iff. Qed.
Lemma umount_head : forall e l1 l2, (forall x, In x l1 -> mtarget x <> mtarget e /\ below (mtarget x) (mtarget e) = false /\ below (mtarget e) (mtarget x) = false) ->
  umount mtarget (mtarget e) (l1 ++ e :: l2) = Some (l1 ++ l2).
Proof.
  intros e. induction l1 as [|x l1 IH]; intros l2 H; cbn.
  - now rewrite seqb_refl.
  - destruct (H x) as (A & B & C); [now left|]. apply seqb_neq in A. rewrite A, B, C. cbn. rewrite IH; auto. intros y Y. apply H. now right.
Qed.
Lemma cleanup_run : forall base l2 l1, separate base (l1 ++ l2) ->
  cleanup_loop base l2 (filter (fun e => negb (contains_sub base (line_text e))) l1 ++ l2) = (filter (fun e => negb (contains_sub base (line_text e))) (l1 ++ l2), []).
Proof.
  intros base. induction l2 as [|e l2 IH]; intros l1 S.
  - cbn. now rewrite !app_nil_r.
  - cbn [cleanup_loop]. replace (l1 ++ e :: l2) with ((l1 ++ [e]) ++ l2) in * by (rewrite <- app_assoc; reflexivity). specialize (IH (l1 ++ [e]) S).
    rewrite filter_app in IH. cbn [filter] in IH. destruct (contains_sub base (line_text e)) eqn:M; cbn [negb] in IH.
    + rewrite umount_head.
      * rewrite app_nil_r in IH. exact IH.
      * intros x X. apply filter_In in X. destruct X as [X N]. apply negb_true_iff in N. rewrite !below_false.
        assert (K : ~ (mtarget x = mtarget e \/ under (mtarget e) (mtarget x) \/ under (mtarget x) (mtarget e))).
        { intros K. assert (Z : mentions base x).
          { apply (S l1 e l2 x); auto; [rewrite <- app_assoc; reflexivity|now apply mentions_iff]. }
          apply mentions_iff in Z. congruence. }
        tauto.
    + rewrite <- app_assoc in IH. exact IH.
Qed.
Lemma filter_without : forall A (p : A -> Prop) f (l : list A), (forall x, f x = true <-> p x) -> without p l (filter (fun x => negb (f x)) l).
Proof.
  intros A p f. induction l as [|x l IH]; intros H; cbn; [constructor|]. destruct (f x) eqn:E; cbn.
  - apply without_skip; auto. now apply H.
  - apply without_keep; auto. intros P. apply H in P. congruence.
Qed.

(** ** Stamps *)
Lemma once_app : forall a b st, once_run st (a ++ b) = let x := once_run st a in let y := once_run (fst x) b in (fst y, snd x ++ snd y).
Proof.
  induction a as [|e a IH]; intros b st; cbn; [now destruct (once_run st b)|]. rewrite IH. cbn. now rewrite app_assoc.
Qed.
Lemma already_snoc : forall h e k, already_started (h ++ [e]) k <->
  (e = TaskStarted k) \/ (e <> BuildStarted /\ e <> TaskFailed k /\ already_started h k).
Proof.
  intros h e k. split.
  - intros (h1 & h2 & E & A & B). destruct (rev h2) as [|x r] eqn:R.
    + assert (h2 = []) by (rewrite <- (rev_involutive h2), R; reflexivity). subst. apply app_inj_tail in E. tauto.
    + assert (Z : h2 = rev r ++ [x]) by (rewrite <- (rev_involutive h2), R; reflexivity). subst h2. right.
      replace (h1 ++ TaskStarted k :: rev r ++ [x]) with ((h1 ++ TaskStarted k :: rev r) ++ [x]) in E by (rewrite <- app_assoc; reflexivity).
      apply app_inj_tail in E. destruct E as [-> ->]. rewrite in_app_iff in A, B. cbn in A, B. split; [intros ->; tauto|]. split; [intros ->; tauto|].
      exists h1, (rev r). tauto.
  - intros [->|(A & B & h1 & h2 & -> & C & D)].
    + exists h, []. auto.
    + exists h1, (h2 ++ [e]). split; [now rewrite <- app_assoc|]. rewrite !in_app_iff. cbn. split; intros [X|[X|X]]; auto.
Qed.
Lemma stamps_are : forall h k, In k (fst (once_run [] h)) <-> already_started h k.
Proof.
  intros h k. induction h as [|e h IH] using rev_ind.
  - cbn. split; [tauto|]. intros (h1 & h2 & E & _). now destruct h1.
  - rewrite once_app, already_snoc. cbn [once_run]. cbv zeta. cbn [fst]. set (st := fst (once_run [] h)) in *. destruct e as [|x|x|x]; cbn [once_step].
    + cbn. split; [tauto|]. intros [H|(H & _)]; [discriminate|congruence].
    + destruct (mem_str x st) eqn:M; cbn [fst].
      * apply mem_str_In in M. rewrite IH. split; intros H.
        -- right. repeat split; auto; discriminate.
        -- destruct H as [H|H]; [|tauto]. injection H as ->. now apply IH.
      * cbn [In]. rewrite IH. split; intros [H|H]; auto.
        -- left. now subst.
        -- right. repeat split; auto; discriminate.
        -- left. now injection H.
        -- right. tauto.
    + destruct (mem_str x st) eqn:M; cbn [fst].
      * rewrite filter_In, negb_true_iff, seqb_neq, IH. split; intros H.
        -- right. repeat split; try tauto; [discriminate|]. intros E. injection E as ->. tauto.
        -- destruct H as [H|(_ & H & A)]; [discriminate|]. split; auto. intros ->. congruence.
      * rewrite IH. apply mem_str_false in M. split; intros H.
        -- right. repeat split; auto; [discriminate|]. intros E. injection E as ->. apply M. now apply IH.
        -- destruct H as [H|H]; [discriminate|tauto].
    + cbn [fst]. rewrite IH. split; intros H.
      * right. repeat split; auto; discriminate.
      * destruct H as [H|H]; [discriminate|tauto].
Qed.

(** ** The lock *)
Lemma run_locked_held : forall l h i b, nth_error (fst (run_locked h l)) i = Some b ->
  (b = true <-> protected l i \/ (h = true /\ forall k, k < i -> ~ releases l k)).
Proof.
  induction l as [|[[a r] o] l IH]; intros h i b E; [now destruct i|]. cbn [run_locked] in E.
  assert (Z : b = h || a -> i = 0 -> (b = true <-> protected ((a, r, o) :: l) i \/ (h = true /\ forall k, k < i -> ~ releases ((a, r, o) :: l) k))).
  { intros -> ->. rewrite orb_true_iff. split.
    - intros [->| ->]; [right; split; auto; intros; lia|]. left. exists 0. split; [lia|]. split; [exists r, o; reflexivity|intros; lia].
    - intros [(j & J & (r' & o' & A) & _)|[-> _]]; auto. assert (j = 0) by lia. subst. cbn in A. injection A as -> _ _. auto. }
  assert (S : forall g i', i = S i' -> nth_error (fst (run_locked g l)) i' = Some b -> (g = true <-> (h || a = true /\ r = false)) ->
    (b = true <-> protected ((a, r, o) :: l) i \/ (h = true /\ forall k, k < i -> ~ releases ((a, r, o) :: l) k))).
  { intros g i' -> N G. rewrite (IH _ _ _ N). split.
    - intros [(j & J & A & F)|[-> F]].
      + left. exists (S j). split; [lia|]. split; [exact A|]. intros k K1 K2 X. destruct k as [|k]; [lia|]. apply (F k); [lia|lia|exact X].
      + destruct G as [G _]. destruct (G eq_refl) as [HA R]. assert (NR : forall k, k < S i' -> ~ releases ((a, r, o) :: l) k).
        { intros k K (x & y & X). destruct k as [|k]; cbn in X; [injection X as _ X _; congruence|]. apply (F k); [lia|]. exists x, y. exact X. }
        apply orb_true_iff in HA. destruct HA as [->|HA]; auto. left. subst a. exists 0. split; [lia|]. split; [exists r, o; reflexivity|]. intros k _ K. auto.
    - intros [(j & J & A & F)|[-> F]].
      + destruct j as [|j].
        * destruct A as (r' & o' & A). cbn in A. injection A as -> -> ->. right. split.
          -- apply G. split; [now rewrite orb_true_r|]. destruct r'; auto. exfalso. apply (F 0); [lia|lia|]. eexists; eexists; reflexivity.
          -- intros k K X. apply (F (S k)); [lia|lia|exact X].
        * left. exists j. split; [lia|]. split; [exact A|]. intros k K1 K2 X. apply (F (S k)); [lia|lia|exact X].
      + right. split; [|intros k K X; apply (F (S k)); [lia|exact X]]. apply G. split; auto. destruct r; auto. exfalso. apply (F 0); [lia|]. eexists; eexists; reflexivity. }
  destruct o; [destruct r|]; cbn [fst snd] in E.
  - destruct (h || a) eqn:HA; cbn [fst snd] in E.
    + destruct i as [|i]; [injection E as <-; auto|]. eapply S; eauto. split; [discriminate|intros [_ X]; discriminate X].
    + destruct i as [|i]; [injection E as <-; auto|now destruct i].
  - destruct i as [|i]; [injection E as <-; auto|]. eapply S; eauto. split; [intros X; rewrite X; auto|tauto].
  - destruct i as [|i]; [injection E as <-; auto|now destruct i].
Qed.
