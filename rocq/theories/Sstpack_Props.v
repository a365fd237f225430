(** The creation of shared-state archives: the claims. *)
From Coq Require Import Ascii String List Bool Arith Lia.
From Verif Require Import Str_Model Str_Proofs Sstname_Model Sstname_Proofs Sstfind_Model Sstpack_Model Sstpack_Spec Sstpack_Proofs.
Import ListNotations.
Open Scope list_scope.

(** ** C114 *)
(** However many processes create an archive, whatever fails and whoever is killed: what
    the name of the archive stands for is at every moment all of what some process
    packed, or what somebody else put there. *)
Theorem archive_complete : forall data pkg evs c, opens (w_pkg (run data evs (start pkg))) c ->
  (exists i, c = data i) \/ opens pkg c \/ exists e, In (Other e) evs /\ opens e c.
Proof.
  intros data pkg evs c. induction evs as [|ev evs IH] using rev_ind; [auto|]. rewrite run_app. cbn [run fold_left]. fold (run data evs (start pkg)).
  assert (T := run_temps data evs (start pkg) (start_temps data pkg)). destruct (happen_pkg data _ ev T) as [(e & -> & E)|[E|(i & -> & E & _)]]; rewrite E; intros O.
  - right. right. exists e. split; [apply in_or_app; right; now left|exact O].
  - destruct (IH O) as [H|[H|(e & H & Q)]]; auto. right. right. exists e. split; [apply in_or_app; now left|exact Q].
  - left. exists i. destruct O as [O|O]; [injection O as <-; reflexivity|discriminate].
Qed.
Lemma step_place data w ev i : p_place (w_procs (happen data w ev) i) = p_place (w_procs w i) \/
  (exists e, ev = Step i e /\ p_place (w_procs (happen data w ev) i) = p_place (snd (advance (data i) (w_pkg w) (w_procs w i) e))) \/
  (ev = Kill i /\ p_place (w_procs (happen data w ev) i) = Killed).
Proof.
  destruct ev as [j e|j|e]; cbn [happen].
  - destruct (advance (data j) (w_pkg w) (w_procs w j) e) as [pkg p] eqn:A. cbn [w_procs]. destruct (Nat.eq_dec i j) as [->|N]; [rewrite upd_same; right; left; exists e; rewrite A; auto|left; now rewrite upd_other].
  - cbn [w_procs]. destruct (Nat.eq_dec i j) as [->|N]; [rewrite upd_same; right; right; auto|left; now rewrite upd_other].
  - now left.
Qed.
Definition no_force (w : world) : Prop := w_pkg w <> Link None /\ forall i, p_place (w_procs w i) <> Force /\ (p_place (w_procs w i) = Test2 -> exists_ (w_pkg w) = true).
Lemma no_force_happen data w ev : temps_ok data w -> (forall e, ev <> Other e) -> no_force w -> no_force (happen data w ev) /\ (forall c, opens (w_pkg w) c -> opens (w_pkg (happen data w ev)) c).
Proof.
  intros T NO [D F]. assert (P : w_pkg (happen data w ev) = w_pkg w \/ exists i, w_pkg (happen data w ev) = File (data i) /\ w_pkg w = Absent).
  { destruct (happen_pkg data w ev T) as [(e & E & _)|[E|(i & _ & E & [K|[_ K]])]]; [exfalso; exact (NO e E)|now left|exfalso; exact (proj1 (F i) K)|right; exists i; auto]. }
  assert (X : exists_ (w_pkg w) = true -> exists_ (w_pkg (happen data w ev)) = true) by (destruct P as [->|(i & -> & _)]; auto).
  split; [split|].
  - destruct P as [->|(i & -> & _)]; [exact D|discriminate].
  - intros i. destruct (F i) as [F1 F2]. destruct (step_place data w ev i) as [E|[(e & -> & E)|[-> E]]]; rewrite E; [auto| |split; discriminate].
    clear E. unfold advance. destruct (w_procs w i) as [l t]. cbn [p_place p_temp] in *. destruct l; cbn [snd p_place]; try (split; discriminate); try contradiction.
    + destruct (exists_ (w_pkg w)); split; discriminate.
    + destruct e; split; discriminate.
    + destruct e, t as [c|]; try (split; discriminate). destruct (nth_error (data i) (length c)); split; discriminate.
    + destruct e; split; discriminate.
    + destruct (is_link (w_pkg w)) eqn:L; [|split; discriminate]. split; [discriminate|]. intros _. apply X. destruct (w_pkg w) as [|c|[c|]]; try discriminate; [reflexivity|contradiction].
    + rewrite (F2 eq_refl). split; discriminate.
    + destruct (exists_ (w_pkg w)); split; discriminate.
    + destruct e, t, (w_pkg w); split; discriminate.
    + destruct e; split; discriminate.
  - intros c O. destruct P as [->|(i & _ & E)]; [exact O|]. rewrite E in O. destruct O; discriminate.
Qed.
Lemma undisturbed_app a b : undisturbed (a ++ b) <-> undisturbed a /\ undisturbed b.
Proof. unfold undisturbed. setoid_rewrite in_app_iff. firstorder. Qed.
Lemma no_force_run data evs : forall w, temps_ok data w -> undisturbed evs -> no_force w -> no_force (run data evs w) /\ (forall c, opens (w_pkg w) c -> opens (w_pkg (run data evs w)) c).
Proof.
  induction evs as [|ev evs IH]; intros w T U N; [auto|]. cbn. destruct (no_force_happen data w ev T) as [A B]; [intros e ->; exact (U e (or_introl eq_refl))|exact N|].
  destruct (IH (happen data w ev)) as [C D]; [now apply happen_temps|intros e I; exact (U e (or_intror I))|exact A|]. split; [exact C|]. intros c O. apply D, B, O.
Qed.
(** An archive that is there stays what it is: later processes leave it alone (unless
    the name was a link to nothing, which is replaced). *)
Theorem archive_stays : forall data pkg before after c, pkg <> Link None -> undisturbed (before ++ after) ->
  opens (w_pkg (run data before (start pkg))) c -> opens (w_pkg (run data (before ++ after) (start pkg))) c.
Proof.
  intros data pkg a b c D U O. apply undisturbed_app in U. destruct U as [U1 U2]. rewrite run_app.
  destruct (no_force_run data a (start pkg) (start_temps data pkg) U1) as [N _]; [split; [exact D|intros i; cbn; split; discriminate]|].
  destruct (no_force_run data b _ (run_temps data a _ (start_temps data pkg)) U2 N) as [_ K]. exact (K c O).
Qed.
Definition on_way (i : nat) (w : world) : Prop :=
  match p_place (w_procs w i) with
  | Done | Touching | Removing => exists_ (w_pkg w) = true
  | Test3 | Linking => w_pkg w <> Link None
  | Killed | Failed => True
  | _ => True
  end.
Lemma on_way_happen data w ev i : temps_ok data w -> (forall e, ev <> Other e) -> ev <> Step i Failure -> on_way i w -> on_way i (happen data w ev).
Proof.
  intros T NO NF W. pose proof (happen_pkg data w ev T) as P. assert (X : exists_ (w_pkg w) = true -> exists_ (w_pkg (happen data w ev)) = true).
  { destruct P as [(e & E & _)|[->|(j & _ & -> & _)]]; auto. exfalso. exact (NO e E). }
  assert (Y : w_pkg w <> Link None -> w_pkg (happen data w ev) <> Link None).
  { destruct P as [(e & E & _)|[->|(j & _ & -> & _)]]; auto; try discriminate. exfalso. exact (NO e E). }
  unfold on_way in *. destruct (step_place data w ev i) as [E|[(e & EV & E)|[_ E]]]; rewrite E; [destruct (p_place (w_procs w i)); auto| |exact I].
  destruct e; [|exfalso; exact (NF EV)]. subst ev. clear E NF NO. destruct (T i) as (_ & T2 & _). cbn [happen] in *. unfold advance in *. destruct (w_procs w i) as [l t] eqn:EP. cbn [p_place p_temp] in *.
  destruct l; cbn [past_packing] in *; try (specialize (T2 eq_refl); subst t); cbn [snd p_place w_pkg] in *; auto.
  - destruct (exists_ (w_pkg w)) eqn:Q; cbn; auto.
  - destruct t as [c|]; cbn; auto. destruct (nth_error (data i) (length c)); cbn; auto.
  - destruct (is_link (w_pkg w)) eqn:L; cbn; auto. apply Y. intros K. rewrite K in L. discriminate.
  - destruct (exists_ (w_pkg w)) eqn:Q; cbn; auto. apply Y. intros K. rewrite K in Q. discriminate.
  - destruct (exists_ (w_pkg w)) eqn:Q; cbn; auto.
  - destruct (w_pkg w) as [|c|[c|]]; cbn; auto.
Qed.
(** A process that comes to the end without a failing command leaves an archive, unless
    somebody else interferes. *)
Theorem archive_stored : forall data pkg evs i, undisturbed evs -> never_fails i evs ->
  p_place (w_procs (run data evs (start pkg)) i) = Done -> there (w_pkg (run data evs (start pkg))).
Proof.
  intros data pkg evs i U NF D. assert (W : forall es w, temps_ok data w -> undisturbed es -> never_fails i es -> on_way i w -> on_way i (run data es w)).
  { induction es as [|ev es IH]; intros w T U' NF' W; [exact W|]. cbn. apply IH.
    - now apply happen_temps.
    - intros e I. exact (U' e (or_intror I)).
    - intros I. exact (NF' (or_intror I)).
    - apply on_way_happen; auto; [intros e ->; exact (U' e (or_introl eq_refl))|intros ->; exact (NF' (or_introl eq_refl))]. }
  specialize (W evs (start pkg) (start_temps data pkg) U NF I). unfold on_way in W. rewrite D in W. now apply exists_there.
Qed.
(** A failing ln is ignored: the task succeeds although its object is not stored. *)
Theorem failed_link_refuted : exists evs, undisturbed evs /\ let w := run (fun _ => [7]) evs (start Absent) in p_place (w_procs w 0) = Done /\ w_pkg w = Absent.
Proof.
  exists [Step 0 Success; Step 0 Success; Step 0 Success; Step 0 Success; Step 0 Success; Step 0 Success; Step 0 Success; Step 0 Failure; Step 0 Success].
  split; [intros e H; cbn in H; repeat destruct H as [H|H]; try discriminate; contradiction|]. vm_compute. auto.
Qed.
(** A process that comes to the end removes its temporary file. *)
Theorem temp_removed : forall data pkg evs i, p_place (w_procs (run data evs (start pkg)) i) = Done -> p_temp (w_procs (run data evs (start pkg)) i) = None.
Proof. intros data pkg evs i D. destruct (run_temps data evs _ (start_temps data pkg) i) as (_ & _ & T & _). exact (T D). Qed.
(** A process that is killed does not, and nobody else does. *)
Theorem killed_leaves_refuted : exists before, forall after, p_temp (w_procs (run (fun _ => [7; 8]) (before ++ after) (start Absent)) 0) = Some [7].
Proof.
  exists [Step 0 Success; Step 0 Success; Step 0 Success; Kill 0]. intros after. rewrite run_app.
  assert (K : forall es w, p_place (w_procs w 0) = Killed -> p_temp (w_procs w 0) = Some [7] -> p_temp (w_procs (run (fun _ => [7; 8]) es w) 0) = Some [7]).
  { induction es as [|ev es IH]; intros w P T; [exact T|]. cbn. destruct ev as [j e|j|e]; cbn [happen].
    - destruct (Nat.eq_dec 0 j) as [<-|N].
      + unfold advance. rewrite P. apply IH; cbn [w_procs]; rewrite upd_same; auto.
      + destruct (advance [7; 8] (w_pkg w) (w_procs w j) e) as [pkg p]. apply IH; cbn [w_procs]; rewrite upd_other by exact N; auto.
    - destruct (Nat.eq_dec 0 j) as [<-|N]; apply IH; cbn [w_procs]; rewrite ?upd_same, ?upd_other by exact N; auto.
    - apply IH; auto. }
  apply K; reflexivity.
Qed.
(** What is left behind is never taken for an object: no object is looked for under the
    name of a temporary file. *)
Theorem temp_names_apart : forall lsb hashfn hash tid siginfo name pkg x, looked_for lsb hashfn hash tid siginfo = Name name ->
  length x = 8 -> ~ In "."%char x -> name <> temp_name pkg x.
Proof.
  intros lsb hashfn hash tid sg name pkg x L LX NX E. assert (S : exists a, name = a ++ (if sg then s_ ".siginfo" else s_ ".tar.zst")).
  { unfold looked_for in L. destruct (path_components lsb hashfn tid) as [[[spec extra] t]|]; [|discriminate].
    unfold generate_sstatefn in L. set (h := match hash with None => _ | Some _ => _ end) in L. destruct (base_name spec h t sg) as [fn| |] eqn:B; try discriminate. cbn [prefixed] in L. injection L as <-.
    assert (Q : exists a, fn = a ++ (if sg then s_ ".siginfo" else s_ ".tar.zst")).
    { assert (X : extension sg = (if sg then s_ ".tar.zst" else []) ++ (if sg then s_ ".siginfo" else s_ ".tar.zst")) by (destruct sg; reflexivity).
      unfold base_name in B. rewrite X in B. destruct (BinInt.Z.leb _ _); [injection B as <-; exists (spec ++ h ++ s_ "_" ++ t ++ (if sg then s_ ".tar.zst" else [])); now rewrite <- !app_assoc|].
      destruct (split_on ":" spec) as [|c0 [|c1 [|c2 [|c3 [|c4 [|c5 [|c6 rest]]]]]]]; try discriminate. cbv zeta in B.
      match type of B with (if ?b then Name (?s ++ _) else _) = _ => destruct b; [|discriminate]; generalize dependent s; intros S B end. injection B as <-. exists (S ++ h ++ s_ "_" ++ t ++ (if sg then s_ ".tar.zst" else [])). now rewrite <- !app_assoc. }
    assert (P1 : forall (suf u v : str), (exists a, v = a ++ suf) -> exists a, u ++ v = a ++ suf) by (intros suf u v [a ->]; exists (u ++ a); now rewrite app_assoc).
    assert (P2 : forall (suf : str) c (v : str), (exists a, v = a ++ suf) -> exists a, c :: v = a ++ suf) by (intros suf c v [a ->]; exists (c :: a); reflexivity).
    apply P1, P1, P2, P1, P2, Q. }
  destruct S as [a ->]. unfold temp_name in E. assert (Y : x = (if sg then s_ ".siginfo" else s_ ".tar.zst")).
  { rewrite app_assoc in E. apply (f_equal (@rev ascii)) in E. rewrite !(rev_app_distr _ x), !(rev_app_distr a) in E. apply (f_equal (firstn 8)) in E.
    assert (F : forall (u v : str), length u = 8 -> firstn 8 (rev u ++ v) = rev u) by (intros u v LU; rewrite firstn_app, rev_length, LU, Nat.sub_diag, firstn_O, app_nil_r; apply firstn_all2; rewrite rev_length; lia).
    rewrite !F in E by (auto; destruct sg; reflexivity). apply (f_equal (@rev ascii)) in E. rewrite !rev_involutive in E. symmetry. exact E. }
  apply NX. rewrite Y. destruct sg; cbn; auto.
Qed.

(** Two processes pack at once; one is killed, the other stores its archive. *)
Definition race : list event :=
  [Step 0 Success; Step 1 Success; Step 0 Success; Step 1 Success; Step 0 Success; Kill 0; Step 1 Success; Step 1 Success; Step 1 Success; Step 1 Success; Step 1 Success; Step 1 Success; Step 1 Success; Step 1 Success].
Example race_ends : let w := run (fun i => [i; 5]) race (start Absent) in w_pkg w = File [1; 5] /\ p_place (w_procs w 1) = Done /\ p_temp (w_procs w 0) = Some [0].
Proof. vm_compute. auto. Qed.
Example race_meets : undisturbed race /\ never_fails 1 race.
Proof. split; [intros e H|intros H]; cbn in H; repeat destruct H as [H|H]; try discriminate; contradiction. Qed.
Print Assumptions archive_complete. Print Assumptions archive_stays. Print Assumptions archive_stored. Print Assumptions failed_link_refuted.
Print Assumptions temp_removed. Print Assumptions killed_leaves_refuted. Print Assumptions temp_names_apart.
