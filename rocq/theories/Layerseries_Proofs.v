(** Lemmas about layers and series. *)
From Coq Require Import Ascii String List Bool.
From Verif Require Import Str_Model Str_Proofs Layerseries_Model Layerseries_Spec.
Import ListNotations.
Open Scope list_scope.

Lemma del_same d k : delvar d k k = None.
Proof. unfold delvar. now rewrite seqb_refl. Qed.
Lemma del_other d k x : x <> k -> delvar d k x = d x.
Proof. intro N. unfold delvar. destruct (seqb x k) eqn:E; [apply seqb_eq in E; contradiction|reflexivity]. Qed.
Lemma compat_inj a b : compat_var a = compat_var b -> a = b.
Proof. unfold compat_var. apply app_inv_head. Qed.
Lemma meets_iff a b : meets a b = true <-> exists s, In s a /\ In s b.
Proof. unfold meets. rewrite existsb_exists. setoid_rewrite mem_str_In. reflexivity. Qed.
Lemma accepted_iff compat series cols : accepted compat series cols cols = true <-> NoDup cols /\ forall c, In c cols -> fits series (compat c).
Proof.
  induction cols as [|c cols IH]; cbn [accepted]; [split; [intros _; split; [constructor|intros c []]|reflexivity]|].
  assert (R : remove1 c (c :: cols) = cols) by (cbn; now rewrite seqb_refl). rewrite R. destruct (mem_str c cols) eqn:M.
  - apply mem_str_In in M. split; [discriminate|]. intros [N _]. inversion N. contradiction.
  - assert (NI : ~ In c cols) by (intro I; apply mem_str_In in I; congruence).
    assert (ST : forall P, P <-> fits series (compat c) -> ((P /\ accepted compat series cols cols = true) <-> NoDup (c :: cols) /\ forall x, In x (c :: cols) -> fits series (compat x))).
    { intros P HP. rewrite IH, HP. split.
      - intros (F & N & A). split; [now constructor|]. intros x [<-|I]; auto.
      - intros [N A]. inversion N; subst. split; [apply A; now left|]. split; [assumption|]. intros x I. apply A. now right. }
    destruct (compat c) as [|s0 s] eqn:C.
    + rewrite <- (ST True); [tauto|]. split; [intros _; now left|auto].
    + rewrite <- (ST (meets (s0 :: s) series = true)).
      * destruct series as [|y series].
        { split; [discriminate|]. intros [H _]. apply meets_iff in H. destruct H as (z & _ & []). }
        destruct (meets (s0 :: s) (y :: series)); [tauto|]. split; [discriminate|intros [H _]; discriminate].
      * rewrite meets_iff. unfold fits. split; [now right|]. intros [H|H]; [discriminate|exact H].
Qed.
(** ** Dynamic files *)
Lemma cut_form e : match cut_at ":"%char e with (_, None) => ~ In ":"%char e | (l, Some f) => e = l ++ s_ ":" ++ f /\ ~ In ":"%char l end.
Proof.
  induction e as [|c e IH]; cbn [cut_at]; [intros []|]. destruct (aeqb c ":"%char) eqn:E.
  - apply aeqb_eq in E. subst c. split; [reflexivity|intros []].
  - assert (N : c <> ":"%char) by (intros ->; discriminate). destruct (cut_at ":"%char e) as [l [f|]].
    + destruct IH as [-> NI]. split; [reflexivity|]. intros [H|H]; auto.
    + intros [H|H]; auto.
Qed.
Lemma cut_unique l f : ~ In ":"%char l -> cut_at ":"%char (l ++ s_ ":" ++ f) = (l, Some f).
Proof.
  induction l as [|c l IH]; intro N; [reflexivity|]. cbn [app cut_at]. destruct (aeqb c ":"%char) eqn:E; [apply aeqb_eq in E; subst; exfalso; apply N; left; reflexivity|]. rewrite IH; [reflexivity|]. intro I. apply N. right. exact I.
Qed.
Definition chosen (cols : list str) (e : str) : option str :=
  match cut_at ":"%char e with
  | (x :: l, Some f) => if aeqb x "!"%char then (if mem_str l cols then None else Some f) else if mem_str (x :: l) cols then Some f else None
  | _ => None
  end.
Lemma chosen_iff cols e f : well_formed e -> (chosen cols e = Some f <-> selects cols e f).
Proof.
  intros (x & l & f' & E & NX & NL). unfold chosen. assert (N : ~ In ":"%char (x :: l)) by (intros [H|H]; [congruence|exact (NL H)]).
  rewrite E. change (x :: l ++ s_ ":" ++ f') with ((x :: l) ++ s_ ":" ++ f'). rewrite (cut_unique (x :: l) f' N).
  assert (U : forall l' f2, ~ In ":"%char l' -> (x :: l) ++ s_ ":" ++ f' = l' ++ s_ ":" ++ f2 -> l' = x :: l /\ f2 = f').
  { intros l' f2 NL' EQ. pose proof (cut_unique l' f2 NL') as C. rewrite <- EQ, (cut_unique (x :: l) f' N) in C. injection C as <- <-. auto. }
  destruct (aeqb x "!"%char) eqn:X.
  - apply aeqb_eq in X. subst x. destruct (mem_str l cols) eqn:M; split.
    + discriminate.
    + apply mem_str_In in M. intros (l' & NL' & [(EQ & NB & I)|(EQ & NI)]).
      * destruct (U l' f NL' EQ) as [-> _]. exfalso. exact (NB l eq_refl).
      * exfalso. destruct (U ("!"%char :: l') f) as [Q _]; [intros [H|H]; [discriminate|exact (NL' H)]|exact EQ|]. injection Q as ->. exact (NI M).
    + intro H. injection H as <-. exists l. split; [exact NL|]. right. split; [reflexivity|]. intro I. apply mem_str_In in I. congruence.
    + intros (l' & NL' & [(EQ & NB & I)|(EQ & NI)]).
      * destruct (U l' f NL' EQ) as [-> _]. exfalso. exact (NB l eq_refl).
      * destruct (U ("!"%char :: l') f) as [_ ->]; [intros [H|H]; [discriminate|exact (NL' H)]|exact EQ|reflexivity].
  - assert (NB : x <> "!"%char) by (intros ->; discriminate). destruct (mem_str (x :: l) cols) eqn:M; split.
    + intro H. injection H as <-. exists (x :: l). split; [exact N|]. left. split; [reflexivity|]. split; [congruence|now apply mem_str_In].
    + intros (l' & NL' & [(EQ & _ & I)|(EQ & NI)]); [destruct (U l' f NL' EQ) as [_ ->]; reflexivity|]. cbn in EQ. injection EQ as EQ _. congruence.
    + discriminate.
    + intros (l' & NL' & [(EQ & _ & I)|(EQ & NI)]); [destruct (U l' f NL' EQ) as [-> _]; apply mem_str_In in I; congruence|]. cbn in EQ. injection EQ as EQ _. congruence.
Qed.
Lemma dynamic_files cols es : forall b, Forall well_formed es ->
  dynamic cols es b false = Files (b ++ concat (map (fun e => match chosen cols e with Some f => s_ " " ++ f | None => [] end) es)).
Proof.
  induction es as [|e es IH]; intros b F; cbn [dynamic map concat]; [now rewrite app_nil_r|]. inversion F as [|? ? (x & l & f & E & NX & NL) F']; subst. unfold chosen at 1.
  change (x :: l ++ s_ ":" ++ f) with ((x :: l) ++ s_ ":" ++ f). rewrite (cut_unique (x :: l) f) by (intros [H|H]; [congruence|exact (NL H)]).
  destruct (aeqb x "!"%char); cbn [negb]; destruct (mem_str _ cols); cbn [andb orb negb]; rewrite IH by exact F'; rewrite ?app_nil_l, <- ?app_assoc; reflexivity.
Qed.
Lemma dynamic_fatal cols es : forall b i, (forall e, In e es -> forall r, e <> ":"%char :: r) ->
  (dynamic cols es b i = Fatal <-> i = true \/ exists e, In e es /\ ~ In ":"%char e).
Proof.
  induction es as [|e es IH]; intros b i N; cbn [dynamic].
  - destruct i; split; auto; try discriminate. intros [H|(e & [] & _)]. discriminate.
  - pose proof (cut_form e) as C. assert (N' : forall e, In e es -> forall r, e <> ":"%char :: r) by (intros y Y; apply N; now right). destruct (cut_at ":"%char e) as [l [f|]].
    + destruct C as [E NL]. destruct l as [|x l]; [exfalso; apply (N e (or_introl eq_refl) f); exact E|]. rewrite (IH _ i N').
      split; (intros [H|(y & Y & H)]; [now left|]); [right; exists y; split; [now right|exact H]|]. destruct Y as [<-|Y]; [|right; exists y; auto]. exfalso. apply H. rewrite E. apply in_elt.
    + rewrite (IH _ true N'). split; [|now left]. intros _. right. exists e. split; [now left|exact C].
Qed.
(** ** Compatibility is taken away *)
Definition hidden (d : data) (c : str) : Prop := d (compat_var c) = None \/ d (compat_var c) = Some [].
Lemma take_hides r c x : hidden (r_data r) x \/ x = c -> hidden (r_data (take_compat r c)) x.
Proof.
  intro H. unfold take_compat. destruct (r_data r (compat_var c)) as [[|y v]|] eqn:E.
  - destruct H as [H| ->]; [exact H|right; exact E].
  - cbn [r_data]. unfold hidden. destruct (str_eq_dec x c) as [->|N]; [left; apply del_same|]. rewrite del_other by (intro Q; apply N; now apply compat_inj). destruct H; [assumption|contradiction].
  - destruct H as [H| ->]; [exact H|left; exact E].
Qed.
Lemma take_other r c k : (forall x, k <> compat_var x) -> r_data (take_compat r c) k = r_data r k.
Proof. intro N. unfold take_compat. destruct (r_data r (compat_var c)) as [[|y v]|]; [reflexivity| |reflexivity]. cbn [r_data]. apply del_other. apply N. Qed.
Lemma takes_hide cs : forall r x, hidden (r_data r) x \/ In x cs -> hidden (r_data (fold_left take_compat cs r)) x.
Proof.
  induction cs as [|c cs IH]; intros r x H; cbn [fold_left]; [destruct H as [H|[]]; exact H|]. apply IH. destruct H as [H|[<-|H]]; [left; apply take_hides; now left|left; apply take_hides; now right|now right].
Qed.
Lemma takes_other cs : forall r k, (forall x, k <> compat_var x) -> r_data (fold_left take_compat cs r) k = r_data r k.
Proof. induction cs as [|c cs IH]; intros r k N; cbn [fold_left]; [reflexivity|]. rewrite IH by exact N. now apply take_other. Qed.
Lemma series_other r k : k <> corenames_var -> r_data (take_series r) k = r_data r k.
Proof. intro N. unfold take_series. destruct (r_series r); [|reflexivity]. destruct (split_ws _); [reflexivity|]. cbn [r_data]. now apply del_other. Qed.
Lemma compat_not_core c : compat_var c <> corenames_var.
Proof. intro E. unfold compat_var, corenames_var in E. cbn in E. discriminate. Qed.
Lemma not_compat c : s_ "BBFILE_COLLECTIONS" <> compat_var c.
Proof. discriminate. Qed.
Lemma takes_series cs : forall r, r_series (fold_left take_compat cs r) = r_series r.
Proof. induction cs as [|c cs IH]; intro r; cbn [fold_left]; [reflexivity|]. rewrite IH. unfold take_compat. destruct (r_data r _) as [[|]|]; reflexivity. Qed.
(** ** What a layer says *)
Lemma take_compat_of r c x : r_compat (take_compat r c) x = match r_data r (compat_var c) with Some (y :: v) => if seqb x c then split_ws (y :: v) else r_compat r x | _ => r_compat r x end.
Proof. unfold take_compat. destruct (r_data r (compat_var c)) as [[|y v]|]; reflexivity. Qed.
Lemma takes_quiet cs : forall r x, hidden (r_data r) x -> r_compat (fold_left take_compat cs r) x = r_compat r x.
Proof.
  induction cs as [|c cs IH]; intros r x H; cbn [fold_left]; [reflexivity|]. rewrite IH by (apply take_hides; now left). rewrite take_compat_of. destruct (r_data r (compat_var c)) as [[|y v]|] eqn:E; try reflexivity.
  destruct (seqb x c) eqn:X; [|reflexivity]. apply seqb_eq in X. subst c. destruct H as [H|H]; congruence.
Qed.
Lemma takes_say cs : forall r x y v, In x cs -> r_data r (compat_var x) = Some (y :: v) -> r_compat (fold_left take_compat cs r) x = split_ws (y :: v).
Proof.
  induction cs as [|c cs IH]; intros r x y v I E; [destruct I|]. cbn [fold_left]. destruct (str_eq_dec x c) as [->|N].
  - rewrite takes_quiet by (apply take_hides; now right). rewrite take_compat_of, E, seqb_refl. reflexivity.
  - destruct I as [->|I]; [contradiction|]. apply IH; [exact I|]. unfold take_compat. destruct (r_data r (compat_var c)) as [[|z w]|]; [exact E| |exact E]. cbn [r_data]. rewrite del_other; [exact E|]. intro Q. apply N. now apply compat_inj.
Qed.
Lemma series_compat r : r_compat (take_series r) = r_compat r.
Proof. unfold take_series. destruct (r_series r); [|reflexivity]. destruct (split_ws _); reflexivity. Qed.
