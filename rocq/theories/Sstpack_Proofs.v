From Coq Require Import Ascii String List Bool Arith Lia.
From Verif Require Import Str_Model Str_Proofs Sstpack_Model Sstpack_Spec.
Import ListNotations.
Open Scope list_scope.

Lemma exists_there e : exists_ e = true <-> there e.
Proof.
  unfold there, opens. destruct e as [|c|[c|]]; cbn; split; intros H; try discriminate; eauto; try reflexivity; destruct H as (x & [H|H]); discriminate.
Qed.
Lemma run_app data a b w : run data (a ++ b) w = run data b (run data a w).
Proof. unfold run. apply fold_left_app. Qed.
Lemma upd_same f i p : upd f i p i = p.
Proof. unfold upd. now rewrite Nat.eqb_refl. Qed.
Lemma upd_other f i j p : j <> i -> upd f i p j = f j.
Proof. unfold upd. intros H. apply Nat.eqb_neq in H. now rewrite H. Qed.

(** ** What a temporary file holds *)
Definition past_packing (l : place) : bool :=
  match l with Chmod | Test1 | Test2 | Test3 | Force | Linking | Touching | Removing => true | _ => false end.
Definition temp_ok (d : content) (p : proc) : Prop :=
  (p_place p = Packing -> exists k, p_temp p = Some (firstn k d) /\ k <= length d) /\
  (past_packing (p_place p) = true -> p_temp p = Some d) /\
  (p_place p = Done -> p_temp p = None) /\
  (p_place p = Begin \/ p_place p = Making -> p_temp p = None).
Lemma firstn_snoc (d : content) : forall k b, nth_error d k = Some b -> firstn (S k) d = firstn k d ++ [b].
Proof. induction d as [|x d IH]; intros [|k] b H; cbn in H; try discriminate; [injection H as ->; reflexivity|]. cbn [firstn app]. f_equal. now apply IH. Qed.
Lemma advance_temp d pkg p e : temp_ok d p -> temp_ok d (snd (advance d pkg p e)).
Proof.
  intros (T1 & T2 & T3 & T4). unfold advance. destruct p as [l t]. cbn [p_place p_temp] in *. unfold temp_ok.
  destruct l; cbn [past_packing] in *; try (specialize (T2 eq_refl); subst t).
  - specialize (T4 (or_introl eq_refl)). subst t. destruct (exists_ pkg); cbn; repeat split; try discriminate; auto.
  - specialize (T4 (or_intror eq_refl)). subst t. destruct e; cbn; repeat split; try discriminate; auto; try (intros [H|H]; discriminate). intros _. exists 0. cbn. split; [reflexivity|lia].
  - destruct (T1 eq_refl) as (k & -> & L). destruct e; [|cbn; repeat split; try discriminate; intros [H|H]; discriminate].
    rewrite firstn_length_le by exact L. destruct (nth_error d k) as [b|] eqn:N; cbn; repeat split; try discriminate; try (intros [H|H]; discriminate).
    + intros _. exists (S k). rewrite (firstn_snoc _ _ _ N). split; [reflexivity|]. apply nth_error_Some. congruence.
    + intros _. apply nth_error_None in N. now rewrite firstn_all2.
  - destruct e; cbn; repeat split; try discriminate; auto; try (intros [H|H]; discriminate).
  - destruct (is_link pkg); cbn; repeat split; try discriminate; auto; try (intros [H|H]; discriminate).
  - destruct (exists_ pkg); cbn; repeat split; try discriminate; auto; try (intros [H|H]; discriminate).
  - destruct (exists_ pkg); cbn; repeat split; try discriminate; auto; try (intros [H|H]; discriminate).
  - destruct e; cbn; repeat split; try discriminate; auto; try (intros [H|H]; discriminate).
  - destruct e, pkg; cbn; repeat split; try discriminate; auto; try (intros [H|H]; discriminate).
  - cbn; repeat split; try discriminate; auto; try (intros [H|H]; discriminate).
  - destruct e; cbn; repeat split; try discriminate; auto; try (intros [H|H]; discriminate).
  - cbn. repeat split; try discriminate; auto; try (intros [H|H]; discriminate).
  - cbn. repeat split; try discriminate; auto; try (intros [H|H]; discriminate).
  - cbn. repeat split; try discriminate; auto; try (intros [H|H]; discriminate).
Qed.
Lemma advance_pkg d pkg p e : temp_ok d p -> fst (advance d pkg p e) = pkg \/
  (fst (advance d pkg p e) = File d /\ e = Success /\ ((p_place p = Force) \/ (p_place p = Linking /\ pkg = Absent))).
Proof.
  intros (_ & T2 & _). unfold advance. destruct p as [l t]. cbn [p_place p_temp] in *. destruct l; cbn [past_packing] in *; try (specialize (T2 eq_refl); subst t); try (left; reflexivity).
  - destruct e; left; reflexivity.
  - destruct e, t as [c|]; try (left; reflexivity). destruct (nth_error d (length c)); left; reflexivity.
  - destruct e; left; reflexivity.
  - destruct e; [right|left; reflexivity]. cbn. auto.
  - destruct e; [|left; reflexivity]. destruct pkg; [right|left; reflexivity|left; reflexivity]. cbn. auto.
  - destruct e; left; reflexivity.
Qed.
Definition temps_ok (data : nat -> content) (w : world) : Prop := forall i, temp_ok (data i) (w_procs w i).
Lemma happen_temps data w ev : temps_ok data w -> temps_ok data (happen data w ev).
Proof.
  intros H i. destruct ev as [j e|j|e]; cbn [happen].
  - pose proof (advance_temp (data j) (w_pkg w) (w_procs w j) e (H j)) as A. destruct (advance (data j) (w_pkg w) (w_procs w j) e) as [pkg p]. cbn [snd] in A. cbn [w_procs].
    destruct (Nat.eq_dec i j) as [->|N]; [now rewrite upd_same|rewrite upd_other by exact N; apply H].
  - cbn [w_procs]. destruct (Nat.eq_dec i j) as [->|N]; [rewrite upd_same|rewrite upd_other by exact N; apply H]. unfold temp_ok. cbn. repeat split; try discriminate. intros [K|K]; discriminate.
  - apply H.
Qed.
Lemma run_temps data evs : forall w, temps_ok data w -> temps_ok data (run data evs w).
Proof. induction evs as [|ev evs IH]; intros w H; [exact H|]. apply IH. now apply happen_temps. Qed.
Lemma start_temps data pkg : temps_ok data (start pkg).
Proof. intros i. unfold temp_ok. cbn. repeat split; try discriminate; auto. Qed.
Lemma happen_pkg data w ev : temps_ok data w -> (exists e, ev = Other e /\ w_pkg (happen data w ev) = e) \/ w_pkg (happen data w ev) = w_pkg w \/
  exists i, ev = Step i Success /\ w_pkg (happen data w ev) = File (data i) /\ (p_place (w_procs w i) = Force \/ (p_place (w_procs w i) = Linking /\ w_pkg w = Absent)).
Proof.
  intros H. destruct ev as [i e|i|e]; cbn [happen].
  - right. pose proof (advance_pkg (data i) (w_pkg w) (w_procs w i) e (H i)) as A. destruct (advance (data i) (w_pkg w) (w_procs w i) e) as [pkg p]. cbn [fst] in A. cbn [w_pkg]. destruct A as [->|(-> & -> & A)]; [now left|]. right. exists i. auto.
  - right. now left.
  - left. exists e. auto.
Qed.
