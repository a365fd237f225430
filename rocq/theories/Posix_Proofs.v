From Coq Require Import Ascii String List Bool Arith Lia.
From Verif Require Import Str_Model Str_Proofs Posix_Model.
Import ListNotations.
Open Scope list_scope.

(** a component: not empty, no slash *)
Definition comp (c : str) : Prop := c <> [] /\ no_char slash c.
(** components, each with a slash before it *)
Definition ptail (cs : list str) : str := flat_map (fun c => slash :: c) cs.

Lemma is_slash_iff c : is_slash c = true <-> c = slash.
Proof. apply aeqb_eq. Qed.
Lemma ptail_app a b : ptail (a ++ b) = ptail a ++ ptail b.
Proof. apply flat_map_app. Qed.
Lemma ptail_join cs : cs <> [] -> ptail cs = slash :: join [slash] cs.
Proof.
  induction cs as [|c cs IH]; intros N; [congruence|]. destruct cs as [|d cs]; [cbn; now rewrite app_nil_r|].
  change (ptail (c :: d :: cs)) with (slash :: c ++ ptail (d :: cs)). rewrite IH by discriminate. reflexivity.
Qed.
Lemma split_on_app sep a b : split_on sep (a ++ sep :: b) = split_on sep a ++ split_on sep b.
Proof.
  destruct (split_on_spec sep a) as (F & N & J). rewrite <- J at 1. clear J.
  induction (split_on sep a) as [|x l IH]; [congruence|]. inversion F as [|? ? F1 F2]; subst. destruct l as [|y l].
  - cbn [join]. now rewrite split_on_cons.
  - rewrite join_cons by discriminate. rewrite <- !app_assoc. cbn [app]. rewrite split_on_cons by auto. cbn [app]. f_equal.
    apply IH; auto. discriminate.
Qed.
Lemma head_part_app h c : no_char slash c -> head_part (h ++ slash :: c) = h ++ [slash].
Proof.
  intros N. assert (E : head_part c = []).
  { induction c as [|x c IH]; auto. inversion N as [|? ? N1 N2]; subst. cbn. rewrite IH by auto. unfold is_slash. now rewrite N1. }
  induction h as [|x h IH]; cbn.
  - now rewrite E.
  - rewrite IH. destruct (h ++ [slash]) eqn:Z; [destruct h; discriminate|reflexivity].
Qed.
Lemma head_part_none c : no_char slash c -> head_part c = [].
Proof.
  induction c as [|x c IH]; intros N; auto. inversion N as [|? ? N1 N2]; subst. cbn. rewrite IH by auto. unfold is_slash. now rewrite N1.
Qed.
Lemma drop_slashes_cons c p : is_slash c = false -> drop_slashes (c :: p) = c :: p.
Proof. intros H. cbn. now rewrite H. Qed.
Lemma rstrip_one h c : is_slash c = false -> rstrip_slashes ((h ++ [c]) ++ [slash]) = h ++ [c].
Proof.
  intros H. unfold rstrip_slashes. rewrite !rev_app_distr. cbn [rev app drop_slashes]. 
  change (is_slash slash) with true. cbv iota. rewrite H. cbn [rev]. now rewrite rev_involutive.
Qed.
Lemma comp_last c : comp c -> exists h x, c = h ++ [x] /\ is_slash x = false.
Proof.
  intros [N F]. destruct c as [|y c] using rev_ind; [congruence|]. exists c, y. split; auto.
  unfold no_char in F. apply Forall_app in F. destruct F as [_ F]. inversion F; auto.
Qed.
Lemma dirname_slashed h c : no_char slash c -> forallb is_slash h = true -> dirname (h ++ slash :: c) = h ++ [slash].
Proof.
  intros N S. unfold dirname. rewrite head_part_app by auto. rewrite forallb_app, S. reflexivity.
Qed.
Lemma dirname_plain h x c : no_char slash c -> is_slash x = false -> dirname ((h ++ [x]) ++ slash :: c) = h ++ [x].
Proof.
  intros N S. unfold dirname. rewrite head_part_app by auto. rewrite !forallb_app. cbn. rewrite S, andb_false_r. cbn.
  now apply rstrip_one.
Qed.
Lemma pjoin_slash a b : isabs b = false -> pjoin (a ++ [slash]) b = a ++ slash :: b.
Proof.
  intros H. unfold pjoin. rewrite H, rev_app_distr. cbn. rewrite <- app_assoc. reflexivity.
Qed.
Lemma pjoin_plain a x b : isabs b = false -> is_slash x = false -> pjoin (a ++ [x]) b = (a ++ [x]) ++ slash :: b.
Proof. intros H S. unfold pjoin. rewrite H, rev_app_distr. cbn [rev app]. rewrite S. reflexivity. Qed.
Lemma no_char_isabs c : no_char slash c -> isabs c = false.
Proof. intros N. destruct c as [|x c]; auto. inversion N; auto. Qed.

(** ** normpath *)
Definition normed (n : nat) (cs : list str) : Prop :=
  Forall comp cs /\ ~ In dot cs /\ (n <> 0 -> ~ In dotdot cs).
Lemma norm_step_ok n acc c : no_char slash c -> normed n acc -> normed n (norm_step n acc c).
Proof.
  intros N (A & B & C). unfold norm_step. destruct (seqb c [] || seqb c dot) eqn:E; [split; auto|].
  apply orb_false_iff in E. destruct E as [E1 E2]. apply seqb_neq in E1, E2.
  destruct (negb (seqb c dotdot)) eqn:D; cbn [orb].
  - apply negb_true_iff, seqb_neq in D. split; [constructor; auto; split; auto|]. split.
    + intros [X|X]; auto.
    + intros Z [X|X]; auto. now apply C.
  - apply negb_false_iff, seqb_eq in D. subst c.
    match goal with |- context [if ?b then _ else _] => destruct b eqn:K end.
    + split; [constructor; auto; split; auto|]. split.
      * intros [X|X]; auto.
      * intros Z. exfalso. apply orb_true_iff in K. destruct K as [K|K].
        -- apply andb_true_iff in K. destruct K as [K _]. apply Nat.eqb_eq in K. congruence.
        -- destruct acc as [|x acc]; [discriminate|]. apply seqb_eq in K. subst x. apply (C Z). now left.
    + destruct acc as [|x acc]; [split; auto|]. inversion A; subst. split; auto. split.
      * intros X. apply B. now right.
      * intros Z X. apply (C Z). now right.
Qed.
Lemma norm_comps_ok p : normed (initial_slashes p) (norm_comps p).
Proof.
  unfold norm_comps. destruct (split_on_spec slash p) as (F & _ & _).
  enough (K : normed (initial_slashes p) (fold_left (norm_step (initial_slashes p)) (split_on slash p) [])).
  { destruct K as (A & B & C). split; [now apply Forall_rev|]. split; [rewrite <- in_rev; auto|]. intros Z. rewrite <- in_rev. auto. }
  assert (G : forall l acc, Forall (no_char slash) l -> normed (initial_slashes p) acc ->
              normed (initial_slashes p) (fold_left (norm_step (initial_slashes p)) l acc)).
  { induction l as [|c l IH]; intros acc FL NA; cbn; auto. inversion FL; subst. apply IH; auto. now apply norm_step_ok. }
  apply G; auto. split; [constructor|]. split; [intros []|intros _ []].
Qed.
Lemma initial_slashes_abs p : isabs p = negb (Nat.eqb (initial_slashes p) 0).
Proof.
  destruct p as [|a [|b [|c p]]]; cbn; auto; destruct (is_slash a); auto; destruct (is_slash b); auto; destruct (is_slash c); auto.
Qed.
Lemma initial_slashes_le p : initial_slashes p <= 2.
Proof.
  destruct p as [|a [|b [|c p]]]; cbn; auto; destruct (is_slash a); auto; destruct (is_slash b); auto; destruct (is_slash c); auto.
Qed.
(** the pieces of a normalized path between slashes *)
Lemma split_slashes n s : split_on slash (repeat slash n ++ s) = repeat [] n ++ split_on slash s.
Proof.
  induction n as [|n IH]; cbn [repeat app]; auto. change (slash :: repeat slash n ++ s) with ([] ++ slash :: repeat slash n ++ s).
  rewrite split_on_cons by constructor. now rewrite IH.
Qed.
Lemma normpath_form p : exists n cs, normed n cs /\ (isabs p = true <-> n <> 0) /\
  ((n = 0 /\ cs = [] /\ normpath p = dot) \/ ((n <> 0 \/ cs <> []) /\ normpath p = repeat slash n ++ join [slash] cs)).
Proof.
  exists (initial_slashes p), (norm_comps p). split; [apply norm_comps_ok|]. split.
  - rewrite initial_slashes_abs. destruct (Nat.eqb_spec (initial_slashes p) 0); cbn; split; congruence.
  - unfold normpath. pose proof (norm_comps_ok p) as (A & _ & _).
    destruct (initial_slashes p) as [|n]; [|right; split; [left; lia|reflexivity]].
    destruct (norm_comps p) as [|c l]; [left; auto|]. right. split; [right; discriminate|]. cbn [repeat app].
    destruct (join [slash] (c :: l)) eqn:J; auto. exfalso. inversion A as [|? ? [C1 C2] _]; subst.
    destruct l; [cbn in J; congruence|]. rewrite join_cons in J by discriminate. destruct c; [congruence|discriminate].
Qed.
Lemma normpath_split p : exists k cs, split_on slash (normpath p) = repeat [] k ++ cs /\ Forall comp cs /\
  (isabs p = true <-> k <> 0) /\ (isabs p = true -> ~ In dotdot cs).
Proof.
  destruct (normpath_form p) as (n & cs & (A & B & C) & E & [(-> & -> & F)|(D & F)]); rewrite F.
  - exists 0, [dot]. split; [reflexivity|]. split; [repeat constructor; discriminate|]. split; [tauto|]. intros X. apply E in X. congruence.
  - rewrite split_slashes. destruct cs as [|c l].
    + exists (n + 1), []. rewrite app_nil_r, repeat_app. split; [reflexivity|]. split; [constructor|]. split; [|intros _ []].
      rewrite E. split; intros; [lia|]. destruct D as [D|D]; auto. 
    + exists n, (c :: l). rewrite split_on_join; [|discriminate|]. 2:{ eapply Forall_impl; [|exact A]. intros a [_ X]. exact X. }
      split; auto. split; auto. split; auto. intros X. apply C. now apply E.
Qed.
Lemma normpath_isabs p : isabs (normpath p) = isabs p.
Proof.
  destruct (normpath_form p) as (n & cs & (A & B & C) & E & [(-> & -> & F)|(D & F)]); rewrite F.
  - cbn. destruct (isabs p); auto. exfalso. now apply E.
  - destruct n as [|n].
    + destruct (isabs p) eqn:I; [exfalso; now apply E|]. cbn. destruct cs as [|c l]; auto.
      inversion A as [|? ? [C1 C2] _]; subst. destruct c as [|x c]; [congruence|]. inversion C2; subst.
      destruct l; cbn; auto.
    + cbn. symmetry. apply E. lia.
Qed.
