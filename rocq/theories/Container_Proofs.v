(** Lemmas for C42. *)
From Coq Require Import Ascii String List Bool.
From Verif Require Import Str_Model Str_Proofs Sstname_Proofs Container_Model Container_Spec.
Import ListNotations.
Open Scope list_scope.

Lemma replace_inj c d a : forall b, ~ In d a -> ~ In d b -> replace_char c [d] a = replace_char c [d] b -> a = b.
Proof.
  unfold replace_char. induction a as [|x a IH]; intros [|y b] A B E; cbn [flat_map] in E; auto.
  - destruct (aeqb y c); discriminate.
  - destruct (aeqb x c); discriminate.
  - assert (Ax : x <> d) by (intros ->; apply A; now left). assert (By : y <> d) by (intros ->; apply B; now left).
    destruct (aeqb x c) eqn:X, (aeqb y c) eqn:Y; cbn [app] in E; pose proof (f_equal (hd d) E) as E1; pose proof (f_equal (@tl ascii) E) as E2; cbn [hd tl] in E1, E2; try congruence.
    + apply aeqb_eq in X, Y. subst. f_equal. apply IH; auto; intros I; [apply A|apply B]; now right.
    + subst. f_equal. apply IH; auto; intros I; [apply A|apply B]; now right.
Qed.
Lemma replace_app c t a b : replace_char c t (a ++ b) = replace_char c t a ++ replace_char c t b.
Proof. apply flat_map_app. Qed.
Lemma replace_gone c d s : c <> d -> ~ In c (replace_char c [d] s).
Proof.
  intros N. unfold replace_char. rewrite in_flat_map. intros (x & _ & I). destruct (aeqb x c) eqn:X; cbn in I; destruct I as [I|[]]; [congruence|]. apply aeqb_neq in X. auto.
Qed.
Lemma replace_In c d s x : In x (replace_char c [d] s) -> x = d \/ In x s.
Proof. unfold replace_char. rewrite in_flat_map. intros (y & Y & I). destruct (aeqb y c); cbn in I; destruct I as [<-|[]]; auto. Qed.
Lemma replace_none c t s : ~ In c s -> replace_char c t s = s.
Proof. unfold replace_char. induction s as [|x s IH]; intros N; auto. cbn [flat_map]. assert (E : aeqb x c = false) by (apply aeqb_neq; intros ->; apply N; now left). rewrite E. cbn. f_equal. apply IH. intros I; apply N; now right. Qed.
Lemma last_sep sep a b a' b' : no_char sep b -> no_char sep b' -> a ++ sep :: b = a' ++ sep :: b' -> a = a' /\ b = b'.
Proof.
  intros N N' E. assert (B : b = b') by (rewrite <- (split_on_last sep a b N), <- (split_on_last sep a' b' N'); now rewrite E). subst b'. split; auto. now apply app_inv_tail in E.
Qed.
Lemma hex_plain c : hex_char c = true -> ~ In c (s_ ":_/-").
Proof. intros H I. cbn in I. destruct I as [<-|[<-|[<-|[<-|[]]]]]; discriminate H. Qed.
Lemma digest_shape d : oci_digest d -> ~ In "_"%char d /\ ~ In "/"%char d /\ ~ In "-"%char d /\ digest_like (replace_char ":"%char (s_ "-") d).
Proof.
  intros (alg & hex & -> & L & H & A).
  assert (HX : forall c, In c hex -> ~ In c (s_ ":_/-")) by (rewrite Forall_forall in H; intros c I; apply hex_plain; auto).
  assert (X : forall c, In c (s_ "_/-") -> ~ In c (alg ++ s_ ":" ++ hex)).
  { intros c C. rewrite !in_app_iff. intros [I|[I|I]].
    - apply (A c I). cbn in *; tauto.
    - cbn in C, I. intuition (subst; discriminate).
    - apply (HX c I). cbn in *; tauto. }
  split; [apply X; cbn; tauto|]. split; [apply X; cbn; tauto|]. split; [apply X; cbn; tauto|].
  exists alg, hex. split; auto. rewrite !replace_app. rewrite (replace_none _ _ alg) by (intros I; apply (A _ I); cbn; tauto). rewrite (replace_none _ _ hex); [reflexivity|]. intros I. apply (HX _ I). cbn; tauto.
Qed.
