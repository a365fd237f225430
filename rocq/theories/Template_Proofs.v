(** Lemmas about templates. *)
From Coq Require Import Ascii String List Bool Arith NArith Lia.
From Verif Require Import Str_Model Str_Proofs Posix_Model Posix_Proofs Data_Model Parse_Proofs Search_Model Search_Proofs Template_Model Template_Spec.
Import ListNotations.
Open Scope list_scope.

Lemma start_iff c : name_start c = true <-> letter c.
Proof.
  unfold name_start, letter, is_alpha, is_upper, is_lower. rewrite !orb_true_iff, !andb_true_iff, !N.leb_le. split.
  - intros [[H|H]|H]; [left; lia|right; left; lia|right; right; now apply aeqb_eq].
  - intros [H|[H| ->]]; [left; left; lia|left; right; lia|right; apply aeqb_refl].
Qed.
Lemma char_iff c : name_char c = true <-> letter_or_digit c.
Proof.
  unfold name_char, letter_or_digit. rewrite orb_true_iff, start_iff. unfold is_digit. rewrite andb_true_iff, !N.leb_le. tauto.
Qed.
Lemma char_false c : name_char c = false <-> ~ letter_or_digit c.
Proof. rewrite <- char_iff. destruct (name_char c); split; intro H; try discriminate; try reflexivity. exfalso. apply H. reflexivity. Qed.
Lemma ident_chars n : identifier n -> Forall (fun c => name_char c = true) n.
Proof.
  intros (x & r & -> & X & R). constructor; [apply char_iff; left; exact X|]. eapply Forall_impl; [|exact R]. intros a A. now apply char_iff.
Qed.
Lemma ident_intro x r : name_start x = true -> Forall (fun c => name_char c = true) (x :: r) -> identifier (x :: r).
Proof. intros X F. exists x, r. split; [reflexivity|]. split; [now apply start_iff|]. inversion F; subst. eapply Forall_impl; [|eassumption]. intros a A. now apply char_iff. Qed.
Definition ends_b (t : str) : Prop := match t with [] => True | c :: _ => name_char c = false end.
Lemma ends_iff t : ends_b t <-> name_ends t.
Proof. destruct t as [|c t]; [tauto|]. apply char_false. Qed.
Lemma span_cases p s : exists a b, span p s = (a, b) /\ s = a ++ b /\ Forall (fun c => p c = true) a /\ match b with c :: _ => p c = false | [] => True end.
Proof. destruct (span_spec p s) as (A & B & C). exists (fst (span p s)), (snd (span p s)). split; [apply surjective_pairing|auto]. Qed.

Lemma reference_braces n t : identifier n -> reference (s_ "{" ++ n ++ s_ "}" ++ t) = Some (n, S (S (length n))).
Proof.
  intros I. pose proof (ident_chars n I) as F. destruct I as (x & r & -> & X & R). change (s_ "{" ++ (x :: r) ++ s_ "}" ++ t) with ("{"%char :: (x :: r) ++ ("}"%char :: t)). cbn [reference].
  rewrite aeqb_refl. rewrite (span_app name_char (x :: r) ("}"%char :: t) F) by reflexivity. apply start_iff in X. rewrite X. reflexivity.
Qed.
Lemma letter_brace x : letter x -> aeqb x "{"%char = false.
Proof. intro X. destruct (aeqb x "{"%char) eqn:E; [|reflexivity]. apply aeqb_eq in E. subst x. apply start_iff in X. discriminate. Qed.
Lemma reference_plain n t : identifier n -> name_ends t -> reference (n ++ t) = Some (n, length n).
Proof.
  intros I T. pose proof (ident_chars n I) as F. destruct I as (x & r & -> & X & R). apply ends_iff in T. cbn [app reference]. rewrite (letter_brace x X).
  change (x :: r ++ t) with ((x :: r) ++ t). rewrite (span_app name_char (x :: r) t F T). apply start_iff in X. rewrite X. reflexivity.
Qed.
Lemma reference_some s n k : reference s = Some (n, k) -> identifier n /\
  ((exists t, s = s_ "{" ++ n ++ s_ "}" ++ t /\ k = S (S (length n))) \/ (exists t, s = n ++ t /\ name_ends t /\ k = length n)).
Proof.
  destruct s as [|c s]; [discriminate|]. cbn [reference]. destruct (aeqb c "{"%char) eqn:E.
  - apply aeqb_eq in E. subst c. destruct (span_cases name_char s) as (a & b & -> & -> & F & B). destruct a as [|x a]; [discriminate|]. destruct b as [|d b]; [discriminate|].
    destruct (name_start x) eqn:X; [|discriminate]. destruct (aeqb d "}"%char) eqn:D; [|discriminate]. cbn [andb]. intro H. injection H as <- <-. apply aeqb_eq in D. subst d.
    split; [now apply ident_intro|]. left. exists b. split; reflexivity.
  - destruct (span_cases name_char (c :: s)) as (a & b & -> & EQ & F & B). rewrite EQ. destruct a as [|x a]; [discriminate|]. destruct (name_start x) eqn:X; [|discriminate]. intro H. injection H as <- <-.
    split; [now apply ident_intro|]. right. exists b. split; [reflexivity|]. split; [now apply ends_iff|reflexivity].
Qed.
Lemma ident_nodollar n : identifier n -> ~ In dollar n.
Proof. intros I J. pose proof (ident_chars n I) as F. rewrite Forall_forall in F. specialize (F _ J). discriminate. Qed.

Section Substitute.
Variables (vars : list str) (env : str -> str).
Let sub := substitute vars env.
Lemma sub_skip a b : sub (length a) (a ++ b) = sub 0 b.
Proof. unfold sub. induction a as [|c a IH]; [reflexivity|]. cbn [length app substitute]. exact IH. Qed.
Definition replaced (n v : str) : Prop := In n vars /\ identifier n /\ v = env n.
Lemma sub_braces n t : In n vars -> identifier n -> sub 0 (s_ "${" ++ n ++ s_ "}" ++ t) = env n ++ sub 0 t.
Proof.
  intros I J. change (s_ "${" ++ n ++ s_ "}" ++ t) with (dollar :: (s_ "{" ++ n ++ s_ "}" ++ t)). unfold sub. cbn [substitute]. rewrite aeqb_refl, reference_braces by exact J.
  rewrite (proj2 (mem_str_In n vars) I). f_equal. change (s_ "{" ++ n ++ s_ "}" ++ t) with ("{"%char :: n ++ s_ "}" ++ t). rewrite app_comm_cons, app_assoc.
  replace (S (S (length n))) with (length (("{"%char :: n) ++ s_ "}")) by (rewrite app_length; cbn; lia). apply sub_skip.
Qed.
Lemma sub_plain n t : In n vars -> identifier n -> name_ends t -> sub 0 (s_ "$" ++ n ++ t) = env n ++ sub 0 t.
Proof.
  intros I J T. change (s_ "$" ++ n ++ t) with (dollar :: n ++ t). unfold sub. cbn [substitute]. rewrite aeqb_refl, reference_plain by assumption.
  rewrite (proj2 (mem_str_In n vars) I). f_equal. apply sub_skip.
Qed.
Lemma sub_other c t : ~ refers replaced (c :: t) -> sub 0 (c :: t) = c :: sub 0 t.
Proof.
  intro N. unfold sub. cbn [substitute]. destruct (aeqb c dollar) eqn:E; [|reflexivity]. apply aeqb_eq in E. subst c. destruct (reference t) as [[n k]|] eqn:R; [|reflexivity].
  destruct (mem_str n vars) eqn:M; [|reflexivity]. exfalso. apply N. apply mem_str_In in M. apply reference_some in R. destruct R as [I [(u & -> & _)|(u & -> & U & _)]]; exists n, (env n), u; (split; [split; auto|]).
  - left. reflexivity.
  - right. split; [reflexivity|exact U].
Qed.
Lemma sub_unique s o : filled_in replaced s o -> sub 0 s = o.
Proof.
  induction 1 as [|n v t o (A & B & ->) _ IH|n v t o (A & B & ->) T _ IH|c t o N _ IH]; [reflexivity| | |].
  - rewrite sub_braces by assumption. now rewrite IH.
  - rewrite sub_plain by assumption. now rewrite IH.
  - rewrite sub_other by exact N. now rewrite IH.
Qed.
Lemma sub_filled s : filled_in replaced s (sub 0 s).
Proof.
  remember (length s) as m eqn:M. assert (L : length s <= m) by lia. clear M. revert s L. induction m as [|m IH]; intros s L.
  - destruct s; [constructor|cbn in L; lia].
  - destruct s as [|c s]; [constructor|].
    assert (D : refers replaced (c :: s) \/ ~ refers replaced (c :: s)).
    { destruct (aeqb c dollar) eqn:E.
      - apply aeqb_eq in E. subst c. destruct (reference s) as [[n k]|] eqn:R.
        + destruct (mem_str n vars) eqn:Q.
          * left. apply mem_str_In in Q. pose proof (reference_some _ _ _ R) as [I [(u & -> & _)|(u & -> & U & _)]]; exists n, (env n), u; (split; [split; auto|]); [left; reflexivity|right; split; [reflexivity|exact U]].
          * right. intros (n' & v & t & (A & B & _) & [X|[X T]]).
            -- rewrite (f_equal (@tl ascii) X : s = s_ "{" ++ n' ++ s_ "}" ++ t), reference_braces in R by exact B. injection R as <- <-. apply mem_str_In in A. congruence.
            -- rewrite (f_equal (@tl ascii) X : s = n' ++ t), reference_plain in R by assumption. injection R as <- <-. apply mem_str_In in A. congruence.
        + right. intros (n' & v & t & (A & B & _) & [X|[X T]]).
          * rewrite (f_equal (@tl ascii) X : s = s_ "{" ++ n' ++ s_ "}" ++ t), reference_braces in R by exact B. discriminate.
          * rewrite (f_equal (@tl ascii) X : s = n' ++ t), reference_plain in R by assumption. discriminate.
      - right. intros (n' & v & t & _ & [X|[X T]]); cbn in X; injection X as -> _; discriminate. }
    destruct D as [(n & v & t & (A & B & ->) & [X|[X T]])|N].
    + rewrite X in *. rewrite sub_braces by assumption. apply fi_braces; [split; auto|]. apply IH. rewrite !app_length in L. cbn in L. lia.
    + rewrite X in *. rewrite sub_plain by assumption. apply fi_plain; [split; auto|exact T|]. apply IH. rewrite !app_length in L. cbn in L. lia.
    + rewrite sub_other by exact N. apply fi_other; [exact N|]. apply IH. cbn in L. lia.
Qed.
(** A dollar never belongs to a reference before it *)
Lemma sub_dollar a b : sub 0 (a ++ dollar :: b) = sub 0 a ++ sub 0 (dollar :: b).
Proof.
  pose proof (sub_filled a) as H. set (o := sub 0 a) in *. clearbody o. induction H as [|n v t o (A & B & ->) _ IH|n v t o (A & B & ->) T _ IH|c t o N _ IH].
  - reflexivity.
  - rewrite <- !app_assoc. rewrite sub_braces by assumption. now rewrite IH.
  - rewrite <- !app_assoc. rewrite sub_plain; [now rewrite IH|assumption|assumption|]. destruct t; [|exact T]. cbn. intro X. apply char_iff in X. discriminate.
  - cbn [app]. rewrite sub_other; [now rewrite IH|]. intros (n & v & u & R & [X|[X T]]); apply N.
    + change (s_ "${" ++ n ++ s_ "}" ++ u) with (dollar :: "{"%char :: n ++ ("}"%char :: u)) in X. injection X as -> X.
      assert (NI := ident_nodollar n (proj1 (proj2 R))).
      destruct t as [|d t]; [cbn in X; injection X as X _; discriminate|]. cbn in X. injection X as -> X.
      assert (exists u', t = n ++ "}"%char :: u') as (u' & ->).
      { clear -X NI. revert t X. induction n as [|y n IHn]; intros t X.
        - destruct t as [|d t]; [cbn in X; discriminate|]. cbn in X. injection X as -> _. exists t. reflexivity.
        - destruct t as [|d t]; [cbn in X; injection X as X _; exfalso; apply NI; left; congruence|]. cbn in X. injection X as -> X. destruct (IHn (fun I => NI (or_intror I)) t X) as (u' & ->). exists u'. reflexivity. }
      exists n, v, u'. split; [exact R|]. left. reflexivity.
    + change (s_ "$" ++ n ++ u) with (dollar :: n ++ u) in X. injection X as -> X. assert (NI := ident_nodollar n (proj1 (proj2 R))).
      assert (exists u', t = n ++ u' /\ name_ends u') as (u' & -> & U).
      { clear -X NI T. revert t X. induction n as [|y n IHn]; intros t X.
        - exists t. split; [reflexivity|]. destruct t as [|d t]; [exact I|]. cbn in X. subst u. exact T.
        - destruct t as [|d t]; [cbn in X; injection X as X _; exfalso; apply NI; left; congruence|]. cbn in X. injection X as -> X. destruct (IHn (fun I => NI (or_intror I)) t X) as (u' & -> & U). exists u'. auto. }
      exists n, v, u'. split; [exact R|]. right. split; [reflexivity|exact U].
Qed.
End Substitute.

Lemma filled_ext R R' s o : (forall n v, R n v <-> R' n v) -> filled_in R s o -> filled_in R' s o.
Proof.
  intros E H. assert (Q : forall x, refers R' x -> refers R x) by (intros x (n & v & t & A & B); exists n, v, t; split; [now apply E|exact B]).
  induction H; [constructor|apply fi_braces; [now apply E|auto]|apply fi_plain; [now apply E|auto|auto]|apply fi_other; auto].
Qed.

(** ** The format *)
Lemma mentioned_app a b : (forall n k, reference b = Some (n, k) -> True) -> incl (mentioned b) (mentioned (a ++ b)).
Proof. intros _. induction a as [|c a IH]; [apply incl_refl|]. cbn [app mentioned]. intros x I. apply in_or_app. right. exact (IH x I). Qed.
Definition format_rest (vars : list str) : str := match vars with [] => [] | _ => s_ " " ++ format_of vars end.
Lemma format_cons v vars : format_of (v :: vars) = s_ "\${" ++ v ++ s_ "}" ++ format_rest vars.
Proof. unfold format_rest, format_of. cbn [map]. destruct vars as [|w vars]; [cbn [map join]; rewrite !app_nil_r; reflexivity|]. cbn [map]. change (join (s_ " ") (?x :: ?y :: ?l)) with (x ++ s_ " " ++ join (s_ " ") (y :: l)). rewrite <- !app_assoc. reflexivity. Qed.
Lemma mentioned_in vars n : In n vars -> identifier n -> In n (mentioned (format_of vars)).
Proof.
  intros I J. induction vars as [|v vars IH]; [destruct I|]. rewrite format_cons. destruct I as [->|I].
  - set (r := format_rest vars). change (s_ "\${" ++ n ++ s_ "}" ++ r) with ("\"%char :: dollar :: (s_ "{" ++ n ++ s_ "}" ++ r)). cbn [mentioned]. change (aeqb "\" dollar) with false. cbv iota. rewrite aeqb_refl, reference_braces by exact J. left. reflexivity.
  - destruct vars as [|w vars]; [destruct I|]. unfold format_rest. rewrite !app_assoc. apply (mentioned_app _ _ (fun _ _ _ => Logic.I)). exact (IH I).
Qed.
Lemma mentioned_nodollar a b : ~ In dollar a -> mentioned (a ++ b) = mentioned b.
Proof.
  induction a as [|c a IH]; intro N; [reflexivity|]. cbn [app mentioned]. destruct (aeqb c dollar) eqn:E; [apply aeqb_eq in E; subst; exfalso; apply N; left; reflexivity|]. apply IH. intro I. apply N. right. exact I.
Qed.
Lemma mentioned_only vars n : Forall (fun v => ~ In dollar v /\ ~ In "}"%char v) vars -> In n (mentioned (format_of vars)) -> In n vars /\ identifier n.
Proof.
  intro F. induction F as [|v vars [A B] F IH]; [intros []|]. rewrite format_cons. set (r := format_rest vars).
  change (s_ "\${" ++ v ++ s_ "}" ++ r) with ("\"%char :: dollar :: (s_ "{" ++ v ++ s_ "}" ++ r)). cbn [mentioned]. change (aeqb "\" dollar) with false. cbv iota. rewrite aeqb_refl, app_nil_l. change (s_ "{" ++ v ++ s_ "}" ++ r) with ("{"%char :: v ++ "}"%char :: r). intro I. apply in_app_or in I. destruct I as [I|I].
  - destruct (reference ("{"%char :: v ++ "}"%char :: r)) as [[m k]|] eqn:R; [|destruct I]. destruct I as [<-|[]]. apply reference_some in R. destruct R as [J [(t & X & _)|(t & X & _)]].
    + cbn in X. injection X as X. assert (v = m) as -> by (pose proof (ident_chars m J) as FM; clear -X FM B; revert m X FM; induction v as [|x v IHv]; intros [|y m] X FM; cbn in X; [reflexivity|injection X as <- _; inversion FM; discriminate|injection X as -> _; exfalso; apply B; left; reflexivity|injection X as -> X; inversion FM; subst; f_equal; apply IHv; [intro I; apply B; right; exact I|exact X|assumption]]).
      split; [left; reflexivity|exact J].
    + destruct J as (x & q & -> & L & _). cbn in X. injection X as <- _. apply start_iff in L. discriminate.
  - change ("{"%char :: v ++ "}"%char :: r) with (("{"%char :: v) ++ ("}"%char :: r)) in I. rewrite mentioned_nodollar in I by (intros [X|X]; [discriminate|exact (A X)]).
    change ("}"%char :: r) with (["}"%char] ++ r) in I. rewrite mentioned_nodollar in I by (intros [X|[]]; discriminate). unfold r, format_rest in I. destruct vars as [|w vars]; [destruct I|].
    rewrite mentioned_nodollar in I by (intros [X|[]]; discriminate). destruct (IH I). split; [right; assumption|assumption].
Qed.
Lemma env_value d vars penv n v : In n vars -> (match template_env d vars penv n with Some x => x | None => [] end = v <-> template_value d penv n v).
Proof.
  intro I. unfold template_env, template_value. rewrite (proj2 (mem_str_In n vars) I). destruct (d n) as [[|c x]|]; destruct (penv n) as [y|]; split; intro H.
  all: try (subst v; intuition congruence).
  all: try (destruct H as [[H N]|[[H|H] [P|[P Q]]]]; congruence).
  all: try (subst v; left; split; [reflexivity|discriminate]).
Qed.

(** ** Names in kickstart files *)
Lemma wks_names_iff text n : In n (wks_names text) <-> exists a b, text = a ++ s_ "${" ++ n ++ s_ "}" ++ b /\ n <> [] /\ Forall (fun c => rx_name c = true) n.
Proof.
  induction text as [|c text IH].
  - split; [intros []|]. intros (a & b & E & _). destruct a; discriminate.
  - cbn [wks_names]. rewrite in_app_iff, IH. split.
    + intros [I|(a & b & -> & H)]; [|exists (c :: a), b; split; [reflexivity|exact H]]. destruct (startswith (s_ "${") (c :: text)) eqn:S; [|destruct I].
      apply startswith_iff in S. destruct S as (t & S). rewrite S in *. change (skipn 2 (s_ "${" ++ t)) with t in I. destruct (span_cases rx_name t) as (x & y & E & -> & F & _). rewrite E in I.
      destruct x as [|x0 x]; [destruct I|]. destruct y as [|y0 y]; [destruct I|]. destruct (aeqb y0 "}"%char) eqn:D; [|destruct I]. destruct I as [<-|[]]. apply aeqb_eq in D. subst y0.
      exists [], y. split; [reflexivity|]. split; [discriminate|exact F].
    + intros (a & b & E & N & F). destruct a as [|c' a]; [|right; cbn in E; injection E as -> E; exists a, b; auto]. left. cbn [app] in E. rewrite E, startswith_app. change (skipn 2 (s_ "${" ++ n ++ s_ "}" ++ b)) with (n ++ s_ "}" ++ b).
      rewrite (span_app rx_name n (s_ "}" ++ b) F) by reflexivity. destruct n as [|x n]; [contradiction|]. left. reflexivity.
Qed.
Lemma ident_rx n : identifier n -> Forall (fun c => rx_name c = true) n.
Proof.
  intro I. pose proof (ident_chars n I) as F. eapply Forall_impl; [|exact F]. intros c C. unfold rx_name. rewrite negb_true_iff. destruct (existsb (aeqb c) _) eqn:E; [|reflexivity].
  apply existsb_exists in E. destruct E as (x & X & E). apply aeqb_eq in E. subst x. cbn in X. repeat (destruct X as [<-|X]; [discriminate|]). destruct X.
Qed.
Lemma key_iff c : key_char c = true <-> wic_name_char c.
Proof.
  unfold wic_name_char. rewrite <- char_iff. unfold key_char, name_char, name_start. rewrite !orb_true_iff, existsb_exists. split.
  - intros [[H|H]|(x & I & E)]; [tauto|tauto|]. apply aeqb_eq in E. subst x. cbn in I. destruct I as [<-|[<-|I]]; [right; cbn; auto|left; left; right; reflexivity|right; cbn; tauto].
  - intros [[[H|H]|H]|H]; [tauto| |tauto|]; right; exists c; (split; [|apply aeqb_refl]); [apply aeqb_eq in H; subst c; cbn; auto|cbn in *; tauto].
Qed.
Lemma with_extension_name file name : with_extension file name <-> wks_name file = name.
Proof.
  unfold with_extension, wks_name. destruct (endswith (s_ ".wks") file || endswith (s_ ".wks.in") file) eqn:E.
  - assert (X : exists x, file = x ++ s_ ".wks" \/ file = x ++ s_ ".wks.in").
    { apply orb_true_iff in E. rewrite !endswith_iff in E. destruct E as [(x & E)|(x & E)]; exists x; auto. }
    split; [intros [[_ H]|[H _]]; [congruence|exfalso; destruct X as (x & X); destruct (H x); tauto]|intros <-; left; auto].
  - assert (X : forall x, file <> x ++ s_ ".wks" /\ file <> x ++ s_ ".wks.in").
    { apply orb_false_iff in E. destruct E as [E1 E2]. intro x. split; intros ->; [rewrite endswith_app in E1|rewrite endswith_app in E2]; discriminate. }
    split; [intros [[(x & H) _]|[_ H]]; [exfalso; destruct (X x); tauto|congruence]|intros <-; right; auto].
Qed.
