(** Lemmas about BB_SETSCENE_ENFORCE. *)
From Coq Require Import Ascii String List Bool.
From Verif Require Import Str_Model Str_Proofs Layerconf_Model Enforce_Model Enforce_Spec.
Import ListNotations.
Open Scope list_scope.

Fixpoint any (pat n : str) : bool := fnmatch n pat || match n with _ :: n => any pat n | [] => false end.
Lemma fnmatch_star pat n : fnmatch n ("*"%char :: pat) = any pat n.
Proof. cbn [fnmatch]. change (aeqb "*"%char "*"%char) with true. cbv iota. induction n as [|c n IH]; cbn [any]; [reflexivity|]. now rewrite <- IH. Qed.
Lemma any_iff pat n : any pat n = true <-> exists x m, n = x ++ m /\ fnmatch m pat = true.
Proof.
  induction n as [|c n IH]; cbn [any].
  - rewrite orb_false_r. split; [intro H; exists [], []; auto|]. intros (x & m & E & F). symmetry in E. apply app_eq_nil in E. destruct E as [_ ->]. exact F.
  - rewrite orb_true_iff, IH. split.
    + intros [H|(x & m & -> & F)]; [exists [], (c :: n); auto|exists (c :: x), m; auto].
    + intros ([|y x] & m & E & F); cbn [app] in E; [subst m; now left|]. injection E as <- ->. right. exists x, m. auto.
Qed.
Lemma fnmatch_iff pat : forall n, fnmatch n pat = true <-> matches pat n.
Proof.
  induction pat as [|p pat IH]; intro n.
  - cbn [fnmatch]. destruct n; split; intro H; try discriminate; try constructor. inversion H.
  - destruct (ascii_dec p "*"%char) as [->|NS].
    + rewrite fnmatch_star, any_iff. split.
      * intros (x & m & -> & F). constructor. now apply IH.
      * intro H. inversion H as [|x p' m F| |]; subst; [|congruence]. exists x, m. split; [reflexivity|now apply IH].
    + cbn [fnmatch]. rewrite (proj2 (aeqb_neq p "*"%char) NS). destruct n as [|c n]; [split; [discriminate|intro H; inversion H; subst; congruence]|]. rewrite andb_true_iff, orb_true_iff, !aeqb_eq, IH. split.
      * intros [[->| ->] M]; [now constructor|now constructor].
      * intro H. inversion H; subst; [congruence|auto|auto].
Qed.
Lemma second_spec t rest : ~ In ":"%char t -> (rest = [] \/ exists r, rest = ":"%char :: r) -> second (s_ "%:" ++ t ++ rest) = t.
Proof.
  intros N R. unfold second. change (s_ "%:" ++ t ++ rest) with (s_ "%" ++ ":"%char :: t ++ rest). rewrite split_on_cons by (apply no_char_In; cbn; intuition discriminate). cbn [nth].
  destruct R as [->|[r ->]]; [rewrite app_nil_r, split_on_single by (apply no_char_In; exact N); reflexivity|]. rewrite split_on_cons by (apply no_char_In; exact N). reflexivity.
Qed.
Lemma cut_colon r : exists t rest, r = t ++ rest /\ ~ In ":"%char t /\ (rest = [] \/ exists r', rest = ":"%char :: r').
Proof.
  induction r as [|c r IH]; [exists [], []; cbn; auto|]. destruct (ascii_dec c ":"%char) as [->|N]; [exists [], (":"%char :: r); cbn; split; [reflexivity|]; split; [tauto|right; eauto]|].
  destruct IH as (t & rest & -> & NT & R). exists (c :: t), rest. split; [reflexivity|]. split; [|exact R]. intros [E|E]; [congruence|auto].
Qed.
Lemma expand_iff targets item pat : In pat (expand targets item) <-> stands_for targets item pat.
Proof.
  unfold expand, stands_for. destruct (startswith (s_ "%:") item) eqn:S.
  - apply startswith_iff in S. destruct S as [r ->]. destruct (cut_colon r) as (t & rest & -> & NT & R). rewrite in_map_iff, (second_spec t rest NT R). split.
    + intros (tg & <- & I). right. exists t, rest, tg. auto.
    + intros [[N _]|(t' & rest' & tg & I & E & NT' & R' & ->)]; [destruct N; eauto|]. assert (Q : t' = t) by (rewrite <- (second_spec t rest NT R), E; symmetry; now apply second_spec). subst t'. exists tg. auto.
  - split.
    + intros [<-|[]]. left. split; [|reflexivity]. intros [r ->]. assert (startswith (s_ "%:") (s_ "%:" ++ r) = true) by (apply startswith_iff; eauto). congruence.
    + intros [[_ ->]|(t & rest & tg & _ & -> & _)]; [now left|]. assert (startswith (s_ "%:") (s_ "%:" ++ t ++ rest) = true) by (apply startswith_iff; eauto). congruence.
Qed.
Lemma check_iff targets ignore pn task :
  check_ignore pn task (ignore_tasks (Some (s_ "1")) (Some ignore) targets) = true <-> listed targets ignore pn task.
Proof.
  unfold ignore_tasks, check_ignore, listed. rewrite seqb_refl, existsb_exists. split.
  - intros (pat & I & F). apply in_flat_map in I. destruct I as (item & II & P). exists item, pat. split; [exact II|]. split; [now apply expand_iff|now apply fnmatch_iff].
  - intros (item & pat & I & P & M). exists pat. split; [apply in_flat_map; exists item; split; [exact I|now apply expand_iff]|now apply fnmatch_iff].
Qed.
Lemma matches_plain p : (forall c, In c p -> c <> "*"%char /\ c <> "?"%char) -> forall n, matches p n <-> n = p.
Proof.
  induction p as [|c p IH]; intros L n; [split; [intro H; now inversion H|intros ->; constructor]|]. destruct (L c (or_introl eq_refl)) as [A B]. assert (IH' := IH (fun x X => L x (or_intror X))). split.
  - intro H. inversion H; subst; try congruence. f_equal. now apply IH'.
  - intros ->. apply matches_char; [exact A|]. now apply IH'.
Qed.
