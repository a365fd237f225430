From Coq Require Import String Ascii List Bool Arith Lia.
From Verif Require Import Str_Model Str_Proofs Sbuild_Model Sbuild_Spec.
Import ListNotations.
Open Scope list_scope.

(** * Patterns *)
Lemma rmatch_spec : forall p s, rmatch p s = true <-> looks_like_start p s.
Proof.
  unfold looks_like_start. induction p as [|x p IH]; intros s; cbn [rmatch].
  - split; [|reflexivity]. intros _. exists [], s. split; [reflexivity|constructor].
  - destruct s as [|y s].
    + split; [discriminate|]. intros (w1 & w2 & E & F). inversion F; subst. discriminate.
    + rewrite andb_true_iff, orb_true_iff, !aeqb_eq, IH. split.
      * intros (H & w1 & w2 & E & F). exists (y :: w1), w2. split; [now rewrite E|now constructor].
      * intros (w1 & w2 & E & F). inversion F as [|a b l l' H1 H2]; subst. cbn in E. injection E as E1 E2. subst b.
        split; [exact H1|]. exists l', w2. now split.
Qed.
Lemma rmatch_refl : forall s, rmatch s s = true.
Proof. induction s as [|c s IH]; [reflexivity|]. cbn [rmatch]. now rewrite aeqb_refl, orb_true_r, IH. Qed.
Lemma rcontains_spec : forall p s, rcontains p s = true <-> exists a b, s = a ++ b /\ looks_like_start p b.
Proof.
  intros p. induction s as [|c s IH]; cbn [rcontains]; rewrite orb_true_iff.
  - rewrite rmatch_spec. split.
    + intros [H|H]; [|discriminate]. exists [], []. now split.
    + intros (a & b & E & H). left. symmetry in E. apply app_eq_nil in E. destruct E as [_ ->]. exact H.
  - rewrite rmatch_spec, IH. split.
    + intros [H|(a & b & E & H)]; [exists [], (c :: s); now split|]. exists (c :: a), b. split; [now rewrite E|exact H].
    + intros (a & b & E & H). destruct a as [|x a]; [left; cbn in E; now rewrite E|].
      right. cbn in E. injection E as _ E. exists a, b. now split.
Qed.

(** * Names *)
Lemma letter_facts : forall c, letter c = true -> c <> "="%char /\ c <> "."%char /\ c <> "'"%char /\ c <> "^"%char /\ c <> nl /\ c <> "$"%char /\
  blank c = false /\ is_space c = false.
Proof.
  intros c H. repeat split; try (intros ->; vm_compute in H; discriminate).
  - destruct (blank c) eqn:E; [|reflexivity]. unfold blank in E. apply orb_true_iff in E. rewrite !aeqb_eq in E.
    destruct E as [-> | ->]; vm_compute in H; discriminate.
  - destruct c as [[] [] [] [] [] [] [] []]; vm_compute in H |- *; congruence.
Qed.
Lemma name_no : forall k c, var_name k -> letter c = false -> ~ In c k.
Proof. intros k c [_ F] L I. rewrite Forall_forall in F. specialize (F c I). congruence. Qed.
Lemma name_word : forall k, var_name k -> word k.
Proof.
  intros k [N F]. split; [exact N|]. eapply Forall_impl; [|exact F]. intros c H. now apply letter_facts in H.
Qed.
Lemma no_char_of : forall c s, ~ In c s -> no_char c s.
Proof. intros c s H. now apply no_char_In. Qed.
Lemma text_cut : forall (c : ascii) (a a' b b' : str), ~ In c a -> ~ In c a' -> a ++ c :: b = a' ++ c :: b' -> a = a' /\ b = b'.
Proof.
  intros c. induction a as [|x a IH]; intros a' b b' N N' E; destruct a' as [|y a'].
  - cbn in E. injection E as E. now split.
  - cbn in E. injection E as E1 E2. subst y. exfalso. apply N'. now left.
  - cbn in E. injection E as E1 E2. subst x. exfalso. apply N. now left.
  - cbn in E. injection E as E1 E2. subst y. destruct (IH a' b b') as [A B]; auto.
    + intros I. apply N. now right.
    + intros I. apply N'. now right.
    + subst. now split.
Qed.

(** * What is exported *)
Definition text (kv : str * str) : str := fst kv ++ s_ "=" ++ snd kv.
Lemma env_lines_proper : forall e, proper_env e -> env_lines e = map text e.
Proof.
  intros e [_ P]. unfold env_lines. induction e as [|[k v] e IH]; [reflexivity|]. cbn [flat_map map].
  rewrite IH by (intros; apply P; now right). destruct (P k v (or_introl eq_refl)) as [K [V _]].
  unfold text. cbn [fst snd]. rewrite split_on_single; [reflexivity|]. apply no_char_of.
  rewrite !in_app_iff. intros [I|[I|I]].
  - now apply (name_no k nl K).
  - destruct I as [I|[]]. discriminate.
  - now apply (V nl (or_introl eq_refl)).
Qed.
Lemma ltrim_id : forall c s, blank c = false -> ltrim (c :: s) = c :: s.
Proof. intros c s H. cbn [ltrim]. now rewrite H. Qed.
Lemma trim_text : forall k v, var_name k -> ordinary v -> trim (text (k, v)) = text (k, v).
Proof.
  intros k v K [_ V]. unfold trim.
  assert (A : ltrim (text (k, v)) = text (k, v)).
  { destruct K as [N F]. destruct k as [|c k]; [congruence|]. unfold text. cbn [fst snd app]. apply ltrim_id.
    inversion F as [|? ? L _]; subst. now apply letter_facts in L. }
  rewrite A. assert (B : ltrim (rev (text (k, v))) = rev (text (k, v))).
  { unfold text. cbn [fst snd]. destruct v as [|c v _] using rev_ind.
    - rewrite app_nil_r, rev_app_distr. reflexivity.
    - replace (k ++ s_ "=" ++ v ++ [c]) with ((k ++ s_ "=" ++ v) ++ [c]) by now rewrite <- !app_assoc.
      rewrite rev_app_distr. cbn [rev app]. apply ltrim_id. destruct (V v c eq_refl) as [X Y]. unfold blank.
      apply aeqb_neq in X, Y. now rewrite X, Y. }
  rewrite B. apply rev_involutive.
Qed.
Lemma export_of_text : forall k v, var_name k -> export_of (text (k, v)) = Some (k, v).
Proof.
  intros k v K. unfold export_of, text. cbn [fst snd]. change (k ++ s_ "=" ++ v) with (k ++ "="%char :: v).
  rewrite cut_at_some by (apply no_char_of; now apply name_no). cbn [fst snd].
  rewrite (split_ws_single k) by now apply name_word. reflexivity.
Qed.
Lemma exports_filter : forall ref e, proper_env e ->
  exports ref e = filter (fun kv => negb (skipped (env_lines ref) (text kv))) e.
Proof.
  intros ref e P. unfold exports. rewrite (env_lines_proper e P). destruct P as [_ P].
  induction e as [|[k v] e IH]; [reflexivity|]. cbn [map flat_map filter].
  destruct (P k v (or_introl eq_refl)) as [K V]. rewrite (trim_text k v K V), (export_of_text k v K).
  rewrite IH by (intros; apply P; now right).
  destruct (skipped (env_lines ref) (text (k, v))); reflexivity.
Qed.
Lemma rmatch_text : forall k k' v w, var_name k -> var_name k' ->
  rmatch (text (k, v)) (text (k', w)) = true <-> k = k' /\ looks_like_start v w.
Proof.
  intros k k' v w [_ F] [_ F']. unfold text. cbn [fst snd]. rewrite <- rmatch_spec.
  revert k' F'. induction k as [|c k IH]; intros k' F'; destruct k' as [|c' k'].
  - cbn [app s_ list_ascii_of_string rmatch]. rewrite aeqb_refl, orb_true_r. cbn [andb]. intuition.
  - cbn [app s_ list_ascii_of_string rmatch]. inversion F' as [|? ? L _]; subst. apply letter_facts in L.
    assert (E : aeqb "=" c' = false) by (apply aeqb_neq; intros X; symmetry in X; tauto).
    change (aeqb "=" ".") with false. rewrite E. cbn [orb andb]. split; [discriminate|]. intros [X _]. discriminate.
  - cbn [app s_ list_ascii_of_string rmatch]. inversion F as [|? ? L _]; subst. apply letter_facts in L.
    assert (E : aeqb c "=" = false) by (apply aeqb_neq; tauto).
    assert (E2 : aeqb c "." = false) by (apply aeqb_neq; tauto). rewrite E, E2. cbn [orb andb].
    split; [discriminate|]. intros [X _]. discriminate.
  - inversion F as [|? ? L F1]; subst. inversion F' as [|? ? L' F1']; subst. apply letter_facts in L.
    cbn [app rmatch]. rewrite andb_true_iff, orb_true_iff, !aeqb_eq, (IH F1 k' F1'). split.
    + intros [[H|H] [A B]]; [tauto|]. subst. now split.
    + intros [X B]. injection X as X1 X2. subst. split; [now right|now split].
Qed.
Lemma starts_name : forall n k v, ~ In "="%char n -> ~ In "="%char k -> startswith (n ++ s_ "=") (text (k, v)) = true <-> k = n.
Proof.
  intros n k v N K. rewrite startswith_iff. unfold text. cbn [fst snd]. split.
  - intros [t E]. rewrite <- app_assoc in E. change (k ++ "="%char :: v = n ++ "="%char :: t) in E.
    now destruct (text_cut _ _ _ _ _ K N E).
  - intros ->. exists v. now rewrite <- app_assoc.
Qed.
Lemma skipped_spec : forall ref k v, proper_env ref -> var_name k ->
  skipped (env_lines ref) (text (k, v)) = true <-> own_var k \/ exists w, In (k, w) ref /\ looks_like_start v w.
Proof.
  intros ref k v P K. unfold skipped. rewrite (env_lines_proper ref P), !orb_true_iff, existsb_exists.
  assert (NK : ~ In "="%char k) by now apply name_no.
  rewrite (starts_name (s_ "HOME") k v), (starts_name (s_ "PWD") k v), (starts_name (s_ "SOURCE_DATE_EPOCH") k v);
    try exact NK; try (cbn; intuition discriminate).
  unfold own_var. split.
  - intros [[[(x & I & M)|H]|H]|H]; [|tauto..]. right. apply in_map_iff in I. destruct I as ([k' w] & E & I). subst x.
    destruct (proj2 P k' w I) as [K' _]. apply rmatch_text in M; try assumption. destruct M as [-> L]. exists w. now split.
  - intros [[H|[H|H]]|(w & I & L)]; [tauto..|]. left. left. left. exists (text (k, w)). split; [now apply in_map|].
    apply rmatch_text; [exact K|exact K|now split].
Qed.

(** * The configuration *)
Inductive sec := SE (l : list (str * str)) | SF (l : list str) | SO (x : str).
Definition eopen : str := env_head ++ s_ " {".
Definition fopen : str := flt_head ++ s_ " [".
Definition render (s : sec) : list str :=
  match s with
  | SE l => eopen :: map (fun kv => env_line (fst kv) (snd kv)) l ++ [s_ "};"]
  | SF l => fopen :: map flt_line l ++ [s_ "];"]
  | SO x => [x]
  end.
Definition render_all (ss : list sec) : list str := flat_map render ss.
Definition okv (v : str) : Prop := ~ In "'"%char v /\ ~ In "^"%char v.
Definition ok_sec (s : sec) : Prop :=
  match s with
  | SE l => NoDup (map fst l) /\ forall k v, In (k, v) l -> var_name k /\ okv v
  | SF l => forall f, In f l -> var_name f
  | SO x => plain_line x
  end.
Definition ise (s : sec) : bool := match s with SE _ => true | _ => false end.
Definition isf (s : sec) : bool := match s with SF _ => true | _ => false end.
Definition upde (k v : str) (s : sec) : sec :=
  match s with SE l => SE ((k, v) :: filter (fun x => negb (seqb (fst x) k)) l) | _ => s end.
Definition updf (f : str) (s : sec) : sec :=
  match s with SF l => SF (f :: filter (fun x => negb (seqb x f)) l) | _ => s end.
Definition with_e (ss : list sec) : list sec := if existsb ise ss then ss else ss ++ [SE []].
Definition with_f (ss : list sec) : list sec := if existsb isf ss then ss else ss ++ [SF []].
Definition sec_op (ss : list sec) (o : op) : list sec :=
  match o with Export k v => map (upde k v) (with_e ss) | Filter f => map (updf f) (with_f ss) | Echo x => ss ++ [SO x] end.
Definition ok_op (o : op) : Prop :=
  match o with Export k v => var_name k /\ okv v | Filter f => var_name f | Echo l => plain_line l end.

Lemma sw_false : forall p s, (forall t, s <> p ++ t) -> startswith p s = false.
Proof. intros p s H. destruct (startswith p s) eqn:E; [|reflexivity]. apply startswith_iff in E. destruct E as [t E]. now destruct (H t). Qed.
Lemma env_line_head : forall k v, startswith env_head (env_line k v) = false.
Proof. reflexivity. Qed.
Lemma flt_line_head : forall f, startswith flt_head (flt_line f) = false.
Proof. reflexivity. Qed.
Lemma env_key : forall k k' v, var_name k -> var_name k' ->
  startswith (s_ "'" ++ k ++ s_ "' =>") (env_line k' v) = seqb k' k.
Proof.
  intros k k' v K K'. destruct (seqb k' k) eqn:E.
  - apply seqb_eq in E. subst k'. apply startswith_iff. exists (s_ " '" ++ v ++ s_ "',"). unfold env_line.
    rewrite <- !app_assoc. reflexivity.
  - apply sw_false. intros t H. apply seqb_neq in E. apply E. unfold env_line in H. rewrite <- !app_assoc in H.
    apply app_inv_head in H.
    change (k' ++ "'"%char :: (s_ " => '" ++ v ++ s_ "',") = k ++ "'"%char :: (s_ " =>" ++ t)) in H.
    now destruct (text_cut _ _ _ _ _ (name_no k' "'"%char K' eq_refl) (name_no k "'"%char K eq_refl) H).
Qed.
Lemma sed_app : forall d h t a b, sed_pass d h t (a ++ b) = sed_pass d h t a ++ sed_pass d h t b.
Proof. intros. unfold sed_pass. apply flat_map_app. Qed.
Lemma sed_same : forall d h t ls, (forall l, In l ls -> d l = false /\ startswith h l = false) -> sed_pass d h t ls = ls.
Proof.
  intros d h t. induction ls as [|l ls IH]; intros H; [reflexivity|]. unfold sed_pass in *. cbn [flat_map].
  destruct (H l (or_introl eq_refl)) as [A B]. rewrite A, B, IH by (intros; apply H; now right). reflexivity.
Qed.
Lemma sed_cons : forall d h t l ls, sed_pass d h t (l :: ls) = (if d l then [] else if startswith h l then [l; t] else [l]) ++ sed_pass d h t ls.
Proof. reflexivity. Qed.

Lemma pass_e : forall k v ss, var_name k -> Forall ok_sec ss ->
  sed_pass (startswith (s_ "'" ++ k ++ s_ "' =>")) env_head (env_line k v) (render_all ss) = render_all (map (upde k v) ss).
Proof.
  intros k v ss K O. induction ss as [|s ss IH]; [reflexivity|]. inversion O as [|? ? O1 O2]; subst. clear O.
  unfold render_all in *. cbn [flat_map map]. rewrite sed_app, (IH O2). f_equal. destruct s as [l|l|x]; cbn [upde render].
  - rewrite sed_cons. change (startswith (s_ "'" ++ k ++ s_ "' =>") eopen) with false.
    change (startswith env_head eopen) with true. cbv iota. rewrite sed_app.
    change (sed_pass (startswith (s_ "'" ++ k ++ s_ "' =>")) env_head (env_line k v) [s_ "};"]) with [s_ "};"].
    cbn [app map fst snd]. do 2 f_equal. f_equal. destruct O1 as [_ O1].
    induction l as [|[k' v'] l IHl]; [reflexivity|]. cbn [map filter fst snd]. rewrite sed_cons, env_line_head.
    destruct (O1 k' v' (or_introl eq_refl)) as [K' _]. rewrite (env_key k k' v' K K').
    rewrite IHl by (intros; apply O1; now right).
    destruct (seqb k' k); reflexivity.
  - apply sed_same. intros y [<-|I].
    + split; reflexivity.
    + apply in_app_iff in I. destruct I as [I|[<-|[]]]; [|split; reflexivity].
      apply in_map_iff in I. destruct I as (f & <- & I). split; [|reflexivity]. apply sw_false. intros t H.
      unfold flt_line in H. rewrite <- !app_assoc in H. destruct K as [N F]. destruct k as [|c k]; [congruence|].
      cbn in H. injection H as H1 H2. inversion F as [|? ? L _]; subst. vm_compute in L. discriminate.
  - destruct O1 as (P1 & P2 & _). apply sed_same. intros y [<-|[]]. split; apply sw_false.
    + intros t H. rewrite <- !app_assoc in H. now apply P1 in H.
    + exact P2.
Qed.

Lemma no_contains : forall p s c, In c p -> ~ In c s -> contains_sub p s = false.
Proof.
  intros p s c I N. destruct (contains_sub p s) eqn:E; [|reflexivity]. apply contains_sub_iff in E.
  destruct E as (a & b & ->). exfalso. apply N. rewrite !in_app_iff. auto.
Qed.
Lemma flt_key : forall f g, var_name f -> var_name g -> contains_sub (s_ "'^" ++ f ++ s_ "$") (flt_line g) = seqb g f.
Proof.
  intros f g F G. destruct (seqb g f) eqn:E.
  - apply seqb_eq in E. subst g. apply contains_sub_iff. exists [], (s_ "',"). unfold flt_line.
    rewrite <- !app_assoc. reflexivity.
  - destruct (contains_sub (s_ "'^" ++ f ++ s_ "$") (flt_line g)) eqn:C; [|reflexivity]. exfalso.
    apply seqb_neq in E. apply E. clear E. apply contains_sub_iff in C. destruct C as (a & b & H).
    unfold flt_line in H. rewrite <- !app_assoc in H.
    assert (NG : ~ In "^"%char (g ++ s_ "$',")).
    { rewrite in_app_iff. intros [I|I]; [now apply (name_no g "^"%char G)|]. cbn in I. intuition discriminate. }
    destruct a as [|c a].
    + cbn in H. injection H as H.
      change (g ++ "$"%char :: s_ "'," = f ++ "$"%char :: b) in H.
      now destruct (text_cut _ _ _ _ _ (name_no g "$"%char G eq_refl) (name_no f "$"%char F eq_refl) H).
    + exfalso. cbn in H. injection H as _ H. destruct a as [|c2 a].
      * cbn in H. discriminate.
      * cbn in H. injection H as _ H. apply NG. cbn. rewrite H. rewrite in_app_iff. right. right. now left.
Qed.
Lemma pass_f : forall f ss, var_name f -> Forall ok_sec ss ->
  sed_pass (contains_sub (s_ "'^" ++ f ++ s_ "$")) flt_head (flt_line f) (render_all ss) = render_all (map (updf f) ss).
Proof.
  intros f ss F O. assert (IC : In "^"%char (s_ "'^" ++ f ++ s_ "$")) by (right; now left).
  induction ss as [|s ss IH]; [reflexivity|]. inversion O as [|? ? O1 O2]; subst. clear O.
  unfold render_all in *. cbn [flat_map map]. rewrite sed_app, (IH O2). f_equal. destruct s as [l|l|x]; cbn [updf render].
  - apply sed_same. intros y [<-|I].
    + split; [|reflexivity]. apply (no_contains _ _ "^"%char IC). vm_compute. intuition discriminate.
    + apply in_app_iff in I. destruct I as [I|[<-|[]]].
      * apply in_map_iff in I. destruct I as ([k v] & <- & I). cbn [fst snd]. split; [|reflexivity].
        destruct (proj2 O1 k v I) as [K [_ V]]. apply (no_contains _ _ "^"%char IC). unfold env_line. rewrite !in_app_iff.
        intros [X|[X|[X|[X|X]]]]; [cbn in X; intuition discriminate|now apply (name_no k "^"%char K)|cbn in X; intuition discriminate|now apply V|cbn in X; intuition discriminate].
      * split; [|reflexivity]. apply (no_contains _ _ "^"%char IC). cbn. intuition discriminate.
  - rewrite sed_cons.
    assert (D : contains_sub (s_ "'^" ++ f ++ s_ "$") fopen = false) by (apply (no_contains _ _ "^"%char IC); vm_compute; intuition discriminate).
    rewrite D. change (startswith flt_head fopen) with true. cbv iota. rewrite sed_app.
    assert (D2 : sed_pass (contains_sub (s_ "'^" ++ f ++ s_ "$")) flt_head (flt_line f) [s_ "];"] = [s_ "];"]).
    { apply sed_same. intros y [<-|[]]. split; [|reflexivity]. apply (no_contains _ _ "^"%char IC). cbn. intuition discriminate. }
    rewrite D2. cbn [app map fst snd]. do 2 f_equal. f_equal.
    induction l as [|g l IHl]; [reflexivity|]. cbn [map filter]. rewrite sed_cons, flt_line_head.
    rewrite (flt_key f g F (O1 g (or_introl eq_refl))). rewrite IHl by (intros x I; apply O1; now right).
    destruct (seqb g f); reflexivity.
  - destruct O1 as (_ & _ & P3 & P4). apply sed_same. intros y [<-|[]]. split; [now apply (no_contains _ _ "^"%char IC)|now apply sw_false].
Qed.

Lemma has_e : forall ss, Forall ok_sec ss -> existsb (startswith env_head) (render_all ss) = existsb ise ss.
Proof.
  induction ss as [|s ss IH]; intros O; [reflexivity|]. inversion O as [|? ? O1 O2]; subst. clear O. unfold render_all in *.
  cbn [flat_map existsb]. rewrite existsb_app, (IH O2). f_equal. destruct s as [l|l|x]; cbn [render ise].
  - reflexivity.
  - change (existsb (startswith env_head) (map flt_line l ++ [s_ "];"]) = false). rewrite existsb_app.
    apply orb_false_iff. split; [|reflexivity]. induction l as [|f l IHl]; [reflexivity|]. cbn [map existsb].
    change (startswith env_head (flt_line f)) with false. cbn [orb]. apply IHl.
    intros g I. apply O1. now right.
  - cbn [existsb]. rewrite orb_false_r. destruct O1 as (_ & P & _). now apply sw_false.
Qed.
Lemma has_f : forall ss, Forall ok_sec ss -> existsb (startswith flt_head) (render_all ss) = existsb isf ss.
Proof.
  induction ss as [|s ss IH]; intros O; [reflexivity|]. inversion O as [|? ? O1 O2]; subst. clear O. unfold render_all in *.
  cbn [flat_map existsb]. rewrite existsb_app, (IH O2). f_equal. destruct s as [l|l|x]; cbn [render isf].
  - change (existsb (startswith flt_head) (map (fun kv => env_line (fst kv) (snd kv)) l ++ [s_ "};"]) = false). rewrite existsb_app.
    apply orb_false_iff. split; [|reflexivity]. clear. induction l as [|f l IHl]; [reflexivity|]. cbn [map existsb]. exact IHl.
  - reflexivity.
  - cbn [existsb]. rewrite orb_false_r. destruct O1 as (_ & _ & P & _). now apply sw_false.
Qed.
Lemma filter_keys : forall k (l : list (str * str)), NoDup (map fst l) -> NoDup (k :: map fst (filter (fun x => negb (seqb (fst x) k)) l)).
Proof.
  intros k l N. constructor.
  - intros I. apply in_map_iff in I. destruct I as ([a b] & E & I). cbn in E. subst a. apply filter_In in I. destruct I as [_ I].
    cbn in I. rewrite seqb_refl in I. discriminate.
  - induction l as [|[a b] l IH]; [constructor|]. cbn [map filter fst]. cbn [map fst] in N. inversion N as [|? ? X Y]; subst.
    destruct (negb (seqb a k)); [|now apply IH]. cbn [map fst]. constructor; [|now apply IH]. intros I. apply X.
    apply in_map_iff in I. destruct I as (p & E & I). apply filter_In in I. apply in_map_iff. exists p. now split.
Qed.
Lemma ok_upde : forall k v ss, var_name k -> okv v -> Forall ok_sec ss -> Forall ok_sec (map (upde k v) ss).
Proof.
  intros k v ss K V O. apply Forall_map. eapply Forall_impl; [|exact O]. intros [l|l|x] H; cbn [upde]; try exact H.
  destruct H as [N H]. split; [cbn [map fst]; now apply filter_keys|]. intros k' v' [E|I].
  - injection E as <- <-. now split.
  - apply filter_In in I. now apply H.
Qed.
Lemma ok_updf : forall f ss, var_name f -> Forall ok_sec ss -> Forall ok_sec (map (updf f) ss).
Proof.
  intros f ss F O. apply Forall_map. eapply Forall_impl; [|exact O]. intros [l|l|x] H; cbn [updf]; try exact H.
  intros g [<-|I]; [exact F|]. apply filter_In in I. now apply H.
Qed.
Lemma ok_with_e : forall ss, Forall ok_sec ss -> Forall ok_sec (with_e ss).
Proof. intros ss O. unfold with_e. destruct (existsb ise ss); [exact O|]. apply Forall_app. split; [exact O|]. constructor; [|constructor]. split; [constructor|]. intros ? ? []. Qed.
Lemma ok_with_f : forall ss, Forall ok_sec ss -> Forall ok_sec (with_f ss).
Proof. intros ss O. unfold with_f. destruct (existsb isf ss); [exact O|]. apply Forall_app. split; [exact O|]. constructor; [|constructor]. intros ? []. Qed.
Lemma upde_twice : forall k v ss, map (upde k v) (map (upde k v) ss) = map (upde k v) ss.
Proof.
  intros k v ss. rewrite map_map. apply map_ext. intros [l|l|x]; try reflexivity. cbn [upde filter fst].
  rewrite seqb_refl. cbn [negb]. do 2 f_equal. induction l as [|a l IH]; [reflexivity|]. cbn [filter].
  destruct (negb (seqb (fst a) k)) eqn:E; [cbn [filter]; rewrite E; now f_equal|exact IH].
Qed.
Lemma render_app : forall a b, render_all (a ++ b) = render_all a ++ render_all b.
Proof. intros. apply flat_map_app. Qed.
Lemma op_render : forall o ss, ok_op o -> Forall ok_sec ss ->
  do_op (render_all ss) o = render_all (sec_op ss o) /\ Forall ok_sec (sec_op ss o).
Proof.
  intros [k v|f|x] ss OK O; cbn [do_op sec_op].
  - destruct OK as [K V]. unfold sbuild_export. rewrite (has_e ss O).
    replace (if existsb ise ss then render_all ss else render_all ss ++ [env_head ++ s_ " {"; s_ "};"]) with (render_all (with_e ss))
      by (unfold with_e; destruct (existsb ise ss); [reflexivity|]; now rewrite render_app).
    assert (O' := ok_with_e ss O). cbv zeta. rewrite (pass_e k v _ K O').
    rewrite (pass_e k v _ K (ok_upde k v _ K V O')), upde_twice. split; [reflexivity|now apply ok_upde].
  - unfold add_filter. rewrite (has_f ss O).
    replace (if existsb isf ss then render_all ss else render_all ss ++ [flt_head ++ s_ " ["; s_ "];"]) with (render_all (with_f ss))
      by (unfold with_f; destruct (existsb isf ss); [reflexivity|]; now rewrite render_app).
    assert (O' := ok_with_f ss O). cbv zeta. rewrite (pass_f f _ OK O'). split; [reflexivity|now apply ok_updf].
  - split; [now rewrite render_app|]. apply Forall_app. split; [exact O|]. now constructor.
Qed.

(** * What the file says after all operations *)
Definition last_export (os : list op) (k v : str) : Prop :=
  exists a b, os = a ++ Export k v :: b /\ forall w, ~ In (Export k w) b.
Lemma last_none : forall k v, ~ last_export [] k v.
Proof. intros k v (a & b & E & _). destruct a; discriminate. Qed.
Lemma last_other : forall os o k v, (forall w, o <> Export k w) -> last_export (os ++ [o]) k v <-> last_export os k v.
Proof.
  intros os o k v D. split.
  - intros (a & b & E & N). destruct b as [|z b _] using rev_ind.
    + apply app_inj_tail in E. destruct E as [_ E]. now destruct (D v).
    + rewrite app_comm_cons, app_assoc in E. apply app_inj_tail in E. destruct E as [-> _]. exists a, b. split; [reflexivity|].
      intros w I. apply (N w). rewrite in_app_iff. now left.
  - intros (a & b & -> & N). exists a, (b ++ [o]). split; [now rewrite <- app_assoc|]. intros w I.
    rewrite in_app_iff in I. destruct I as [I|[I|[]]]; [now apply (N w)|now apply (D w)].
Qed.
Lemma last_same : forall os k v v', last_export (os ++ [Export k v']) k v <-> v = v'.
Proof.
  intros os k v v'. split.
  - intros (a & b & E & N). destruct b as [|z b _] using rev_ind.
    + apply app_inj_tail in E. destruct E as [_ E]. now injection E as ->.
    + rewrite app_comm_cons, app_assoc in E. apply app_inj_tail in E. destruct E as [_ E]. exfalso. apply (N v').
      rewrite in_app_iff. right. left. now symmetry.
  - intros ->. exists os, []. split; [reflexivity|]. intros w [].
Qed.
Definition holds_e (os : list op) (ss : list sec) : Prop :=
  ((forall k v, ~ In (Export k v) os) /\ existsb ise ss = false) \/
  exists A l B, ss = A ++ SE l :: B /\ existsb ise A = false /\ existsb ise B = false /\ forall k v, In (k, v) l <-> last_export os k v.
Definition holds_f (os : list op) (ss : list sec) : Prop :=
  ((forall f, ~ In (Filter f) os) /\ existsb isf ss = false) \/
  exists A l B, ss = A ++ SF l :: B /\ existsb isf A = false /\ existsb isf B = false /\ forall f, In f l <-> In (Filter f) os.
Lemma upde_id : forall k v ss, existsb ise ss = false -> map (upde k v) ss = ss.
Proof.
  intros k v ss H. rewrite <- (map_id ss) at 2. apply map_ext_in. intros s I. destruct s as [l|l|x]; try reflexivity.
  exfalso. assert (X : existsb ise ss = true) by (apply existsb_exists; exists (SE l); now split). congruence.
Qed.
Lemma updf_id : forall f ss, existsb isf ss = false -> map (updf f) ss = ss.
Proof.
  intros f ss H. rewrite <- (map_id ss) at 2. apply map_ext_in. intros s I. destruct s as [l|l|x]; try reflexivity.
  exfalso. assert (X : existsb isf ss = true) by (apply existsb_exists; exists (SF l); now split). congruence.
Qed.
Lemma ise_upde : forall k v ss, existsb ise (map (upde k v) ss) = existsb ise ss.
Proof. intros k v ss. induction ss as [|[l|l|x] ss IH]; cbn [map upde existsb ise orb]; try reflexivity; exact IH. Qed.
Lemma isf_updf : forall f ss, existsb isf (map (updf f) ss) = existsb isf ss.
Proof. intros f ss. induction ss as [|[l|l|x] ss IH]; cbn [map updf existsb isf orb]; try reflexivity; exact IH. Qed.
Lemma isf_upde : forall k v ss, existsb isf (map (upde k v) ss) = existsb isf ss.
Proof. intros k v ss. induction ss as [|[l|l|x] ss IH]; cbn [map upde existsb isf orb]; try reflexivity; exact IH. Qed.
Lemma ise_updf : forall f ss, existsb ise (map (updf f) ss) = existsb ise ss.
Proof. intros f ss. induction ss as [|[l|l|x] ss IH]; cbn [map updf existsb ise orb]; try reflexivity; exact IH. Qed.
Lemma sat_mid : forall (A B : list sec) l, existsb ise (A ++ SE l :: B) = true.
Proof. intros. rewrite existsb_app. cbn [existsb ise]. now rewrite orb_true_r. Qed.
Lemma satf_mid : forall (A B : list sec) l, existsb isf (A ++ SF l :: B) = true.
Proof. intros. rewrite existsb_app. cbn [existsb isf]. now rewrite orb_true_r. Qed.

Lemma upd_list : forall os k v (l : list (str * str)), (forall k' v', In (k', v') l <-> last_export os k' v') ->
  forall k' v', In (k', v') ((k, v) :: filter (fun x => negb (seqb (fst x) k)) l) <-> last_export (os ++ [Export k v]) k' v'.
Proof.
  intros os k v l H k' v'. destruct (str_eq_dec k' k) as [->|D].
  - rewrite last_same. split.
    + intros [E|I]; [now injection E|]. apply filter_In in I. destruct I as [_ I]. cbn in I. rewrite seqb_refl in I. discriminate.
    + intros ->. now left.
  - rewrite last_other by (intros w E; injection E; congruence). rewrite <- H. split.
    + intros [E|I]; [injection E as E1 E2; congruence|]. now apply filter_In in I.
    + intros I. right. apply filter_In. split; [exact I|]. cbn. apply seqb_neq in D. now rewrite D.
Qed.
Lemma holds_e_step : forall os ss o, holds_e os ss -> holds_e (os ++ [o]) (sec_op ss o).
Proof.
  intros os ss o H. destruct o as [k v|f|x]; cbn [sec_op].
  - right. destruct H as [[N E]|(A & l & B & -> & EA & EB & L)].
    + unfold with_e. rewrite E, map_app, (upde_id k v ss E). exists ss, [(k, v)], []. cbn [map upde filter].
      repeat split; try exact E; try reflexivity.
      * intros [X|[]]. injection X as <- <-. now apply last_same.
      * intros X. destruct (str_eq_dec k0 k) as [->|D]; [apply last_same in X; subst; now left|].
        apply last_other in X; [|intros w Y; injection Y; congruence]. destruct X as (a & b & -> & _). exfalso.
        apply (N k0 v0). rewrite in_app_iff. right. now left.
    + unfold with_e. rewrite sat_mid, map_app. cbn [map upde]. rewrite (upde_id k v A EA), (upde_id k v B EB).
      exists A, ((k, v) :: filter (fun x => negb (seqb (fst x) k)) l), B.
      split; [reflexivity|]. split; [exact EA|]. split; [exact EB|]. now apply upd_list.
  - destruct H as [[N E]|(A & l & B & -> & EA & EB & L)].
    + left. split.
      * intros k v I. rewrite in_app_iff in I. destruct I as [I|[I|[]]]; [now apply (N k v)|discriminate].
      * rewrite ise_updf. unfold with_f. destruct (existsb isf ss); [exact E|]. now rewrite existsb_app, E.
    + right. assert (X : exists B', with_f (A ++ SE l :: B) = A ++ SE l :: B' /\ existsb ise B' = false).
      { unfold with_f. destruct (existsb isf (A ++ SE l :: B)); [exists B; now split|]. exists (B ++ [SF []]).
        split; [now rewrite <- app_assoc|]. now rewrite existsb_app, EB. }
      destruct X as (B' & -> & EB'). rewrite map_app. cbn [map updf].
      exists (map (updf f) A), l, (map (updf f) B'). rewrite !ise_updf. split; [reflexivity|]. split; [exact EA|]. split; [exact EB'|].
      intros k v. rewrite last_other by (intros w Y; discriminate). apply L.
  - destruct H as [[N E]|(A & l & B & -> & EA & EB & L)].
    + left. split; [|now rewrite existsb_app, E].
      intros k v I. rewrite in_app_iff in I. destruct I as [I|[I|[]]]; [now apply (N k v)|discriminate].
    + right. exists A, l, (B ++ [SO x]). split; [now rewrite <- app_assoc|]. split; [exact EA|]. split; [now rewrite existsb_app, EB|].
      intros k v. rewrite last_other by (intros w Y; discriminate). apply L.
Qed.
Lemma holds_f_step : forall os ss o, holds_f os ss -> holds_f (os ++ [o]) (sec_op ss o).
Proof.
  intros os ss o H. destruct o as [k v|f|x]; cbn [sec_op].
  - destruct H as [[N E]|(A & l & B & -> & EA & EB & L)].
    + left. split.
      * intros f I. rewrite in_app_iff in I. destruct I as [I|[I|[]]]; [now apply (N f)|discriminate].
      * rewrite isf_upde. unfold with_e. destruct (existsb ise ss); [exact E|]. now rewrite existsb_app, E.
    + right. assert (X : exists B', with_e (A ++ SF l :: B) = A ++ SF l :: B' /\ existsb isf B' = false).
      { unfold with_e. destruct (existsb ise (A ++ SF l :: B)); [exists B; now split|]. exists (B ++ [SE []]).
        split; [now rewrite <- app_assoc|]. now rewrite existsb_app, EB. }
      destruct X as (B' & -> & EB'). rewrite map_app. cbn [map upde].
      exists (map (upde k v) A), l, (map (upde k v) B'). rewrite !isf_upde. split; [reflexivity|]. split; [exact EA|]. split; [exact EB'|].
      intros f. rewrite in_app_iff, L. split; [now left|]. intros [I|[I|[]]]; [exact I|discriminate].
  - right. destruct H as [[N E]|(A & l & B & -> & EA & EB & L)].
    + unfold with_f. rewrite E, map_app, (updf_id f ss E). exists ss, [f], []. cbn [map updf filter].
      split; [reflexivity|]. split; [exact E|]. split; [reflexivity|]. intros g. rewrite in_app_iff. split.
      * intros [->|[]]. right. now left.
      * intros [I|[I|[]]]; [now destruct (N g)|]. injection I as <-. now left.
    + unfold with_f. rewrite satf_mid, map_app. cbn [map updf]. rewrite (updf_id f A EA), (updf_id f B EB).
      exists A, (f :: filter (fun x => negb (seqb x f)) l), B.
      split; [reflexivity|]. split; [exact EA|]. split; [exact EB|]. intros g. rewrite in_app_iff. split.
      * intros [->|I]; [right; now left|]. apply filter_In in I. left. now apply L.
      * intros [I|[I|[]]]; [|injection I as <-; now left]. destruct (str_eq_dec g f) as [->|D]; [now left|]. right.
        apply filter_In. split; [now apply L|]. apply seqb_neq in D. now rewrite D.
  - destruct H as [[N E]|(A & l & B & -> & EA & EB & L)].
    + left. split; [|now rewrite existsb_app, E].
      intros f I. rewrite in_app_iff in I. destruct I as [I|[I|[]]]; [now apply (N f)|discriminate].
    + right. exists A, l, (B ++ [SO x]). split; [now rewrite <- app_assoc|]. split; [exact EA|]. split; [now rewrite existsb_app, EB|].
      intros f. rewrite in_app_iff, L. split; [now left|]. intros [I|[I|[]]]; [exact I|discriminate].
Qed.
Lemma ops_shape : forall os, Forall ok_op os ->
  exists ss, do_ops os = render_all ss /\ Forall ok_sec ss /\ holds_e os ss /\ holds_f os ss.
Proof.
  induction os as [|o os IH] using rev_ind; intros O.
  - exists []. split; [reflexivity|]. split; [constructor|]. split; left; (split; [|reflexivity]).
    + intros k v [].
    + intros f [].
  - apply Forall_app in O. destruct O as [O1 O2]. inversion O2 as [|? ? OK _]; subst.
    destruct (IH O1) as (ss & E & S & He & Hf). destruct (op_render o ss OK S) as [R S'].
    exists (sec_op ss o). unfold do_ops. rewrite fold_left_app. cbn [fold_left]. fold (do_ops os). rewrite E, R.
    split; [reflexivity|]. split; [exact S'|]. split; [now apply holds_e_step|now apply holds_f_step].
Qed.

(** * Reading it back *)
Lemma list_cut : forall (A : Type) (P : A -> Prop) (c c' : A) (a a' b b' : list A),
  (forall x, In x a -> ~ P x) -> (forall x, In x a' -> ~ P x) -> P c -> P c' -> a ++ c :: b = a' ++ c' :: b' -> a = a' /\ c = c' /\ b = b'.
Proof.
  intros A P c c'. induction a as [|x a IH]; intros a' b b' N N' C C' E; destruct a' as [|y a'].
  - cbn in E. injection E as E1 E2. now split.
  - cbn in E. injection E as E1 E2. subst y. exfalso. apply (N' c); [now left|exact C].
  - cbn in E. injection E as E1 E2. subst x. exfalso. apply (N c'); [now left|exact C'].
  - cbn in E. injection E as E1 E2. subst y. destruct (IH a' b b') as (X & Y & Z); auto.
    + intros z I. apply N. now right.
    + intros z I. apply N'. now right.
    + subst. now repeat split.
Qed.
Lemma not_e : forall ss, Forall ok_sec ss -> existsb ise ss = false -> forall l t, In l (render_all ss) -> l <> env_head ++ t.
Proof.
  intros ss O E l t I ->. rewrite <- (has_e ss O) in E.
  assert (X : existsb (startswith env_head) (render_all ss) = true) by (apply existsb_exists; exists (env_head ++ t); split; [exact I|apply startswith_app]).
  congruence.
Qed.
Lemma not_f : forall ss, Forall ok_sec ss -> existsb isf ss = false -> forall l t, In l (render_all ss) -> l <> flt_head ++ t.
Proof.
  intros ss O E l t I ->. rewrite <- (has_f ss O) in E.
  assert (X : existsb (startswith flt_head) (render_all ss) = true) by (apply existsb_exists; exists (flt_head ++ t); split; [exact I|apply startswith_app]).
  congruence.
Qed.
Lemma env_line_inj : forall k k' v v', var_name k -> var_name k' -> env_line k v = env_line k' v' -> k = k' /\ v = v'.
Proof.
  intros k k' v v' K K' E. unfold env_line in E. apply app_inv_head in E.
  change (k ++ "'"%char :: (s_ " => '" ++ v ++ s_ "',") = k' ++ "'"%char :: (s_ " => '" ++ v' ++ s_ "',")) in E.
  destruct (text_cut _ _ _ _ _ (name_no k "'"%char K eq_refl) (name_no k' "'"%char K' eq_refl) E) as [A B].
  apply app_inv_head in B. apply app_inv_tail in B. now split.
Qed.
Lemma flt_line_inj : forall f g, flt_line f = flt_line g -> f = g.
Proof. intros f g E. unfold flt_line in E. apply app_inv_head in E. now apply app_inv_tail in E. Qed.
Lemma close_not_e : forall l, ~ In (s_ "};") (map (fun kv : str * str => env_line (fst kv) (snd kv)) l).
Proof. intros l I. apply in_map_iff in I. destruct I as (x & E & _). discriminate. Qed.
Lemma close_not_f : forall l, ~ In (s_ "];") (map flt_line l).
Proof. intros l I. apply in_map_iff in I. destruct I as (x & E & _). discriminate. Qed.

Lemma given_block : forall A l B k v, Forall ok_sec (A ++ SE l :: B) -> existsb ise A = false -> existsb ise B = false -> var_name k ->
  given (render_all (A ++ SE l :: B)) k v <-> In (k, v) l.
Proof.
  intros A l B k v O EA EB K. apply Forall_app in O. destruct O as [OA O]. inversion O as [|? ? OL OB]; subst. clear O.
  assert (NA := not_e A OA EA). assert (NB := not_e B OB EB).
  rewrite render_app. change (render_all (SE l :: B)) with (render (SE l) ++ render_all B). cbn [render].
  set (ent := map (fun kv : str * str => env_line (fst kv) (snd kv)) l).
  assert (NE : forall x t, In x ent -> x <> env_head ++ t).
  { intros x t I ->. apply in_map_iff in I. destruct I as (y & E & _). discriminate. }
  split.
  - intros (b & m1 & m2 & a & E & N1 & N2 & N3 & N4).
    set (P := fun x : str => exists t, x = env_head ++ t).
    assert (X : render_all A = b /\ eopen = s_ "$build_environment = {" /\
                ((ent ++ [s_ "};"]) ++ render_all B) = m1 ++ (s_ "'" ++ k ++ s_ "' => '" ++ v ++ s_ "',") :: m2 ++ s_ "};" :: a).
    { apply (list_cut str P).
      - intros x I [t ->]. now apply (NA _ t I).
      - intros x I [t ->]. apply (N4 (env_head ++ t) t); [|reflexivity]. rewrite in_app_iff. now left.
      - exists (s_ " {"). reflexivity.
      - exists (s_ " {"). reflexivity.
      - exact E. }
    destruct X as (_ & _ & X). rewrite <- app_assoc in X. cbn [app] in X.
    assert (Y : ent = m1 ++ env_line k v :: m2 /\ s_ "};" = s_ "};" /\ render_all B = a).
    { apply (list_cut str (fun x => x = s_ "};")); try reflexivity.
      - intros x I ->. now apply (close_not_e l).
      - intros x I ->. rewrite in_app_iff in I. destruct I as [I|[I|I]]; [now apply N1|discriminate|now apply N2].
      - rewrite <- app_assoc. exact X. }
    destruct Y as (Y & _ & _). assert (I : In (env_line k v) ent) by (rewrite Y, in_app_iff; right; now left).
    apply in_map_iff in I. destruct I as ([k' v'] & E1 & I). cbn [fst snd] in E1.
    apply env_line_inj in E1; [|now apply (proj2 OL k' v')|exact K]. destruct E1 as [-> ->]. exact I.
  - intros I. apply in_split in I. destruct I as (l1 & l2 & El). destruct OL as [ND OL].
    set (f := fun kv : str * str => env_line (fst kv) (snd kv)) in *.
    exists (render_all A), (map f l1), (map f l2), (render_all B).
    split; [|split; [apply close_not_e|split; [apply close_not_e|split]]].
    + f_equal. cbn [app]. change eopen with (s_ "$build_environment = {"). f_equal. unfold ent. rewrite El, map_app. cbn [map].
      rewrite <- !app_assoc. cbn [app]. try rewrite <- !app_assoc. reflexivity.
    + intros w J. apply in_map_iff in J. destruct J as ([k' v'] & E1 & J). unfold f in E1. cbn [fst snd] in E1.
      assert (K' : var_name k') by (apply (OL k' v'); rewrite El, in_app_iff; right; now right).
      apply (env_line_inj k' k v' w K' K) in E1. destruct E1 as [-> ->]. rewrite El, map_app in ND. cbn [map fst] in ND.
      apply NoDup_remove_2 in ND. apply ND. rewrite in_app_iff. right. apply in_map_iff. exists (k, w). now split.
    + intros x t J. rewrite in_app_iff in J. destruct J as [J|J]; [exact (NA x t J)|exact (NB x t J)].
Qed.
Lemma passes_block : forall A l B f, Forall ok_sec (A ++ SF l :: B) -> existsb isf A = false -> existsb isf B = false ->
  passes (render_all (A ++ SF l :: B)) f <-> In f l.
Proof.
  intros A l B f O EA EB. apply Forall_app in O. destruct O as [OA O]. inversion O as [|? ? OL OB]; subst. clear O.
  assert (NA := not_f A OA EA). assert (NB := not_f B OB EB).
  rewrite render_app. change (render_all (SF l :: B)) with (render (SF l) ++ render_all B). cbn [render].
  split.
  - intros (b & m1 & m2 & a & E & N1 & N2 & N4).
    set (P := fun x : str => exists t, x = flt_head ++ t).
    assert (X : render_all A = b /\ fopen = s_ "$environment_filter = [" /\
                ((map flt_line l ++ [s_ "];"]) ++ render_all B) = m1 ++ (s_ "'^" ++ f ++ s_ "$',") :: m2 ++ s_ "];" :: a).
    { apply (list_cut str P).
      - intros x I [t ->]. now apply (NA _ t I).
      - intros x I [t ->]. apply (N4 (flt_head ++ t) t); [|reflexivity]. rewrite in_app_iff. now left.
      - exists (s_ " ["). reflexivity.
      - exists (s_ " ["). reflexivity.
      - exact E. }
    destruct X as (_ & _ & X). rewrite <- app_assoc in X. cbn [app] in X.
    assert (Y : map flt_line l = m1 ++ flt_line f :: m2 /\ s_ "];" = s_ "];" /\ render_all B = a).
    { apply (list_cut str (fun x => x = s_ "];")); try reflexivity.
      - intros x I ->. now apply (close_not_f l).
      - intros x I ->. rewrite in_app_iff in I. destruct I as [I|[I|I]]; [now apply N1|discriminate|now apply N2].
      - rewrite <- app_assoc. exact X. }
    destruct Y as (Y & _ & _). assert (I : In (flt_line f) (map flt_line l)) by (rewrite Y, in_app_iff; right; now left).
    apply in_map_iff in I. destruct I as (g & E1 & I). apply flt_line_inj in E1. now subst g.
  - intros I. apply in_split in I. destruct I as (l1 & l2 & El).
    exists (render_all A), (map flt_line l1), (map flt_line l2), (render_all B).
    split; [|split; [apply close_not_f|split; [apply close_not_f|]]].
    + f_equal. cbn [app]. change fopen with (s_ "$environment_filter = ["). f_equal. rewrite El, map_app. cbn [map].
      rewrite <- !app_assoc. cbn [app]. try rewrite <- !app_assoc. reflexivity.
    + intros x t J. rewrite in_app_iff in J. destruct J as [J|J]; [exact (NA x t J)|exact (NB x t J)].
Qed.
Lemma given_ops : forall os k v, Forall ok_op os -> var_name k -> given (do_ops os) k v <-> last_export os k v.
Proof.
  intros os k v O K. destruct (ops_shape os O) as (ss & -> & S & [[N E]|(A & l & B & -> & EA & EB & L)] & _).
  - split.
    + intros (b & m1 & m2 & a & X & _). exfalso. apply (not_e ss S E (s_ "$build_environment = {") (s_ " {")); [|reflexivity].
      rewrite X, in_app_iff. right. now left.
    + intros (a & b & -> & _). exfalso. apply (N k v). rewrite in_app_iff. right. now left.
  - rewrite given_block by assumption. apply L.
Qed.
Lemma passes_ops : forall os f, Forall ok_op os -> passes (do_ops os) f <-> In (Filter f) os.
Proof.
  intros os f O. destruct (ops_shape os O) as (ss & -> & S & _ & [[N E]|(A & l & B & -> & EA & EB & L)]).
  - split.
    + intros (b & m1 & m2 & a & X & _). exfalso. apply (not_f ss S E (s_ "$environment_filter = [") (s_ " [")); [|reflexivity].
      rewrite X, in_app_iff. right. now left.
    + intros I. now destruct (N f).
  - rewrite passes_block by assumption. apply L.
Qed.

(** * Exports of a build *)
Lemma last_app : forall a b k v, last_export (a ++ b) k v <->
  last_export b k v \/ ((forall w, ~ In (Export k w) b) /\ last_export a k v).
Proof.
  intros a b k v. induction b as [|o b IH] using rev_ind.
  - rewrite app_nil_r. split; [intros H; right; split; [intros w []|exact H]|]. intros [H|[_ H]]; [now apply last_none in H|exact H].
  - rewrite app_assoc. assert (D : (exists v', o = Export k v') \/ forall w, o <> Export k w).
    { destruct o as [k' v'|f|x]; try (right; intros w; discriminate). destruct (str_eq_dec k' k) as [->|D]; [left; now exists v'|].
      right. intros w E. injection E. congruence. }
    destruct D as [[v' ->]|D].
    + rewrite !last_same. split; [now left|]. intros [H|[H _]]; [exact H|]. exfalso. apply (H v'). rewrite in_app_iff. right. now left.
    + rewrite !last_other by exact D. rewrite IH. split.
      * intros [H|[N H]]; [now left|]. right. split; [|exact H]. intros w I. rewrite in_app_iff in I.
        destruct I as [I|[I|[]]]; [now apply (N w)|now apply (D w)].
      * intros [H|[N H]]; [now left|]. right. split; [|exact H]. intros w I. apply (N w). rewrite in_app_iff. now left.
Qed.
Lemma last_no_export : forall b k v, (forall k w, ~ In (Export k w) b) -> ~ last_export b k v.
Proof. intros b k v N (a & c & -> & _). apply (N k v). rewrite in_app_iff. right. now left. Qed.
Definition exp (x : str * str) : op := Export (fst x) (snd x).
Lemma in_exp : forall l k v, In (Export k v) (map exp l) <-> In (k, v) l.
Proof.
  intros l k v. rewrite in_map_iff. split.
  - intros ([a b] & E & I). unfold exp in E. cbn in E. injection E as -> ->. exact I.
  - intros I. exists (k, v). now split.
Qed.
Lemma last_functional : forall l k v, (forall k v w, In (k, v) l -> In (k, w) l -> v = w) -> last_export (map exp l) k v <-> In (k, v) l.
Proof.
  intros l k v F. induction l as [|[k' v'] l IH] using rev_ind.
  - split; [intros H; now apply last_none in H|intros []].
  - rewrite map_app. change (map exp [(k', v')]) with [Export k' v'].
    assert (F' : forall k v w, In (k, v) l -> In (k, w) l -> v = w) by (intros a b c I J; apply (F a); rewrite in_app_iff; now left).
    destruct (str_eq_dec k' k) as [->|D].
    + rewrite last_same. split.
      * intros ->. rewrite in_app_iff. right. now left.
      * intros I. apply (F k); [exact I|]. rewrite in_app_iff. right. now left.
    + rewrite last_other by (intros w E; injection E; congruence). rewrite (IH F'), in_app_iff. split; [now left|].
      intros [I|[E|[]]]; [exact I|]. injection E. congruence.
Qed.
Lemma nodup_fun : forall (l : list (str * str)) k v w, NoDup (map fst l) -> In (k, v) l -> In (k, w) l -> v = w.
Proof.
  induction l as [|[a b] l IH]; intros k v w N I J; [destruct I|]. cbn [map fst] in N. inversion N as [|? ? X Y]; subst.
  destruct I as [E|I], J as [E'|J].
  - injection E as -> ->. now injection E'.
  - injection E as -> ->. exfalso. apply X. apply in_map_iff. exists (k, w). now split.
  - injection E' as -> ->. exfalso. apply X. apply in_map_iff. exists (k, v). now split.
  - now apply (IH k).
Qed.
Lemma pt_in : forall names getvar k v, In (k, v) (pt_additions names getvar) <-> In k (split_ws names) /\ getvar k = Some v.
Proof.
  intros names getvar k v. unfold pt_additions. rewrite in_flat_map. split.
  - intros (n & I & H). destruct (getvar n) as [w|] eqn:E; [|destruct H]. destruct H as [H|[]]. injection H as -> ->. now split.
  - intros [I E]. exists k. split; [exact I|]. rewrite E. now left.
Qed.
Lemma filters_names : Forall var_name filters.
Proof. repeat (constructor; [split; [discriminate|]; repeat (constructor; [reflexivity|]); constructor|]). constructor. Qed.
Lemma exports_in : forall ref e k v, proper_env ref -> proper_env e ->
  In (k, v) (exports ref e) <-> In (k, v) e /\ ~ own_var k /\ ~ exists w, In (k, w) ref /\ looks_like_start v w.
Proof.
  intros ref e k v R E. rewrite (exports_filter ref e E), filter_In. split.
  - intros [I H]. destruct (proj2 E k v I) as [K _]. assert (S := skipped_spec ref k v R K).
    destruct (skipped (env_lines ref) (text (k, v))); [discriminate|].
    split; [exact I|]. split; intros X; (assert (Y : false = true) by (apply S; tauto); discriminate).
  - intros (I & A & B). split; [exact I|]. destruct (proj2 E k v I) as [K _]. assert (S := skipped_spec ref k v R K).
    destruct (skipped (env_lines ref) (text (k, v))); [|reflexivity]. destruct (proj1 S eq_refl); tauto.
Qed.
Lemma config_ok : forall ref e names getvar tail, proper_env ref -> proper_env e ->
  (forall k v, In k (split_ws names) -> getvar k = Some v -> var_name k /\ okv v) -> Forall plain_line tail ->
  Forall ok_op (map exp (exports ref e) ++ map Filter filters ++ map exp (pt_additions names getvar) ++ map Echo tail).
Proof.
  intros ref e names getvar tail R E P T. rewrite !Forall_app, !Forall_map. repeat split.
  - apply Forall_forall. intros [k v] I. apply exports_in in I; [|assumption..]. destruct I as [I _].
    destruct (proj2 E k v I) as [K [V _]]. split; [exact K|]. split; apply V; cbn; tauto.
  - apply filters_names.
  - apply Forall_forall. intros [k v] I. apply pt_in in I. now apply P.
  - exact T.
Qed.

(** * Mounts *)
Lemma insert_spec : forall mps fs, exists new, insert_mounts mps fs = fs ++ new /\ NoDup new /\
  (forall l, In l new <-> (exists mp, In mp mps /\ l = mount_line mp) /\ ~ In l fs).
Proof.
  induction mps as [|mp mps IH]; intros fs; cbn [insert_mounts fold_left].
  - exists []. split; [now rewrite app_nil_r|]. split; [constructor|]. intros l. split; [intros []|]. intros [(? & [] & _) _].
  - fold (insert_mounts mps (insert_mount fs mp)). unfold insert_mount. destruct (mem_str (mount_line mp) fs) eqn:M.
    + apply mem_str_In in M. destruct (IH fs) as (new & E & N & S). exists new. split; [exact E|]. split; [exact N|].
      intros l. rewrite S. split.
      * intros [(m & I & L) X]. split; [|exact X]. exists m. split; [now right|exact L].
      * intros [(m & [<-|I] & L) X]; [subst l; tauto|]. split; [|exact X]. now exists m.
    + apply mem_str_false in M. destruct (IH (fs ++ [mount_line mp])) as (new & E & N & S).
      exists (mount_line mp :: new). split; [rewrite E, <- app_assoc; reflexivity|]. split.
      * constructor; [|exact N]. intros I. apply S in I. destruct I as [_ I]. apply I. rewrite in_app_iff. right. now left.
      * intros l. split.
        -- intros [<-|I]; [split; [exists mp; split; [now left|reflexivity]|exact M]|]. apply S in I.
           destruct I as [(m & I & L) X]. split; [exists m; split; [now right|exact L]|]. intros Y. apply X. rewrite in_app_iff. now left.
        -- intros [(m & [<-|I] & L) X]; [left; now symmetry|].
           destruct (str_eq_dec (mount_line mp) l) as [D|D]; [now left|]. right. apply S. split; [now exists m|].
           rewrite in_app_iff. intros [Y|[Y|[]]]; [now apply X|now apply D].
Qed.
Lemma remove_in : forall mps fs l, In l (remove_mounts mps fs) <-> In l fs /\ forall mp, In mp mps -> rcontains (mount_line mp) l = false.
Proof.
  induction mps as [|mp mps IH]; intros fs l; cbn [remove_mounts fold_left].
  - split; [intros I; split; [exact I|intros mp []]|tauto].
  - fold (remove_mounts mps (filter (fun l => negb (rcontains (mount_line mp) l)) fs)). rewrite IH, filter_In. split.
    + intros [[I H] F]. split; [exact I|]. intros m [<-|J]; [now apply negb_true_iff|now apply F].
    + intros [I F]. split; [split; [exact I|apply negb_true_iff; apply F; now left]|]. intros m J. apply F. now right.
Qed.
Lemma filter_all : forall (f : str -> bool) l, (forall x, In x l -> f x = true) -> filter f l = l.
Proof. intros f. induction l as [|x l IH]; intros H; [reflexivity|]. cbn [filter]. rewrite (H x (or_introl eq_refl)), IH by (intros; apply H; now right). reflexivity. Qed.
Lemma filter_none : forall (f : str -> bool) l, (forall x, In x l -> f x = false) -> filter f l = [].
Proof. intros f. induction l as [|x l IH]; intros H; [reflexivity|]. cbn [filter]. rewrite (H x (or_introl eq_refl)), IH by (intros; apply H; now right). reflexivity. Qed.
Lemma remove_app : forall mps a b, remove_mounts mps (a ++ b) = remove_mounts mps a ++ remove_mounts mps b.
Proof. induction mps as [|mp mps IH]; intros a b; [reflexivity|]. cbn [remove_mounts fold_left]. rewrite filter_app. apply IH. Qed.
Lemma remove_same : forall mps fs, (forall l mp, In l fs -> In mp mps -> rcontains (mount_line mp) l = false) -> remove_mounts mps fs = fs.
Proof.
  induction mps as [|mp mps IH]; intros fs H; [reflexivity|]. cbn [remove_mounts fold_left].
  rewrite filter_all; [|intros x I; rewrite (H x mp I (or_introl eq_refl)); reflexivity]. apply IH.
  intros l m I J. apply H; [exact I|now right].
Qed.
Lemma rcontains_refl : forall s, rcontains s s = true.
Proof. intros s. destruct s; cbn [rcontains]; now rewrite rmatch_refl. Qed.
