(** C195: the layer of a file. *)
From Coq Require Import Ascii String List Bool Arith Lia.
From Verif Require Import Str_Model Str_Proofs Layerconf_Model Enforce_Spec Enforce_Proofs Filelayer_Model Filelayer_Spec Filelayer_Proofs.
Import ListNotations.
Open Scope list_scope.

(** C195: the layer of a path is the one with the longest pattern that matches, the first of several; there is none exactly if
    no pattern matches. *)
Theorem filelayer_longest : forall m res path,
  (forall c, path_to_layer m res path = Some c <-> best_match m res path c) /\
  (path_to_layer m res path = None <-> forall c p, In (c, p) res -> p <> [] -> m p path = false).
Proof.
  intros m res path.
  assert (Q : (exists c p, In (c, p) res /\ m p path = true /\ 0 < length p) \/ forall c p, In (c, p) res -> m p path = true -> length p <= 0).
  { clear. induction res as [|[c p2] res IHr]; [right; intros ? ? []|]. destruct IHr as [(c1 & p1 & I & M & L)|N]; [left; exists c1, p1; split; [now right|auto]|]. destruct (m p2 path) eqn:M, (le_lt_dec (length p2) 0) as [L|L].
    - right. intros c1 p1 [E|I] MM; [injection E as <- <-; exact L|now apply (N c1)].
    - left. exists c, p2. split; [now left|auto].
    - right. intros c1 p1 [E|I] MM; [injection E as <- <-; congruence|now apply (N c1)].
    - right. intros c1 p1 [E|I] MM; [injection E as <- <-; congruence|now apply (N c1)]. }
  unfold path_to_layer. destruct Q as [Q|Q].
  - destruct (to_layer_some m path res 0 None Q) as (c & b & p & a & E & R & L & M & B & A). assert (BM : best_match m res path c) by (exists b, p, a; repeat split; auto; intros ->; cbn in L; lia). split.
    + intro c'. rewrite E. split; [intro H; injection H as <-; exact BM|]. intro BM'. f_equal. exact (best_unique m res path c c' BM BM').
    + rewrite E. split; [discriminate|]. intro H. rewrite (H c p) in M; [discriminate| |intros ->; cbn in L; lia]. rewrite R. apply in_or_app. right. now left.
  - rewrite (to_layer_keep m path res 0 None Q). split.
    + intro c. split; [discriminate|]. intros (b & p & a & R & NP & M & _). assert (I : In (c, p) res) by (rewrite R; apply in_or_app; right; now left). specialize (Q c p I M). destruct p; [congruence|cbn in Q; lia].
    + split; [|reflexivity]. intros _ c p I NP. destruct (m p path) eqn:M; [|reflexivity]. specialize (Q c p I M). destruct p; [congruence|cbn in Q; lia].
Qed.
(** C195: the first entry of BBFILES_PRIORITIZED that matches a file decides its layer; without one the file itself does. *)
Theorem filelayer_entry : forall m var bbfiles file, var (s_ "BBFILES_PRIORITIZED") = Some bbfiles ->
  (forall before e after, split_ws bbfiles = before ++ e :: after -> (forall x, In x before -> ~ matches x file) -> matches e file ->
     file_layer m var file = path_to_layer m (collection_res var) e) /\
  ((forall x, In x (split_ws bbfiles) -> ~ matches x file) -> file_layer m var file = path_to_layer m (collection_res var) file).
Proof.
  intros m var bbfiles file V. unfold file_layer. rewrite V. generalize (collection_res var). intro res. assert (NF : forall x, ~ matches x file -> fnmatch file x = false) by (intros x N; destruct (fnmatch file x) eqn:E; [apply fnmatch_iff in E; contradiction|reflexivity]). split.
  - intros before e after -> N M. induction before as [|x b IH]; cbn [app by_entry]; [rewrite (proj2 (fnmatch_iff e file) M); reflexivity|]. rewrite (NF x (N x (or_introl eq_refl))). apply IH. intros y Y. apply N. now right.
  - intro N. induction (split_ws bbfiles) as [|x l IH]; cbn [by_entry]; [reflexivity|]. rewrite (NF x (N x (or_introl eq_refl))). apply IH. intros y Y. apply N. now right.
Qed.
(** C195: the patterns are those of the collections. *)
Theorem filelayer_patterns : forall var collections c p, var (s_ "BBFILE_COLLECTIONS") = Some collections ->
  (In (c, p) (collection_res var) <-> In c (split_ws collections) /\ p = pattern_of var c).
Proof. intros var collections c p V. rewrite res_iff, V. reflexivity. Qed.
(** C195: and they are in the order of the collections. *)
Theorem filelayer_patterns_order : forall var collections, var (s_ "BBFILE_COLLECTIONS") = Some collections -> NoDup (split_ws collections) ->
  collection_res var = map (fun c => (c, pattern_of var c)) (split_ws collections).
Proof.
  intros var collections V ND. unfold collection_res. rewrite V. induction (split_ws collections) as [|x l IH] using rev_ind; [reflexivity|]. rewrite fold_left_app, map_app. cbn [fold_left map].
  assert (NX : ~ In x l /\ NoDup l). { apply NoDup_remove in ND. rewrite app_nil_r in ND. tauto. } destruct NX as [NX NL]. rewrite (IH NL). fold (pattern_of var x). unfold set_item.
  destruct (existsb (fun e => seqb (fst e) x) (map (fun c => (c, pattern_of var c)) l)) eqn:E; [|reflexivity]. exfalso. apply existsb_exists in E. destruct E as (e & I & Q). apply in_map_iff in I. destruct I as (c & <- & I). apply seqb_eq in Q. cbn [fst] in Q. subst c. contradiction.
Qed.
Definition nested_var (v : str) : option str :=
  if seqb v (s_ "BBFILE_COLLECTIONS") then Some (s_ "outer inner")
  else if seqb v (s_ "BBFILE_PATTERN_outer") then Some (s_ "/l/")
  else if seqb v (s_ "BBFILE_PATTERN_inner") then Some (s_ "/l/inner/")
  else if seqb v (s_ "BBFILES_PRIORITIZED") then Some (s_ "/l/*/*.bb /l/inner/*/*.bb")
  else None.
(** C195 is violated for nested layers: a recipe in an inner layer is said to be in the outer one, if an entry of the outer layer comes
    first and matches: a star also matches slashes, and then the entry, not the file, is compared with the patterns. *)
Theorem filelayer_nested_refuted : ~ (forall m var file c, best_match m (collection_res var) file c -> file_layer m var file = Some c).
Proof.
  intro H. specialize (H (fun p f => startswith p f) nested_var (s_ "/l/inner/recipes/a.bb") (s_ "inner")).
  assert (B : best_match (fun p f => startswith p f) (collection_res nested_var) (s_ "/l/inner/recipes/a.bb") (s_ "inner")) by (apply filelayer_longest; vm_compute; reflexivity).
  specialize (H B). vm_compute in H. discriminate H.
Qed.

(** ** The hypotheses are met *)
Example filelayer_example : path_to_layer (fun p f => startswith p f) [(s_ "outer", s_ "/l/"); (s_ "inner", s_ "/l/inner/"); (s_ "other", s_ "/l/inner/")] (s_ "/l/inner/a.bbclass") = Some (s_ "inner") /\
  path_to_layer (fun p f => startswith p f) [(s_ "outer", s_ "/l/"); (s_ "none", [])] (s_ "/k/a.bb") = None /\
  file_layer (fun p f => startswith p f) nested_var (s_ "/l/inner/classes/a.bbclass") = Some (s_ "inner").
Proof. vm_compute. auto. Qed.

Print Assumptions filelayer_longest.
Print Assumptions filelayer_entry.
Print Assumptions filelayer_patterns.
Print Assumptions filelayer_patterns_order.
Print Assumptions filelayer_nested_refuted.
