(** C193: the warning about layers without files. *)
From Coq Require Import Ascii String List Bool.
From Verif Require Import Str_Model Str_Proofs Emptylayer_Model Emptylayer_Spec Emptylayer_Proofs.
Import ListNotations.
Open Scope list_scope.

(** C193: a layer is warned about exactly if this is not switched off for it, no recipe belongs to it, and each file that its pattern
    matches (a .bbappend file, a skipped recipe) is a recipe of another layer or lies under the pattern of a layer that has recipes. *)
Theorem emptylayer_warned : forall m ignore ls recipes appends fns c,
  In c (warned m ignore ls recipes appends fns) <->
  exists p, In (c, p) ls /\ ignore c <> Some (s_ "1") /\ ~ has_recipe m ls recipes p /\
    forall f, In f (recipes ++ appends ++ fns) -> m p f = true ->
      (In f recipes /\ exists q, belongs m ls f q) \/ exists q, has_recipe m ls recipes q /\ m q f = true.
Proof.
  intros m ignore ls recipes appends fns c. assert (HR : forall p, has_recipe m ls recipes p <-> reached m ls recipes p) by (intro p; unfold has_recipe, reached; split; intros (f & I & H); exists f; split; auto; now apply home_iff).
  unfold warned. rewrite in_map_iff. split.
  - intros ([c' p] & <- & I). cbn [fst]. apply filter_In in I. cbn [fst snd] in I. destruct I as [I Q]. apply andb_true_iff in Q. destruct Q as [U G]. apply mem_str_In in U. apply unmatched_iff in U. destruct U as (_ & N & S). exists p. split; [exact I|]. split; [intro E; rewrite E, seqb_refl in G; discriminate|]. split; [now rewrite HR|].
    intros f F M. destruct (S f F M) as [[R H]|(q & R & MQ)]; [left; split; [exact R|]; destruct (home m ls f) as [q|] eqn:E; [exists q; now apply home_iff|congruence]|right; exists q; split; [now apply HR|exact MQ]].
  - intros (p & I & G & N & S). exists (c, p). split; [reflexivity|]. apply filter_In. split; [exact I|]. cbn [fst snd]. apply andb_true_iff. split.
    + apply mem_str_In. apply unmatched_iff. split; [apply in_map_iff; exists (c, p); auto|]. split; [now rewrite <- HR|]. intros f F M. destruct (S f F M) as [[R (q & H)]|(q & R & MQ)]; [left; split; [exact R|]; apply home_iff in H; congruence|right; exists q; split; [now apply HR|exact MQ]].
    + destruct (ignore c) as [v|]; [|reflexivity]. destruct (seqb v (s_ "1")) eqn:E; [apply seqb_eq in E; congruence|reflexivity].
Qed.
(** C193: a layer with a recipe of its own is not warned about. *)
Theorem emptylayer_recipe : forall m ignore ls recipes appends fns c p, NoDup (map fst ls) -> In (c, p) ls -> has_recipe m ls recipes p -> ~ In c (warned m ignore ls recipes appends fns).
Proof.
  intros m ignore ls recipes appends fns c p ND I H W. apply emptylayer_warned in W. destruct W as (p' & I' & _ & N & _). assert (E : p' = p); [|subst; auto].
  clear - ND I I'. induction ls as [|[c1 p1] l IH]; [destruct I|]. cbn [map fst] in ND. apply NoDup_cons_iff in ND. destruct ND as [N1 ND]. destruct I as [E|I], I' as [E'|I']; [congruence| | |auto].
  - injection E as -> ->. destruct N1. apply in_map_iff. exists (c, p'). auto.
  - injection E' as -> ->. destruct N1. apply in_map_iff. exists (c, p). auto.
Qed.
(** C193: a layer whose pattern matches no file at all is warned about. *)
Theorem emptylayer_empty : forall m ignore ls recipes appends fns c p, In (c, p) ls -> ignore c <> Some (s_ "1") ->
  (forall f, In f (recipes ++ appends ++ fns) -> m p f = false) -> In c (warned m ignore ls recipes appends fns).
Proof.
  intros m ignore ls recipes appends fns c p I G N. apply emptylayer_warned. exists p. split; [exact I|]. split; [exact G|]. split.
  - intros (f & F & (b & c' & a & _ & M & _)). rewrite N in M; [discriminate|]. apply in_or_app. now left.
  - intros f F M. rewrite (N f F) in M. discriminate.
Qed.
(** C193 is violated in one place: a layer inside another one that only appends to recipes is warned about, although there are files
    in it that belong to it: they lie under the pattern of the outer layer too, and that has recipes. *)
Theorem emptylayer_nested_refuted : ~ (forall m ignore ls recipes appends fns c p f, NoDup (map fst ls) -> In (c, p) ls -> In f appends -> belongs m ls f p -> ~ In c (warned m ignore ls recipes appends fns)).
Proof.
  intro H. apply (H (fun p f => startswith p f) (fun _ => None) [(s_ "inner", s_ "/l/inner/"); (s_ "outer", s_ "/l/")] [s_ "/l/a.bb"] [s_ "/l/inner/a.bbappend"] [] (s_ "inner") (s_ "/l/inner/") (s_ "/l/inner/a.bbappend")).
  - repeat constructor; cbn; intuition discriminate.
  - now left.
  - now left.
  - apply home_iff. reflexivity.
  - left. reflexivity.
Qed.

(** ** The hypotheses are met *)
Example emptylayer_example :
  warned (fun p f => startswith p f) (fun c => if seqb c (s_ "quiet") then Some (s_ "1") else None)
    [(s_ "quiet", s_ "/z/"); (s_ "empty", s_ "/y/"); (s_ "in", s_ "/l/in/"); (s_ "out", s_ "/l/"); (s_ "app", s_ "/k/"); (s_ "skip", s_ "/j/")]
    [s_ "/l/in/a.bb"] [s_ "/k/a.bbappend"; s_ "/l/a.bbappend"] [s_ "/j/b.bb"; s_ "/l/in/a.bb"] = [s_ "empty"].
Proof. vm_compute. reflexivity. Qed.
Example emptylayer_recipe_example : has_recipe (fun p f => startswith p f) [(s_ "in", s_ "/l/in/"); (s_ "out", s_ "/l/")] [s_ "/l/in/a.bb"; s_ "/l/b.bb"] (s_ "/l/").
Proof. exists (s_ "/l/b.bb"). split; [right; now left|]. apply home_iff. reflexivity. Qed.

Print Assumptions emptylayer_warned.
Print Assumptions emptylayer_recipe.
Print Assumptions emptylayer_empty.
Print Assumptions emptylayer_nested_refuted.
