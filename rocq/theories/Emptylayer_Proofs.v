(** Lemmas about layers without files. *)
From Coq Require Import Ascii String List Bool.
From Verif Require Import Str_Model Str_Proofs Emptylayer_Model Emptylayer_Spec.
Import ListNotations.
Open Scope list_scope.

Section E.
Variable m : str -> str -> bool.
Variable ls : list layer.
Lemma home_iff f p : home m ls f = Some p <-> belongs m ls f p.
Proof.
  unfold belongs. induction ls as [|[c q] l IH]; cbn [home].
  - split; [discriminate|]. intros (b & c & a & E & _). destruct b; discriminate.
  - destruct (m q f) eqn:M.
    + split.
      * intro H. injection H as <-. exists [], c, l. split; [reflexivity|]. split; [exact M|intros ? ? []].
      * intros ([|[c1 p1] b] & c' & a & E & MP & N); cbn [app] in E; injection E as E1 E2 E3; [congruence|]. subst. rewrite (N c1 p1 (or_introl eq_refl)) in M. discriminate.
    + rewrite IH. split.
      * intros (b & c' & a & -> & MP & N). exists ((c, q) :: b), c', a. split; [reflexivity|]. split; [exact MP|]. intros c2 p2 [E|I]; [congruence|eauto].
      * intros ([|[c1 p1] b] & c' & a & E & MP & N); cbn [app] in E; injection E as E1 E2 E3; [congruence|]. subst. exists b, c', a. split; [reflexivity|]. split; [exact MP|]. intros c2 p2 I. apply (N c2 p2). now right.
Qed.
Lemma home_in f p : home m ls f = Some p -> In p (map snd ls).
Proof. intro H. apply home_iff in H. destruct H as (b & c & a & -> & _). rewrite map_app. apply in_or_app. right. now left. Qed.
Lemma remove_all_iff x l y : In y (remove_all x l) <-> In y l /\ y <> x.
Proof. unfold remove_all. rewrite filter_In, negb_true_iff, seqb_neq. intuition congruence. Qed.
Definition reached (rs : list str) (p : str) : Prop := exists f, In f rs /\ home m ls f = Some p.
(** What the tally holds after the recipes [rs] *)
Record sums (rs : list str) (t : tally) : Prop := Sums {
  s_seen : forall f, In f (seen t) <-> In f rs;
  s_matched : forall f, In f (matched t) <-> In f rs /\ home m ls f <> None;
  s_used : forall p, In p (used t) <-> reached rs p;
  s_unused : forall p, In p (unused t) <-> In p (map snd ls) /\ ~ reached rs p }.
Lemma reached_snoc rs f p : reached (rs ++ [f]) p <-> reached rs p \/ home m ls f = Some p.
Proof.
  unfold reached. split.
  - intros (g & I & H). apply in_app_or in I. destruct I as [I|[<-|[]]]; [left; eauto|now right].
  - intros [(g & I & H)|H]; [exists g; split; [apply in_or_app; now left|exact H]|exists f; split; [apply in_or_app; right; now left|exact H]].
Qed.
Lemma sums_count rs t f : sums rs t -> sums (rs ++ [f]) (count m ls t f).
Proof.
  intros [A B C D]. assert (IS : forall g, In g (rs ++ [f]) <-> f = g \/ In g rs) by (intro g; rewrite in_app_iff; cbn; tauto).
  unfold count. destruct (home m ls f) as [p|] eqn:H.
  - assert (MA : forall g, f = g \/ In g (matched t) <-> In g (rs ++ [f]) /\ home m ls g <> None).
    { intro g. rewrite IS, B. split; [intros [<-|[I N]]; split; auto; congruence|]. intros [[<-|I] N]; auto. }
    destruct (mem_str p (unused t)) eqn:M.
    + apply mem_str_In in M. apply D in M. constructor; cbn [seen matched used unused In].
      * intro g. rewrite IS, A. reflexivity.
      * exact MA.
      * intro q. rewrite reached_snoc, C, H. split; [intros [<-|R]; auto|]. intros [R|E]; [auto|injection E as <-; auto].
      * intro q. rewrite remove_all_iff, D, reached_snoc, H. split; [intros [[I N] NE]; split; [exact I|]; intros [R|E]; [auto|congruence]|]. intros [I N]. split; [split; [exact I|intro R; apply N; now left]|]. intros ->. apply N. now right.
    + assert (R : reached rs p). { assert (NU : ~ In p (unused t)) by (intro I; apply mem_str_In in I; congruence). destruct (in_dec str_eq_dec p (used t)) as [U|U]; [now apply C|]. exfalso. apply NU. apply D. split; [now apply (home_in f)|]. intro R. apply U. now apply C. }
      constructor; cbn [seen matched used unused In].
      * intro g. rewrite IS, A. reflexivity.
      * exact MA.
      * intro q. rewrite reached_snoc, C, H. split; [auto|]. intros [Q|E]; [auto|injection E as <-; exact R].
      * intro q. rewrite D, reached_snoc, H. split; [intros [I N]; split; [exact I|]; intros [Q|E]; [auto|injection E as <-; auto]|]. intros [I N]. split; [exact I|intro Q; apply N; now left].
  - constructor; cbn [seen matched used unused In].
    + intro g. rewrite IS, A. reflexivity.
    + intro g. rewrite B, IS. split; [tauto|]. intros [[<-|I] N]; [congruence|auto].
    + intro q. rewrite reached_snoc, C, H. intuition discriminate.
    + intro q. rewrite D, reached_snoc, H. intuition discriminate.
Qed.
Lemma sums_all rs : sums rs (fold_left (count m ls) rs (Tally [] [] [] (map snd ls))).
Proof.
  induction rs as [|f rs IH] using rev_ind.
  - constructor; cbn; unfold reached; intros; try tauto; split; try tauto; try (intros (f & [] & _)). intro I. split; [exact I|]. intros (f & [] & _).
  - rewrite fold_left_app. cbn [fold_left]. now apply sums_count.
Qed.
Lemma stays_iff t p s : stays m t p s = true <-> forall f, In f s -> m p f = true -> exists q, In q (used t) /\ m q f = true.
Proof.
  induction s as [|f s IH]; cbn [stays]; [split; [intros _ ? []|reflexivity]|].
  assert (AM : already_matched m t f = true <-> exists q, In q (used t) /\ m q f = true) by (unfold already_matched; apply existsb_exists).
  destruct (m p f) eqn:M; [destruct (already_matched m t f) eqn:A|].
  - rewrite IH. split; [intros H g [<-|I] MG; [now apply AM|auto]|]. intros H g I. apply H. now right.
  - split; [discriminate|]. intro H. apply AM. apply H; [now left|exact M].
  - rewrite IH. split; [intros H g [<-|I] MG; [congruence|auto]|]. intros H g I. apply H. now right.
Qed.
Lemma unmatched_iff recipes appends fns p : In p (unmatched m ls recipes appends fns) <->
  In p (map snd ls) /\ ~ reached recipes p /\
  forall f, In f (recipes ++ appends ++ fns) -> m p f = true -> (In f recipes /\ home m ls f <> None) \/ exists q, reached recipes q /\ m q f = true.
Proof.
  unfold unmatched. destruct (sums_all recipes) as [A B C D]. set (t := fold_left _ _ _) in *. clearbody t.
  set (s := filter _ (seen t ++ appends ++ fns)).
  assert (E : In p (match unused t with [] => [] | _ => filter (fun p => stays m t p s) (unused t) end) <-> In p (unused t) /\ stays m t p s = true) by (destruct (unused t); [cbn; tauto|apply filter_In]).
  rewrite E, D, stays_iff. split.
  - intros [[I N] S]. split; [exact I|]. split; [exact N|]. intros f F M. destruct (mem_str f (matched t)) eqn:Q; [left; apply B; now apply mem_str_In|]. right. destruct (S f) as (q & U & MQ); [|exact M|exists q; split; [now apply C|exact MQ]].
    unfold s. apply filter_In. split; [|now rewrite Q]. rewrite in_app_iff in *. rewrite A. exact F.
  - intros (I & N & S). split; [auto|]. intros f F M. unfold s in F. apply filter_In in F. destruct F as [F Q]. apply negb_true_iff in Q. destruct (S f) as [X|(q & R & MQ)]; [rewrite in_app_iff in *; now rewrite <- A|exact M| |exists q; split; [now apply C|exact MQ]].
    apply B in X. apply mem_str_In in X. congruence.
Qed.
End E.
