(** C27: dependency loops are always detected and never reported falsely. *)
From Coq Require Import List Bool ZArith NArith Arith Lia Permutation.
From Verif Require Import Taskweights_Model Taskweights_Spec Taskweights_Proofs.
Import ListNotations.
Open Scope list_scope.

(** The computation ends, and the tasks it declares unbuildable are exactly those on
    a loop or needed by a task on a loop. *)
Theorem unbuildable_iff_below_loop : forall g, proper g -> exists problem w, calculate g = Some (problem, w) /\
  forall t, In t problem <-> In t (gtasks g) /\ below_loop g t.
Proof. intros g P. destruct (calculate_spec g P) as (p & w & E & H & _). exists p, w. auto. Qed.

(** The build is refused exactly when the task graph has a loop. *)
Theorem refused_iff_loop : forall g problem w, proper g -> calculate g = Some (problem, w) -> (problem <> [] <-> has_loop g).
Proof.
  intros g problem w P E. destruct (calculate_spec g P) as (p & w' & E' & H & _). rewrite E in E'. injection E' as <- <-. split.
  - intros N. destruct problem as [|t l]; [congruence|]. destruct (H t) as [X _]. destruct (X (or_introl eq_refl)) as (_ & x & Y & _). exists x. auto.
  - intros (t & N) X. assert (Y : In t problem); [|rewrite X in Y; destruct Y]. apply H. split; [apply (needs_task g P t t N)|]. exists t. auto.
Qed.

(** Without a loop the weight of a task is 10 if nothing depends on it, else one more
    than the sum of the weights of the tasks that depend on it directly. *)
Theorem weight_is_sum : forall g w t l, proper g -> calculate g = Some ([], w) -> In t (gtasks g) -> dependents g t l ->
  w t = match l with [] => 10%N | _ => (1 + total w l)%N end.
Proof.
  intros g w t l P E Ht [ND D]. destruct (calculate_spec g P) as (p & w' & E' & _ & W). rewrite E in E'. injection E' as <- <-.
  rewrite (W eq_refl t Ht) at 1. unfold base.
  assert (EP : mem t (endpoints g) = match l with [] => true | _ => false end).
  { destruct l as [|r l].
    - apply mem_In, endpoints_In. split; auto. destruct (revdeps g t) as [|r l] eqn:R; auto.
      assert (X : In r (revdeps g t)) by (rewrite R; left; auto). apply revdeps_In in X. apply D in X. destruct X.
    - apply mem_false. rewrite endpoints_In. intros [_ X]. assert (Y : In r (revdeps g t)) by (apply revdeps_In, D; left; auto).
      rewrite X in Y. destruct Y. }
  rewrite EP.
  assert (TT : total w (revdeps g t) = total w l).
  { assert (Pm : forall a b, NoDup a -> NoDup b -> (forall x, In x a <-> In x b) -> total w a = total w b).
    { induction a as [|x a IH]; intros b Na Nb S.
      - destruct b as [|y b]; auto. destruct (S y) as [_ X]. destruct (X (or_introl eq_refl)).
      - assert (X : In x b) by (apply S; left; auto). apply in_split in X. destruct X as (b1 & b2 & ->).
        inversion Na as [|? ? N1 N2]; subst.
        assert (Q : total w (b1 ++ x :: b2) = (w x + total w (b1 ++ b2))%N).
        { clear. induction b1 as [|y b1 IH]; cbn; auto. unfold total in IH. rewrite IH. lia. }
        rewrite Q. cbn. f_equal. apply IH; auto; [eapply NoDup_remove_1; eauto|]. intros y. split; intros Hy.
        + assert (Z : In y (b1 ++ x :: b2)) by (apply S; right; auto). apply in_app_or in Z. apply in_or_app.
          destruct Z as [Z|[Z|Z]]; auto. subst. contradiction.
        + assert (Z : In y (x :: a)). { apply S. apply in_app_or in Hy. apply in_or_app. cbn. tauto. }
          destruct Z as [<-|Z]; auto. exfalso. eapply NoDup_remove_2; eauto. }
    apply Pm; auto using revdeps_NoDup. intros x. rewrite revdeps_In, D. tauto. }
  rewrite TT. destruct l; cbn; lia.
Qed.
(** In particular it is larger than the weight of every task that needs it. *)
Theorem weight_grows : forall g w t d, proper g -> calculate g = Some ([], w) -> needs g t d -> (w t < w d)%N.
Proof.
  intros g w t d P E N.
  assert (K : forall t d, In t (gtasks g) -> In d (gdeps g t) -> (w t < w d)%N).
  { clear t d N. intros t d Ht Hd. assert (Dt : In d (gtasks g)) by (destruct P as [_ X]; apply (X t Ht); auto).
    rewrite (weight_is_sum g w d (revdeps g d) P E Dt).
    - assert (X : In t (revdeps g d)) by (apply revdeps_In; auto). destruct (revdeps g d) as [|r l]; [destruct X|].
      enough (w t <= total w (r :: l))%N by lia. clear - X. revert X. generalize (r :: l). induction l0 as [|y l0 IH]; intros X; [destruct X|].
      cbn. destruct X as [->|X]; [lia|]. specialize (IH X). unfold total in IH. lia.
    - split; [now apply revdeps_NoDup|]. intros r. apply revdeps_In. }
  induction N as [t d H1 H2|t d e H1 H2 N IH]; auto. specialize (K t d H1 H2). lia.
Qed.

(** When tasks are unbuildable at least one loop is printed, every chain printed is a
    loop of the graph, and none is printed twice. *)
Theorem printed_loops_genuine : forall g problem w, proper g -> calculate g = Some (problem, w) ->
  exists chains, printed_loops g problem = Some chains /\ NoDup chains /\
    (problem <> [] -> chains <> []) /\
    forall ch, In ch chains -> loop_chain g ch /\ forall t, In t ch -> needs g t t.
Proof.
  intros g problem w P E. destruct (calculate_spec g P) as (p & w' & E' & H & _). rewrite E in E'. injection E' as <- <-.
  destruct (printed_spec g problem) as (chains & E1 & ND & L & NE).
  { intros t Ht. now apply H. }
  exists chains. split; auto. split; auto. split.
  - intros N. destruct problem as [|t l]; [congruence|]. apply (NE t); [left; auto|]. apply H. left; auto.
  - intros ch Hc. split; auto. intros t Ht. eapply loop_chain_needs; eauto.
Qed.

(** ** Where a chain starts *)
Lemma lowest_spec l : forall pos best bestpos, bestpos < pos ->
  let k := lowest l pos best bestpos in
  (k = bestpos /\ (forall y, In y l -> best <= y)) \/
  (exists i x, k = pos + i /\ nth_error l i = Some x /\ x < best /\ forall y, In y l -> x <= y).
Proof.
  induction l as [|x l IH]; intros pos best bestpos LT; cbn [lowest]; [left; split; auto; intros y []|].
  destruct (Nat.ltb_spec x best) as [L|L].
  - destruct (IH (S pos) x pos (Nat.lt_succ_diag_r pos)) as [(E & M)|(i & y & E & N & Y & M)].
    + right. exists 0, x. split; [lia|]. split; auto. split; auto. intros z [<-|Z]; auto.
    + right. exists (S i), y. split; [lia|]. split; auto. split; [lia|]. intros z [<-|Z]; auto. lia.
  - destruct (IH (S pos) best bestpos) as [(E & M)|(i & y & E & N & Y & M)]; [lia| |].
    + left. split; auto. intros z [<-|Z]; auto.
    + right. exists (S i), y. split; [lia|]. split; auto. split; auto. intros z [<-|Z]; auto. lia.
Qed.
Lemma reorder_lowest c : c <> [] -> exists x l, chain_reorder c = x :: l /\ forall y, In y c -> x <= y.
Proof.
  destruct c as [|x l]; [congruence|]. intros _. cbn [chain_reorder]. destruct (lowest_spec l 1 x 0 Nat.lt_0_1) as [(-> & M)|(i & y & -> & N & Y & M)].
  - exists x, (l ++ []). split; auto. intros z [<-|Z]; auto.
  - cbn [Nat.add skipn]. apply nth_error_split in N. destruct N as (l1 & l2 & -> & <-). rewrite skipn_app, skipn_all, Nat.sub_diag. cbn [skipn app].
    eexists y, _. split; [reflexivity|]. intros z [<-|Z]; auto. lia.
Qed.
Lemma reorder_perm c : Permutation (chain_reorder c) c.
Proof.
  destruct c as [|x l]; auto. unfold chain_reorder. rewrite Permutation_app_comm. now rewrite firstn_skipn.
Qed.
Definition tidy (ch : list nat) : Prop := NoDup ch /\ exists x l, ch = x :: l /\ forall y, In y ch -> x <= y.
Definition tidy_search (r : search) : Prop := match r with Found _ chains => Forall tidy chains | Halted chains => Forall tidy chains | Broken => True end.
Lemma from_nodup r l : NoDup l -> In r l -> NoDup (from r l) /\ from r l <> [].
Proof.
  intros N I. destruct (from_split r l I) as (l1 & l2 & -> & ->). split; [|discriminate]. clear I. induction l1 as [|a l1 IH]; auto. inversion N; auto.
Qed.
Lemma tidy_reorder c : NoDup c -> c <> [] -> tidy (chain_reorder c).
Proof.
  intros N NE. destruct (reorder_lowest c NE) as (x & l & E & M). split; [apply (Permutation_NoDup (Permutation_sym (reorder_perm c)) N)|].
  exists x, l. split; auto. intros y Y. apply M. apply (Permutation_in _ (reorder_perm c) Y).
Qed.
Lemma scan_tidy rec t prev : NoDup prev -> (forall r ex ch, ~ In r prev -> Forall tidy ch -> tidy_search (rec r prev ex ch)) ->
  forall rs total ex ch, Forall tidy ch -> tidy_search (scan_revdeps rec t prev rs total ex ch).
Proof.
  intros N R. induction rs as [|r rs IH]; intros total ex ch F; cbn [scan_revdeps]; [auto|]. destruct (mem r prev) eqn:M.
  - apply mem_In in M. destruct (from_nodup r prev N M) as [A B].
    assert (F' : Forall tidy (if existsb (chain_eqb (chain_reorder (from r prev))) ch then ch else ch ++ [chain_reorder (from r prev)])).
    { destruct (existsb _ ch); auto. apply Forall_app. split; auto. constructor; auto. now apply tidy_reorder. }
    destruct (Nat.ltb 10 _); [exact F'|]. now apply IH.
  - apply mem_false in M. match goal with |- context [if ?b then rec r prev ex ch else _] => destruct b end.
    + specialize (R r ex ch M F). destruct (rec r prev ex ch) as [ex' ch'|ch'|]; auto. destruct (lookup r ex'); [|exact I]. now apply IH.
    + destruct (lookup r ex); [|exact I]. now apply IH.
Qed.
Lemma find_tidy g f : forall t prev ex ch, NoDup prev -> ~ In t prev -> Forall tidy ch -> tidy_search (find_chains g f t prev ex ch).
Proof.
  induction f as [|f IH]; intros t prev ex ch N NI F; cbn [find_chains]; [exact I|]. apply scan_tidy; auto.
  - apply NoDup_rev in N. rewrite <- (rev_involutive (prev ++ [t])). apply NoDup_rev. rewrite rev_app_distr. constructor; auto. now rewrite <- in_rev.
  - intros r ex' ch' NR F'. apply IH; auto. apply NoDup_rev in N. rewrite <- (rev_involutive (prev ++ [t])). apply NoDup_rev. rewrite rev_app_distr. constructor; auto. now rewrite <- in_rev.
Qed.
Lemma printed_tidy g problem chains : printed_loops g problem = Some chains -> Forall tidy chains.
Proof.
  unfold printed_loops. assert (K : forall ts ex ch, Forall tidy ch -> tidy_search (depchains g (S (length (gtasks g))) ts ex ch)).
  { induction ts as [|t ts IH]; intros ex ch F; cbn [depchains]; auto. pose proof (find_tidy g (S (length (gtasks g))) t [] ex ch (NoDup_nil _) (fun x => x) F) as T.
    destruct (find_chains _ _ t [] ex ch) as [ex' ch'|ch'|]; auto. }
  specialize (K problem [] [] (Forall_nil _)). destruct (depchains _ _ problem [] []) as [ex ch|ch|]; intros E; try discriminate; injection E as <-; exact K.
Qed.
(** A chain goes through no task twice and starts with the first of its tasks, and so a loop is not printed again from
    another of its tasks. *)
Theorem chains_start_first : forall g problem chains, printed_loops g problem = Some chains ->
  forall ch, In ch chains -> NoDup ch /\ exists x l, ch = x :: l /\ forall y, In y l -> x < y.
Proof.
  intros g problem chains E ch I. pose proof (printed_tidy g problem chains E) as T. rewrite Forall_forall in T. destruct (T ch I) as (N & x & l & -> & M). split; auto. exists x, l. split; auto.
  intros y Y. inversion N as [|? ? NI _]; subst. specialize (M y (or_intror Y)). assert (x <> y) by (intros ->; auto). lia.
Qed.
Theorem loop_printed_once : forall g problem chains, printed_loops g problem = Some chains ->
  forall a b, In (a ++ b) chains -> In (b ++ a) chains -> a = [] \/ b = [].
Proof.
  intros g problem chains E a b A B. destruct (chains_start_first g problem chains E _ A) as (N & x & l & EA & MA). destruct (chains_start_first g problem chains E _ B) as (_ & y & m & EB & MB).
  destruct a as [|p a]; [now left|]. destruct b as [|q b]; [now right|]. exfalso. cbn [app] in EA, EB. injection EA as -> <-. injection EB as -> <-.
  assert (x < y) by (apply MA; apply in_or_app; right; now left). assert (y < x) by (apply MB; apply in_or_app; right; now left). lia.
Qed.
Definition web : graph := mkGraph [0;1;2;3;4;5] (fun t => match t with 0 => [4] | 1 => [0;2] | 2 => [3] | 3 => [1;5] | 4 => [1] | 5 => [0] | _ => [] end).
(** Not every loop is printed, even when there are fewer than ten, and a task may be on a loop and in no chain: 5 needs 0,
    which needs 4, 1, 2, 3 and 5 again, but 3 has been visited from 1 when 5 is reached. *)
Theorem all_looping_tasks_printed_refuted : exists g problem w chains t, two_loops g (gtasks g) = None /\
  calculate g = Some (problem, w) /\ printed_loops g problem = Some chains /\ length chains < 10 /\
  needs g t t /\ forall ch, In ch chains -> ~ In t ch.
Proof.
  exists web. destruct (calculate web) as [[problem w]|] eqn:C; [|discriminate]. assert (E : problem = [0;1;2;3;4;5]) by (apply (f_equal (fun x => match x with Some (p, _) => p | None => [] end)) in C; now rewrite <- C).
  subst problem. exists [0;1;2;3;4;5], w, [[1;3;2]; [0;1;4]], 5. split; [reflexivity|]. split; [reflexivity|]. split; [vm_compute; reflexivity|]. split; [cbn; lia|]. split.
  - apply (needs_trans web 5 0); [cbn; auto 8|cbn; auto|]. apply (needs_trans web 0 4); [cbn; auto 8|cbn; auto|]. apply (needs_trans web 4 1); [cbn; auto 8|cbn; auto|].
    apply (needs_trans web 1 2); [cbn; auto 8|cbn; auto|]. apply (needs_trans web 2 3); [cbn; auto 8|cbn; auto|]. apply needs_direct; cbn; auto 8.
  - intros ch [<-|[<-|[]]]; cbn; intuition discriminate.
Qed.

(** Two tasks that depend on each other are found before the weights are computed. *)
Theorem two_loop_found : forall g, proper g ->
  (two_loops g (gtasks g) = None <-> ~ exists t d, In t (gtasks g) /\ In d (gtasks g) /\ In d (gdeps g t) /\ In t (gdeps g d)).
Proof.
  intros g P.
  assert (K : forall ts, two_loops g ts = None <-> ~ exists t d, In t ts /\ In d (gtasks g) /\ In d (gdeps g t) /\ In t (gdeps g d)).
  { induction ts as [|t ts IH]; cbn.
    - split; auto. intros _ (t & d & [] & _).
    - destruct (find (fun d => mem d (gdeps g t)) (revdeps g t)) as [d|] eqn:F.
      + apply find_some in F. destruct F as [F1 F2]. apply mem_In in F2. apply revdeps_In in F1. split; [discriminate|].
        intros X. exfalso. apply X. exists t, d. tauto.
      + rewrite IH. split; intros X (a & d & A & B).
        * destruct A as [<-|A]; [|apply X; eauto]. apply find_none with (x := d) in F; [|apply revdeps_In; tauto].
          apply mem_false in F. tauto.
        * apply X. exists a, d. tauto. }
  apply K.
Qed.

(** ** Concrete cases *)
(** 3 needs 1 and 2, which need 0 *)
Definition diamond : graph := mkGraph [0;1;2;3] (fun t => match t with 3 => [1;2] | 2 => [0] | 1 => [0] | _ => [] end).
Fixpoint nodup_b (l : list nat) : bool := match l with [] => true | x :: l' => negb (mem x l') && nodup_b l' end.
Lemma nodup_b_ok l : nodup_b l = true -> NoDup l.
Proof.
  induction l as [|x l IH]; intros H; constructor; cbn in H; apply andb_true_iff in H; destruct H as [A B]; auto.
  apply negb_true_iff in A. now apply mem_false.
Qed.
Definition proper_b (g : graph) : bool :=
  nodup_b (gtasks g) && forallb (fun t => nodup_b (gdeps g t) && forallb (fun d => mem d (gtasks g)) (gdeps g t)) (gtasks g).
Lemma proper_b_ok g : proper_b g = true -> proper g.
Proof.
  unfold proper_b. rewrite andb_true_iff, forallb_forall. intros [A B]. split; [now apply nodup_b_ok|].
  intros t Ht. specialize (B t Ht). rewrite andb_true_iff, forallb_forall in B. destruct B as [B1 B2]. split; [now apply nodup_b_ok|].
  intros d Hd. apply mem_In. auto.
Qed.
Example diamond_proper : proper diamond.
Proof. apply proper_b_ok. reflexivity. Qed.
Example diamond_weights :
  match calculate diamond with Some (p, w) => (p, map w (gtasks diamond)) = ([], [23; 11; 11; 10]%N) | None => False end.
Proof. reflexivity. Qed.
(** 1, 2 and 3 form a loop, 0 is needed by 1, 4 needs 1 *)
Definition looped : graph := mkGraph [0;1;2;3;4] (fun t => match t with 1 => [3;0] | 2 => [1] | 3 => [2] | 4 => [1] | _ => [] end).
Example looped_proper : proper looped.
Proof. apply proper_b_ok. reflexivity. Qed.
Example looped_found :
  match calculate looped with
  | Some (p, _) => p = [0;1;2;3] /\ printed_loops looped p = Some [[1;2;3]]
  | None => False
  end /\ two_loops looped (gtasks looped) = None.
Proof. repeat split. Qed.

Print Assumptions unbuildable_iff_below_loop.
Print Assumptions refused_iff_loop.
Print Assumptions weight_is_sum.
Print Assumptions weight_grows.
Print Assumptions printed_loops_genuine.
Print Assumptions two_loop_found.
Print Assumptions chains_start_first.
Print Assumptions loop_printed_once.

(** ** Further cases that meet the hypotheses *)
Example weight_met : dependents diamond 0 [1; 2] /\ dependents diamond 3 [].
Proof.
  split; (split; [repeat constructor; cbn; intuition discriminate|]); intros r; cbn [gtasks gdeps diamond]; split.
  - intros [<-|[<-|[]]]; cbn; auto.
  - intros [I J]. cbn in I. destruct I as [<-|[<-|[<-|[<-|[]]]]]; cbn in J |- *; intuition (try discriminate; auto).
  - intros [].
  - intros [I J]. cbn in I. destruct I as [<-|[<-|[<-|[<-|[]]]]]; cbn in J |- *; intuition (try discriminate; auto).
Qed.

