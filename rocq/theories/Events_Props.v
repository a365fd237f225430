(** Events: the claims. *)
From Coq Require Import Ascii String List Bool Arith Lia Permutation.
From Verif Require Import Str_Model Str_Proofs Events_Model Events_Spec Events_Proofs.
Import ListNotations.
Open Scope list_scope.

(** ** C122 *)
Lemma firsts_nodup : forall l b, NoDup (map fst (firsts b l)) /\ forall x, In x (map fst (firsts b l)) -> ~ In x b.
Proof.
  induction l as [|[n c] l IH]; intro b; cbn; [split; [constructor|contradiction]|]. destruct (mem_str n b) eqn:M; [apply IH|]. cbn. destruct (IH (n :: b)) as [N D]. split.
  - constructor; [|exact N]. intro X. apply (D n X). left. reflexivity.
  - intros x [<-|X]; [apply mem_str_false, M|]. intro Y. apply (D x X). right. exact Y.
Qed.
Lemma configure_spec : forall masks cfgs, (forall c, In c cfgs -> agree masks (fst c) (snd c)) ->
  clean masks (configure cfgs) /\ full masks (configure cfgs) /\ t_handlers (configure cfgs) = firsts [] (flat_map (fun c => named (fst c) (snd c)) cfgs).
Proof.
  intros masks cfgs A. unfold configure.
  enough (G : forall t pre, clean masks t -> full masks t -> t_handlers t = firsts [] pre ->
    clean masks (fold_left (fun t c => fst (register_all (fst c) (snd c) t [])) cfgs t) /\ full masks (fold_left (fun t c => fst (register_all (fst c) (snd c) t [])) cfgs t) /\
    t_handlers (fold_left (fun t c => fst (register_all (fst c) (snd c) t [])) cfgs t) = firsts [] (pre ++ flat_map (fun c => named (fst c) (snd c)) cfgs)).
  { apply (G no_handlers []); [split; intros; contradiction|intros n []|reflexivity]. }
  induction cfgs as [|[mc hs] cfgs IH]; intros t pre C F H; [cbn; rewrite app_nil_r; auto|]. cbn [fold_left flat_map fst snd].
  destruct (register_all mc hs t []) as [t1 s1] eqn:R. destruct (register_all_spec masks mc hs t [] t1 s1 C F (A (mc, hs) (or_introl eq_refl)) R) as (C1 & F1 & _ & H1).
  rewrite app_assoc. apply IH; auto; [intros c I; apply A; right; exact I|]. cbn [fst]. rewrite H1, firsts_app. rewrite H at 1. f_equal. apply firsts_ext.
  intro x. apply eq_iff_eq_true. rewrite !mem_str_In, app_nil_r, <- in_rev, H. clear. 
  enough (G : forall l b, (In x (map fst (firsts b l)) \/ In x b) <-> (In x (map fst l) \/ In x b)) by (specialize (G pre []); cbn in G; tauto).
  induction l as [|[n c] l IH]; intro b; [reflexivity|]. cbn. destruct (mem_str n b) eqn:M.
  - rewrite IH. apply mem_str_In in M. split; [tauto|]. intros [[<-|H]|H]; auto.
  - cbn. specialize (IH (n :: b)). cbn in IH. tauto.
Qed.
Lemma parse_spec : forall masks rs t cs t', clean masks t -> full masks t -> NoDup (map fst (t_handlers t)) -> (forall r, In r rs -> agree masks (r_mc r) (r_handlers r)) ->
  parse_recipes rs t = (cs, t') -> cs = map (fun r => map (expected masks (t_handlers t) r) (r_events r)) rs /\ t_handlers t' = t_handlers t.
Proof.
  intros masks. induction rs as [|r rs IH]; intros t cs t' C F ND A P; [injection P as <- <-; auto|]. cbn [parse_recipes] in P.
  destruct (finalize (r_mc r) (r_handlers r) (r_seen r) (r_events r) t) as [c t1] eqn:Z. destruct (parse_recipes rs t1) as [cs1 t2] eqn:P1. injection P as <- <-.
  destruct (finalize_spec masks r t c t1 C F ND (A r (or_introl eq_refl)) Z) as (E & C1 & F1 & H1).
  destruct (IH t1 cs1 t2 C1 F1) as (E2 & H2); [rewrite H1; exact ND|intros x X; apply A; right; exact X|exact P1|]. cbn [map]. rewrite E, E2, H2, H1. auto.
Qed.
(** If all handlers compile and a name always comes with the same mask: for an event of
    a recipe, exactly the handlers of its configuration and of the recipe are called
    that are meant for the event, in the order of their definition, the first of each
    name, whatever recipes were parsed before. *)
Theorem handlers_called : forall masks cfgs rs, (forall c, In c cfgs -> agree masks (fst c) (snd c)) -> (forall r, In r rs -> agree masks (r_mc r) (r_handlers r)) ->
  fst (parse_recipes rs (configure cfgs)) = map (fun r => map (expected masks (firsts [] (flat_map (fun c => named (fst c) (snd c)) cfgs)) r) (r_events r)) rs.
Proof.
  intros masks cfgs rs AC AR. destruct (configure_spec masks cfgs AC) as (C & F & H). destruct (parse_recipes rs (configure cfgs)) as [cs t'] eqn:P.
  apply (parse_spec masks) in P; auto; [|rewrite H; apply firsts_nodup]. destruct P as [-> _]. rewrite H. reflexivity.
Qed.
(** Parsing recipes never changes the handlers of the configuration. *)
Theorem handlers_restored : forall rs t, t_handlers (snd (parse_recipes rs t)) = t_handlers t.
Proof.
  induction rs as [|r rs IH]; intro t; [reflexivity|]. cbn [parse_recipes]. destruct (finalize (r_mc r) (r_handlers r) (r_seen r) (r_events r) t) as [c t1] eqn:Z. specialize (IH t1). destruct (parse_recipes rs t1) as [cs t2]. cbn [snd] in *. rewrite IH.
  unfold finalize in Z. destruct (register_all (r_mc r) (r_handlers r) t (r_seen r)) as [t3 s3]. injection Z as <- <-. reflexivity.
Qed.
(** A handler that was removed and registered again is called for the events of its new
    mask only, and once. *)
Theorem removed_forgotten : forall mc name t seen t1 seen1 c mask e, remove mc name t seen = Some (t1, seen1) ->
  ~ In (with_mc mc name) (map fst (called t1 seen1 e)) /\
  forall t2 seen2, register mc name (Some c) mask t1 seen1 = (t2, seen2) ->
    filter (fun h => seqb (with_mc mc name) (fst h)) (called t2 seen2 e) = if meant mask e then [(with_mc mc name, c)] else [].
Proof.
  intros mc name t seen t1 seen1 c mask e R. unfold remove in R. set (n := with_mc mc name) in *. destruct (known n (t_handlers t)); [|discriminate R]. injection R as <- <-.
  set (hs := filter (fun h : str * nat => negb (seqb n (fst h))) (t_handlers t)). set (ca := filter (fun x => negb (seqb n x)) (t_catchall t)). set (mp := filter (fun p : str * str => negb (seqb n (snd p))) (t_map t)). set (sn := filter (fun x => negb (seqb n x)) seen).
  assert (NH : ~ In n (map fst hs)) by (intro I; apply in_map_iff in I; destruct I as (h & E & I); apply filter_In in I; destruct I as [_ I]; rewrite E, seqb_refl in I; discriminate I).
  assert (NC : ~ In n ca) by (intro I; apply filter_In in I; destruct I as [_ I]; rewrite seqb_refl in I; discriminate I).
  assert (NM : forall m, ~ In (m, n) mp) by (intros m I; apply filter_In in I; destruct I as [_ I]; cbn in I; rewrite seqb_refl in I; discriminate I).
  split.
  - intro I. apply NH. apply in_map_iff in I. destruct I as (h & E & I). unfold called in I. cbn [t_handlers] in I. apply filter_In in I. rewrite <- E. apply List.in_map, I.
  - intros t2 seen2 R. unfold register in R. fold n in R. cbn [t_handlers t_catchall t_map] in R.
    assert (K : known n hs = false) by (apply not_true_iff_false; rewrite known_iff; exact NH). rewrite K in R. fold (any mask) in R.
    assert (FN : forall p : str * nat -> bool, filter (fun h => seqb n (fst h)) (filter p (hs ++ [(n, c)])) = if p (n, c) then [(n, c)] else []).
    { intro p. rewrite filter_app, filter_app. assert (Z : filter (fun h : str * nat => seqb n (fst h)) (filter p hs) = []).
      { clear -NH. induction hs as [|[x y] l IH]; [reflexivity|]. cbn [map fst] in NH. assert (NH' : ~ In n (map fst l)) by (intro I; apply NH; right; exact I). cbn [filter]. destruct (p (x, y)); [|auto]. cbn [filter fst]. assert (S : seqb n x = false) by (apply seqb_neq; intros ->; apply NH; left; reflexivity). rewrite S. auto. }
      rewrite Z. cbn [app filter]. destruct (p (n, c)); [cbn; rewrite seqb_refl|]; reflexivity. }
    rewrite meant_any. destruct (any mask) eqn:A; injection R as <- <-; unfold called; cbn [t_handlers t_catchall t_map]; rewrite FN; cbn [fst]; rewrite !mem_add, seqb_refl; cbn [orb andb]; [reflexivity|].
    assert (C0 : mem_str n ca = false) by (apply mem_str_false, NC). rewrite C0, andb_true_r. cbn [orb].
    assert (IM : in_map e n (fold_left (fun l m => add_map n m l) mask mp) = mem_str e mask).
    { apply eq_iff_eq_true. rewrite in_map_In, fold_add_In, mem_str_In. cbn. split; [intros [[_ H]|H]; [exact H|exfalso; exact (NM _ H)]|auto]. }
    rewrite IM. reflexivity.
Qed.
(** Where it was removed it is not called, whatever other configurations register. *)
Theorem removed_elsewhere : forall mc name t seen t1 seen1 t2 e, remove mc name t seen = Some (t1, seen1) -> ~ In (with_mc mc name) (map fst (called t2 seen1 e)).
Proof.
  intros mc name t seen t1 seen1 t2 e R I. unfold remove in R. destruct (known (with_mc mc name) (t_handlers t)); [|discriminate R]. injection R as <- <-. apply in_map_iff in I. destruct I as (h & E & I).
  apply filter_In in I. destruct I as [_ I]. apply andb_true_iff in I. destruct I as [_ I]. rewrite E in I. apply mem_str_In in I. apply filter_In in I. destruct I as [_ I]. rewrite seqb_refl in I. discriminate I.
Qed.
Definition h1 : handler := mkHandler (s_ "h") (Some 1) [s_ "bb.event.RecipeParsed"].
Definition h2 : handler := mkHandler (s_ "h") (Some 2) [s_ "bb.event.RecipeTaskPreProcess"].
Definition base_h : handler := mkHandler (s_ "base_eventhandler") (Some 7) [].
(** Two recipes define a handler of one name with different masks: if the second is
    parsed after the first in the same process, its handler is also called for the
    events of the first. *)
Theorem mask_order_refuted : exists r1 r2 e, r_events r2 = [e] /\ fst (parse_recipes [r2] (configure [])) = [[[]]] /\
  fst (parse_recipes [r1; r2] (configure [])) = [[]; [[(s_ "h", 2)]]].
Proof. exists (mkRecipe [] [] [h1] []), (mkRecipe [] [] [h2] [s_ "bb.event.RecipeParsed"]), (s_ "bb.event.RecipeParsed"). vm_compute. auto. Qed.
(** The name of the configuration is put before the name of the handler without a
    separator: the handler of one configuration can be called in place of a handler of
    another one. *)
Theorem mc_names_refuted : exists mc h mc' h', mc <> mc' /\ h_code h <> h_code h' /\
  called (configure [(mc, [h]); (mc', [h'])]) (snd (register_all mc' [h'] (configure [(mc, [h])]) [])) (s_ "x") = [(full_name mc h, 1)] /\ h_code h = Some 1.
Proof. exists (s_ "qemu"), (mkHandler (s_ "arm_check") (Some 1) []), (s_ "qemuarm"), (mkHandler (s_ "_check") (Some 2) []). repeat split; try discriminate. Qed.

Definition demo_masks (n : str) : list str := if seqb n (s_ "h") then [s_ "bb.event.RecipeParsed"] else if seqb n (s_ "g") then [s_ "bb.event.X"; s_ "bb.event.RecipeParsed"] else [].
Definition demo_g : handler := mkHandler (s_ "g") (Some 3) [s_ "bb.event.X"; s_ "bb.event.RecipeParsed"].
Definition demo_recipes : list recipe := [mkRecipe [] [s_ "base_eventhandler"] [h1; demo_g] [s_ "bb.event.X"]; mkRecipe [] [s_ "base_eventhandler"] [h1; demo_g; h1] [s_ "bb.event.RecipeParsed"; s_ "bb.event.Y"]].
Example demo_agree : (forall c, In c [([] : str, [base_h])] -> agree demo_masks (fst c) (snd c)) /\ (forall r, In r demo_recipes -> agree demo_masks (r_mc r) (r_handlers r)).
Proof.
  assert (A : forall h, In h [base_h; h1; demo_g] -> h_code h <> None /\ h_mask h = demo_masks (full_name [] h)) by (intros h I; repeat (destruct I as [<-|I]; [split; [discriminate|vm_compute; reflexivity]|]); contradiction).
  split.
  - intros c [<-|[]] h I. apply A. cbn in *. tauto.
  - intros r I h H. destruct I as [<-|[<-|[]]]; apply A; cbn in *; tauto.
Qed.
Example demo_called : fst (parse_recipes demo_recipes (configure [([], [base_h])])) =
  [[[(s_ "base_eventhandler", 7); (s_ "g", 3)]]; [[(s_ "base_eventhandler", 7); (s_ "h", 1); (s_ "g", 3)]; [(s_ "base_eventhandler", 7)]]].
Proof. vm_compute. reflexivity. Qed.
Example demo_remove : exists t s, remove [] (s_ "base_eventhandler") (configure [([], [base_h])]) [] = Some (t, s).
Proof. do 2 eexists. vm_compute. reflexivity. Qed.

(** ** C123 *)
Section Ui.
  Variable E : Type.
  Variable fails : nat -> E -> bool.
  (** The main interface gets every event it has not filtered out, once and in the order
      in which they were fired, those from before it connected first, as long as it
      does not fail and the first event after it connected comes from the server. *)
  Theorem ui_in_order : forall pre f post, waiting pre -> (forall e, fails (S (connects pre)) e = false) -> stays (S (connects pre)) post -> server_first post ->
    sent_to (S (connects pre)) (run fails ui0 (pre ++ Connect true f :: post)) = filter f (fired pre ++ fired post).
  Proof.
    intros pre f post W NF ST SF. destruct (waiting_queue E fails pre ui0 eq_refl W) as (R & Q & S & N). cbn in Q, S, N.
    pose proof (run_ids E fails pre ui0 (ids0 E)) as I. unfold run. rewrite fold_left_app. cbn [fold_left]. fold (run fails ui0 pre). set (u := run fails ui0 pre) in *.
    change (fold_left (step fails) post (step fails u (Connect true f))) with (run fails (step fails u (Connect true f)) post).
    destruct (run_there E fails (Datatypes.S (connects pre)) f NF post (step fails u (Connect true f)) ST) as [A _].
    - apply step_ids, I.
    - split; [|reflexivity]. cbn. apply in_or_app. right. left. rewrite N. reflexivity.
    - rewrite A. assert (Z : sent_to (Datatypes.S (connects pre)) (step fails u (Connect true f)) = []) by (apply (sent_new E u _ I); lia).
      rewrite Z. cbn [app]. cbn [step u_queue]. rewrite Q, arrives_first by exact SF. reflexivity.
  Qed.
  (** Whoever fires first: no event is lost, and none is sent twice; what has not been
      sent is still waiting. *)
  Theorem ui_all_once : forall pre f post, waiting pre -> (forall e, fails (S (connects pre)) e = false) -> stays (S (connects pre)) post ->
    let u := run fails ui0 (pre ++ Connect true f :: post) in
    Permutation (sent_to (S (connects pre)) u ++ filter f (u_queue u)) (filter f (fired pre ++ fired post)).
  Proof.
    intros pre f post W NF ST u0. subst u0. destruct (waiting_queue E fails pre ui0 eq_refl W) as (R & Q & S & N). cbn in Q, S, N.
    pose proof (run_ids E fails pre ui0 (ids0 E)) as I. unfold run. rewrite fold_left_app. cbn [fold_left]. fold (run fails ui0 pre). set (u := run fails ui0 pre) in *.
    change (fold_left (step fails) post (step fails u (Connect true f))) with (run fails (step fails u (Connect true f)) post).
    destruct (run_there E fails (Datatypes.S (connects pre)) f NF post (step fails u (Connect true f)) ST) as [A B].
    - apply step_ids, I.
    - split; [|reflexivity]. cbn. apply in_or_app. right. left. rewrite N. reflexivity.
    - rewrite A, B. assert (Z : sent_to (Datatypes.S (connects pre)) (step fails u (Connect true f)) = []) by (apply (sent_new E u _ I); lia).
      rewrite Z. cbn [app]. cbn [step u_queue]. rewrite Q, <- filter_app.
      assert (PF : forall l l', Permutation l l' -> Permutation (filter f l) (filter f l')).
      { induction 1; cbn; auto; [destruct (f x); auto|destruct (f x), (f y); auto; constructor|etransitivity; eauto]. }
      apply PF, arrives_perm.
  Qed.
  (** A further interface gets the events fired after it connected. *)
  Theorem further_ui : forall os f post, let u := run fails ui0 os in u_ready u = true -> u_queue u = [] -> (forall e, fails (S (u_seq u)) e = false) -> stays (S (u_seq u)) post ->
    sent_to (S (u_seq u)) (run fails (step fails u (Connect false f)) post) = filter f (fired post).
  Proof.
    intros os f post u R Q NF ST. assert (I : ids_ok E u) by (apply run_ids, ids0). destruct (run_there E fails (S (u_seq u)) f NF post (step fails u (Connect false f)) ST) as [A _].
    - apply step_ids, I.
    - split; [|exact R]. cbn. apply in_or_app. right. left. reflexivity.
    - rewrite A. assert (Z : sent_to (S (u_seq u)) (step fails u (Connect false f)) = []) by (apply (sent_new E u _ I); lia). rewrite Z. cbn [app step u_queue]. rewrite Q, arrives_nil. reflexivity.
  Qed.
  (** Before the main interface connects nothing is sent and nothing lost. *)
  Theorem nothing_before : forall pre, waiting pre -> u_sent (run fails ui0 pre) = [] /\ u_queue (run fails ui0 pre) = fired pre.
  Proof. intros pre W. destruct (waiting_queue E fails pre ui0 eq_refl W) as (_ & Q & S & _). auto. Qed.
End Ui.
(** An event of a task can overtake the events that wait for the interface. *)
Theorem worker_first_refuted : exists pre post : list (op nat), waiting pre /\ stays 1 post /\
  sent_to 1 (run (fun _ _ => false) ui0 (pre ++ Connect true (fun _ => true) :: post)) = [3; 1; 2; 4] /\ fired pre ++ fired post = [1; 2; 3; 4].
Proof. exists [Fire 1; Fire 2], [FireWorker 3; Fire 4]. split; [intros f [H|[H|[]]]; discriminate H|]. split; [intros g m [H|[H|[]]]; discriminate H|]. split; reflexivity. Qed.
(** When sending to the main interface fails, the server goes on without it: the events
    up to the connection of the next interface are neither sent nor kept. *)
Theorem failed_ui_refuted : exists os : list (op nat), forall f, let u := run (fun h e => Nat.eqb h 1 && Nat.eqb e 2) ui0 (os ++ [Connect true f; Fire 4]) in
  In 3 (fired os) /\ ~ In 3 (map snd (u_sent u)) /\ ~ In 3 (u_queue u).
Proof.
  exists [Connect true (fun _ => true); Fire 1; Fire 2; Fire 3]. intro f. cbn. split; [auto|]. destruct (f 4); cbn; intuition discriminate.
Qed.
Example demo_ui : let pre := [Fire 1; Connect false (fun _ => true); FireWorker 2] in let post := [Disconnect 1 false; Fire 3; FireWorker 4] in
  waiting pre /\ connects pre = 1 /\ stays 2 post /\ server_first post /\ sent_to 2 (run (fun _ _ => false) ui0 (pre ++ Connect true Nat.even :: post)) = [2; 4].
Proof.
  split; [intros f [H|[H|[H|[]]]]; discriminate H|]. split; [reflexivity|]. split; [intros g m [H|[H|[H|[]]]]; try discriminate H; injection H as <- <-; auto|].
  split; [exists [Disconnect 1 false], 3, [FireWorker 4]; auto|reflexivity].
Qed.
Example demo_further : let u := run (fun _ _ => false) ui0 [Connect true (fun _ : nat => true); Fire 5] in u_ready u = true /\ u_queue u = [] /\ u_seq u = 1 /\ stays 2 [Fire 8; Disconnect 1 false].
Proof. repeat split; intros; destruct H as [H|[H|[]]]; try discriminate H; injection H as <- <-; auto. Qed.
Print Assumptions handlers_called. Print Assumptions handlers_restored. Print Assumptions removed_forgotten. Print Assumptions mask_order_refuted. Print Assumptions mc_names_refuted.
Print Assumptions ui_in_order. Print Assumptions ui_all_once. Print Assumptions further_ui. Print Assumptions nothing_before. Print Assumptions worker_first_refuted. Print Assumptions failed_ui_refuted.
Print Assumptions removed_elsewhere.
