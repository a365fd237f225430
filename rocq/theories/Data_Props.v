(** C36, C37, C39: overrides, operations and expansion in the datastore. *)
From Coq Require Import Ascii String List Bool Arith Lia Permutation.
From Verif Require Import Str_Model Str_Proofs Data_Model Data_Spec Data_Proofs.
Import ListNotations.
Open Scope list_scope.

(** ** C36 *)

(** The value is the one set for the override of highest priority (with the
    appends and prepends of the variable itself around it). *)
Theorem override_selected : forall ov h a depth rounds r o,
  Forall well_formed h -> single_overrides ov h a ->
  selected ov (variant h a) o ->
  get_raw depth rounds (parse ov h) ov a = Ok r ->
  r = around (prepends ov h a) (appends ov h a)
        (match text ov h (a ++ s_ ":" ++ o) with Some v => Some v | None => assigned h a end).
Proof. intros ov h a depth rounds r o W S Sel G. exact (history_selected ov h a W S depth rounds r o G Sel). Qed.

(** Without an applicable override it is the unconditional value. *)
Theorem no_override_plain : forall ov h a depth rounds,
  Forall well_formed h -> single_overrides ov h a ->
  (forall o, In o ov -> ~ variant h a o) ->
  get_raw depth rounds (parse ov h) ov a = Ok (text ov h a).
Proof. intros. now apply history_plain. Qed.

(** One of the two cases applies, and the selected override is unique. *)
Theorem selection_exists : forall ov (has : str -> bool),
  (exists o, selected ov (fun o => has o = true) o) \/ (forall o, In o ov -> has o = false).
Proof. exact selected_or. Qed.
Lemma first_unique {A} (o o' : A) : forall b b' t t', b ++ o :: t = b' ++ o' :: t' -> ~ In o b -> ~ In o' b' ->
  (o = o' \/ In o' t /\ ~ In o' b /\ In o b' \/ In o t' /\ ~ In o b' /\ In o' b).
Proof.
  induction b as [|x b IH]; intros [|y b'] t t' E N N'; cbn in E; injection E as E1 E2; subst; auto.
  - right. left. split; [apply in_or_app; right; now left|]. split; [intros []|now left].
  - right. right. split; [apply in_or_app; right; now left|]. split; [intros []|now left].
  - destruct (IH b' t t' E2) as [H|[(H1 & H2 & H3)|(H1 & H2 & H3)]]; auto.
    + intros I; apply N; now right.
    + intros I; apply N'; now right.
    + right. left. split; auto. split; [|now right]. intros [->|I]; auto. apply N'. now left.
    + right. right. split; auto. split; [|now right]. intros [->|I]; auto. apply N. now left.
Qed.
Theorem selection_unique : forall ov has o o', selected ov has o -> selected ov has o' -> o = o'.
Proof.
  intros ov has o o' (b & t & E & H & N & L) (b' & t' & E' & H' & N' & L').
  rewrite E in E'. destruct (first_unique o o' b b' t t' E' N N') as [X|[(H1 & H2 & _)|(H1 & H2 & _)]]; auto.
  - destruct (L o' H1 H') as [X|X]; [contradiction|auto].
  - destruct (L' o H1 H) as [X|X]; [contradiction|auto].
Qed.

(** The order of the lines for different names does not matter. *)
Theorem order_independent : forall ov h h' a d d' n n' r r',
  Forall well_formed h -> Forall well_formed h' -> single_overrides ov h a ->
  (forall m, filter (fun c => seqb (name_of c) m) h = filter (fun c => seqb (name_of c) m) h') ->
  get_raw d n (parse ov h) ov a = Ok r -> get_raw d' n' (parse ov h') ov a = Ok r' -> r = r'.
Proof.
  intros ov h h' a d d' n n' r r' W W' S F G G'.
  assert (IN : forall c, In c h <-> In c h').
  { intros c. assert (X : forall l, In c l <-> In c (filter (fun c0 => seqb (name_of c0) (name_of c)) l)) by (intros l; rewrite filter_In, seqb_refl; tauto).
    now rewrite (X h), (X h'), F. }
  assert (M : forall m, mentioned h m <-> mentioned h' m) by (intros m; split; intros (c & I & E); exists c; split; auto; now apply IN).
  assert (S' : single_overrides ov h' a).
  { destruct S as [S1 S2]. split; [intros o Mo; apply S1; now apply M|intros c I; apply S2; now apply IN]. }
  assert (FM : forall (f : call -> list str) m l, (forall c, name_of c <> m -> f c = []) -> flat_map f l = flat_map f (filter (fun c => seqb (name_of c) m) l)).
  { intros f m l Hf. induction l as [|c l IH]; auto. cbn [flat_map filter]. destruct (seqb (name_of c) m) eqn:Q; cbn [flat_map]; rewrite IH; auto. rewrite (Hf c) by now apply seqb_neq. reflexivity. }
  assert (E1 : forall m, sets h m = sets h' m) by (intros m; unfold sets; rewrite (FM _ m h), (FM _ m h'), F; auto; intros [] N; auto; cbn in N; apply seqb_neq in N; now rewrite N).
  assert (E2 : forall m, defaults h m = defaults h' m) by (intros m; unfold defaults; rewrite (FM _ m h), (FM _ m h'), F; auto; intros [] N; auto; cbn in N; apply seqb_neq in N; now rewrite N).
  assert (E3 : forall m, appends ov h m = appends ov h' m) by (intros m; unfold appends; rewrite (FM _ m h), (FM _ m h'), F; auto; intros [] N; auto; cbn in N; apply seqb_neq in N; now rewrite N).
  assert (E4 : forall m, prepends ov h m = prepends ov h' m) by (intros m; unfold prepends; rewrite (FM _ m h), (FM _ m h'), F; auto; intros [] N; auto; cbn in N; apply seqb_neq in N; now rewrite N).
  assert (TX : forall m, text ov h m = text ov h' m) by (intros m; unfold text, assigned; now rewrite E1, E2, E3, E4).
  assert (AS : forall m, assigned h m = assigned h' m) by (intros m; unfold assigned; now rewrite E1, E2).
  assert (VE : forall o, variant h a o <-> variant h' a o) by (intros o; unfold variant; now rewrite M).
  assert (DV : forall o, {variant h a o} + {~ variant h a o}).
  { intros o. unfold variant. destruct (in_dec str_eq_dec (a ++ s_ ":" ++ o) (map name_of h)) as [I|NI].
    - destruct (usable o) eqn:U.
      + destruct (in_dec ascii_dec colon o) as [Ic|Nc]; [right; intros [[_ X] _]; auto|]. left. split; [now apply usable_name|]. apply in_map_iff in I. destruct I as (c & E & I). exists c. auto.
      + right. intros [[X _] _]. destruct o; [auto|]. apply orb_true_iff in X. cbn in U. congruence.
    - right. intros [_ (c & I & E)]. apply NI. rewrite <- E. now apply in_map. }
  destruct (selected_or ov (fun o => if DV o then true else false)) as [[o So]|No].
  - assert (Sh : selected ov (variant h a) o) by (revert So; apply selected_ext; intros x _; destruct (DV x); split; auto; discriminate).
    assert (Sh' : selected ov (variant h' a) o) by (revert Sh; apply selected_ext; intros x _; apply VE).
    rewrite (override_selected _ _ _ _ _ _ _ W S Sh G), (override_selected _ _ _ _ _ _ _ W' S' Sh' G'). now rewrite E3, E4, TX, AS.
  - assert (Nh : forall o, In o ov -> ~ variant h a o) by (intros o I V; specialize (No o I); destruct (DV o); auto; discriminate).
    rewrite no_override_plain in G by auto. rewrite no_override_plain in G'; auto; [|intros o I V; apply (Nh o I); now apply VE]. rewrite TX in G. congruence.
Qed.

(** At run time setVar makes the value exactly the given one, whatever
    overrides and operations there were, and changes no variable that is not an
    active variant of the name. *)
Theorem run_time_set_wins : forall ov ov' st a v depth rounds,
  plain a -> get_raw depth rounds (set_var false ov st a v) ov' a = Ok (Some v).
Proof. intros. now apply set_var_value. Qed.
Theorem run_time_set_frame : forall ov st a v m,
  plain a -> m <> a -> (forall l o, get (s_over st) a = Some l -> In (m, o) l -> ~ Forall (fun p => In p ov) (split_on ":"%char o)) ->
  find_var (set_var false ov st a v) m = find_var st m.
Proof.
  intros ov st a v m P N H. destruct (set_var_run ov st a v P) as (st0 & od & -> & _ & _ & F). rewrite find_change. apply seqb_neq in N as N'. rewrite N'.
  unfold find_var at 1. cbn [over s_own s_behind]. fold (find_var st0 m). rewrite F by auto. destruct (existsb _ _) eqn:E; auto. exfalso.
  apply existsb_exists in E. destruct E as ([r o] & I & E). cbn [fst snd] in E. apply andb_true_iff in E. destruct E as [Ho Q]. apply seqb_eq in Q. subst r.
  unfold regs in I. destruct (get (s_over st) a) as [l|] eqn:G; [|contradiction]. apply (H l o eq_refl I). apply Forall_forall. intros p Ip.
  unfold holds in Ho. rewrite forallb_forall in Ho. apply mem_str_In. now apply Ho.
Qed.

(** The overrides in use are those that OVERRIDES has under these overrides. *)
Theorem overrides_stable : forall depth rounds st ov,
  need_overrides depth rounds st = Ok (Some ov) ->
  exists v, get_var depth rounds st ov (s_ "OVERRIDES") = Ok v /\ ov = split_on ":"%char (match v with Some t => t | None => [] end).
Proof.
  intros depth rounds st ov H. unfold need_overrides in H. destruct (eval_overrides depth rounds st []) as [o1| |]; cbn [bind] in H; try discriminate.
  revert o1 H. generalize 5. induction n as [|n IH]; intros o1 H; cbn [stabilise] in H; [discriminate|].
  destruct (eval_overrides depth rounds st o1) as [o2| |] eqn:E; cbn [bind] in H; try discriminate.
  destruct (list_eq_dec (list_eq_dec ascii_dec) o2 o1) as [Q|Q]; [|eapply IH; eauto].
  injection H as <-. subst o2. unfold eval_overrides in E. destruct (get_var depth rounds st o1 (s_ "OVERRIDES")) as [v| |]; cbn [bind] in E; try discriminate.
  injection E as E. exists v. split; auto.
Qed.

(** ** C37 *)

(** Operations without override variants: prepends (the last one first), the
    assigned text, appends in order. *)
Theorem operations_in_order : forall ov h a depth rounds v,
  Forall well_formed h -> single_overrides ov h a ->
  (forall o, In o ov -> ~ variant h a o) -> assigned h a = Some v ->
  get_raw depth rounds (parse ov h) ov a = Ok (Some (concat (rev (prepends ov h a)) ++ v ++ concat (appends ov h a))).
Proof.
  intros ov h a depth rounds v W S N E. rewrite no_override_plain by auto. unfold text. rewrite E. unfold around.
  destruct (prepends ov h a), (appends ov h a); reflexivity.
Qed.

(** Removals act on the finished, expanded value: exactly the words of the
    removals in effect disappear, all their occurrences, and all white space stays. *)
Theorem removals_exact : forall ov h a depth rounds x,
  Forall well_formed h -> single_overrides ov h a ->
  (forall o, In o ov -> ~ variant h a o) ->
  get_var (S depth) rounds (parse ov h) ov a = Ok (Some x) ->
  exists v e R, text ov h a = Some v /\
    expand rounds (get_var depth rounds (parse ov h) ov) (Some a) v = Ok e /\
    split_ws x = filter (fun w => negb (mem_str w R)) (split_ws e) /\
    filter is_space x = filter is_space e /\
    (e <> [] -> forall w, In w R <->
       exists r t, In r (removals ov h a) /\ expand rounds (get_var depth rounds (parse ov h) ov) None r = Ok t /\ In w (split_ws t)).
Proof.
  intros ov h a depth rounds x W S N G. apply get_var_finish in G. destruct G as (v & rm & e & B & E & R & H1 & H2 & H3).
  assert (BE : before_expansion (get_val depth rounds (parse ov h) ov false) (parse ov h) ov a = Ok (text ov h a, [])).
  { rewrite before_none; [now rewrite parse_own, parse_add|]. pose proof (select_a_none ov h a W S N) as E0. unfold regs in E0. destruct (get (s_over (parse ov h)) a); auto. }
  rewrite BE in B. injection B as B1 B2. subst rm. exists v, e, R. repeat (split; [assumption|]). intros NE w. rewrite (H3 NE w). cbn [app].
  destruct (parse_entry ov h W a) as (_ & _ & HO). specialize (HO KRemove). cbn [e_op] in HO. rewrite HO, conds_flat.
  assert (EQ : flat_map (fun c => match kw_of c with Some (k', m, o, v0) => if match k' with KRemove => seqb m a | _ => false end && met ov o then [v0] else [] | None => [] end) h = removals ov h a)
    by (unfold removals; apply flat_map_ext; intros []; reflexivity).
  rewrite EQ. reflexivity.
Qed.
(** The same in a store of any history: what is removed are the words of the
    variable's own removals and of those carried over from the selected variant. *)
Theorem removals_exact_any_store : forall st ov a depth rounds x,
  get_var (S depth) rounds st ov a = Ok (Some x) ->
  exists v rm e R, before_expansion (get_val depth rounds st ov false) st ov a = Ok (Some v, rm) /\
    expand rounds (get_var depth rounds st ov) (Some a) v = Ok e /\
    split_ws x = filter (fun w => negb (mem_str w R)) (split_ws e) /\
    filter is_space x = filter is_space e /\
    (e <> [] -> forall w, In w R -> exists r t, In r (rm ++ conds ov (e_remove (entry_of st a))) /\
       expand rounds (get_var depth rounds st ov) None r = Ok t /\ In w (split_ws t)).
Proof.
  intros st ov a depth rounds x G. apply get_var_finish in G. destruct G as (v & rm & e & B & E & R & H1 & H2 & H3).
  exists v, rm, e, R. repeat (split; [assumption|]). intros NE w I. now apply (H3 NE w).
Qed.

(** ** C39 *)

(** Whatever getVar returns is the full expansion, at every recursion depth. *)
Theorem expansion_sound : forall ov h depth rounds k x,
  plain_files h -> (forall j v, text ov h j = Some v -> exists p, tidy v p) ->
  get_var depth rounds (parse ov h) ov k = Ok (Some x) ->
  exists v p, text ov h k = Some v /\ tidy v p /\ expands (text ov h) p x.
Proof. intros ov h depth rounds k x P T. now apply get_sound. Qed.
(** Without a circular reference there is an expansion, and getVar returns it. *)
Theorem expansion_complete : forall ov h rounds k v p,
  plain_files h -> (forall j v, text ov h j = Some v -> exists p, tidy v p) -> 2 <= rounds ->
  text ov h k = Some v -> tidy v p -> (forall j, needs (text ov h) k j -> ~ circular (text ov h) j) ->
  exists x D, expands (text ov h) p x /\ forall depth, D <= depth -> get_var depth rounds (parse ov h) ov k = Ok (Some x).
Proof.
  intros ov h rounds k v p P T L E Tv NC. destruct rounds as [|[|n]]; try lia.
  destruct (acc_expands ov h T k (acyclic_acc ov h k NC) v p E Tv) as [x X].
  destruct (get_complete ov h P n k v p x E Tv X) as [D H]. exists x, D. auto.
Qed.
(** A variable that reaches a circular one is reported, at every depth. *)
Theorem circular_reported : forall ov h rounds k j depth,
  plain_files h -> (forall j v, text ov h j = Some v -> exists p, tidy v p) -> 2 <= rounds ->
  needs (text ov h) k j -> circular (text ov h) j ->
  get_var depth rounds (parse ov h) ov k = Err.
Proof. intros ov h rounds k j depth P T L N C. destruct rounds as [|[|n]]; try lia. now apply (circular_err ov h P T n k j). Qed.
(** Two rounds of the loop always suffice. *)
Theorem expansion_ends : forall ov h rounds k depth,
  plain_files h -> (forall j v, text ov h j = Some v -> exists p, tidy v p) -> 2 <= rounds ->
  get_var depth rounds (parse ov h) ov k <> Loops.
Proof. intros ov h rounds k depth P T L. destruct rounds as [|[|n]]; try lia. now apply get_noloop. Qed.

(** ** Concrete cases *)
Definition demo : list call :=
  [Set_ (s_ "SRC:arm") (s_ "b"); Append (s_ "SRC") None (s_ " z"); Set_ (s_ "SRC") (s_ "a"); Prepend (s_ "SRC") (Some (s_ "arm")) (s_ "p ");
   Set_ (s_ "SRC:qemu") (s_ "c"); Remove (s_ "SRC") None (s_ "z ${W}"); Default (s_ "W") (s_ "c")].
Definition demo_ov : list str := [s_ "arm"; s_ "qemu"; s_ "other"].
Lemma plain_dec n : contains_sub (s_ ":append") n = false -> contains_sub (s_ ":prepend") n = false -> contains_sub (s_ ":remove") n = false -> plain n.
Proof.
  intros A B C a b. repeat split; intros ->.
  - assert (X : contains_sub (s_ ":append") (a ++ s_ ":append" ++ b) = true) by (apply contains_sub_iff; eauto). congruence.
  - assert (X : contains_sub (s_ ":prepend") (a ++ s_ ":prepend" ++ b) = true) by (apply contains_sub_iff; eauto). congruence.
  - assert (X : contains_sub (s_ ":remove") (a ++ s_ ":remove" ++ b) = true) by (apply contains_sub_iff; eauto). congruence.
Qed.
Example demo_wf : Forall well_formed demo.
Proof. unfold demo. repeat constructor; try (apply plain_dec; reflexivity). Qed.
Example demo_single : single_overrides demo_ov demo (s_ "SRC").
Proof.
  split.
  - intros o (c & I & E). unfold demo in I. cbn [In] in I. repeat (destruct I as [<-|I]; [cbn in E; try discriminate; injection E as E; subst o; cbn; intuition discriminate|]). contradiction.
  - intros c I _ J. unfold demo, demo_ov in *. cbn [In] in I, J. repeat (destruct I as [<-|I]; [cbn [name_of] in J; repeat (destruct J as [J|J]; [discriminate|]); contradiction|]). contradiction.
Qed.
Example demo_selected : selected demo_ov (variant demo (s_ "SRC")) (s_ "qemu").
Proof.
  exists [s_ "arm"], [s_ "other"]. split; [reflexivity|]. split.
  - split; [split; [left; reflexivity|cbn; intuition discriminate]|]. exists (Set_ (s_ "SRC:qemu") (s_ "c")). split; [cbn; tauto|reflexivity].
  - split; [intros [X|[]]; discriminate|]. intros o' [<-|[]] [_ (c & I & E)]. exfalso. unfold demo in I. cbn [In] in I. repeat (destruct I as [<-|I]; [discriminate|]). contradiction.
Qed.
Example demo_value : get_raw 5 5 (parse demo_ov demo) demo_ov (s_ "SRC") = Ok (Some (s_ "p c z")) /\
                     get_var 5 5 (parse demo_ov demo) demo_ov (s_ "SRC") = Ok (Some (s_ "p  ")).
Proof. split; vm_compute; reflexivity. Qed.
Example demo_plain : get_raw 5 5 (parse [s_ "other"] demo) [s_ "other"] (s_ "SRC") = Ok (Some (s_ "a z")) /\
                     get_var 5 5 (parse [s_ "other"] demo) [s_ "other"] (s_ "SRC") = Ok (Some (s_ "a ")).
Proof. split; vm_compute; reflexivity. Qed.
Example overrides_stable_case :
  need_overrides 9 9 (parse [] [Set_ (s_ "OVERRIDES") (s_ "arm:${X}"); Set_ (s_ "X") (s_ "a"); Set_ (s_ "X:arm") (s_ "b")]) = Ok (Some [s_ "arm"; s_ "b"]).
Proof. vm_compute. reflexivity. Qed.

(** Variables A, B using each other and C using a set and an unset one. *)
Definition refs_demo : list call :=
  [Set_ (s_ "A") (s_ "x${B}"); Set_ (s_ "B") (s_ "${C}${A}"); Set_ (s_ "C") (s_ "<${D}|${U}>"); Append (s_ "D") None (s_ "d")].
Definition refs_value := text [] refs_demo.
Lemma refs_values k v : refs_value k = Some v ->
  (k = s_ "A" /\ v = s_ "x${B}") \/ (k = s_ "B" /\ v = s_ "${C}${A}") \/ (k = s_ "C" /\ v = s_ "<${D}|${U}>") \/ (k = s_ "D" /\ v = s_ "d").
Proof.
  unfold refs_value, text, assigned, sets, defaults, appends, prepends, refs_demo. cbn [flat_map app met].
  destruct (seqb (s_ "A") k) eqn:QA; [apply seqb_eq in QA; subst k; vm_compute; intros X; injection X as <-; auto|].
  destruct (seqb (s_ "B") k) eqn:QB; [apply seqb_eq in QB; subst k; vm_compute; intros X; injection X as <-; auto|].
  destruct (seqb (s_ "C") k) eqn:QC; [apply seqb_eq in QC; subst k; vm_compute; intros X; injection X as <-; auto|].
  destruct (seqb (s_ "D") k) eqn:QD; [apply seqb_eq in QD; subst k; vm_compute; intros X; injection X as <-; auto 6|].
  cbn. discriminate.
Qed.
Definition pA := [Char "x"%char; Reference (s_ "B")].
Definition pB := [Reference (s_ "C"); Reference (s_ "A")].
Definition pC := [Char "<"%char; Reference (s_ "D"); Char "|"%char; Reference (s_ "U"); Char ">"%char].
Lemma refs_tidy : tidy (s_ "x${B}") pA /\ tidy (s_ "${C}${A}") pB /\ tidy (s_ "<${D}|${U}>") pC /\ tidy (s_ "d") [Char "d"%char].
Proof. repeat split; try (repeat constructor; try discriminate; left; reflexivity). Qed.
Lemma refs_all_tidy j v : refs_value j = Some v -> exists p, tidy v p.
Proof. destruct refs_tidy as (TA & TB & TC & TD). intros H. apply refs_values in H. destruct H as [[_ ->]|[[_ ->]|[[_ ->]|[_ ->]]]]; eauto. Qed.
Example refs_plain : plain_files refs_demo.
Proof.
  unfold plain_files, refs_demo. repeat constructor; try (apply plain_dec; reflexivity); cbn; intuition discriminate.
Qed.
Example refs_circular : circular refs_value (s_ "A") /\ forall depth rounds, 2 <= rounds -> get_var depth rounds (parse [] refs_demo) [] (s_ "B") = Err.
Proof.
  destruct refs_tidy as (TA & TB & _). assert (UA : uses refs_value (s_ "B") (s_ "A")) by (exists (s_ "x${B}"), pA; split; [reflexivity|split; [exact TA|right; now left]]).
  assert (UB : uses refs_value (s_ "A") (s_ "B")) by (exists (s_ "${C}${A}"), pB; split; [reflexivity|split; [exact TB|right; now left]]).
  assert (C : circular refs_value (s_ "A")) by (exists (s_ "B"); split; auto; eapply n_more; [apply n_self|exact UB]).
  split; auto. intros depth rounds L. apply (circular_reported [] refs_demo rounds (s_ "B") (s_ "A")); auto; [exact refs_plain|exact refs_all_tidy|]. eapply n_more; [apply n_self|exact UB].
Qed.
Example refs_acyclic : forall j, needs refs_value (s_ "C") j -> ~ circular refs_value j.
Proof.
  assert (U : forall j, uses refs_value j (s_ "C") -> refs_value j = None \/ j = s_ "D").
  { intros j (v & p & E & T & I). apply refs_values in E. destruct E as [[E _]|[[E _]|[[_ ->]|[E _]]]]; try discriminate.
    destruct refs_tidy as (_ & _ & TC & _). rewrite (tidy_unique _ _ _ T TC) in I. unfold pC in I. cbn [In] in I.
    destruct I as [I|[I|[I|[I|[I|[]]]]]]; try discriminate; injection I as <-; [right|left]; reflexivity. }
  assert (UN : forall i j, refs_value j = None -> ~ uses refs_value i j) by (intros i j E (v & p & E' & _); congruence).
  assert (UD : forall i, ~ uses refs_value i (s_ "D")).
  { intros i (v & p & E & T & I). apply refs_values in E. destruct E as [[E _]|[[E _]|[[E _]|[_ ->]]]]; try discriminate.
    destruct refs_tidy as (_ & _ & _ & TD). rewrite (tidy_unique _ _ _ T TD) in I. destruct I as [I|[]]; discriminate. }
  assert (N : forall j, needs refs_value (s_ "C") j -> j = s_ "C" \/ refs_value j = None \/ j = s_ "D").
  { induction 1 as [|i j _ IH Uj]; auto. destruct IH as [->|[E| ->]]; [apply U in Uj; tauto|exfalso; eapply UN; eauto|exfalso; eapply UD; eauto]. }
  intros j Nj (i & Ui & Ni). destruct (N j Nj) as [->|[E| ->]]; [|eapply UN; eauto|eapply UD; eauto].
  apply U in Ui. inversion Ni as [X|a b Na Ub]; subst; [destruct Ui as [E|E]; discriminate|].
  destruct Ui as [E| ->].
  - destruct (needs_first [] refs_demo i (s_ "C") Ni) as [->|(w & Uw & _)]; [discriminate|]. eapply UN; eauto.
  - destruct (needs_first [] refs_demo (s_ "D") (s_ "C") Ni) as [X|(w & Uw & _)]; [discriminate|]. eapply UD; eauto.
Qed.
Example refs_expansion : exists D, forall depth, D <= depth -> get_var depth 2 (parse [] refs_demo) [] (s_ "C") = Ok (Some (s_ "<d|${U}>")).
Proof.
  destruct refs_tidy as (_ & _ & TC & _).
  destruct (expansion_complete [] refs_demo 2 (s_ "C") (s_ "<${D}|${U}>") pC refs_plain refs_all_tidy (le_n 2) eq_refl TC refs_acyclic) as (x & D & X & H).
  exists (D + 5). intros depth L. rewrite H by lia. do 2 f_equal. pose proof (H (D + 5) ltac:(lia)) as H5.
  assert (E : forall d, get_var (S (S d)) 2 (parse [] refs_demo) [] (s_ "C") = Ok (Some (s_ "<d|${U}>"))) by (intros d; vm_compute; reflexivity).
  replace (D + 5) with (S (S (D + 3))) in H5 by lia. rewrite E in H5. congruence.
Qed.

(** ** What does not hold *)

(** Overrides in several parts: with OVERRIDES = "x:y:z" the value for "x:y"
    beats the one for "z", although z has the highest priority... *)
Theorem multi_part_priority_refuted :
  let h := [Set_ (s_ "A:x:y") (s_ "xy"); Set_ (s_ "A:z") (s_ "z")] in
  get_raw 5 5 (parse [s_ "x"; s_ "y"; s_ "z"] h) [s_ "x"; s_ "y"; s_ "z"] (s_ "A") = Ok (Some (s_ "xy")) /\
  get_raw 5 5 (parse [s_ "y"; s_ "x"; s_ "z"] h) [s_ "y"; s_ "x"; s_ "z"] (s_ "A") = Ok (Some (s_ "z")).
Proof. split; vm_compute; reflexivity. Qed.
(** A variant that is only the target of a removal or of an append whose
    condition is not met has no value, but hides the variants of lower priority. *)
Theorem variant_without_value_hides_refuted :
  let h := [Set_ (s_ "A") (s_ "0"); Set_ (s_ "A:x") (s_ "1"); Remove (s_ "A:y") None (s_ "q")] in
  let ov := [s_ "x"; s_ "y"] in
  get_raw 5 5 (parse ov h) ov (s_ "A") = Ok (Some (s_ "0")) /\
  text ov h (s_ "A:y") = None /\ text ov h (s_ "A:x") = Some (s_ "1").
Proof. repeat split; vm_compute; reflexivity. Qed.
(** An append to a lower-case variable registers it as an override of the name
    without its last letter: with an override "files" set, FILES-like variables
    change (here "file" takes the value of "files"). *)
Theorem append_becomes_override_refuted :
  let h := [Set_ (s_ "file") (s_ "one"); Append (s_ "files") None (s_ "many")] in
  let ov := [s_ "files"] in
  get_raw 5 5 (parse ov h) ov (s_ "file") = Ok (Some (s_ "many")).
Proof. vm_compute. reflexivity. Qed.
(** Texts with stray dollar signs can make expansion loop for ever: no number
    of rounds is enough. *)
Definition endless : list call := [Set_ (s_ "Y") (s_ "$${T}"); Set_ (s_ "T") (s_ "{S}}}"); Set_ (s_ "S") (s_ "$$$${T")].
Theorem expansion_ends_refuted : plain_files endless /\ forall depth rounds, get_var (S (S depth)) rounds (parse [] endless) [] (s_ "Y") = Loops.
Proof.
  assert (PF : plain_files endless) by (unfold plain_files, endless; repeat constructor; try (apply plain_dec; reflexivity); cbn; intuition discriminate).
  split; auto. intros depth rounds. rewrite (plain_get [] endless PF). change (text [] endless (s_ "Y")) with (Some (state_t 1 0)).
  destruct rounds as [|n]; [reflexivity|].
  rewrite (proj1 (loops_forever (get_var (S depth) (S n) (parse [] endless) []) (Some (s_ "Y")) ltac:(discriminate) ltac:(discriminate)
     ltac:(rewrite (plain_get [] endless PF); reflexivity) ltac:(rewrite (plain_get [] endless PF); reflexivity) (S n)) 0 0). reflexivity.
Qed.

Print Assumptions override_selected.
Print Assumptions no_override_plain.
Print Assumptions selection_exists.
Print Assumptions selection_unique.
Print Assumptions order_independent.
Print Assumptions run_time_set_wins.
Print Assumptions run_time_set_frame.
Print Assumptions overrides_stable.
Print Assumptions operations_in_order.
Print Assumptions removals_exact.
Print Assumptions removals_exact_any_store.
Print Assumptions expansion_sound.
Print Assumptions expansion_complete.
Print Assumptions circular_reported.
Print Assumptions expansion_ends.
Print Assumptions multi_part_priority_refuted.
Print Assumptions variant_without_value_hides_refuted.
Print Assumptions append_becomes_override_refuted.
Print Assumptions expansion_ends_refuted.

(** ** Further cases that meet the hypotheses *)
Lemma plain_checked n : contains_sub (s_ ":append") n || contains_sub (s_ ":prepend") n || contains_sub (s_ ":remove") n = false -> plain n.
Proof.
  intros H a b. apply orb_false_iff in H. destruct H as [H C]. apply orb_false_iff in H. destruct H as [A B].
  repeat split; intros ->; match goal with H : contains_sub ?k ?t = false |- _ => let T := fresh in assert (T : contains_sub k t = true) by (apply contains_sub_iff; eauto); rewrite T in H; discriminate end.
Qed.
Example run_time_set_met : plain (s_ "A:arm") /\ get_raw 3 3 (set_var false [s_ "arm"] (parse [s_ "arm"] demo) (s_ "SRC") (s_ "v")) [s_ "arm"] (s_ "SRC") = Ok (Some (s_ "v")).
Proof. split; [now apply plain_checked|]. apply run_time_set_wins. now apply plain_checked. Qed.

