(** C38: copies of a datastore are isolated. *)
From Coq Require Import Ascii String List Bool Arith Lia.
From Verif Require Import Str_Model Str_Proofs Data_Model Data_Proofs Dataheap_Model Dataheap_Spec Dataheap_Proofs.
Import ListNotations.
Open Scope list_scope.

(** Changing a datastore changes nothing in any datastore that was not copied
    from it: not in the original of a copy, not in another copy. *)
Theorem change_stays_local : forall h i j o,
  reachable h -> i < h_stores h -> j < h_stores h -> local_op o -> ~ origin h i j ->
  same_view h (step h i o) j.
Proof.
  intros h i j o R I J L N. destruct (wf_reachable h R) as [K W]. destruct (step_trans i K h o W I) as (K' & _ & F & _).
  assert (E : (match o with Export _ | Rename _ _ => false | _ => true end) = true) by (destruct o; auto; contradiction). rewrite E in F.
  split; intros var; [apply (flags_same K true h _ i j var); auto|apply (variants_same K true h _ i j var); auto]. intros ->. apply N. constructor.
Qed.
(** What has been set in a copy, and the overrides it knows, are not affected by
    changes of the original (or any other datastore). *)
Theorem own_variables_kept : forall h i j o,
  reachable h -> i < h_stores h -> j < h_stores h -> local_op o -> i <> j ->
  (forall var, own h j var -> flags_of (step h i o) j var = flags_of h j var) /\
  (forall var, variants_of (step h i o) j var = variants_of h j var).
Proof.
  intros h i j o R I J L N. destruct (wf_reachable h R) as [K W]. destruct (step_trans i K h o W I) as (K' & _ & F & _).
  assert (E : (match o with Export _ | Rename _ _ => false | _ => true end) = true) by (destruct o; auto; contradiction). rewrite E in F.
  split; intros var; [intros O; apply (own_same K true h _ i j var); auto|apply (variants_same K true h _ i j var); auto].
Qed.
(** The two remaining operations disturb at most the list of exported names
    (and the table of renamed variables). *)
Theorem any_change_stays_local : forall h i j o,
  reachable h -> i < h_stores h -> j < h_stores h -> ~ origin h i j ->
  (forall var, var <> s_ "__exportlist" -> flags_of (step h i o) j var = flags_of h j var) /\
  (forall var, variants_of (step h i o) j var = variants_of h j var).
Proof.
  intros h i j o R I J N. destruct (wf_reachable h R) as [K W]. destruct (step_trans i K h o W I) as (K' & _ & F & _).
  split; intros var; [intros NE; eapply (flags_same K _ h _ i j var); eauto|eapply (variants_same K _ h _ i j var); eauto]. intros ->. apply N. constructor.
Qed.
(** Whole histories: as long as neither a datastore nor what it was copied from
    is changed, it stays as it is, whatever happens to all others. *)
Theorem history_stays_local : forall h j os,
  reachable h -> j < h_stores h -> Forall (fun x => local_op (snd x) /\ ~ origin h (fst x) j) os ->
  same_view h (run h os) j.
Proof.
  intros h j os R J F. destruct (wf_reachable h R) as [K W]. clear R.
  assert (X : forall h', (exists K', wf K' h') -> same_view h h' j -> j < h_stores h' -> (forall k, origin h' k j -> origin h k j) -> same_view h (run h' os) j).
  { induction os as [|[i o] os IH]; intros h' [K' W'] V J' O; auto. inversion F as [|? ? [L N] F']; subst. cbn [fst snd] in *.
    cbn [run fold_left fst snd]. fold (run (if Nat.ltb i (h_stores h') then step h' i o else h') os).
    destruct (Nat.ltb i (h_stores h')) eqn:I; [|apply IH; eauto]. apply Nat.ltb_lt in I.
    destruct (step_trans i K' h' o W' I) as (K2 & W2 & G & _).
    assert (E : (match o with Export _ | Rename _ _ => false | _ => true end) = true) by (destruct o; auto; contradiction). rewrite E in G.
    assert (N' : ~ origin h' i j) by (intros Oi; apply N; now apply O). assert (NE : j <> i) by (intros ->; apply N'; constructor).
    apply IH; auto.
    - now exists K2.
    - destruct V as [V1 V2]. split; intros var.
      + rewrite <- V1. apply (flags_same K' true h' _ i j var); auto.
      + rewrite <- V2. apply (variants_same K' true h' _ i j var); auto.
    - pose proof (f_stores _ _ _ _ _ G). lia.
    - intros k Ok. apply O. apply (origin_frame K' true h' _ i k j W' G J' Ok). }
  apply X; eauto. split; reflexivity.
Qed.
(** A new copy looks exactly like its original. *)
Theorem copy_looks_alike : forall h i,
  reachable h -> i < h_stores h ->
  (forall var, flags_of (step h i Copy) (h_stores h) var = flags_of h i var) /\
  (forall var, variants_of (step h i Copy) (h_stores h) var = variants_of h i var).
Proof.
  intros h i R I. destruct (wf_reachable h R) as [K W]. split; intros var.
  - assert (FU : forall n j, j < n -> find_from n h j var = find_from (S j) h j var).
    { induction n as [n IH] using lt_wf_ind. intros j L. destruct n as [|n]; [lia|]. cbn [find_from]. destruct (get (h_dict h j) var); auto.
      destruct (h_parent h j) as [p|] eqn:P; auto. apply (w_parent _ _ W) in P. destruct P as [P _]. rewrite (IH n) by lia. symmetry.
      destruct (Nat.eq_dec j n) as [->|NJ]; [apply IH; lia|apply IH; lia]. }
    assert (FR : forall n j, j < h_stores h -> find_from n (step h i Copy) j var = find_from n h j var).
    { induction n as [|n IH]; intros j L; auto. cbn [find_from step h_dict h_parent]. rewrite !upd_other by lia. destruct (get (h_dict h j) var); auto.
      destruct (h_parent h j) as [p|] eqn:P; auto. apply IH. apply (w_parent _ _ W) in P. lia. }
    unfold flags_of, find at 1. change (find_from (S (h_stores h)) (step h i Copy) (h_stores h) var) with
      (match get (upd (h_dict h) (h_stores h) [] (h_stores h)) var with Some a => Some a | None => match upd (h_parent h) (h_stores h) (Some i) (h_stores h) with Some p => find_from (h_stores h) (step h i Copy) p var | None => None end end).
    rewrite !upd_same. cbn [get]. rewrite FR, FU by auto. unfold find. reflexivity.
  - unfold variants_of. cbn [step h_over h_cont]. rewrite upd_same. reflexivity.
Qed.

(** ** Concrete cases *)
Definition A := s_ "A".
Definition example_run : list (nat * op) :=
  [(0, SetFlag A (s_ "_content") (s_ "1")); (0, AddOp A KAppend (s_ "x", None)); (0, Register A (s_ "A:arm", s_ "arm")); (0, Copy);
   (1, AddOp A KAppend (s_ "y", None)); (1, Copy); (0, AddOp A KAppend (s_ "z", None)); (2, SetFlag (s_ "B") (s_ "_content") (s_ "b"))].
Definition example_heap := run start example_run.
Example copies_differ :
  h_stores example_heap = 3 /\ ~ origin example_heap 1 0 /\ origin example_heap 0 2 /\ own example_heap 1 A /\
  flags_of example_heap 0 A = Some [(s_ "_content", inl (s_ "1")); (s_ ":append", inr [(s_ "x", None); (s_ "z", None)])] /\
  flags_of example_heap 1 A = Some [(s_ "_content", inl (s_ "1")); (s_ ":append", inr [(s_ "x", None); (s_ "y", None)])] /\
  flags_of example_heap 2 A = flags_of example_heap 1 A /\
  variants_of example_heap 2 A = Some [(s_ "A:arm", Some (s_ "arm"))] /\
  flags_of example_heap 1 (s_ "B") = None.
Proof.
  split; [vm_compute; reflexivity|]. split; [intros O; inversion O as [|j p P _]; vm_compute in P; discriminate|].
  split; [apply (o_copy _ _ _ 1); [reflexivity|apply (o_copy _ _ _ 0); [reflexivity|constructor]]|]. split; [vm_compute; discriminate|].
  repeat split; vm_compute; reflexivity.
Qed.
Example example_reachable : reachable example_heap.
Proof. exists example_run. reflexivity. Qed.

(** ** What does not hold *)

(** Exporting a variable in a copy adds it to the list of exported names of the original. *)
Theorem export_changes_original_refuted :
  let h := run start [(0, Export A); (0, Copy)] in
  ~ origin h 1 0 /\
  flags_of h 0 (s_ "__exportlist") = Some [(s_ "_content", inr [(A, None)])] /\
  flags_of (step h 1 (Export (s_ "B"))) 0 (s_ "__exportlist") = Some [(s_ "_content", inr [(A, None); (s_ "B", None)])].
Proof. split; [intros O; inversion O as [|j p P _]; vm_compute in P; discriminate|]. split; vm_compute; reflexivity. Qed.
(** The table of renamed variables is shared as well. *)
Theorem renames_change_original_refuted :
  let h := run start [(0, Copy)] in
  h_cont h (h_ren h 0) = [] /\ h_cont (step h 1 (Rename A (s_ "use B"))) (h_ren (step h 1 (Rename A (s_ "use B"))) 0) = [(A, Some (s_ "use B"))].
Proof. split; vm_compute; reflexivity. Qed.
(** Deleting the flags of an inherited variable without value has no effect in a copy. *)
Theorem inherited_flags_deleted_refuted :
  let h := run start [(0, SetFlag A (s_ "doc") (s_ "text")); (0, Copy)] in
  flags_of (step h 1 (DelFlags A)) 1 A = flags_of h 1 A /\ flags_of h 1 A = Some [(s_ "doc", inl (s_ "text"))] /\
  flags_of (step h 0 (DelFlags A)) 0 A = None.
Proof. repeat split; vm_compute; reflexivity. Qed.

Print Assumptions change_stays_local.
Print Assumptions own_variables_kept.
Print Assumptions any_change_stays_local.
Print Assumptions history_stays_local.
Print Assumptions copy_looks_alike.
Print Assumptions export_changes_original_refuted.
Print Assumptions renames_change_original_refuted.
Print Assumptions inherited_flags_deleted_refuted.

(** ** Further cases that meet the hypotheses *)
Example local_change_met : local_op (SetFlag (s_ "B") (s_ "_content") (s_ "2")) /\ same_view example_heap (step example_heap 1 (SetFlag (s_ "B") (s_ "_content") (s_ "2"))) 0 /\ flags_of (step example_heap 1 (SetFlag (s_ "B") (s_ "_content") (s_ "2"))) 1 (s_ "B") <> flags_of example_heap 1 (s_ "B").
Proof.
  split; [exact I|]. split.
  - apply change_stays_local; [exact example_reachable| | |exact I|apply copies_differ]; vm_compute; lia.
  - vm_compute. discriminate.
Qed.

