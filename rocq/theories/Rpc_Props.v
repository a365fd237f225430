(** Property C10: RPC messages survive chunking. *)
From Coq Require Import Ascii String List Bool Arith Lia.
From Verif Require Import Str_Model Str_Proofs Rpc_Model Rpc_Spec Rpc_Proofs.
Import ListNotations.
Open Scope list_scope.

(** Sequences of messages arrive one by one and unchanged, for every chunk size
    >= 2, provided no chunk of a long message ends in white space.  [marked] is the
    test "the decoded line has the key chunk-stream".
    Missing: messages with white space at a chunk boundary (refuted below). *)
Theorem rpc_messages_survive_partial :
  forall marked mc ts rest,
    2 <= mc -> marked marker = true -> Forall json_text ts ->
    Forall (fun t => length t < mc - 1 -> marked t = false) ts ->
    Forall (fun t => mc - 1 <= length t -> clean_cuts (mc - 1) t) ts ->
    recv_many marked (length ts) (concat (map (send_message mc) ts) ++ rest) = Some (ts, rest).
Proof.
  intros marked mc ts rest MC MM F1 F2 F3.
  rewrite recv_many_ok; auto.
  - f_equal. f_equal. clear F1 F2. induction F3 as [|t ts H F3 IH]; [auto|]. cbn [map]. f_equal; [apply received_clean; auto|exact IH].
  - eapply Forall_impl; [|exact F3]. intros t H L. apply clean_no_blank; auto.
Qed.

(** Without that proviso: messages are still separated correctly and what arrives
    differs at most by white space, unless a whole chunk is white space. *)
Theorem rpc_only_white_space_lost :
  forall marked mc ts rest,
    2 <= mc -> marked marker = true -> Forall json_text ts ->
    Forall (fun t => length t < mc - 1 -> marked t = false) ts ->
    Forall (fun t => mc - 1 <= length t -> no_blank_block (mc - 1) t) ts ->
    exists ts', recv_many marked (length ts) (concat (map (send_message mc) ts) ++ rest)
                = Some (ts', rest) /\
      Forall2 (fun t t' => filter (fun c => negb (is_space c)) t' =
                           filter (fun c => negb (is_space c)) t) ts ts'.
Proof.
  intros marked mc ts rest MC MM F1 F2 F3. exists (map (received mc) ts).
  split; [apply recv_many_ok; auto|].
  clear - MC. induction ts as [|t ts IH]; cbn; constructor; auto.
  unfold received. destruct (length t <? mc - 1) eqn:E; auto.
  apply (trimmed_drop (mc - 1) (length t) t); lia.
Qed.

(** The marker test used in the examples: the line is the marker. *)
Definition is_marker (l : str) : bool := seqb l marker.
Example rpc_example :
  Forall json_text [s_ "[1,2,3,4]"; s_ "{}"; s_ "[5, 6]"] /\
  recv_many is_marker 3 (concat (map (send_message 5) [s_ "[1,2,3,4]"; s_ "{}"; s_ "[5, 6]"]))
  = Some ([s_ "[1,2,3,4]"; s_ "{}"; s_ "[5,6]"], []) /\
  clean_cuts 4 (s_ "[1,2,3,4]").
Proof.
  split; [|split].
  - repeat constructor; try (apply no_char_In; repeat constructor).
    + exists (s_ "[1,2,3,4"), "]"%char. auto.
    + exists (s_ "{"), "}"%char. auto.
    + exists (s_ "[5, 6"), "]"%char. auto.
  - vm_compute. reflexivity.
  - assert (F : Forall (fun c => is_space c = false) (s_ "[1,2,3,4]")) by (repeat constructor).
    intros i b c E.
    assert (I : In c (s_ "[1,2,3,4]")).
    { rewrite <- (firstn_skipn (4 * i) (s_ "[1,2,3,4]")). apply in_or_app. right.
      rewrite <- (firstn_skipn 4 (skipn (4 * i) _)). apply in_or_app. left.
      unfold block in E. rewrite E. apply in_or_app. right. left. auto. }
    rewrite Forall_forall in F. auto.
Qed.
Print Assumptions rpc_messages_survive_partial.
Print Assumptions rpc_only_white_space_lost.

(** Finding: for every chunk size there is a JSON text (a string with a blank at
    the boundary) that arrives changed. *)
Theorem rpc_boundary_blank_refuted :
  forall mc, 4 <= mc -> exists t t', json_text t /\
    recv_message is_marker (send_message mc t) = Some (t', []) /\ t' <> t.
Proof.
  intros mc MC.
  set (t := repeat "a"%char (mc - 2) ++ " "%char :: repeat "b"%char (mc - 1)).
  assert (LEN : length t = 2 * (mc - 1)).
  { unfold t. rewrite app_length. cbn [length]. rewrite !repeat_length. lia. }
  assert (NS : forall x, In x t -> x = " "%char \/ is_space x = false).
  { intros x I. unfold t in I. apply in_app_or in I. destruct I as [I|[<-|I]]; auto;
      apply repeat_spec in I; subst; auto. }
  assert (J : json_text t).
  { split.
    - intros I. unfold t in I. apply in_app_or in I. destruct I as [I|[I|I]]; try discriminate;
        apply repeat_spec in I; discriminate.
    - exists (repeat "a"%char (mc - 2) ++ " "%char :: repeat "b"%char (mc - 2)), "b"%char.
      split; [|reflexivity]. unfold t. rewrite <- app_assoc. cbn [app].
      replace (mc - 1) with (S (mc - 2)) by lia. do 2 f_equal.
      clear. generalize (mc - 2). induction n; cbn in *; congruence. }
  assert (FB : firstn (mc - 1) t = repeat "a"%char (mc - 2) ++ [" "%char]).
  { unfold t. rewrite firstn_app, repeat_length.
    rewrite firstn_all2 by (rewrite repeat_length; lia). f_equal.
    replace (mc - 1 - (mc - 2)) with 1 by lia. reflexivity. }
  assert (SB : skipn (mc - 1) t = repeat "b"%char (mc - 1)).
  { unfold t. rewrite skipn_app, repeat_length.
    rewrite skipn_all2 by (rewrite repeat_length; lia).
    replace (mc - 1 - (mc - 2)) with 1 by lia. reflexivity. }
  assert (NB : no_blank_block (mc - 1) t).
  { intros i NE. destruct i as [|i].
    - unfold block in *. rewrite Nat.mul_0_r in *. cbn [skipn] in *. rewrite FB.
      exists "a"%char. split; [|reflexivity]. apply in_or_app. left.
      replace (mc - 2) with (S (mc - 3)) by lia. left. auto.
    - destruct (block (mc - 1) (S i) t) as [|x b] eqn:E; [congruence|].
      exists x. split; [left; auto|].
      assert (I : In x (skipn (mc - 1) t)).
      { unfold block in E. replace ((mc - 1) * S i) with (mc - 1 + (mc - 1) * i) in E by lia.
        rewrite <- skipn_skipn_ in E.
        rewrite <- (firstn_skipn ((mc - 1) * i) (skipn (mc - 1) t)). apply in_or_app. right.
        rewrite <- (firstn_skipn (mc - 1) (skipn ((mc - 1) * i) _)). apply in_or_app. left.
        rewrite E. left. auto. }
      rewrite SB in I. apply repeat_spec in I. subst. reflexivity. }
  exists t, (received mc t). split; [exact J|]. split.
  - rewrite <- (app_nil_r (send_message mc t)).
    apply recv_message_ok; auto; [lia|intros; exfalso; lia].
  - unfold received. replace (length t <? mc - 1) with false by (symmetry; apply Nat.ltb_ge; lia).
    intros Q. apply (f_equal (@length _)) in Q.
    assert (TL : forall n f s, length (trimmed n f s) <= length s).
    { intros n f. induction f as [|f IH]; intros s; [cbn; lia|]. cbn [trimmed]. rewrite app_length.
      specialize (IH (skipn n s)). destruct (rstrip_spec (firstn n s)) as (b & A & _ & _).
      apply (f_equal (@length _)) in A. rewrite app_length in A.
      pose proof (firstn_skipn n s) as FS. apply (f_equal (@length _)) in FS.
      rewrite app_length in FS. lia. }
    rewrite LEN in Q at 1. replace (2 * (mc - 1)) with (S (2 * (mc - 1) - 1)) in Q by lia.
    cbn [trimmed] in Q. rewrite app_length in Q. pose proof (TL (mc - 1) (2 * (mc - 1) - 1) (skipn (mc - 1) t)).
    rewrite skipn_length in H. rewrite FB in Q. unfold rstrip in Q. rewrite rev_app_distr in Q.
    cbn [rev app lstrip] in Q. change (is_space " ") with true in Q. cbn iota in Q.
    assert (LS : length (lstrip (rev (repeat "a"%char (mc - 2)))) <= mc - 2).
    { destruct (lstrip_spec (rev (repeat "a"%char (mc - 2)))) as (b & A & _).
      apply (f_equal (@length _)) in A. rewrite app_length, rev_length, repeat_length in A. lia. }
    rewrite rev_length in Q. lia.
Qed.
Print Assumptions rpc_boundary_blank_refuted.

(** Finding: if a whole chunk is white space the reader stops there, and the rest
    of the message is taken for further messages. *)
Theorem rpc_blank_chunk_desynchronises_refuted :
  exists mc t1 t2 r, json_text t1 /\ json_text t2 /\
    recv_many is_marker 2 (send_message mc t1 ++ send_message mc t2) = Some r /\
    fst r <> [t1; t2] /\ nth_error (fst r) 1 <> Some t2.
Proof.
  set (q := [""""%char]).
  exists 4, (q ++ s_ "ab   c" ++ q), (s_ "1"). eexists.
  split; [split; [apply no_char_In; repeat constructor|exists (q ++ s_ "ab   c"), """"%char; auto]|].
  split; [split; [apply no_char_In; repeat constructor|exists [], "1"%char; auto]|].
  split; [vm_compute; reflexivity|]. split; vm_compute; discriminate.
Qed.
Print Assumptions rpc_blank_chunk_desynchronises_refuted.

(** No line is longer than the limit, so the peer's read buffer is never
    exceeded. *)
Theorem rpc_lines_bounded :
  forall mc t l, 2 <= mc -> In l (chunkify t mc) -> length l <= Nat.max mc (length marker + 1).
Proof. exact chunkify_lengths. Qed.
Example rpc_lines_example : map (@length _) (chunkify (s_ "[1,2,3,4]") 5) = [23; 5; 5; 2; 1].
Proof. reflexivity. Qed.
Print Assumptions rpc_lines_bounded.

(** Finding: a short message that itself has the key "chunk-stream" makes the
    receiver swallow the following messages. *)
Theorem rpc_reserved_key_refuted :
  exists t2, json_text t2 /\ recv_message is_marker (send_message 1000 marker ++ send_message 1000 t2) = None.
Proof.
  exists (s_ "1"). split; [split; [apply no_char_In; repeat constructor|exists [], "1"%char; auto]|].
  vm_compute. reflexivity.
Qed.
Print Assumptions rpc_reserved_key_refuted.
