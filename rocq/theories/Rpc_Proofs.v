(** Proofs about the line protocol. *)
From Coq Require Import Ascii String List Bool Arith Lia.
From Verif Require Import Str_Model Str_Proofs Rpc_Model Rpc_Spec.
Import ListNotations.
Open Scope list_scope.

Lemma rstrip_nl : forall l, rstrip (l ++ [nl]) = rstrip l.
Proof. intros. unfold rstrip. rewrite rev_app_distr. reflexivity. Qed.

Lemma recv_line : forall l rest, ~ In nl l -> recv (l ++ nl :: rest) = Some (rstrip l, rest).
Proof.
  intros. unfold recv. rewrite cut_at_some by (apply no_char_In; auto). rewrite rstrip_nl. auto.
Qed.

Lemma rstrip_nonblank : forall l c, In c l -> is_space c = false -> rstrip l <> [].
Proof.
  intros l c I S E. destruct (rstrip_spec l) as (b & A & B & _). rewrite E in A. cbn in A. subst b.
  rewrite Forall_forall in B. rewrite (B c I) in S. discriminate.
Qed.

Definition lines (ps : list str) : str := concat (map (fun m => m ++ [nl]) ps).

Lemma recv_lines_ok : forall ps rest fuel, length ps < fuel ->
  Forall (fun p => ~ In nl p /\ rstrip p <> []) ps ->
  recv_lines fuel (lines ps ++ nl :: rest) = Some (map rstrip ps, rest).
Proof.
  induction ps as [|p ps IH]; intros rest fuel L F; (destruct fuel as [|f]; [cbn in L; lia|]).
  - cbn [recv_lines]. unfold lines. cbn [map concat app].
    change (nl :: rest) with ([] ++ nl :: rest). rewrite (recv_line [] rest) by (cbn; tauto). reflexivity.
  - inversion F as [|? ? [A B] F']; subst. cbn [recv_lines].
    replace (lines (p :: ps) ++ nl :: rest) with (p ++ nl :: (lines ps ++ nl :: rest)).
    + rewrite recv_line by auto. destruct (rstrip p) eqn:E; [congruence|].
      rewrite IH by (auto; cbn in L; lia). cbn [map]. rewrite E. reflexivity.
    + unfold lines. cbn [map concat]. rewrite <- !app_assoc. reflexivity.
Qed.

Lemma skipn_skipn_ : forall (n m : nat) (s : str), skipn n (skipn m s) = skipn (m + n) s.
Proof.
  intros n m. revert n. induction m as [|m IH]; intros n s; [reflexivity|].
  destruct s; [rewrite !skipn_nil; reflexivity|]. cbn. apply IH.
Qed.

Lemma pieces_spec : forall n, n <> 0 -> forall fuel s, length s <= fuel ->
  concat (pieces fuel n s) = s /\
  (forall p, In p (pieces fuel n s) -> p <> [] /\ length p <= n /\ exists i, p = block n i s) /\
  length (pieces fuel n s) <= length s /\
  concat (map rstrip (pieces fuel n s)) = trimmed n fuel s.
Proof.
  intros n NZ. induction fuel as [|f IH]; intros s L.
  - destruct s; [|cbn in L; lia]. cbn. split; [auto|]. split; [tauto|]. split; auto.
  - destruct s as [|c s].
    + cbn [pieces]. split; [auto|]. split; [intros p []|]. split; [auto|].
      cbn [map concat trimmed]. rewrite firstn_nil, skipn_nil. cbn.
      destruct (IH [] ltac:(cbn; lia)) as (_ & _ & _ & T). destruct f; [reflexivity|exact T].
    + cbn [pieces]. destruct (IH (skipn n (c :: s))) as (A & B & C & D).
      { rewrite skipn_length. cbn [length] in *. lia. }
      split; [cbn [concat]; rewrite A; apply firstn_skipn|].
      split.
      { intros p [<-|I].
        - split; [destruct n; [congruence|cbn; congruence]|]. split; [apply firstn_le_length|].
          exists 0. unfold block. rewrite Nat.mul_0_r. reflexivity.
        - destruct (B p I) as (P1 & P2 & i & ->). split; [auto|]. split; [auto|]. exists (S i).
          unfold block. rewrite skipn_skipn_. do 2 f_equal. lia. }
      split.
      { cbn [length]. rewrite skipn_length in C. cbn [length] in C. lia. }
      cbn [map concat trimmed]. rewrite D. reflexivity.
Qed.

Lemma marker_no_nl : ~ In nl marker.
Proof. apply no_char_In. unfold no_char. repeat (constructor; [reflexivity|]). constructor. Qed.
Lemma marker_strip : rstrip marker = marker.
Proof. reflexivity. Qed.

Lemma lines_length : forall ps, length ps <= length (lines ps).
Proof.
  induction ps as [|p ps IH]; [cbn; lia|]. unfold lines in *. cbn [map concat].
  rewrite !app_length. cbn [length]. lia.
Qed.

(** What the receiver gets for one message. *)
Definition received (mc : nat) (t : str) : str :=
  if length t <? mc - 1 then t else trimmed (mc - 1) (length t) t.

Lemma recv_message_ok : forall marked mc t rest, 2 <= mc ->
  marked marker = true -> json_text t ->
  (length t < mc - 1 -> marked t = false) -> (mc - 1 <= length t -> no_blank_block (mc - 1) t) ->
  recv_message marked (send_message mc t ++ rest) = Some (received mc t, rest).
Proof.
  intros marked mc t rest MC MM (NN & t' & c & TE & TS) ML MB.
  unfold send_message, chunkify, recv_message, received.
  destruct (length t <? mc - 1) eqn:E.
  - apply Nat.ltb_lt in E. cbn [concat]. rewrite app_nil_r, <- app_assoc. cbn [app].
    rewrite recv_line by auto.
    assert (R : rstrip t = t) by (rewrite TE; apply rstrip_snoc; auto).
    rewrite R, (ML E). reflexivity.
  - apply Nat.ltb_ge in E. unfold chunks. destruct (mc - 1) as [|k] eqn:MK; [lia|]. rewrite <- MK in *.
    destruct (pieces_spec (mc - 1) ltac:(lia) (length t) t ltac:(lia)) as (A & B & C & D).
    set (ps := pieces (length t) (mc - 1) t) in *.
    replace (concat ((marker ++ [nl]) :: map (fun m => m ++ [nl]) ps ++ [[nl]]) ++ rest)
      with (marker ++ nl :: (lines ps ++ nl :: rest)).
    2: { cbn [concat]. rewrite concat_app. cbn [concat]. unfold lines.
         repeat rewrite <- app_assoc. cbn [app]. reflexivity. }
    rewrite recv_line by exact marker_no_nl. rewrite marker_strip, MM.
    rewrite recv_lines_ok.
    + rewrite D. reflexivity.
    + rewrite app_length. cbn [length]. pose proof (lines_length ps). unfold str in *. lia.
    + rewrite Forall_forall. intros p I. destruct (B p I) as (P1 & P2 & i & P3). split.
      * intros Q. apply NN. rewrite <- A. apply in_concat. exists p. auto.
      * destruct (MB E i) as (x & X1 & X2); [rewrite <- P3; auto|].
        rewrite <- P3 in X1. eapply rstrip_nonblank; eauto.
Qed.

Lemma recv_many_ok : forall marked mc ts rest, 2 <= mc -> marked marker = true ->
  Forall json_text ts ->
  Forall (fun t => length t < mc - 1 -> marked t = false) ts ->
  Forall (fun t => mc - 1 <= length t -> no_blank_block (mc - 1) t) ts ->
  recv_many marked (length ts) (concat (map (send_message mc) ts) ++ rest) =
  Some (map (received mc) ts, rest).
Proof.
  intros marked mc ts rest MC MM. induction ts as [|t ts IH]; intros F1 F2 F3; [reflexivity|].
  inversion F1; inversion F2; inversion F3; subst. cbn [length map concat recv_many].
  rewrite <- app_assoc. rewrite recv_message_ok by auto. rewrite IH by auto. reflexivity.
Qed.

Lemma rstrip_clean : forall b, (forall b' c, b = b' ++ [c] -> is_space c = false) -> rstrip b = b.
Proof.
  intros b H. destruct (rev b) as [|c r] eqn:R.
  - assert (b = []) by (rewrite <- (rev_involutive b), R; auto). subst. reflexivity.
  - assert (E : b = rev r ++ [c]) by (rewrite <- (rev_involutive b), R; auto).
    rewrite E. apply rstrip_snoc. eapply H. exact E.
Qed.

Lemma trimmed_clean : forall n fuel t, n <> 0 -> length t <= fuel -> clean_cuts n t ->
  trimmed n fuel t = t.
Proof.
  intros n. induction fuel as [|f IH]; intros t NZ L CL.
  - destruct t; [reflexivity|cbn in L; lia].
  - cbn [trimmed]. rewrite rstrip_clean.
    + destruct t as [|c0 t].
      * rewrite firstn_nil, skipn_nil. cbn [app]. apply IH; auto. cbn. lia.
      * rewrite IH; auto.
        { apply firstn_skipn. }
        { rewrite skipn_length. cbn [length] in *. lia. }
        { intros i b x E. apply (CL (S i) b x). unfold block in *. rewrite skipn_skipn_ in E.
          rewrite <- E. do 2 f_equal. lia. }
    + intros b c E. apply (CL 0 b c). unfold block. rewrite Nat.mul_0_r. exact E.
Qed.

Lemma clean_no_blank : forall n t, clean_cuts n t -> no_blank_block n t.
Proof.
  intros n t CL i NE. destruct (rev (block n i t)) as [|c r] eqn:R.
  - exfalso. apply NE. rewrite <- (rev_involutive (block n i t)), R. auto.
  - assert (E : block n i t = rev r ++ [c]) by (rewrite <- (rev_involutive (block n i t)), R; auto).
    exists c. split; [rewrite E; apply in_or_app; right; left; auto|eapply CL; eauto].
Qed.

Lemma received_clean : forall mc t, 2 <= mc -> (mc - 1 <= length t -> clean_cuts (mc - 1) t) ->
  received mc t = t.
Proof.
  intros mc t MC H. unfold received. destruct (length t <? mc - 1) eqn:E; auto.
  apply Nat.ltb_ge in E. apply trimmed_clean; auto. lia.
Qed.

(** Received text: only white space is ever lost. *)
Definition drop_space (s : str) : str := filter (fun c => negb (is_space c)) s.
Lemma drop_space_rstrip : forall s, drop_space (rstrip s) = drop_space s.
Proof.
  intros s. destruct (rstrip_spec s) as (b & A & B & _). rewrite A at 2. unfold drop_space.
  rewrite filter_app. replace (filter _ b) with (@nil ascii); [rewrite app_nil_r; auto|].
  clear A. induction B; [auto|]. cbn. rewrite H. auto.
Qed.
Lemma drop_space_app : forall a b, drop_space (a ++ b) = drop_space a ++ drop_space b.
Proof. intros. apply filter_app. Qed.
Lemma trimmed_drop : forall n fuel t, n <> 0 -> length t <= fuel ->
  drop_space (trimmed n fuel t) = drop_space t.
Proof.
  intros n. induction fuel as [|f IH]; intros t NZ L.
  - destruct t; [reflexivity|cbn in L; lia].
  - cbn [trimmed]. rewrite drop_space_app, drop_space_rstrip, IH.
    + rewrite <- drop_space_app, firstn_skipn. auto.
    + auto.
    + destruct t; [rewrite skipn_nil; cbn; lia|]. rewrite skipn_length. cbn [length] in *. lia.
Qed.

Lemma chunkify_lengths : forall mc t l, 2 <= mc -> In l (chunkify t mc) ->
  length l <= Nat.max mc (length marker + 1).
Proof.
  intros mc t l MC I. unfold chunkify in I. destruct (length t <? mc - 1) eqn:E.
  - apply Nat.ltb_lt in E. destruct I as [<-|[]]. rewrite app_length. cbn [length]. lia.
  - destruct I as [<-|I]; [rewrite app_length; cbn [length]; lia|].
    apply in_app_or in I. destruct I as [I|[<-|[]]]; [|cbn [length]; lia].
    apply in_map_iff in I. destruct I as (p & <- & I). rewrite app_length. cbn [length].
    unfold chunks in I. destruct (mc - 1) as [|k] eqn:MK; [lia|]. rewrite <- MK in I.
    destruct (pieces_spec (mc - 1) ltac:(lia) (length t) t ltac:(lia)) as (_ & B & _ & _).
    destruct (B p I) as (_ & P & _). lia.
Qed.
