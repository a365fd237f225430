(** Properties C01-C04: the wic disk layout. *)
From Coq Require Import ZArith List Bool Sorting.Sorted Lia.
From Verif Require Import WicLayout_Model WicLayout_Spec WicLayout_Proofs.
Import ListNotations.
Open Scope Z_scope.

(** C01.  A layout that is not rejected gives every partition exactly its size,
    behind the table header (and behind its EBR for logical ones), in order and
    without overlap, and inside an image large enough for the backup table. *)
Theorem wic_partitions_disjoint_and_inside :
  forall t extra ps s qs,
    Forall sane ps -> 0 <= extra -> layout t ps = Some (s, qs) ->
    length qs = length ps /\
    Forall2 (fun p q => pl_size q = 2 * pt_disk_size p) ps qs /\
    Forall (fun q => first_usable t + ebr t q <= pl_start q) qs /\
    StronglySorted (fun a b => pl_end a + ebr t b <= pl_start b) qs /\
    Forall (fun q => (pl_end q + tail_sectors t) * 512 <= min_size t extra s) qs.
Proof. exact layout_disjoint. Qed.

(** Plain parts for examples: size in KiB, alignment in KiB, optional offset. *)
Definition mkp (sz al : Z) (o : option Z) : part :=
  Part false false false false Primary al o sz false.
Definition ex_parts : list part :=
  [mkp 100 4 None; mkp 33 1024 None; mkp 7 0 None; mkp 64 0 (Some 3145728);
   mkp 10 4 None; mkp 20 4 None].

Example wic_disjoint_example :
  Forall sane ex_parts /\
  exists s qs, layout Msdos ex_parts = Some (s, qs) /\
    map pl_start qs = [8; 2048; 2114; 6144; 6280; 6304].
Proof.
  split; [repeat constructor; cbn; lia|].
  eexists. eexists. split; vm_compute; reflexivity.
Qed.
Print Assumptions wic_partitions_disjoint_and_inside.

(** argparse accepts a negative --align; then partitions can overlap. *)
Theorem wic_negative_align_refuted :
  exists t ps s qs a b,
    Forall (fun p => 0 <= pt_disk_size p) ps /\
    layout t ps = Some (s, qs) /\ qs = [a; b] /\ 0 < pl_size a /\ pl_start b < pl_end a.
Proof.
  exists Msdos, [mkp 100 0 None; mkp 100 (-4) None].
  eexists. eexists. eexists. eexists.
  split; [repeat constructor; cbn; lia|].
  split; [vm_compute; reflexivity|]. split; [reflexivity|]. vm_compute. split; reflexivity.
Qed.
Print Assumptions wic_negative_align_refuted.

(** C02.  Each partition is at the least aligned free sector, or exactly at its
    --offset; no forbidden option combination is accepted. *)
Theorem wic_align_and_offset_exact :
  forall t ps s qs,
    Forall sane ps -> layout t ps = Some (s, qs) ->
    laid t (first_usable t) ps qs /\ Forall (fun p => ~ forbidden t p) ps.
Proof. exact layout_exact. Qed.

Example wic_exact_example :
  exists s qs, layout Gpt [mkp 100 4 None; mkp 10 0 (Some 1048576)] = Some (s, qs) /\
    map pl_start qs = [40; 2048].
Proof. eexists. eexists. split; vm_compute; reflexivity. Qed.
Print Assumptions wic_align_and_offset_exact.

(** C02, rejection: an error is only reported when the partitions before were
    placed as specified and the offending one has a forbidden option or cannot
    be placed at all (unaligned --offset, or --offset before the free space). *)
Theorem wic_rejects_only_unplaceable :
  forall t ps,
    Forall sane ps -> layout t ps = None ->
    exists pre p post qs, ps = pre ++ p :: post /\
      laid t (first_usable t) pre qs /\
      (forbidden t p \/
       exists ty, forall q, pl_type q = ty ->
         ~ place_ok t (match qs with
                       | [] => first_usable t
                       | _ => pl_end (last qs (Placed 0 0 0 Primary))
                       end) p q).
Proof. exact layout_rejects. Qed.

Example wic_rejects_example :
  layout Msdos [mkp 100 4 None; mkp 10 0 (Some 4096)] = None /\
  layout Msdos [mkp 100 4 None; mkp 10 0 (Some 1048577)] = None.
Proof. split; vm_compute; reflexivity. Qed.
Print Assumptions wic_rejects_only_unplaceable.

(** C03.  If no partition is declared --type logical, the number used for
    fstab/root= is the number in the table, for every table type ... *)
Theorem wic_realnum_is_table_number_partial :
  forall t ps s qs,
    Forall (fun p => pt_type p = Primary) ps ->
    layout t ps = Some (s, qs) -> realnums t ps = map pl_num qs.
Proof. intros t ps s qs H1 H2. symmetry. exact (layout_realnum t ps s qs H1 H2). Qed.
Example wic_realnum_example :
  realnums Msdos ex_parts = [1; 2; 3; 5; 6; 7].
Proof. reflexivity. Qed.
Print Assumptions wic_realnum_is_table_number_partial.

(** ... but not with an explicit --type logical. *)
Theorem wic_realnum_refuted :
  exists ps s qs,
    Forall sane ps /\ layout Msdos ps = Some (s, qs) /\ realnums Msdos ps <> map pl_num qs.
Proof.
  exists [Part false false false false Logical 0 None 100 false].
  eexists. eexists. split; [repeat constructor; cbn; lia|].
  split; [vm_compute; reflexivity|]. vm_compute. discriminate.
Qed.
Print Assumptions wic_realnum_refuted.

(** C03, second half: whatever types are declared, the number parted assigns
    to each created (non extended) entry is the number wic stored. *)
Theorem wic_num_is_parted_number :
  forall t ps s qs,
    layout t ps = Some (s, qs) ->
    let es := create_entries t s (combine ps qs) in
    map snd (filter (fun en => not_extended (fst en)) (combine es (parted_numbers t 0 0 es)))
      = filter (fun x => negb (x =? 0)) (map pl_num qs).
Proof. exact created_numbers. Qed.
Example wic_parted_example :
  exists s qs, layout Msdos ex_parts = Some (s, qs) /\
    parted_numbers Msdos 0 0 (create_entries Msdos s (combine ex_parts qs)) = [1; 2; 3; 4; 5; 6; 7].
Proof. eexists. eexists. split; vm_compute; reflexivity. Qed.
Print Assumptions wic_num_is_parted_number.

(** C04.  At most four primary/extended entries. *)
Theorem wic_msdos_at_most_four_slots :
  forall ps s qs,
    layout Msdos ps = Some (s, qs) ->
    (length (filter slot (create_entries Msdos s (combine ps qs))) <= 4)%nat.
Proof. exact msdos_slots. Qed.
Print Assumptions wic_msdos_at_most_four_slots.

(** C04.  Which partitions become logical when none is declared so: on msdos
    with more than four partitions, all table partitions after the third. *)
Theorem wic_logical_iff_after_third :
  forall t ps s qs pre p post,
    Forall (fun p => pt_type p = Primary) ps ->
    layout t ps = Some (s, qs) -> ps = pre ++ p :: post -> pt_no_table p = false ->
    exists q, nth_error qs (length pre) = Some q /\
      (pl_type q = Logical <->
       t = Msdos /\ 4 < num_real ps /\ 3 <= num_real pre).
Proof.
  intros t ps s qs pre p post H1 H2 H3 H4. unfold layout in H2.
  exact (types_from t (num_real ps) ps lstate0 s qs 0 H1 (Z.le_refl 0) (Z.le_refl _)
    ltac:(destruct (is_msdos t); [split; [reflexivity|];
          rewrite Bool.orb_true_r; repeat split; reflexivity|exact I]) H2 pre p post H3 H4).
Qed.
Example wic_logical_example :
  exists s qs, layout Msdos ex_parts = Some (s, qs) /\
    map pl_type qs = [Primary; Primary; Primary; Logical; Logical; Logical].
Proof. eexists. eexists. split; vm_compute; reflexivity. Qed.
Print Assumptions wic_logical_iff_after_third.

(** C04.  If only logical table partitions without --offset follow the first
    logical one, there is exactly one extended entry and it contains every
    logical entry with its EBR. *)
Theorem wic_extended_contains_logical_partial :
  forall ps s qs,
    Forall sane ps -> layout Msdos ps = Some (s, qs) -> gapfree (combine ps qs) ->
    forall e, In e (create_entries Msdos s (combine ps qs)) -> e_kind e = ELogical ->
    exists x, In x (create_entries Msdos s (combine ps qs)) /\ e_kind x = EExtended /\ inside x e /\
      (forall y, In y (create_entries Msdos s (combine ps qs)) -> e_kind y = EExtended -> y = x).
Proof. exact extended_contains. Qed.
Example wic_extended_example :
  exists s qs, layout Msdos ex_parts = Some (s, qs) /\ gapfree (combine ex_parts qs) /\
    length (filter (fun e => negb (slot e)) (create_entries Msdos s (combine ex_parts qs))) = 3%nat.
Proof.
  eexists. eexists. split; [vm_compute; reflexivity|]. split; [|vm_compute; reflexivity].
  cbn. repeat constructor.
Qed.
Print Assumptions wic_extended_contains_logical_partial.

(** C04 as one would state it fails: an --offset after the first logical
    partition is not accounted for in the size of the extended one. *)
Theorem wic_extended_refuted :
  exists ps s qs x e,
    Forall sane ps /\ layout Msdos ps = Some (s, qs) /\
    In x (create_entries Msdos s (combine ps qs)) /\ e_kind x = EExtended /\
    In e (create_entries Msdos s (combine ps qs)) /\ e_kind e = ELogical /\
    (forall y, In y (create_entries Msdos s (combine ps qs)) -> e_kind y = EExtended -> y = x) /\
    e_start x + e_size x <= e_start e.
Proof.
  exists [mkp 1 0 None; mkp 1 0 None; mkp 1 0 None; mkp 1 0 None; mkp 1 0 (Some 1048576)].
  eexists. eexists. exists (Entry EExtended 7 8), (Entry ELogical 2048 2).
  split; [repeat constructor; cbn; lia|].
  split; [vm_compute; reflexivity|].
  vm_compute. repeat split; try tauto; try discriminate.
  intros y H. repeat (destruct H as [H|H]; [subst y; try discriminate; try reflexivity|]). destruct H.
Qed.
Print Assumptions wic_extended_refuted.

(** The number is 0 exactly for partitions that are not in the table. *)
Lemma num_zero_step : forall t n s p s' q, 0 <= l_realpart s -> 0 <= l_primary s -> 0 <= l_logcnt s ->
  layout_step t n s p = Some (s', q) ->
  (pl_num q =? 0) = pt_no_table p /\ 0 <= l_realpart s' /\ 0 <= l_primary s' /\ 0 <= l_logcnt s'.
Proof.
  intros t n s p s' q R P L H. unfold layout_step in H.
  destruct (is_msdos t && pt_has_name p); [discriminate|]. destruct (is_msdos t && pt_has_ptype p); [discriminate|].
  destruct (pt_mbr p && negb (is_hybrid t)); [discriminate|].
  match type of H with match ?X with _ => _ end = _ => destruct X as [start|] end; [|discriminate].
  destruct (is_msdos t && negb (pt_no_table p)) eqn:M.
  - apply andb_true_iff in M. destruct M as [_ M]. apply negb_true_iff in M. rewrite M in *.
    destruct (eff_type t n s p); [|destruct (l_extpart s =? 0)]; injection H as <- <-; cbn [pl_num l_realpart l_primary l_logcnt];
      (split; [apply Z.eqb_neq; lia|lia]).
  - injection H as <- <-. cbn [pl_num l_realpart l_primary l_logcnt]. destruct (pt_no_table p); (split; [|lia]); [reflexivity|apply Z.eqb_neq; lia].
Qed.
Lemma num_zero_from : forall t n ps s s' qs, 0 <= l_realpart s -> 0 <= l_primary s -> 0 <= l_logcnt s ->
  layout_from t n s ps = Some (s', qs) -> Forall2 (fun p q => (pl_num q =? 0) = pt_no_table p) ps qs.
Proof.
  intros t n. induction ps as [|p ps IH]; intros s s' qs R P L H; cbn in H.
  - injection H as <- <-. constructor.
  - destruct (layout_step t n s p) as [[s1 q]|] eqn:E1; [|discriminate]. destruct (layout_from t n s1 ps) as [[s2 qs2]|] eqn:E2; [|discriminate].
    injection H as <- <-. destruct (num_zero_step _ _ _ _ _ _ R P L E1) as (A & B & C & D). constructor; auto. eapply IH; eauto.
Qed.
(** C03.  The hybrid MBR has room for three partitions beside the protective
    entry: asking for more is refused, and nothing else is. *)
Theorem wic_hybrid_mbr_slots :
  forall t ps s qs,
    layout t ps = Some (s, qs) ->
    (create t s (combine ps qs) = None <->
     t = GptHybrid /\ (4 <= length (filter (fun p => pt_mbr p && negb (pt_no_table p)) ps))%nat).
Proof.
  intros t ps s qs H. unfold layout in H. apply num_zero_from in H; [|cbn; lia|cbn; lia|cbn; lia].
  assert (C : hybrid_count (combine ps qs) = Z.of_nat (length (filter (fun p => pt_mbr p && negb (pt_no_table p)) ps))).
  { unfold hybrid_count. f_equal. induction H as [|p q ps qs E H IH]; [reflexivity|]. cbn [combine filter fst snd]. rewrite E.
    destruct (pt_mbr p && negb (pt_no_table p)); cbn [length]; congruence. }
  unfold create. rewrite C. destruct t; cbn [is_hybrid andb]; try (split; [discriminate|intros [X _]; discriminate X]).
  match goal with |- context [4 <? ?x] => destruct (Z.ltb_spec 4 x) end; split; intros X; try discriminate; auto.
  - split; auto. lia.
  - destruct X as [_ X]. lia.
Qed.
Example wic_hybrid_example :
  exists s qs, layout GptHybrid (repeat (Part false false true false Primary 0 None 100 false) 4) = Some (s, qs)
    /\ create GptHybrid s (combine (repeat (Part false false true false Primary 0 None 100 false) 4) qs) = None.
Proof. eexists. eexists. split; vm_compute; reflexivity. Qed.
Print Assumptions wic_hybrid_mbr_slots.

(** C01, C02.  What is written to the table is what was laid out: one entry for
    every partition of the table, in order, at its place and of its size, except that
    a FAT boot partition of odd size is one sector shorter. *)
Theorem wic_entries_are_the_layout :
  forall t ps s qs,
    layout t ps = Some (s, qs) ->
    Forall2 (fun e pq => e_start e = pl_start (snd pq)
                         /\ e_kind e = match pl_type (snd pq) with Primary => EPrimary | Logical => ELogical end
                         /\ (e_size e = pl_size (snd pq)
                             \/ (pt_bootfat (fst pq) = true /\ Z.odd (pl_size (snd pq)) = true /\ e_size e = pl_size (snd pq) - 1)))
      (filter not_extended (create_entries t s (combine ps qs)))
      (filter (fun pq => negb (pt_no_table (fst pq))) (combine ps qs)).
Proof.
  intros t ps s qs H. unfold layout in H. apply num_zero_from in H; [|cbn; lia|cbn; lia|cbn; lia].
  induction H as [|p q ps qs E H IH]; [constructor|]. cbn [combine create_entries filter fst]. rewrite E.
  destruct (pt_no_table p); cbn [negb]; [exact IH|]. rewrite filter_app.
  replace (filter not_extended (if is_msdos t && (pl_num q =? l_extpart s) then [Entry EExtended (pl_start q - 2) (l_extsize s)] else [])) with (@nil entry) by (destruct (_ && _); reflexivity).
  cbn [app filter]. replace (not_extended (Entry (kind_of (pl_type q)) (pl_start q) (created_size p q))) with true by (destruct (pl_type q); reflexivity).
  constructor; auto. cbn [e_start e_kind e_size fst snd]. split; [reflexivity|]. split; [destruct (pl_type q); reflexivity|].
  unfold created_size. destruct (pt_bootfat p) eqn:B; cbn [andb]; auto. destruct (pl_size q mod 2 =? 0) eqn:M; cbn [negb]; auto.
  right. repeat split; auto. rewrite Zmod_odd in M. destruct (Z.odd (pl_size q)); auto.
Qed.
Print Assumptions wic_entries_are_the_layout.
