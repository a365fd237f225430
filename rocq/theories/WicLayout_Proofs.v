From Coq Require Import ZArith List Bool Sorting.Sorted Lia.
From Verif Require Import WicLayout_Model WicLayout_Spec.
Import ListNotations.
Open Scope Z_scope.

Lemma size_sec_2 : forall p, size_sec p = 2 * pt_disk_size p.
Proof.
  intro p. unfold size_sec, SECTOR_SIZE.
  replace (pt_disk_size p * 1024) with ((2 * pt_disk_size p) * 512) by lia.
  apply Z.div_mul. lia.
Qed.

Lemma align_mul : forall a, a * 1024 / SECTOR_SIZE = 2 * a.
Proof.
  intro a. unfold SECTOR_SIZE. replace (a * 1024) with ((2 * a) * 512) by lia.
  apply Z.div_mul. lia.
Qed.

Lemma align_skip_spec : forall al off,
  0 <= al -> 0 <= align_skip al off /\ aligned_pos al off (off + align_skip al off).
Proof.
  intros al off Hal. unfold align_skip, aligned_pos.
  destruct (al =? 0) eqn:E. { split; lia. }
  apply Z.eqb_neq in E. rewrite align_mul.
  assert (Hm : 0 < 2 * al) by lia.
  pose proof (Z.mod_pos_bound off (2 * al) Hm) as Hb.
  pose proof (Z.div_mod off (2 * al) ltac:(lia)) as Hd.
  destruct (off mod (2 * al) =? 0) eqn:E0.
  - apply Z.eqb_eq in E0. split; [lia|]. unfold least_multiple. repeat split.
    + lia.
    + exists (off / (2 * al)). lia.
    + intros y Hy _. lia.
  - apply Z.eqb_neq in E0. split; [lia|]. unfold least_multiple. repeat split.
    + lia.
    + exists (off / (2 * al) + 1). lia.
    + intros y Hy [k Hk]. subst y.
      assert (off / (2 * al) < k) by nia. nia.
Qed.

Lemma aligned_pos_ge : forall al lo x, aligned_pos al lo x -> lo <= x.
Proof.
  intros al lo x. unfold aligned_pos, least_multiple.
  destruct (al =? 0); intros; [lia|tauto].
Qed.

Lemma aligned_pos_fun : forall al lo x y,
  aligned_pos al lo x -> aligned_pos al lo y -> x = y.
Proof.
  intros al lo x y. unfold aligned_pos, least_multiple.
  destruct (al =? 0); [lia|].
  intros (H1 & H2 & H3) (H4 & H5 & H6).
  specialize (H3 y H4 H5). specialize (H6 x H1 H2). lia.
Qed.

(** The offset before placing the next partition. *)
Definition free_of (t : ptable) (s : lstate) : Z :=
  if l_numpart s + 1 =? 1 then l_offset s + overhead t else l_offset s.

Lemma overhead_first : forall t, overhead t = first_usable t.
Proof. intros []; reflexivity. Qed.

(** Decomposition of one successful step. *)
Lemma layout_step_inv : forall t n s p s' q,
  sane p -> 0 <= l_numpart s ->
  layout_step t n s p = Some (s', q) ->
  ~ forbidden t p /\
  place_ok t (free_of t s) p q /\
  l_offset s' = pl_end q /\ l_numpart s' = l_numpart s + 1 /\
  pl_type q = eff_type t n s p /\
  l_realpart s' = (if pt_no_table p then l_realpart s else l_realpart s + 1).
Proof.
  intros t n s p s' q [Hal Hsz] Hnp H. unfold layout_step in H.
  destruct (is_msdos t && pt_has_name p) eqn:E1; [discriminate|].
  destruct (is_msdos t && pt_has_ptype p) eqn:E2; [discriminate|].
  destruct (pt_mbr p && negb (is_hybrid t)) eqn:E3; [discriminate|].
  assert (Hforb : ~ forbidden t p).
  { intros [[-> [Hn|Hn]]|[Hh Hm]].
    - simpl in E1. congruence.
    - simpl in E2. congruence.
    - rewrite Hm in E3. destruct t; simpl in E3; congruence. }
  split; [exact Hforb|].
  set (free := free_of t s).
  change (if l_numpart s + 1 =? 1 then l_offset s + overhead t else l_offset s)
    with (free_of t s) in H.
  fold free in H.
  set (ty := eff_type t n s p) in *.
  set (off1 := if is_msdos t && is_logical ty then free + 2 else free) in *.
  pose proof (align_skip_spec (pt_align p) off1 Hal) as [Hsk Hpos].
  set (skip := align_skip (pt_align p) off1) in *.
  assert (Hcore : forall start q0,
     pl_start q0 = start -> pl_size q0 = size_sec p -> pl_type q0 = ty ->
     match pt_offset p with
     | None => Some (off1 + skip)
     | Some o => let os := o / SECTOR_SIZE in
         if negb (os * SECTOR_SIZE =? o) then None
         else if os - (off1 + skip) <? 0 then None else Some os
     end = Some start -> place_ok t free p q0).
  { intros start q0 Hst Hs Hty Hpl. unfold place_ok.
    rewrite Hs, size_sec_2. split; [reflexivity|].
    assert (Hebr : free + ebr t q0 = off1).
    { unfold off1, ebr. rewrite Hty. destruct t, ty; simpl; lia. }
    rewrite Hebr. destruct (pt_offset p) as [o|].
    - cbv zeta in Hpl.
      destruct (negb (o / SECTOR_SIZE * SECTOR_SIZE =? o)) eqn:Eo; [discriminate|].
      destruct (o / SECTOR_SIZE - (off1 + skip) <? 0) eqn:Ed; [discriminate|].
      injection Hpl as Hpl. apply negb_false_iff, Z.eqb_eq in Eo.
      apply Z.ltb_ge in Ed. unfold SECTOR_SIZE in *. split; [lia|].
      exists (off1 + skip). split; [exact Hpos|lia].
    - injection Hpl as Hpl. rewrite Hst, <- Hpl. exact Hpos. }
  match type of H with
  | match ?X with _ => _ end = _ => destruct X as [start|] eqn:Epl
  end; [|discriminate].
  destruct (is_msdos t && negb (pt_no_table p)) eqn:Et.
  - destruct ty eqn:Ety.
    + injection H as <- <-. cbn [pl_start pl_size pl_type l_offset l_numpart l_realpart].
      repeat split; try reflexivity.
      all: try (eapply Hcore; try reflexivity; try exact Epl).
    + destruct (l_extpart s =? 0); injection H as <- <-;
        cbn [pl_start pl_size pl_type l_offset l_numpart l_realpart];
        repeat split; try reflexivity;
        try (eapply Hcore; try reflexivity; try exact Epl).
  - injection H as <- <-. cbn [pl_start pl_size pl_type l_offset l_numpart l_realpart].
    repeat split; try reflexivity; try (eapply Hcore; try reflexivity; try exact Epl).
Qed.

(** Rejection is justified. *)
Lemma layout_step_none : forall t n s p,
  0 <= pt_align p -> layout_step t n s p = None ->
  forbidden t p \/
  (forall q, pl_type q = eff_type t n s p -> ~ place_ok t (free_of t s) p q).
Proof.
  intros t n s p Hal H. unfold layout_step in H.
  destruct (is_msdos t && pt_has_name p) eqn:E1.
  { left. left. apply andb_true_iff in E1. destruct E1 as [Ha Hb].
    destruct t; try discriminate. split; [reflexivity|left; assumption]. }
  destruct (is_msdos t && pt_has_ptype p) eqn:E2.
  { left. left. apply andb_true_iff in E2. destruct E2 as [Ha Hb].
    destruct t; try discriminate. split; [reflexivity|right; assumption]. }
  destruct (pt_mbr p && negb (is_hybrid t)) eqn:E3.
  { left. right. apply andb_true_iff in E3. destruct E3 as [Ha Hb].
    destruct t; try discriminate; split; congruence. }
  right. intros q Hty [_ Hok].
  change (if l_numpart s + 1 =? 1 then l_offset s + overhead t else l_offset s)
    with (free_of t s) in H.
  set (free := free_of t s) in *. rewrite <- Hty in H.
  set (off1 := if is_msdos t && is_logical (pl_type q) then free + 2 else free) in *.
  pose proof (align_skip_spec (pt_align p) off1 Hal) as [Hsk Hpos].
  set (skip := align_skip (pt_align p) off1) in *.
  assert (Hebr : free + ebr t q = off1).
  { unfold off1, ebr. destruct t, (pl_type q); simpl; lia. }
  rewrite Hebr in Hok.
  assert (Hsome : exists start,
     match pt_offset p with
     | None => Some (off1 + skip)
     | Some o => let os := o / SECTOR_SIZE in
         if negb (os * SECTOR_SIZE =? o) then None
         else if os - (off1 + skip) <? 0 then None else Some os
     end = Some start).
  { destruct (pt_offset p) as [o|]; [|eexists; reflexivity].
    destruct Hok as [Ho [a [Ha Hle]]]. cbv zeta.
    pose proof (aligned_pos_fun _ _ _ _ Ha Hpos) as ->.
    assert (Hdiv : o / SECTOR_SIZE = pl_start q).
    { unfold SECTOR_SIZE. rewrite <- Ho. apply Z.div_mul. lia. }
    rewrite Hdiv. unfold SECTOR_SIZE. rewrite Ho, Z.eqb_refl. simpl.
    destruct (pl_start q - (off1 + skip) <? 0) eqn:Ed.
    - apply Z.ltb_lt in Ed. lia.
    - eexists. reflexivity. }
  destruct Hsome as [start Hs].
  match type of H with
  | match ?X with _ => _ end = _ => destruct X as [start'|] eqn:Epl
  end; [|discriminate].
  destruct (is_msdos t && negb (pt_no_table p)); [|discriminate].
  destruct (pl_type q); [discriminate|].
  destruct (l_extpart s =? 0); discriminate.
Qed.

Lemma layout_from_laid : forall t n ps s s' qs,
  Forall sane ps -> 0 <= l_numpart s ->
  layout_from t n s ps = Some (s', qs) ->
  laid t (free_of t s) ps qs /\ Forall (fun p => ~ forbidden t p) ps /\
  l_offset s' = match qs with [] => l_offset s | _ => pl_end (last qs (Placed 0 0 0 Primary)) end.
Proof.
  intros t n ps. induction ps as [|p ps IH]; intros s s' qs Hs Hn H; simpl in H.
  - injection H as <- <-. repeat split; constructor.
  - inversion Hs as [|? ? Hp Hps]; subst.
    destruct (layout_step t n s p) as [[s1 q]|] eqn:E1; [|discriminate].
    destruct (layout_from t n s1 ps) as [[s2 qs2]|] eqn:E2; [|discriminate].
    injection H as <- <-.
    destruct (layout_step_inv _ _ _ _ _ _ Hp Hn E1) as (Hf & Hok & Hoff & Hnp & _).
    assert (Hn1 : 0 <= l_numpart s1) by lia.
    destruct (IH s1 s2 qs2 Hps Hn1 E2) as (Hl & Hfs & Ho).
    assert (Hfree : free_of t s1 = pl_end q).
    { unfold free_of. destruct (l_numpart s1 + 1 =? 1) eqn:E; [apply Z.eqb_eq in E; lia|exact Hoff]. }
    split; [|split].
    + constructor; [exact Hok|]. rewrite <- Hfree. exact Hl.
    + constructor; assumption.
    + destruct qs2 as [|q2 qs2]; [rewrite Ho; simpl; exact Hoff|].
      rewrite Ho. reflexivity.
Qed.

Lemma laid_length : forall t f ps qs, laid t f ps qs -> length qs = length ps.
Proof. induction 1; simpl; congruence. Qed.

Lemma ebr_nonneg : forall t q, 0 <= ebr t q.
Proof. intros [] q; unfold ebr; destruct (pl_type q); lia. Qed.

Lemma place_ok_bounds : forall t f p q,
  sane p -> place_ok t f p q -> f + ebr t q <= pl_start q /\ pl_start q <= pl_end q.
Proof.
  intros t f p q [Ha Hs] [Hsz H]. unfold pl_end. split; [|lia].
  destruct (pt_offset p).
  - destruct H as [_ [a [Hal Hle]]]. apply aligned_pos_ge in Hal. lia.
  - apply aligned_pos_ge in H. exact H.
Qed.

Lemma laid_bounds : forall t f ps qs,
  Forall sane ps -> laid t f ps qs ->
  Forall (fun q => f + ebr t q <= pl_start q) qs /\
  StronglySorted (fun a b => pl_end a + ebr t b <= pl_start b) qs /\
  Forall (fun q => pl_end q <= match qs with [] => f | _ => pl_end (last qs (Placed 0 0 0 Primary)) end) qs /\
  Forall2 (fun p q => pl_size q = 2 * pt_disk_size p) ps qs.
Proof.
  intros t f ps qs Hs H. induction H as [f|f p ps q qs Hok Hl IH].
  - repeat split; constructor.
  - inversion Hs as [|? ? Hp Hps]; subst.
    destruct (IH Hps) as (H1 & H2 & H3 & H4).
    destruct (place_ok_bounds _ _ _ _ Hp Hok) as [Hb1 Hb2].
    pose proof (ebr_nonneg t q).
    repeat split.
    + constructor; [exact Hb1|].
      eapply Forall_impl; [|exact H1]. simpl. intros; lia.
    + constructor; [exact H2|exact H1].
    + constructor.
      * destruct qs as [|q2 qs]; [simpl; lia|].
        change (last (q :: q2 :: qs) (Placed 0 0 0 Primary)) with (last (q2 :: qs) (Placed 0 0 0 Primary)).
        rewrite Forall_forall in H1, H3.
        specialize (H1 q2 (or_introl eq_refl)). specialize (H3 q2 (or_introl eq_refl)).
        pose proof (ebr_nonneg t q2).
        inversion Hl as [|? p2 ps2 ? ? Hok2 Hl2]; subst.
        inversion Hps as [|? ? Hp2 Hps2]; subst.
        destruct (place_ok_bounds _ _ _ _ Hp2 Hok2). lia.
      * destruct qs as [|q2 qs]; [constructor|].
        change (last (q :: q2 :: qs) (Placed 0 0 0 Primary)) with (last (q2 :: qs) (Placed 0 0 0 Primary)).
        exact H3.
    + constructor; [exact (proj1 Hok)|exact H4].
Qed.

Lemma layout_disjoint : forall t extra ps s qs,
  Forall sane ps -> 0 <= extra -> layout t ps = Some (s, qs) ->
  length qs = length ps /\
  Forall2 (fun p q => pl_size q = 2 * pt_disk_size p) ps qs /\
  Forall (fun q => first_usable t + ebr t q <= pl_start q) qs /\
  StronglySorted (fun a b => pl_end a + ebr t b <= pl_start b) qs /\
  Forall (fun q => (pl_end q + tail_sectors t) * 512 <= min_size t extra s) qs.
Proof.
  intros t extra ps s qs Hs He H. unfold layout in H.
  destruct (layout_from_laid t _ ps lstate0 _ _ Hs (Z.le_refl 0) H) as (Hl & Hf & Ho).
  change (free_of t lstate0) with (overhead t) in Hl. rewrite overhead_first in Hl.
  destruct (laid_bounds _ _ _ _ Hs Hl) as (H1 & H2 & H3 & H4).
  repeat split; try assumption.
  - eapply laid_length; eassumption.
  - unfold min_size. destruct qs as [|q0 qs0]; [constructor|].
    rewrite Ho. eapply Forall_impl; [|exact H3]. simpl. intros q Hq.
    unfold tail_sectors, is_gptish, GPT_OVERHEAD, SECTOR_SIZE. destruct t; lia.
Qed.

Lemma layout_exact : forall t ps s qs,
  Forall sane ps -> layout t ps = Some (s, qs) ->
  laid t (first_usable t) ps qs /\ Forall (fun p => ~ forbidden t p) ps.
Proof.
  intros t ps s qs Hs H. unfold layout in H.
  destruct (layout_from_laid t _ ps lstate0 _ _ Hs (Z.le_refl 0) H) as (Hl & Hf & Ho).
  change (free_of t lstate0) with (overhead t) in Hl. rewrite overhead_first in Hl.
  split; assumption.
Qed.

Lemma layout_from_none : forall t n ps s,
  Forall sane ps -> 0 <= l_numpart s ->
  layout_from t n s ps = None ->
  exists pre p post qs, ps = pre ++ p :: post /\
    laid t (free_of t s) pre qs /\
    (forbidden t p \/
     exists ty, forall q, pl_type q = ty ->
       ~ place_ok t (match qs with [] => free_of t s | _ => pl_end (last qs (Placed 0 0 0 Primary)) end) p q).
Proof.
  intros t n ps. induction ps as [|p ps IH]; intros s Hs Hn H; simpl in H; [discriminate|].
  inversion Hs as [|? ? Hp Hps]; subst.
  destruct (layout_step t n s p) as [[s1 q]|] eqn:E1.
  - destruct (layout_from t n s1 ps) as [[s2 qs2]|] eqn:E2; [discriminate|].
    destruct (layout_step_inv _ _ _ _ _ _ Hp Hn E1) as (Hf & Hok & Hoff & Hnp & _).
    assert (Hn1 : 0 <= l_numpart s1) by lia.
    destruct (IH s1 Hps Hn1 E2) as (pre & p' & post & qs & Heq & Hl & Hrej).
    assert (Hfree : free_of t s1 = pl_end q).
    { unfold free_of. destruct (l_numpart s1 + 1 =? 1) eqn:E; [apply Z.eqb_eq in E; lia|exact Hoff]. }
    rewrite Hfree in *.
    exists (p :: pre), p', post, (q :: qs). subst ps. repeat split.
    + constructor; assumption.
    + destruct Hrej as [Hrej|[ty Hrej]]; [left; exact Hrej|right; exists ty].
      destruct qs as [|q2 qs]; exact Hrej.
  - exists [], p, ps, []. repeat split; [constructor|].
    destruct (layout_step_none _ _ _ _ (proj1 Hp) E1) as [Hf|Hf]; [left; exact Hf|].
    right. eexists. exact Hf.
Qed.

Lemma layout_rejects : forall t ps,
  Forall sane ps -> layout t ps = None ->
  exists pre p post qs, ps = pre ++ p :: post /\
    laid t (first_usable t) pre qs /\
    (forbidden t p \/
     exists ty, forall q, pl_type q = ty ->
       ~ place_ok t (match qs with [] => first_usable t | _ => pl_end (last qs (Placed 0 0 0 Primary)) end) p q).
Proof.
  intros t ps Hs H. unfold layout in H.
  destruct (layout_from_none t _ ps lstate0 Hs (Z.le_refl 0) H) as (pre & p & post & qs & H1 & H2 & H3).
  change (free_of t lstate0) with (overhead t) in *. rewrite overhead_first in *.
  exists pre, p, post, qs. auto.
Qed.

(* ------------------------------------------------------------------ *)
(** Numbering. *)

Definition in_table (p : part) : bool := negb (pt_no_table p).
Definition nreal_of (ps : list part) : Z := Z.of_nat (length (filter in_table ps)).

Lemma nreal_cons : forall p ps,
  nreal_of (p :: ps) = nreal_of ps + (if pt_no_table p then 0 else 1).
Proof.
  intros p ps. unfold nreal_of, in_table. simpl. destruct (pt_no_table p); simpl length; lia.
Qed.
Lemma nreal_nonneg : forall ps, 0 <= nreal_of ps.
Proof. intro. unfold nreal_of. lia. Qed.

(** Invariant of the msdos counters when all declared types are primary.
    [k] partitions of the table have been placed, [n] is the total. *)
Definition cnt_inv (n k : Z) (s : lstate) : Prop :=
  l_realpart s = k /\
  (if (n <=? 4) || (k <=? 3)
   then l_primary s = k /\ l_extpart s = 0 /\ l_logcnt s = 0
   else l_primary s = 4 /\ l_extpart s = 5 /\ l_logcnt s = k - 3).

Lemma layout_nums_primary : forall t n ps s s' qs k,
  Forall (fun p => pt_type p = Primary) ps ->
  0 <= k -> k + nreal_of ps <= n ->
  (if is_msdos t then cnt_inv n k s else l_realpart s = k) ->
  layout_from t n s ps = Some (s', qs) ->
  map pl_num qs = realnums_from t n k ps.
Proof.
  intros t n ps. induction ps as [|p ps IH]; intros s s' qs k Hty Hk Hn Hinv H; simpl in H.
  - injection H as <- <-. reflexivity.
  - inversion Hty as [|? ? Hp Hps]; subst.
    destruct (layout_step t n s p) as [[s1 q]|] eqn:E1; [|discriminate].
    destruct (layout_from t n s1 ps) as [[s2 qs2]|] eqn:E2; [|discriminate].
    injection H as <- <-. rewrite nreal_cons in Hn.
    pose proof (nreal_nonneg ps).
    unfold layout_step in E1.
    destruct (is_msdos t && pt_has_name p); [discriminate|].
    destruct (is_msdos t && pt_has_ptype p); [discriminate|].
    destruct (pt_mbr p && negb (is_hybrid t)); [discriminate|].
    match type of E1 with
    | match ?X with _ => _ end = _ => destruct X as [start|] eqn:Epl
    end; [|discriminate].
    clear Epl.
    destruct (is_msdos t) eqn:Em.
    + simpl andb in E1. unfold eff_type in E1. try rewrite Em in E1.
      destruct Hinv as [Hrp Hinv].
      destruct (pt_no_table p) eqn:Ent; cbn [negb] in E1.
      * injection E1 as <- <-. cbn [map pl_num realnums_from]. rewrite Ent. f_equal.
        apply (IH _ _ _ k Hps Hk ltac:(lia)) in E2; [exact E2|].
        try rewrite Em; split; [exact Hrp|]. cbn [l_primary l_extpart l_logcnt]. exact Hinv.
      * cbn [map realnums_from]. rewrite Ent. try rewrite Em. cbn [andb].
        destruct ((n <=? 4) || (k <=? 3)) eqn:Er.
        -- destruct Hinv as (Hpr & Hex & Hlc).
           destruct ((3 <? l_primary s) || ((l_extpart s =? 0) && (3 <=? l_primary s) && (4 <? n))) eqn:Ef.
           ++ (* becomes the first logical partition *)
              rewrite Hex in *. cbn [Z.eqb andb] in Ef.
              assert (k = 3 /\ 4 < n) as [-> Hn4].
              { apply orb_true_iff in Er. apply orb_true_iff in Ef.
                rewrite Z.leb_le, Z.leb_le in Er. rewrite Z.ltb_lt, andb_true_iff, Z.leb_le, Z.ltb_lt in Ef.
                lia. }
              cbn [Z.eqb] in E1. injection E1 as <- <-. cbn [pl_num].
              rewrite Hlc. replace (3 <? 3 + 1) with true by reflexivity.
              replace (4 <? n) with true by (symmetry; apply Z.ltb_lt; lia). cbn [andb].
              f_equal.
              apply (IH _ _ _ (3 + 1) Hps ltac:(lia) ltac:(lia)) in E2; [exact E2|].
              try rewrite Em; split; cbn [l_realpart l_primary l_extpart l_logcnt]; [lia|].
              replace (n <=? 4) with false by (symmetry; apply Z.leb_gt; lia).
              replace (3 + 1 <=? 3) with false by reflexivity. cbn [orb]. lia.
           ++ rewrite Hp in E1. injection E1 as <- <-. cbn [pl_num].
              apply orb_false_iff in Ef. destruct Ef as [Ef1 Ef2].
              rewrite Hex in Ef2. cbn [Z.eqb andb] in Ef2.
              apply Z.ltb_ge in Ef1. apply andb_false_iff in Ef2.
              rewrite Z.leb_gt, Z.ltb_ge in Ef2.
              assert (Hif : (3 <? k + 1) && (4 <? n) = false).
              { apply andb_false_iff. rewrite Z.ltb_ge, Z.ltb_ge. lia. }
              rewrite Hif, Hpr. f_equal.
              apply (IH _ _ _ (k + 1) Hps ltac:(lia) ltac:(lia)) in E2; [exact E2|].
              try rewrite Em; split; cbn [l_realpart l_primary l_extpart l_logcnt]; [lia|].
              assert (Hr2 : (n <=? 4) || (k + 1 <=? 3) = true).
              { apply orb_true_iff. rewrite Z.leb_le, Z.leb_le. lia. }
              rewrite Hr2. lia.
        -- destruct Hinv as (Hpr & Hex & Hlc).
           apply orb_false_iff in Er. rewrite Z.leb_gt, Z.leb_gt in Er.
           rewrite Hpr in E1. replace (3 <? 4) with true in E1 by reflexivity.
           cbn [orb] in E1. rewrite Hex in E1. cbn [Z.eqb] in E1.
           injection E1 as <- <-. cbn [pl_num].
           replace (3 <? k + 1) with true by (symmetry; apply Z.ltb_lt; lia).
           replace (4 <? n) with true by (symmetry; apply Z.ltb_lt; lia). cbn [andb].
           f_equal; [lia|].
           apply (IH _ _ _ (k + 1) Hps ltac:(lia) ltac:(lia)) in E2; [exact E2|].
           try rewrite Em; split; cbn [l_realpart l_primary l_extpart l_logcnt]; [lia|].
           assert (Hr2 : (n <=? 4) || (k + 1 <=? 3) = false).
           { apply orb_false_iff. rewrite Z.leb_gt, Z.leb_gt. lia. }
           rewrite Hr2. lia.
    + cbn [andb] in E1. injection E1 as <- <-. cbn [map realnums_from pl_num]. try rewrite Em. cbn [andb].
      destruct (pt_no_table p) eqn:Ent.
      * f_equal. apply (IH _ _ _ k Hps Hk ltac:(lia)) in E2; [exact E2|].
        try rewrite Em. cbn [l_realpart]. exact Hinv.
      * rewrite Hinv. f_equal.
        apply (IH _ _ _ (k + 1) Hps ltac:(lia) ltac:(lia)) in E2; [exact E2|].
        try rewrite Em. cbn [l_realpart]. lia.
Qed.

Lemma layout_realnum : forall t ps s qs,
  Forall (fun p => pt_type p = Primary) ps ->
  layout t ps = Some (s, qs) -> map pl_num qs = realnums t ps.
Proof.
  intros t ps s qs Hty H. unfold layout in H. unfold realnums.
  eapply layout_nums_primary; [exact Hty| | | |exact H].
  - lia.
  - change (nreal_of ps) with (num_real ps). lia.
  - destruct (is_msdos t); [|reflexivity].
    split; [reflexivity|].
    replace (0 <=? 3) with true by reflexivity. rewrite orb_true_r.
    repeat split; reflexivity.
Qed.

(* ------------------------------------------------------------------ *)
(** The msdos counters for arbitrary declared types.  [k] table partitions
    have been placed, [m] table partitions are still to come (so n = k + m). *)
Definition minv (n k : Z) (s : lstate) : Prop :=
  0 <= l_primary s <= 4 /\ 0 <= l_logcnt s /\
  ((l_extpart s = 0 /\ l_logcnt s = 0 /\ l_primary s = k /\ (4 < n -> l_primary s <= 3))
   \/ (l_extpart s = 5 /\ 1 <= l_logcnt s)).

Lemma msdos_step : forall n k s p s' q,
  minv n k s -> k < n \/ pt_no_table p = true ->
  layout_step Msdos n s p = Some (s', q) ->
  let k' := if pt_no_table p then k else k + 1 in
  minv n k' s' /\
  (l_extpart s = 5 -> l_extpart s' = 5) /\
  (if pt_no_table p then pl_num q = 0 /\ l_primary s' = l_primary s /\ l_logcnt s' = l_logcnt s
                         /\ l_extpart s' = l_extpart s
   else match pl_type q with
        | Primary => pl_num q = l_primary s + 1 /\ l_primary s' = l_primary s + 1 /\
                     l_logcnt s' = l_logcnt s /\ l_extpart s' = l_extpart s /\
                     1 <= pl_num q <= 4
        | Logical => pl_num q = l_logcnt s + 5 /\ l_logcnt s' = l_logcnt s + 1 /\
                     l_extpart s' = 5 /\
                     l_primary s' = (if l_extpart s =? 0 then l_primary s + 1 else l_primary s)
        end).
Proof.
  intros n k s p s' q Hinv Hk H. unfold layout_step in H. cbn [is_msdos andb is_hybrid negb] in H.
  destruct (pt_has_name p); [discriminate|].
  destruct (pt_has_ptype p); [discriminate|].
  destruct (pt_mbr p && true); [discriminate|].
  match type of H with
  | match ?X with _ => _ end = _ => destruct X as [start|]
  end; [|discriminate].
  unfold eff_type in H. cbn [is_msdos] in H.
  destruct Hinv as (Hp & Hl & Hc).
  destruct (pt_no_table p) eqn:Ent; cbn [negb] in H.
  - injection H as <- <-. cbn. unfold minv. cbn. repeat split; try lia; try tauto.
  - destruct Hk as [Hk|Hk]; [|discriminate].
    destruct ((3 <? l_primary s) || ((l_extpart s =? 0) && (3 <=? l_primary s) && (4 <? n))) eqn:Ef.
    + destruct (l_extpart s =? 0) eqn:Ee.
      * injection H as <- <-. cbn. apply Z.eqb_eq in Ee. unfold minv. cbn.
        destruct Hc as [(He & Hlc & Hpk & H4)|(He & _)]; [|lia].
        apply orb_true_iff in Ef. rewrite Z.ltb_lt in Ef. cbn [andb] in Ef.
        rewrite andb_true_iff, Z.leb_le, Z.ltb_lt in Ef.
        repeat split; try lia.
      * injection H as <- <-. cbn. apply Z.eqb_neq in Ee. unfold minv. cbn.
        destruct Hc as [(He & _)|(He & Hlc)]; [lia|].
        repeat split; try lia.
    + apply orb_false_iff in Ef. destruct Ef as [Ef1 Ef2]. apply Z.ltb_ge in Ef1.
      destruct (pt_type p) eqn:Ety.
      * injection H as <- <-. cbn. unfold minv. cbn.
        assert (Hno : l_extpart s = 0 -> 4 < n -> l_primary s <= 2).
        { intros He Hn. rewrite He in Ef2. cbn in Ef2. apply andb_false_iff in Ef2.
          rewrite Z.leb_gt, Z.ltb_ge in Ef2. lia. }
        repeat split; try lia.
      * destruct (l_extpart s =? 0) eqn:Ee.
        -- injection H as <- <-. cbn. apply Z.eqb_eq in Ee. unfold minv. cbn.
           destruct Hc as [(He & Hlc & Hpk & H4)|(He & _)]; [|lia].
           repeat split; try lia.
        -- injection H as <- <-. cbn. apply Z.eqb_neq in Ee. unfold minv. cbn.
           destruct Hc as [(He & _)|(He & Hlc)]; [lia|].
           repeat split; try lia.
Qed.

Lemma msdos_from : forall n ps s s' qs k,
  minv n k s -> k + nreal_of ps <= n ->
  layout_from Msdos n s ps = Some (s', qs) ->
  let es := create_entries Msdos s' (combine ps qs) in
  minv n (k + nreal_of ps) s' /\
  (l_extpart s = 5 -> l_extpart s' = 5) /\
  map snd (filter (fun en => not_extended (fst en))
                  (combine es (parted_numbers Msdos (l_primary s) (l_logcnt s) es)))
    = filter (fun x => negb (x =? 0)) (map pl_num qs) /\
  l_primary s + Z.of_nat (length (filter slot es)) = l_primary s'.
Proof.
  intros n ps. induction ps as [|p ps IH]; intros s s' qs k Hinv Hn H; simpl in H.
  - injection H as <- <-. change (nreal_of []) with 0. rewrite Z.add_0_r.
    split; [exact Hinv|]. split; [auto|]. split; [reflexivity|]. cbn. lia.
  - destruct (layout_step Msdos n s p) as [[s1 q]|] eqn:E1; [|discriminate].
    destruct (layout_from Msdos n s1 ps) as [[s2 qs2]|] eqn:E2; [|discriminate].
    injection H as <- <-. rewrite nreal_cons in Hn. pose proof (nreal_nonneg ps) as Hnn.
    assert (Hk : k < n \/ pt_no_table p = true)
      by (destruct (pt_no_table p); [right; reflexivity|left; lia]).
    destruct (msdos_step _ _ _ _ _ _ Hinv Hk E1) as (Hinv1 & Hex & Hstep).
    rewrite nreal_cons.
    destruct (pt_no_table p) eqn:Ent.
    + destruct Hstep as (Hnum & Hpr & Hlc & Hee).
      destruct (IH _ _ _ _ Hinv1 ltac:(lia) E2) as (I1 & I2 & I3 & I4).
      cbn [combine create_entries map filter]. rewrite Hnum. cbn [Z.eqb negb].
      rewrite Hpr, Hlc in *. replace (k + (nreal_of ps + 0)) with (k + nreal_of ps) by lia.
      split; [exact I1|]. split; [intro He5; apply I2; rewrite Hee; exact He5|]. split; [exact I3|exact I4].
    + destruct (IH _ _ _ _ Hinv1 ltac:(lia) E2) as (I1 & I2 & I3 & I4).
      replace (k + (nreal_of ps + 1)) with (k + 1 + nreal_of ps) by lia.
      split; [exact I1|]. split; [auto|].
      pose proof Hinv1 as (Hp1 & Hl1 & Hc1).
      assert (Hext2 : l_extpart s2 = 0 \/ l_extpart s2 = 5).
      { destruct I1 as (_ & _ & [?|?]); [left|right]; tauto. }
      cbn [combine create_entries map filter]. 
      destruct (pl_type q) eqn:Ety.
      * destruct Hstep as (Hnum & Hpr & Hlc & Hee & Hrange).
        assert (Hnz : pl_num q =? 0 = false) by (apply Z.eqb_neq; lia).
        assert (Hne : pl_num q =? l_extpart s2 = false) by (apply Z.eqb_neq; lia).
        rewrite Hnz, Hne. cbn [is_msdos andb app negb kind_of].
        cbn [combine parted_numbers is_msdos is_elogical e_kind andb filter not_extended slot fst map snd].
        rewrite Hpr, Hlc in *. split.
        -- rewrite I3. rewrite Hnum. reflexivity.
        -- cbn [length]. lia.
      * destruct Hstep as (Hnum & Hlc & Hee & Hpr).
        destruct Hinv as (Hp0 & Hl0 & Hc0).
        assert (Hnz : pl_num q =? 0 = false) by (apply Z.eqb_neq; lia).
        rewrite Hnz. cbn [is_msdos andb negb].
        rewrite (I2 Hee) in *.
        destruct (l_extpart s =? 0) eqn:Ee0.
        -- apply Z.eqb_eq in Ee0. destruct Hc0 as [(_ & Hlc0 & _)|(? & _)]; [|lia].
           assert (Heq : pl_num q =? 5 = true) by (apply Z.eqb_eq; lia).
           rewrite Heq. cbn [app kind_of].
           cbn [combine parted_numbers is_msdos is_elogical e_kind andb filter not_extended slot fst map snd].
           rewrite Hpr, Hlc in *. split.
           ++ rewrite I3. rewrite Hnum. f_equal. lia.
           ++ cbn [length]. lia.
        -- apply Z.eqb_neq in Ee0. destruct Hc0 as [(? & _)|(_ & Hlc0)]; [lia|].
           assert (Heq : pl_num q =? 5 = false) by (apply Z.eqb_neq; lia).
           rewrite Heq. cbn [app kind_of].
           cbn [combine parted_numbers is_msdos is_elogical e_kind andb filter not_extended slot fst map snd].
           rewrite Hpr, Hlc in *. split.
           ++ rewrite I3. rewrite Hnum. f_equal. lia.
           ++ lia.
Qed.

Lemma gpt_from : forall t n ps s s' qs nl,
  is_msdos t = false -> 0 <= l_realpart s ->
  layout_from t n s ps = Some (s', qs) ->
  let es := create_entries t s' (combine ps qs) in
  map snd (filter (fun en => not_extended (fst en))
                  (combine es (parted_numbers t (l_realpart s) nl es)))
    = filter (fun x => negb (x =? 0)) (map pl_num qs).
Proof.
  intros t n ps. induction ps as [|p ps IH]; intros s s' qs nl Ht Hr H; simpl in H.
  - injection H as <- <-. reflexivity.
  - destruct (layout_step t n s p) as [[s1 q]|] eqn:E1; [|discriminate].
    destruct (layout_from t n s1 ps) as [[s2 qs2]|] eqn:E2; [|discriminate].
    injection H as <- <-. unfold layout_step in E1. rewrite Ht in E1. cbn [andb] in E1.
    destruct (pt_mbr p && negb (is_hybrid t)); [discriminate|].
    match type of E1 with
    | match ?X with _ => _ end = _ => destruct X as [start|]
    end; [|discriminate].
    injection E1 as <- <-. 
    cbn [combine create_entries map filter pl_num].
    destruct (pt_no_table p) eqn:Ent.
    + cbn [Z.eqb negb]. apply (IH _ _ _ nl) in E2; [|exact Ht|cbn [l_realpart]; lia].
      cbn [l_realpart] in E2. exact E2.
    + assert (Hnz : l_realpart s + 1 =? 0 = false) by (apply Z.eqb_neq; lia).
      rewrite Hnz, Ht. cbn [andb app negb combine parted_numbers pl_type e_kind].
      rewrite Ht. cbn [andb filter map fst snd].
      apply (IH _ _ _ nl) in E2; [|exact Ht|cbn [l_realpart]; lia].
      cbn [l_realpart] in E2.
      assert (Hnx : forall a b c, not_extended (Entry (kind_of a) b c) = true)
        by (intros [] ? ?; reflexivity).
      rewrite Hnx. cbn [map snd]. rewrite E2. reflexivity.
Qed.

Lemma created_numbers : forall t ps s qs,
  layout t ps = Some (s, qs) ->
  let es := create_entries t s (combine ps qs) in
  map snd (filter (fun en => not_extended (fst en)) (combine es (parted_numbers t 0 0 es)))
    = filter (fun x => negb (x =? 0)) (map pl_num qs).
Proof.
  intros t ps s qs H. unfold layout in H. destruct t.
  - apply (msdos_from (num_real ps) ps lstate0 s qs 0); [| |exact H].
    + unfold minv. cbn. lia.
    + change (nreal_of ps) with (num_real ps). lia.
  - apply (gpt_from Gpt (num_real ps) ps lstate0 s qs 0); [reflexivity|cbn; lia|exact H].
  - apply (gpt_from GptHybrid (num_real ps) ps lstate0 s qs 0); [reflexivity|cbn; lia|exact H].
Qed.

Lemma msdos_slots : forall ps s qs,
  layout Msdos ps = Some (s, qs) ->
  (length (filter slot (create_entries Msdos s (combine ps qs))) <= 4)%nat.
Proof.
  intros ps s qs H. unfold layout in H.
  destruct (msdos_from (num_real ps) ps lstate0 s qs 0) as (I1 & _ & _ & I4); [| |exact H|].
  - unfold minv. cbn. lia.
  - change (nreal_of ps) with (num_real ps). lia.
  - destruct I1 as (Hp & _). cbn [l_primary lstate0] in I4. lia.
Qed.

(** Containment in the extended partition. *)
Lemma logical_step : forall n s p s' q,
  sane p -> pt_offset p = None -> pt_no_table p = false -> l_extpart s <> 0 ->
  1 <= l_numpart s -> pl_type q = Logical ->
  layout_step Msdos n s p = Some (s', q) ->
  l_offset s + 2 <= pl_start q /\ pl_end q = l_offset s' /\
  l_offset s' - l_extsize s' = l_offset s - l_extsize s /\
  l_extsize s <= l_extsize s' /\
  l_extpart s' = l_extpart s /\ l_numpart s' = l_numpart s + 1 /\
  0 <= pl_size q.
Proof.
  intros n s p s' q [Hal Hsz] Hoff Hnt Hext Hnp Hty H.
  unfold layout_step in H. cbn [is_msdos andb is_hybrid negb] in H.
  destruct (pt_has_name p); [discriminate|].
  destruct (pt_has_ptype p); [discriminate|].
  destruct (pt_mbr p && true); [discriminate|].
  rewrite Hoff, Hnt in H. cbn [negb] in H.
  destruct (l_numpart s + 1 =? 1) eqn:E1; [apply Z.eqb_eq in E1; lia|].
  destruct (l_extpart s =? 0) eqn:E0; [apply Z.eqb_eq in E0; lia|].
  pose proof (size_sec_2 p) as Hs2.
  destruct (eff_type Msdos n s p) eqn:Et.
  { injection H as <- <-. cbn in Hty. discriminate. }
  cbn [is_logical] in H.
  pose proof (align_skip_spec (pt_align p) (l_offset s + 2) Hal) as [Hsk _].
  injection H as <- <-. unfold pl_end.
  cbn [pl_start pl_size l_offset l_extsize l_extpart l_numpart].
  repeat split; lia.
Qed.

Definition ext_entries (es : list entry) := filter (fun e => negb (not_extended e)) es.

Lemma created_size_le : forall p q, created_size p q <= pl_size q.
Proof. intros. unfold created_size. destruct (_ && _); lia. Qed.

Lemma logical_run : forall n ps s s' qs a,
  Forall sane ps ->
  Forall (fun pq => pt_offset (fst pq) = None /\ pt_no_table (fst pq) = false
                             /\ pl_type (snd pq) = Logical) (combine ps qs) ->
  l_extpart s = 5 -> 1 <= l_logcnt s -> 1 <= l_numpart s ->
  l_offset s = a + l_extsize s -> 0 <= l_extsize s ->
  layout_from Msdos n s ps = Some (s', qs) ->
  (forall e, In e (create_entries Msdos s' (combine ps qs)) ->
     e_kind e = ELogical /\ a <= e_start e - 2 /\ e_start e + e_size e <= a + l_extsize s') /\
  l_extsize s <= l_extsize s' /\ l_extpart s' = 5.
Proof.
  intros n ps. induction ps as [|p ps IH]; intros s s' qs a Hsane Hg He Hl Hnp Hoff Hes H; simpl in H.
  - injection H as <- <-. split; [intros e []|]. lia.
  - destruct (layout_step Msdos n s p) as [[s1 q]|] eqn:E1; [|discriminate].
    destruct (layout_from Msdos n s1 ps) as [[s2 qs2]|] eqn:E2; [|discriminate].
    injection H as <- <-. cbn [combine] in Hg.
    inversion Hsane as [|? ? Hp Hps]; subst. inversion Hg as [|? ? Hpq Hg']; subst.
    cbn [fst snd] in Hpq. destruct Hpq as (Ho & Hnt & Hty).
    assert (Hne : l_extpart s <> 0) by lia.
    destruct (logical_step _ _ _ _ _ Hp Ho Hnt Hne Hnp Hty E1)
      as (L1 & L2 & L3 & L4 & L5 & L6 & L7).
    assert (Hcnt : l_logcnt s1 = l_logcnt s + 1 /\ pl_num q = l_logcnt s + 5).
    { unfold layout_step in E1. cbn [is_msdos andb is_hybrid negb] in E1.
      destruct (pt_has_name p); [discriminate|].
      destruct (pt_has_ptype p); [discriminate|].
      destruct (pt_mbr p && true); [discriminate|].
      rewrite Ho, Hnt in E1. cbn [negb] in E1.
      destruct (eff_type Msdos n s p); [injection E1 as <- <-; cbn in Hty; discriminate|].
      destruct (l_extpart s =? 0); injection E1 as <- <-; cbn; lia. }
    destruct Hcnt as [Hc1 Hc2].
    destruct (IH s1 s2 qs2 a Hps Hg' ltac:(lia) ltac:(lia) ltac:(lia) ltac:(lia) ltac:(lia) E2)
      as (I1 & I2 & I3).
    split; [|split; lia].
    intros e Hin. cbn [combine create_entries] in Hin. rewrite I3 in Hin.
    replace (pl_num q =? 0) with false in Hin by (symmetry; apply Z.eqb_neq; lia).
    replace (pl_num q =? 5) with false in Hin by (symmetry; apply Z.eqb_neq; lia).
    cbn [is_msdos andb app] in Hin. destruct Hin as [<-|Hin].
    + cbn [e_kind e_start e_size]. rewrite Hty. split; [reflexivity|].
      pose proof (created_size_le p q). unfold pl_end in L2. lia.
    + apply I1 in Hin. exact Hin.
Qed.

Lemma extended_from : forall n ps s s' qs k,
  Forall sane ps -> gapfree (combine ps qs) ->
  minv n k s -> k + nreal_of ps <= n -> l_extpart s = 0 -> l_extsize s = 0 ->
  0 <= l_numpart s ->
  layout_from Msdos n s ps = Some (s', qs) ->
  forall e, In e (create_entries Msdos s' (combine ps qs)) -> e_kind e = ELogical ->
  exists x, In x (create_entries Msdos s' (combine ps qs)) /\ e_kind x = EExtended /\ inside x e /\
    (forall y, In y (create_entries Msdos s' (combine ps qs)) -> e_kind y = EExtended -> y = x).
Proof.
  intros n ps. induction ps as [|p ps IH]; intros s s' qs k Hsane Hg Hinv Hn He0 Hes Hnp H e Hin Hk; simpl in H.
  - injection H as <- <-. destruct Hin.
  - destruct (layout_step Msdos n s p) as [[s1 q]|] eqn:E1; [|discriminate].
    destruct (layout_from Msdos n s1 ps) as [[s2 qs2]|] eqn:E2; [|discriminate].
    injection H as <- <-. rewrite nreal_cons in Hn. pose proof (nreal_nonneg ps).
    inversion Hsane as [|? ? Hp Hps]; subst.
    assert (Hkk : k < n \/ pt_no_table p = true)
      by (destruct (pt_no_table p); [right; reflexivity|left; lia]).
    destruct (msdos_step _ _ _ _ _ _ Hinv Hkk E1) as (Hinv1 & Hex & Hstep).
    assert (Hnp1 : l_numpart s1 = l_numpart s + 1).
    { destruct (layout_step_inv _ _ _ _ _ _ Hp Hnp E1) as (_ & _ & _ & Hx & _). exact Hx. }
    cbn [combine gapfree] in Hg. cbn [combine create_entries] in Hin |- *.
    destruct (pt_no_table p) eqn:Ent.
    + destruct Hstep as (Hnum & Hpr & Hlc & Hee). cbn [negb andb] in Hg.
      rewrite Hnum in *. cbn [Z.eqb] in *.
      assert (Hes1 : l_extsize s1 = 0).
      { unfold layout_step in E1. cbn [is_msdos andb is_hybrid negb] in E1.
        destruct (pt_has_name p); [discriminate|].
        destruct (pt_has_ptype p); [discriminate|].
        destruct (pt_mbr p && true); [discriminate|].
        match type of E1 with
        | match ?X with _ => _ end = _ => destruct X as [start|]
        end; [|discriminate].
        rewrite Ent in E1. cbn [negb] in E1. injection E1 as <- <-. exact Hes. }
      eapply IH; [exact Hps|exact Hg|exact Hinv1|lia|lia|exact Hes1|lia|exact E2|exact Hin|exact Hk].
    + cbn [negb andb] in Hg. destruct (pl_type q) eqn:Ety; cbn [is_logical] in Hg.
      * destruct Hstep as (Hnum & Hpr & Hlc & Hee & Hrange).
        assert (Hes1 : l_extsize s1 = 0).
        { unfold layout_step in E1. cbn [is_msdos andb is_hybrid negb] in E1.
          destruct (pt_has_name p); [discriminate|].
          destruct (pt_has_ptype p); [discriminate|].
          destruct (pt_mbr p && true); [discriminate|].
          match type of E1 with
          | match ?X with _ => _ end = _ => destruct X as [start|]
          end; [|discriminate].
          rewrite Ent in E1. cbn [negb] in E1.
          destruct (eff_type Msdos n s p); [|destruct (l_extpart s =? 0)];
            injection E1 as <- <-; cbn in Ety |- *; try discriminate; exact Hes. }
        assert (Hm2 : l_extpart s2 = 0 \/ l_extpart s2 = 5).
        { assert (Hb : k + 1 + nreal_of ps <= n) by lia.
          destruct (msdos_from _ _ _ _ _ _ Hinv1 Hb E2) as ((_ & _ & [?|?]) & _); tauto. }
        replace (pl_num q =? 0) with false in * by (symmetry; apply Z.eqb_neq; lia).
        replace (pl_num q =? l_extpart s2) with false in * by (symmetry; apply Z.eqb_neq; lia).
        cbn [is_msdos andb app] in *.
        destruct Hin as [<-|Hin]; [cbn in Hk; discriminate|].
        assert (Hx : exists x, In x (create_entries Msdos s2 (combine ps qs2)) /\ e_kind x = EExtended /\
                   inside x e /\ (forall y, In y (create_entries Msdos s2 (combine ps qs2)) ->
                                  e_kind y = EExtended -> y = x)).
        { eapply IH; [exact Hps|exact Hg|exact Hinv1|lia|lia|exact Hes1|lia|exact E2|exact Hin|exact Hk]. }
        destruct Hx as (x & Hx1 & Hx2 & Hx3 & Hx4).
        exists x. repeat split; try assumption; try (right; exact Hx1); try apply Hx3.
        intros y [<-|Hy] Hyk; [cbn in Hyk; discriminate|]. apply Hx4; assumption.
      * destruct Hstep as (Hnum & Hlc & Hee & Hpr).
        destruct Hinv as (Hp0 & Hl0 & [(_ & Hlc0 & _)|(? & _)]); [|lia].
        pose proof E1 as E1'.
        unfold layout_step in E1'. cbn [is_msdos andb is_hybrid negb] in E1'.
        destruct (pt_has_name p); [discriminate|].
        destruct (pt_has_ptype p); [discriminate|].
        destruct (pt_mbr p && true); [discriminate|].
        match type of E1' with
        | match ?X with _ => _ end = _ => destruct X as [start|]
        end; [|discriminate].
        rewrite Ent in E1'. cbn [negb] in E1'.
        destruct (eff_type Msdos n s p) eqn:Eeff; [injection E1' as <- <-; cbn in Ety; discriminate|].
        replace (l_extpart s =? 0) with true in E1' by (symmetry; apply Z.eqb_eq; exact He0).
        assert (Hrel : l_offset s1 = pl_start q - 2 + l_extsize s1 /\ l_extsize s1 = pl_size q + 2
                       /\ pl_size q = 2 * pt_disk_size p).
        { pose proof (size_sec_2 p) as Hs2.
          injection E1' as <- <-. cbn [l_offset l_extsize pl_start pl_size]. lia. }
        destruct Hrel as (Hr1 & Hr2 & Hr3).
        destruct Hp as [Hal Hsz].
        destruct (logical_run n ps s1 s2 qs2 (pl_start q - 2) Hps Hg Hee ltac:(lia) ltac:(lia) Hr1 ltac:(lia) E2)
          as (R1 & R2 & R3).
        rewrite R3 in *.
        replace (pl_num q =? 0) with false in * by (symmetry; apply Z.eqb_neq; lia).
        replace (pl_num q =? 5) with true in * by (symmetry; apply Z.eqb_eq; lia).
        cbn [is_msdos andb app] in *.
        exists (Entry EExtended (pl_start q - 2) (l_extsize s2)).
        split; [left; reflexivity|]. split; [reflexivity|]. split.
        -- destruct Hin as [<-|[<-|Hin]].
           ++ cbn in Hk. discriminate.
           ++ unfold inside. cbn [e_start e_size]. pose proof (created_size_le p q). lia.
           ++ apply R1 in Hin. unfold inside. cbn [e_start e_size]. lia.
        -- intros y [<-|[<-|Hy]] Hyk; [reflexivity|cbn in Hyk; discriminate|].
           apply R1 in Hy. destruct Hy as [Hy _]. congruence.
Qed.

Lemma extended_contains : forall ps s qs,
  Forall sane ps -> layout Msdos ps = Some (s, qs) -> gapfree (combine ps qs) ->
  forall e, In e (create_entries Msdos s (combine ps qs)) -> e_kind e = ELogical ->
  exists x, In x (create_entries Msdos s (combine ps qs)) /\ e_kind x = EExtended /\ inside x e /\
    (forall y, In y (create_entries Msdos s (combine ps qs)) -> e_kind y = EExtended -> y = x).
Proof.
  intros ps s qs Hs H Hg. unfold layout in H.
  eapply (extended_from (num_real ps) ps lstate0 s qs 0); try eassumption; try reflexivity.
  - unfold minv. cbn. lia.
Qed.

(** Effective types when every declared type is primary. *)
Lemma types_from : forall t n ps s s' qs k,
  Forall (fun p => pt_type p = Primary) ps ->
  0 <= k -> k + nreal_of ps <= n ->
  (if is_msdos t then cnt_inv n k s else True) ->
  layout_from t n s ps = Some (s', qs) ->
  forall pre p post, ps = pre ++ p :: post -> pt_no_table p = false ->
  exists q, nth_error qs (length pre) = Some q /\
    (pl_type q = Logical <-> t = Msdos /\ 4 < n /\ 3 <= k + nreal_of pre).
Proof.
  intros t n ps. induction ps as [|p0 ps IH]; intros s s' qs k Hty Hk Hn Hinv H pre p post Heq Hnt; simpl in H.
  - destruct pre; discriminate.
  - inversion Hty as [|? ? Hp0 Hps]; subst.
    destruct (layout_step t n s p0) as [[s1 q]|] eqn:E1; [|discriminate].
    destruct (layout_from t n s1 ps) as [[s2 qs2]|] eqn:E2; [|discriminate].
    injection H as <- <-.
    (* the invariant after the step *)
    assert (Hinv1 : if is_msdos t then cnt_inv n (if pt_no_table p0 then k else k + 1) s1 else True).
    { destruct (is_msdos t) eqn:Em; [|exact I].
      rewrite nreal_cons in Hn. pose proof (nreal_nonneg ps).
      destruct t; try discriminate. unfold layout_step in E1. cbn [is_msdos andb is_hybrid negb] in E1.
      destruct (pt_has_name p0); [discriminate|].
      destruct (pt_has_ptype p0); [discriminate|].
      destruct (pt_mbr p0 && true); [discriminate|].
      match type of E1 with
      | match ?X with _ => _ end = _ => destruct X as [start|]
      end; [|discriminate].
      unfold eff_type in E1. cbn [is_msdos] in E1. unfold cnt_inv in *.
      destruct Hinv as [Hrp Hinv].
      destruct (pt_no_table p0); cbn [negb] in E1.
      - injection E1 as <- <-. cbn. tauto.
      - rewrite Hp0 in E1.
        destruct ((n <=? 4) || (k <=? 3)) eqn:Er.
        + destruct Hinv as (I1 & I2 & I3).
          rewrite I2 in E1. cbn [Z.eqb andb] in E1.
          destruct ((3 <? l_primary s) || ((3 <=? l_primary s) && (4 <? n))) eqn:Ef.
          * injection E1 as <- <-. cbn.
            apply orb_true_iff in Er, Ef. rewrite Z.leb_le, Z.leb_le in Er.
            rewrite Z.ltb_lt, andb_true_iff, Z.leb_le, Z.ltb_lt in Ef.
            replace ((n <=? 4) || (k + 1 <=? 3)) with false
              by (symmetry; apply orb_false_iff; rewrite Z.leb_gt, Z.leb_gt; lia). lia.
          * injection E1 as <- <-. cbn.
            apply orb_false_iff in Ef. rewrite Z.ltb_ge, andb_false_iff, Z.leb_gt, Z.ltb_ge in Ef.
            apply orb_true_iff in Er. rewrite Z.leb_le, Z.leb_le in Er.
            replace ((n <=? 4) || (k + 1 <=? 3)) with true
              by (symmetry; apply orb_true_iff; rewrite Z.leb_le, Z.leb_le; lia). lia.
        + destruct Hinv as (I1 & I2 & I3).
          apply orb_false_iff in Er. rewrite Z.leb_gt, Z.leb_gt in Er.
          rewrite I1, I2 in E1. cbn in E1. injection E1 as <- <-. cbn.
          replace ((n <=? 4) || (k + 1 <=? 3)) with false
            by (symmetry; apply orb_false_iff; rewrite Z.leb_gt, Z.leb_gt; lia). lia. }
    destruct pre as [|p1 pre].
    + injection Heq as -> ->. exists q. split; [reflexivity|].
      unfold nreal_of at 1. cbn [filter length]. rewrite nreal_cons, Hnt in Hn. pose proof (nreal_nonneg post).
      assert (Hq : pl_type q = eff_type t n s p).
      { unfold layout_step in E1.
        destruct (is_msdos t && pt_has_name p); [discriminate|].
        destruct (is_msdos t && pt_has_ptype p); [discriminate|].
        destruct (pt_mbr p && negb (is_hybrid t)); [discriminate|].
        match type of E1 with
        | match ?X with _ => _ end = _ => destruct X as [start|]
        end; [|discriminate].
        destruct (is_msdos t && negb (pt_no_table p)).
        - destruct (eff_type t n s p); [|destruct (l_extpart s =? 0)]; injection E1 as <- <-; reflexivity.
        - injection E1 as <- <-. reflexivity. }
      rewrite Hq. unfold eff_type. destruct t; cbn [is_msdos].
      * destruct Hinv as [Hrp Hinv]. cbn [is_msdos] in Hinv. rewrite Hp0.
        destruct ((n <=? 4) || (k <=? 3)) eqn:Er.
        -- destruct Hinv as (I1 & I2 & I3). rewrite I1, I2. cbn [Z.eqb andb].
           apply orb_true_iff in Er. rewrite Z.leb_le, Z.leb_le in Er.
           destruct ((3 <? k) || ((3 <=? k) && (4 <? n))) eqn:Ef.
           ++ apply orb_true_iff in Ef. rewrite Z.ltb_lt, andb_true_iff, Z.leb_le, Z.ltb_lt in Ef.
              split; [|reflexivity]. intros _. split; [reflexivity|]. lia.
           ++ apply orb_false_iff in Ef. rewrite Z.ltb_ge, andb_false_iff, Z.leb_gt, Z.ltb_ge in Ef.
              split; [discriminate|]. intros (_ & ? & ?). lia.
        -- destruct Hinv as (I1 & I2 & I3). rewrite I1. cbn.
           apply orb_false_iff in Er. rewrite Z.leb_gt, Z.leb_gt in Er.
           split; [|reflexivity]. intros _. split; [reflexivity|]. lia.
      * rewrite Hp0. split; [discriminate|]. intros (? & _). discriminate.
      * rewrite Hp0. split; [discriminate|]. intros (? & _). discriminate.
    + injection Heq as -> ->. cbn [length nth_error].
      rewrite nreal_cons in Hn. 
      destruct (IH s1 s2 qs2 (if pt_no_table p1 then k else k + 1)) with (pre := pre) (p := p) (post := post)
        as (q' & Hq1 & Hq2); auto.
      { destruct (pt_no_table p1); lia. }
      { destruct (pt_no_table p1); lia. }
      exists q'. split; [exact Hq1|]. rewrite Hq2. rewrite nreal_cons.
      destruct (pt_no_table p1); split; intros (? & ? & ?); repeat split; auto; lia.
Qed.
