(** Proofs for the file-map model. *)
From Coq Require Import ZArith List Bool Sorting.Sorted Lia.
From Verif Require Import Filemap_Model Filemap_Spec.
Import ListNotations.
Open Scope Z_scope.

Ltac zb := repeat match goal with
  | H : (_ <? _) = true |- _ => apply Z.ltb_lt in H
  | H : (_ <? _) = false |- _ => apply Z.ltb_ge in H
  | H : (_ <=? _) = true |- _ => apply Z.leb_le in H
  | H : (_ <=? _) = false |- _ => apply Z.leb_gt in H
  | H : (_ =? _) = true |- _ => apply Z.eqb_eq in H
  | H : (_ =? _) = false |- _ => apply Z.eqb_neq in H
  | H : (_ && _) = true |- _ => apply andb_true_iff in H; destruct H
  | H : (_ && _) = false |- _ => apply andb_false_iff in H
  | H : (_ || _) = true |- _ => apply orb_true_iff in H
  | H : (_ || _) = false |- _ => apply orb_false_iff in H; destruct H
  | H : negb _ = true |- _ => apply negb_true_iff in H
  | H : negb _ = false |- _ => apply negb_false_iff in H
  end.
Ltac zif := match goal with
  | |- context [if ?b then _ else _] => destruct b eqn:?
  end.

(* ---------------- sparse_copy ---------------- *)

Definition upd (src : file) (skip seek : Z) (dst d : file) (lo hi : Z) : Prop :=
  (forall i, f_data d i =
     if (lo <=? i - seek + skip) && (i - seek + skip <? Z.min hi (f_size src))
     then f_data src (i - seek + skip) else f_data dst i) /\
  f_size d = (if lo <? Z.min hi (f_size src)
              then Z.max (f_size dst) (seek - skip + Z.min hi (f_size src)) else f_size dst).

Lemma write_upd : forall src dst skip seek dpos spos size,
  dpos = seek + spos - skip -> 0 <= size ->
  upd src skip seek dst (write_at dst src dpos spos (read_len src spos size)) spos (spos + size).
Proof.
  intros. unfold upd, write_at, read_len. split.
  - intros i. destruct (_ <=? 0) eqn:E; zb.
    + zif; auto. zb. lia.
    + cbn. destruct ((spos <=? i - seek + skip) && _) eqn:F; zb.
      * replace ((dpos <=? i) && _) with true.
        { f_equal. lia. }
        symmetry. apply andb_true_iff. split; [apply Z.leb_le|apply Z.ltb_lt]; lia.
      * destruct ((dpos <=? i) && _) eqn:G; auto. zb. lia.
  - destruct (_ <=? 0) eqn:E; zb; zif; zb; cbn; lia.
Qed.

Lemma upd_trans : forall src skip seek a b c lo mid hi,
  lo <= mid -> mid <= hi ->
  upd src skip seek a b lo mid -> upd src skip seek b c mid hi ->
  upd src skip seek a c lo hi.
Proof.
  intros * L M [H1 H2] [H3 H4]. split.
  - intros i. rewrite H3. 
    destruct ((mid <=? i - seek + skip) && _) eqn:E; zb.
    + replace ((lo <=? _) && _) with true; auto.
      symmetry. apply andb_true_iff. split; [apply Z.leb_le|apply Z.ltb_lt]; lia.
    + rewrite H1. destruct ((lo <=? _) && (_ <? Z.min mid _)) eqn:F; zb.
      * replace ((lo <=? _) && _) with true; auto.
        symmetry. apply andb_true_iff. split; [apply Z.leb_le|apply Z.ltb_lt]; lia.
      * destruct ((lo <=? _) && (_ <? Z.min hi _)) eqn:G; auto. zb. lia.
  - rewrite H4, H2. repeat zif; zb; lia.
Qed.

(** Reading at the end of the source changes nothing. *)
Lemma upd_eof : forall src skip seek dst d lo hi lo' hi',
  upd src skip seek dst d lo hi -> f_size src <= lo -> f_size src <= lo' ->
  upd src skip seek dst d lo' hi'.
Proof.
  intros * [H1 H2] A B. split.
  - intros i. rewrite H1. repeat zif; auto; zb; lia.
  - rewrite H2. repeat zif; auto; zb; lia.
Qed.

Lemma chunk_loop_ok : forall src skip seek length to_read start fuel dst chunk read written spos dpos,
  0 < chunk -> 0 <= read <= to_read -> to_read - read < Z.of_nat fuel ->
  0 <= length -> 0 <= written -> (length = 0 \/ written < length) ->
  dpos = seek + spos - skip -> written = start + read - skip ->
  (spos = start + read \/ (f_size src <= spos /\ spos <= start + read)) ->
  match chunk_loop fuel src dst length chunk to_read read written spos dpos with
  | CFuel => False
  | CReturn d => length <> 0 /\ skip + length <= start + to_read /\
                 upd src skip seek dst d (start + read) (skip + length)
  | CMore d _ => (length = 0 \/ start + to_read < skip + length) /\
                 upd src skip seek dst d (start + read) (start + to_read)
  end.
Proof.
  intros src skip seek length to_read start.
  induction fuel as [|fuel IH]; intros * HC HR HF HL HW HWL HD HWr HS; [lia|].
  cbn [chunk_loop]. destruct (read <? to_read) eqn:E; zb.
  2: { split; [lia|]. assert (read = to_read) by lia. subst read.
       split; [intros i; zif; auto; zb; lia|zif; zb; lia]. }
  set (chunk' := if to_read <? read + chunk then to_read - read else chunk).
  assert (C1 : 0 < chunk' /\ read + chunk' <= to_read).
  { unfold chunk'. destruct (to_read <? read + chunk) eqn:F; zb; lia. }
  set (size := if negb (length =? 0) && (length <? written + chunk') then length - written else chunk').
  assert (S1 : 0 < size <= chunk' /\ (length <> 0 -> written + size <= length)).
  { unfold size. destruct (negb (length =? 0) && _) eqn:F; zb; lia. }
  pose proof (write_upd src dst skip seek dpos spos size HD ltac:(lia)) as U.
  set (n := read_len src spos size) in *.
  set (dst' := write_at dst src dpos spos n) in *.
  assert (U' : upd src skip seek dst dst' (start + read) (start + read + size)).
  { destruct HS as [-> | [HS1 HS2]]; [exact U|]. eapply upd_eof; [exact U|lia|lia]. }
  destruct (written + size =? length) eqn:F; zb.
  - split; [lia|]. split; [lia|].
    replace (skip + length) with (start + read + size) by lia. exact U'.
  - specialize (IH dst' chunk' (read + size) (written + size) (spos + n) (dpos + n)).
    assert (N : 0 <= n <= size /\ (spos + size <= f_size src -> n = size) /\
                (f_size src < spos + size -> f_size src <= spos + n)).
    { unfold n, read_len. lia. }
    assert (P : spos + n = start + (read + size) \/
                f_size src <= spos + n /\ spos + n <= start + (read + size)).
    { destruct (Z.le_gt_cases (spos + size) (f_size src)); lia. }
    specialize (IH ltac:(lia) ltac:(lia) ltac:(lia) HL ltac:(lia) ltac:(lia) ltac:(lia) ltac:(lia) P).
    destruct (chunk_loop _ _ _ _ _ _ _ _ _ _); auto.
    + destruct IH as [I1 I2]. split; [auto|].
      replace (start + read + size) with (start + (read + size)) in U' by lia.
      refine (upd_trans _ _ _ _ dst' _ _ (start + (read + size)) _ _ _ U' I2); lia.
    + destruct IH as [I0 [I1 I2]]. split; [auto|]. split; [auto|].
      replace (start + read + size) with (start + (read + size)) in U' by lia.
      refine (upd_trans _ _ _ _ dst' _ _ (start + (read + size)) _ _ _ U' I2); lia.
Qed.

(** The offset [x] gets copied. *)
Definition copied (src : file) (bs skip length : Z) (rs : list range) (x : Z) : Prop :=
  byte_mapped bs rs x /\ in_window src skip length x.

Definition copy_post (src dst d : file) (bs skip seek length : Z) (rs : list range) : Prop :=
  (forall x, copied src bs skip length rs x -> f_data d (seek + x - skip) = f_data src x) /\
  (forall i, ~ copied src bs skip length rs (i - seek + skip) -> f_data d i = f_data dst i) /\
  f_size dst <= f_size d /\
  (forall x, copied src bs skip length rs x -> seek + x - skip < f_size d) /\
  (f_size d <> f_size dst -> copied src bs skip length rs (f_size d - 1 - seek + skip)).

Lemma ranges_ok_cons : forall r rs, ranges_ok (r :: rs) ->
  fst r <= snd r /\ ranges_ok rs /\ (forall q, In q rs -> snd r < fst q /\ fst q <= snd q).
Proof.
  intros r rs [F S]. inversion F; subst. inversion S; subst.
  repeat split; auto; rewrite Forall_forall in *; auto.
Qed.

Lemma copy_ranges_ok : forall src bs skip seek length chunk rs dst,
  0 < bs -> 0 <= skip -> 0 <= length -> 0 < chunk -> ranges_ok rs ->
  exists d, copy_ranges src dst bs skip seek length chunk rs = Some d /\
            copy_post src dst d bs skip seek length rs.
Proof.
  intros src bs skip seek length chunk rs dst HB HS HL HC. revert dst.
  induction rs as [|[first last] rs IH]; intros dst OK.
  - exists dst. split; [reflexivity|].
    unfold copy_post, copied, byte_mapped. cbn.
    split; [intros x [[r [[] _]] _]|]. split; [auto|]. split; [lia|].
    split; [intros x [[r [[] _]] _]|]. lia.
  - apply ranges_ok_cons in OK. destruct OK as [O1 [O2 O3]]. cbn in O1.
    cbn [copy_ranges].
    destruct ((last + 1) * bs <=? skip) eqn:E; zb.
    { destruct (IH dst O2) as [d [D1 D2]]. exists d. split; [exact D1|].
      assert (EQ : forall x, copied src bs skip length ((first, last) :: rs) x <->
                             copied src bs skip length rs x).
      { intros x. unfold copied, byte_mapped, in_window. split.
        - intros [[r [[<-|I] R]] W]; [cbn in R; lia|]. split; [exists r; auto|auto].
        - intros [[r [I R]] W]. split; [exists r; split; [right; auto|auto]|auto]. }
      destruct D2 as (P1 & P2 & P3 & P4 & P5). unfold copy_post.
      split; [intros x C; apply P1; apply EQ; auto|].
      split; [intros i C; apply P2; intros C'; apply C; apply EQ; auto|].
      split; [auto|]. split; [intros x C; apply P4, EQ; auto|].
      intros N. apply EQ. auto. }
    set (start := if (first * bs <? skip) && (skip <? (last + 1) * bs) then skip else first * bs).
    assert (ST : start = Z.max skip (first * bs)).
    { unfold start. zif; zb; lia. }
    clearbody start.
    assert (LE : first * bs <= last * bs) by (apply Z.mul_le_mono_nonneg_r; lia).
    (* later ranges start behind this one *)
    assert (LATER : forall q, In q rs -> (last + 1) * bs <= fst q * bs).
    { intros q I. apply O3 in I. cbn in I. apply Z.mul_le_mono_nonneg_r; lia. }
    destruct (negb (length =? 0) && (length <=? start - skip)) eqn:F; zb.
    { exists dst. split; [reflexivity|].
      assert (NO : forall x, ~ copied src bs skip length ((first, last) :: rs) x).
      { intros x [[r [I R]] [W1 W2]]. destruct I as [<-|I].
        - cbn in R. lia.
        - pose proof (LATER r I). lia. }
      unfold copy_post. split; [intros x C; exfalso; eapply NO; eauto|].
      split; [auto|]. split; [lia|]. split; [intros x C; exfalso; eapply NO; eauto|]. lia. }
    pose proof (chunk_loop_ok src skip seek length ((last + 1) * bs - start) start
                 (S (Z.to_nat ((last + 1) * bs - start))) dst chunk 0 (start - skip) start
                 (seek + start - skip)) as CL.
    specialize (CL HC ltac:(lia) ltac:(lia) HL ltac:(lia) ltac:(lia) ltac:(lia) ltac:(lia) ltac:(lia)).
    replace (start + ((last + 1) * bs - start)) with ((last + 1) * bs) in CL by lia.
    replace (start + 0) with start in CL by lia.
    destruct (chunk_loop _ _ _ _ _ _ _ _ _ _) as [d w|d|]; [| |contradiction].
    + destruct CL as [C1 [U1 U2]].
      destruct (IH d O2) as [d' [D1 D2]]. exists d'. split; [exact D1|].
      destruct D2 as (P1 & P2 & P3 & P4 & P5).
      assert (EQ : forall x, copied src bs skip length ((first, last) :: rs) x <->
               (start <= x < Z.min ((last + 1) * bs) (f_size src)) \/
               copied src bs skip length rs x).
      { intros x. unfold copied, byte_mapped, in_window. split.
        - intros [[r [[<-|I] R]] W]; [cbn in R; left; lia|]. right. split; [exists r; auto|auto].
        - intros [X|[[r [I R]] W]].
          + split; [|lia]. exists (first, last). split; [left; auto|cbn; lia].
          + split; [exists r; split; [right; auto|auto]|auto]. }
      assert (DIS : forall x, copied src bs skip length rs x -> (last + 1) * bs <= x).
      { intros x [[r [I R]] W]. pose proof (LATER r I). lia. }
      split.
      { intros x C. apply EQ in C. destruct C as [C|C]; [|apply P1; auto].
        rewrite P2.
        - rewrite U1. replace (seek + x - skip - seek + skip) with x by lia.
          zif; auto. zb. lia.
        - replace (seek + x - skip - seek + skip) with x by lia.
          intros C'. apply DIS in C'. lia. }
      split.
      { intros i C. rewrite P2.
        - rewrite U1. zif; auto. zb. exfalso. apply C, EQ. left. lia.
        - intros C'. apply C, EQ. auto. }
      assert (SZ : f_size dst <= f_size d) by (rewrite U2; zif; zb; lia).
      split; [lia|].
      split.
      { intros x C. apply EQ in C. destruct C as [C|C]; [|apply P4; auto].
        enough (seek + x - skip < f_size d) by lia. rewrite U2. zif; zb; lia. }
      intros N. apply EQ.
      destruct (Z.eq_dec (f_size d') (f_size d)) as [e|n]; [|right; apply P5; auto].
      left. rewrite e in *. revert N. rewrite U2. zif; zb; [|lia]. intros N. lia.
    + destruct CL as [C0 [C1 [U1 U2]]]. exists d. split; [reflexivity|].
      assert (EQ : forall x, copied src bs skip length ((first, last) :: rs) x <->
               (start <= x < Z.min (skip + length) (f_size src))).
      { intros x. unfold copied, byte_mapped, in_window. split.
        - intros [[r [[<-|I] R]] W]; [cbn in R; lia|]. pose proof (LATER r I). lia.
        - intros X. split; [|lia]. exists (first, last). split; [left; auto|cbn; lia]. }
      split.
      { intros x C. apply EQ in C. rewrite U1. replace (seek + x - skip - seek + skip) with x by lia.
        zif; auto. zb. lia. }
      split.
      { intros i C. rewrite U1. zif; auto. zb. exfalso. apply C, EQ. lia. }
      split; [rewrite U2; zif; zb; lia|].
      split; [intros x C; apply EQ in C; rewrite U2; zif; zb; lia|].
      intros N. apply EQ. revert N. rewrite U2. zif; zb; [|lia]. intros N. lia.
Qed.

Lemma sparse_copy_exact : forall src rs bs dst skip seek length,
  0 < bs -> 0 <= skip -> 0 <= length -> ranges_ok rs ->
  exists d, sparse_copy src rs bs (Some dst) skip seek length = Some d /\
    (forall x, byte_mapped bs rs x -> in_window src skip length x ->
       f_data d (seek + x - skip) = f_data src x /\ seek + x - skip < f_size d) /\
    (forall i, ~ (byte_mapped bs rs (i - seek + skip) /\ in_window src skip length (i - seek + skip)) ->
       f_data d i = f_data dst i) /\
    f_size dst <= f_size d /\
    (f_size d <> f_size dst ->
       byte_mapped bs rs (f_size d - 1 - seek + skip) /\
       in_window src skip length (f_size d - 1 - seek + skip)).
Proof.
  intros * HB HS HL OK.
  destruct (copy_ranges_ok src bs skip seek length CHUNK rs dst HB HS HL ltac:(reflexivity) OK)
    as [d [D (P1 & P2 & P3 & P4 & P5)]].
  exists d. split; [exact D|]. split; [intros x A B; split; [apply P1|apply P4]; split; auto|].
  split; [auto|]. split; auto.
Qed.

(** Membership in the mapped bytes is decidable. *)
Lemma byte_mapped_dec : forall bs rs x, byte_mapped bs rs x \/ ~ byte_mapped bs rs x.
Proof.
  intros bs rs x. induction rs as [|r rs IH].
  - right. intros [q [[] _]].
  - destruct (Z_le_dec (fst r * bs) x); [destruct (Z_lt_dec x ((snd r + 1) * bs))|].
    + left. exists r. split; [left; auto|lia].
    + destruct IH as [[q [I R]]|N]; [left; exists q; split; [right; auto|auto]|].
      right. intros [q [[<-|I] R]]; [lia|]. apply N. exists q; auto.
    + destruct IH as [[q [I R]]|N]; [left; exists q; split; [right; auto|auto]|].
      right. intros [q [[<-|I] R]]; [lia|]. apply N. exists q; auto.
Qed.

Lemma sparse_copy_new : forall src rs bs skip seek length,
  0 < bs -> 0 <= skip <= f_size src -> 0 <= seek -> 0 <= length -> skip + length <= f_size src ->
  ranges_ok rs ->
  (forall x, 0 <= x < f_size src -> ~ byte_mapped bs rs x -> f_data src x = 0) ->
  exists d, sparse_copy src rs bs None skip seek length = Some d /\
    f_size d = seek + (if length =? 0 then f_size src - skip else length) /\
    (forall j, seek <= j < f_size d -> f_data d j = f_data src (j - seek + skip)) /\
    (forall j, j < seek -> f_data d j = 0).
Proof.
  intros * HB HS HK HL HF OK HZ.
  destruct (copy_ranges_ok src bs skip seek length CHUNK rs (open_dst src None skip seek length)
             HB ltac:(lia) HL ltac:(reflexivity) OK)
    as [d [D (P1 & P2 & P3 & P4 & P5)]].
  exists d. split; [exact D|]. cbn [open_dst f_size f_data] in *.
  assert (SZ : f_size d = seek + (if length =? 0 then f_size src - skip else length)).
  { match type of P5 with ?a <> ?b -> _ => destruct (Z.eq_dec a b) as [e|n] end.
    - rewrite e. zif; zb; lia.
    - exfalso. destruct (P5 n) as [_ [W1 W2]]. revert P3 n. zif; zb; lia. }
  split; [exact SZ|]. split.
  - intros j J.
    assert (X : in_window src skip length (j - seek + skip)).
    { unfold in_window. rewrite SZ in J. destruct (length =? 0) eqn:E; zb; lia. }
    destruct (byte_mapped_dec bs rs (j - seek + skip)) as [M|M].
    + rewrite <- (P1 (j - seek + skip) (conj M X)). f_equal. lia.
    + rewrite P2 by (intros [A _]; auto). symmetry. apply HZ; auto.
      destruct X. lia.
  - intros j J. rewrite P2; auto. intros [_ [W _]]. lia.
Qed.

(* ---------------- merging ---------------- *)

Lemma merge_from_covered : forall rs p b,
  fst p <= snd p -> Forall (fun r => fst r <= snd r) rs ->
  covered (merge_from p rs) b <-> covered (p :: rs) b.
Proof.
  induction rs as [|r rs IH]; intros p b HP F; cbn; [tauto|].
  inversion F; subst.
  destruct (snd p =? fst r - 1) eqn:E; zb.
  - rewrite IH; cbn; [|lia|auto]. unfold covered. split.
    + intros [q [[<-|I] R]]; cbn in *.
      * destruct (Z_le_dec b (snd p)).
        { exists p. split; auto. lia. }
        { exists r. split; auto. lia. }
      * exists q. split; auto.
    + intros [q [[<-|[<-|I]] R]]; cbn in *.
      * eexists. split; [left; reflexivity|]. cbn. lia.
      * eexists. split; [left; reflexivity|]. cbn. lia.
      * exists q. auto.
  - specialize (IH r b ltac:(auto) ltac:(auto)). unfold covered in *. cbn in IH. split.
    + intros [q [[<-|I] R]].
      * exists p. split; cbn; auto.
      * destruct (proj1 IH (ex_intro _ q (conj I R))) as [q' [I' R']]. exists q'. split; cbn; auto.
    + intros [q [[<-|I] R]].
      * exists p. split; cbn; auto.
      * destruct (proj2 IH (ex_intro _ q (conj I R))) as [q' [I' R']]. exists q'. split; cbn; auto.
Qed.

Lemma merge_from_merged : forall rs p, ranges_ok (p :: rs) ->
  ranges_merged (merge_from p rs) /\ (forall q, In q (merge_from p rs) -> fst p <= fst q).
Proof.
  induction rs as [|r rs IH]; intros p OK.
  - cbn. apply ranges_ok_cons in OK. split.
    + split; repeat constructor; tauto.
    + intros q [<-|[]]. lia.
  - pose proof (ranges_ok_cons _ _ OK) as [O1 [O2 O3]].
    pose proof (ranges_ok_cons _ _ O2) as [O4 [O5 O6]].
    cbn. destruct (snd p =? fst r - 1) eqn:E; zb.
    + destruct (IH (fst p, snd r)) as [I1 I2].
      { destruct O2 as [F S]. inversion F; inversion S; subst. split.
        - constructor; auto. cbn. lia.
        - constructor; auto. }
      split; auto.
    + destruct (IH r O2) as [[I1 I1'] I2]. split.
      * split; constructor; auto.
        rewrite Forall_forall. intros q I. apply I2 in I.
        pose proof (O3 r (or_introl eq_refl)). lia.
      * intros q [<-|I]; [lia|]. apply I2 in I. pose proof (O3 r (or_introl eq_refl)). lia.
Qed.

(* ---------------- FIEMAP ---------------- *)

Lemma extents_ok_cons : forall e es, extents_ok (e :: es) ->
  0 < snd e /\ extents_ok es /\ (forall q, In q es -> fst e + snd e <= fst q /\ 0 < snd q).
Proof.
  intros e es [F S]. inversion F; subst. inversion S; subst.
  repeat split; auto; rewrite Forall_forall in *; auto.
Qed.

Lemma extents_ok_sub : forall P es, extents_ok es -> extents_ok (filter P es).
Proof.
  induction es as [|e es IH]; intros OK; [split; constructor|].
  apply extents_ok_cons in OK. destruct OK as [A [B C]]. cbn. destruct (P e); [|auto].
  destruct (IH B) as [F S]. split; constructor; auto.
  rewrite Forall_forall. intros q I. apply filter_In in I. apply C. tauto.
Qed.

Lemma extents_ok_firstn : forall n es, extents_ok es ->
  extents_ok (firstn n es) /\
  (forall a b, In a (firstn n es) -> In b (skipn n es) -> fst a + snd a <= fst b).
Proof.
  induction n as [|n IH]; intros es OK; [split; [split; constructor|intros a b []]|].
  destruct es as [|e es]; [split; [split; constructor|intros a b []]|].
  apply extents_ok_cons in OK. destruct OK as [A [B C]]. destruct (IH es B) as [[F S] D].
  cbn. split.
  - split; constructor; auto. rewrite Forall_forall. intros q I. apply C.
    rewrite <- (firstn_skipn n es). apply in_or_app. auto.
  - intros a b [<-|I] J; auto. apply C. rewrite <- (firstn_skipn n es). apply in_or_app. auto.
Qed.

(** What one walk over a batch yields. *)
Lemma fiemap_walk_ok : forall start count block es cur,
  start <= block < start + count -> extents_ok es -> cur >= block ->
  Forall (fun e => block < fst e + snd e) es ->
  Forall (fun e => cur <= fst e \/ cur = block) es ->
  let '(rs, nxt) := fiemap_walk start count block es cur in
  ranges_ok rs /\
  (forall r, In r rs -> block <= fst r /\ snd r < start + count) /\
  (forall b, covered rs b <-> (block <= b < start + count /\ mapped es b)) /\
  match nxt with
  | None => exists e, In e es /\ start + count <= fst e
  | Some n => (forall e, In e es -> fst e + snd e <= n) /\ (es <> [] -> block < n) /\
              (es = [] -> n = cur) /\ (forall r, In r rs -> snd r < n) /\
              (es <> [] -> exists e, In e es /\ n = fst e + snd e)
  end.
Proof.
  intros start count block. induction es as [|e es IH]; intros cur HB OK HC HO HCu.
  - cbn. split; [split; constructor|]. split; [intros r []|].
    split; [intros b; split; [intros [r [[] _]]|intros [_ [x [[] _]]]]|].
    split; [intros x []|]. split; [congruence|]. split; [auto|]. split; [intros r []|congruence].
  - pose proof (extents_ok_cons _ _ OK) as [O1 [O2 O3]].
    inversion HO as [|? ? HO1 HO2]; subst. inversion HCu as [|? ? HC1 HC2]; subst. cbn [fiemap_walk].
    unfold ext_first, ext_end.
    destruct (start + count - 1 <? fst e) eqn:E; zb.
    + split; [split; constructor|]. split; [intros r []|]. split.
      * intros b. split; [intros [r [[] _]]|]. intros [B [x [[<-|I] R]]]; [lia|].
        apply O3 in I. lia.
      * exists e. split; [left; auto|lia].
    + specialize (IH (fst e + snd e) HB O2 ltac:(lia) HO2).
      assert (HN : Forall (fun e0 => fst e + snd e <= fst e0 \/ fst e + snd e = block) es).
      { rewrite Forall_forall. intros q I. left. apply O3; auto. }
      specialize (IH HN). destruct (fiemap_walk start count block es (fst e + snd e)) as [rs nxt].
      destruct IH as ([F S] & RB & CV & NX).
      assert (LO : forall r, In r rs -> Z.min (fst e + snd e) (start + count) - 1 < fst r).
      { intros r I. rewrite Forall_forall in F.
        assert (C : covered rs (fst r)) by (exists r; split; [auto|split; [lia|apply F; auto]]).
        apply CV in C. destruct C as [C1 [x [X1 X2]]]. apply O3 in X1. lia. }
      split.
      { split; constructor; auto; cbn; [lia|]. rewrite Forall_forall. auto. }
      split.
      { intros r [<-|I]; cbn; [lia|apply RB; auto]. }
      split.
      { intros b. split.
        - intros [r [[<-|I] R]]; cbn in *.
          + split; [lia|]. exists e. split; [left; auto|lia].
          + destruct (proj1 (CV b)) as [C1 [x [X1 X2]]]; [exists r; auto|].
            split; [auto|]. exists x. split; [right; auto|auto].
        - intros [B [x [[<-|I] R]]].
          + eexists. split; [left; reflexivity|]. cbn. lia.
          + destruct (proj2 (CV b)) as [r [R1 R2]].
            { split; [auto|]. exists x. auto. }
            exists r. split; [right; auto|auto]. }
      destruct nxt as [n|].
      * destruct NX as (N1 & N2 & N3 & N4 & N5).
        assert (LE : fst e + snd e <= n).
        { destruct es as [|e' es']; [rewrite N3; auto; lia|].
          pose proof (O3 e' (or_introl eq_refl)). pose proof (N1 e' (or_introl eq_refl)). lia. }
        split; [intros x [<-|I]; auto|].
        split; [intros _; lia|]. split; [congruence|].
        split; [intros r [<-|I]; cbn; [lia|apply N4; auto]|].
        intros _. destruct es as [|e' es'].
        { exists e. split; [left; auto|apply N3; auto]. }
        destruct N5 as [x [X1 X2]]; [congruence|]. exists x. split; [right; auto|auto].
      * destruct NX as [x [X1 X2]]. exists x. split; [right; auto|auto].
Qed.

Lemma ranges_ok_app : forall a b, ranges_ok a -> ranges_ok b ->
  (forall x y, In x a -> In y b -> snd x < fst y) -> ranges_ok (a ++ b).
Proof.
  induction a as [|x a IH]; intros b A B H; [exact B|].
  pose proof (ranges_ok_cons _ _ A) as [A1 [A2 A3]].
  destruct (IH b A2 B) as [F S].
  { intros p q P Q. apply H; [right; auto|auto]. }
  cbn. split; constructor; auto. rewrite Forall_forall. intros q I. apply in_app_or in I.
  destruct I as [I|I]; [apply A3; auto|apply H; [left; auto|auto]].
Qed.

Lemma do_get_mapped_ok : forall exts cap start count, extents_ok exts -> (0 < cap)%nat ->
  forall fuel block, start <= block -> Z.max 0 (start + count - block) < Z.of_nat fuel ->
  exists rs, do_get_mapped fuel exts cap start count block = Some rs /\
    ranges_ok rs /\ (forall r, In r rs -> block <= fst r) /\
    (forall b, covered rs b <-> (block <= b < start + count /\ mapped exts b)).
Proof.
  intros exts cap start count OK CAP. induction fuel as [|fuel IH]; intros block HB HF.
  { cbn in *. lia. }
  cbn [do_get_mapped]. destruct (block <? start + count) eqn:E; zb.
  2: { exists []. split; [auto|]. split; [split; constructor|]. split; [intros r []|].
       intros b. split; [intros [r [[] _]]|lia]. }
  unfold fiemap_ioctl.
  set (P := fun e : extent => (block <? ext_end e) && (ext_first e <? block + count)).
  pose proof (extents_ok_sub P exts OK) as OKF.
  destruct (extents_ok_firstn cap _ OKF) as [OK1 OK2].
  assert (IN : forall e b, In e exts -> fst e <= b < fst e + snd e -> block <= b < start + count ->
                In e (filter P exts)).
  { intros e b I R B. apply filter_In. split; [auto|]. unfold P, ext_end, ext_first.
    apply andb_true_iff. split; apply Z.ltb_lt; lia. }
  assert (PB : Forall (fun e => block < fst e + snd e) (firstn cap (filter P exts))).
  { rewrite Forall_forall. intros e I.
    assert (I' : In e (filter P exts)) by (rewrite <- (firstn_skipn cap (filter P exts)); apply in_or_app; auto).
    apply filter_In in I'. destruct I' as [_ I']. unfold P, ext_end in I'. zb. auto. }
  assert (SUB : forall e, In e (firstn cap (filter P exts)) -> In e exts).
  { intros e I.
    assert (I' : In e (filter P exts)) by (rewrite <- (firstn_skipn cap (filter P exts)); apply in_or_app; auto).
    apply filter_In in I'. tauto. }
  assert (SPLIT : forall e, In e (filter P exts) ->
             In e (firstn cap (filter P exts)) \/ In e (skipn cap (filter P exts))).
  { intros e I. rewrite <- (firstn_skipn cap (filter P exts)) in I. apply in_app_or in I. auto. }
  assert (EMP : firstn cap (filter P exts) = [] -> filter P exts = []).
  { destruct cap; [lia|]. destruct (filter P exts); cbn; congruence. }
  remember (firstn cap (filter P exts)) as es eqn:ES. clear ES.
  destruct es as [|e0 es0].
  { exists []. split; [auto|]. split; [split; constructor|]. split; [intros r []|].
    intros b. split; [intros [r [[] _]]|]. intros [B [e [I R]]].
    pose proof (IN e b I R B) as I'. rewrite (EMP eq_refl) in I'. destruct I'. }
  pose proof (fiemap_walk_ok start count block (e0 :: es0) block ltac:(lia) OK1 ltac:(lia) PB) as W.
  assert (HN : Forall (fun e => block <= fst e \/ block = block) (e0 :: es0)).
  { rewrite Forall_forall. auto. }
  specialize (W HN). destruct (fiemap_walk start count block (e0 :: es0) block) as [rs nxt].
  destruct W as (W1 & W2 & W3 & W4).
  destruct nxt as [n|].
  - destruct W4 as (N1 & N2 & N3 & N4 & N5). specialize (N2 ltac:(congruence)).
    destruct (IH n ltac:(lia) ltac:(lia)) as [rs' (R1 & R2 & R3 & R4)].
    rewrite R1. exists (rs ++ rs'). split; [auto|].
    split.
    { apply ranges_ok_app; auto. intros x y X Y. apply N4 in X. apply R3 in Y. lia. }
    split.
    { intros r I. apply in_app_or in I. destruct I as [I|I]; [apply W2 in I; lia|apply R3 in I; lia]. }
    intros b. split.
    + intros [r [I R]]. apply in_app_or in I. destruct I as [I|I].
      * destruct (proj1 (W3 b)) as [X1 [e [X2 X3]]]; [exists r; auto|]. split; [auto|]. exists e; auto.
      * destruct (proj1 (R4 b)) as [X1 X2]; [exists r; auto|]. split; [lia|auto].
    + intros [B [e [I R]]]. destruct (SPLIT e (IN e b I R B)) as [J|J].
      * destruct (proj2 (W3 b)) as [r [Q1 Q2]]; [split; [auto|exists e; auto]|].
        exists r. split; [apply in_or_app; auto|auto].
      * destruct (Z_lt_dec b n) as [L|L].
        { exfalso. destruct N5 as [el [L1 L2]]; [congruence|].
          pose proof (OK2 el e L1 J). lia. }
        destruct (proj2 (R4 b)) as [r [Q1 Q2]]; [split; [lia|exists e; auto]|].
        exists r. split; [apply in_or_app; auto|auto].
  - exists rs. split; [auto|]. split; [auto|].
    split; [intros r I; apply W2 in I; lia|].
    intros b. rewrite W3. split; intros [B [e [I R]]]; split; auto; exists e; split; auto.
    destruct (SPLIT e (IN e b I R B)) as [J|J]; auto.
    destruct W4 as [x [X1 X2]]. pose proof (OK2 x e X1 J).
    assert (0 < snd x). { destruct OK1 as [F _]. rewrite Forall_forall in F. apply F; auto. }
    lia.
Qed.

Lemma fiemap_ranges_ok : forall exts cap start count,
  extents_ok exts -> (0 < cap)%nat ->
  (exists b, start <= b < start + count /\ mapped exts b) ->
  exists rs, fiemap_ranges (S (Z.to_nat count)) exts cap start count = Some rs /\
    ranges_merged rs /\
    (forall b, covered rs b <-> (start <= b < start + count /\ mapped exts b)).
Proof.
  intros * OK CAP [b0 [B0 M0]].
  destruct (do_get_mapped_ok exts cap start count OK CAP (S (Z.to_nat count)) start ltac:(lia) ltac:(lia))
    as [rs (R1 & R2 & R3 & R4)].
  unfold fiemap_ranges. rewrite R1. destruct rs as [|r rs].
  { destruct (proj2 (R4 b0)) as [r [[] _]]. auto. }
  exists (merge_from r rs). split; [auto|]. split; [apply merge_from_merged; auto|].
  intros b. rewrite <- R4. destruct R2 as [F _]. inversion F; subst. apply merge_from_covered; auto.
Qed.

Lemma fiemap_ranges_empty : forall exts cap start count,
  extents_ok exts -> (0 < cap)%nat ->
  (forall b, start <= b < start + count -> ~ mapped exts b) ->
  fiemap_ranges (S (Z.to_nat count)) exts cap start count = None.
Proof.
  intros * OK CAP H.
  destruct (do_get_mapped_ok exts cap start count OK CAP (S (Z.to_nat count)) start ltac:(lia) ltac:(lia))
    as [rs (R1 & [R2 _] & R3 & R4)].
  unfold fiemap_ranges. rewrite R1. destruct rs as [|r rs]; [reflexivity|].
  exfalso. inversion R2; subst.
  destruct (proj1 (R4 (fst r))) as [A B].
  { exists r. split; [left; auto|lia]. }
  eapply H; eauto.
Qed.

(* ---------------- SEEK_DATA / SEEK_HOLE ---------------- *)


(** The kernel interface: what lseek(SEEK_DATA) and lseek(SEEK_HOLE) answer for a
    file of [isz] bytes whose data bytes are [data] (whole blocks of [bs]). *)
Lemma seek_ranges_ok : forall (data : Z -> Prop) sd sh bs isz bc limit,
  0 < bs -> 0 <= isz -> isz <= bc * bs < isz + bs ->
  (exists k, limit = k * bs) -> limit <= bc * bs ->
  lseek_ok data sd sh bs isz ->
  forall fuel k,
  0 <= k * bs <= limit -> limit - k * bs < Z.of_nat fuel ->
  exists rs, seek_ranges fuel sd sh bs isz bc limit (k * bs) = Some rs /\
    ranges_ok rs /\ (forall r, In r rs -> k <= fst r) /\
    (forall b, covered rs b <->
       exists x, k * bs <= x < limit /\ data x /\ b * bs <= x < (b + 1) * bs).
Proof.
  intros data sd sh bs isz bc limit HB HI HI2 [kl HLim] HLB (DI & DA & SD & SH).
  induction fuel as [|fuel IH]; intros k HO HF; [lia|].
  cbn [seek_ranges].
  destruct (SD (k * bs) ltac:(lia)) as [[S1 S2]|(S1 & S2 & S3)].
  { rewrite S1. cbn. exists []. split; [auto|]. split; [split; constructor|].
    split; [intros r []|]. intros b. split; [intros [r [[] _]]|].
    intros [x (X1 & X2 & X3)]. exfalso. apply (S2 x); [lia|auto]. }
  set (st := sd (k * bs)) in *.
  pose proof (DI _ S2) as D0.
  destruct ((st =? -1) || (limit <=? st) || (st =? isz)) eqn:E; zb.
  { exists []. split; [auto|]. split; [split; constructor|].
    split; [intros r []|]. intros b. split; [intros [r [[] _]]|].
    intros [x (X1 & X2 & X3)]. exfalso. apply (S3 x); auto.
    destruct E as [E|E]; [|zb; lia]. zb. destruct E as [E|E]; zb; lia. }
  destruct (SH st S2) as (K1 & K2 & K3).
  set (h := sh st) in *.
  (* the hole is at the end of the file or at a block boundary *)
  assert (HA : h = isz \/ exists m, h = m * bs).
  { destruct (Z.eq_dec h isz) as [e|n]; [auto|right]. exists (h / bs).
    pose proof (Z.div_mod h bs ltac:(lia)). pose proof (Z.mod_pos_bound h bs HB).
    destruct (Z.eq_dec (h mod bs) 0) as [z|nz]; [lia|]. exfalso. apply K3.
    apply (DA (h / bs) (h - 1) h); try lia. apply K2. lia. }
  set (e1 := if (h =? -1) || (h =? isz) then bc * bs else h).
  set (e2 := if limit <? e1 then limit else e1).
  assert (E2 : exists m, e2 = m * bs /\ st < e2 <= limit /\ h <= e1 /\
                 (forall b, st / bs <= b -> b * bs < e2 -> Z.max (b * bs) st < h)).
  { assert (E1 : exists m, e1 = m * bs /\ h <= e1 /\
       (forall b, st / bs <= b -> b * bs < e1 -> Z.max (b * bs) st < h)).
    { unfold e1. destruct ((h =? -1) || (h =? isz)) eqn:G.
      - zb. exists bc. destruct G as [G|G]; zb; [lia|]. split; [auto|]. split; [lia|].
        intros b B1 B2. enough (b * bs < isz) by lia.
        assert (b <= bc - 1) by (apply Z.lt_succ_r; apply Z.mul_lt_mono_pos_r with bs; lia).
        assert (b * bs <= (bc - 1) * bs) by (apply Z.mul_le_mono_nonneg_r; lia). lia.
      - zb. destruct HA as [HA|[m HA]]; [lia|]. exists m. split; [auto|]. split; [lia|].
        intros; lia. }
    destruct E1 as [m (M1 & M2 & M3)]. unfold e2. destruct (limit <? e1) eqn:G; zb.
    - exists kl. split; [auto|]. split; [lia|]. split; [lia|]. intros. apply M3; lia.
    - exists m. split; [auto|]. split; [lia|]. split; [lia|]. intros. apply M3; lia. }
  destruct E2 as [m (M1 & M2 & M3 & M4)].
  clearbody e2. subst e2.
  destruct (IH m ltac:(lia) ltac:(lia)) as [rs (R1 & R2 & R3 & R4)].
  rewrite R1. exists ((st / bs, m * bs / bs - 1) :: rs). split; [auto|].
  rewrite Z.div_mul by lia.
  pose proof (Z.div_mod st bs ltac:(lia)) as DM. pose proof (Z.mod_pos_bound st bs HB) as MB.
  assert (KS : k <= st / bs) by (apply Z.div_le_lower_bound; lia).
  assert (SM : st / bs < m) by (apply Z.div_lt_upper_bound; lia).
  split.
  { destruct R2 as [F S]. split; constructor; auto; cbn; [lia|].
    rewrite Forall_forall. intros q I. apply R3 in I. lia. }
  split.
  { intros r [<-|I]; cbn; [lia|]. apply R3 in I. lia. }
  intros b. split.
  - intros [r [[<-|I] R]]; cbn in *.
    + assert (B1 : b * bs < m * bs) by (apply Z.mul_lt_mono_pos_r; lia).
      assert (B2 : st / bs * bs <= b * bs) by (apply Z.mul_le_mono_nonneg_r; lia).
      assert (B3 : (b + 1) * bs <= m * bs) by (apply Z.mul_le_mono_nonneg_r; lia).
      pose proof (M4 b ltac:(lia) B1) as B4.
      exists (Z.max (b * bs) st). split; [lia|]. split; [apply K2; lia|]. lia.
    + destruct (proj1 (R4 b)) as [x (X1 & X2 & X3)]; [exists r; auto|].
      exists x. split; [lia|auto].
  - intros [x (X1 & X2 & X3)]. destruct (Z_lt_dec x (m * bs)) as [L|L].
    + exists (st / bs, m - 1). split; [left; auto|]. cbn.
      assert (st <= x). { destruct (Z_lt_dec x st); [exfalso; apply (S3 x); [lia|auto]|lia]. }
      assert (b * bs < m * bs) by lia.
      assert (b < m) by (apply Z.mul_lt_mono_pos_r with bs; lia).
      enough (st / bs < b + 1) by lia. apply Z.div_lt_upper_bound; lia.
    + destruct (proj2 (R4 b)) as [r [Q1 Q2]]; [exists x; split; [lia|auto]|].
      exists r. split; [right; auto|auto].
Qed.

(* ---------------- end to end ---------------- *)

Lemma merged_ok : forall rs, ranges_merged rs -> ranges_ok rs.
Proof.
  intros rs [F S]. split; auto. induction S; constructor; auto.
  - apply IHS. inversion F; auto.
  - rewrite Forall_forall in *. intros q I. specialize (H q I). lia.
Qed.

Lemma covered_byte : forall bs rs x, 0 < bs ->
  byte_mapped bs rs x <-> covered rs (x / bs).
Proof.
  intros bs rs x HB. unfold byte_mapped, covered.
  pose proof (Z.div_mod x bs ltac:(lia)). pose proof (Z.mod_pos_bound x bs HB).
  split; intros [r [I R]]; exists r; split; auto.
  - split; [apply Z.div_le_lower_bound; lia|].
    enough (x / bs < snd r + 1) by lia. apply Z.div_lt_upper_bound; lia.
  - assert (fst r * bs <= x / bs * bs) by (apply Z.mul_le_mono_nonneg_r; lia).
    assert (x / bs * bs <= snd r * bs) by (apply Z.mul_le_mono_nonneg_r; lia). lia.
Qed.

Lemma fiemap_copy_exact : forall src exts cap bs bc skip seek length,
  0 < bs -> (0 < cap)%nat -> extents_ok exts ->
  f_size src <= bc * bs ->
  (exists b, 0 <= b < bc /\ mapped exts b) ->
  (forall x, 0 <= x < f_size src -> ~ mapped exts (x / bs) -> f_data src x = 0) ->
  0 <= skip <= f_size src -> 0 <= seek -> 0 <= length -> skip + length <= f_size src ->
  exists rs d, fiemap_ranges (S (Z.to_nat bc)) exts cap 0 bc = Some rs /\
    sparse_copy src rs bs None skip seek length = Some d /\
    f_size d = seek + (if length =? 0 then f_size src - skip else length) /\
    (forall j, seek <= j < f_size d -> f_data d j = f_data src (j - seek + skip)) /\
    (forall j, j < seek -> f_data d j = 0).
Proof.
  intros * HB HC OK HS HM HZ Hskip Hseek HL HSL.
  destruct (fiemap_ranges_ok exts cap 0 bc OK HC) as [rs (R1 & R2 & R3)].
  { destruct HM as [b [B M]]. exists b. split; [lia|auto]. }
  exists rs.
  destruct (sparse_copy_new src rs bs skip seek length HB Hskip Hseek HL HSL (merged_ok _ R2))
    as [d D].
  { intros x X N. apply HZ; auto. intros M. apply N. apply covered_byte; auto.
    apply R3. split; auto. split; [apply Z.div_pos; lia|].
    apply Z.div_lt_upper_bound; lia. }
  exists d. split; [exact R1|exact D].
Qed.
