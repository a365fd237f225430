(** Properties C05, C06: sparse copy and enumeration of mapped blocks. *)
From Coq Require Import ZArith List Bool Sorting.Sorted Lia.
From Verif Require Import Filemap_Model Filemap_Spec Filemap_Proofs.
Import ListNotations.
Open Scope Z_scope.

(** C05.  Copying into an existing file: the call succeeds, every mapped source
    byte of the window arrives, everything else is untouched, and the file grows
    exactly as far as the last byte copied. *)
Theorem sparse_copy_exact_bytes :
  forall src rs bs dst skip seek length,
    0 < bs -> 0 <= skip -> 0 <= length -> ranges_ok rs ->
    exists d, sparse_copy src rs bs (Some dst) skip seek length = Some d /\
      (forall x, byte_mapped bs rs x -> in_window src skip length x ->
         f_data d (seek + x - skip) = f_data src x /\ seek + x - skip < f_size d) /\
      (forall i, ~ (byte_mapped bs rs (i - seek + skip) /\
                    in_window src skip length (i - seek + skip)) ->
         f_data d i = f_data dst i) /\
      f_size dst <= f_size d /\
      (f_size d <> f_size dst ->
         byte_mapped bs rs (f_size d - 1 - seek + skip) /\
         in_window src skip length (f_size d - 1 - seek + skip)).
Proof. exact sparse_copy_exact. Qed.

(** Two mapped ranges, the second partly behind the end of the source. *)
Definition ex_src : file := File 18 (fun i => i + 100).
Definition ex_ranges : list range := [(0, 1); (4, 4)].
Example sparse_copy_example :
  ranges_ok ex_ranges /\
  option_map (fun d => (f_size d, map (fun i => f_data d (Z.of_nat i)) (seq 0 22)))
    (sparse_copy ex_src ex_ranges 4 (Some (File 10 (fun _ => 7))) 3 5 0)
  = Some (20, [7;7;7;7;7;103;104;105;106;107;7;7;7;7;7;7;7;7;116;117;7;7]) /\
  option_map (fun d => (f_size d, map (fun i => f_data d (Z.of_nat i)) (seq 0 12)))
    (sparse_copy ex_src ex_ranges 4 (Some (File 10 (fun _ => 7))) 3 5 3)
  = Some (10, [7;7;7;7;7;103;104;105;7;7;7;7]).
Proof.
  split; [repeat constructor; cbn; lia|]. split; vm_compute; reflexivity.
Qed.
Print Assumptions sparse_copy_exact_bytes.

(** C05, new destination: the result is the source window, shifted by [seek]. *)
Theorem sparse_copy_new_file_equals_window :
  forall src rs bs skip seek length,
    0 < bs -> 0 <= skip <= f_size src -> 0 <= seek -> 0 <= length ->
    skip + length <= f_size src -> ranges_ok rs ->
    (forall x, 0 <= x < f_size src -> ~ byte_mapped bs rs x -> f_data src x = 0) ->
    exists d, sparse_copy src rs bs None skip seek length = Some d /\
      f_size d = seek + (if length =? 0 then f_size src - skip else length) /\
      (forall j, seek <= j < f_size d -> f_data d j = f_data src (j - seek + skip)) /\
      (forall j, j < seek -> f_data d j = 0).
Proof. exact sparse_copy_new. Qed.
Print Assumptions sparse_copy_new_file_equals_window.

(** C06.  The FIEMAP enumeration covers exactly the mapped blocks of the queried
    window with maximal ranges, whatever the capacity of the ioctl buffer. *)
Theorem fiemap_ranges_exact :
  forall exts cap start count,
    extents_ok exts -> (0 < cap)%nat ->
    (exists b, start <= b < start + count /\ mapped exts b) ->
    exists rs, fiemap_ranges (S (Z.to_nat count)) exts cap start count = Some rs /\
      ranges_merged rs /\
      (forall b, covered rs b <-> (start <= b < start + count /\ mapped exts b)).
Proof. exact fiemap_ranges_ok. Qed.

Definition ex_exts : list extent := [(1, 2); (3, 4); (9, 1); (12, 10)].
Example fiemap_example :
  extents_ok ex_exts /\ mapped ex_exts 5 /\
  fiemap_ranges 30 ex_exts 2 2 12 = Some [(2, 6); (9, 9); (12, 13)].
Proof.
  split; [repeat constructor; cbn; lia|].
  split; [exists (3, 4); cbn; split; [auto|lia]|vm_compute; reflexivity].
Qed.
Print Assumptions fiemap_ranges_exact.

(** C06 for the merging step alone, on any ascending disjoint ranges. *)
Theorem merge_preserves_blocks :
  forall r rs, ranges_ok (r :: rs) ->
    exists out, merge_ranges (r :: rs) = Some out /\ ranges_merged out /\
      (forall b, covered out b <-> covered (r :: rs) b).
Proof.
  intros r rs OK. exists (merge_from r rs). split; [reflexivity|].
  split; [apply merge_from_merged; exact OK|]. intros b.
  destruct OK as [F _]. inversion F; subst. apply merge_from_covered; assumption.
Qed.
Example merge_example :
  ranges_ok [(0, 1); (2, 5); (7, 7); (8, 9)] /\
  merge_ranges [(0, 1); (2, 5); (7, 7); (8, 9)] = Some [(0, 5); (7, 9)].
Proof. split; [repeat constructor; cbn; lia|reflexivity]. Qed.
Print Assumptions merge_preserves_blocks.

(** Finding: a file without mapped blocks makes the generator fail (an exception
    instead of an empty enumeration). *)
Theorem fiemap_all_holes_refuted :
  forall exts cap start count,
    extents_ok exts -> (0 < cap)%nat ->
    (forall b, start <= b < start + count -> ~ mapped exts b) ->
    fiemap_ranges (S (Z.to_nat count)) exts cap start count = None.
Proof. exact fiemap_ranges_empty. Qed.
Example fiemap_all_holes_example : fiemap_ranges 9 [(100, 2)] 5 0 8 = None.
Proof. reflexivity. Qed.
Print Assumptions fiemap_all_holes_refuted.

(** C06 for SEEK_DATA/SEEK_HOLE: covered blocks are the blocks with data. *)
Theorem seek_ranges_exact :
  forall (data : Z -> Prop) sd sh bs isz bc start count,
    0 < bs -> 0 <= isz -> isz <= bc * bs < isz + bs ->
    0 <= start -> 0 <= count -> start + count <= bc ->
    lseek_ok data sd sh bs isz ->
    exists rs, filemap_seek (S (Z.to_nat (count * bs))) sd sh bs isz bc start count = Some rs /\
      ranges_ok rs /\
      (forall b, covered rs b <->
         (start <= b < start + count /\ exists x, data x /\ b * bs <= x < (b + 1) * bs)).
Proof.
  intros * HB HI HI2 Hs Hc Hb L. unfold filemap_seek.
  assert (0 <= count * bs) by (apply Z.mul_nonneg_nonneg; lia).
  assert (0 <= start * bs) by (apply Z.mul_nonneg_nonneg; lia).
  assert ((start + count) * bs <= bc * bs) by (apply Z.mul_le_mono_nonneg_r; lia).
  destruct (seek_ranges_ok data sd sh bs isz bc (start * bs + count * bs) HB HI HI2)
    with (fuel := S (Z.to_nat (count * bs))) (k := start) as [rs (R1 & R2 & R3 & R4)]; auto; try lia.
  { exists (start + count). lia. }
  exists rs. split; [exact R1|]. split; [exact R2|]. intros b. rewrite R4. split.
  - intros [x (X1 & X2 & X3)]. split; [|exists x; auto].
    assert (start * bs < (b + 1) * bs) by lia. assert (b * bs < (start + count) * bs) by lia.
    split; [assert (start < b + 1) by (apply Z.mul_lt_mono_pos_r with bs; lia); lia|
            apply Z.mul_lt_mono_pos_r with bs; lia].
  - intros [B [x [X1 X2]]]. exists x.
    assert (start * bs <= b * bs) by (apply Z.mul_le_mono_nonneg_r; lia).
    assert ((b + 1) * bs <= (start + count) * bs) by (apply Z.mul_le_mono_nonneg_r; lia).
    split; [lia|auto].
Qed.

(** A 10-byte file, blocks of 4 bytes, data in the first and last block. *)
Definition ex_data (x : Z) : Prop := 0 <= x < 4 \/ 8 <= x < 10.
Definition ex_sd (o : Z) : Z := if o <? 4 then o else if o <? 8 then 8 else if o <? 10 then o else -1.
Definition ex_sh (o : Z) : Z := if o <? 4 then 4 else if o <? 8 then o else 10.
Example seek_example :
  lseek_ok ex_data ex_sd ex_sh 4 10 /\
  filemap_seek 13 ex_sd ex_sh 4 10 3 0 3 = Some [(0, 0); (2, 2)].
Proof.
  split; [|vm_compute; reflexivity].
  unfold lseek_ok, ex_data, ex_sd, ex_sh.
  split; [intros; lia|]. split; [intros; lia|].
  split.
  - intros off O. destruct (off <? 4) eqn:A; [|destruct (off <? 8) eqn:B; [|destruct (off <? 10) eqn:C]];
      zb; [right|right|right|left]; repeat split; try lia; intros; lia.
  - intros off O. destruct (off <? 4) eqn:A; [|destruct (off <? 8) eqn:B]; zb; repeat split; try lia; intros; lia.
Qed.
Print Assumptions seek_ranges_exact.

(** C05 and C06 together: copying through FIEMAP into a new file. *)
Theorem sparse_copy_via_fiemap :
  forall src exts cap bs bc skip seek length,
    0 < bs -> (0 < cap)%nat -> extents_ok exts ->
    f_size src <= bc * bs ->
    (exists b, 0 <= b < bc /\ mapped exts b) ->
    (forall x, 0 <= x < f_size src -> ~ mapped exts (x / bs) -> f_data src x = 0) ->
    0 <= skip <= f_size src -> 0 <= seek -> 0 <= length -> skip + length <= f_size src ->
    exists rs d, fiemap_ranges (S (Z.to_nat bc)) exts cap 0 bc = Some rs /\
      sparse_copy src rs bs None skip seek length = Some d /\
      f_size d = seek + (if length =? 0 then f_size src - skip else length) /\
      (forall j, seek <= j < f_size d -> f_data d j = f_data src (j - seek + skip)) /\
      (forall j, j < seek -> f_data d j = 0).
Proof. exact fiemap_copy_exact. Qed.
Print Assumptions sparse_copy_via_fiemap.

(** ** Further cases that meet the hypotheses *)
Example sparse_copy_met : exists d, sparse_copy (File 18 (fun i => if i <? 8 then i + 100 else if i <? 16 then 0 else i)) ex_ranges 4 None 2 5 16 = Some d /\ f_size d = 21 /\
  forall j, 5 <= j < 21 -> f_data d j = (fun i => if i <? 8 then i + 100 else if i <? 16 then 0 else i) (j - 5 + 2).
Proof.
  destruct (sparse_copy_new_file_equals_window (File 18 (fun i => if i <? 8 then i + 100 else if i <? 16 then 0 else i)) ex_ranges 4 2 5 16) as (d & A & B & C & _); try (cbn; lia).
  - apply sparse_copy_example.
  - intros x X N. cbn in *. destruct (x <? 8) eqn:E; [exfalso; apply N; exists (0, 1); split; [now left|cbn; lia]|]. destruct (x <? 16) eqn:F; auto. exfalso. apply N. exists (4, 4). split; [right; now left|cbn; lia].
  - exists d. split; auto. split; [rewrite B; reflexivity|]. intros j J. rewrite C; auto. rewrite B. cbn. lia.
Qed.

