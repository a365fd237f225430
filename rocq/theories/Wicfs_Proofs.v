(** Lemmas on fstab lines, root devices and sizes. *)
From Coq Require Import Ascii String List Bool NArith Arith Lia.
From Verif Require Import Str_Model Str_Proofs Rootcmd_Proofs Wicfs_Model Wicfs_Spec.
Import ListNotations.
Open Scope list_scope.

(** ** Lines *)
Lemma plain_word : forall w, plain w <-> word w.
Proof. intro w. unfold plain, word. rewrite Forall_forall. tauto. Qed.
Lemma split_on_after : forall c a b, split_on c (a ++ c :: b) = split_on c a ++ split_on c b.
Proof.
  intros c a b. unfold split_on. generalize (@nil ascii) at 1 2 as cur. induction a as [|x a IH]; intro cur.
  - cbn. unfold aeqb. rewrite Ascii.eqb_refl. reflexivity.
  - cbn. destruct (aeqb x c); [rewrite IH; reflexivity|apply IH].
Qed.
Lemma join_tab_words : forall ws, Forall word ws -> split_ws (join tab ws) = ws.
Proof.
  induction ws as [|w ws IH]; intro F; [reflexivity|]. inversion F as [|? ? W F']; subst. destruct ws as [|v ws]; [apply split_ws_single; exact W|]. rewrite join_cons by discriminate. change (tab ++ join tab (v :: ws)) with ("009"%char :: join tab (v :: ws)). rewrite split_ws_word by (auto || reflexivity). rewrite IH by exact F'. reflexivity.
Qed.
Lemma join_no_nl : forall ws, Forall word ws -> no_char nl (join tab ws).
Proof.
  induction ws as [|w ws IH]; intro F; [constructor|]. inversion F as [|? ? W F']; subst.
  assert (NW : no_char nl w) by (destruct W as [_ W]; unfold no_char; rewrite Forall_forall in W |- *; intros c I; specialize (W c I); apply aeqb_neq; intros ->; discriminate).
  destruct ws as [|v ws]; [exact NW|]. rewrite join_cons by discriminate. unfold no_char in *. apply Forall_app. split; [exact NW|]. apply Forall_app. split; [repeat constructor|]. exact (IH F').
Qed.
Lemma lines_of : forall l, Forall (no_char nl) l -> split_on nl (concat (map (fun x => x ++ [nl]) l)) = l ++ [[]].
Proof.
  induction l as [|x l IH]; intro F; [reflexivity|]. inversion F as [|? ? N F']; subst. cbn [map concat]. rewrite <- app_assoc. change ([nl] ++ concat (map (fun x => x ++ [nl]) l)) with (nl :: concat (map (fun x => x ++ [nl]) l)). rewrite split_on_cons by exact N. rewrite IH by exact F'. reflexivity.
Qed.
Lemma filter_ext_mounted : forall ps, filter in_fstab ps = filter mounted ps.
Proof.
  intro ps. apply filter_ext. intro p. unfold in_fstab, mounted. destruct (mount p); [cbn; rewrite !andb_false_r; reflexivity|]. cbn [none negb]. rewrite andb_true_r. reflexivity.
Qed.

(** ** Hexadecimal digits *)
Definition all_chars : list ascii := map (fun n => ascii_of_N (N.of_nat n)) (seq 0 256).
Lemma all_chars_In : forall c, In c all_chars.
Proof. intro c. unfold all_chars. apply in_map_iff. exists (N.to_nat (N_of_ascii c)). split; [rewrite N2Nat.id; apply ascii_N_embedding|]. apply in_seq. pose proof (N_ascii_bounded c). lia. Qed.
Lemma hex_upper : forall c, match hex_value c with Some d => hex_value (to_upper c) = Some d /\ (d < 16)%N /\ to_upper c = upper_digit d /\ to_upper c <> "X"%char | None => True end.
Proof.
  assert (C : forallb (fun c => match hex_value c with Some d => match hex_value (to_upper c) with Some e => N.eqb d e | None => false end && N.ltb d 16 && aeqb (to_upper c) (upper_digit d) && negb (aeqb (to_upper c) "X"%char) | None => true end) all_chars = true) by (vm_compute; reflexivity).
  intro c. pose proof (proj1 (forallb_forall _ _) C c (all_chars_In c)) as H. cbv beta in H. destruct (hex_value c) as [d|]; [|exact I]. apply andb_true_iff in H. destruct H as [H H4]. apply andb_true_iff in H. destruct H as [H H3]. apply andb_true_iff in H. destruct H as [H1 H2]. split; [destruct (hex_value (to_upper c)) as [e|]; [apply N.eqb_eq in H1; congruence|discriminate]|]. split; [apply N.ltb_lt, H2|]. split; [apply aeqb_eq, H3|]. apply negb_true_iff, aeqb_neq in H4. exact H4.
Qed.
Lemma hex_number_app : forall a b acc, hex_number acc (a ++ b) = match hex_number acc a with Some n => hex_number n b | None => None end.
Proof. induction a as [|c a IH]; intros b acc; [reflexivity|]. cbn [app hex_number]. destruct (hex_value c); [apply IH|reflexivity]. Qed.
Lemma hex_number_upper : forall s acc v, hex_number acc s = Some v -> hex_number acc (upper s) = Some v.
Proof. induction s as [|c s IH]; intros acc v H; [exact H|]. cbn [hex_number upper map] in *. pose proof (hex_upper c) as U. destruct (hex_value c) as [d|]; [|discriminate]. destruct U as (-> & _). apply IH, H. Qed.
Lemma hex_number_zeros : forall k s, hex_number 0 (repeat "0"%char k ++ s) = hex_number 0 s.
Proof. induction k as [|k IH]; intro s; [reflexivity|]. cbn [repeat app hex_number]. exact (IH s). Qed.
Lemma hexpad_number : forall s acc v, hex_number acc s = Some v -> hexpad upper_digit (length s) v = upper s /\ (v / 16 ^ N.of_nat (length s) = acc)%N.
Proof.
  induction s as [|c s IH] using rev_ind; intros acc v H.
  - cbn in H. inversion H; subst. split; [reflexivity|]. cbn. apply N.div_1_r.
  - rewrite hex_number_app in H. destruct (hex_number acc s) as [n|] eqn:E; [|discriminate]. cbn [hex_number] in H. pose proof (hex_upper c) as U. destruct (hex_value c) as [d|]; [|discriminate]. inversion H; subst v. destruct U as (_ & L & U & _). destruct (IH acc n E) as [I1 I2].
    assert (D : ((n * 16 + d) / 16 = n)%N) by (rewrite N.div_add_l by lia; rewrite N.div_small by exact L; lia).
    assert (M : ((n * 16 + d) mod 16 = d)%N) by (rewrite N.add_comm, N.mod_add by lia; apply N.mod_small, L).
    rewrite app_length, Nat.add_1_r. cbn [hexpad]. split.
    + rewrite D, M, I1. unfold upper. rewrite map_app. cbn [map]. rewrite U. reflexivity.
    + rewrite Nat2N.inj_succ, N.pow_succ_r', <- N.div_div, D; [exact I2|lia|apply N.pow_nonzero; lia].
Qed.
Lemma hexpad_length : forall dig k n, length (hexpad dig k n) = k.
Proof. intros dig. induction k as [|k IH]; intro n; [reflexivity|]. cbn [hexpad]. rewrite app_length, IH. cbn. lia. Qed.
Lemma hexpad_split : forall dig a b n, hexpad dig (a + b) n = hexpad dig a (n / 16 ^ N.of_nat b) ++ hexpad dig b (n mod 16 ^ N.of_nat b).
Proof.
  intros dig a. induction b as [|b IH]; intro n.
  - rewrite Nat.add_0_r. cbn [hexpad]. rewrite app_nil_r. f_equal. cbn. symmetry. apply N.div_1_r.
  - rewrite Nat.add_succ_r. cbn [hexpad]. rewrite IH, app_assoc.
    assert (P : (16 ^ N.of_nat b <> 0)%N) by (apply N.pow_nonzero; lia).
    rewrite Nat2N.inj_succ, N.pow_succ_r'.
    replace (n / (16 * 16 ^ N.of_nat b))%N with (n / 16 / 16 ^ N.of_nat b)%N by (rewrite N.div_div by lia; reflexivity).
    rewrite N.mod_mul_r by lia.
    set (X := ((n / 16) mod 16 ^ N.of_nat b)%N). assert (C : (16 * X = X * 16)%N) by apply N.mul_comm. rewrite C.
    assert (E1 : ((n mod 16 + X * 16) / 16 = X)%N) by (rewrite N.div_add by discriminate; rewrite N.div_small by (apply N.mod_lt; discriminate); apply N.add_0_l).
    assert (E2 : ((n mod 16 + X * 16) mod 16 = n mod 16)%N) by (rewrite N.mod_add by discriminate; apply N.mod_mod; discriminate).
    rewrite E1, E2. reflexivity.
Qed.
Lemma upper_length : forall s, length (upper s) = length s.
Proof. intro s. apply map_length. Qed.
Lemma rjust_length : forall k s, length s <= k -> length (rjust k s) = k.
Proof. intros k s L. unfold rjust. rewrite app_length, repeat_length. lia. Qed.
Lemma rjust_upper : forall s, length s <= 8 -> forall v, hex_number 0 s = Some v -> hexpad upper_digit 8 v = rjust 8 (upper s) /\ (v < 2 ^ 32)%N.
Proof.
  intros s L v H. assert (HZ : hex_number 0 (repeat "0"%char (8 - length s) ++ s) = Some v) by (rewrite hex_number_zeros; exact H). destruct (hexpad_number _ _ _ HZ) as [A B]. rewrite app_length, repeat_length in A, B. replace (8 - length s + length s) with 8 in A, B by lia. split.
  - rewrite A. unfold rjust. rewrite upper_length. unfold upper. rewrite map_app. f_equal. generalize (8 - length s) as k. induction k as [|k IH]; [reflexivity|]. cbn [repeat map]. rewrite IH. reflexivity.
  - change (16 ^ N.of_nat 8)%N with (2 ^ 32)%N in B. destruct (N.lt_ge_cases v (2 ^ 32)) as [Q|Q]; [exact Q|]. exfalso. pose proof (N.div_le_lower_bound v (2 ^ 32) 1) as X. lia.
Qed.
Lemma hex_no_x : forall s v acc, hex_number acc s = Some v -> startswith (s_ "0X") (upper s) = false.
Proof.
  intros [|a [|b s]] v acc H; [reflexivity|cbn [upper map startswith s_ list_ascii_of_string]; apply andb_false_r|]. cbn [upper map startswith s_ list_ascii_of_string]. cbn [hex_number] in H. destruct (hex_value a) as [d|]; [|discriminate]. pose proof (hex_upper b) as U. destruct (hex_value b) as [e|]; [|discriminate]. destruct U as (_ & _ & _ & U). assert (F : aeqb "X"%char (to_upper b) = false) by (apply aeqb_neq; congruence). unfold aeqb in *. rewrite F. apply andb_false_r.
Qed.

(** ** Partitions after the first steps *)
Lemma number_nth : forall f nreal ps n i p', nth_error (number f nreal n ps) i = Some p' -> exists p m, nth_error ps i = Some p /\ p' = set_num p m /\ (no_table p = true <-> m = 0%N) /\ (m = 0%N \/ n < m)%N.
Proof.
  intros f nreal. induction ps as [|p ps IH]; intros n i p' H; [destruct i; discriminate|]. cbn [number] in H. destruct (no_table p) eqn:T.
  - destruct i as [|i]; [cbn in H; inversion H; subst; exists p, 0%N; repeat split; auto|]. destruct (IH n i p' H) as (q & m & A & B & C & D). exists q, m. auto.
  - destruct i as [|i].
    + cbn in H. inversion H; subst. eexists p, _. split; [reflexivity|]. split; [reflexivity|]. destruct (negb (gpt f) && (3 <? n + 1)%N && (4 <? nreal)%N); split; try (rewrite T; split; [discriminate|lia]); right; lia.
    + destruct (IH (n + 1)%N i p' H) as (q & m & A & B & C & D). exists q, m. split; [exact A|]. split; [exact B|]. split; [exact C|]. lia.
Qed.
Lemma number_increasing : forall f nreal ps n i j p q, i < j -> nth_error (number f nreal n ps) i = Some p -> nth_error (number f nreal n ps) j = Some q -> realnum p <> 0%N -> realnum q <> 0%N -> (realnum p < realnum q)%N.
Proof.
  intros f nreal. induction ps as [|x ps IH]; intros n i j p q L A B NA NB; [destruct i; discriminate|]. destruct j as [|j]; [lia|]. cbn [number] in A, B. destruct (no_table x) eqn:T.
  - destruct i as [|i]; [cbn in A; inversion A; subst; exfalso; apply NA; reflexivity|]. cbn [nth_error] in A, B. apply (IH n i j p q); auto. lia.
  - cbn [nth_error] in B. destruct i as [|i]; [|cbn [nth_error] in A; apply (IH (n + 1)%N i j p q); auto; lia].
    cbn in A. inversion A; subst. clear A.
    set (n1 := (n + 1)%N) in *. cbn [realnum set_num].
    assert (G : forall ps m j q, nth_error (number f nreal m ps) j = Some q -> realnum q <> 0%N -> ((if negb (gpt f) && (3 <? m + 1)%N && (4 <? nreal)%N then m + 1 + 1 else m + 1) <= realnum q)%N).
    { clear. induction ps as [|y ps IH]; intros m j q H N; [destruct j; discriminate|]. cbn [number] in H. destruct (no_table y).
      - destruct j as [|j]; [cbn in H; inversion H; subst; exfalso; apply N; reflexivity|]. exact (IH m j q H N).
      - destruct j as [|j]; [cbn in H; inversion H; subst; cbn [realnum set_num]; lia|]. cbn [nth_error] in H. specialize (IH (m + 1)%N j q H N). destruct (negb (gpt f)); cbn [andb] in *; [|lia]. destruct (4 <? nreal)%N; rewrite ?andb_true_r, ?andb_false_r in *; [|lia].
        destruct (3 <? m + 1)%N eqn:E1; destruct (3 <? m + 1 + 1)%N eqn:E2; lia. }
    specialize (G ps n1 j q B NB). destruct (negb (gpt f)); cbn [andb] in *; [|lia]. destruct (4 <? nreal)%N; rewrite ?andb_true_r, ?andb_false_r in *; [|lia]. clearbody n1. clear - G. destruct (N.ltb_spec 3 n1); destruct (N.ltb_spec 3 (n1 + 1)); lia.
Qed.
Section Ids.
Variable uuid4 : nat -> str.
Variable ident : N.
Lemma identify_nth : forall f ps k i p', nth_error (identify uuid4 ident f k ps) i = Some p' ->
  exists p k1 k2, nth_error ps i = Some p /\ p' = set_ids p (fst (part_uuid uuid4 ident f k1 p)) (fst (fs_uuid uuid4 k2 p)).
Proof.
  intro f. induction ps as [|p ps IH]; intros k i p' H; [destruct i; discriminate|]. cbn [identify] in H. destruct (part_uuid uuid4 ident f k p) as [u k1] eqn:E1. destruct (fs_uuid uuid4 k1 p) as [fu k2] eqn:E2. destruct i as [|i].
  - cbn in H. inversion H; subst. exists p, k, k1. rewrite E1, E2. split; reflexivity.
  - destruct (IH k2 i p' H) as (q & a & b & A & B). exists q, a, b. split; assumption.
Qed.
Lemma init_nth : forall f ps i p', nth_error (init_parts uuid4 ident f ps) i = Some p' ->
  exists p m k1 k2, nth_error ps i = Some p /\ (no_table p = true <-> m = 0%N) /\ p' = set_ids (set_num p m) (fst (part_uuid uuid4 ident f k1 (set_num p m))) (fst (fs_uuid uuid4 k2 (set_num p m))).
Proof.
  intros f ps i p' H. unfold init_parts in H. destruct (identify_nth _ _ _ _ _ H) as (q & k1 & k2 & A & B). destruct (number_nth _ _ _ _ _ _ A) as (p & m & C & D & E & _). subst q. exists p, m, k1, k2. auto.
Qed.
Lemma init_numbers : forall f ps i p', nth_error (init_parts uuid4 ident f ps) i = Some p' -> exists q, nth_error (number f (num_real ps) 0 ps) i = Some q /\ realnum q = realnum p' /\ disk q = disk p' /\ use_uuid q = use_uuid p' /\ use_label q = use_label p'.
Proof. intros f ps i p' H. unfold init_parts in H. destruct (identify_nth _ _ _ _ _ H) as (q & k1 & k2 & A & B). exists q. subst p'. auto. Qed.
(** the identifier of a FAT file system *)
Lemma fs_uuid_fat : forall k p v, (forall n, uuid_text (uuid4 n)) -> fat p = true ->
  (if none (fsuuid p) then hex_number 0 (firstn 8 (uuid4 k)) = Some v else exists d, hex_number 0 d = Some v /\ length d <= 8 /\ (fsuuid p = d \/ fsuuid p = s_ "0x" ++ d \/ fsuuid p = s_ "0X" ++ d)) ->
  fst (fs_uuid uuid4 k p) = s_ "0x" ++ hexpad upper_digit 8 v.
Proof.
  intros k p v UT F H. unfold fs_uuid. destruct (none (fsuuid p)) eqn:N.
  - rewrite F. cbn [fst]. f_equal. pose proof (UT k) as [L _]. assert (L8 : length (firstn 8 (uuid4 k)) = 8) by (rewrite firstn_length; lia). destruct (rjust_upper (firstn 8 (uuid4 k))) with (v := v) as [R _]; [lia|exact H|]. rewrite R. unfold rjust. rewrite upper_length, L8. reflexivity.
  - rewrite F. destruct H as (d & HD & LD & [E|[E|E]]); rewrite E.
    + rewrite (hex_no_x d v 0 HD). cbn [fst]. f_equal. symmetry. apply rjust_upper; assumption.
    + change (upper (s_ "0x" ++ d)) with ("0"%char :: "X"%char :: upper d). cbn [startswith s_ list_ascii_of_string]. cbn [aeqb Ascii.eqb Bool.eqb andb fst skipn]. f_equal. symmetry. apply rjust_upper; assumption.
    + change (upper (s_ "0X" ++ d)) with ("0"%char :: "X"%char :: upper d). cbn [startswith s_ list_ascii_of_string]. cbn [aeqb Ascii.eqb Bool.eqb andb fst skipn]. f_equal. symmetry. apply rjust_upper; assumption.
Qed.
(** how far the made-up identifiers have got *)
Lemma part_uuid_step f k p : snd (part_uuid uuid4 ident f k p) = k \/ (snd (part_uuid uuid4 ident f k p) = S k /\ fst (part_uuid uuid4 ident f k p) = uuid4 k).
Proof. unfold part_uuid. destruct (none (uuid p) && use_uuid p); [|left; reflexivity]. destruct (gpt f); [right; split; reflexivity|left; reflexivity]. Qed.
Lemma fs_uuid_step k p : snd (fs_uuid uuid4 k p) = k \/ snd (fs_uuid uuid4 k p) = S k.
Proof. unfold fs_uuid. destruct (none (fsuuid p)); [right; reflexivity|left]. destruct (fat p); reflexivity. Qed.
Lemma identify_used : forall f ps k i p', nth_error (identify uuid4 ident f k ps) i = Some p' -> exists p k1 k2, nth_error ps i = Some p /\ k <= k1 /\
  uuid p' = fst (part_uuid uuid4 ident f k1 p) /\ fsuuid p' = fst (fs_uuid uuid4 k2 p) /\ k2 = snd (part_uuid uuid4 ident f k1 p) /\
  forall j q', i < j -> nth_error (identify uuid4 ident f k ps) j = Some q' -> exists q k3 k4, nth_error ps j = Some q /\ snd (fs_uuid uuid4 k2 p) <= k3 /\ k4 = snd (part_uuid uuid4 ident f k3 q) /\
    uuid q' = fst (part_uuid uuid4 ident f k3 q) /\ fsuuid q' = fst (fs_uuid uuid4 k4 q).
Proof.
  intro f.
  assert (G : forall ps k i p', nth_error (identify uuid4 ident f k ps) i = Some p' -> exists p k1, nth_error ps i = Some p /\ k <= k1 /\ uuid p' = fst (part_uuid uuid4 ident f k1 p) /\ fsuuid p' = fst (fs_uuid uuid4 (snd (part_uuid uuid4 ident f k1 p)) p)).
  { induction ps as [|p ps IH]; intros k i p' H; [destruct i; discriminate|]. cbn [identify] in H. pose proof (part_uuid_step f k p) as S1. destruct (part_uuid uuid4 ident f k p) as [u k1] eqn:E1. pose proof (fs_uuid_step k1 p) as S2. destruct (fs_uuid uuid4 k1 p) as [fu k2] eqn:E2. cbn [fst snd] in S1, S2. destruct i as [|i].
    - cbn in H. inversion H; subst. exists p, k. split; [reflexivity|]. split; [lia|]. rewrite E1. cbn [fst snd]. rewrite E2. split; reflexivity.
    - destruct (IH k2 i p' H) as (q & a & A & B & C). exists q, a. split; [exact A|]. split; [lia|exact C]. }
  induction ps as [|p ps IH]; intros k i p' H; [destruct i; discriminate|]. cbn [identify] in *. pose proof (part_uuid_step f k p) as S1. destruct (part_uuid uuid4 ident f k p) as [u k1] eqn:E1. pose proof (fs_uuid_step k1 p) as S2. destruct (fs_uuid uuid4 k1 p) as [fu k2] eqn:E2. cbn [fst snd] in S1, S2. destruct i as [|i].
  - cbn in H. inversion H; subst. exists p, k, k1. split; [reflexivity|]. split; [lia|]. rewrite E1. cbn [fst snd]. rewrite E2. split; [reflexivity|]. split; [reflexivity|]. split; [reflexivity|].
    intros [|j] q' L J; [lia|]. cbn [nth_error] in J. destruct (G _ _ _ _ J) as (q & a & A & B & C & D). exists q, a, (snd (part_uuid uuid4 ident f a q)). cbn [snd]. auto.
  - destruct (IH k2 i p' H) as (q & a & b & A & B & C & D & E & F). exists q, a, b. split; [exact A|]. split; [lia|]. split; [exact C|]. split; [exact D|]. split; [exact E|].
    intros [|j] q' L J; [lia|]. apply (F j q'); [lia|exact J].
Qed.
End Ids.
Lemma cut4 : forall a b : str, length a = 4 -> firstn 4 (a ++ b) = a /\ skipn 4 (a ++ b) = b.
Proof. intros [|x [|y [|z [|w [|v a]]]]] b L; try discriminate. split; reflexivity. Qed.
Lemma device_fat_text : forall p v, use_uuid p = true -> fsuuid p = s_ "0x" ++ hexpad upper_digit 8 v -> device_name p = s_ "UUID=" ++ fat_text v.
Proof.
  intros p v U E. unfold device_name. rewrite U, E. change (none (s_ "0x" ++ hexpad upper_digit 8 v)) with false. cbn [negb]. assert (L : length (s_ "0x" ++ hexpad upper_digit 8 v) = 10) by (rewrite app_length, hexpad_length; reflexivity). rewrite L. cbn [Nat.eqb].
  f_equal. change (skipn 2 (s_ "0x" ++ hexpad upper_digit 8 v)) with (hexpad upper_digit 8 v). change (skipn 6 (s_ "0x" ++ hexpad upper_digit 8 v)) with (skipn 4 (hexpad upper_digit 8 v)).
  change 8 with (4 + 4). rewrite hexpad_split. change (16 ^ N.of_nat 4)%N with 65536%N. unfold fat_text.
  rewrite (proj1 (cut4 _ _ (hexpad_length upper_digit 4 (v / 65536)))), (proj2 (cut4 _ _ (hexpad_length upper_digit 4 (v / 65536)))). reflexivity.
Qed.
Lemma node_usual : forall d n, usual_disk d -> d ++ (if startswith (s_ "mmcblk") d then s_ "p" else []) ++ dec n = node_of d n.
Proof. intros d n U. unfold node_of. unfold usual_disk in U. rewrite U. destruct (rev d) as [|c r]; [reflexivity|]. reflexivity. Qed.
Lemma rootdev_first : forall f ps p, is_root ps p -> rootdev f ps = Some (if negb (none (uuid p)) then s_ "PARTUUID=" ++ uuid p else if negb (none (label p)) && gpt f then s_ "PARTLABEL=" ++ label p else dev_node p).
Proof.
  intros f ps p (a & b & -> & M & N). induction a as [|q a IH]; cbn [app rootdev].
  - rewrite M, seqb_refl. reflexivity.
  - assert (F : seqb (mount q) (s_ "/") = false) by (apply seqb_neq, N; left; reflexivity). rewrite F. apply IH. intros x I. apply N. right. exact I.
Qed.
Lemma lower_kernel : forall k n, hexpad lower_digit k n = hexpad kernel_digit k n.
Proof.
  induction k as [|k IH]; intro n; [reflexivity|]. cbn [hexpad]. rewrite IH. f_equal. f_equal.
  assert (B : (n mod 16 < 16)%N) by (apply N.mod_lt; discriminate). set (m := (n mod 16)%N) in *. clearbody m.
  assert (C : forallb (fun d => aeqb (lower_digit (N.of_nat d)) (kernel_digit (N.of_nat d))) (seq 0 16) = true) by (vm_compute; reflexivity).
  rewrite forallb_forall in C. assert (I : In (N.to_nat m) (seq 0 16)) by (apply in_seq; lia). specialize (C _ I). rewrite N2Nat.id in C. apply aeqb_eq in C. exact C.
Qed.
Lemma pad2_hex : forall n, (0 < n < 10)%N -> pad2 n = hexpad lower_digit 2 n.
Proof.
  assert (C : forallb (fun n => seqb (pad2 (N.of_nat n)) (hexpad lower_digit 2 (N.of_nat n))) (seq 1 9) = true) by (vm_compute; reflexivity).
  intros n H. pose proof (proj1 (forallb_forall _ _) C (N.to_nat n)) as X. cbv beta in X. rewrite N2Nat.id in X. apply seqb_eq. apply X. apply in_seq. lia.
Qed.
(** ** Files *)
Lemma name_line : forall a l t a' l' t', ~ In "."%char t -> ~ In "."%char t' -> a ++ s_ "." ++ dec l ++ s_ "." ++ t = a' ++ s_ "." ++ dec l' ++ s_ "." ++ t' -> l = l'.
Proof.
  intros a l t a' l' t' N N' E.
  assert (R : forall x l t, rev (x ++ s_ "." ++ dec l ++ s_ "." ++ t) = rev t ++ "."%char :: rev (dec l) ++ "."%char :: rev x) by (intros x m u; rewrite !rev_app_distr; cbn [s_ list_ascii_of_string rev app]; rewrite <- !app_assoc; reflexivity).
  assert (CUT : forall (c : ascii) x y x' y', ~ In c x -> ~ In c x' -> x ++ c :: y = x' ++ c :: y' -> x = x' /\ y = y').
  { intro c. induction x as [|d x IH]; intros y x' y' NX NX' EQ; destruct x' as [|d' x'].
    - inversion EQ. auto.
    - inversion EQ; subst. exfalso. apply NX'. left. reflexivity.
    - inversion EQ; subst. exfalso. apply NX. left. reflexivity.
    - inversion EQ; subst. destruct (IH y x' y') as [-> ->]; auto; intro I; [apply NX|apply NX']; right; exact I. }
  assert (ND : forall m, ~ In "."%char (rev (dec m))).
  { intros m I. apply in_rev in I. destruct (dec_spec m) as (_ & D & _). rewrite Forall_forall in D. specialize (D _ I). discriminate. }
  apply (f_equal (@rev ascii)) in E. rewrite !R in E. apply CUT in E; [|intro I; apply in_rev in I; auto|intro I; apply in_rev in I; auto]. destruct E as [_ E]. apply CUT in E; [|apply ND|apply ND]. destruct E as [E _]. apply (f_equal (@rev ascii)) in E. rewrite !rev_involutive in E. exact (dec_inj _ _ E).
Qed.
Lemma assemble_ok : forall l, NoDup l -> assemble l l = Some [].
Proof.
  induction l as [|x l IH]; intro N; [reflexivity|]. inversion N as [|? ? NI N']; subst. cbn [assemble mem_str existsb]. rewrite seqb_refl. cbn [orb filter]. rewrite seqb_refl. cbn [negb].
  assert (F : filter (fun f => negb (seqb f x)) l = l).
  { clear - NI. induction l as [|y l IH]; [reflexivity|]. cbn [filter]. assert (E : seqb y x = false) by (apply seqb_neq; intros ->; apply NI; left; reflexivity). rewrite E. cbn [negb]. f_equal. apply IH. intro I. apply NI. right. exact I. }
  rewrite F. exact (IH N').
Qed.
Lemma fstypes_no_dot : forall t, In t fstypes -> ~ In "."%char t.
Proof.
  assert (C : forallb (fun t => negb (existsb (aeqb "."%char) t)) fstypes = true) by (vm_compute; reflexivity). intros t I J. pose proof (proj1 (forallb_forall _ _) C t I) as H. cbv beta in H. apply negb_true_iff in H. assert (X : existsb (aeqb "."%char) t = true) by (apply existsb_exists; exists "."%char; split; [exact J|reflexivity]). congruence.
Qed.
