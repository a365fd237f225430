(** Moves and copies of files: whatever fails and wherever the machine stops. *)
From Coq Require Import Ascii String List Bool Arith Lia.
From Verif Require Import Str_Model Str_Proofs Moves_Model Moves_Spec Moves_Proofs.
Import ListNotations.
Open Scope list_scope.


(** *** C156: moving a file *)

(** At no time is the content lost: whatever operations fail, in every state the file system
    goes through, the file is unchanged under its old name or its content is under the new
    one. *)
Theorem move_keeps : forall me umask_mode now exdev same_device src dest newmtime c m s faults r w,
  movable s src dest c m -> movefile me umask_mode now exdev same_device src dest newmtime (start s faults) = (r, w) ->
  forall s', In s' (w_seen w) -> look s' src = Some (File c m) \/ holds s' (target s src dest) c.
Proof.
  intros me u now exdev same src dest nt c m s faults r w (SO & SF & AP & SN & SP) E.
  assert (G : exdev = true /\ same = true \/ movefile me u now false same src dest nt (start s faults) = (r, w)) by (destruct exdev, same; [left; split; reflexivity|right; exact E|right; exact E|right; exact E]).
  destruct G as [[-> ->]|G].
  - pose proof (across_move me u now src dest nt c m s faults SO SF AP SP r w E) as F. rewrite Forall_forall in F. exact F.
  - destruct (move_spec me u now src dest nt c m s SO SF AP SN SP same (fun x => look x src = Some (File c m) \/ holds x (target s src dest) c) faults) as (r' & w' & E' & F & _).
    + left. exact SF.
    + intros s1 T ->. left. destruct (cleared src dest c m s SO SF AP SP (set_name s dest None) (or_intror (conj T eq_refl))) as (i & NI & NN & _). unfold look. rewrite NI. cbn [option_map]. rewrite NN. reflexivity.
    + intros s1 d j s' S1 JO W. left. destruct (cleared src dest c m s SO SF AP SP s1 S1) as (i & NI & NN & _). apply (wr_src src i c m s1 _ j d s' SN NI NN); [|exact W]. intros ->. exact (JO src SN NI).
    + intros s' H. right. exact H.
    + rewrite G in E'. injection E' as <- <-. rewrite Forall_forall in F. exact F.
Qed.

(** Unless the kernel refuses to rename on one device, or a link is replaced, nobody sees a
    part of the file at its new name: there is what was there, or the whole content. *)
Theorem move_atomic : forall me umask_mode now exdev same_device src dest newmtime c m s faults r w,
  movable s src dest c m -> (forall t, look s dest <> Some (Link t)) -> exdev && same_device = false ->
  movefile me umask_mode now exdev same_device src dest newmtime (start s faults) = (r, w) ->
  forall s', In s' (w_seen w) -> look s' (target s src dest) = look s (target s src dest) \/ holds s' (target s src dest) c.
Proof.
  intros me u now exdev same src dest nt c m s faults r w (SO & SF & AP & SN & SP) NL EX E.
  assert (G : movefile me u now false same src dest nt (start s faults) = (r, w)) by (destruct exdev, same; [discriminate EX|exact E|exact E|exact E]).
  destruct (move_spec me u now src dest nt c m s SO SF AP SN SP same (fun x => look x (target s src dest) = look s (target s src dest) \/ holds x (target s src dest) c) faults) as (r' & w' & E' & F & _).
  - left. reflexivity.
  - intros s1 [t T] _. exfalso. exact (NL t T).
  - intros s1 d j s' S1 JO W. left. destruct S1 as [->|[[t T] _]]; [|exfalso; exact (NL t T)]. apply (wr_look s (new_of (target s src dest)) j d s' _ (new_ne _)); [|exact W]. exact (JO _ (new_ne _)).
  - intros s' H. right. exact H.
  - rewrite G in E'. injection E' as <- <-. rewrite Forall_forall in F. exact F.
Qed.

(** When a time is reported, it is the time asked for, or the file's own; the file is at the
    new name with its content, owner and permissions and that time; the old name is gone; no
    other file was touched. *)
Theorem move_done : forall me umask_mode now exdev same_device src dest newmtime c m s faults t w,
  movable s src dest c m -> exdev && same_device = false -> movefile me umask_mode now exdev same_device src dest newmtime (start s faults) = (Time t, w) ->
  t = (if Nat.eqb newmtime 0 then m_time m else newmtime) /\
  look (w_fs w) (target s src dest) = Some (File c (mkMeta (m_owner m) (m_mode m) t)) /\ look (w_fs w) src = None /\
  (forall q, apart s src q -> q <> target s src dest -> q <> new_of (target s src dest) -> look (w_fs w) q = look s q) /\
  (same_device = false -> look (w_fs w) (new_of (target s src dest)) = None).
Proof.
  intros me u now exdev same src dest nt c m s faults t w (SO & SF & AP & SN & SP) EX E.
  assert (G : movefile me u now false same src dest nt (start s faults) = (Time t, w)) by (destruct exdev, same; [discriminate EX|exact E|exact E|exact E]).
  destruct (move_spec me u now src dest nt c m s SO SF AP SN SP same (fun _ => True) faults I (fun _ _ _ => I) (fun _ _ _ _ _ _ _ => I) (fun _ _ => I)) as (r' & w' & E' & _ & PO & _).
  rewrite G in E'. injection E' as <- <-. destruct (PO t eq_refl) as (-> & A & B & C & D). split; [unfold stamp; destruct nt; reflexivity|]. split; [exact A|]. split; [exact B|]. split; [exact C|]. intro Z. unfold look. rewrite (D Z). reflexivity.
Qed.

(** If nothing fails and no directory is at the new name, it does succeed. *)
Theorem move_succeeds : forall me umask_mode now exdev same_device src dest newmtime c m s,
  movable s src dest c m -> exdev && same_device = false -> look s (target s src dest) <> Some Dir ->
  exists t w, movefile me umask_mode now exdev same_device src dest newmtime (start s []) = (Time t, w).
Proof.
  intros me u now exdev same src dest nt c m s (SO & SF & AP & SN & SP) EX ND.
  destruct (move_spec me u now src dest nt c m s SO SF AP SN SP same (fun _ => True) [] I (fun _ _ _ => I) (fun _ _ _ _ _ _ _ => I) (fun _ _ => I)) as (r' & w' & E' & _ & _ & _ & GO).
  exists (stamp nt m), w'. rewrite <- (GO eq_refl ND), <- E'. destruct exdev, same; [discriminate EX|reflexivity|reflexivity|reflexivity].
Qed.

(** Without a source nothing is done. *)
Theorem move_nothing : forall me umask_mode now exdev same_device src dest newmtime s faults,
  look s src = None -> movefile me umask_mode now exdev same_device src dest newmtime (start s faults) = (No, start s faults).
Proof. intros. unfold movefile. change (w_fs (start s faults)) with s. rewrite H. reflexivity. Qed.

Lemma own_link s q t p : look (mkFs (fun x => if seqb x q then Some (fresh s) else names s x) (fun j => if Nat.eqb j (fresh s) then Link t else nodes s j) (S (fresh s))) p = if seqb p q then Some (Link t) else match names s p with Some k => Some (if Nat.eqb k (fresh s) then Link t else nodes s k) | None => None end.
Proof. unfold look. cbn. destruct (seqb p q); cbn; [rewrite Nat.eqb_refl; reflexivity|]. destruct (names s p); reflexivity. Qed.
Lemma look_set s p i q : look (set_name s p i) q = if seqb q p then option_map (nodes s) i else look s q.
Proof. unfold look. cbn. destruct (seqb q p); reflexivity. Qed.

(** A link is moved as a link, and is at all times at one of the two names. *)
Theorem move_link_keeps : forall me umask_mode now exdev same_device src dest newmtime t s faults r w,
  sound s -> look s src = Some (Link t) -> src <> dest -> movefile me umask_mode now exdev same_device src dest newmtime (start s faults) = (r, w) ->
  (forall s', In s' (w_seen w) -> look s' src = Some (Link t) \/ look s' dest = Some (Link t)) /\
  (r = Stat -> look (w_fs w) dest = Some (Link t) /\ look (w_fs w) src = None /\ forall q, q <> src -> q <> dest -> look (w_fs w) q = look s q) /\
  (faults = [] -> look s dest <> Some Dir -> r = Stat).
Proof.
  intros me u now exdev same src dest nt t s faults r w SO SF NE E. unfold movefile in E. change (w_fs (start s faults)) with s in E. rewrite SF in E.
  destruct (clear_spec dest s faults) as (s1 & l1 & f & CE & CF & CC & CN & CL). rewrite CE in E.
  set (P := fun s' : fs => look s' src = Some (Link t) \/ look s' dest = Some (Link t)).
  assert (K1 : (s1 = s \/ s1 = set_name s dest None) /\ Forall P (s :: l1)).
  { destruct CC as [[-> ->]|(_ & -> & ->)].
    - split; [left; reflexivity|]. constructor; [left; exact SF|constructor].
    - split; [right; reflexivity|]. constructor; [left; exact SF|]. constructor; [|constructor]. left. rewrite look_set, (proj2 (seqb_neq src dest) NE). exact SF. }
  destruct K1 as [S1 PL]. assert (SO1 : sound s1 /\ look s1 src = Some (Link t) /\ (forall q, q <> dest -> look s1 q = look s q)).
  { destruct S1 as [->| ->]; [split; [exact SO|split; [exact SF|reflexivity]]|]. split; [intros p k; cbn; destruct (seqb p dest); [discriminate|apply SO]|]. split; [rewrite look_set, (proj2 (seqb_neq src dest) NE); exact SF|]. intros q Q. rewrite look_set, (proj2 (seqb_neq q dest) Q). reflexivity. }
  destruct SO1 as (SO1 & SF1 & OT1). unfold move_link in E. cbn [w_fs] in E. rewrite SF1 in E.
  assert (ST : exists ok w2, match look s1 dest with Some Dir | None => (true, mkWorld s1 (s :: l1) f) | Some _ => act (unlink dest) (mkWorld s1 (s :: l1) f) end = (ok, w2) /\ Forall P (w_seen w2) /\
    sound (w_fs w2) /\ look (w_fs w2) src = Some (Link t) /\ (forall q, q <> dest -> look (w_fs w2) q = look s q) /\ (f = [] -> w_faults w2 = []) /\ (f = [] -> look s dest <> Some Dir -> ok = true /\ look (w_fs w2) dest = None)).
  { assert (KEEP : exists ok w2, (true, mkWorld s1 (s :: l1) f) = (ok, w2) /\ Forall P (w_seen w2) /\ sound (w_fs w2) /\ look (w_fs w2) src = Some (Link t) /\ (forall q, q <> dest -> look (w_fs w2) q = look s q) /\ (f = [] -> w_faults w2 = []) /\ (f = [] -> ok = true) /\ w_fs w2 = s1).
    { exists true, (mkWorld s1 (s :: l1) f). repeat (split; [first [reflexivity|assumption|exact (fun Z => Z)]|]). reflexivity. }
    assert (REM : (exists n, look s1 dest = Some n /\ n <> Dir) -> exists ok w2, act (unlink dest) (mkWorld s1 (s :: l1) f) = (ok, w2) /\ Forall P (w_seen w2) /\
      sound (w_fs w2) /\ look (w_fs w2) src = Some (Link t) /\ (forall q, q <> dest -> look (w_fs w2) q = look s q) /\ (f = [] -> w_faults w2 = []) /\ (f = [] -> look s dest <> Some Dir -> ok = true /\ look (w_fs w2) dest = None)).
    { intros (n & LN & ND). unfold act. cbn [w_fs w_seen w_faults]. destruct (hd false f) eqn:HF.
      - exists false, (mkWorld s1 (s :: l1) (tl f)). split; [reflexivity|]. split; [exact PL|]. split; [exact SO1|]. split; [exact SF1|]. split; [exact OT1|]. split; [intros ->; reflexivity|]. intros ->. discriminate HF.
      - assert (UE : unlink dest s1 = Some (set_name s1 dest None)) by (unfold unlink; rewrite LN; destruct n; congruence). rewrite UE. eexists true, _. split; [reflexivity|]. cbn [w_fs w_seen w_faults].
        assert (LS : look (set_name s1 dest None) src = Some (Link t)) by (rewrite look_set, (proj2 (seqb_neq src dest) NE); exact SF1).
        split; [apply Forall_app; split; [exact PL|constructor; [left; exact LS|constructor]]|]. split; [intros p k; cbn; destruct (seqb p dest); [discriminate|apply SO1]|]. split; [exact LS|]. split; [intros q Q; rewrite look_set, (proj2 (seqb_neq q dest) Q); exact (OT1 q Q)|]. split; [intros ->; reflexivity|]. intros _ _. split; [reflexivity|]. rewrite look_set, seqb_refl. reflexivity. }
    destruct (look s1 dest) as [n|] eqn:LD.
    - destruct n as [c0 m0|t0| |]; try (apply REM; eexists; split; [reflexivity|discriminate]). destruct KEEP as (ok & w2 & K0 & K1 & K2 & K3 & K4 & K5 & K6 & K7). exists ok, w2. repeat (split; [assumption|]). intros FE NDI. exfalso. destruct S1 as [->| ->]; [exact (NDI LD)|]. rewrite look_set, seqb_refl in LD. discriminate LD.
    - destruct KEEP as (ok & w2 & K0 & K1 & K2 & K3 & K4 & K5 & K6 & K7). exists ok, w2. repeat (split; [assumption|]). intros FE _. split; [exact (K6 FE)|rewrite K7; exact LD]. }
  destruct ST as (ok & w2 & E2 & P2 & SO2 & SF2 & OT2 & FF2 & GO2). rewrite E2 in E. clear E2. destruct ok.
  2: { injection E as <- <-. split; [rewrite Forall_forall in P2; exact P2|]. split; [discriminate|]. intros FE ND. destruct (GO2 (CF FE) ND) as [Z _]. discriminate Z. }
  unfold act at 1 in E. destruct (hd false (w_faults w2)) eqn:H2.
  { injection E as <- <-. cbn [w_seen w_fs]. split; [rewrite Forall_forall in P2; exact P2|]. split; [discriminate|]. intros FE _. rewrite (FF2 (CF FE)) in H2. discriminate H2. }
  unfold symlink at 1 in E. destruct (names (w_fs w2) dest) as [k|] eqn:ND2.
  { injection E as <- <-. cbn [w_seen w_fs]. split; [rewrite Forall_forall in P2; exact P2|]. split; [discriminate|]. intros FE NDI. destruct (GO2 (CF FE) NDI) as [_ Z]. unfold look in Z. rewrite ND2 in Z. discriminate Z. }
  set (s3 := mkFs (fun q => if seqb q dest then Some (fresh (w_fs w2)) else names (w_fs w2) q) (fun j => if Nat.eqb j (fresh (w_fs w2)) then Link t else nodes (w_fs w2) j) (S (fresh (w_fs w2)))) in *.
  assert (L3 : look s3 dest = Some (Link t)) by (unfold s3; rewrite own_link, seqb_refl; reflexivity).
  assert (O3 : forall q, q <> dest -> look s3 q = look (w_fs w2) q).
  { intros q Q. unfold s3. rewrite own_link, (proj2 (seqb_neq q dest) Q). unfold look. destruct (names (w_fs w2) q) as [k|] eqn:K; [|reflexivity]. cbn [option_map]. apply SO2 in K. assert (Z : Nat.eqb k (fresh (w_fs w2)) = false) by (apply Nat.eqb_neq; lia). rewrite Z. reflexivity. }
  unfold act at 1 in E. cbn [w_fs w_seen w_faults] in E. destruct (hd false (tl (w_faults w2))) eqn:H3.
  { injection E as <- <-. cbn [w_seen w_fs]. split; [|split; [discriminate|]].
    - apply (seen_in P); [exact P2|]. constructor; [right; exact L3|constructor].
    - intros FE _. rewrite (FF2 (CF FE)) in H3. discriminate H3. }
  assert (UE : unlink src s3 = Some (set_name s3 src None)) by (unfold unlink; rewrite (O3 src NE), SF2; reflexivity). rewrite UE in E.
  assert (L4 : look (set_name s3 src None) dest = Some (Link t)) by (rewrite look_set, (proj2 (seqb_neq dest src) (fun Z => NE (eq_sym Z))); exact L3).
  cbn [w_fs] in E. rewrite L4 in E. injection E as <- <-. cbn [w_seen w_fs]. split; [|split; [|reflexivity]].
  - apply (seen_in P); [apply Forall_app; split; [exact P2|constructor; [right; exact L3|constructor]]|]. constructor; [right; exact L4|constructor].
  - intros _. split; [exact L4|]. split; [rewrite look_set, seqb_refl; reflexivity|]. intros q QS QD. rewrite look_set, (proj2 (seqb_neq q src) QS), (O3 q QD). exact (OT2 q QD).
Qed.

(** *** C157: copying a file *)

(** At all times the source is unchanged; if it is copied over itself, it has its content. *)
Theorem copy_keeps : forall me umask_mode now src dest newmtime c m s faults r w,
  copyable s src dest c m -> copyfile me umask_mode now true src dest newmtime (start s faults) = (r, w) ->
  forall s', In s' (w_seen w) -> if seqb src dest then holds s' src c else look s' src = Some (File c m).
Proof.
  intros me u now src dest nt c m s faults r w (SO & SF & SN & SP) E.
  set (P := fun s' : fs => if seqb src dest then holds s' src c else look s' src = Some (File c m)).
  assert (KP : forall s', look s' src = Some (File c m) -> P s') by (intros s' L; unfold P; destruct (seqb src dest); [exists m; exact L|exact L]).
  destruct (copy_spec me u now src dest nt c m s SO SF SN SP P faults) as (r' & w' & E' & F & _).
  - apply KP. exact SF.
  - intros s1 S1. apply KP. destruct (cleared_copy src dest c m s SO SF SP s1 S1) as (i & NI & NN & _). unfold look. rewrite NI. cbn [option_map]. rewrite NN. reflexivity.
  - intros s1 d j s' S1 JO W. apply KP. destruct (cleared_copy src dest c m s SO SF SP s1 S1) as (i & NI & NN & _). apply (wr_src src i c m s1 _ j d s' SN NI NN); [|exact W]. intros ->. exact (JO src SN NI).
  - intros s1 j Q s' S1 JO M. destruct (cleared_copy src dest c m s SO SF SP s1 S1) as (i & NI & NN & _). unfold P. destruct (seqb src dest) eqn:SD.
    + apply seqb_eq in SD. rewrite SD. destruct (mv_dest c s1 _ dest j Q s' M) as (m' & L & _). exists m'. exact L.
    + apply seqb_neq in SD. rewrite (mv_look c s1 _ dest j Q s' src SN SD (JO src SN) M). unfold look. rewrite NI. cbn [option_map]. rewrite NN. reflexivity.
  - rewrite E in E'. injection E' as <- <-. rewrite Forall_forall in F. exact F.
Qed.

(** Unless a link is replaced, the copy appears at once: at dest is what was there, or the
    whole content. *)
Theorem copy_atomic : forall me umask_mode now src dest newmtime c m s faults r w,
  copyable s src dest c m -> (forall t, look s dest <> Some (Link t)) -> copyfile me umask_mode now true src dest newmtime (start s faults) = (r, w) ->
  forall s', In s' (w_seen w) -> look s' dest = look s dest \/ holds s' dest c.
Proof.
  intros me u now src dest nt c m s faults r w (SO & SF & SN & SP) NL E.
  destruct (copy_spec me u now src dest nt c m s SO SF SN SP (fun s' => look s' dest = look s dest \/ holds s' dest c) faults) as (r' & w' & E' & F & _).
  - left. reflexivity.
  - intros s1 [->|[[t T] _]]; [left; reflexivity|exfalso; exact (NL t T)].
  - intros s1 d j s' [->|[[t T] _]] JO W; [left|exfalso; exact (NL t T)]. exact (wr_look s (new_of dest) j d s' dest (new_ne _) (JO _ (new_ne _)) W).
  - intros s1 j Q s' S1 JO M. right. destruct (mv_dest c s1 _ dest j Q s' M) as (m' & L & _). exists m'. exact L.
  - rewrite E in E'. injection E' as <- <-. rewrite Forall_forall in F. exact F.
Qed.

(** When a time is reported, dest has the content, owner and permissions of the source and
    that time, is a file of its own, and every other name is as it was, other names of the
    old dest and of the source included. *)
Theorem copy_done : forall me umask_mode now src dest newmtime c m s faults t w,
  copyable s src dest c m -> copyfile me umask_mode now true src dest newmtime (start s faults) = (Time t, w) ->
  t = (if Nat.eqb newmtime 0 then m_time m else newmtime) /\ look (w_fs w) dest = Some (File c (mkMeta (m_owner m) (m_mode m) t)) /\
  (forall q, names (w_fs w) q = names (w_fs w) dest -> q = dest) /\ look (w_fs w) (new_of dest) = None /\ (forall q, q <> dest -> q <> new_of dest -> look (w_fs w) q = look s q).
Proof.
  intros me u now src dest nt c m s faults t w (SO & SF & SN & SP) E.
  destruct (copy_spec me u now src dest nt c m s SO SF SN SP (fun _ => True) faults I (fun _ _ => I) (fun _ _ _ _ _ _ _ => I) (fun _ _ _ _ _ _ _ => I)) as (r' & w' & E' & _ & PO & _).
  rewrite E in E'. injection E' as <- <-. destruct (PO t eq_refl) as (-> & A & B & C & D). split; [unfold stamp; destruct nt; reflexivity|]. split; [exact A|]. split; [exact D|]. split; [unfold look; rewrite B; reflexivity|exact C].
Qed.

(** If nothing fails and dest is no directory, it does succeed. *)
Theorem copy_succeeds : forall me umask_mode now src dest newmtime c m s,
  copyable s src dest c m -> look s dest <> Some Dir -> exists t w, copyfile me umask_mode now true src dest newmtime (start s []) = (Time t, w).
Proof.
  intros me u now src dest nt c m s (SO & SF & SN & SP) ND.
  destruct (copy_spec me u now src dest nt c m s SO SF SN SP (fun _ => True) [] I (fun _ _ => I) (fun _ _ _ _ _ _ _ => I) (fun _ _ _ _ _ _ _ => I)) as (r' & w' & E' & _ & _ & _ & GO).
  exists (stamp nt m), w'. rewrite <- (GO eq_refl ND). exact E'.
Qed.

(** A link is copied as a link. *)
Theorem copy_link_keeps : forall me umask_mode now readable src dest newmtime t s faults r w,
  sound s -> look s src = Some (Link t) -> src <> dest -> copyfile me umask_mode now readable src dest newmtime (start s faults) = (r, w) ->
  (forall s', In s' (w_seen w) -> look s' src = Some (Link t)) /\
  (r = Stat -> look (w_fs w) dest = Some (Link t) /\ forall q, q <> dest -> look (w_fs w) q = look s q) /\
  (faults = [] -> look s dest <> Some Dir -> r = Stat).
Proof.
  intros me u now readable src dest nt t s faults r w SO SF NE E. unfold copyfile in E. change (w_fs (start s faults)) with s in E. rewrite SF in E.
  destruct (clear_spec dest s faults) as (s1 & l1 & f & CE & CF & CC & CN & CL). rewrite CE in E.
  set (P := fun s' : fs => look s' src = Some (Link t)).
  assert (K1 : (s1 = s \/ s1 = set_name s dest None) /\ Forall P (s :: l1)).
  { destruct CC as [[-> ->]|(_ & -> & ->)].
    - split; [left; reflexivity|]. constructor; [exact SF|constructor].
    - split; [right; reflexivity|]. constructor; [exact SF|]. constructor; [|constructor]. unfold P. rewrite look_set, (proj2 (seqb_neq src dest) NE). exact SF. }
  destruct K1 as [S1 PL]. assert (SO1 : sound s1 /\ look s1 src = Some (Link t) /\ (forall q, q <> dest -> look s1 q = look s q)).
  { destruct S1 as [->| ->]; [split; [exact SO|split; [exact SF|reflexivity]]|]. split; [intros p k; cbn; destruct (seqb p dest); [discriminate|apply SO]|]. split; [rewrite look_set, (proj2 (seqb_neq src dest) NE); exact SF|]. intros q Q. rewrite look_set, (proj2 (seqb_neq q dest) Q). reflexivity. }
  destruct SO1 as (SO1 & SF1 & OT1). unfold move_link in E. cbn [w_fs] in E. rewrite SF1 in E.
  assert (ST : exists ok w2, match look s1 dest with Some Dir | None => (true, mkWorld s1 (s :: l1) f) | Some _ => act (unlink dest) (mkWorld s1 (s :: l1) f) end = (ok, w2) /\ Forall P (w_seen w2) /\
    sound (w_fs w2) /\ look (w_fs w2) src = Some (Link t) /\ (forall q, q <> dest -> look (w_fs w2) q = look s q) /\ (f = [] -> w_faults w2 = []) /\ (f = [] -> look s dest <> Some Dir -> ok = true /\ look (w_fs w2) dest = None)).
  { assert (KEEP : exists ok w2, (true, mkWorld s1 (s :: l1) f) = (ok, w2) /\ Forall P (w_seen w2) /\ sound (w_fs w2) /\ look (w_fs w2) src = Some (Link t) /\ (forall q, q <> dest -> look (w_fs w2) q = look s q) /\ (f = [] -> w_faults w2 = []) /\ (f = [] -> ok = true) /\ w_fs w2 = s1).
    { exists true, (mkWorld s1 (s :: l1) f). repeat (split; [first [reflexivity|assumption|exact (fun Z => Z)]|]). reflexivity. }
    assert (REM : (exists n, look s1 dest = Some n /\ n <> Dir) -> exists ok w2, act (unlink dest) (mkWorld s1 (s :: l1) f) = (ok, w2) /\ Forall P (w_seen w2) /\
      sound (w_fs w2) /\ look (w_fs w2) src = Some (Link t) /\ (forall q, q <> dest -> look (w_fs w2) q = look s q) /\ (f = [] -> w_faults w2 = []) /\ (f = [] -> look s dest <> Some Dir -> ok = true /\ look (w_fs w2) dest = None)).
    { intros (n & LN & ND). unfold act. cbn [w_fs w_seen w_faults]. destruct (hd false f) eqn:HF.
      - exists false, (mkWorld s1 (s :: l1) (tl f)). split; [reflexivity|]. split; [exact PL|]. split; [exact SO1|]. split; [exact SF1|]. split; [exact OT1|]. split; [intros ->; reflexivity|]. intros ->. discriminate HF.
      - assert (UE : unlink dest s1 = Some (set_name s1 dest None)) by (unfold unlink; rewrite LN; destruct n; congruence). rewrite UE. eexists true, _. split; [reflexivity|]. cbn [w_fs w_seen w_faults].
        assert (LS : look (set_name s1 dest None) src = Some (Link t)) by (rewrite look_set, (proj2 (seqb_neq src dest) NE); exact SF1).
        split; [apply Forall_app; split; [exact PL|constructor; [exact LS|constructor]]|]. split; [intros p k; cbn; destruct (seqb p dest); [discriminate|apply SO1]|]. split; [exact LS|]. split; [intros q Q; rewrite look_set, (proj2 (seqb_neq q dest) Q); exact (OT1 q Q)|]. split; [intros ->; reflexivity|]. intros _ _. split; [reflexivity|]. rewrite look_set, seqb_refl. reflexivity. }
    destruct (look s1 dest) as [n|] eqn:LD.
    - destruct n as [c0 m0|t0| |]; try (apply REM; eexists; split; [reflexivity|discriminate]). destruct KEEP as (ok & w2 & K0 & K1 & K2 & K3 & K4 & K5 & K6 & K7). exists ok, w2. repeat (split; [assumption|]). intros FE NDI. exfalso. destruct S1 as [->| ->]; [exact (NDI LD)|]. rewrite look_set, seqb_refl in LD. discriminate LD.
    - destruct KEEP as (ok & w2 & K0 & K1 & K2 & K3 & K4 & K5 & K6 & K7). exists ok, w2. repeat (split; [assumption|]). intros FE _. split; [exact (K6 FE)|rewrite K7; exact LD]. }
  destruct ST as (ok & w2 & E2 & P2 & SO2 & SF2 & OT2 & FF2 & GO2). rewrite E2 in E. clear E2. destruct ok.
  2: { injection E as <- <-. split; [rewrite Forall_forall in P2; exact P2|]. split; [discriminate|]. intros FE ND. destruct (GO2 (CF FE) ND) as [Z _]. discriminate Z. }
  unfold act at 1 in E. destruct (hd false (w_faults w2)) eqn:H2.
  { injection E as <- <-. cbn [w_seen w_fs]. split; [rewrite Forall_forall in P2; exact P2|]. split; [discriminate|]. intros FE _. rewrite (FF2 (CF FE)) in H2. discriminate H2. }
  unfold symlink at 1 in E. destruct (names (w_fs w2) dest) as [k|] eqn:ND2.
  { injection E as <- <-. cbn [w_seen w_fs]. split; [rewrite Forall_forall in P2; exact P2|]. split; [discriminate|]. intros FE NDI. destruct (GO2 (CF FE) NDI) as [_ Z]. unfold look in Z. rewrite ND2 in Z. discriminate Z. }
  set (s3 := mkFs (fun q => if seqb q dest then Some (fresh (w_fs w2)) else names (w_fs w2) q) (fun j => if Nat.eqb j (fresh (w_fs w2)) then Link t else nodes (w_fs w2) j) (S (fresh (w_fs w2)))) in *.
  assert (L3 : look s3 dest = Some (Link t)) by (unfold s3; rewrite own_link, seqb_refl; reflexivity).
  assert (O3 : forall q, q <> dest -> look s3 q = look (w_fs w2) q).
  { intros q Q. unfold s3. rewrite own_link, (proj2 (seqb_neq q dest) Q). unfold look. destruct (names (w_fs w2) q) as [k|] eqn:K; [|reflexivity]. cbn [option_map]. apply SO2 in K. assert (Z : Nat.eqb k (fresh (w_fs w2)) = false) by (apply Nat.eqb_neq; lia). rewrite Z. reflexivity. }
  injection E as <- <-. cbn [w_seen w_fs]. split; [|split; [|reflexivity]].
  - apply (seen_in P); [exact P2|]. constructor; [unfold P; rewrite (O3 src NE); exact SF2|constructor].
  - intros _. split; [exact L3|]. intros q Q. rewrite (O3 q Q). exact (OT2 q Q).
Qed.
(** A source that cannot be read is made readable for the copy, and is as before after it:
    unless the copy ends with an exception. *)
Theorem copy_unreadable_restored : forall me umask_mode now src dest newmtime c m s faults r w,
  copyable s src dest c m -> src <> dest -> copyfile me umask_mode now false src dest newmtime (start s faults) = (r, w) -> r <> Raised -> look (w_fs w) src = Some (File c m).
Proof.
  intros me u now src dest nt c m s faults r w (SO & SF & SN & SP) NE E NR. unfold copyfile in E. change (w_fs (start s faults)) with s in E. rewrite SF in E.
  destruct (clear_spec dest s faults) as (s1 & l1 & f & CE & CF & CC & CN & CL). rewrite CE in E.
  pose proof SF as SI. unfold look in SI. destruct (names s src) as [i|] eqn:NI; [|discriminate SI]. cbn [option_map] in SI. injection SI as SI.
  assert (NN : names s (new_of dest) <> Some i). { intro Z. unfold spare in SP. rewrite Z in SP. destruct SP as [_ SP]. exact (SN (SP src NI)). }
  assert (IV : inv src dest c i m s1).
  { destruct CC as [[-> _]|(_ & -> & _)].
    - split; [exact NI|]. split; [exact SI|]. split; [exact (SO _ _ NI)|exact NN].
    - split; [rewrite name_other by exact NE; exact NI|]. split; [exact SI|]. split; [exact (SO _ _ NI)|]. rewrite name_other by (intro Z; exact (new_ne dest (eq_sym Z))). exact NN. }
  unfold chmod at 1 in E. destruct (inv_change src dest c i m (fun y => mkMeta (m_owner y) (Nat.lor (m_mode m) 256) (m_time y)) (mkWorld s1 (s :: l1) f) IV) as (b1 & w1 & q1 & A1 & _ & _ & A4 & _). rewrite A1 in E.
  assert (ST : exists mm b2 w2, (if b1 then match shutil_copyfile me u now src (new_of dest) w1 with (true, w) => act (os_rename (new_of dest) dest) w | (false, w) => (false, w) end else (false, w1)) = (b2, w2) /\ m_owner mm = m_owner m /\ inv src dest c i mm (w_fs w2) /\ (b2 = true -> names (w_fs w2) dest <> Some i)).
  { destruct b1; [|exists m, false, w1; split; [reflexivity|]; split; [reflexivity|]; split; [exact A4|discriminate]]. exists (mkMeta (m_owner m) (Nat.lor (m_mode m) 256) (m_time m)).
    destruct (inv_copy me u now src dest c i SN _ w1 A4) as (b2 & w2 & q2 & B1 & _ & _ & B4 & _). rewrite B1. destruct b2; [|exists false, w2; split; [reflexivity|]; split; [reflexivity|]; split; [exact B4|discriminate]].
    destruct (inv_over src dest c i SN NE _ w2 B4) as (b3 & w3 & q3 & C1 & _ & _ & [C4 C5] & _). exists b3, w3. split; [exact C1|]. split; [reflexivity|]. split; [exact C4|exact C5]. }
  destruct ST as (mm & b2 & w2 & E2 & OW & IV2 & ND2). rewrite E2 in E. clear E2.
  unfold chmod at 1 in E. destruct (inv_change src dest c i mm (fun y => mkMeta (m_owner y) (m_mode m) (m_time y)) w2 IV2) as (b3 & w3 & q3 & A5 & _ & _ & A6 & _).
  assert (D3 : b2 = true -> names (w_fs w3) dest <> Some i). { intro Z. specialize (ND2 Z). unfold act in A5. destruct (hd false (w_faults w2)); [injection A5 as _ <-; exact ND2|]. unfold change in A5. destruct IV2 as (X1 & X2 & _). rewrite X1, X2 in A5. injection A5 as _ <-. exact ND2. }
  rewrite A5 in E. destruct b3; [|injection E as <- _; exfalso; apply NR; reflexivity].
  unfold utime at 1 in E. destruct (inv_change src dest c i _ (fun y => mkMeta (m_owner y) (m_mode y) (m_time m)) w3 A6) as (b4 & w4 & q4 & A7 & _ & _ & A8 & _).
  assert (D4 : b2 = true -> names (w_fs w4) dest <> Some i). { intro Z. specialize (D3 Z). unfold act in A7. destruct (hd false (w_faults w3)); [injection A7 as _ <-; exact D3|]. unfold change in A7. destruct A6 as (X1 & X2 & _). rewrite X1, X2 in A7. injection A7 as _ <-. exact D3. }
  rewrite A7 in E. destruct b4; [|injection E as <- _; exfalso; apply NR; reflexivity]. cbn [m_owner m_mode m_time] in A8. assert (MM : mkMeta (m_owner mm) (m_mode m) (m_time m) = m) by (rewrite OW; destruct m; reflexivity). rewrite MM in A8. clear MM.
  assert (FIN : forall w', inv src dest c i m (w_fs w') -> look (w_fs w') src = Some (File c m)) by (intros w' (X1 & X2 & _); unfold look; rewrite X1; cbn [option_map]; rewrite X2; reflexivity).
  cbn [negb] in E. destruct b2; [|injection E as _ <-; exact (FIN _ A8)]. specialize (D4 eq_refl).
  unfold chown at 1 in E. destruct (inv_dest src dest c i m (fun y => mkMeta (m_owner m) (m_mode y) (m_time y)) w4 (conj A8 D4)) as (b5 & w5 & q5 & B1 & _ & _ & B4 & _). rewrite B1 in E. destruct b5; [|injection E as _ <-; exact (FIN _ (proj1 B4))].
  unfold chmod at 1 in E. destruct (inv_dest src dest c i m (fun y => mkMeta (m_owner y) (m_mode m) (m_time y)) w5 B4) as (b6 & w6 & q6 & C1 & _ & _ & C4 & _). rewrite C1 in E. destruct b6; [|injection E as _ <-; exact (FIN _ (proj1 C4))].
  unfold finish, utime in E. cbn zeta in E. destruct (inv_dest src dest c i m (fun y => mkMeta (m_owner y) (m_mode y) (match nt with 0 => m_time m | S _ => nt end)) w6 C4) as (b7 & w7 & q7 & F1 & _ & _ & F4 & _). rewrite F1 in E. destruct b7; injection E as _ <-; exact (FIN _ (proj1 F4)).
Qed.
(** There are no hard links of what is not there to break: it says no, and does nothing. *)
Theorem hardlinks_missing : forall me umask_mode now readable src links s faults, look s src = None -> break_hardlinks me umask_mode now readable src links (start s faults) = (false, start s faults).
Proof. intros me u now rd src links s faults L. unfold break_hardlinks. change (w_fs (start s faults)) with s. rewrite L. reflexivity. Qed.
(** A file with one name only is left alone. *)
Theorem hardlinks_single : forall me umask_mode now readable src s faults, look s src <> None -> break_hardlinks me umask_mode now readable src 1 (start s faults) = (true, start s faults).
Proof. intros me u now rd src s faults L. unfold break_hardlinks. change (w_fs (start s faults)) with s. destruct (look s src); [reflexivity|exfalso; apply L; reflexivity]. Qed.
(** break_hardlinks: when it says yes, the file has one name only, with its content, owner,
    permissions and time; its other names keep the old file; at all times every name has its
    content. *)
Theorem hardlinks_broken : forall me umask_mode now src links c m s faults w,
  copyable s src src c m -> links <> 1 -> break_hardlinks me umask_mode now true src links (start s faults) = (true, w) ->
  look (w_fs w) src = Some (File c m) /\ (forall q, names (w_fs w) q = names (w_fs w) src -> q = src) /\
  (forall q, q <> src -> q <> new_of src -> look (w_fs w) q = look s q) /\ (forall s', In s' (w_seen w) -> holds s' src c).
Proof.
  intros me u now src links c m s faults w CO L1 E. unfold break_hardlinks in E. change (w_fs (start s faults)) with s in E. destruct CO as (SO & SF & SN & SP). rewrite SF, (proj2 (Nat.eqb_neq _ _) L1) in E.
  destruct (copyfile me u now true src src 0 (start s faults)) as [r w'] eqn:CE. injection E as TR <-.
  assert (CO : copyable s src src c m) by (split; [exact SO|split; [exact SF|split; [exact SN|exact SP]]]).
  destruct (copy_spec me u now src src 0 c m s SO SF SN SP (fun _ => True) faults I (fun _ _ => I) (fun _ _ _ _ _ _ _ => I) (fun _ _ _ _ _ _ _ => I)) as (r' & w2 & E2 & _ & _ & NS & _). rewrite CE in E2. injection E2 as <- <-.
  destruct r as [|t| |]; try discriminate TR; [|exfalso; exact (NS eq_refl)].
  destruct (copy_done me u now src src 0 c m s faults t w' CO CE) as (-> & A & B & _ & D). split; [rewrite A; destruct m; reflexivity|]. split; [exact B|]. split; [exact D|].
  intros s' I'. pose proof (copy_keeps me u now src src 0 c m s faults _ w' CO CE s' I') as K. rewrite seqb_refl in K. exact K.
Qed.

(** *** A case *)
Definition m1 : meta := mkMeta 0 384 7.
Definition m2 : meta := mkMeta 5 420 9.
(** /a is a file of root's that others must not read; /b another file with a second name /c;
    /d a directory; /l a link *)
Definition disk : fs := mkFs
  (fun p => if seqb p (s_ "/a") then Some 0 else if seqb p (s_ "/b") then Some 1 else if seqb p (s_ "/c") then Some 1 else if seqb p (s_ "/d") then Some 2 else if seqb p (s_ "/l") then Some 3 else None)
  (fun i => match i with 0 => File (s_ "xy") m1 | 1 => File (s_ "old") m2 | 2 => Dir | _ => Link (s_ "/c") end) 4.
Lemma disk_sound : sound disk.
Proof. intros p i. unfold disk. cbn [names fresh]. repeat (destruct (seqb p _); [intro E; injection E as <-; lia|]). discriminate. Qed.
Example demo_movable : movable disk (s_ "/a") (s_ "/b") (s_ "xy") m1 /\ movable disk (s_ "/a") (s_ "/d") (s_ "xy") m1 /\ movable disk (s_ "/a") (s_ "/l") (s_ "xy") m1.
Proof.
  split; [|split]; (split; [exact disk_sound|]; split; [reflexivity|]; split; [split; [discriminate|intros i E; vm_compute in E; injection E as <-; discriminate]|]; split; [discriminate|exact I]).
Qed.
Example demo_copyable : copyable disk (s_ "/b") (s_ "/b") (s_ "old") m2 /\ copyable disk (s_ "/b") (s_ "/a") (s_ "old") m2.
Proof. split; (split; [exact disk_sound|split; [reflexivity|split; [discriminate|exact I]]]). Qed.
Definition after (r : result * world) (p : str) : option node := look (w_fs (snd r)) p.
Example demo_move :
  let r := movefile 5 420 50 false true (s_ "/a") (s_ "/d") 0 (start disk []) in let x := movefile 5 420 50 false false (s_ "/a") (s_ "/b") 30 (start disk []) in
  (fst r, after r (s_ "/a"), after r (s_ "/d/a")) = (Time 7, None, Some (File (s_ "xy") m1)) /\
  (fst x, after x (s_ "/a"), after x (s_ "/b"), after x (s_ "/c")) = (Time 30, None, Some (File (s_ "xy") (mkMeta 0 384 30)), Some (File (s_ "old") m2)) /\ length (w_seen (snd x)) = 9.
Proof. vm_compute. repeat split. Qed.
Example demo_stop : let x := movefile 5 420 50 false false (s_ "/a") (s_ "/b") 30 (start disk [false; false; true]) in (fst x, after x (s_ "/a"), after x (s_ "/b"), after x (s_ "/b#new")) = (No, Some (File (s_ "xy") m1), Some (File (s_ "old") m2), Some (File (s_ "x") (mkMeta 5 420 50))).
Proof. vm_compute. reflexivity. Qed.
Example demo_break : let x := break_hardlinks 5 420 50 true (s_ "/b") 2 (start disk []) in fst x = true /\ names disk (s_ "/b") = names disk (s_ "/c") /\ names (w_fs (snd x)) (s_ "/b") <> names (w_fs (snd x)) (s_ "/c") /\ look (w_fs (snd x)) (s_ "/b") = look disk (s_ "/b").
Proof. vm_compute. repeat split; discriminate. Qed.
Example demo_copy_link : let x := copyfile 5 420 50 true (s_ "/l") (s_ "/b") 0 (start disk []) in (fst x, after x (s_ "/l"), after x (s_ "/b"), after x (s_ "/c")) = (Stat, Some (Link (s_ "/c")), Some (Link (s_ "/c")), Some (File (s_ "old") m2)).
Proof. vm_compute. reflexivity. Qed.
Example demo_unreadable : let x := copyfile 5 420 50 false (s_ "/a") (s_ "/b") 0 (start disk []) in (fst x, after x (s_ "/a"), after x (s_ "/b")) = (Time 7, Some (File (s_ "xy") m1), Some (File (s_ "xy") m1)).
Proof. vm_compute. reflexivity. Qed.
Example demo_link : let x := movefile 5 420 50 false true (s_ "/l") (s_ "/b") 0 (start disk []) in (fst x, after x (s_ "/l"), after x (s_ "/b"), after x (s_ "/c")) = (Stat, None, Some (Link (s_ "/c")), Some (File (s_ "old") m2)).
Proof. vm_compute. reflexivity. Qed.

(** *** What does not hold *)
Definition seen_by (r : result * world) (p : str) : list (option node) := map (fun s => look s p) (w_seen (snd r)).
(** The description says that a move is atomic.  A link at dest is removed first: for a
    moment there is nothing at that name. *)
Theorem move_gap_refuted : exists s src dest c m t, movable s src dest c m /\ look s dest = Some (Link t) /\
  exists s', In s' (w_seen (snd (movefile 0 420 50 false true src dest 0 (start s [])))) /\ look s' dest = None.
Proof.
  exists disk, (s_ "/a"), (s_ "/l"), (s_ "xy"), m1, (s_ "/c"). split; [exact (proj2 (proj2 demo_movable))|]. split; [reflexivity|].
  eexists. split; [right; left; reflexivity|]. reflexivity.
Qed.
(** A rename that the kernel refuses although both names are on one device (two bind mounts)
    is done byte by byte under the new name: others see a part of the file there.  Other
    names of the old file are overwritten, and the owner is lost. *)
Theorem move_partial_refuted : exists s src dest c m, movable s src dest c m /\
  (exists s', In s' (w_seen (snd (movefile 5 420 50 true true src dest 0 (start s [])))) /\ look s' dest <> look s dest /\ ~ holds s' dest c) /\
  (exists t, fst (movefile 5 420 50 true true src dest 0 (start s [])) = Time t) /\
  (exists q, apart s src q /\ q <> dest /\ look (w_fs (snd (movefile 5 420 50 true true src dest 0 (start s [])))) q <> look s q) /\
  (exists m', look (w_fs (snd (movefile 5 420 50 true true src dest 0 (start s [])))) dest = Some (File c m') /\ m_owner m' <> m_owner m).
Proof.
  exists disk, (s_ "/a"), (s_ "/b"), (s_ "xy"), m1. split; [exact (proj1 demo_movable)|]. split; [|split; [|split]].
  - eexists. split; [right; left; reflexivity|]. split; [vm_compute; discriminate|]. intros [m' L]. vm_compute in L. discriminate L.
  - eexists. vm_compute. reflexivity.
  - exists (s_ "/c"). split; [split; [discriminate|intros i E; vm_compute in E; injection E as <-; discriminate]|]. split; [discriminate|]. vm_compute. discriminate.
  - eexists. split; [vm_compute; reflexivity|]. discriminate.
Qed.
(** A file that only its owner may read is readable by everybody under its new name for a
    moment, when it comes from another device; if the machine stops there, it stays so. *)
Theorem move_mode_refuted : exists s src dest c m s' m', movable s src dest c m /\ m_mode m = 384 /\
  In s' (w_seen (snd (movefile 0 420 50 false false src dest 0 (start s [])))) /\ look s' dest = Some (File c m') /\ m_mode m' = 420.
Proof.
  exists disk, (s_ "/a"), (s_ "/b"), (s_ "xy"), m1, (nth 4 (w_seen (snd (movefile 0 420 50 false false (s_ "/a") (s_ "/b") 0 (start disk [])))) disk), (mkMeta 0 420 50). split; [exact (proj1 demo_movable)|]. split; [reflexivity|]. split; [apply nth_In; vm_compute; lia|]. split; [vm_compute; reflexivity|reflexivity].
Qed.
Definition epoch : fs := mkFs (fun p => if seqb p (s_ "/a") then Some 0 else if seqb p (s_ "/c") then Some 0 else None) (fun _ => File (s_ "x") (mkMeta 0 420 0)) 1.
(** A file of the time 0 is moved, or freed of its other names, but what is returned means
    failure. *)
Theorem move_time_refuted : exists s src dest c m, movable s src dest c m /\ copyable s src src c m /\
  (let x := movefile 0 420 50 false true src dest 0 (start s []) in truthy (fst x) = false /\ look (w_fs (snd x)) dest = look s src) /\
  (let x := break_hardlinks 0 420 50 true src 2 (start s []) in fst x = false /\ names (w_fs (snd x)) src <> names s src).
Proof.
  exists epoch, (s_ "/a"), (s_ "/b"), (s_ "x"), (mkMeta 0 420 0).
  assert (SO : sound epoch) by (intros p i; unfold epoch; cbn [names fresh]; repeat (destruct (seqb p _); [intro E; injection E as <-; lia|]); discriminate).
  split; [split; [exact SO|split; [reflexivity|split; [split; [discriminate|intros i E; vm_compute in E; injection E as <-; discriminate]|split; [discriminate|exact I]]]]|].
  split; [split; [exact SO|split; [reflexivity|split; [discriminate|exact I]]]|]. split; [vm_compute; split; reflexivity|]. vm_compute. split; [reflexivity|discriminate].
Qed.
(** A link that is moved to where it is is lost. *)
Theorem move_link_self_refuted : exists s p t, sound s /\ look s p = Some (Link t) /\ look (w_fs (snd (movefile 0 420 50 false true p p 0 (start s [])))) p = None.
Proof. exists disk, (s_ "/l"), (s_ "/c"). split; [exact disk_sound|]. split; reflexivity. Qed.
(** A file that is moved to another of its names is reported as moved, but keeps both. *)
Theorem move_same_refuted : exists s src dest t, look s src = look s dest /\ src <> dest /\ fst (movefile 0 420 50 false true src dest 0 (start s [])) = Time t /\ look (w_fs (snd (movefile 0 420 50 false true src dest 0 (start s [])))) src = look s src /\ look s src <> None.
Proof. exists disk, (s_ "/b"), (s_ "/c"), 9. split; [reflexivity|]. split; [discriminate|]. split; [reflexivity|]. split; [reflexivity|discriminate]. Qed.
(** A source that cannot be read is made readable for the copy; if the machine stops, or an
    operation fails, it stays so. *)
Theorem copy_unreadable_refuted : exists s src dest c m s', copyable s src dest c m /\ In s' (w_seen (snd (copyfile 0 420 50 false src dest 0 (start s [])))) /\ look s' src <> look s src /\
  exists faults, look (w_fs (snd (copyfile 0 420 50 false src dest 0 (start s faults)))) src <> look s src.
Proof.
  exists (mkFs (names disk) (fun i => match i with 0 => File (s_ "xy") (mkMeta 0 0 7) | _ => nodes disk i end) 4), (s_ "/a"), (s_ "/b"), (s_ "xy"), (mkMeta 0 0 7).
  exists (nth 1 (w_seen (snd (copyfile 0 420 50 false (s_ "/a") (s_ "/b") 0 (start (mkFs (names disk) (fun i => match i with 0 => File (s_ "xy") (mkMeta 0 0 7) | _ => nodes disk i end) 4) [])))) disk).
  split; [split; [exact disk_sound|split; [reflexivity|split; [discriminate|exact I]]]|]. split; [apply nth_In; vm_compute; lia|]. split; [vm_compute; discriminate|].
  exists [false; true; true]. vm_compute. discriminate.
Qed.
Print Assumptions move_keeps.
Print Assumptions move_atomic.
Print Assumptions move_done.
Print Assumptions move_succeeds.
Print Assumptions move_link_keeps.
Print Assumptions copy_keeps.
Print Assumptions copy_atomic.
Print Assumptions copy_done.
Print Assumptions copy_succeeds.
Print Assumptions copy_link_keeps.
Print Assumptions copy_unreadable_restored.
Print Assumptions hardlinks_missing.
Print Assumptions hardlinks_single.
Print Assumptions hardlinks_broken.
