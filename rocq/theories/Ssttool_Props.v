(** C19, C20: upload and clean of isar-sstate. *)
From Coq Require Import Ascii String List Bool Arith ZArith Lia.
From Verif Require Import Str_Model Str_Proofs Sstname_Model Sstname_Spec Sstname_Proofs Ssttool_Model Ssttool_Spec Ssttool_Proofs.
Import ListNotations.
Open Scope list_scope.

(** * C20 *)

(** Whether or not the upload completes: everything already in the target is
    unchanged, everything new is a chosen local file that was missing, under its own
    path and with its own content; the target stays a directory tree.  If the command
    ends normally, every chosen local file is there. *)
Theorem upload_exact : forall flt arch src t t' ok,
  proper t -> source_tree src -> sstate_upload flt arch src t = (t', ok) ->
  proper t' /\
  (forall p x, holds t p x -> holds t' p x) /\
  (forall p x, holds t' p x -> holds t p x \/
     exists f, In f src /\ picked flt arch f /\ l_data f = Some x /\ p = l_dir f ++ [l_name f] /\ exists_ t p = false) /\
  (ok = true -> forall f, In f src -> picked flt arch f ->
     exists_ t (l_dir f ++ [l_name f]) = true \/
     exists x, l_data f = Some x /\ holds t' (l_dir f ++ [l_name f]) x).
Proof.
  intros flt arch src t t' ok P ST U. unfold sstate_upload in U.
  set (fs := to_upload flt arch src t) in *.
  assert (FS : forall f, In f fs <-> In f src /\ picked flt arch f /\ exists_ t (l_path f) = false).
  { intros f. unfold fs, to_upload. rewrite filter_In, andb_true_iff, negb_true_iff, selected_iff. tauto. }
  destruct (existsb _ fs) eqn:X.
  - inversion U; subst. split; auto. split; auto. split; auto. discriminate.
  - destruct (push_spec fs t P (source_tree_filter _ _ ST) (fun f I => proj2 (proj2 (proj1 (FS f) I)))) as (A & B & C & D & E).
    rewrite U in *. cbn [fst snd] in *. split; auto. split; auto. split.
    + intros p x H. destruct (C p x H) as [H'|(f & I & -> & L)]; auto. right. exists f. apply FS in I.
      split; [tauto|]. split; [tauto|]. split; [tauto|]. split; [auto|tauto].
    + intros -> f I PI. destruct (exists_ t (l_path f)) eqn:Y; [left; exact Y|right]. apply (D eq_refl f).
      apply FS. auto.
Qed.

(** The upload ends normally exactly if none of the missing files is a dangling link
    and no file of the target stands in the place of a directory it needs.  In the
    first case nothing at all is uploaded. *)
Theorem upload_completes_iff : forall flt arch src t,
  proper t -> source_tree src ->
  (snd (sstate_upload flt arch src t) = true <->
   forall f, In f src -> picked flt arch f -> exists_ t (l_dir f ++ [l_name f]) = false ->
     l_data f <> None /\ ~ blocked t f) /\
  ((exists f, In f src /\ picked flt arch f /\ exists_ t (l_dir f ++ [l_name f]) = false /\ l_data f = None) ->
   fst (sstate_upload flt arch src t) = t).
Proof.
  intros flt arch src t P ST. unfold sstate_upload. set (fs := to_upload flt arch src t) in *.
  assert (FS : forall f, In f fs <-> In f src /\ picked flt arch f /\ exists_ t (l_path f) = false).
  { intros f. unfold fs, to_upload. rewrite filter_In, andb_true_iff, negb_true_iff, selected_iff. tauto. }
  destruct (existsb _ fs) eqn:X.
  - apply existsb_exists in X. destruct X as (f & I & L). destruct (l_data f) eqn:LD; [discriminate|]. apply FS in I.
    split; [|auto]. split; [discriminate|]. intros H. assert (A : l_data f <> None) by (apply (H f); tauto). congruence.
  - split.
    + destruct (push_spec fs t P (source_tree_filter _ _ ST) (fun f I => proj2 (proj2 (proj1 (FS f) I)))) as (_ & _ & _ & _ & E).
      rewrite E. split; intros H f.
      * intros A B C. apply H. apply FS. auto.
      * intros I. apply FS in I. apply H; tauto.
    + intros (f & A & B & C & D). exfalso.
      assert (Y : existsb (fun f => match l_data f with None => true | Some _ => false end) fs = true).
      { apply existsb_exists. exists f. split; [apply FS; auto|]. rewrite D. auto. }
      congruence.
Qed.

(** Uploading is decided when the scan ends: an object that another client creates
    between the scan and the copy is overwritten. *)
Theorem upload_race_overwrites_refuted : exists src t t2 p x y,
  proper t /\ proper t2 /\ source_tree src /\
  holds t2 p x /\ x <> y /\
  snd (push (to_upload None None src t) t2) = true /\
  holds (fst (push (to_upload None None src t) t2)) p y /\ ~ holds (fst (push (to_upload None None src t) t2)) p x.
Proof.
  exists [mkLocal [s_ "00"] (s_ "sstate:hello") (Some (s_ "mine"))], (mkTree [] []),
    (mkTree [([s_ "00"; s_ "sstate:hello"], s_ "theirs")] [[s_ "00"]]), [s_ "00"; s_ "sstate:hello"], (s_ "theirs"), (s_ "mine").
  split; [split; [constructor|split; cbn; tauto]|].
  split.
  { split; [|split]; cbn.
    - constructor; [cbn; tauto|constructor].
    - intros p [<-|[]]. split; [discriminate|]. split; [intros [E|[]]; discriminate|]. right. left. reflexivity.
    - intros d [<-|[]]. split; [discriminate|]. auto. }
  split.
  { split; [repeat constructor; cbn; tauto|]. intros f g r [<-|[]] [<-|[]]. cbn. discriminate. }
  split; [left; reflexivity|]. split; [discriminate|]. split; [vm_compute; reflexivity|].
  split; [vm_compute; auto|]. vm_compute. intros [E|[]]. discriminate.
Qed.

Definition up_src : list local :=
  [mkLocal [s_ "00"] (s_ "sstate:hello:x:1:r0:amd64:3:00aa_dpkg_build.tar.zst") (Some (s_ "A"));
   mkLocal [s_ "00"] (s_ "sstate:other:x:1:r0:amd64:3:00bb_dpkg_build.tar.zst") (Some (s_ "B"));
   mkLocal [s_ "01"] (s_ "sstate:hello:x:1:r0:amd64:3:01cc_dpkg_build.tar.zst") (Some (s_ "C"))].
Definition up_target : tree :=
  mkTree [([s_ "00"; s_ "sstate:hello:x:1:r0:amd64:3:00aa_dpkg_build.tar.zst"], s_ "OLD")] [[s_ "00"]].
Example upload_case :
  proper up_target /\ source_tree up_src /\
  sstate_upload (Some (seqb (s_ "hello"))) None up_src up_target =
  (mkTree [([s_ "00"; s_ "sstate:hello:x:1:r0:amd64:3:00aa_dpkg_build.tar.zst"], s_ "OLD");
           ([s_ "01"; s_ "sstate:hello:x:1:r0:amd64:3:01cc_dpkg_build.tar.zst"], s_ "C")] [[s_ "00"]; [s_ "01"]], true).
Proof.
  split; [|split].
  - split; [|split]; cbn.
    + constructor; [cbn; tauto|constructor].
    + intros p [<-|[]]. split; [discriminate|]. split; [intros [E|[]]; discriminate|]. right. left. reflexivity.
    + intros d [<-|[]]. split; [discriminate|]. auto.
  - split.
    + cbn. repeat constructor; cbn; intuition discriminate.
    + intros f g r F G. cbn in F, G. destruct F as [<-|[<-|[<-|[]]]], G as [<-|[<-|[<-|[]]]]; cbn; discriminate.
  - vm_compute. reflexivity.
Qed.

(** * C19 *)

(** Ages: a decimal number and a unit letter; without a unit, days *)
Theorem clean_age_exact : forall n c u, unit_seconds c u ->
  convert_to_seconds (dec n ++ [c]) = Some (n * u)%N /\ convert_to_seconds (dec n) = Some (n * 86400)%N.
Proof.
  intros n c u U. destruct (dec_spec n) as (NE & F & V & _). rewrite Forall_forall in F.
  unfold convert_to_seconds. split.
  - rewrite span_all; auto.
    2: { destruct U as [(-> & _)|[(-> & _)|[(-> & _)|[(-> & _)|(-> & _)]]]]; reflexivity. }
    destruct (dec n) as [|d ds] eqn:E; [congruence|]. rewrite V. f_equal. f_equal.
    destruct U as [(-> & ->)|[(-> & ->)|[(-> & ->)|[(-> & ->)|(-> & ->)]]]]; reflexivity.
  - replace (span is_digit (dec n)) with (dec n, @nil ascii).
    2: { rewrite <- (app_nil_r (dec n)) at 2. rewrite span_all; auto. }
    destruct (dec n) as [|d ds] eqn:E; [congruence|]. rewrite V. reflexivity.
Qed.

(** What is not a number is refused: as --max-age with a message, nothing is deleted *)
Theorem clean_bad_age_deletes_nothing : forall flt arch a s age t,
  (forall c r, a = c :: r -> is_digit c = false) -> sstate_clean flt arch a s age t = BadAge.
Proof.
  intros flt arch a s age t H. unfold sstate_clean, convert_to_seconds. destruct a as [|c r]; [reflexivity|].
  cbn [span]. rewrite (H c r eq_refl). reflexivity.
Qed.

(** Exactly which files a clean deletes, for all directory contents, ages, filters
    and limits A (--max-age) and S (--max-sig-age): the chosen shared-state files p
    that are - archives of at least age A, - or files of at least age max(A,S), - or
    have the hash of a chosen archive of at least age A. *)
Theorem clean_exact : forall flt arch a s A S age t t',
  convert_to_seconds a = Some A -> convert_to_seconds (match s with Some x => x | None => a end) = Some S ->
  sstate_clean flt arch a s age t = Cleaned t' ->
  forall p x, holds t' p x <->
    holds t p x /\
    ~ (exists f, sstate_regex (pjoin p) = Some f /\ chosen flt arch f /\
        ((archive f /\ (Z.of_N A <= age p)%Z) \/
         (Z.of_N (N.max A S) <= age p)%Z \/
         exists q y g, holds t q y /\ sstate_regex (pjoin q) = Some g /\ chosen flt arch g /\ archive g /\
                       (Z.of_N A <= age q)%Z /\ f_hash g = f_hash f)).
Proof.
  intros flt arch a s A S age t t' CA CS R p x. unfold sstate_clean in R. rewrite CA, CS in R. inversion R; subst t'; clear R.
  rewrite delete_all_holds. split; intros [H N]; split; auto; intros K; apply N; clear N.
  - destruct K as (f & RF & CF & K). apply in_map_iff. exists (mkEntry p f (age p)). split; auto. apply to_delete_In.
    split; [apply list_all_In; exists x; cbn; auto|]. cbn [e_fields e_age]. split; auto.
    destruct K as [K|[K|(q & y & g & G1 & G2 & G3 & G4 & G5 & G6)]]; auto.
    right. right. exists (mkEntry q g (age q)). cbn [e_fields e_age]. split; [apply list_all_In; exists y; cbn; auto|auto 10].
  - apply in_map_iff in K. destruct K as (e & <- & K). apply to_delete_In in K. destruct K as (K & C & D).
    apply list_all_In in K. destruct K as (y & Y1 & Y2 & Y3). exists (e_fields e). split; auto. split; auto. rewrite <- Y3.
    destruct D as [D|[D|(g & G1 & G2 & G3 & G4 & G5)]]; auto. right. right. apply list_all_In in G1.
    destruct G1 as (z & Z1 & Z2 & Z3). exists (e_path g), z, (e_fields g). rewrite <- Z3. auto 10.
Qed.

(** Old archives are deleted; foreign files and files excluded by the filters stay;
    so does every file younger than --max-age unless a chosen archive with the same
    hash is that old. *)
Theorem clean_keeps_young_partial : forall flt arch a s A age t t',
  convert_to_seconds a = Some A -> sstate_clean flt arch a s age t = Cleaned t' ->
  (forall p x f, holds t p x -> sstate_regex (pjoin p) = Some f -> chosen flt arch f -> archive f ->
     (Z.of_N A <= age p)%Z -> ~ holds t' p x) /\
  (forall p x, holds t p x -> sstate_regex (pjoin p) = None -> holds t' p x) /\
  (forall p x f, holds t p x -> sstate_regex (pjoin p) = Some f -> ~ chosen flt arch f -> holds t' p x) /\
  (forall p x f, holds t p x -> sstate_regex (pjoin p) = Some f -> (age p < Z.of_N A)%Z ->
     (forall q y g, holds t q y -> sstate_regex (pjoin q) = Some g -> chosen flt arch g -> archive g ->
        f_hash g = f_hash f -> (age q < Z.of_N A)%Z) -> holds t' p x) /\
  (forall p x, holds t' p x -> holds t p x).
Proof.
  intros flt arch a s A age t t' CA R.
  destruct (convert_to_seconds (match s with Some x => x | None => a end)) as [S|] eqn:CS.
  2: { unfold sstate_clean in R. rewrite CA, CS in R. discriminate. }
  pose proof (clean_exact flt arch a s A S age t t' CA CS R) as X. repeat apply conj.
  - intros p x f H RF C AR O K. apply X in K. apply (proj2 K). exists f. auto.
  - intros p x H RN. apply X. split; auto. intros (f & F & _). congruence.
  - intros p x f H RF NC. apply X. split; auto. intros (g & G & C & _). congruence.
  - intros p x f H RF Y Q. apply X. split; auto. intros (g & G & C & D). assert (g = f) by congruence. subst g.
    destruct D as [D|[D|(q & y & g & G1 & G2 & G3 & G4 & G5 & G6)]].
    + lia.
    + rewrite N2Z.inj_max in D. lia.
    + specialize (Q q y g G1 G2 G3 G4 G6). lia.
  - intros p x H. apply X in H. tauto.
Qed.

(** Directories: the target stays a directory tree, no directory that had contents is
    left behind empty, and none that still has contents is removed. *)
Theorem clean_directories : forall flt arch a s age t t',
  proper t -> sstate_clean flt arch a s age t = Cleaned t' ->
  proper t' /\
  (forall d, In d (dirs t') ->
     (exists c, (In c (map fst (files t)) \/ In c (dirs t)) /\ c <> [] /\ removelast c = d) ->
     (exists c, (In c (map fst (files t')) \/ In c (dirs t')) /\ c <> [] /\ removelast c = d)).
Proof.
  intros flt arch a s age t t' P R. unfold sstate_clean in R.
  destruct (convert_to_seconds a); [|discriminate]. destruct (convert_to_seconds (match s with _ => _ end)); [|discriminate].
  inversion R; subst t'; clear R. split; [apply delete_all_proper; auto|].
  intros d I N. apply nonempty_dir_iff in N. apply nonempty_dir_iff. apply delete_all_nonempty; auto.
  intros e K. apply to_delete_In in K. destruct K as (K & _). apply list_all_In in K. destruct K as (x & H & _).
  destruct P as (_ & P & _). apply (P (e_path e)). apply in_map_iff. exists (e_path e, x). auto.
Qed.

(** ** What the documentation promises and the code does not keep *)
Definition h1 : str := s_ "00e1f2a3b4c5d6e7f8091a2b3c4d5e6f708192a3b4c5d6e7f8091a2b3c4d5e6f".
Definition nm (task suffix : string) : path :=
  [s_ "00"; s_ "sstate:hello:x:1:r0:amd64:3:" ++ h1 ++ s_ task ++ s_ suffix].
Definition old_new : tree :=
  mkTree [(nm "_dpkg_build" ".tar.zst", s_ "A"); (nm "_deploy" ".tar.zst", s_ "B"); (nm "_deploy" ".tar.zst.siginfo", s_ "C");
          ([s_ "00"; s_ "README"], s_ "D")] [[s_ "00"]].
Definition ages (p : path) : Z := if peqb p (nm "_dpkg_build" ".tar.zst") then 864000%Z else 0%Z.

Example old_new_proper : proper old_new.
Proof.
  split; [|split]; cbn [files dirs map fst old_new].
  - repeat constructor; cbn; intuition discriminate.
  - intros p I. assert (E : removelast p = [s_ "00"]) by (cbn in I; intuition (subst; reflexivity)).
    split; [intros ->; discriminate|]. split; [|right; left; auto]. intros [<-|[]]. discriminate.
  - intros d [<-|[]]. split; [discriminate|]. auto.
Qed.

(** An archive created just now is deleted because another archive with the same
    hash is old; and a signature file created just now although --max-sig-age is a
    year. *)
Theorem clean_deletes_young_refuted :
  exists t', sstate_clean None None (s_ "5d") (Some (s_ "52w")) ages old_new = Cleaned t' /\
  (exists f, sstate_regex (pjoin (nm "_deploy" ".tar.zst")) = Some f /\ archive f) /\
  ages (nm "_deploy" ".tar.zst") = 0%Z /\ holds old_new (nm "_deploy" ".tar.zst") (s_ "B") /\
  ~ holds t' (nm "_deploy" ".tar.zst") (s_ "B") /\
  ages (nm "_deploy" ".tar.zst.siginfo") = 0%Z /\ holds old_new (nm "_deploy" ".tar.zst.siginfo") (s_ "C") /\
  ~ holds t' (nm "_deploy" ".tar.zst.siginfo") (s_ "C") /\
  holds t' [s_ "00"; s_ "README"] (s_ "D").
Proof.
  eexists. split; [vm_compute; reflexivity|].
  split; [eexists; split; [vm_compute; reflexivity|vm_compute; auto]|].
  split; [vm_compute; reflexivity|]. split; [vm_compute; auto|].
  split; [vm_compute; intros [E|[]]; discriminate|].
  split; [vm_compute; reflexivity|]. split; [vm_compute; auto|].
  split; [vm_compute; intros [E|[]]; discriminate|]. vm_compute. auto.
Qed.

(** A unit the tool does not know counts as days: a limit of one year or of one
    month is a limit of one day or of one minute.  A limit for signature files that
    is not a number ends in an exception. *)
Theorem clean_unknown_unit_refuted :
  convert_to_seconds (s_ "1y") = Some 86400%N /\ convert_to_seconds (s_ "1month") = Some 60%N /\
  sstate_clean None None (s_ "5d") (Some (s_ "never")) ages old_new = Crash.
Proof. vm_compute. auto. Qed.

Print Assumptions upload_exact.
Print Assumptions upload_completes_iff.
Print Assumptions upload_race_overwrites_refuted.
Print Assumptions clean_age_exact.
Print Assumptions clean_bad_age_deletes_nothing.
Print Assumptions clean_exact.
Print Assumptions clean_keeps_young_partial.
Print Assumptions clean_directories.
Print Assumptions clean_deletes_young_refuted.
Print Assumptions clean_unknown_unit_refuted.
