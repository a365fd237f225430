(** C21: shared-state file names. *)
From Coq Require Import Ascii String List Bool Arith ZArith Lia.
From Verif Require Import Str_Model Str_Proofs Sstname_Model Sstname_Spec Sstname_Proofs.
Import ListNotations.
Open Scope list_scope.

(** C21, bounded: a generated file name has at most 254 characters, and an archive
    leaves room for the ".siginfo" of its companion *)
Theorem sst_name_bounded : forall pn host pv pr arch ver hash task sg path,
  field pn -> field host -> field pv -> field pr -> field arch -> field ver -> hex_hash hash -> task_name task ->
  generate_sstatefn (pkgspec pn host pv pr arch ver) (Some hash) (Some task) sg = Name path ->
  length (basename path) <= (if sg then 254 else 254 - length (s_ ".siginfo")).
Proof.
  intros pn host pv pr arch ver hash task sg path F1 F2 F3 F4 F5 F6 HH TN G.
  destruct (generate_form _ _ _ _ _ _ _ _ _ _ F1 F2 F3 F4 F5 F6 HH TN G) as (h' & pv' & pr' & A & B & C & -> & L).
  unfold basename. rewrite split_on_last.
  - unfold slen, limit in L. unfold str in *. change (length (s_ ".siginfo")) with 8. destruct sg; lia.
  - apply no_char_app; [apply pkgspec_nochar; auto|apply tail_nochar; auto].
Qed.

(** ... and the build only stops if the parts that must not be shortened do not fit *)
Theorem sst_name_fatal_iff : forall (pn host pv pr arch ver hash task : str) (sg : bool),
  field pn -> field host -> field pv -> field pr -> field arch -> field ver -> hex_hash hash ->
  let needed := length (s_ "sstate:" ++ pn ++ s_ "::::" ++ arch ++ s_ ":" ++ ver ++ s_ ":" ++ hash ++ s_ "_" ++ task
                        ++ s_ ".tar.zst" ++ (if sg then s_ ".siginfo" else [])) in
  let allowed := if sg then 254 else 246 in
  (generate_sstatefn (pkgspec pn host pv pr arch ver) (Some hash) (Some task) sg = Fatal <-> allowed < needed) /\
  (generate_sstatefn (pkgspec pn host pv pr arch ver) (Some hash) (Some task) sg <> Raise).
Proof.
  intros pn host pv pr arch ver hash task sg F1 F2 F3 F4 F5 F6 [HN _] needed allowed. unfold generate_sstatefn.
  destruct hash as [|c0 hash0]; [congruence|]. set (hash := c0 :: hash0) in *.
  assert (N : Z.of_nat needed = (13 + slen pn + slen arch + slen ver + slen (hash ++ s_ "_" ++ task ++ extension sg))%Z).
  { unfold needed, slen. rewrite !app_length. destruct sg; cbn [length s_ list_ascii_of_string extension]; lia. }
  assert (A : Z.of_nat allowed = limit sg) by (unfold allowed; destruct sg; reflexivity).
  destruct (base_name_form pn host pv pr arch ver hash task sg _ F1 F2 F3 F4 F5 F6 eq_refl)
    as [[M E]|[M (h' & pv' & pr' & E & _)]]; rewrite E.
  - split; [|discriminate]. split; auto. intros _. lia.
  - split; [|discriminate]. split; [discriminate|]. intros L. lia.
Qed.

(** C21, agreement: isar-sstate reads back recipe, architecture, hash, task and
    suffix, whatever was shortened and whatever directory the file is in *)
Theorem sst_name_read_back : forall pn host pv pr arch ver hash task sg path dir,
  field pn -> field host -> field pv -> field pr -> field arch -> field ver -> hex_hash hash -> task_name task ->
  generate_sstatefn (pkgspec pn host pv pr arch ver) (Some hash) (Some task) sg = Name path ->
  (dir = [] \/ exists d, dir = d ++ s_ "/") -> ~ In nl dir ->
  sstate_regex (dir ++ path) =
    Some (mkF pn arch hash task (if sg then s_ "tar.zst.siginfo" else s_ "tar.zst")).
Proof.
  intros pn host pv pr arch ver hash task sg path dir F1 F2 F3 F4 F5 F6 HH TN G D ND.
  destruct (generate_form _ _ _ _ _ _ _ _ _ _ F1 F2 F3 F4 F5 F6 HH TN G) as (h' & pv' & pr' & A & B & C & -> & L).
  unfold sstate_regex. rewrite app_assoc. apply search_dir.
  - apply no_char_app; [apply no_char_In; auto|]. apply no_char_app; [apply field_nl, field_firstn, hex_field; auto|].
    apply no_char_app; [repeat constructor|]. apply field_nl, field_firstn.
    intros c I. apply (hex_field _ HH). rewrite <- (firstn_skipn 2 hash). apply in_or_app. auto.
  - rewrite search_here by (apply no_char_app; [apply pkgspec_nochar; auto|apply tail_nochar; auto]).
    rewrite extension_suffix. change (if sg then s_ "tar.zst.siginfo" else s_ "tar.zst") with (suffix sg).
    apply match_here_name; auto. destruct sg; repeat constructor.
Qed.

(** C21, unambiguous: the same name means the same hash, task and kind of file, and
    the same recipe and architecture *)
Theorem sst_name_unambiguous : forall pn host pv pr arch ver hash task sg pn' host' pv' pr' arch' ver' hash' task' sg' path,
  field pn -> field host -> field pv -> field pr -> field arch -> field ver -> hex_hash hash -> task_name task ->
  field pn' -> field host' -> field pv' -> field pr' -> field arch' -> field ver' -> hex_hash hash' -> task_name task' ->
  generate_sstatefn (pkgspec pn host pv pr arch ver) (Some hash) (Some task) sg = Name path ->
  generate_sstatefn (pkgspec pn' host' pv' pr' arch' ver') (Some hash') (Some task') sg' = Name path ->
  hash = hash' /\ task = task' /\ sg = sg' /\ pn = pn' /\ arch = arch'.
Proof.
  intros. assert (A := sst_name_read_back pn host pv pr arch ver hash task sg path [] ltac:(auto) ltac:(auto)
    ltac:(auto) ltac:(auto) ltac:(auto) ltac:(auto) ltac:(auto) ltac:(auto) ltac:(auto) ltac:(auto) ltac:(intros [])).
  assert (B := sst_name_read_back pn' host' pv' pr' arch' ver' hash' task' sg' path [] ltac:(auto) ltac:(auto)
    ltac:(auto) ltac:(auto) ltac:(auto) ltac:(auto) ltac:(auto) ltac:(auto) ltac:(auto) ltac:(auto) ltac:(intros [])).
  rewrite A in B. inversion B; subst. repeat split; auto. destruct sg, sg'; auto; discriminate.
Qed.

(** The signature file of an archive is always called like the archive with
    ".siginfo" appended, for every spec, hash and task *)
Theorem sst_siginfo_beside_archive : forall spec hash task path,
  generate_sstatefn spec hash (Some task) false = Name path ->
  generate_sstatefn spec hash (Some task) true = Name (path ++ s_ ".siginfo").
Proof.
  intros spec hash task path G. unfold generate_sstatefn in *.
  set (h := match hash with None => _ | Some _ => _ end) in *.
  assert (T : forall x, x ++ h ++ s_ "_" ++ task ++ extension true = (x ++ h ++ s_ "_" ++ task ++ extension false) ++ s_ ".siginfo").
  { intros x. rewrite <- !app_assoc. reflexivity. }
  assert (T0 := T []). cbn [app] in T0.
  assert (LS : slen (s_ ".siginfo") = 8%Z) by reflexivity.
  assert (P : forall a b, Name a = Name b -> a = b) by congruence.
  unfold base_name in *. rewrite T. rewrite slen_app, LS.
  replace (slen (spec ++ h ++ s_ "_" ++ task ++ extension false) + 8 <=? limit true)%Z
    with (slen (spec ++ h ++ s_ "_" ++ task ++ extension false) <=? limit false)%Z.
  2: { unfold limit. destruct (Z.leb_spec (slen (spec ++ h ++ s_ "_" ++ task ++ extension false)) (254 - 8)),
         (Z.leb_spec (slen (spec ++ h ++ s_ "_" ++ task ++ extension false) + 8) 254); auto; lia. }
  destruct (slen (spec ++ h ++ s_ "_" ++ task ++ extension false) <=? limit false)%Z.
  - apply P in G. rewrite <- G. f_equal. rewrite <- !app_assoc. reflexivity.
  - destruct (split_on ":" spec) as [|c0 [|c1 [|c2 [|c3 [|c4 [|c5 [|c6 rest]]]]]]]; try discriminate.
    rewrite T0. rewrite (slen_app (h ++ s_ "_" ++ task ++ extension false)), LS.
    replace (limit true - (slen (h ++ s_ "_" ++ task ++ extension false) + 8) - slen c0 - slen c1 - slen c5 - slen c6 - 7)%Z
      with (limit false - slen (h ++ s_ "_" ++ task ++ extension false) - slen c0 - slen c1 - slen c5 - slen c6 - 7)%Z
      by (unfold limit; lia).
    set (av := ((limit false - slen (h ++ s_ "_" ++ task ++ extension false) - slen c0 - slen c1 - slen c5 - slen c6 - 7) / 3)%Z) in *.
    set (sp := join (s_ ":") _) in *. rewrite app_assoc. rewrite slen_app, LS.
    replace (slen (sp ++ h ++ s_ "_" ++ task ++ extension false) + 8 <=? limit true)%Z
      with (slen (sp ++ h ++ s_ "_" ++ task ++ extension false) <=? limit false)%Z.
    2: { unfold limit. destruct (Z.leb_spec (slen (sp ++ h ++ s_ "_" ++ task ++ extension false)) (254 - 8)),
         (Z.leb_spec (slen (sp ++ h ++ s_ "_" ++ task ++ extension false) + 8) 254); auto; lia. }
    destruct (slen (sp ++ h ++ s_ "_" ++ task ++ extension false) <=? limit false)%Z; [|discriminate].
    apply P in G. rewrite <- G. f_equal. rewrite <- !app_assoc. reflexivity.
Qed.

Definition sample_hash : str := s_ "00e1f2a3b4c5d6e7f8091a2b3c4d5e6f708192a3b4c5d6e7f8091a2b3c4d5e6f".
Example sst_name_case :
  generate_sstatefn (pkgspec (s_ "hello") (s_ "amd64-linux") (s_ "1.0") (s_ "r0") (s_ "amd64") (s_ "10"))
    (Some sample_hash) (Some (s_ "dpkg_build")) false =
  Name (s_ "00/e1/sstate:hello:amd64-linux:1.0:r0:amd64:10:" ++ sample_hash ++ s_ "_dpkg_build.tar.zst") /\
  hex_hash sample_hash /\ task_name (s_ "dpkg_build").
Proof.
  split; [vm_compute; auto|]. split; [split; [discriminate|]|split].
  - intros c I. cbn in I. repeat (destruct I as [<-|I]; [cbn; tauto|]). destruct I.
  - intros c I. cbn in I. repeat (destruct I as [<-|I]; [repeat split; discriminate|]). destruct I.
  - cbn. intuition discriminate.
Qed.
Example sst_name_shortened :
  exists p, generate_sstatefn (pkgspec (s_ "hello") (s_ "amd64-linux") (repeat "7"%char 200) (s_ "r0") (s_ "amd64") (s_ "10"))
    (Some sample_hash) (Some (s_ "dpkg_build")) false = Name p /\ length (basename p) = 167.
Proof. eexists. split; [vm_compute; reflexivity|]. vm_compute. reflexivity. Qed.

(** A version with an epoch shifts the fields: isar-sstate then takes the revision
    for the architecture, so --arch selects the wrong files *)
Theorem sst_epoch_misread_refuted : exists path f,
  generate_sstatefn (pkgspec (s_ "hello") (s_ "amd64-linux") (s_ "1:2.0") (s_ "r0") (s_ "amd64") (s_ "10"))
    (Some sample_hash) (Some (s_ "dpkg_build")) false = Name path /\
  sstate_regex path = f /\ (f = None \/ exists x, f = Some x /\ f_arch x <> s_ "amd64").
Proof.
  eexists. eexists. split; [vm_compute; reflexivity|]. split; [reflexivity|]. vm_compute. auto.
Qed.

Print Assumptions sst_name_bounded.
Print Assumptions sst_name_read_back.
Print Assumptions sst_name_unambiguous.
Print Assumptions sst_siginfo_beside_archive.

(** C21: a task without a hash gets a name that says so; it cannot be taken for a name with a hash. *)
Theorem sst_missing_hash_marked : forall spec hash task sg path,
  hash = None \/ hash = Some [] ->
  generate_sstatefn spec hash (Some task) sg = Name path ->
  exists spec', path = s_ "IN/VA/" ++ spec' ++ s_ "INVALID_" ++ task ++ s_ ".tar.zst" ++ (if sg then s_ ".siginfo" else []).
Proof.
  intros spec hash task sg path H G.
  assert (E : generate_sstatefn spec (Some (s_ "INVALID")) (Some task) sg = Name path) by (destruct H as [-> | ->]; exact G).
  assert (X : extension sg = s_ ".tar.zst" ++ (if sg then s_ ".siginfo" else [])) by (destruct sg; reflexivity).
  unfold generate_sstatefn in E. change (match s_ "INVALID" with [] => s_ "INVALID" | _ :: _ => s_ "INVALID" end) with (s_ "INVALID") in E.
  destruct (base_name spec (s_ "INVALID") task sg) as [fn| |] eqn:B; try discriminate.
  assert (F : exists spec', fn = spec' ++ s_ "INVALID_" ++ task ++ extension sg).
  { unfold base_name in B. destruct (_ <=? _)%Z; [injection B as <-; exists spec; reflexivity|].
    destruct (split_on ":" spec) as [|c0 [|c1 [|c2 [|c3 [|c4 [|c5 [|c6 rest]]]]]]]; try discriminate.
    destruct (_ <=? _)%Z; [|discriminate].
    match type of B with Name (?x ++ _) = _ => exists x end.
    assert (P : forall x y, Name x = Name y -> y = x) by (intros x y Q; now injection Q). apply P in B. exact B. }
  destruct F as (spec' & ->). exists spec'. rewrite <- X. injection E as <-. reflexivity.
Qed.
Example sst_missing_hash_example : exists path,
  generate_sstatefn (pkgspec (s_ "hello") (s_ "amd64-linux") (s_ "1.0") (s_ "r0") (s_ "amd64") (s_ "10")) None
    (Some (s_ "dpkg_build")) false = Name path /\ sstate_regex path = None.
Proof. eexists. split; vm_compute; reflexivity. Qed.
Print Assumptions sst_missing_hash_marked.

(** ** Further cases that meet the hypotheses *)
Lemma field_checked s : forallb (fun c => negb (aeqb c ":"%char) && negb (aeqb c "/"%char) && negb (aeqb c nl)) s = true -> field s.
Proof. intros H c I. rewrite forallb_forall in H. specialize (H c I). repeat split; intros ->; vm_compute in H; discriminate H. Qed.
Example fields_met : sstate_regex (s_ "/cache/" ++ s_ "00/e1/sstate:hello:amd64-linux:1.0:r0:amd64:10:" ++ sample_hash ++ s_ "_dpkg_build.tar.zst") = Some (mkF (s_ "hello") (s_ "amd64") sample_hash (s_ "dpkg_build") (s_ "tar.zst")).
Proof.
  refine (sst_name_read_back (s_ "hello") (s_ "amd64-linux") (s_ "1.0") (s_ "r0") (s_ "amd64") (s_ "10") sample_hash (s_ "dpkg_build") false _ (s_ "/cache/") _ _ _ _ _ _ _ _ _ _ _).
  1-6: apply field_checked; reflexivity.
  - apply sst_name_case.
  - apply sst_name_case.
  - apply sst_name_case.
  - right. now exists (s_ "/cache").
  - intros J. vm_compute in J. intuition discriminate.
Qed.

