(** Proofs about shared-state file names. *)
From Coq Require Import Ascii String List Bool Arith ZArith Lia.
From Verif Require Import Str_Model Str_Proofs Sstname_Model Sstname_Spec.
Import ListNotations.
Open Scope list_scope.

Lemma field_colon : forall s, field s -> no_char ":" s.
Proof. intros s F. apply no_char_In. intros I. apply F in I. tauto. Qed.
Lemma field_slash : forall s, field s -> no_char "/" s.
Proof. intros s F. apply no_char_In. intros I. apply F in I. tauto. Qed.
Lemma field_nl : forall s, field s -> no_char nl s.
Proof. intros s F. apply no_char_In. intros I. apply F in I. tauto. Qed.
Lemma field_app : forall a b, field a -> field b -> field (a ++ b).
Proof. intros a b A B c I. apply in_app_or in I. destruct I; auto. Qed.
Lemma field_firstn : forall n s, field s -> field (firstn n s).
Proof.
  intros n s F c I. apply F. rewrite <- (firstn_skipn n s). apply in_or_app. auto.
Qed.
Lemma field_slice : forall n s, field s -> field (slice_to n s).
Proof. intros. unfold slice_to. destruct (n <? 0)%Z; apply field_firstn; auto. Qed.
Lemma slice_len : forall n s, (0 <= n)%Z -> (slen (slice_to n s) <= n)%Z.
Proof.
  intros n s H. unfold slice_to, slen. destruct (n <? 0)%Z eqn:E; [apply Z.ltb_lt in E; lia|].
  rewrite firstn_length. lia.
Qed.
Lemma slen_app : forall a b, slen (a ++ b) = (slen a + slen b)%Z.
Proof. intros. unfold slen. rewrite app_length. lia. Qed.
Lemma slen_nonneg : forall a, (0 <= slen a)%Z.
Proof. intros. unfold slen. lia. Qed.

Lemma pkgspec_join : forall pn h pv pr ar ver,
  pkgspec pn h pv pr ar ver = join [":"%char] [s_ "sstate"; pn; h; pv; pr; ar; ver; []].
Proof. intros. unfold pkgspec. cbn [join]. rewrite app_nil_r. reflexivity. Qed.
Lemma pkgspec_split : forall pn h pv pr ar ver,
  field pn -> field h -> field pv -> field pr -> field ar -> field ver ->
  split_on ":" (pkgspec pn h pv pr ar ver) = [s_ "sstate"; pn; h; pv; pr; ar; ver; []].
Proof.
  intros. rewrite pkgspec_join. apply split_on_join; [discriminate|].
  apply Forall_cons; [repeat (apply Forall_cons; [reflexivity|]); apply Forall_nil|].
  do 6 (apply Forall_cons; [apply field_colon; auto|]). apply Forall_cons; [apply Forall_nil|apply Forall_nil].
Qed.
Lemma pkgspec_len : forall pn h pv pr ar ver,
  slen (pkgspec pn h pv pr ar ver) = (13 + slen pn + slen h + slen pv + slen pr + slen ar + slen ver)%Z.
Proof. intros. unfold pkgspec. rewrite !slen_app. change (slen (s_ "sstate:")) with 7%Z. change (slen (s_ ":")) with 1%Z. lia. Qed.

Lemma base_name_form : forall pn h pv pr ar ver hash task sg r,
  field pn -> field h -> field pv -> field pr -> field ar -> field ver ->
  base_name (pkgspec pn h pv pr ar ver) hash task sg = r ->
  let tail := hash ++ s_ "_" ++ task ++ extension sg in
  let mandatory := (13 + slen pn + slen ar + slen ver + slen tail)%Z in
  ((mandatory > limit sg)%Z /\ r = Fatal) \/
  ((mandatory <= limit sg)%Z /\ exists h' pv' pr', r = Name (pkgspec pn h' pv' pr' ar ver ++ tail) /\
     field h' /\ field pv' /\ field pr' /\
     (slen (pkgspec pn h' pv' pr' ar ver ++ tail) <= limit sg)%Z /\
     ((slen (pkgspec pn h pv pr ar ver ++ tail) <= limit sg)%Z -> h' = h /\ pv' = pv /\ pr' = pr)).
Proof.
  intros pn h pv pr ar ver hash task sg r F1 F2 F3 F4 F5 F6 E tail mandatory.
  unfold base_name in E. fold tail in E.
  destruct (slen (pkgspec pn h pv pr ar ver ++ tail) <=? limit sg)%Z eqn:L.
  - apply Z.leb_le in L. right. rewrite slen_app, pkgspec_len in L.
    pose proof (slen_nonneg h). pose proof (slen_nonneg pv). pose proof (slen_nonneg pr).
    split; [unfold mandatory; lia|]. exists h, pv, pr. split; auto. split; auto. split; auto. split; auto.
    split; [rewrite slen_app, pkgspec_len; lia|auto].
  - rewrite pkgspec_split in E by auto. apply Z.leb_gt in L.
    set (avail := ((limit sg - slen tail - slen (s_ "sstate") - slen pn - slen ar - slen ver - 7) / 3)%Z) in E.
    change (s_ ":") with [":"%char] in E. rewrite <- pkgspec_join in E.
    assert (AV : avail = ((limit sg - mandatory) / 3)%Z).
    { unfold avail, mandatory. change (slen (s_ "sstate")) with 6%Z. f_equal. lia. }
    destruct (Z_le_gt_dec mandatory (limit sg)) as [M|M].
    + right. split; auto. exists (slice_to avail h), (slice_to avail pv), (slice_to avail pr).
      assert (A0 : (0 <= avail)%Z) by (rewrite AV; apply Z.div_pos; lia).
      assert (A1 : (3 * avail <= limit sg - mandatory)%Z) by (rewrite AV; apply Z.mul_div_le; lia).
      assert (Q : (slen (pkgspec pn (slice_to avail h) (slice_to avail pv) (slice_to avail pr) ar ver ++ tail) <= limit sg)%Z).
      { rewrite slen_app, pkgspec_len. pose proof (slice_len avail h A0). pose proof (slice_len avail pv A0).
        pose proof (slice_len avail pr A0). unfold mandatory in A1. lia. }
      assert (Q2 := Q). apply Z.leb_le in Q2. rewrite Q2 in E. subst r. split; auto. split; [apply field_slice; auto|].
      split; [apply field_slice; auto|]. split; [apply field_slice; auto|]. split; auto. lia.
    + left. split; auto.
      assert (Q : (slen (pkgspec pn (slice_to avail h) (slice_to avail pv) (slice_to avail pr) ar ver ++ tail) > limit sg)%Z).
      { rewrite slen_app, pkgspec_len. pose proof (slen_nonneg (slice_to avail h)). pose proof (slen_nonneg (slice_to avail pv)).
        pose proof (slen_nonneg (slice_to avail pr)). unfold mandatory in M. lia. }
      destruct (slen _ <=? limit sg)%Z eqn:X in E; [apply Z.leb_le in X; lia|]. auto.
Qed.

(** * The parser *)
Lemma hex_is_hex : forall s c, hex_hash s -> In c s -> is_hex c = true /\ c <> ":"%char /\ c <> "/"%char /\ c <> nl.
Proof.
  intros s c [_ H] I. apply H in I. cbn in I.
  repeat (destruct I as [<-|I]; [vm_compute; repeat split; discriminate|]). destruct I.
Qed.
Lemma hex_field : forall s, hex_hash s -> field s.
Proof. intros s H c I. apply (hex_is_hex s c H) in I. tauto. Qed.
Lemma span_all : forall p a b, (forall c, In c a -> p c = true) ->
  match b with [] => True | c :: _ => p c = false end -> span p (a ++ b) = (a, b).
Proof.
  induction a as [|c a IH]; intros b A B; cbn.
  - destruct b as [|c b]; auto. cbn. rewrite B. auto.
  - rewrite (A c) by (left; auto). rewrite IH; auto. intros x I. apply A. right. auto.
Qed.

Lemma match_here_name : forall pn h pv pr ar ver hash task suffix,
  field pn -> field h -> field pv -> field pr -> field ar -> field ver -> hex_hash hash -> task_name task ->
  no_char nl suffix ->
  match_here (pkgspec pn h pv pr ar ver ++ hash ++ s_ "_" ++ task ++ s_ "." ++ suffix) =
    Some (mkF pn ar hash task suffix).
Proof.
  intros pn h pv pr ar ver hash task suffix F1 F2 F3 F4 F5 F6 HH [TF TD] NS.
  unfold pkgspec. rewrite <- !app_assoc. unfold match_here. rewrite startswith_app.
  change (skipn 7 (s_ "sstate:" ++ ?x)) with x. cbn [s_ list_ascii_of_string app].
  rewrite cut_at_some by (apply field_colon; auto). rewrite cut_at_some by (apply field_colon; auto).
  rewrite cut_at_some by (apply field_colon; auto). rewrite cut_at_some by (apply field_colon; auto).
  rewrite cut_at_some by (apply field_colon; auto). rewrite cut_at_some by (apply field_colon; auto).
  rewrite span_all; [|intros c I; apply (hex_is_hex hash c HH I)|reflexivity].
  rewrite cut_at_some by (apply no_char_In; auto).
  rewrite <- (app_nil_r suffix) at 1. rewrite span_all; auto.
  intros c I. apply negb_true_iff. unfold no_char in NS. rewrite Forall_forall in NS. auto.
Qed.

Lemma search_false : forall s, no_char "/" s -> search false s = None.
Proof.
  induction s as [|c s IH]; intros N; [reflexivity|]. inversion N; subst. cbn [search].
  destruct (aeqb c nl); auto. rewrite H1, IH by auto. auto.
Qed.
Lemma search_here : forall s, no_char "/" s -> search true s = match_here s.
Proof.
  intros s N. destruct s as [|c s]; [reflexivity|]. inversion N; subst. cbn [search].
  destruct (aeqb c nl); auto. rewrite H1, search_false by auto. auto.
Qed.
Lemma search_dir : forall dir b fn f, no_char nl dir -> search true fn = Some f ->
  search b (dir ++ "/"%char :: fn) = Some f.
Proof.
  induction dir as [|c dir IH]; intros b fn f N S.
  - cbn [app search]. change (aeqb "/" nl) with false. change (aeqb "/" "/") with true. cbv iota. rewrite S. auto.
  - inversion N; subst. cbn [app search]. rewrite H1. rewrite (IH _ _ _ H2 S). auto.
Qed.

Lemma no_char_app : forall c a b, no_char c a -> no_char c b -> no_char c (a ++ b).
Proof. intros. apply Forall_app. auto. Qed.

Lemma pkgspec_nochar : forall c pn h pv pr ar ver, c = "/"%char \/ c = nl ->
  field pn -> field h -> field pv -> field pr -> field ar -> field ver -> no_char c (pkgspec pn h pv pr ar ver).
Proof.
  intros c pn h pv pr ar ver C F1 F2 F3 F4 F5 F6. unfold pkgspec.
  assert (S : forall s, field s -> no_char c s).
  { intros s F. destruct C as [-> | ->]; [apply field_slash|apply field_nl]; auto. }
  repeat apply no_char_app; auto; destruct C as [-> | ->]; repeat constructor.
Qed.

Lemma tail_nochar : forall c hash task sg, c = "/"%char \/ c = nl -> hex_hash hash -> task_name task ->
  no_char c (hash ++ s_ "_" ++ task ++ extension sg).
Proof.
  intros c hash task sg C HH [TF _].
  assert (S : forall s, field s -> no_char c s).
  { intros s F. destruct C as [-> | ->]; [apply field_slash|apply field_nl]; auto. }
  repeat apply no_char_app; auto using hex_field.
  - destruct C as [-> | ->]; repeat constructor.
  - destruct sg; destruct C as [-> | ->]; repeat constructor.
Qed.

Definition suffix (sg : bool) : str := if sg then s_ "tar.zst.siginfo" else s_ "tar.zst".
Lemma extension_suffix : forall sg, extension sg = s_ "." ++ suffix sg.
Proof. destruct sg; reflexivity. Qed.

Lemma generate_form : forall pn h pv pr ar ver hash task sg path,
  field pn -> field h -> field pv -> field pr -> field ar -> field ver -> hex_hash hash -> task_name task ->
  generate_sstatefn (pkgspec pn h pv pr ar ver) (Some hash) (Some task) sg = Name path ->
  exists h' pv' pr', field h' /\ field pv' /\ field pr' /\
    let fn := pkgspec pn h' pv' pr' ar ver ++ hash ++ s_ "_" ++ task ++ extension sg in
    path = (firstn 2 hash ++ s_ "/" ++ firstn 2 (skipn 2 hash)) ++ "/"%char :: fn /\ (slen fn <= limit sg)%Z.
Proof.
  intros pn h pv pr ar ver hash task sg path F1 F2 F3 F4 F5 F6 HH TN G. unfold generate_sstatefn in G.
  destruct hash as [|c0 hash0]; [destruct HH; congruence|]. set (hash := c0 :: hash0) in *.
  destruct (base_name_form pn h pv pr ar ver hash task sg _ F1 F2 F3 F4 F5 F6 eq_refl)
    as [[_ E]|[_ (h' & pv' & pr' & E & FH & FPV & FPR & LE & _)]]; rewrite E in G; [discriminate|].
  assert (P : forall a b, Name a = Name b -> a = b) by congruence. apply P in G. rewrite <- G.
  exists h', pv', pr'. split; auto. split; auto. split; auto. split; auto.
  set (fn := pkgspec pn h' pv' pr' ar ver ++ _). rewrite <- !app_assoc. reflexivity.
Qed.

Lemma split_on_last : forall sep a b, no_char sep b -> last (split_on sep (a ++ sep :: b)) [] = b.
Proof.
  intros sep a b N. unfold split_on.
  enough (H : forall cur, last (split_aux sep cur (a ++ sep :: b)) [] = b) by apply H.
  induction a as [|c a IH]; intros cur.
  - cbn. rewrite aeqb_refl. fold (split_on sep b). rewrite split_on_single by auto. reflexivity.
  - cbn [app split_aux]. destruct (aeqb c sep).
    + specialize (IH []). destruct (split_aux sep [] (a ++ sep :: b)) eqn:E; [|exact IH].
      exfalso. destruct (split_aux_spec sep (a ++ sep :: b) []) as (_ & X & _); [constructor|]. congruence.
    + apply IH.
Qed.
