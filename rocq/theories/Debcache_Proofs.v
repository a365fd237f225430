From Coq Require Import String Ascii List Bool Arith Lia.
From Verif Require Import Str_Model Str_Proofs Posix_Model Imgtypes_Model Imgtypes_Proofs Deps_Spec Deps_Proofs Words_Proofs Sigtask_Proofs Debcache_Model Debcache_Spec.
Import ListNotations.
Open Scope list_scope.

(** ** The filter *)
Lemma words2 a b : word a -> word b -> split_ws (join (s_ " ") [a; b]) = [a; b].
Proof. intros A B. apply split_ws_join. repeat constructor; auto; try apply A; try apply B. Qed.
Lemma words3 a b c : word a -> word b -> word c -> split_ws (join (s_ " ") [a; b; c]) = [a; b; c].
Proof. intros A B C. apply split_ws_join. repeat constructor; auto; try apply A; try apply B; try apply C. Qed.
Lemma key_word k : In k ["Package:"; "Version:"; "Source:"]%string -> word (s_ k).
Proof. intros [<-|[<-|[<-|[]]]]; (split; [discriminate|repeat constructor]). Qed.
Lemma paren_word v : word v -> word (s_ "(" ++ v ++ s_ ")").
Proof.
  intros [N F]. split; [discriminate|]. apply Forall_app. split; [repeat constructor|]. apply Forall_app. split; [exact F|repeat constructor].
Qed.
Lemma inner_paren v : inner (s_ "(" ++ v ++ s_ ")") = v.
Proof.
  unfold inner. cbn [s_ list_ascii_of_string app skipn]. cbn [List.length]. rewrite app_length. cbn [List.length].
  replace (S (List.length v + 1) - 2) with (List.length v) by lia. rewrite firstn_app, firstn_all, Nat.sub_diag. cbn. apply app_nil_r.
Qed.
(** What the lines between Package and Size do *)
Definition src_of (p : package) (hasSrc : bool) (s0 : str) : str := if hasSrc then match p_source p with Some (s, _) => s | None => s0 end else s0.
Lemma step_other st l : other_line l -> awk_step st l = st.
Proof. intros (A & B & C & D). destruct st as [[s v] o]. unfold awk_step. now rewrite A, B, C, D. Qed.
Lemma step_version p s v o : package_ok p -> awk_step (s, v, o) (join (s_ " ") [s_ "Version:"; p_version p]) = (s, match v with [] => p_version p | _ => v end, o).
Proof.
  intros (_ & V & _). unfold awk_step. change (startswith (s_ "Package:") (join (s_ " ") [s_ "Version:"; p_version p])) with false.
  change (startswith (s_ "Version:") (join (s_ " ") [s_ "Version:"; p_version p])) with true. cbn match. unfold field. rewrite words2; auto. apply key_word. cbn; auto.
Qed.
Lemma step_source p s v o n : package_ok p -> p_source p = Some (n, None) -> awk_step (s, v, o) (join (s_ " ") [s_ "Source:"; n]) = (n, v, o).
Proof.
  intros (_ & _ & S) E. rewrite E in S. unfold awk_step. change (startswith (s_ "Package:") (join (s_ " ") [s_ "Source:"; n])) with false.
  change (startswith (s_ "Version:") (join (s_ " ") [s_ "Source:"; n])) with false. change (startswith (s_ "Source:") (join (s_ " ") [s_ "Source:"; n])) with true.
  cbn match. unfold field. rewrite words2; auto. apply key_word. cbn; auto.
Qed.
Lemma step_source_version p s v o n w : package_ok p -> p_source p = Some (n, Some w) ->
  awk_step (s, v, o) (join (s_ " ") [s_ "Source:"; n; s_ "(" ++ w ++ s_ ")"]) = (n, w, o).
Proof.
  intros (_ & _ & S) E. rewrite E in S. destruct S as [S W]. set (l := join (s_ " ") [s_ "Source:"; n; s_ "(" ++ w ++ s_ ")"]).
  assert (X : split_ws l = [s_ "Source:"; n; s_ "(" ++ w ++ s_ ")"]) by (apply words3; auto using paren_word; apply key_word; cbn; auto).
  unfold awk_step. change (startswith (s_ "Package:") l) with false. change (startswith (s_ "Version:") l) with false. change (startswith (s_ "Source:") l) with true.
  cbn match. unfold field. rewrite X. cbn [nth Nat.sub]. change (starts_paren (s_ "(" ++ w ++ s_ ")")) with true. cbn match. rewrite inner_paren. reflexivity.
Qed.
Definition sets_version (p : package) (mid : list str) (v0 : str) (v : str) : Prop :=
  match p_source p with
  | Some (s, Some w) => In (join (s_ " ") [s_ "Source:"; s; s_ "(" ++ w ++ s_ ")"]) mid -> v = w
  | _ => In (join (s_ " ") [s_ "Version:"; p_version p]) mid -> v = p_version p
  end.
Lemma mid_fold p : package_ok p -> forall (mid : list str) (s0 v0 : str) (o : list str),
  (forall l, In l mid -> line_of p l \/ other_line l) ->
  (v0 = [] \/ v0 = p_version p \/ exists n w, p_source p = Some (n, Some w) /\ v0 = w) ->
  exists s v, fold_left awk_step mid (s0, v0, o) = (s, v, o) /\
    (s = s0 \/ s = source_name p) /\
    (p_source p = None -> s = s0) /\ (s0 = source_name p -> s = source_name p) /\
    (forall n, p_source p = Some (n, None) -> In (join (s_ " ") [s_ "Source:"; n]) mid -> s = n) /\
    (forall n w, p_source p = Some (n, Some w) -> In (join (s_ " ") [s_ "Source:"; n; s_ "(" ++ w ++ s_ ")"]) mid -> s = n /\ v = w) /\
    (forall n w, p_source p = Some (n, Some w) -> v0 = w -> v = w) /\
    ((forall n w, p_source p <> Some (n, Some w)) -> (v0 = p_version p \/ In (join (s_ " ") [s_ "Version:"; p_version p]) mid) -> v = p_version p).
Proof.
  intros OK. assert (OK' := OK). destruct OK' as (WN & WV & WS).
  induction mid as [|l mid IH]; intros s0 v0 o L V0.
  - exists s0, v0. cbn. split; auto. split; auto. split; auto. split; auto. split; [intros; contradiction|]. split; [intros; contradiction|]. split; [auto|].
    intros _ [X|[]]. exact X.
  - assert (Ll := L l (or_introl eq_refl)). assert (Lm : forall x, In x mid -> line_of p x \/ other_line x) by (intros; apply L; now right).
    cbn [fold_left].
    destruct Ll as [[|s E|n w E]|O].
    + rewrite step_version by exact OK.
      set (v1 := match v0 with [] => p_version p | _ => v0 end).
      assert (V1 : v1 = p_version p \/ exists n w, p_source p = Some (n, Some w) /\ v1 = w).
      { unfold v1. destruct V0 as [->|[->|(n & w & E & ->)]]; auto; [destruct (p_version p); auto|].
        destruct w; auto. right. eauto. }
      destruct (IH s0 v1 o Lm (or_intror V1)) as (s & v & F & A & B & C & D & E & G & H). exists s, v. split; [exact F|]. split; [exact A|]. split; [exact B|]. split; [exact C|].
      split; [|split; [|split]].
      * intros n X [Y|Y]; [exfalso; discriminate|]. eauto.
      * intros n w X [Y|Y]; [exfalso; discriminate|]. eauto.
      * intros n w X Y. apply (G n w X). unfold v1. rewrite Y. destruct w; auto. rewrite X in WS. destruct WS as [_ [WS _]]. congruence.
      * intros X _. apply (H X). left. destruct V1 as [V1|(n & w & Y & _)]; auto. exfalso. exact (X n w Y).
    + rewrite (step_source p) by auto.
      destruct (IH s v0 o Lm V0) as (s' & v & F & A & B & C & D & EE & G & H). exists s', v.
      assert (SN : source_name p = s) by (unfold source_name; now rewrite E).
      assert (S' : s' = s) by (rewrite <- SN; apply C; auto).
      split; [exact F|]. split; [right; congruence|]. split; [congruence|]. split; [congruence|].
      split; [|split; [|split]].
      * intros n X _. congruence.
      * intros n w X. congruence.
      * intros n w X. congruence.
      * intros X [Y|[Y|Y]]; [apply (H X); auto| |apply (H X); auto]. discriminate.
    + rewrite (step_source_version p) by auto.
      assert (V1 : w = [] \/ w = p_version p \/ exists n0 w0, p_source p = Some (n0, Some w0) /\ w = w0) by (right; right; exists n, w; auto).
      destruct (IH n w o Lm V1) as (s' & v & F & A & B & C & D & EE & G & H). exists s', v.
      assert (SN : source_name p = n) by (unfold source_name; now rewrite E).
      assert (S' : s' = n) by (rewrite <- SN; apply C; auto).
      assert (Vw : v = w) by (apply (G n w E); auto).
      split; [exact F|]. split; [right; congruence|]. split; [congruence|]. split; [congruence|].
      split; [|split; [|split]].
      * intros n0 X. congruence.
      * intros n0 w0 X _. rewrite E in X. injection X as <- <-. auto.
      * intros n0 w0 X _. rewrite E in X. injection X as <- <-. auto.
      * intros X. exfalso. exact (X n w E).
    + rewrite step_other by exact O. destruct (IH s0 v0 o Lm V0) as (s & v & F & A & B & C & D & E & G & H). exists s, v.
      assert (NO : forall x, line_of p x -> l <> x).
      { intros x X ->. destruct O as (O1 & O2 & O3 & O4). destruct X; discriminate. }
      split; [exact F|]. split; [exact A|]. split; [exact B|]. split; [exact C|]. split; [|split; [|split]]; auto.
      * intros n X [Y|Y]; eauto. exfalso. eapply NO; [|exact Y]. now apply line_source.
      * intros n w X [Y|Y]; eauto. exfalso. eapply NO; [|exact Y]. now apply line_source_version.
      * intros X [Y|[Y|Y]]; auto. exfalso. eapply NO; [|exact Y]. apply line_version.
Qed.
Lemma other_fold ls st : (forall l, In l ls -> other_line l) -> fold_left awk_step ls st = st.
Proof. revert st. induction ls as [|l ls IH]; intros st H; auto. cbn [fold_left]. rewrite step_other by (apply H; now left). apply IH. intros; apply H; now right. Qed.
Definition source_line (p : package) : str := source_name p ++ s_ " " ++ source_version p.
Lemma stanza_fold p ls (s0 v0 : str) (o : list str) : package_ok p -> stanza p ls ->
  exists s v, fold_left awk_step ls (s0, v0, o) = (s, v, source_line p :: o).
Proof.
  intros OK (mid & size & rest & -> & L & HV & HS & HSV & R). cbn [fold_left]. assert (OK' := OK). destruct OK' as (WN & WV & WS).
  assert (P : awk_step (s0, v0, o) (join (s_ " ") [s_ "Package:"; p_name p]) = (p_name p, [], o)).
  { unfold awk_step. change (startswith (s_ "Package:") (join (s_ " ") [s_ "Package:"; p_name p])) with true. cbn match. unfold field. rewrite words2; auto. apply key_word. cbn; auto. }
  rewrite P. change (list ascii) with str in *. rewrite fold_left_app. destruct (mid_fold p OK mid (p_name p) [] o L (or_introl eq_refl)) as (s & v & F & A & B & C & D & E & G & H). rewrite F.
  cbn [fold_left]. rewrite other_fold by exact R.
  assert (SV : s = source_name p /\ v = source_version p).
  { unfold source_name, source_version. destruct (p_source p) as [[n [w|]]|] eqn:PS.
    - destruct (E n w eq_refl (HSV n w eq_refl)). auto.
    - split; [apply (D n); auto|]. apply H; auto. congruence.
    - split; [auto|]. apply H; auto. congruence. }
  destruct SV as [-> ->]. exists (source_name p), (source_version p). reflexivity.
Qed.
Lemma stanzas_fold pls : (forall p ls, In (p, ls) pls -> package_ok p /\ stanza p ls) -> forall (s0 v0 : str) (o : list str),
  exists s v, fold_left awk_step (flat_map snd pls) (s0, v0, o) = (s, v, rev (map (fun e => source_line (fst e)) pls) ++ o).
Proof.
  induction pls as [|[p ls] pls IH]; intros H s0 v0 o; [exists s0, v0; reflexivity|]. cbn [flat_map snd]. rewrite fold_left_app.
  destruct (H p ls (or_introl eq_refl)) as [OK ST]. destruct (stanza_fold p ls s0 v0 o OK ST) as (s & v & ->).
  destruct (IH (fun q l I => H q l (or_intror I)) s v (source_line p :: o)) as (s' & v' & ->). exists s', v'. cbn [map rev fst]. now rewrite <- app_assoc.
Qed.

(** ** comm *)
Lemma comm12_in a : forall b x, ForallOrdPairs str_lt a -> ForallOrdPairs str_lt b -> In x (comm12 a b) <-> In x a /\ In x b.
Proof.
  induction a as [|y a IHa]; intros b x A B.
  - split; [|intros [[] _]]. destruct b; intros [].
  - induction b as [|z b IHb]; [split; [intros []|intros [_ []]]|].
    inversion A as [|? ? Fy A']; subst. inversion B as [|? ? Fz B']; subst. rewrite Forall_forall in Fy, Fz.
    cbn [comm12]. destruct (seqb y z) eqn:E.
    + apply seqb_eq in E. subst z. cbn [In]. rewrite IHa by auto. split; [intros [->|[? ?]]; auto|].
      intros [[->|X] [Y|Y]]; auto; subst; auto.
    + apply seqb_neq in E. destruct (str_leb y z) eqn:L.
      * apply str_leb_iff in L. destruct L as [L|L]; [congruence|]. rewrite IHa by auto. split; [intros [? ?]; split; auto; now right|].
        intros [[->|X] Y]; auto. exfalso. destruct Y as [Y|Y]; [subst; exact (str_lt_irrefl _ L)|]. exact (str_lt_irrefl _ (str_lt_trans _ _ _ L (Fz _ Y))).
      * change ((fix inner_comm (b0 : list str) : list str := match b0 with [] => [] | y0 :: b' => if seqb y y0 then y :: comm12 a b' else if str_leb y y0 then comm12 a b0 else inner_comm b' end) b) with (comm12 (y :: a) b).
        rewrite IHb by auto. 
        assert (ZY : str_lt z y). { destruct (str_trichotomy y z) as [H|[H|H]]; auto; [|congruence]. apply str_leb_lt in H. destruct H. congruence. }
        split; [intros [X Y]; split; auto; now right|]. intros [X [Y|Y]]; auto. subst x. exfalso. destruct X as [X|X]; [subst; exact (str_lt_irrefl _ ZY)|].
        exact (str_lt_irrefl _ (str_lt_trans _ _ _ ZY (Fy _ X))).
Qed.
Lemma comm12_sub a : forall b x, In x (comm12 a b) -> In x a.
Proof.
  induction a as [|y a IH]; intros b x; [destruct b; intros []|].
  induction b as [|z b IHb]; [intros []|]. cbn [comm12]. destruct (seqb y z); [intros [->|X]; [now left|right; exact (IH _ _ X)]|].
  destruct (str_leb y z); [intros X; right; exact (IH _ _ X)|exact IHb].
Qed.
Lemma comm12_pairs a : forall b, ForallOrdPairs str_lt a -> ForallOrdPairs str_lt (comm12 a b).
Proof.
  induction a as [|y a IHa]; intros b A; [destruct b; constructor|]. inversion A as [|? ? Fy A']; subst.
  induction b as [|z b IHb]; [constructor|]. cbn [comm12]. destruct (seqb y z).
  - constructor; auto. rewrite Forall_forall in *. eauto using comm12_sub.
  - destruct (str_leb y z); auto.
Qed.

(** ** Downloads *)
Lemma has_file_iff t d n : has_file t d n = true <-> In (d, n) t.
Proof.
  unfold has_file. rewrite existsb_exists. split.
  - intros ([a b] & I & E). apply andb_true_iff in E. destruct E as [E F]. apply seqb_eq in E, F. cbn in E, F. now subst.
  - intros I. exists (d, n). split; auto. cbn. now rewrite !seqb_refl.
Qed.
Section Download.
  Variable apt : str -> str -> option (list str).
  Lemma fetch_grow ps : forall t m a t' m' a', fold_left (fetch_step apt) ps (t, m, a) = (t', m', a') ->
    (forall e, In e t -> In e t') /\ (forall e, In e m -> In e m') /\ (forall e, In e a -> In e a').
  Proof.
    induction ps as [|[s v] ps IH]; intros t m a t' m' a' F; cbn [fold_left] in F; [injection F as -> -> ->; auto|].
    unfold fetch_step at 2 in F. destruct (has_file t s (dsc_name s v)); [apply IH in F; auto|].
    destruct (apt s v) as [fs|]; apply IH in F; destruct F as (A & B & C); repeat split; intros; auto.
    - apply A. apply in_or_app. now right.
    - apply C. now right.
    - apply B. now right.
    - apply C. now right.
  Qed.
  Lemma fetch_covers ps : forall t m a t' m' a', (forall s v fs, apt s v = Some fs -> In (dsc_name s v) fs) ->
    fold_left (fetch_step apt) ps (t, m, a) = (t', m', a') ->
    forall s v, In (s, v) ps -> In (s, dsc_name s v) t' \/ In (s, v) m'.
  Proof.
    induction ps as [|[s0 v0] ps IH]; intros t m a t' m' a' H F s v I; [destruct I|]. cbn [fold_left] in F. unfold fetch_step at 2 in F.
    destruct (has_file t s0 (dsc_name s0 v0)) eqn:E.
    - destruct I as [X|I]; [|eauto]. injection X as -> ->. left. apply has_file_iff in E. apply fetch_grow in F. destruct F as (A & _). auto.
    - destruct (apt s0 v0) as [fs|] eqn:AP.
      + destruct I as [X|I]; [|eauto]. injection X as -> ->. left. apply fetch_grow in F. destruct F as (A & _). apply A. apply in_or_app. left. apply in_map_iff. exists (dsc_name s v). split; eauto.
      + destruct I as [X|I]; [|eauto]. injection X as -> ->. right. apply fetch_grow in F. destruct F as (_ & B & _). apply B. now left.
  Qed.
  Lemma fetch_asked ps : forall t m a t' m' a', fold_left (fetch_step apt) ps (t, m, a) = (t', m', a') ->
    (forall s v, In (s, v) a' -> In (s, v) a \/ (In (s, v) ps /\ ~ In (s, dsc_name s v) t)) /\
    (forall s v, In (s, v) m' -> In (s, v) m \/ (In (s, v) a' /\ apt s v = None)) /\
    (forall s n, In (s, n) t' -> In (s, n) t \/ exists v fs, In (s, v) a' /\ apt s v = Some fs /\ In n fs).
  Proof.
    induction ps as [|[s0 v0] ps IH]; intros t m a t' m' a' F; cbn [fold_left] in F.
    - injection F as -> -> ->. repeat split; auto.
    - unfold fetch_step at 2 in F. destruct (has_file t s0 (dsc_name s0 v0)) eqn:E.
      + destruct (IH _ _ _ _ _ _ F) as (A & B & C). repeat split; auto. intros s v I. destruct (A s v I) as [X|[X Y]]; auto. right. split; auto. now right.
      + assert (NI : ~ In (s0, dsc_name s0 v0) t) by (rewrite <- has_file_iff, E; discriminate).
        destruct (apt s0 v0) as [fs|] eqn:AP; destruct (IH _ _ _ _ _ _ F) as (A & B & C); clear IH; destruct (fetch_grow _ _ _ _ _ _ _ F) as (G1 & G2 & G3).
        * repeat split.
          -- intros s v I. destruct (A s v I) as [[X|X]|[X Y]]; auto; [injection X as <- <-; right; split; auto; now left|]. right. split; [now right|]. intros Z. apply Y. apply in_or_app. now right.
          -- intros s v I. exact (B s v I).
          -- intros s n I. destruct (C s n I) as [X|X]; auto. apply in_app_or in X. destruct X as [X|X]; auto. apply in_map_iff in X. destruct X as (n' & X & Y). injection X as <- <-.
             right. exists v0, fs. split; auto. apply G3. now left.
        * repeat split.
          -- intros s v I. destruct (A s v I) as [[X|X]|[X Y]]; auto; [injection X as <- <-; right; split; auto; now left|]. right. split; auto. now right.
          -- intros s v I. destruct (B s v I) as [[X|X]|X]; auto. injection X as <- <-. right. split; auto. apply G3. now left.
          -- intros s n I. exact (C s n I).
  Qed.
End Download.

(** ** The cache *)
Lemma dir_put_eq d n c x : dir_put d n c x = if seqb x n then Some c else d x.
Proof. reflexivity. Qed.
Lemma export_step_other isar pc e x : x <> fst e -> export_step isar pc e x = pc x.
Proof.
  intros N. destruct e as [n c]. cbn in N. apply seqb_neq in N. unfold export_step. destruct (pc n); auto.
  destruct (grep_first n isar) as [c'|]; [destruct (seqb c' c); auto|]; unfold dir_put; now rewrite N.
Qed.
Lemma export_step_keeps isar pc e x c : pc x = Some c -> export_step isar pc e x = Some c.
Proof.
  intros P. destruct e as [n d]. destruct (str_eq_dec x n) as [->|N]; [|now rewrite export_step_other].
  unfold export_step. now rewrite P.
Qed.
Lemma export_fold_keeps isar l : forall pc x c, pc x = Some c -> fold_left (export_step isar) l pc x = Some c.
Proof. induction l as [|e l IH]; intros pc x c P; auto. cbn [fold_left]. apply IH. now apply export_step_keeps. Qed.
Lemma export_fold_other isar l : forall pc x, ~ In x (map fst l) -> fold_left (export_step isar) l pc x = pc x.
Proof.
  induction l as [|e l IH]; intros pc x N; auto. cbn [fold_left]. cbn [map In] in N. rewrite IH by tauto. apply export_step_other. intros ->. tauto.
Qed.
(** What is known of isar's packages of a name *)
Definition skipped (isar : list (str * str)) (n c : str) : bool := match grep_first n isar with Some c' => seqb c' c | None => false end.
Lemma export_fold_exact isar l : NoDup (map fst l) -> forall pc n c, In (n, c) l ->
  fold_left (export_step isar) l pc n = match pc n with Some x => Some x | None => if skipped isar n c then None else Some c end.
Proof.
  induction l as [|e l IH]; intros ND pc n c I; [destruct I|]. cbn [map] in ND. inversion ND as [|? ? NI ND']; subst. cbn [fold_left]. destruct I as [->|I].
  - cbn in NI. rewrite export_fold_other by exact NI. unfold export_step, skipped. destruct (pc n) as [x|] eqn:P; auto.
    destruct (grep_first n isar) as [c'|]; [destruct (seqb c' c); [exact P|]|]; unfold dir_put; now rewrite seqb_refl.
  - rewrite (IH ND' _ n c I). rewrite export_step_other; auto. intros ->. apply NI. apply in_map_iff. exists (fst e, c). split; auto. 
Qed.
Lemma grep_first_some n isar c : grep_first n isar = Some c -> exists path, In (path, c) isar /\ contains_sub n path = true.
Proof.
  induction isar as [|[p d] r IH]; [discriminate|]. cbn [grep_first]. destruct (contains_sub n p) eqn:E.
  - intros H. injection H as ->. exists p. split; [now left|auto].
  - intros H. destruct (IH H) as (q & I & Q). exists q. split; auto. now right.
Qed.
Lemma grep_first_none n isar path c : grep_first n isar = None -> In (path, c) isar -> contains_sub n path = false.
Proof.
  induction isar as [|[p d] r IH]; [intros _ []|]. cbn [grep_first]. destruct (contains_sub n p) eqn:E; [discriminate|].
  intros H [X|X]; [injection X as -> ->; auto|auto].
Qed.
Lemma skipped_own isar n c : clear_names isar n -> skipped isar n c = true <-> own_package isar n c.
Proof.
  intros CN. unfold skipped, own_package. destruct (grep_first n isar) as [c'|] eqn:G.
  - destruct (grep_first_some _ _ _ G) as (path & I & S). destruct (CN _ _ I S) as ((d & ->) & U). rewrite seqb_eq. split.
    + intros ->. eauto.
    + intros (d' & I'). symmetry. apply (U _ _ I'). apply contains_sub_iff. exists (d' ++ ["/"%char]), []. rewrite app_nil_r, <- app_assoc. reflexivity.
  - split; [discriminate|]. intros (d & I). exfalso. pose proof (grep_first_none _ _ _ _ G I) as X.
    assert (Y : contains_sub n (d ++ "/"%char :: n) = true); [|congruence]. apply contains_sub_iff. exists (d ++ ["/"%char]), []. rewrite app_nil_r, <- app_assoc. reflexivity.
Qed.
Lemma filter_deb_nodup l : NoDup (map (@fst str str) l) -> NoDup (map fst (filter (fun e => is_deb (fst e)) l)).
Proof.
  induction l as [|e l IH]; auto. cbn [map filter]. intros ND. inversion ND as [|? ? NI ND']; subst. destruct (is_deb (fst e)); auto. cbn [map]. constructor; auto.
  intros X. apply NI. apply in_map_iff in X. destruct X as (y & E & Y). apply filter_In in Y. rewrite <- E. apply in_map. tauto.
Qed.
Lemma import_fold links l : NoDup (map (@fst str str) l) -> forall a n,
  fold_left (import_step links) l a n =
  match find (fun e => seqb n (fst e)) l with
  | Some e => if links then Some (snd e) else match a n with Some x => Some x | None => Some (snd e) end
  | None => a n
  end.
Proof.
  induction l as [|[m c] l IH]; intros ND a n; auto. cbn [map] in ND. inversion ND as [|? ? NI ND']; subst. cbn [fold_left find fst]. rewrite IH by auto.
  destruct (seqb n m) eqn:E.
  - apply seqb_eq in E. subst m. assert (F : find (fun e => seqb n (fst e)) l = None).
    { destruct (find (fun e => seqb n (fst e)) l) as [[k d]|] eqn:F; auto. exfalso. apply find_some in F. destruct F as [I S]. apply seqb_eq in S. cbn in S. subst k.
      apply NI. apply in_map_iff. exists (n, d). auto. }
    rewrite F. unfold import_step. destruct links; [unfold dir_put; now rewrite seqb_refl|]. destruct (a n) eqn:P; auto. unfold dir_put. now rewrite seqb_refl.
  - assert (P : import_step links a (m, c) n = a n).
    { unfold import_step. destruct links; [unfold dir_put; now rewrite E|]. destruct (a m); auto. unfold dir_put. now rewrite E. }
    now rewrite P.
Qed.
