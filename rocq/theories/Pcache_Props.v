(** C106-C108: the names of recipe files and their variants, and the cache of parsed recipes. *)
From Coq Require Import String Ascii List Bool Arith Lia Permutation.
From Verif Require Import Str_Model Str_Proofs Pcache_Model Pcache_Spec Pcache_Proofs.
Import ListNotations.
Open Scope list_scope.

(** The file, the class and the configuration are found again in the name made of them. *)
Theorem virtual_round : forall fn cls mc, no_colon fn -> no_colon mc -> virtualfn2realfn (realfn2virtual fn cls mc) = (fn, cls, mc).
Proof. exact real_virtual. Qed.
Example virtual_round_met : realfn2virtual (s_ "/l/tool.bb") (s_ "native") (s_ "qemuarm") = s_ "mc:qemuarm:virtual:native:/l/tool.bb" /\
  virtualfn2realfn (s_ "mc:qemuarm:virtual:native:/l/tool.bb") = (s_ "/l/tool.bb", s_ "native", s_ "qemuarm").
Proof. split; vm_compute; reflexivity. Qed.
(** So different recipes, classes or configurations have different names. *)
Theorem virtual_apart : forall fn cls mc fn' cls' mc', no_colon fn -> no_colon mc -> no_colon fn' -> no_colon mc' ->
  realfn2virtual fn cls mc = realfn2virtual fn' cls' mc' -> fn = fn' /\ cls = cls' /\ mc = mc'.
Proof.
  intros fn cls mc fn' cls' mc' A B D F E. apply (f_equal virtualfn2realfn) in E. rewrite !real_virtual in E by auto. injection E as -> -> ->. auto.
Qed.
(** The name of a variant is the name of its class, or of its configuration and class. *)
Theorem variant_names : forall fn v, (plain_variant v -> variant2virtual fn v = realfn2virtual fn v []) /\
  (forall mc cls, no_colon mc -> mc <> [] -> no_colon cls -> variant2virtual fn (s_ "mc:" ++ mc ++ s_ ":" ++ cls) = realfn2virtual fn cls mc).
Proof.
  intros fn v. split; [apply variant_plain|]. intros mc cls N NE NC. unfold variant2virtual. destruct (s_ "mc:" ++ mc ++ s_ ":" ++ cls) as [|c0 t0] eqn:E0; [discriminate|]. rewrite <- E0. clear c0 t0 E0.
  rewrite startswith_app, count_two. cbn [andb]. destruct (mc_parts mc cls N) as [E1 E2]. rewrite E1, E2.
  assert (E3 : nth 2 (split_on colon (s_ "mc:" ++ mc ++ s_ ":" ++ cls)) [] = cls).
  { change (s_ "mc:" ++ mc ++ s_ ":" ++ cls) with (s_ "mc" ++ colon :: (mc ++ colon :: cls)). rewrite split_on_cons by (apply no_char_In; cbn; intuition discriminate). rewrite split_on_cons by now apply no_colon_char. cbn [nth].
    rewrite split_on_single by now apply no_colon_char. reflexivity. }
  rewrite E3. unfold realfn2virtual. destruct mc as [|m mc]; [congruence|]. destruct cls; reflexivity.
Qed.
(** With a colon in the path of a recipe its variants are taken for other files. *)
Theorem colon_path_refuted : exists fn cls, virtualfn2realfn (realfn2virtual fn cls []) <> (fn, cls, []).
Proof. exists (s_ "/w:1/tool.bb"), (s_ "native"). vm_compute. discriminate. Qed.

(** The list of files that a recipe looked for is read as it was written, whatever colons and blanks are in the names. *)
Theorem list_found : forall l, Forall (fun p => list_name (fst p)) l -> file_list (list_text l) = Some (map (fun p : str * bool => (fst p, if snd p then s_ "True" else s_ "False")) l).
Proof. exact list_round. Qed.
Lemma no_space_name f : forallb (fun c => negb (is_space c)) f = true -> list_name f.
Proof.
  intros H. rewrite forallb_forall in H. split.
  - intros c t ->. apply negb_true_iff. apply H. now left.
  - intros a c b [-> | ->]; apply negb_true_iff; apply H; apply in_or_app; right; apply in_or_app; right; now left.
Qed.
Example list_met : Forall (fun p : str * bool => list_name (fst p)) [(s_ "/l/a b:c.patch", true); (s_ "/l/x", false)] /\
  file_list (list_text [(s_ "/l/a b:c.patch", true); (s_ "/l/x", false)]) = Some [(s_ "/l/a b:c.patch", s_ "True"); (s_ "/l/x", s_ "False")].
Proof.
  split; [|vm_compute; reflexivity]. constructor; [|constructor; [now apply no_space_name|constructor]]. cbn [fst].
  assert (X : forall m a c b, s_ "/l/a b:c.patch" = a ++ m ++ c :: b -> contains_sub m (s_ "/l/a b:c.patch") = true) by (intros m a c b E; apply contains_sub_iff; rewrite E; exists a, (c :: b); auto).
  split; [intros c t [= <- <-]; reflexivity|]. intros a c b [E|E]; apply X in E; discriminate.
Qed.

Section Cache.
Variables C P Q : Type.
(** An entry is used if and only if the recipe, the files it was made of, the files it looked for and its appends are as
    they were, and there is an entry for each of its variants. *)
Theorem entry_used_exact : forall n (w : world C) fn appends (c : cache P Q), ~ In fn (checked P Q c) -> ~ In fn (clean P Q c) ->
  match get fn (depends_cache P Q c) with
  | None => exists c', cache_valid C P Q n w fn appends c = Some (false, c') /\ depends_cache P Q c' = depends_cache P Q c
  | Some (Core _ _ i :: _) => (forall fl, In fl (c_checks P i) -> file_list fl <> None) ->
      exists b c', cache_valid C P Q n w fn appends c = Some (b, c') /\
      (b = true <-> unchanged C P w fn appends i /\ forall v, In v (c_variants P i) -> exists a, get (variant2virtual fn v) (depends_cache P Q c) = Some a /\ length a = n) /\
      (b = true -> depends_cache P Q c' = depends_cache P Q c) /\ (~ unchanged C P w fn appends i -> depends_cache P Q c' = rem fn (depends_cache P Q c))
  | Some _ => True
  end.
Proof.
  intros n w fn appends c NC NL. destruct (get fn (depends_cache P Q c)) as [[|[i|q] rest]|] eqn:G; auto.
  - intros W. unfold cache_valid. apply mem_str_false in NC. rewrite NC. destruct (valid_update_spec C P Q (fun _ _ _ => None) n w fn appends c i rest G W) as (b & c' & -> & BT & U1 & U2 & T1 & T2 & _ & _).
    exists b, c'. split; [|split; [exact BT|split; [tauto|auto]]]. f_equal. f_equal. destruct b; [apply mem_str_In; auto|apply mem_str_false; auto].
  - unfold cache_valid. apply mem_str_false in NC. apply mem_str_false in NL. rewrite NC, valid_update_absent by auto. eexists. cbn [clean]. rewrite NL. split; reflexivity.
Qed.

Variable parse_recipe : world C -> str -> list str -> option (list (str * store P Q) * store P Q).
(** Whatever sessions and changes of files went before: what a session knows about recipes is what parsing all of them
    again would give, nothing else and (if no result is lost) nothing less. *)
Theorem cache_is_fresh : forall x, notes_files C P Q parse_recipe -> reads_only_noted C P Q parse_recipe -> names_variants C P Q parse_recipe -> caches_together C P Q parse_recipe ->
  forall ws d w recipes order, history C P Q parse_recipe x ws d -> (forall w0, In w0 ws -> honest C w w0) -> proper recipes -> delivers order ->
  exists known d' dc, session C P Q parse_recipe x w recipes order d = Some (known, d', dc) /\
    (forall k a, In (k, a) known -> exists fn appends infos, In (fn, appends) recipes /\ parse C P Q parse_recipe x w fn appends = Some infos /\ In (k, a) infos) /\
    ((forall l, incl l (order l)) -> (forall fn appends, In (fn, appends) recipes -> parse_recipe w fn appends <> None) ->
     forall fn appends infos, In (fn, appends) recipes -> parse C P Q parse_recipe x w fn appends = Some infos -> incl infos known).
Proof.
  intros x NF RO NV CT ws d w recipes order H HO PR DE.
  destruct (session_ok C P Q parse_recipe x NF RO NV CT ws d w recipes order) as (known & d' & dc & E & _ & A & B); auto.
  { now apply history_inv. }
  exists known, d', dc. split; auto. split; [intros k a I; exact (A (k, a) I)|]. intros AL OK. apply B; auto. intros fn a I PA. apply (OK fn a I). unfold parse in PA. now destruct (parse_recipe w fn a) as [[vs s]|].
Qed.
End Cache.

(** *** A concrete parser: a recipe with a variant, an include file and a patch that may be missing *)
Definition inc : str := s_ "/layer/common.inc".
Definition patch : str := s_ "/layer/files/fix.patch".
Definition text_of (w : world nat) (f : str) : nat := match w f with Some (_, n) => n | None => 0 end.
Definition seen (w : world nat) (f : str) : str := list_text [(f, exists_ w f)].
(** [dont]: for which contents of the recipe its variant may not be cached; [own]: a file only the variant looks for *)
Definition demo (dont : nat -> bool) (own : list str) (w : world nat) (fn : str) (_ : list str) : option (list (str * store nat nat) * store nat nat) :=
  match w fn with
  | None | Some (0, _) => None
  | Some (S t, n) =>
      let mk checks nocache rest := {| d_depends := [(fn, mtime w fn); (inc, mtime w inc)]; d_checks := checks; d_nocache := nocache; d_rest := rest; d_extra := n + text_of w inc |} in
      Some ([(s_ "native", mk (seen w patch :: map (seen w) own) (dont n) (n + text_of w inc + length (filter (exists_ w) (patch :: own))))],
            mk [seen w patch] false (2 * n + text_of w inc))
  end.
Lemma seen_list w f : forallb (fun c => negb (is_space c)) f = true -> file_list (seen w f) = Some [(f, if exists_ w f then s_ "True" else s_ "False")].
Proof. intros H. unfold seen. rewrite list_round by (constructor; [now apply no_space_name|constructor]). reflexivity. Qed.
Lemma demo_notes dont own : notes_files nat nat nat (demo dont own).
Proof.
  intros w fn a vs d H. unfold demo in H. destruct (w fn) as [[[|t] n]|] eqn:E; try discriminate. injection H as <- <-. split; [unfold mtime; rewrite E; discriminate|]. split.
  - intros f t' I. cbn in I. decompose [or] I; try contradiction; match goal with X : (_, _) = (_, _) |- _ => injection X as <- <- end; reflexivity.
  - cbn [d_checks]. intros fl [<-|[]]. eexists. split; [now apply seen_list|]. intros f word [[= <- <-]|[]]. reflexivity.
Qed.
Lemma demo_names dont own : names_variants nat nat nat (demo dont own).
Proof.
  intros w fn a vs d H. unfold demo in H. destruct (w fn) as [[[|t] n]|] eqn:E; try discriminate. injection H as <- <-. cbn [map fst]. split; [constructor; [intros []|constructor]|].
  intros v [<-|[]]. split; discriminate.
Qed.
Lemma demo_reads dont : reads_only_noted nat nat nat (demo dont []).
Proof.
  intros w w' fn a vs d H E1 E2 E3. unfold demo in *. rewrite E1. destruct (w fn) as [[[|t] n]|] eqn:E; try discriminate. injection H as <- <-.
  assert (I : w' inc = w inc) by (apply (E2 inc (mtime w inc)); cbn; auto). assert (X : exists_ w' patch = exists_ w patch).
  { apply (E3 (seen w patch) _ patch (if exists_ w patch then s_ "True" else s_ "False") (or_introl eq_refl) (seen_list w patch eq_refl)). now left. }
  unfold seen, text_of, mtime. cbn [filter map]. rewrite E1, E, I, X. reflexivity.
Qed.
Lemma demo_together own : caches_together nat nat nat (demo (fun _ => false) own).
Proof.
  intros w fn a vs d H _ v s I. unfold demo in H. destruct (w fn) as [[[|t] n]|] eqn:E; try discriminate. injection H as <- <-. destruct I as [[= _ <-]|[]]. reflexivity.
Qed.
Definition tool : str := s_ "/layer/tool.bb".
Definition disk_of (l : list (str * (nat * nat))) : world nat := fun f => get f l.
(** Three states: the recipe is changed, then the patch appears *)
Definition w1 := disk_of [(tool, (5, 1)); (inc, (3, 10))].
Definition w2 := disk_of [(tool, (7, 2)); (inc, (3, 10))].
Definition w3 := disk_of [(tool, (7, 2)); (inc, (3, 10)); (patch, (8, 4))].
Definition same (l : list (str * list str)) := l.
Definition fresh_disk : disk nat nat := {| core_file := None; extra_file := None |}.
Lemma same_delivers : delivers same.
Proof. intros l N. split; [exact N|intros y Y; exact Y]. Qed.
Definition honestb (l l' : list (str * (nat * nat))) : bool :=
  forallb (fun f => implb (mtime (disk_of l) f =? mtime (disk_of l') f)
    (match get f l, get f l' with Some (a, b), Some (c, d) => (a =? c) && (b =? d) | None, None => true | _, _ => false end)) (map fst l ++ map fst l').
Lemma honest_disks l l' : honestb l l' = true -> honest nat (disk_of l) (disk_of l').
Proof.
  intros H f E. unfold honestb in H. rewrite forallb_forall in H. unfold disk_of at 1 2. destruct (in_dec str_eq_dec f (map fst l ++ map fst l')) as [I|N].
  - specialize (H f I). rewrite E, Nat.eqb_refl in H. cbn [implb] in H. destruct (get f l) as [[a b]|], (get f l') as [[c d]|]; try discriminate; auto.
    apply andb_true_iff in H. destruct H as [A B]. apply Nat.eqb_eq in A, B. now subst.
  - rewrite (proj2 (get_none _ f l)), (proj2 (get_none _ f l')); auto; intros X; apply N, in_or_app; auto.
Qed.
Definition one : list (str * list str) := [(tool, [])].
Lemma one_proper : proper one.
Proof. split; [constructor; [intros []|constructor]|]. intros fn a [[= <- <-]|[]]. unfold no_colon. cbn. intuition discriminate. Qed.
Definition after (x : bool) (dont : nat -> bool) (own : list str) (w : world nat) (d : disk nat nat) := session nat nat nat (demo dont own) x w one same d.
Definition never : nat -> bool := fun _ => false.
Definition leaves (r : option (entries nat nat * disk nat nat * entries nat nat)) : disk nat nat := match r with Some (_, d, _) => d | None => fresh_disk end.
Definition knows (r : option (entries nat nat * disk nat nat * entries nat nat)) : entries nat nat := match r with Some (k, _, _) => k | None => [] end.
Definition holds (r : option (entries nat nat * disk nat nat * entries nat nat)) : entries nat nat := match r with Some (_, _, dc) => dc | None => [] end.
(** Two sessions, the second after a change of the recipe.  A third session takes everything from the cache, another one
    parses the recipe again because the patch is there now. *)
Example cache_is_fresh_met :
  let d := leaves (after true never [] w2 (leaves (after true never [] w1 fresh_disk))) in
  let pick w := match sort_out nat nat nat 2 w one {| depends_cache := load nat nat true d; clean := []; checked := [] |} with Some (a, b, _) => (map fst a, map fst b) | None => ([], []) end in
  (notes_files nat nat nat (demo never []) /\ reads_only_noted nat nat nat (demo never []) /\ names_variants nat nat nat (demo never []) /\ caches_together nat nat nat (demo never [])) /\
  history nat nat nat (demo never []) true [w2; w1] d /\ (forall w0, In w0 [w2; w1] -> honest nat w2 w0 /\ honest nat w3 w0) /\ proper one /\ delivers same /\
  pick w2 = ([tool], []) /\ pick w3 = ([], [tool]) /\ length (knows (after true never [] w2 d)) = 2 /\ length (knows (after true never [] w3 d)) = 2.
Proof.
  cbv zeta. split; [split; [apply demo_notes|split; [apply demo_reads|split; [apply demo_names|apply demo_together]]]|].
  assert (H : forall w0, In w0 [w2; w1] -> honest nat w2 w0 /\ honest nat w3 w0) by (intros w0 [<-|[<-|[]]]; split; apply honest_disks; vm_compute; reflexivity).
  split; [|split; [exact H|split; [apply one_proper|split; [apply same_delivers|split; [|split; [|split]]; vm_compute; reflexivity]]]].
  assert (S1 : after true never [] w1 fresh_disk = Some (knows (after true never [] w1 fresh_disk), leaves (after true never [] w1 fresh_disk), holds (after true never [] w1 fresh_disk))) by (vm_compute; reflexivity).
  set (d1 := leaves (after true never [] w1 fresh_disk)) in *.
  assert (S2 : after true never [] w2 d1 = Some (knows (after true never [] w2 d1), leaves (after true never [] w2 d1), holds (after true never [] w2 d1))) by (vm_compute; reflexivity).
  eapply next_session; [eapply next_session; [apply no_cache|intros w0 []|apply one_proper|apply same_delivers|exact S1]| |apply one_proper|apply same_delivers|exact S2].
  intros w0 [<-|[]]. apply H. right. now left.
Qed.
Example entry_used_met : let dc := load nat nat false (leaves (after false never [] w1 fresh_disk)) in
  (exists i, get tool dc = Some [Core nat nat i] /\ (forall fl, In fl (c_checks nat i) -> file_list fl <> None) /\ c_variants nat i = [s_ "native"; []] /\ c_checks nat i = [s_ "/layer/files/fix.patch:False"]) /\
  match cache_valid nat nat nat 1 w1 tool [] {| depends_cache := dc; clean := []; checked := [] |} with Some (b, _) => b | None => false end = true /\
  match cache_valid nat nat nat 1 w2 tool [] {| depends_cache := dc; clean := []; checked := [] |} with Some (b, _) => b | None => true end = false.
Proof.
  cbv zeta. split; [|split; vm_compute; reflexivity]. eexists. split; [vm_compute; reflexivity|]. cbn [c_checks c_variants].
  split; [|split; vm_compute; reflexivity]. intros fl [<-|[]]. vm_compute. discriminate.
Qed.

(** *** What goes wrong without the conditions *)
(** What a session found about the recipe is not what parsing it gives. *)
Definition stale (x : bool) (dont : nat -> bool) (own : list str) (w : world nat) (d : disk nat nat) : Prop :=
  exists k a infos, In (k, a) (knows (after x dont own w d)) /\ parse nat nat nat (demo dont own) x w tool [] = Some infos /\ ~ In (k, a) infos.
Lemma stale_by x dont own w d : match parse nat nat nat (demo dont own) x w tool [] with
  | Some infos => Forall (fun p => ~ In p infos) (firstn 1 (knows (after x dont own w d))) /\ knows (after x dont own w d) <> []
  | None => False end -> stale x dont own w d.
Proof.
  unfold stale. destruct (parse nat nat nat (demo dont own) x w tool []) as [infos|]; [|intros []]. intros [F N]. destruct (knows (after x dont own w d)) as [|[k a] r]; [congruence|].
  cbn [firstn] in F. apply Forall_cons_iff in F. exists k, a, infos. split; [now left|]. tauto.
Qed.
Ltac not_there := let X := fresh in intros X; vm_compute in X; decompose [or] X; (contradiction || discriminate).
(** A session that writes signatures, a change of the recipe, an ordinary session, and again one that writes signatures: the
    last one uses the information about signatures from before the change. *)
Theorem signature_info_refuted : exists wa wb, honest nat wb wa /\
  let d1 := leaves (after true never [] wa fresh_disk) in let d2 := leaves (after false never [] wb d1) in stale true never [] wb d2.
Proof.
  exists w1, w2. split; [apply honest_disks; vm_compute; reflexivity|]. cbv zeta. apply stale_by.
  match goal with |- match ?p with _ => _ end => let v := eval vm_compute in p in change p with v end. cbv iota. split; [|intros X; vm_compute in X; discriminate].
  match goal with |- Forall _ ?l => let v := eval vm_compute in l in change l with v end. constructor; [|constructor]. not_there.
Qed.
(** The cache is two files.  If the process is killed between writing them then the next session uses old information, and
    if it is killed at the beginning of the first then the next session does not start. *)
Theorem killed_sync_refuted : exists wa wb, honest nat wb wa /\
  let d1 := leaves (after true never [] wa fresh_disk) in let dc := holds (after true never [] wb d1) in
  stale true never [] wb (sync_killed nat nat dc d1 false (length dc)) /\ after true never [] wb (sync_killed nat nat dc d1 false 0) = None.
Proof.
  exists w1, w2. split; [apply honest_disks; vm_compute; reflexivity|]. cbv zeta. split; [|vm_compute; reflexivity]. apply stale_by.
  match goal with |- match ?p with _ => _ end => let v := eval vm_compute in p in change p with v end. cbv iota. split; [|intros X; vm_compute in X; discriminate].
  match goal with |- Forall _ ?l => let v := eval vm_compute in l in change l with v end. constructor; [|constructor]. not_there.
Qed.
(** A variant that may not be cached any more (it fetches the newest revision) while the recipe itself may: the entry of the
    variant from before the change stays in the cache and is used. *)
Theorem uncached_variant_refuted : exists dont wa wb, notes_files nat nat nat (demo dont []) /\ reads_only_noted nat nat nat (demo dont []) /\ names_variants nat nat nat (demo dont []) /\ honest nat wb wa /\
  let d1 := leaves (after false dont [] wa fresh_disk) in let d2 := leaves (after false dont [] wb d1) in stale false dont [] wb d2.
Proof.
  exists (fun n => n =? 2), w1, w2. split; [apply demo_notes|]. split; [apply demo_reads|]. split; [apply demo_names|]. split; [apply honest_disks; vm_compute; reflexivity|]. cbv zeta. apply stale_by.
  match goal with |- match ?p with _ => _ end => let v := eval vm_compute in p in change p with v end. cbv iota. split; [|intros X; vm_compute in X; discriminate].
  match goal with |- Forall _ ?l => let v := eval vm_compute in l in change l with v end. constructor; [|constructor]. not_there.
Qed.

Definition extra_patch : str := s_ "/layer/files/native.patch".
Definition w4 := disk_of [(tool, (5, 1)); (inc, (3, 10)); (extra_patch, (9, 4))].
Lemma demo_reads_own dont : reads_only_noted_anywhere nat nat nat (demo dont [extra_patch]).
Proof.
  intros w w' fn a vs d H E1 E2 E3. unfold demo in *. rewrite E1. destruct (w fn) as [[[|t] n]|] eqn:E; try discriminate. injection H as <- <-.
  assert (I : w' inc = w inc) by (apply (E2 inc (mtime w inc)); cbn; auto).
  assert (X : forall f, In f [patch; extra_patch] -> exists_ w' f = exists_ w f).
  { intros f F. refine (E3 _ (seen w f) _ f (if exists_ w f then s_ "True" else s_ "False") (or_intror (or_introl eq_refl)) _ (seen_list w f _) (or_introl eq_refl)).
    - cbn [d_checks map snd]. destruct F as [<-|[<-|[]]]; [now left|right; now left].
    - destruct F as [<-|[<-|[]]]; reflexivity. }
  unfold seen, text_of, mtime. cbn [filter map]. rewrite E1, E, I, (X patch), (X extra_patch) by (cbn; auto). reflexivity.
Qed.
(** A file that only a variant of the recipe looks for appears: the entry of the variant is used as it was. *)
Theorem file_of_variant_refuted : exists own wa wb, notes_files nat nat nat (demo never own) /\ reads_only_noted_anywhere nat nat nat (demo never own) /\ names_variants nat nat nat (demo never own) /\
  caches_together nat nat nat (demo never own) /\ honest nat wb wa /\ let d1 := leaves (after false never own wa fresh_disk) in stale false never own wb d1.
Proof.
  exists [extra_patch], w1, w4. split; [apply demo_notes|]. split; [apply demo_reads_own|]. split; [apply demo_names|]. split; [apply demo_together|]. split; [apply honest_disks; vm_compute; reflexivity|]. cbv zeta. apply stale_by.
  match goal with |- match ?p with _ => _ end => let v := eval vm_compute in p in change p with v end. cbv iota. split; [|intros X; vm_compute in X; discriminate].
  match goal with |- Forall _ ?l => let v := eval vm_compute in l in change l with v end. constructor; [|constructor]. not_there.
Qed.
Print Assumptions virtual_round.
Print Assumptions virtual_apart.
Print Assumptions variant_names.
Print Assumptions list_found.
Print Assumptions entry_used_exact.
Print Assumptions cache_is_fresh.
Print Assumptions signature_info_refuted.
Print Assumptions killed_sync_refuted.
Print Assumptions uncached_variant_refuted.
Print Assumptions file_of_variant_refuted.
