(** C63, C64: source packages to be downloaded and the cache of downloaded packages. *)
From Coq Require Import String Ascii List Bool Arith Lia Permutation.
From Verif Require Import Str_Model Str_Proofs Posix_Model Imgtypes_Model Imgtypes_Proofs Deps_Spec Deps_Proofs Words_Proofs Debcache_Model Debcache_Spec Debcache_Proofs.
Import ListNotations.
Open Scope list_scope.

(** ** C63 *)
(** The filter prints each package's source and source version, once each and in order, whatever
    the order of the fields *)
Theorem sources_listed pls : (forall p ls, In (p, ls) pls -> package_ok p /\ stanza p ls) ->
  (forall l, In l (source_filter (flat_map snd pls)) <-> exists p ls, In (p, ls) pls /\ l = source_name p ++ s_ " " ++ source_version p) /\
  ForallOrdPairs str_lt (source_filter (flat_map snd pls)).
Proof.
  intros H. split; [|apply sorted_set_pairs]. intros l. unfold source_filter. rewrite sorted_set_in.
  destruct (stanzas_fold pls H [] [] []) as (s & v & F). change (list ascii) with str in *. rewrite F. cbn [snd]. rewrite app_nil_r, <- in_rev, in_map_iff. split.
  - intros ([p ls] & E & I). exists p, ls. split; auto.
  - intros (p & ls & I & E). exists (p, ls). split; auto.
Qed.
(** Of two lists those in both are taken *)
Theorem sources_common a b l :
  (In l (comm12 (source_filter a) (source_filter b)) <-> In l (source_filter a) /\ In l (source_filter b)) /\
  NoDup (comm12 (source_filter a) (source_filter b)).
Proof.
  split.
  - apply comm12_in; apply sorted_set_pairs.
  - apply pairs_nodup, comm12_pairs, sorted_set_pairs.
Qed.
Lemma source_words p : package_ok p -> word (source_name p) /\ word (source_version p).
Proof.
  intros (N & V & S). unfold source_name, source_version. destruct (p_source p) as [[s [w|]]|]; auto.
Qed.
Lemma read_source p : package_ok p -> read_pair (source_name p ++ s_ " " ++ source_version p) = (source_name p, source_version p).
Proof.
  intros OK. destruct (source_words p OK) as [A B]. unfold read_pair.
  change (source_name p ++ s_ " " ++ source_version p) with (join (s_ " ") [source_name p; source_version p]). rewrite words2; auto.
Qed.
(** The source of each wanted package known to apt is there afterwards or reported as missing *)
Theorem sources_complete apt known wanted t r :
  (forall p ls, In (p, ls) known \/ In (p, ls) wanted -> package_ok p /\ stanza p ls) ->
  (forall s v fs, apt s v = Some fs -> In (dsc_name s v) fs) ->
  debsrc_download apt (flat_map snd known) (flat_map snd wanted) t = Some r ->
  forall p ls q ls', In (p, ls) wanted -> In (q, ls') known -> source_name q = source_name p -> source_version q = source_version p ->
  In (source_name p, dsc_name (source_name p) (source_version p)) (fst (fst r)) \/ In (source_name p, source_version p) (snd (fst r)).
Proof.
  intros OK AP D p ls q ls' IP IQ EN EV. unfold debsrc_download in D. destruct (source_filter (flat_map snd known)) as [|k ks] eqn:K; [discriminate|].
  injection D as <-. rewrite <- K. unfold fetch_all.
  destruct (fold_left (fetch_step apt) (map read_pair (comm12 (source_filter (flat_map snd wanted)) (source_filter (flat_map snd known)))) (t, [], [])) as [[t' m] a] eqn:F.
  cbn [fst snd]. apply (fetch_covers apt _ _ _ _ _ _ _ AP F). apply in_map_iff. exists (source_name p ++ s_ " " ++ source_version p). split.
  - apply read_source. apply (OK p ls). auto.
  - apply sources_common. split.
    + apply (proj1 (sources_listed wanted (fun p ls I => OK p ls (or_intror I)))). eauto.
    + apply (proj1 (sources_listed known (fun p ls I => OK p ls (or_introl I)))). exists q, ls'. split; auto. now rewrite EN, EV.
Qed.
(** What is there is not downloaded again and not removed; only sources of wanted packages known to
    apt are asked for; only failures are reported *)
Theorem sources_only apt known wanted t r :
  (forall p ls, In (p, ls) known \/ In (p, ls) wanted -> package_ok p /\ stanza p ls) ->
  debsrc_download apt (flat_map snd known) (flat_map snd wanted) t = Some r ->
  (forall s v, In (s, v) (snd r) ->
     ~ In (s, dsc_name s v) t /\
     (exists p ls, In (p, ls) wanted /\ s = source_name p /\ v = source_version p) /\
     (exists p ls, In (p, ls) known /\ s = source_name p /\ v = source_version p)) /\
  (forall s v, In (s, v) (snd (fst r)) -> In (s, v) (snd r) /\ apt s v = None) /\
  (forall e, In e t -> In e (fst (fst r))) /\
  (forall s n, In (s, n) (fst (fst r)) -> In (s, n) t \/ exists v fs, In (s, v) (snd r) /\ apt s v = Some fs /\ In n fs).
Proof.
  intros OK D. unfold debsrc_download in D. destruct (source_filter (flat_map snd known)) as [|k ks] eqn:K; [discriminate|].
  injection D as <-. rewrite <- K. unfold fetch_all.
  destruct (fold_left (fetch_step apt) (map read_pair (comm12 (source_filter (flat_map snd wanted)) (source_filter (flat_map snd known)))) (t, [], [])) as [[t' m] a] eqn:F.
  cbn [fst snd]. destruct (fetch_asked apt _ _ _ _ _ _ _ F) as (A & B & C). destruct (fetch_grow apt _ _ _ _ _ _ _ F) as (G & _ & _).
  repeat split.
  - destruct (A s v H) as [[]|[_ X]]. exact X.
  - destruct (A s v H) as [[]|[X _]]. apply in_map_iff in X. destruct X as (l & E & I). apply sources_common in I. destruct I as [I _].
    apply (proj1 (sources_listed wanted (fun p ls I => OK p ls (or_intror I)))) in I. destruct I as (p & ls & I & ->).
    rewrite read_source in E by (apply (OK p ls); auto). injection E as <- <-. eauto.
  - destruct (A s v H) as [[]|[X _]]. apply in_map_iff in X. destruct X as (l & E & I). apply sources_common in I. destruct I as [_ I].
    apply (proj1 (sources_listed known (fun p ls I => OK p ls (or_introl I)))) in I. destruct I as (p & ls & I & ->).
    rewrite read_source in E by (apply (OK p ls); auto). injection E as <- <-. eauto.
  - destruct (B s v H) as [[]|[X _]]; auto.
  - destruct (B s v H) as [[]|[_ X]]; auto.
  - exact G.
  - exact C.
Qed.
(** It fails if and only if apt knows no package *)
Theorem sources_none apt known lines t : (forall p ls, In (p, ls) known -> package_ok p /\ stanza p ls) ->
  debsrc_download apt (flat_map snd known) lines t = None <-> known = [].
Proof.
  intros OK. pose proof (sources_listed known OK) as [L _]. unfold debsrc_download. destruct (source_filter (flat_map snd known)) as [|k ks] eqn:K.
  - split; auto. intros _. destruct known as [|[p ls] known]; auto. exfalso. apply (proj2 (L (source_name p ++ s_ " " ++ source_version p))). exists p, ls. split; auto. now left.
  - split; [discriminate|]. intros ->. cbv in K. discriminate.
Qed.
Definition ex_pkg v := mkPackage (s_ "libx1") v (Some (s_ "x", None)).
Definition ex_stanza v := [s_ "Package: libx1"; s_ "Architecture: amd64"; s_ "Source: x"; s_ "Version: " ++ v; s_ "Size: 12"; s_ ""].
Definition ex_nmu := mkPackage (s_ "y") (s_ "2.0-1+b1") (Some (s_ "y", Some (s_ "2.0-1"))).
Definition ex_nmu_stanza := [s_ "Package: y"; s_ "Version: 2.0-1+b1"; s_ "Source: y (2.0-1)"; s_ "Size: 12"].
Definition other_b (l : str) : bool :=
  negb (startswith (s_ "Package:") l) && negb (startswith (s_ "Version:") l) && negb (startswith (s_ "Source:") l) && negb (startswith (s_ "Size:") l).
Lemma other_b_ok l : other_b l = true -> other_line l.
Proof. unfold other_b, other_line. destruct (startswith (s_ "Package:") l), (startswith (s_ "Version:") l), (startswith (s_ "Source:") l), (startswith (s_ "Size:") l); auto; discriminate. Qed.
Lemma ex_ok v : word v -> package_ok (ex_pkg v) /\ stanza (ex_pkg v) (ex_stanza v).
Proof.
  intros W. split.
  - split; [split; [discriminate|repeat constructor]|]. split; [exact W|]. split; [discriminate|repeat constructor].
  - exists [s_ "Architecture: amd64"; s_ "Source: x"; s_ "Version: " ++ v], (s_ " 12"), [s_ ""].
    split; [reflexivity|]. split.
    + intros l [<-|[<-|[<-|[]]]]; [right; now apply other_b_ok|left; now apply (line_source (ex_pkg v) (s_ "x"))|left; apply (line_version (ex_pkg v))].
    + split; [right; right; now left|]. split; [|split].
      * intros s E. injection E as <-. right. now left.
      * intros s w E. discriminate.
      * intros l [<-|[]]. now apply other_b_ok.
Qed.
Lemma ex_nmu_ok : package_ok ex_nmu /\ stanza ex_nmu ex_nmu_stanza.
Proof.
  split.
  - split; [split; [discriminate|repeat constructor]|]. split; [split; [discriminate|repeat constructor]|].
    split; (split; [discriminate|repeat constructor]).
  - exists [s_ "Version: 2.0-1+b1"; s_ "Source: y (2.0-1)"], (s_ " 12"), []. split; [reflexivity|]. split.
    + intros l [<-|[<-|[]]]; left; [apply (line_version ex_nmu)|now apply (line_source_version ex_nmu (s_ "y") (s_ "2.0-1"))].
    + split; [now left|]. split; [|split].
      * intros s E. discriminate.
      * intros s w E. injection E as <- <-. right. now left.
      * intros l [].
Qed.
Example sources_case :
  source_filter (ex_nmu_stanza ++ ex_stanza (s_ "1.2-3") ++ ex_stanza (s_ "1:1.2-3") ++ ex_stanza (s_ "1.2-3"))
    = [s_ "x 1.2-3"; s_ "x 1:1.2-3"; s_ "y 2.0-1"] /\
  debsrc_download (fun s v => if seqb s (s_ "y") then None else Some [dsc_name s v; s_ "x_1.2.orig.tar.gz"])
    (ex_nmu_stanza ++ ex_stanza (s_ "1.2-3")) (ex_nmu_stanza ++ ex_stanza (s_ "1.2-3") ++ ex_stanza (s_ "1.2-4")) []
    = Some ([(s_ "x", s_ "x_1.2-3.dsc"); (s_ "x", s_ "x_1.2.orig.tar.gz")], [(s_ "y", s_ "2.0-1")], [(s_ "y", s_ "2.0-1"); (s_ "x", s_ "1.2-3")]).
Proof. split; reflexivity. Qed.
(** Two versions of a source that differ in the epoch only have the same .dsc name.  If both are
    wanted, or one was downloaded earlier, the second is neither downloaded nor reported as
    missing, although apt could deliver it. *)
Theorem sources_epoch_refuted : exists apt known,
  (forall p ls, In (p, ls) known -> package_ok p /\ stanza p ls) /\
  (forall s v fs, apt s v = Some fs -> In (dsc_name s v) fs) /\ apt (s_ "x") (s_ "2:1.0") <> None /\
  (exists p ls, In (p, ls) known /\ source_name p = s_ "x" /\ source_version p = s_ "2:1.0") /\
  exists r, debsrc_download apt (flat_map snd known) (flat_map snd known) [] = Some r /\
    ~ In (s_ "x", s_ "2:1.0") (snd r) /\ ~ In (s_ "x", s_ "2:1.0") (snd (fst r)).
Proof.
  exists (fun s v => Some [dsc_name s v]), [(ex_pkg (s_ "1:1.0"), ex_stanza (s_ "1:1.0")); (ex_pkg (s_ "2:1.0"), ex_stanza (s_ "2:1.0"))].
  split; [|split; [|split; [|split]]].
  - intros p ls [E|[E|[]]]; injection E as <- <-; apply ex_ok; (split; [discriminate|repeat constructor]).
  - intros s v fs E. injection E as <-. now left.
  - discriminate.
  - exists (ex_pkg (s_ "2:1.0")), (ex_stanza (s_ "2:1.0")). split; [right; now left|]. split; reflexivity.
  - eexists. split; [reflexivity|]. cbn [fst snd]. split; [intros [E|[]]; discriminate|intros []].
Qed.

(** ** C64 *)
(** The files that count are those whose name ends in .deb, in any case *)
Lemma to_lower_inv : forall c, (to_lower c = "."%char <-> c = "."%char) /\ (to_lower c = "d"%char <-> In c (s_ "dD")) /\ (to_lower c = "e"%char <-> In c (s_ "eE")) /\ (to_lower c = "b"%char <-> In c (s_ "bB")).
Proof. intros [[] [] [] [] [] [] [] []]; vm_compute; intuition congruence. Qed.
Theorem package_files : forall n, is_deb n = true <-> package_file n.
Proof.
  intros n. unfold is_deb. rewrite endswith_iff. split.
  - intros [t E]. unfold lower in E. apply map_eq_app in E. destruct E as (b & x & -> & _ & E).
    destruct x as [|c0 [|c1 [|c2 [|c3 [|]]]]]; try discriminate E. cbn [map] in E. change (s_ ".deb") with ["."%char; "d"%char; "e"%char; "b"%char] in E.
    injection E as E0 E1 E2 E3. apply (proj1 (proj1 (to_lower_inv c0))) in E0. apply (proj1 (proj1 (proj2 (to_lower_inv c1)))) in E1.
    apply (proj1 (proj1 (proj2 (proj2 (to_lower_inv c2))))) in E2. apply (proj1 (proj2 (proj2 (proj2 (to_lower_inv c3))))) in E3. exists b, c1, c2, c3. rewrite E0. auto.
  - intros (b & x & y & z & -> & X & Y & Z). exists (lower b). unfold lower. rewrite map_app. f_equal. cbn [map].
    apply (proj2 (proj1 (proj2 (to_lower_inv x)))) in X. apply (proj2 (proj1 (proj2 (proj2 (to_lower_inv y))))) in Y. apply (proj2 (proj2 (proj2 (proj2 (to_lower_inv z))))) in Z. rewrite X, Y, Z. reflexivity.
Qed.
Example package_file_case : package_file (s_ "a_1.Deb").
Proof. apply package_files. reflexivity. Qed.
(** Over any history of exports, a package in the cache is never changed or removed *)
Theorem cache_kept h pc n c : pc n = Some c ->
  fold_left (fun pc e => export (fst e) (snd e) pc) h pc n = Some c.
Proof.
  revert pc. induction h as [|[isar ar] h IH]; intros pc P; auto. cbn [fold_left fst snd]. apply IH. now apply export_fold_keeps.
Qed.
(** Afterwards the cache holds what it held, and each downloaded package whose name was not there,
    unless it is one of isar's own *)
Theorem cache_export_exact isar ar pc : NoDup (map fst ar) -> (forall n c, In (n, c) ar -> clear_names isar n) ->
  forall n c, export isar ar pc n = Some c <->
    pc n = Some c \/ (pc n = None /\ In (n, c) ar /\ is_deb n = true /\ ~ own_package isar n c).
Proof.
  intros ND CN n c. unfold export. set (l := filter (fun e => is_deb (fst e)) ar). assert (NL : NoDup (map fst l)) by now apply filter_deb_nodup.
  destruct (in_dec str_eq_dec n (map fst l)) as [I|I].
  - apply in_map_iff in I. destruct I as ([m d] & E & I). cbn in E. subst m. rewrite (export_fold_exact isar l NL pc n d I).
    apply filter_In in I. cbn in I. destruct I as [I B]. destruct (pc n) as [x|]; [split; [auto|intros [?|[? _]]; [auto|discriminate]]|].
    assert (U : forall e, In (n, e) ar -> e = d).
    { intros e J. clear -ND I J. induction ar as [|[a b] ar IH]; [destruct I|]. cbn [map] in ND. inversion ND as [|? ? NI ND']; subst.
      destruct I as [I|I], J as [J|J]; try congruence; auto.
      - injection I as -> ->. exfalso. apply NI. apply in_map_iff. exists (n, e). auto.
      - injection J as -> ->. exfalso. apply NI. apply in_map_iff. exists (n, d). auto. }
    assert (O := skipped_own isar n d (CN n d I)). destruct (skipped isar n d).
    + split; [discriminate|]. intros [?|(_ & J & _ & X)]; [discriminate|]. exfalso. rewrite (U c J) in X. apply X. now apply O.
    + split.
      * intros E. injection E as <-. right. repeat split; auto. intros X. apply O in X. discriminate.
      * intros [?|(_ & J & _ & _)]; [discriminate|]. now rewrite (U c J).
  - rewrite export_fold_other by exact I. split; auto. intros [?|(_ & J & B & _)]; auto. exfalso. apply I. apply in_map_iff. exists (n, c). split; auto. now apply filter_In.
Qed.
(** Whatever names isar's packages have, no downloaded package is lost: it is in the cache, a file
    of its name was already there, or isar-apt has the same content *)
Theorem cache_nothing_lost isar ar pc n c : NoDup (map fst ar) -> In (n, c) ar -> is_deb n = true ->
  (exists x, pc n = Some x /\ export isar ar pc n = Some x) \/ export isar ar pc n = Some c \/ (exists path, In (path, c) isar).
Proof.
  intros ND I B. unfold export. set (l := filter (fun e => is_deb (fst e)) ar). assert (NL : NoDup (map fst l)) by now apply filter_deb_nodup.
  assert (IL : In (n, c) l) by (apply filter_In; auto). rewrite (export_fold_exact isar l NL pc n c IL). destruct (pc n) as [x|]; [left; eauto|]. right.
  unfold skipped. destruct (grep_first n isar) as [c'|] eqn:G; auto. destruct (seqb c' c) eqn:E; auto. apply seqb_eq in E. subst c'. right.
  apply grep_first_some in G. destruct G as (path & P & _). eauto.
Qed.
(** The order in which the files are found does not matter *)
Theorem cache_export_order isar a b pc : NoDup (map fst a) -> Permutation a b -> forall n, export isar a pc n = export isar b pc n.
Proof.
  intros ND P n. assert (ND' : NoDup (map fst b)) by (eapply Permutation_NoDup; [apply Permutation_map; exact P|exact ND]).
  unfold export. set (f := fun e : str * str => is_deb (fst e)).
  destruct (in_dec str_eq_dec n (map fst (filter f a))) as [I|I].
  - apply in_map_iff in I. destruct I as ([m d] & E & I). cbn in E. subst m.
    assert (J : In (n, d) (filter f b)). { apply filter_In in I. apply filter_In. split; [eapply Permutation_in; [exact P|tauto]|tauto]. }
    rewrite (export_fold_exact isar (filter f a) (filter_deb_nodup _ ND) pc n d I). now rewrite (export_fold_exact isar (filter f b) (filter_deb_nodup _ ND') pc n d J).
  - rewrite export_fold_other by exact I. rewrite export_fold_other; auto. intros J. apply I. apply in_map_iff in J. destruct J as (e & E & J). apply filter_In in J.
    apply in_map_iff. exists e. split; auto. apply filter_In. split; [|tauto]. eapply Permutation_in; [symmetry; exact P|tauto].
Qed.
(** A build that starts with an empty directory gets exactly the packages of the cache, whether or
    not files can be linked *)
Theorem cache_import_empty links cache : NoDup (map fst cache) -> forall n c,
  import links cache (fun _ => None) n = Some c <-> In (n, c) cache /\ is_deb n = true.
Proof.
  intros ND n c. unfold import. set (f := fun e : str * str => is_deb (fst e)). rewrite import_fold by now apply filter_deb_nodup.
  assert (FL : NoDup (map fst (filter f cache))) by now apply filter_deb_nodup.
  destruct (find (fun e => seqb n (fst e)) (filter f cache)) as [[m d]|] eqn:F.
  - apply find_some in F. destruct F as [I E]. apply seqb_eq in E. cbn in E. subst m. apply filter_In in I. destruct I as [I B]. unfold f in B. cbn [fst snd] in *.
    assert (X : (if links then Some d else Some d) = Some d) by now destruct links. rewrite X. split; [intros E; injection E as <-; auto|].
    intros [J _]. f_equal. clear -ND I J. induction cache as [|[a b] ar IH]; [destruct I|]. cbn [map] in ND. inversion ND as [|? ? NI ND']; subst.
    destruct I as [I|I], J as [J|J]; try congruence; auto.
    + injection I as -> ->. exfalso. apply NI. apply in_map_iff. exists (n, c). auto.
    + injection J as -> ->. exfalso. apply NI. apply in_map_iff. exists (n, d). auto.
  - split; [discriminate|]. intros [I B]. assert (X := find_none _ _ F (n, c)). cbn [fst] in X. rewrite seqb_refl in X. discriminate X. apply filter_In. auto.
Qed.
(** A file already there is replaced if files can be linked and kept if not *)
Theorem cache_import_exact links cache a : NoDup (map fst cache) -> forall n,
  (~ (exists c, In (n, c) cache /\ is_deb n = true) -> import links cache a n = a n) /\
  (forall c, In (n, c) cache -> is_deb n = true ->
     import links cache a n = (if links then Some c else match a n with Some x => Some x | None => Some c end)).
Proof.
  intros ND n. unfold import. set (f := fun e : str * str => is_deb (fst e)).
  assert (FL : NoDup (map fst (filter f cache))) by now apply filter_deb_nodup. rewrite import_fold by exact FL. split.
  - intros N. destruct (find (fun e => seqb n (fst e)) (filter f cache)) as [[m d]|] eqn:F; auto. exfalso. apply find_some in F. destruct F as [I E]. apply seqb_eq in E. cbn in E. subst m.
    apply filter_In in I. apply N. exists d. exact I.
  - intros c I B. destruct (find (fun e => seqb n (fst e)) (filter f cache)) as [[m d]|] eqn:F.
    + apply find_some in F. destruct F as [J E]. apply seqb_eq in E. cbn in E. subst m. apply filter_In in J. destruct J as [J _]. cbn [snd].
      assert (c = d); [|now subst]. clear -ND I J. induction cache as [|[a b] ar IH]; [destruct I|]. cbn [map] in ND. inversion ND as [|? ? NI ND']; subst.
      destruct I as [I|I], J as [J|J]; try congruence; auto.
      * injection I as -> ->. exfalso. apply NI. apply in_map_iff. exists (n, d). auto.
      * injection J as -> ->. exfalso. apply NI. apply in_map_iff. exists (n, c). auto.
    + exfalso. assert (X := find_none _ _ F (n, c)). cbn [fst] in X. rewrite seqb_refl in X. discriminate X. apply filter_In. auto.
Qed.
Definition empty_dir : dir := fun _ => None.
(** Whether a package is isar's own is looked up by a substring of the path.  If the name of
    another package of isar ends with the name, and is listed first, the contents differ and isar's
    own package is put into the cache of downloaded packages. *)
Theorem cache_own_exported_refuted : exists isar ar n c,
  NoDup (map fst ar) /\ NoDup (map fst isar) /\ In (n, c) ar /\ own_package isar n c /\ export isar ar empty_dir n = Some c.
Proof.
  exists [(s_ "/repo/pool/libf/libfoo_1_all.deb", s_ "A"); (s_ "/repo/pool/f/foo_1_all.deb", s_ "B")], [(s_ "foo_1_all.deb", s_ "B")], (s_ "foo_1_all.deb"), (s_ "B").
  split; [repeat constructor; auto|]. split; [constructor; [intros [E|[]]; discriminate|repeat constructor; auto]|]. split; [now left|]. split; [|reflexivity].
  exists (s_ "/repo/pool/f"). right. now left.
Qed.
(** A package of isar that is rebuilt with the same version while an image or another package is
    built no longer has the content that was installed, so the old one is put into the cache.  As
    nothing in the cache is ever replaced, it stays. *)
Theorem cache_rebuilt_stays_refuted : exists n old new path,
  own_package [(path, old)] n old /\ own_package [(path, new)] n new /\
  fold_left (fun pc e => export (fst e) (snd e) pc) [([(path, new)], [(n, old)]); ([(path, new)], [(n, new)])] empty_dir n = Some old.
Proof.
  exists (s_ "foo_1_all.deb"), (s_ "A"), (s_ "B"), (s_ "/repo/pool/f/foo_1_all.deb").
  split; [exists (s_ "/repo/pool/f"); now left|]. split; [exists (s_ "/repo/pool/f"); now left|]. reflexivity.
Qed.
Example cache_case :
  let isar := [(s_ "/repo/pool/h/hello_1_amd64.deb", s_ "H")] in
  let ar := [(s_ "libc6_2_amd64.deb", s_ "C"); (s_ "hello_1_amd64.deb", s_ "H"); (s_ "lock", s_ ""); (s_ "dpkg_3_amd64.deb", s_ "D")] in
  let pc := export isar ar (dir_put empty_dir (s_ "dpkg_3_amd64.deb") (s_ "D0")) in
  (forall n c, In (n, c) ar -> clear_names isar n) /\
  (pc (s_ "libc6_2_amd64.deb"), pc (s_ "hello_1_amd64.deb"), pc (s_ "lock"), pc (s_ "dpkg_3_amd64.deb")) = (Some (s_ "C"), None, None, Some (s_ "D0")).
Proof.
  cbv zeta. split; [|reflexivity]. intros n c I path d J S. destruct J as [J|[]]. injection J as <- <-.
  destruct I as [E|[E|[E|[E|[]]]]]; injection E as <- <-; try (exfalso; revert S; vm_compute; discriminate).
  split; [exists (s_ "/repo/pool/h"); reflexivity|]. intros path' c' [J|[]] _. now injection J as _ <-.
Qed.
Print Assumptions package_files.
Print Assumptions sources_listed.
Print Assumptions sources_common.
Print Assumptions sources_complete.
Print Assumptions sources_only.
Print Assumptions sources_none.
Print Assumptions sources_epoch_refuted.
Print Assumptions cache_kept.
Print Assumptions cache_export_exact.
Print Assumptions cache_nothing_lost.
Print Assumptions cache_export_order.
Print Assumptions cache_import_empty.
Print Assumptions cache_import_exact.
Print Assumptions cache_own_exported_refuted.
Print Assumptions cache_rebuilt_stays_refuted.
