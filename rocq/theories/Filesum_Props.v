(** C109, C110: the checksums of local files. *)
From Coq Require Import String Ascii List Bool Arith Lia Permutation Sorting.
From Verif Require Import Str_Model Str_Proofs Imgtypes_Model Posix_Model Sigtask_Model Sigtask_Spec Sigtask_Proofs Pcache_Model Pcache_Spec Pcache_Proofs Filesum_Model Filesum_Spec Filesum_Proofs.
Import ListNotations.
Open Scope list_scope.

(** The checksum of a file is that of its contents, whatever processes asked, wrote and merged before, in whatever order, and
    whichever of them were killed. *)
Theorem checksum_right : forall md5 past s p f, reach md5 past s -> In p (procs s) ->
  fst (get_checksum md5 (root s) f p) = match stat_file (root s) (normpath f) with Some (_, c) => Some (md5 c) | None => None end.
Proof.
  intros md5 past s p f R I. destruct (get_checksum_ok md5 (root s) f p (reach_sane md5 past s p R I)) as [E _]. rewrite E. unfold right. destruct (stat_file (root s) (normpath f)) as [[t c]|]; reflexivity.
Qed.
Definition sharp (c : str) : str := s_ "#" ++ c.
Definition no_glob (_ : str) : list str := [].
Definition r1 : node := Dir [(s_ "l", Dir [(s_ "a.patch", File 3 (s_ "one")); (s_ "src", Dir [(s_ "x.c", File 4 (s_ "two")); (s_ ".git", Dir [(s_ "HEAD", File 5 (s_ "ref"))]); (s_ "sub", Dir [(s_ "y.c", File 6 (s_ "two"))])])])].
Definition r2 : node := Dir [(s_ "l", Dir [(s_ "a.patch", File 7 (s_ "new"))])].
Definition ask (r : node) (f : str) (p : proc) : proc := snd (get_checksum sharp r f p).
Definition p0 : proc := init_cache None.
Definition p1 : proc := ask r1 (s_ "/l/./a.patch") p0.
(** Two processes: the first wrote what it found, the second merged it; then the file is changed *)
Definition s1 : sys := {| root := r1; main := Some (extras p1); parts := []; procs := [p1; {| data := extras p1; extras := []; times := [] |}] |}.
Definition s2 : sys := {| root := r2; main := Some (extras p1); parts := []; procs := map (fun p => {| data := data p; extras := extras p; times := [] |}) (procs s1) |}.
Lemma s1_reached : reach sharp [r1] s1.
Proof.
  unfold s1. pose proof (empty_cache sharp r1) as A. apply begins in A. apply begins in A. cbn [init_cache] in A. fold p0 in A.
  apply (asks sharp [r1] r1 None [] [] p0 [p0] (s_ "/l/./a.patch")) in A. apply (saves sharp [r1] r1 None [] [] p1 [p0] (Whole (extras p1))) in A; [|now left].
  apply (merges sharp [r1] r1 None [Whole (extras p1)] [p1] p0 [] [Whole (extras p1)] (extras p1) (Some (extras p1)) []) in A; [exact A|apply Permutation_refl|vm_compute; reflexivity|cbn; auto|intros x []].
Qed.
Lemma s2_reached : reach sharp [r2; r1] s2.
Proof.
  apply (changes sharp [r1] r1 _ [] _ r2 s1_reached). intros w [<-|[]] f t c c' A B. unfold stat_file, at_path in A, B. exfalso.
  destruct (norm_comps f) as [|a cs]; [discriminate|]. unfold r1, r2 in *. cbn [find child] in A, B. destruct (seqb (s_ "l") a); [|discriminate]. destruct cs as [|b cs]; [discriminate|].
  cbn [find child] in A, B. destruct (seqb (s_ "a.patch") b); [|discriminate]. destruct cs as [|d cs]; [|discriminate]. cbn in A, B. injection A as <- <-. discriminate.
Qed.
Example checksum_right_met : reach sharp [r2; r1] s2 /\
  (exists p, In p (procs s1) /\ get (s_ "/l/a.patch") (data p) = Some (3, s_ "#one") /\ fst (get_checksum sharp r1 (s_ "/l/a.patch") p) = Some (s_ "#one")) /\
  (exists p, In p (procs s2) /\ get (s_ "/l/a.patch") (data p) = Some (3, s_ "#one") /\ fst (get_checksum sharp r2 (s_ "/l/a.patch") p) = Some (s_ "#new")).
Proof.
  split; [apply s2_reached|]. split; [exists {| data := extras p1; extras := []; times := [] |}|exists {| data := extras p1; extras := []; times := [] |}]; (split; [right; now left|]); split; vm_compute; reflexivity.
Qed.
(** If a process is killed while it writes its file, no later process can merge the files. *)
Theorem cut_off_refuted : exists parts, forall order d, Permutation order parts -> save_merge order d = None.
Proof.
  exists [CutOff]. intros order d P. apply Permutation_sym, Permutation_length_1_inv in P. now subst order.
Qed.
(** A file that changes during a run is recorded with the time from before: when that version is back, with its time, its
    checksum is wrong. *)
Theorem changed_during_run_refuted : exists before during f, honest_times during before /\
  let p := ask during f (ask before f p0) in
  exists d, save_merge [Whole (extras p)] [] = Some d /\
    fst (get_checksum sharp before f (init_cache (Some d))) <> match stat_file before (normpath f) with Some (_, c) => Some (sharp c) | None => None end.
Proof.
  exists r1, r2, (s_ "/l/a.patch"). split.
  - intros f t c c' A B. pose proof s2_reached as R. apply reach_inv in R. destruct R as (H & _). apply (H r1 (or_intror (or_introl eq_refl)) f t c c' A B).
  - cbv zeta. eexists. split; [vm_compute; reflexivity|]. vm_compute. discriminate.
Qed.

(** The checksums for a list of paths are those of the files in the list and of the files in its directories (and in
    subdirectories that are not excluded), with their names, and no others; sorted by checksum. *)
Theorem list_covered : forall md5 glob excluded past s p l, (forall c, md5 c <> []) -> reach md5 past s -> In p (procs s) -> sound_tree (root s) ->
  Forall (fun e => list_name (fst e) /\ no_colon (fst e)) l ->
  (forall e q, In e l -> wants glob e q -> exists cs, clean_name q cs /\ forall l rel n, leads (root s) cs (Dir l) -> leads (Dir l) rel n -> once q rel) ->
  exists sums p', get_checksums md5 glob excluded (root s) (list_text l) p = Some (sums, p') /\
    StronglySorted (fun a b => str_leb (snd a) (snd b) = true) sums /\
    forall f h, In (f, h) sums <-> exists e q, In e l /\ wants glob e q /\ covers md5 excluded (root s) q f h.
Proof.
  intros md5 glob excluded past s p l M R I SR F H. destruct (list_sums md5 M excluded glob (root s) l p SR (reach_sane md5 past s p R I) F) as (sums & p' & E & X).
  { intros q Q. apply in_flat_map in Q. destruct Q as (e & IE & Q). apply (H e q IE). now apply wants_targets. }
  exists (by_checksum sums), p'. split; auto. split; [apply by_checksum_sorted|]. intros f h.
  assert (P : In (f, h) (by_checksum sums) <-> In (f, h) sums) by (unfold by_checksum; split; apply Permutation_in; [|apply Permutation_sym]; apply sort_le_perm).
  rewrite P, X. split.
  - intros (q & Q & C). apply in_flat_map in Q. destruct Q as (e & IE & Q). exists e, q. split; auto. split; auto. now apply wants_targets.
  - intros (e & q & IE & W & C). exists q. split; auto. apply in_flat_map. exists e. split; auto. now apply wants_targets.
Qed.
(** Whatever order directories are read in, on whatever machine: the checksums are the same ones, and so is what they
    contribute to the signature of a task. *)
Theorem reading_order : forall md5 glob glob' excluded past s p past' s' p' fl l q, (forall c, md5 c <> []) -> reach md5 past s -> In p (procs s) -> reach md5 past' s' -> In p' (procs s') ->
  sound_tree (root s) -> shuffled (root s) (root s') -> (forall pat, Permutation (glob pat) (glob' pat)) ->
  get_checksums md5 glob excluded (root s) fl p = Some (l, q) ->
  exists l' q', get_checksums md5 glob' excluded (root s') fl p' = Some (l', q') /\ Permutation l l' /\
    (Forall (fun fc => absolute (fst fc)) l -> map file_text (by_path (by_checksum l)) = map file_text (by_path (by_checksum l'))).
Proof.
  intros md5 glob glob' excluded past s p past' s' p' fl l q M R I R' I' SR SH G E.
  destruct (sums_shuffled md5 M excluded glob glob' (root s) (root s') fl p p' q l SR SH G (reach_sane md5 past s p R I) (reach_sane md5 past' s' p' R' I') E) as (l' & q' & E' & P).
  exists l', q'. split; auto. split; auto. intros A. now apply files_perm.
Qed.
(** *** Examples *)
Lemma name_by c : (negb (existsb (aeqb slash) c) && negb (seqb c []) && negb (seqb c dot) && negb (seqb c dotdot)) = true -> file_name c.
Proof.
  rewrite !andb_true_iff, !negb_true_iff. intros [[[A B] C] D]. apply seqb_neq in B, C, D. split; auto. split; [|split; auto]. intros I. assert (existsb (aeqb slash) c = true) by (apply existsb_exists; exists slash; split; auto; now apply aeqb_eq). congruence.
Qed.
Fixpoint nodupb (l : list str) : bool := match l with [] => true | x :: r => negb (mem_str x r) && nodupb r end.
Lemma nodupb_ok l : nodupb l = true -> NoDup l.
Proof. induction l as [|x l IH]; cbn; intros H; constructor; apply andb_true_iff in H; destruct H as [A B]; auto. apply negb_true_iff in A. now apply mem_str_false. Qed.
Definition nameb c := negb (existsb (aeqb slash) c) && negb (seqb c []) && negb (seqb c dot) && negb (seqb c dotdot).
Fixpoint soundb (n : node) : bool := match n with Dir l => nodupb (map fst l) && forallb (fun p => nameb (fst p) && soundb (snd p)) l | _ => true end.
Lemma soundb_ok n : soundb n = true -> sound_tree n.
Proof.
  induction n as [t c| | |l IH] using node_rec'; intros H; try (constructor; fail). cbn in H. apply andb_true_iff in H. destruct H as [A B]. rewrite forallb_forall in B. rewrite Forall_forall in IH.
  apply sound_dir; [now apply nodupb_ok|]. intros c m I. specialize (B _ I). apply andb_true_iff in B. split; [now apply name_by|now apply (IH _ I)].
Qed.
Fixpoint ways (n : node) : list (list str) := [] :: match n with Dir l => flat_map (fun p => map (cons (fst p)) (ways (snd p))) l | _ => [] end.
Lemma ways_ok n rel m : leads n rel m -> In rel (ways n).
Proof.
  induction 1 as [n|l c m cs n I L IH]; [destruct n; now left|]. cbn. right. apply in_flat_map. exists (c, m). split; auto. now apply in_map.
Qed.
Lemma once_by q rel : contains_sub q (tl (q ++ path_of rel)) = false -> q <> [] -> once q rel.
Proof.
  intros H N a b E. destruct a as [|x a]; auto. exfalso. rewrite E in H. cbn [app tl] in H. assert (contains_sub q (a ++ q ++ b) = true) by (apply contains_sub_iff; exists a, b; auto). congruence.
Qed.
Definition src_list : list (str * bool) := [(s_ "/l/a.patch", true); (s_ "/l/files/a.patch", false); (s_ "/l/src", true)].
Lemma name_ok f : forallb (fun c => negb (is_space c)) f = true -> list_name f.
Proof.
  intros H. rewrite forallb_forall in H. split.
  - intros c t ->. apply negb_true_iff. apply H. now left.
  - intros a c b [-> | ->]; apply negb_true_iff; apply H; apply in_or_app; right; apply in_or_app; right; now left.
Qed.
Example list_covered_met : (forall c, sharp c <> []) /\ reach sharp [r1] s1 /\ sound_tree (root s1) /\ Forall (fun e => list_name (fst e) /\ no_colon (fst e)) src_list /\
  (forall e q, In e src_list -> wants no_glob e q -> exists cs, clean_name q cs /\ forall l rel n, leads (root s1) cs (Dir l) -> leads (Dir l) rel n -> once q rel) /\
  forall p, In p (procs s1) -> option_map fst (get_checksums sharp no_glob [s_ ".git"] r1 (list_text src_list) p) =
    Some [(s_ "/l/a.patch", s_ "#one"); (s_ "/l/src/./x.c", s_ "#two"); (s_ "/l/src/./sub/y.c", s_ "#two")].
Proof.
  split; [discriminate|]. split; [apply s1_reached|]. split; [apply soundb_ok; vm_compute; reflexivity|]. split.
  { repeat constructor; cbn [fst]; try (apply name_ok; reflexivity); unfold no_colon; cbn; intuition discriminate. }
  split; [|intros p [<-|[<-|[]]]; vm_compute; reflexivity].
  intros e q I [T W]. assert (Q : q = s_ "/l/a.patch" \/ q = s_ "/l/src").
  { destruct I as [<-|[<-|[<-|[]]]]; cbn [fst snd] in *; try discriminate; destruct W as [[_ ->]|[X _]]; auto; cbn in X; intuition discriminate. }
  assert (CL : forall cs, forallb nameb cs = true -> cs <> [] -> clean_name (path_of cs) cs).
  { intros cs B N. split; auto. split; auto. rewrite forallb_forall in B. apply Forall_forall. intros c IC. now apply name_by, B. }
  destruct Q as [-> | ->].
  - exists [s_ "l"; s_ "a.patch"]. split; [now apply (CL [s_ "l"; s_ "a.patch"])|]. intros l rel n L. apply find_leads in L; [vm_compute in L; discriminate|apply soundb_ok; vm_compute; reflexivity].
  - exists [s_ "l"; s_ "src"]. split; [now apply (CL [s_ "l"; s_ "src"])|]. intros l rel n L L'. apply find_leads in L; [|apply soundb_ok; vm_compute; reflexivity].
    vm_compute in L. injection L as <-. apply ways_ok in L'. apply once_by; [|discriminate].
    assert (A : forallb (fun rel => negb (contains_sub (s_ "/l/src") (tl (s_ "/l/src" ++ path_of rel)))) (ways (Dir [(s_ "x.c", File 4 (s_ "two")); (s_ ".git", Dir [(s_ "HEAD", File 5 (s_ "ref"))]); (s_ "sub", Dir [(s_ "y.c", File 6 (s_ "two"))])])) = true) by (vm_compute; reflexivity).
    rewrite forallb_forall in A. apply negb_true_iff, A. exact L'.
Qed.
(** The same tree read in another order *)
Definition r1' : node := Dir [(s_ "l", Dir [(s_ "src", Dir [(s_ "sub", Dir [(s_ "y.c", File 6 (s_ "two"))]); (s_ ".git", Dir [(s_ "HEAD", File 5 (s_ "ref"))]); (s_ "x.c", File 4 (s_ "two"))]); (s_ "a.patch", File 3 (s_ "one"))])].
Lemma leaf t c : shuffled (File t c) (File t c). Proof. apply shuffled_leaf. discriminate. Qed.
Lemma one_file c n n' : shuffled n n' -> shuffled (Dir [(c, n)]) (Dir [(c, n')]).
Proof. intros H. apply shuffled_dir with [(c, n')]; auto. Qed.
Example reading_order_met : shuffled r1 r1' /\ reach sharp [r1'] {| root := r1'; main := None; parts := []; procs := [p0] |} /\
  option_map fst (get_checksums sharp no_glob [s_ ".git"] r1' (list_text src_list) p0) = Some [(s_ "/l/a.patch", s_ "#one"); (s_ "/l/src/./x.c", s_ "#two"); (s_ "/l/src/./sub/y.c", s_ "#two")].
Proof.
  split; [|split; [apply begins, empty_cache|vm_compute; reflexivity]].
  apply one_file. apply shuffled_dir with (l' := [(s_ "a.patch", File 3 (s_ "one")); (s_ "src", Dir [(s_ "sub", Dir [(s_ "y.c", File 6 (s_ "two"))]); (s_ ".git", Dir [(s_ "HEAD", File 5 (s_ "ref"))]); (s_ "x.c", File 4 (s_ "two"))])]).
  - constructor; [split; [reflexivity|apply leaf]|]. constructor; [|constructor]. split; [reflexivity|]. cbn [snd]. eapply shuffled_dir.
    + constructor; [split; [reflexivity|apply leaf]|]. constructor; [split; [reflexivity|apply one_file, leaf]|]. constructor; [split; [reflexivity|apply one_file, leaf]|constructor].
    + eapply Permutation_trans; [apply Permutation_rev|]. apply Permutation_refl.
  - apply perm_swap.
Qed.
(** A file with a colon in its name has no checksum: changes of it are not seen. *)
Theorem colon_name_refuted : exists r f c, stat_file r f = Some (1, c) /\ list_name f /\ option_map fst (get_checksums sharp no_glob [] r (list_text [(f, true)]) p0) = Some [].
Proof.
  exists (Dir [(s_ "l", Dir [(s_ "a:b.patch", File 1 (s_ "x"))])]), (s_ "/l/a:b.patch"), (s_ "x"). split; [vm_compute; reflexivity|]. split; [apply name_ok; reflexivity|vm_compute; reflexivity].
Qed.
(** A file is left out if the path of the directory occurs again in its own path. *)
Theorem repeated_path_refuted : exists r q l rel c, clean_name q [s_ "src"] /\ leads r [s_ "src"] (Dir l) /\ counts [] (Dir l) rel c /\
  option_map fst (get_checksums sharp no_glob [] r (list_text [(q, true)]) p0) = Some [].
Proof.
  exists (Dir [(s_ "src", Dir [(s_ "srcfile.c", File 1 (s_ "x"))])]), (s_ "/src"), [(s_ "srcfile.c", File 1 (s_ "x"))], [s_ "srcfile.c"], (s_ "x"). split; [|split; [|split]].
  - split; [reflexivity|]. split; [discriminate|]. constructor; [now apply name_by|constructor].
  - apply leads_down with (Dir [(s_ "srcfile.c", File 1 (s_ "x"))]); [now left|constructor].
  - split; [exists 1; apply leads_down with (File 1 (s_ "x")); [now left|constructor]|]. split; [discriminate|]. intros d [].
  - vm_compute. reflexivity.
Qed.
Print Assumptions checksum_right.
Print Assumptions cut_off_refuted.
Print Assumptions changed_during_run_refuted.
Print Assumptions list_covered.
Print Assumptions reading_order.
Print Assumptions colon_name_refuted.
Print Assumptions repeated_path_refuted.
