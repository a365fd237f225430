(** Files of root file systems: the claims. *)
From Coq Require Import Ascii String List Bool Arith Lia.
From Verif Require Import Str_Model Str_Proofs Rootfiles_Model Rootfiles_Spec Rootfiles_Proofs.
Import ListNotations.
Open Scope list_scope.

(** ** C129: resolv.conf *)
(** Downloading sources or debug packages leaves the resolv.conf of the root file system
    as it was: a file, a link (even one that leads nowhere), or none. *)
Theorem resolv_kept : forall network host s, r_saved s = None -> cache_deb_src network host s = s.
Proof. intros [] host [[[t|t]|] sv] H; cbn in H; subst sv; reflexivity. Qed.
Lemma stopped_many : forall network host n s, 8 <= n -> stopped network host n s = cache_deb_src network host s.
Proof. intros network host n s L. unfold stopped, cache_deb_src. rewrite firstn_all2 by (cbn; lia). reflexivity. Qed.
(** During the downloads the resolv.conf of the host is there, and the original one is
    kept aside. *)
Theorem resolv_during : forall host n s, r_saved s = None -> 3 <= n <= 6 -> stopped true host n s = mkResolv (Some (File host)) (r_conf s) /\ stopped false host n s = mkResolv None (r_conf s).
Proof.
  intros host n s H C. assert (D : n = 3 \/ n = 4 \/ n = 5 \/ n = 6) by lia. destruct D as [D | [D | [D | D]]]; subst n; destruct s as [[[t|t]|] sv]; cbn in H; subst sv; split; reflexivity.
Qed.
(** A task that failed without network can be run again. *)
Theorem resolv_restart_offline : forall host n network' host' s, r_saved s = None -> cache_deb_src network' host' (stopped false host n s) = s.
Proof.
  intros host n network' host' s H. destruct (le_lt_dec 8 n) as [L|L]; [rewrite stopped_many by exact L; rewrite (resolv_kept _ _ _ H); apply resolv_kept, H|].
  do 8 (destruct n as [|n]; [destruct s as [[[t|t]|] sv]; cbn in H; subst sv; destruct network'; reflexivity|]). lia.
Qed.
(** With network only if it failed before the copy or after the removal of it. *)
Theorem resolv_restart_partial : forall host n network' host' s, r_saved s = None -> n <= 2 \/ 7 <= n -> cache_deb_src network' host' (stopped true host n s) = s.
Proof.
  intros host n network' host' s H C. destruct (le_lt_dec 8 n) as [L|L]; [rewrite stopped_many by exact L; rewrite (resolv_kept _ _ _ H); apply resolv_kept, H|].
  assert (D : n = 0 \/ n = 1 \/ n = 2 \/ n = 7) by lia. destruct D as [D | [D | [D | D]]]; subst n; destruct s as [[[t|t]|] sv]; cbn in H; subst sv; destruct network'; reflexivity.
Qed.
(** A download that fails: when the task is run again, the resolv.conf of the host stays
    in the root file system and the original one is lost. *)
Theorem resolv_restart_refuted : forall host s n network' host', r_saved s = None -> 3 <= n <= 6 -> cache_deb_src network' host' (stopped true host n s) = mkResolv (Some (File host)) None.
Proof.
  intros host s n network' host' H C. assert (D : n = 3 \/ n = 4 \/ n = 5 \/ n = 6) by lia. destruct D as [D | [D | [D | D]]]; subst n; destruct s as [[[t|t]|] sv]; cbn in H; subst sv; destruct network'; reflexivity.
Qed.
Example demo_resolv : let s := mkResolv (Some (Link (s_ "../run/systemd/resolve/stub-resolv.conf"))) None in
  stopped true (s_ "nameserver 10.0.0.1") 5 s = mkResolv (Some (File (s_ "nameserver 10.0.0.1"))) (r_conf s) /\ cache_deb_src true (s_ "nameserver 10.0.0.1") s = s.
Proof. split; reflexivity. Qed.

(** ** C130: additional files *)
(** In a fresh root file system every file ends up with the content of its source and
    no other file of the machine changes. *)
Theorem add_files_fresh : forall root l f, NoDup (map (fun e => place root (snd e)) l) -> (forall s d, In (s, d) l -> s <> [] /\ f s <> None /\ f (place root d) = None) ->
  snd (rootfs_add_files root l f) = true /\ (forall s d, In (s, d) l -> fst (rootfs_add_files root l f) (place root d) = f s) /\
  forall p, ~ In p (map (fun e => place root (snd e)) l) -> fst (rootfs_add_files root l f) p = f p.
Proof. exact add_fresh. Qed.
(** The task, which runs the function twice, does the same if the machine has no file
    of its own at any of the destinations. *)
Theorem add_files_task_partial : forall root l f, NoDup (map (fun e => place root (snd e)) l) ->
  (forall s d, In (s, d) l -> s <> [] /\ f s <> None /\ f (place root d) = None /\ f d = None /\ forall s' d', In (s', d') l -> d <> place root d') ->
  snd (add_files_task root l f) = true /\ (forall s d, In (s, d) l -> fst (add_files_task root l f) (place root d) = f s) /\
  forall p, ~ In p (map (fun e => place root (snd e)) l) -> fst (add_files_task root l f) p = f p.
Proof.
  intros root l f N H. unfold add_files_task. destruct (add_fresh root l f N) as (O & _ & Q); [intros s d I; destruct (H s d I) as (A & B & C & _); auto|].
  destruct (rootfs_add_files root l f) as [g ok]. cbn in O, Q. subst ok. destruct (add_again root l f g H Q l N (fun e I => I)) as (O2 & C2 & Q2). split; [exact O2|]. split; [exact C2|].
  intros p NP. rewrite (Q2 p NP). apply Q, NP.
Qed.
(** A source that does not exist ends the task, unless an entry without source ended the
    function before. *)
Theorem add_files_missing : forall root pre s d post f, (forall s' d', In (s', d') pre -> s' <> [] /\ place root d' <> s) -> s <> [] -> f s = None -> snd (add_files_task root (pre ++ (s, d) :: post) f) = false.
Proof.
  intros root pre s d post f H N F. unfold add_files_task. assert (G : snd (rootfs_add_files root (pre ++ (s, d) :: post) f) = false).
  { revert f F. induction pre as [|[s' d'] pre IH]; intros f F; cbn [app rootfs_add_files].
    - destruct s as [|c s]; [congruence|]. set (g := match f (root ++ s_ "/" ++ d) with Some _ => write d None f | None => f end). assert (G : g (c :: s) = None) by (unfold g; destruct (f (root ++ s_ "/" ++ d)); [unfold write; destruct (seqb (c :: s) d); [reflexivity|exact F]|exact F]). rewrite G. reflexivity.
    - destruct (H s' d' (or_introl eq_refl)) as [A B]. set (g := match f (root ++ s_ "/" ++ d') with Some _ => write d' None f | None => f end). assert (G : g s = None) by (unfold g; destruct (f (root ++ s_ "/" ++ d')); [unfold write; destruct (seqb s d'); [reflexivity|exact F]|exact F]).
      destruct s' as [|c' s']; [congruence|]. destruct (g (c' :: s')) as [v|]; [|reflexivity]. apply IH; [intros x y I; apply H; right; exact I|]. unfold write. destruct (seqb s (root ++ s_ "/" ++ d')) eqn:E; [|exact G]. apply seqb_eq in E. unfold place in B. congruence. }
  destruct (rootfs_add_files root (pre ++ (s, d) :: post) f) as [g ok]. cbn in G. subst ok. reflexivity.
Qed.
Definition host_fs : fs := fun p => if seqb p (s_ "/src/image.wic") then Some (s_ "image") else if seqb p (s_ "/install/image.wic") then Some (s_ "mine") else if seqb p (s_ "/src/b") then Some (s_ "bb") else None.
(** The task removes the file of the build machine that has the name of the destination. *)
Theorem add_files_host_refuted : exists root l f p, NoDup (map (fun e => place root (snd e)) l) /\ (forall s d, In (s, d) l -> s <> [] /\ f s <> None /\ f (place root d) = None) /\
  (forall q, p <> root ++ q) /\ f p <> None /\ snd (add_files_task root l f) = true /\ fst (add_files_task root l f) p = None.
Proof.
  exists (s_ "/work/rootfs"), [(s_ "/src/image.wic", s_ "/install/image.wic")], host_fs, (s_ "/install/image.wic").
  split; [repeat constructor; intros []|]. split; [intros s d [H|[]]; injection H as <- <-; repeat split; discriminate|]. split; [intros q E; discriminate E|]. split; [discriminate|]. split; vm_compute; reflexivity.
Qed.
(** An entry without source ends the function: the files after it are not added. *)
Theorem add_files_empty_refuted : exists root l f s d, NoDup (map (fun e => place root (snd e)) l) /\ In (s, d) l /\ f s <> None /\
  snd (add_files_task root l f) = true /\ fst (add_files_task root l f) (place root d) = None.
Proof.
  exists (s_ "/work/rootfs"), [([], s_ "marker"); (s_ "/src/b", s_ "etc/b")], host_fs, (s_ "/src/b"), (s_ "etc/b").
  split; [repeat constructor; cbn; intuition discriminate|]. split; [right; left; reflexivity|]. split; [discriminate|]. split; vm_compute; reflexivity.
Qed.
(** A file that is there already is not emptied by an entry without source. *)
Theorem add_files_empties_refuted : exists root d f, fst (rootfs_add_files root [([], d)] f) (place root d) = Some (s_ "old") /\ snd (rootfs_add_files root [([], d)] f) = true.
Proof. exists (s_ "/work/rootfs"), (s_ "etc/marker"), (fun p => if seqb p (s_ "/work/rootfs/etc/marker") then Some (s_ "old") else None). split; vm_compute; reflexivity. Qed.
Example demo_add : let l := [(s_ "/src/image.wic", s_ "data/image.wic"); (s_ "/src/b", s_ "etc/b")] in
  (forall s d, In (s, d) l -> s <> [] /\ host_fs s <> None /\ host_fs (place (s_ "/work/rootfs") d) = None /\ host_fs d = None /\ forall s' d', In (s', d') l -> d <> place (s_ "/work/rootfs") d') /\
  fst (add_files_task (s_ "/work/rootfs") l host_fs) (s_ "/work/rootfs/etc/b") = Some (s_ "bb").
Proof.
  cbn zeta. split; [|vm_compute; reflexivity]. intros s d [H|[H|[]]]; injection H as <- <-; (split; [discriminate|]); (split; [discriminate|]); (split; [reflexivity|]); (split; [reflexivity|]);
    intros s' d' [H|[H|[]]]; injection H as <- <-; intro E; discriminate E.
Qed.

(** ** C131: os-release *)
(** Of a text of complete lines the lines with a key that is set are removed and the new
    lines added at the end, in a fixed order; the other lines stay. *)
Theorem os_release_exact : forall id desc ver lines, one_line id -> one_line desc -> one_line ver -> (forall l, In l lines -> one_line l) ->
  exists kept, without (fun l => (id <> [] /\ has_key (s_ "BUILD_ID=") l) \/ (desc <> [] /\ has_key (s_ "VARIANT=") l) \/ (ver <> [] /\ has_key (s_ "VARIANT_VERSION=") l)) lines kept /\
  update_etc_os_release id desc ver (text_of lines) = text_of (kept ++ line_of (s_ "BUILD_ID=") id ++ line_of (s_ "VARIANT=") desc ++ line_of (s_ "VARIANT_VERSION=") ver).
Proof.
  intros id desc ver lines I D V H. exists (keep variant_version ver (keep variant desc (keep build_id id lines))). split.
  - eapply without_ext; [|exact (without_trans _ _ _ _ _ (keep_without build_id id lines) (without_trans _ _ _ _ _ (keep_without variant desc _) (keep_without variant_version ver _)))]. intro x. reflexivity.
  - rewrite update_text by assumption. rewrite put_all_flat. reflexivity.
Qed.
(** Marking a root file system again gives what marking the original would give. *)
Theorem os_release_again : forall id desc ver id' desc' ver' lines, one_line id -> one_line desc -> one_line ver -> one_line id' -> one_line desc' -> one_line ver' -> (forall l, In l lines -> one_line l) ->
  (id <> [] -> id' <> []) -> (desc <> [] -> desc' <> []) -> (ver <> [] -> ver' <> []) ->
  update_etc_os_release id' desc' ver' (update_etc_os_release id desc ver (text_of lines)) = update_etc_os_release id' desc' ver' (text_of lines).
Proof.
  intros id desc ver id' desc' ver' lines I D V I' D' V' H NI ND NV. rewrite update_text by assumption. rewrite update_text by (try assumption; apply put_all_one; assumption). rewrite update_text by assumption. rewrite put_all_twice by assumption. reflexivity.
Qed.
(** The new values are each there once. *)
Theorem os_release_once : forall id desc ver lines, one_line id -> one_line desc -> one_line ver -> (forall l, In l lines -> one_line l) -> id <> [] ->
  exists pre post, update_etc_os_release id desc ver (text_of lines) = text_of (pre ++ (s_ "BUILD_ID=" ++ s_ """" ++ id ++ s_ """") :: post) /\ forall l, In l (pre ++ post) -> ~ has_key (s_ "BUILD_ID=") l.
Proof.
  intros id desc ver lines I D V H NI. destruct (os_release_exact id desc ver lines I D V H) as (kept & W & E). exists kept, (line_of (s_ "VARIANT=") desc ++ line_of (s_ "VARIANT_VERSION=") ver). split.
  - rewrite E. destruct id as [|c id]; [congruence|]. reflexivity.
  - intros l J. apply in_app_or in J. destruct J as [J|J].
    + clear E. induction W as [|x m out P W IH|x m out P W IH]; [destruct J|apply IH; [|exact J]|destruct J as [<-|J]].
      * intros y Y. apply H. right. exact Y.
      * intro K. apply P. left. split; assumption.
      * apply IH; [|exact J]. intros y Y. apply H. right. exact Y.
    + intros [v E2]. apply in_app_or in J. destruct J as [J|J]; [destruct desc|destruct ver]; cbn [line_of In] in J; try contradiction; destruct J as [J|[]]; rewrite <- J in E2; discriminate E2.
Qed.
(** An old value on a last line without newline is replaced too. *)
Theorem os_release_unterminated : forall id v lines, one_line id -> one_line v -> id <> [] -> (forall l, In l lines -> one_line l) ->
  update_etc_os_release id [] [] (text_of lines ++ s_ "BUILD_ID=" ++ v) = update_etc_os_release id [] [] (text_of lines).
Proof.
  intros id v lines I V N H. unfold update_etc_os_release, set_line. destruct id as [|c id]; [congruence|]. f_equal. unfold sed_delete. induction lines as [|l lines IH].
  - cbn [text_of flat_map app]. rewrite split_on_single; [reflexivity|]. apply no_char_In. intro J. apply in_app_or in J. destruct J as [J|J]; [cbn in J; intuition discriminate|exact (V J)].
  - assert (L : ~ In nl l) by (apply H; left; reflexivity). unfold text_of in *. cbn [flat_map]. rewrite <- !app_assoc. cbn [app]. rewrite !split_on_cons by (apply no_char_In; exact L).
    assert (Z : forall t, exists a b, split_on nl t = a :: b) by (intro t; destruct (split_on nl t) eqn:E; [exfalso; destruct (split_on_spec nl t) as (_ & E0 & _); congruence|eauto]).
    specialize (IH (fun x J => H x (or_intror J))). destruct (Z (flat_map (fun l0 => l0 ++ [nl]) lines ++ s_ "BUILD_ID=" ++ v)) as (a & b & E1). destruct (Z (flat_map (fun l0 => l0 ++ [nl]) lines)) as (a' & b' & E2).
    unfold str in *. rewrite E1, E2 in IH |- *. cbn [del_lines] in IH |- *. rewrite IH. reflexivity.
Qed.
(** If the last line has no newline, BUILD_ID is glued to it. *)
Theorem os_release_unterminated_refuted : exists t id, one_line id /\ id <> [] /\ split_on nl t = [s_ "NAME=Debian"; s_ "ID=debian"] /\
  split_on nl (update_etc_os_release id [] [] t) = [s_ "NAME=Debian"; s_ "ID=debianBUILD_ID=""1"""; []].
Proof.
  exists (s_ "NAME=Debian" ++ nl :: s_ "ID=debian"), (s_ "1"). split; [intros [H|[]]; discriminate H|]. split; [discriminate|]. split; vm_compute; reflexivity.
Qed.
Example demo_release : let lines := [s_ "NAME=Debian"; s_ "VARIANT_VERSION=""0"""; s_ "BUILD_ID=""x"""] in (forall l, In l lines -> one_line l) /\
  update_etc_os_release (s_ "v1") [] (s_ "2") (text_of lines) = text_of [s_ "NAME=Debian"; s_ "BUILD_ID=""v1"""; s_ "VARIANT_VERSION=""2"""].
Proof. cbn zeta. split; [|vm_compute; reflexivity]. intros l [<-|[<-|[<-|[]]]] I; cbn in I; intuition discriminate. Qed.

(** ** C132: package lists of the image *)
(** If the image brings lists, sources.list.d consists of exactly these, the last one
    of a name; otherwise it is left alone. *)
Theorem lists_exact : forall work ls dir, ls <> [] -> (forall l, In l ls -> work l <> None) -> exists out, finalize_lists work ls dir = Some out /\
  (forall a l b, ls = a ++ l :: b -> (forall x, In x b -> base x <> base l) -> out (base l) = work l) /\ forall n, (forall l, In l ls -> base l <> n) -> out n = None.
Proof.
  intros work ls dir N H. destruct (copy_lists_spec work ls (fun _ => None) H) as (out & E & A & B). exists out. split; [destruct ls; [congruence|exact E]|]. split; assumption.
Qed.
Theorem lists_missing : forall work ls l dir, In l ls -> work l = None -> finalize_lists work ls dir = None.
Proof.
  intros work ls l dir I M. assert (G : forall d, copy_lists work ls d = None); [|destruct ls; [destruct I|apply G]].
  induction ls as [|x ls IH]; intro d; [destruct I|]. cbn [copy_lists]. destruct I as [->|I]; [rewrite M; reflexivity|]. destruct (work x); [apply IH, I|reflexivity].
Qed.
Theorem lists_untouched : forall work dir, finalize_lists work [] dir = Some dir.
Proof. reflexivity. Qed.
(** Files *.list of the recipe are chosen, wherever they are. *)
Theorem lists_chosen : forall locals d n, ~ In "/"%char n -> (exists c, In c n /\ c <> "."%char) -> In (d ++ "/"%char :: n ++ s_ ".list") locals -> In (d ++ "/"%char :: n ++ s_ ".list") (apt_list_files locals).
Proof.
  intros locals d n S C I. apply filter_In. split; [exact I|]. unfold base. rewrite after_slash_dir by (intro J; apply in_app_or in J; destruct J as [J|J]; [exact (S J)|cbn in J; intuition discriminate]).
  unfold extension. destruct (drop_lead_app n (s_ ".list") C) as [m ->]. assert (L : last_dot (m ++ s_ ".list") = Some (s_ ".list")) by (apply (last_dot_app m (s_ "list")); cbn; intuition discriminate). rewrite L. reflexivity.
Qed.
(** All that are chosen end in .list or a beginning of it: *)
Theorem lists_only : forall locals l, In l (apt_list_files locals) -> In l locals /\ exists n e, l = n ++ e /\ In e [s_ "."; s_ ".l"; s_ ".li"; s_ ".lis"; s_ ".list"].
Proof.
  intros locals l I. apply filter_In in I. destruct I as [I E]. split; [exact I|]. apply andb_true_iff in E. destruct E as [N C]. unfold extension in *.
  destruct (last_dot (drop_lead (base l))) as [e|] eqn:L; [|discriminate N]. destruct (last_dot_shape _ _ L) as (a & b & LE & ->). destruct (drop_lead_end (base l)) as [a1 E1]. destruct (after_slash_end l []) as [a2 E2]. cbn [app] in E2. fold (base l) in E2.
  exists (a2 ++ a1 ++ a), ("."%char :: b). split; [rewrite E2 at 1; rewrite E1, LE, <- !app_assoc; reflexivity|]. clear L N I LE E1 E2.
  apply contains_sub_iff in C. destruct C as (x & y & C). destruct x as [|x0 x].
  - change (s_ ".list") with ["."; "l"; "i"; "s"; "t"]%char in C. cbn [app] in C. injection C as C.
    destruct b as [|b1 b]; [left; reflexivity|]. cbn [app] in C. injection C as <- C. destruct b as [|b2 b]; [right; left; reflexivity|]. cbn [app] in C. injection C as <- C.
    destruct b as [|b3 b]; [right; right; left; reflexivity|]. cbn [app] in C. injection C as <- C. destruct b as [|b4 b]; [right; right; right; left; reflexivity|]. cbn [app] in C. injection C as <- C. destruct b; [|discriminate C]. right; right; right; right; left. reflexivity.
  - exfalso. change (s_ ".list") with ("."%char :: s_ "list") in C. cbn [app] in C. injection C as _ C. assert (J : In "."%char (x ++ "."%char :: b ++ y)) by (apply in_or_app; right; left; reflexivity). unfold str in *. rewrite <- C in J. cbn in J. intuition discriminate.
Qed.
(** The test is for a part of ".list": a file with the extension .l is taken for a list. *)
Theorem lists_extension_refuted : exists locals l, In l (apt_list_files locals) /\ ~ (exists n, l = n ++ s_ ".list").
Proof.
  exists [s_ "scanner.l"], (s_ "scanner.l"). split; [vm_compute; auto|]. intros [n E]. assert (X : endswith (s_ ".list") (s_ "scanner.l") = true) by (rewrite E; apply endswith_app). discriminate X.
Qed.
Example demo_lists : apt_list_files [s_ "files/a.list"; s_ "b.conf"; s_ ".list"; s_ "c.tar.list"] = [s_ "files/a.list"; s_ "c.tar.list"] /\
  option_map (fun o => (o (s_ "a.list"), o (s_ "old.list"))) (finalize_lists (fun _ => Some (s_ "deb")) [s_ "files/a.list"] (fun _ => Some (s_ "old"))) = Some (Some (s_ "deb"), None).
Proof. split; vm_compute; reflexivity. Qed.
Print Assumptions resolv_kept. Print Assumptions resolv_restart_offline. Print Assumptions resolv_restart_partial. Print Assumptions resolv_restart_refuted.
Print Assumptions add_files_fresh. Print Assumptions add_files_task_partial. Print Assumptions add_files_host_refuted. Print Assumptions add_files_empty_refuted. Print Assumptions add_files_empties_refuted.
Print Assumptions os_release_exact. Print Assumptions os_release_again. Print Assumptions os_release_once. Print Assumptions os_release_unterminated_refuted.
Print Assumptions lists_exact. Print Assumptions lists_untouched. Print Assumptions lists_chosen. Print Assumptions lists_only. Print Assumptions lists_extension_refuted.
Example demo_missing : snd (add_files_task (s_ "/work/rootfs") [(s_ "/src/b", s_ "etc/b"); (s_ "/src/none", s_ "etc/c")] host_fs) = false.
Proof. vm_compute. reflexivity. Qed.
Print Assumptions resolv_during.
Print Assumptions add_files_missing.
Print Assumptions os_release_unterminated.
Print Assumptions lists_missing.
