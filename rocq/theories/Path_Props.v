(** C29, C30: theorems. *)
From Coq Require Import Ascii String List Bool Arith Lia.
From Verif Require Import Str_Model Str_Proofs Posix_Model Posix_Proofs Path_Model Path_Spec Path_Proofs.
Import ListNotations.
Open Scope list_scope.

(** A name ending in a slash is never a symbolic link: lstat(2) follows it. *)
Definition lstat_follows (f : fs) : Prop := forall p, readlink f (p ++ [slash]) = None.
(** The targets of the links are in normal form: no '.', no empty component, no name before '..'. *)
Definition normal_targets (f : fs) : Prop := forall p t, readlink f p = Some t -> normpath t = t /\ t <> dot.
(** An absolute path that does not start with exactly two slashes (which POSIX
    leaves to the implementation, and normpath keeps). *)
Definition absolute (p : str) : Prop := initial_slashes p = 1.

Lemma root_good Q f phys : good Q f phys (Q ++ [slash]) [].
Proof. split; [left; auto|]. split; auto. intros _ x y Ex Nx. destruct x; [congruence|discriminate]. Qed.
Lemma skip_root Q : length (Q ++ [slash]) - 1 = length Q.
Proof. rewrite app_length. cbn. lia. Qed.
Lemma start_shape Q file :
  (normpath file = Q \/ exists rest, normpath file = Q ++ slash :: rest) ->
  shape Q (Q ++ [slash]) (split_on slash (skipn (length Q) (normpath file))).
Proof.
  intros [->|(rest & FB)].
  - rewrite skipn_all. exists 1, []. repeat split; auto.
  - rewrite FB, skipn_app, skipn_all, Nat.sub_diag. cbn [app skipn].
    destruct (file_shape file Q rest FB) as (k & cs & S & F & K). exists k, cs. repeat split; auto.
Qed.

Lemma realpath_facts f file root phys cnt assume :
  lstat_follows f -> phys = true \/ (absolute root /\ absolute file) ->
  match realpath f file root phys cnt assume with
  | Ok p => exists Q cs, the_root root = Q ++ [slash] /\ at_ Q p cs /\ Forall okc cs /\ (phys = true -> resolved Q f cs) /\
    inside (normpath root) p
  | Err e => e <> EAssert
  end.
Proof.
  intros HD HP. destruct (the_root_form root) as (Q & HS & HQ & HR).
  unfold realpath. rewrite HS. destruct (is_path_below (normpath file) (Q ++ [slash])) eqn:B; cbn [negb]; [|discriminate].
  rewrite <- HS in B. pose proof (file_below _ _ _ HS B) as FB.
  assert (FIN : forall p cs, good Q f phys p cs -> exists Q cs, the_root root = Q ++ [slash] /\ at_ Q p cs /\ Forall okc cs /\ (phys = true -> resolved Q f cs) /\
    inside (normpath root) p).
  { intros p cs (A & F & R). exists Q, cs. repeat split; auto. eapply at_inside; eauto. }
  destruct phys.
  - rewrite skip_root.
    pose proof (realpath_rel_ok Q HQ f assume true (normpath root) _
        (realpath1_ok Q HQ f assume true HD (normpath root) (slashed_root _ _ HS) cnt) _ (Q ++ [slash]) true [] (root_good Q f true) (start_shape Q file FB) (proj2 (proj2 (root_good Q f true)))) as H.
    destruct (realpath_rel _ _ _ _ _ _) as [p|e]; auto. destruct H as (cs & G & _). rewrite <- HS; exact (FIN _ _ G).
  - destruct HP as [HP|(R1 & F1)]; [discriminate|].
    destruct (file_at root file Q R1 F1 HS HR FB) as (cs & A & F).
    pose proof (realpath1_ok Q HQ f assume false HD (normpath root) (slashed_root _ _ HS) cnt _ _ A F) as H.
    destruct (realpath1 f (Q ++ [slash]) assume cnt (normpath file)) as [[q b]|e].
    + destruct H as (cs' & G & _); [congruence|]. rewrite <- HS; exact (FIN _ _ G).
    + apply H. congruence.
Qed.

(** C29: whatever the links, the result is inside the root. *)
Theorem realpath_inside f file root phys cnt assume p :
  lstat_follows f -> phys = true \/ (absolute root /\ absolute file) ->
  realpath f file root phys cnt assume = Ok p -> inside (normpath root) p.
Proof.
  intros HD HP E. pose proof (realpath_facts f file root phys cnt assume HD HP) as H. rewrite E in H.
  destruct H as (Q & cs & _ & _ & _ & _ & I). exact I.
Qed.

(** and no component of it below the root is a link *)
Theorem realpath_link_free f file root cnt assume p :
  lstat_follows f -> realpath f file root true cnt assume = Ok p -> link_free (readlink f) (normpath root) p.
Proof.
  intros HD E. pose proof (realpath_facts f file root true cnt assume HD (or_introl eq_refl)) as H. rewrite E in H.
  destruct H as (Q & cs & HS & A & F & R & _). eapply at_link_free; eauto.
Qed.

(** The assertions in the code never fail. *)
Theorem realpath_never_asserts f file root phys cnt assume :
  lstat_follows f -> phys = true \/ (absolute root /\ absolute file) ->
  realpath f file root phys cnt assume <> Err EAssert.
Proof.
  intros HD HP E. pose proof (realpath_facts f file root phys cnt assume HD HP) as H. rewrite E in H. congruence.
Qed.

(** A path outside the root is refused. *)
Theorem realpath_refuses_outside f file root phys cnt assume :
  initial_slashes root <> 2 ->
  normpath file <> normpath root -> (forall rest, normpath file <> slashed (normpath root) ++ rest) ->
  realpath f file root phys cnt assume = Err EInval.
Proof.
  intros R1 N1 N2. destruct (the_root_form root) as (Q & HS & HQ & HR). unfold realpath.
  destruct (is_path_below (normpath file) (the_root root)) eqn:B; auto. exfalso.
  destruct (file_below _ _ _ HS B) as [FB|(rest & FB)].
  - destruct HR as [(HR & _)|(HR & SL)]; [congruence|].
    assert (Q = []) as ->.
    { unfold normpath in HR. pose proof (initial_slashes_le root) as LE. destruct (norm_comps_ok root) as (RA & _).
      destruct (initial_slashes root) as [|[|[|n]]]; [|  |congruence|lia].
      - destruct (norm_comps root) as [|r rs]; [cbn in HR; destruct Q as [|a [|b Q]]; [discriminate|cbn in HR; congruence|discriminate]|].
        destruct (join_last_nonslash 0 (r :: rs)) as (h & x & E & X); [discriminate|auto|]. cbn [repeat app] in E. cbn [repeat app] in HR. rewrite E in HR.
        assert (h ++ [x] = Q ++ [slash]) as Z by (destruct (h ++ [x]) eqn:W; [destruct h; discriminate|exact HR]). apply app_inj_tail in Z. destruct Z as [_ ->]. discriminate.
      - destruct (norm_comps root) as [|r rs]; [cbn in HR; destruct Q as [|a [|b Q]]; [auto|discriminate|discriminate]|].
        destruct (join_last_nonslash 1 (r :: rs)) as (h & x & E & X); [discriminate|auto|]. rewrite E in HR.
        assert (h ++ [x] = Q ++ [slash]) as Z by (destruct (h ++ [x]) eqn:W; [destruct h; discriminate|exact HR]). apply app_inj_tail in Z. destruct Z as [_ ->]. discriminate. }
    unfold normpath in FB. destruct (repeat slash (initial_slashes file) ++ _); discriminate.
  - apply (N2 rest). rewrite (slashed_root _ _ HS), FB, <- app_assoc. reflexivity.
Qed.

(** The result is what the kernel would find with [root] as root directory. *)
Theorem realpath_is_chroot f file root rest cnt assume p :
  lstat_follows f -> normal_targets f -> normpath file = slashed (normpath root) ++ rest ->
  realpath f file root true cnt assume = Ok p ->
  exists cs, walk (readlink f) (normpath root) [] (split_on slash rest) cs /\
             (p = path_of (normpath root) cs \/ (cs = [] /\ p = slashed (normpath root))).
Proof.
  intros HD HN HF E. destruct (the_root_form root) as (Q & HS & HQ & HR).
  pose proof (slashed_root _ _ HS) as SR.
  unfold realpath in E. rewrite HS in E. destruct (is_path_below (normpath file) (Q ++ [slash])) eqn:B; cbn [negb] in E; [|discriminate].
  rewrite <- HS in B. pose proof (file_below _ _ _ HS B) as FB. rewrite skip_root in E.
  pose proof (realpath_rel_ok Q HQ f assume true (normpath root) _
        (realpath1_ok Q HQ f assume true HD (normpath root) (slashed_root _ _ HS) cnt) _ (Q ++ [slash]) true [] (root_good Q f true) (start_shape Q file FB) (proj2 (proj2 (root_good Q f true)))) as H.
  rewrite E in H. destruct H as (cs & (A & F & R) & W).
  assert (EF : normpath file = Q ++ slash :: rest) by (rewrite HF, SR, <- app_assoc; reflexivity).
  assert (SK : skipn (length Q) (normpath file) = slash :: rest) by (rewrite EF, skipn_app, skipn_all, Nat.sub_diag; reflexivity).
  rewrite SK in W. specialize (W eq_refl HN (no_dot_in_file _ _ _ EF)).
  change (slash :: rest) with ([] ++ slash :: rest) in W. rewrite split_on_cons in W by constructor.
  exists cs. split.
  - unfold wk0 in W. inversion W; subst; congruence || auto.
  - destruct cs as [|c cs]; cbn [at_] in A; cbn [path_of].
    + destruct A as [->|(-> & h & x & EQ & X)]; [right; split; auto; now rewrite SR|]. left.
      destruct HR as [(HR & _)|(_ & SL)]; auto. rewrite EQ, forallb_app in SL. cbn in SL. rewrite X, andb_false_r in SL. discriminate.
    + left. rewrite SR, A, ptail_join by discriminate. now rewrite <- app_assoc.
Qed.

(** The kernel's answer is unique. *)
Theorem walk_deterministic rl root cs ds r : walk rl root cs ds r -> forall r', walk rl root cs ds r' -> r = r'.
Proof.
  induction 1 as [cs|cs d ds r D W IH|cs ds r W IH|cs d ds r D1 D2 D3 L W IH|cs d t ds r D1 D2 D3 L IA W IH|cs d t ds r D1 D2 D3 L IA W IH];
    intros r' W'; inversion W' as [|? ? ? ? D' Y|? ? ? Y|? ? ? ? D1' D2' D3' L' Y|? ? t' ? ? D1' D2' D3' L' IA' Y|? ? t' ? ? D1' D2' D3' L' IA' Y]; subst; auto;
    try (destruct D as [D|D]; congruence || discriminate D); try (destruct D' as [D'|D']; congruence || discriminate D');
    try congruence; rewrite L in L'; inversion L'; subst; auto; congruence.
Qed.

(** What the kernel finds is found, provided the loop count is large enough. *)
Theorem realpath_finds f file root rest cs :
  lstat_follows f -> normal_targets f -> normpath file = slashed (normpath root) ++ rest ->
  walk (readlink f) (normpath root) [] (split_on slash rest) cs ->
  exists n, forall cnt, n <= cnt -> exists p, realpath f file root true cnt true = Ok p /\
    (p = path_of (normpath root) cs \/ (cs = [] /\ p = slashed (normpath root))).
Proof.
  intros HD HN HF W. destruct (the_root_form root) as (Q & HS & HQ & HR).
  pose proof (slashed_root _ _ HS) as SR.
  assert (EF : normpath file = Q ++ slash :: rest) by (rewrite HF, SR, <- app_assoc; reflexivity).
  assert (SK : skipn (length Q) (normpath file) = slash :: rest) by (rewrite EF, skipn_app, skipn_all, Nat.sub_diag; reflexivity).
  assert (SP : split_on slash (slash :: rest) = [] :: split_on slash rest).
  { change (slash :: rest) with ([] ++ slash :: rest). now rewrite split_on_cons by constructor. }
  assert (SH : shape Q (Q ++ [slash]) (split_on slash (slash :: rest))) by (rewrite <- SK; apply start_shape; eauto).
  destruct (found Q HQ f true true HD (normpath root) SR eq_refl eq_refl HN [] (split_on slash (slash :: rest)) cs) with (start := Q ++ [slash]) as (n & q & H); auto.
  - rewrite SP. apply w_skip; auto.
  - apply root_good.
  - eapply no_dot_in_file; eauto.
  - exists n. intros cnt C. assert (E : realpath f file root true cnt true = Ok q).
    { unfold realpath. rewrite HS. assert (B : is_path_below (normpath file) (Q ++ [slash]) = true).
      { apply startswith_iff. exists (rest ++ [slash]). rewrite EF, <- !app_assoc. reflexivity. }
      rewrite B. cbn [negb]. rewrite skip_root, SK. auto. }
    exists q. split; auto. destruct (realpath_is_chroot f file root rest cnt true q HD HN HF E) as (cs' & W' & P).
    now rewrite (walk_deterministic _ _ _ _ _ W cs' W').
Qed.

(** ** A concrete tree *)
Definition etc : str := s_ "/srv/root/etc".
Definition demo : fs := {|
  readlink := fun p => if seqb p (s_ "/srv/root/etc") then Some (s_ "/private/etc")
                       else if seqb p (s_ "/srv/root/private/etc/up") then Some (s_ "../../../../../x")
                       else if seqb p (s_ "/srv/root/loop") then Some (s_ "loop") else None;
  isdir := fun _ => true |}.
Example demo_follows : lstat_follows demo.
Proof.
  intros p. unfold demo. cbn [readlink].
  assert (K : forall (q : str) x, is_slash x = false -> seqb (p ++ [slash]) (q ++ [x]) = false).
  { intros q x X. apply seqb_neq. intros E. apply app_inj_tail in E. destruct E as [_ <-]. discriminate. }
  assert (K1 : seqb (p ++ [slash]) (s_ "/srv/root/etc") = false) by exact (K (s_ "/srv/root/et") "c"%char eq_refl).
  assert (K2 : seqb (p ++ [slash]) (s_ "/srv/root/private/etc/up") = false) by exact (K (s_ "/srv/root/private/etc/u") "p"%char eq_refl).
  assert (K3 : seqb (p ++ [slash]) (s_ "/srv/root/loop") = false) by exact (K (s_ "/srv/root/loo") "p"%char eq_refl).
  now rewrite K1, K2, K3.
Qed.
Example demo_normal : normal_targets demo.
Proof.
  intros p t. unfold demo. cbn [readlink]. repeat match goal with |- context [if ?b then _ else _] => destruct b end; intros E; inversion E; subst; split; try reflexivity; discriminate.
Qed.
Example demo_resolves : realpath demo (s_ "/srv/root/etc/passwd") (s_ "/srv/root") true 100 false = Ok (s_ "/srv/root/private/etc/passwd").
Proof. vm_compute. reflexivity. Qed.
Example demo_contained : realpath demo (s_ "/srv/root/etc/up") (s_ "/srv/root") true 100 false = Ok (s_ "/srv/root/x").
Proof. vm_compute. reflexivity. Qed.
Example demo_loop : realpath demo (s_ "/srv/root/loop") (s_ "/srv/root") true 100 true = Err ELoop.
Proof. vm_compute. reflexivity. Qed.
Example demo_walk : walk (readlink demo) (s_ "/srv/root") [] [s_ "etc"; s_ "passwd"] [s_ "private"; s_ "etc"; s_ "passwd"].
Proof.
  eapply w_abs; try (vm_compute; reflexivity); try discriminate. apply w_skip; [auto|].
  apply w_step; try (vm_compute; reflexivity); try discriminate. apply w_step; try (vm_compute; reflexivity); try discriminate.
  apply w_step; try (vm_compute; reflexivity); try discriminate. constructor.
Qed.

(** Without use_physdir a relative root given with '..' is no jail: the path is only compared as a string. *)
Theorem realpath_relative_root_refuted : exists f file root p,
  lstat_follows f /\ realpath f file root false 100 true = Ok p /\ ~ inside (normpath root) p.
Proof.
  exists {| readlink := fun _ => None; isdir := fun _ => true |}, (s_ "../../etc/passwd"), (s_ ".."), (s_ "../../etc/passwd").
  split; [intros p; reflexivity|]. split; [vm_compute; reflexivity|]. intros [X|(rest & X & N)]; [discriminate|].
  change (slashed (normpath (s_ ".."))) with (s_ "../") in X. change (s_ "../../etc/passwd") with (s_ "../" ++ s_ "../etc/passwd") in X.
  apply app_inv_head in X. subst rest. apply N. now left.
Qed.
(** A link to "." leaves a "." in the result, which is then not canonical. *)
Theorem realpath_canonical_refuted : exists f file root p,
  lstat_follows f /\ realpath f file root true 100 true = Ok p /\ normpath p <> p.
Proof.
  exists {| readlink := fun p => if seqb p (s_ "/r/a") then Some (s_ ".") else None; isdir := fun _ => true |}, (s_ "/r/a/b"), (s_ "/r"), (s_ "/r/./b").
  split; [|split; [vm_compute; reflexivity|vm_compute; discriminate]].
  intros p. cbn [readlink]. destruct (seqb (p ++ [slash]) (s_ "/r/a")) eqn:E; auto. exfalso. apply seqb_eq in E.
  change (s_ "/r/a") with (s_ "/r/" ++ ["a"%char]) in E. apply app_inj_tail in E. destruct E as [_ E]. discriminate.
Qed.

(** ** C30 *)
(** [path] and [link] are the absolute paths with components a ++ ps and
    a ++ ls; the first components after the common part differ, and the one of
    [path] is not even a string prefix of the one of [link]. *)
Definition clean_split (ps ls : list str) : Prop :=
  match ps, ls with p :: _, l :: _ => startswith p l = false | _, _ => True end.

(** The new link is relative and refers to the file the old one referred to. *)
Theorem relative_link_same a ps ls :
  a <> [] -> Forall named (a ++ ps) -> Forall comp ls -> clean_split ps ls ->
  ps <> [] -> 2 <= length ps \/ ls <> [] ->
  exists t, make_relative_symlink (ptail (a ++ ps)) (ptail (a ++ ls)) = Relink t /\ isabs t = false /\
            refers_to (ptail (a ++ ps)) t = normpath (ptail (a ++ ls)).
Proof.
  intros NA F FL CS NP LP. destruct (exists_last NP) as (q & c & EQ).
  pose proof (proj1 (proj1 (Forall_app _ _ _) F)) as FA. pose proof (proj2 (proj1 (Forall_app _ _ _) F)) as FP.
  unfold make_relative_symlink.
  assert (IL : isabs (ptail (a ++ ls)) = true) by (destruct a; [congruence|reflexivity]). rewrite IL. cbn [negb].
  assert (LEN : length ps < S (length (ptail (a ++ ps)))).
  { assert (X : forall l, length l <= length (ptail l)) by (induction l as [|z l IH]; cbn; [lia|rewrite app_length; fold (ptail l); lia]).
    specialize (X (a ++ ps)). rewrite app_length in X. lia. }
  rewrite (ancestor_found _ a ps NA); auto.
  2:{ now apply named_comp. }
  2:{ rewrite ptail_app. apply startswith_iff. eauto. }
  2:{ intros pre post EP NPR. rewrite !ptail_app. rewrite startswith_cons_app. destruct pre as [|p pre]; [congruence|].
      apply prefix_first; auto.
      - rewrite EP in FP. inversion FP as [|? ? [Z _] _]; auto.
      - rewrite EP in CS. cbn [app clean_split] in CS. destruct ls; auto. }
  destruct (ptail a) as [|x0 x1] eqn:EA; [destruct a; [congruence|discriminate]|]. rewrite <- EA.
  rewrite ptail_app, skipn_app, skipn_all, Nat.sub_diag. cbn [app skipn]. rewrite strip_ptail by auto.
  assert (DQ : 0 + length ps - 1 = length q) by (rewrite EQ, app_length; cbn; lia). rewrite DQ.
  set (t := concat (repeat (s_ "../") (length q)) ++ join [slash] ls).
  assert (TN : t <> []).
  { unfold t. destruct q as [|q0 q]; [|discriminate]. cbn [length repeat concat app]. destruct ls as [|l ls].
    - exfalso. destruct LP as [LP|LP]; [rewrite EQ in LP; cbn in LP; lia|congruence].
    - inversion FL as [|? ? [LN _] _]; subst. destruct l; [congruence|]. destruct ls; discriminate. }
  exists t. split; [destruct t; [congruence|reflexivity]|]. split; [now apply relative_start|].
  assert (CC : comp c) by (rewrite EQ in FP; apply Forall_app in FP; destruct FP as [_ FP]; inversion FP as [|? ? [Z _] _]; auto).
  assert (FQ : Forall named (a ++ q)).
  { apply Forall_app. split; auto. rewrite EQ in FP. now apply Forall_app in FP. }
  destruct (refers_relative (ptail (a ++ ps)) c a q t ls) as [R|R]; auto.
  - rewrite EQ, app_assoc, ptail_app. cbn [ptail flat_map]. rewrite app_nil_r.
    destruct (ptail_last (a ++ q)) as (h & x & EH & X); [destruct a; [congruence|discriminate]|now apply named_comp|].
    rewrite EH. rewrite dirname_plain; auto. apply CC.
  - destruct a; [congruence|discriminate].
  - now apply relative_start.
  - unfold t. rewrite split_ups. destruct ls as [|l ls]; [right; left; reflexivity|left]. rewrite split_on_join; auto; [discriminate|].
    eapply Forall_impl; [|exact FL]. intros y [_ Y]; exact Y.
  - rewrite R. now rewrite ptail_app.
  - destruct a; [congruence|discriminate].
Qed.
Example relative_link_same_met :
  make_relative_symlink (ptail [s_ "a"; s_ "b"; s_ "c"; s_ "l"]) (ptail [s_ "a"; s_ "x"; s_ ".."; s_ "y"]) = Relink (s_ "../../x/../y") /\
  clean_split [s_ "b"; s_ "c"; s_ "l"] [s_ "x"; s_ ".."; s_ "y"] /\
  refers_to (s_ "/a/b/c/l") (s_ "../../x/../y") = s_ "/a/y".
Proof. repeat split; vm_compute; reflexivity. Qed.

(** A link with nothing in common with its target stays as it is. *)
Theorem unrelated_link_kept ps ls : Forall comp ps -> Forall comp ls -> clean_split ps ls ->
  ls <> [] -> make_relative_symlink (ptail ps) (ptail ls) = NoAncestor.
Proof.
  intros FP FL CS NL. unfold make_relative_symlink.
  assert (IL : isabs (ptail ls) = true) by (destruct ls; [congruence|reflexivity]). rewrite IL. cbn [negb].
  assert (LEN : length ps < S (length (ptail ps))).
  { assert (X : forall l, length l <= length (ptail l)) by (induction l as [|z l IH]; cbn; [lia|rewrite app_length; fold (ptail l); lia]).
    specialize (X ps). lia. }
  pose proof (ancestor_none (ptail ls) ps FP) as H. specialize (fun K => H K (S (length (ptail ps))) 0 LEN).
  assert (K : fst (ancestor (S (length (ptail ps))) (ptail ls) (ptail ps) 0) = []).
  { apply H. intros pre post EP NPR. destruct pre as [|p pre]; [congruence|]. apply prefix_first; auto.
    - rewrite EP in FP. inversion FP; auto.
    - rewrite EP in CS. cbn [app clean_split] in CS. destruct ls; auto. }
  destruct (ancestor (S (length (ptail ps))) (ptail ls) (ptail ps) 0) as [anc k]. cbn in K. now subst anc.
Qed.

(** Without the condition on the first differing components the claim is
    false: the common ancestor is searched as a string prefix. *)
Theorem relative_link_same_refuted : exists a ps ls t,
  a <> [] /\ Forall named (a ++ ps) /\ Forall comp ls /\ ps <> [] /\ ls <> [] /\
  make_relative_symlink (ptail (a ++ ps)) (ptail (a ++ ls)) = Relink t /\
  refers_to (ptail (a ++ ps)) t <> normpath (ptail (a ++ ls)).
Proof.
  exists [s_ "usr"], [s_ "lib"; s_ "x"], [s_ "lib64"; s_ "y"], (s_ "64/y").
  split; [discriminate|]. split; [repeat constructor; discriminate|]. split; [repeat constructor; discriminate|].
  split; [discriminate|]. split; [discriminate|]. split; [vm_compute; reflexivity|vm_compute; discriminate].
Qed.
(** A link to its own directory is removed, and the new link cannot be made. *)
Theorem link_to_own_directory_refuted :
  make_relative_symlink (s_ "/usr/lib/x") (s_ "/usr/lib") = LinkLost.
Proof. vm_compute. reflexivity. Qed.

(** replace_absolute_symlinks: seen from a process whose root directory is
    [basedir], the new link refers to the file the old one referred to. *)
Theorem replaced_link_same cwd basedir cs link :
  basedir <> [] -> (forall x y, basedir ++ ptail cs = x ++ basedir ++ y -> x = []) ->
  Forall named cs -> cs <> [] -> absolute link ->
  refers_to (ptail cs) (replace_absolute cwd basedir (basedir ++ ptail cs) link) = normpath link.
Proof.
  intros NB U F NE AL. unfold replace_absolute. rewrite after_last_spec by auto. now apply relpath_refers.
Qed.
Example replaced_link_same_met :
  replace_absolute (s_ "/cwd") (s_ "/build/root") (s_ "/build/root/usr/lib/x") (s_ "//..//etc/./y/") = s_ "../../etc/y" /\
  replace_absolute (s_ "/cwd") (s_ "/build/root") (s_ "/build/root/usr/lib/x") (s_ "/usr/lib") = s_ "." /\
  refers_to (s_ "/usr/lib/x") (s_ "../../etc/y") = s_ "/etc/y".
Proof. repeat split; vm_compute; reflexivity. Qed.
(** With the base directory given with a trailing slash the directory of the
    link is taken relative to the current directory, and the link is wrong. *)
Theorem replaced_link_trailing_slash_refuted : exists cwd basedir path link,
  path = basedir ++ s_ "usr/x" /\ refers_to (s_ "/usr/x") (replace_absolute cwd basedir path link) <> normpath link.
Proof.
  exists (s_ "/usr"), (s_ "/r/"), (s_ "/r/usr/x"), (s_ "/usr/y"). split; [reflexivity|vm_compute; discriminate].
Qed.
(** When the name of the base directory occurs again further down, the wrong part is cut off. *)
Theorem replaced_link_repeated_base_refuted : exists cwd basedir cs link,
  basedir <> [] /\ Forall named cs /\ cs <> [] /\ absolute link /\
  refers_to (ptail cs) (replace_absolute cwd basedir (basedir ++ ptail cs) link) <> normpath link.
Proof.
  exists (s_ "/cwd"), (s_ "/r"), [s_ "r"; s_ "x"], (s_ "/usr/y"). split; [discriminate|]. split; [repeat constructor; discriminate|].
  split; [discriminate|]. split; [reflexivity|vm_compute; discriminate].
Qed.

(** is_path_parent compares components, not characters. *)
Theorem path_parent_iff cwd parent p :
  absolute parent -> absolute p ->
  (is_path_parent cwd parent [p] = true <-> exists more, norm_comps p = norm_comps parent ++ more).
Proof.
  intros A B. unfold is_path_parent. cbn [forallb]. rewrite andb_true_r, !trailing_form by auto.
  apply trailing_prefix; [apply (norm_comps_ok parent)|apply (norm_comps_ok p)].
Qed.
Example path_parent_met : is_path_parent [] (s_ "/a/b") [s_ "/a/./b/c"] = true /\ is_path_parent [] (s_ "/a/b") [s_ "/a/bc"] = false /\
  absolute (s_ "/a/b") /\ absolute (s_ "/a/bc").
Proof. repeat split; vm_compute; reflexivity. Qed.

Print Assumptions realpath_inside.
Print Assumptions realpath_link_free.
Print Assumptions realpath_never_asserts.
Print Assumptions realpath_refuses_outside.
Print Assumptions realpath_is_chroot.
Print Assumptions walk_deterministic.
Print Assumptions realpath_finds.
Print Assumptions realpath_relative_root_refuted.
Print Assumptions realpath_canonical_refuted.
Print Assumptions relative_link_same.
Print Assumptions unrelated_link_kept.
Print Assumptions relative_link_same_refuted.
Print Assumptions link_to_own_directory_refuted.
Print Assumptions replaced_link_same.
Print Assumptions replaced_link_trailing_slash_refuted.
Print Assumptions replaced_link_repeated_base_refuted.
Print Assumptions path_parent_iff.
