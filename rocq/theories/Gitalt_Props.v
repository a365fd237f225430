(** Git repositories in the build chroot. *)
From Coq Require Import Ascii String List Bool Arith Lia.
From Verif Require Import Str_Model Str_Proofs Posix_Model Posix_Proofs Path_Model Path_Proofs Gitalt_Model Gitalt_Spec Gitalt_Proofs.
Import ListNotations.
Open Scope list_scope.

(** The directory that is adjusted is the one the repository was unpacked to, without subdir. *)
Theorem adjusted_place rootdir s : given (s_subdir s) = [] -> adjust_dest rootdir s = unpack_dest rootdir s.
Proof. unfold adjust_dest, unpack_dest. now intros ->. Qed.

Lemma a_nm c : negb (seqb c []) && negb (existsb (aeqb "/"%char) c) && negb (seqb c (s_ ".")) && negb (seqb c (s_ "..")) = true -> a_name c.
Proof.
  rewrite !andb_true_iff, !negb_true_iff. intros [[[A B] C] D]. repeat split; try (now apply seqb_neq). intro I. assert (X : existsb (aeqb "/"%char) c = true) by (apply existsb_exists; exists "/"%char; split; [exact I|apply aeqb_refl]). congruence.
Qed.
Lemma link_names ls : names ls -> git_link (absolute ls) = ptail (ls ++ [s_ ".git-downloads"]) /\ Forall named (ls ++ [s_ ".git-downloads"]).
Proof.
  intros [N F]. split.
  - unfold git_link. rewrite absolute_ptail. destruct (ptail_last ls N (named_comp _ (names_named _ F))) as (h & x & E & X). rewrite E, pjoin_plain by (reflexivity || exact X). rewrite <- E, ptail_app. reflexivity.
  - apply Forall_app. split; [now apply names_named|]. constructor; [apply name_named, a_nm; reflexivity|constructor].
Qed.
Lemma dl_names ls : names ls -> git_dl (absolute ls) = ptail (ls ++ [s_ "git"]).
Proof.
  intros [N F]. unfold git_dl. rewrite absolute_ptail. destruct (ptail_last ls N (named_comp _ (names_named _ F))) as (h & x & E & X). rewrite E, pjoin_plain by (reflexivity || exact X). rewrite <- E, ptail_app. reflexivity.
Qed.
Lemma sed_works cwd ls dls start lines : names ls -> names dls -> quiet (absolute ls) -> quiet (absolute dls) ->
  sed (git_dl (absolute dls)) (relpath cwd (git_link (absolute ls)) start) lines = Some (map (sed_line (git_dl (absolute dls)) (relpath cwd (git_link (absolute ls)) start)) lines) /\ quiet (relpath cwd (git_link (absolute ls)) start).
Proof.
  intros L D QL QD. destruct (link_names ls L) as [EL FL]. rewrite EL. rewrite absolute_ptail in QL, QD. apply quiet_ptail in QL, QD.
  assert (QR : quiet (relpath cwd (ptail (ls ++ [s_ ".git-downloads"])) start)).
  { apply relpath_quiet; [destruct ls; discriminate|exact FL|]. apply Forall_app. split; [exact QL|]. constructor; [|constructor]. intros c I J. vm_compute in I, J. intuition congruence. }
  split; [|exact QR]. unfold sed. rewrite (special_quiet _ (git_dl (absolute dls))), (special_quiet _ (relpath _ _ _)); [reflexivity| |exact QR| |].
  - intros c I. cbn in *. tauto.
  - intros c I. cbn in *. tauto.
  - rewrite dl_names by exact D. apply quiet_ptail, Forall_app. split; [exact QD|]. constructor; [|constructor]. intros c I J. vm_compute in I, J. intuition congruence.
Qed.
Lemma adjust_frame cwd rootdir ls dls srcs k : names ls -> names dls -> quiet (absolute ls) -> quiet (absolute dls) -> forall f,
  (forall o, In o srcs -> s_git o = true -> alternates (adjust_dest rootdir o) <> k) ->
  exists f', adjust_git cwd rootdir (absolute ls) (absolute dls) srcs f = Some f' /\ f' k = f k.
Proof.
  intros L D QL QD. induction srcs as [|o srcs IH]; intros f H; [exists f; auto|]. cbn [adjust_git].
  assert (S : exists f1, adjust_one cwd rootdir (absolute ls) (absolute dls) o f = Some f1 /\ f1 k = f k).
  { unfold adjust_one. destruct (s_git o) eqn:G; [|exists f; auto]. cbn zeta. destruct (f (alternates (adjust_dest rootdir o))) as [lines|]; [|exists f; auto].
    destruct (sed_works cwd ls dls (pjoin (adjust_dest rootdir o) (s_ ".git/objects")) lines L D QL QD) as [-> _]. eexists. split; [reflexivity|]. unfold put. 
    destruct (seqb k (alternates (adjust_dest rootdir o))) eqn:E; [|reflexivity]. apply seqb_eq in E. exfalso. apply (H o (or_introl eq_refl) G). now rewrite E. }
  destruct S as (f1 & -> & E). destruct (IH f1) as (f' & E1 & E2); [intros o' I; apply H; right; exact I|]. exists f'. split; [exact E1|congruence].
Qed.
Lemma adjust_app cwd rootdir l d a b f : adjust_git cwd rootdir l d (a ++ b) f = match adjust_git cwd rootdir l d a f with Some f => adjust_git cwd rootdir l d b f | None => None end.
Proof. revert f. induction a as [|s a IH]; intro f; [reflexivity|]. cbn [app adjust_git]. destruct (adjust_one cwd rootdir l d s f); [apply IH|reflexivity]. Qed.

(** The objects that a clone borrows from the downloads are found, in a place relative to it: by the link beside the recipes. *)
Theorem alternates_adjusted cwd rootdir ls dls ds srcs pre s post f name :
  names ls -> names dls -> names ds -> a_name name -> quiet (absolute ls) -> quiet (absolute dls) ->
  srcs = pre ++ s :: post -> s_git s = true -> given (s_subdir s) = [] -> normpath (unpack_dest rootdir s) = absolute ds ->
  (forall o, In o (pre ++ post) -> s_git o = true -> alternates (adjust_dest rootdir o) <> alternates (unpack_dest rootdir s)) ->
  f (alternates (unpack_dest rootdir s)) = Some [absolute (dls ++ [s_ "git"; name; s_ "objects"])] ->
  exists f' line, adjust_git cwd rootdir (absolute ls) (absolute dls) srcs f = Some f' /\ f' (alternates (unpack_dest rootdir s)) = Some [line] /\
    isabs line = false /\ git_object_dir (unpack_dest rootdir s) line = absolute (ls ++ [s_ ".git-downloads"; name; s_ "objects"]).
Proof.
  intros L D [ND FD] NM QL QD -> G SD E H FE. rewrite <- (adjusted_place rootdir s SD) in *. set (k := alternates (adjust_dest rootdir s)) in *.
  destruct (adjust_frame cwd rootdir ls dls pre k L D QL QD f) as (f1 & A1 & K1); [intros o I; apply H, in_or_app; left; exact I|].
  set (rel := relpath cwd (git_link (absolute ls)) (pjoin (adjust_dest rootdir s) (s_ ".git/objects"))).
  destruct (sed_works cwd ls dls (pjoin (adjust_dest rootdir s) (s_ ".git/objects")) [absolute (dls ++ [s_ "git"; name; s_ "objects"])] L D QL QD) as [SE QR]. fold rel in SE, QR.
  assert (LN : absolute (dls ++ [s_ "git"; name; s_ "objects"]) = git_dl (absolute dls) ++ ptail [name; s_ "objects"]).
  { rewrite absolute_ptail, dl_names by exact D. rewrite !ptail_app, <- app_assoc. reflexivity. }
  set (line := rel ++ ptail [name; s_ "objects"]).
  set (f2 := put f1 k [line]). destruct (adjust_frame cwd rootdir ls dls post k L D QL QD f2) as (f3 & A3 & K3); [intros o I; apply H, in_or_app; right; exact I|].
  exists f3, line. destruct (link_names ls L) as [EL FL]. assert (NL : ls ++ [s_ ".git-downloads"] <> []) by (destruct ls; discriminate).
  destruct (relpath_relative cwd _ (pjoin (adjust_dest rootdir s) (s_ ".git/objects")) NL FL) as [RA RN]. rewrite <- EL in RA, RN. fold rel in RA, RN. split; [|split; [|split]].
  - rewrite adjust_app, A1. cbn [adjust_git]. unfold adjust_one. rewrite G. cbn zeta. fold k rel. rewrite K1, FE, SE. cbn [option_map map]. rewrite LN, sed_self; [exact A3|]. intro I. apply (QR _ I). cbn. auto 10.
  - rewrite K3. unfold f2, put. now rewrite seqb_refl.
  - unfold line. rewrite isabs_app by exact RN. exact RA.
  - unfold line, rel. rewrite EL. rewrite (adjusted_line cwd (adjust_dest rootdir s) ds (ls ++ [s_ ".git-downloads"]) [name; s_ "objects"]); [rewrite absolute_ptail, <- app_assoc; reflexivity|exact ND|now apply names_named|exact NL|exact FL|discriminate| |rewrite <- absolute_ptail; exact E].
    constructor; [now apply name_named|]. constructor; [apply name_named, a_nm; reflexivity|constructor].
Qed.
Definition ex_src : source := mkSource true None None None.
Definition ex_files : files := fun p => if seqb p (s_ "/b/tmp/work/d-a/hello/1.0/git/.git/objects/info/alternates") then Some [s_ "/b/dl.d/git/github.com.x.hello.git/objects"] else None.
Example alternates_adjusted_met :
  names [s_ "b"; s_ "tmp"; s_ "work"; s_ "d-a"] /\ quiet (s_ "/b/dl.d") /\ normpath (unpack_dest (s_ "/b/tmp/work/d-a/hello/1.0") ex_src) = s_ "/b/tmp/work/d-a/hello/1.0/git" /\
  ex_files (alternates (unpack_dest (s_ "/b/tmp/work/d-a/hello/1.0") ex_src)) <> None /\
  option_map (fun f => f (alternates (unpack_dest (s_ "/b/tmp/work/d-a/hello/1.0") ex_src))) (adjust_git (s_ "/") (s_ "/b/tmp/work/d-a/hello/1.0") (s_ "/b/tmp/work/d-a") (s_ "/b/dl.d") [ex_src] ex_files) =
    Some (Some [s_ "../../../../../.git-downloads/github.com.x.hello.git/objects"]).
Proof.
  split; [split; [discriminate|repeat (constructor; [apply a_nm; reflexivity|]); constructor]|]. split; [intros c I J; vm_compute in I, J; intuition congruence|]. split; [vm_compute; reflexivity|]. split; [vm_compute; discriminate|vm_compute; reflexivity].
Qed.

(** A repository unpacked to a subdir is not adjusted: its objects are still looked for in the downloads of the host. *)
Theorem alternates_subdir_refuted : exists rootdir s f f' line, s_git s = true /\ f (alternates (unpack_dest rootdir s)) = Some [line] /\
  adjust_git (s_ "/") rootdir (s_ "/b/tmp/work/d-a") (s_ "/b/dl") [s] f = Some f' /\ f' (alternates (unpack_dest rootdir s)) = Some [line] /\ isabs line = true.
Proof.
  exists (s_ "/w"), (mkSource true (Some (s_ "sub")) None None).
  exists (fun p => if seqb p (s_ "/w/sub/.git/objects/info/alternates") then Some [s_ "/b/dl/git/x/objects"] else None). do 2 eexists. vm_compute. repeat split.
Qed.

(** A link in the downloads to something in them gets a relative target, which leads to the same. *)
Theorem mirror_relative dls rs : names dls -> names rs ->
  mirror_target (absolute dls) (absolute (dls ++ rs)) = Some (join [slash] rs) /\ isabs (join [slash] rs) = false /\ normpath (pjoin (absolute dls) (join [slash] rs)) = absolute (dls ++ rs).
Proof.
  intros [ND FD] [NR FR]. apply names_named in FD, FR.
  assert (E : absolute (dls ++ rs) = (absolute dls ++ s_ "/") ++ join [slash] rs) by (rewrite !absolute_ptail, ptail_app, (ptail_join rs NR), <- app_assoc; reflexivity).
  assert (B : isabs (join [slash] rs) = false).
  { destruct rs as [|[|x c] rs]; [contradiction|inversion FR as [|? ? [[C _] _] _]; contradiction|]. inversion FR as [|? ? [[_ C] _] _]; subst. inversion C as [|? ? C1 _]; subst. destruct rs; exact C1. }
  split; [|split; [exact B|]].
  - unfold mirror_target. rewrite E, startswith_app, skipn_app, Nat.sub_diag, skipn_all. reflexivity.
  - pose proof (names_initial dls ND FD) as I. rewrite !absolute_ptail. destruct (pjoin_names (ptail dls) rs I) as [I2 C2]; [rewrite norm_comps_ptail by exact FD; exact ND|exact FR|exact NR|].
    rewrite norm_comps_ptail in C2 by exact FD. rewrite normpath_one_ptail; [now rewrite C2|exact I2|rewrite C2; destruct dls; [contradiction|discriminate]].
Qed.
Example mirror_relative_met : names [s_ "dl"; s_ "git"] /\ names [s_ "mirror.git"] /\ mirror_target (s_ "/dl/git") (s_ "/dl/git/mirror.git") = Some (s_ "mirror.git") /\ mirror_target (s_ "/dl/git") (s_ "/mnt/git/mirror.git") = None.
Proof. split; [split; [discriminate|repeat (constructor; [apply a_nm; reflexivity|]); constructor]|]. split; [split; [discriminate|repeat (constructor; [apply a_nm; reflexivity|]); constructor]|]. vm_compute. auto. Qed.

(** The link beside the recipes leads to the downloads afterwards, if it was missing or led to something that is there. *)
Theorem link_leads there real dl link : (link = None \/ exists t, link = Some t /\ there t = true) ->
  exists t, link_step there real dl link = Some t /\ real t = real dl.
Proof.
  unfold link_step. intros [->|(t & -> & T)]; [exists dl; auto|]. rewrite T. cbn [andb]. destruct (seqb (real t) (real dl)) eqn:E; cbn [negb]; [|exists dl; auto].
  rewrite T. exists t. split; [reflexivity|]. now apply seqb_eq.
Qed.
Example link_leads_met : link_step (fun _ => true) (fun t => t) (s_ "/new/git") (Some (s_ "/old/git")) = Some (s_ "/new/git") /\ link_step (fun _ => true) (fun t => t) (s_ "/new/git") None = Some (s_ "/new/git").
Proof. vm_compute. auto. Qed.
(** If the old downloads were moved away, the task fails: the dangling link is not replaced. *)
Theorem link_dangling_refuted : exists there real dl old, there dl = true /\ there old = false /\ link_step there real dl (Some old) = None.
Proof. exists (fun p => seqb p (s_ "/new/git")), (fun p => p), (s_ "/new/git"), (s_ "/old/git"). vm_compute. auto. Qed.

Print Assumptions adjusted_place.
Print Assumptions alternates_adjusted.
Print Assumptions alternates_subdir_refuted.
Print Assumptions mirror_relative.
Print Assumptions link_leads.
