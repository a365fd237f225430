(** Revisions of git sources: the claims. *)
From Coq Require Import Ascii String List Bool Arith Lia.
From Verif Require Import Str_Model Str_Proofs Gitrev_Model Gitrev_Spec Gitrev_Proofs.
Import ListNotations.
Open Scope list_scope.

(** ** C124: the revision a recipe asks for *)
Section Asked.
  Variables (getVar : str -> option str) (pn name : str).
  Hypothesis Hpn : pn <> [].
  Hypothesis Hname : name <> [].
  Let got := srcrev_internal_helper getVar (Some pn).
  Lemma got_decided : forall v, decided getVar (variables pn name) v -> forall prev ptag,
    got prev ptag name = match prev, ptag with
      | Some _, Some _ => Failed
      | Some p, None | None, Some p => if seqb v p then Rev p else Failed
      | None, None => if seqb v (s_ "AUTOINC") then Latest else Rev v end.
  Proof.
    intros v D prev ptag. unfold got, srcrev_internal_helper. rewrite (attempts_variables pn name Hpn Hname). destruct (look_decided _ _ None v D) as [E V]. rewrite V, E. reflexivity.
  Qed.
  Lemma got_undecided : undecided getVar (variables pn name) -> forall prev ptag,
    got prev ptag name = match prev, ptag with Some p, None | None, Some p => Rev p | _, _ => Failed end.
  Proof.
    intros U prev ptag. unfold got, srcrev_internal_helper. rewrite (attempts_variables pn name Hpn Hname). rewrite (look_undecided _ _ None U eq_refl). destruct prev, ptag; reflexivity.
  Qed.
  (** Without rev or tag in the URL the first usable variable decides. *)
  Theorem srcrev_exact : forall r, (got None None name = Rev r <-> decided getVar (variables pn name) r /\ r <> s_ "AUTOINC").
  Proof.
    intro r. destruct (decide getVar (variables pn name)) as [[v D]|U].
    - rewrite (got_decided v D). destruct (seqb v (s_ "AUTOINC")) eqn:A.
      + apply seqb_eq in A. split; [discriminate|]. intros [R N]. rewrite (decided_one _ _ _ _ R D) in N. congruence.
      + split.
        * intro H. assert (v = r) by congruence. subst r. split; [exact D|]. intro E. rewrite E, seqb_refl in A. discriminate A.
        * intros [R _]. rewrite (decided_one _ _ _ _ R D). reflexivity.
    - rewrite (got_undecided U). split; [discriminate|]. intros [R _]. destruct (not_both _ _ _ R U).
  Qed.
  Theorem srcrev_latest : got None None name = Latest <-> decided getVar (variables pn name) (s_ "AUTOINC").
  Proof.
    destruct (decide getVar (variables pn name)) as [[v D]|U].
    - rewrite (got_decided v D). destruct (seqb v (s_ "AUTOINC")) eqn:A.
      + apply seqb_eq in A. subst v. split; auto.
      + split; [discriminate|]. intro R. rewrite (decided_one _ _ _ _ D R), seqb_refl in A. discriminate A.
    - rewrite (got_undecided U). split; [discriminate|]. intro R. destruct (not_both _ _ _ R U).
  Qed.
  Theorem srcrev_missing : got None None name = Failed <-> undecided getVar (variables pn name).
  Proof.
    destruct (decide getVar (variables pn name)) as [[v D]|U].
    - rewrite (got_decided v D). split; [destruct (seqb v (s_ "AUTOINC")); discriminate|]. intro U. destruct (not_both _ _ _ D U).
    - rewrite (got_undecided U). tauto.
  Qed.
  (** A revision in the URL is the one, unless the variables say otherwise. *)
  Theorem srcrev_param : forall p prev ptag, (prev = Some p /\ ptag = None) \/ (prev = None /\ ptag = Some p) ->
    (got prev ptag name = Rev p <-> undecided getVar (variables pn name) \/ decided getVar (variables pn name) p) /\
    (got prev ptag name = Failed <-> exists v, decided getVar (variables pn name) v /\ v <> p).
  Proof.
    intros p prev ptag C. destruct (decide getVar (variables pn name)) as [[v D]|U].
    - assert (G : got prev ptag name = if seqb v p then Rev p else Failed) by (rewrite (got_decided v D); destruct C as [[-> ->]|[-> ->]]; reflexivity).
      rewrite G. destruct (seqb v p) eqn:A.
      + apply seqb_eq in A. subst v. split; [split; auto|]. split; [discriminate|]. intros (w & W & N). destruct N. apply (decided_one _ _ _ _ W D).
      + assert (N : v <> p) by (intros ->; rewrite seqb_refl in A; discriminate A). split.
        * split; [discriminate|]. intros [U|R]; [destruct (not_both _ _ _ D U)|destruct N; apply (decided_one _ _ _ _ D R)].
        * split; [|reflexivity]. intros _. exists v. auto.
    - assert (G : got prev ptag name = Rev p) by (rewrite (got_undecided U); destruct C as [[-> ->]|[-> ->]]; reflexivity).
      rewrite G. split; [split; auto|]. split; [discriminate|]. intros (w & W & _). destruct (not_both _ _ _ W U).
  Qed.
  Theorem srcrev_both : forall p q, got (Some p) (Some q) name = Failed.
  Proof. reflexivity. Qed.
End Asked.
Definition demo_vars (a : str) : option str :=
  if seqb a (s_ "SRCREV_linux") then Some (s_ "INVALID") else if seqb a (s_ "SRCREV:pn-hello") then Some (s_ "v5") else if seqb a (s_ "SRCREV") then Some (s_ "AUTOINC") else None.
Example demo_asked : decided demo_vars (variables (s_ "hello") (s_ "linux")) (s_ "v5") /\ srcrev_internal_helper demo_vars (Some (s_ "hello")) None None (s_ "linux") = Rev (s_ "v5") /\
  srcrev_internal_helper demo_vars (Some (s_ "hello")) None (Some (s_ "v6")) (s_ "linux") = Failed /\ srcrev_internal_helper demo_vars (Some (s_ "other")) None None (s_ "linux") = Latest.
Proof.
  split; [|repeat split; reflexivity]. exists [s_ "SRCREV_linux:pn-hello"; s_ "SRCREV_linux"], (s_ "SRCREV:pn-hello"), [s_ "SRCREV"]. split; [reflexivity|]. split; [split; [reflexivity|split; discriminate]|].
  intros b w [<-|[<-|[]]] (E & _ & N); [discriminate E|]. vm_compute in E. injection E as <-. apply N. reflexivity.
Qed.

(** ** C125: from a branch or tag to a commit *)
(** A plain name is a branch if there is one, otherwise a tag, and then the commit of
    the tag if the tag is an object of its own. *)
Theorem resolve_exact : forall u out c, refs_once out -> ~ begins_refs u ->
  (resolve false u out = Some c <->
   points out (branch_ref u) c \/
   (absent out (branch_ref u) /\ points out (peeled (tag_ref u)) c) \/
   (absent out (branch_ref u) /\ absent out (peeled (tag_ref u)) /\ points out (tag_ref u) c)).
Proof.
  intros u out c N F. unfold resolve. assert (E : is_ref u = false) by (apply not_true_iff_false; intro H; apply F, is_ref_iff, H). rewrite E. cbn [orb]. apply (three out _ _ _ c N).
Qed.
(** A full name of a ref, or HEAD of a repository used in place, is that ref. *)
Theorem resolve_full : forall h u out c, refs_once out -> h = true \/ begins_refs u ->
  (resolve h u out = Some c <-> points out u c \/ (absent out u /\ points out (peeled u) c)).
Proof.
  intros h u out c N F. unfold resolve. assert (E : is_ref u || h = true) by (destruct F as [->|F]; [apply orb_true_r|apply is_ref_iff in F; rewrite F; reflexivity]). rewrite E.
  rewrite (three out _ _ _ c N). fold (peeled u). split; [|tauto]. intros [H|[H|(A & _ & H)]]; [tauto|tauto|]. destruct (A c H).
Qed.
Theorem resolve_fails : forall u out, refs_once out -> ~ begins_refs u ->
  (resolve false u out = None <-> absent out (branch_ref u) /\ absent out (peeled (tag_ref u)) /\ absent out (tag_ref u)).
Proof.
  intros u out N F. assert (X : forall c, _) by (intro c; exact (resolve_exact u out c N F)). split.
  - intro H. assert (A : absent out (branch_ref u)) by (intros c P; assert (Y : resolve false u out = Some c) by (apply X; auto); congruence).
    assert (B : absent out (peeled (tag_ref u))) by (intros c P; assert (Y : resolve false u out = Some c) by (apply X; auto); congruence).
    split; [exact A|]. split; [exact B|]. intros c P. assert (Y : resolve false u out = Some c) by (apply X; auto). congruence.
  - intros (A & B & C). destruct (resolve false u out) as [c|] eqn:R; [|reflexivity]. clear R. pose proof (proj1 (X c) eq_refl) as R. destruct R as [R|[[_ R]|[_ [_ R]]]]; [destruct (A c R)|destruct (B c R)|destruct (C c R)].
Qed.
(** A full commit is used as it is: neither the repository nor the store matters. *)
Theorem revision_fixed : forall revs w b r out, sha1 r -> revision revs w b (Rev r) out = (Some r, revs).
Proof. intros revs w b r out S. unfold revision. apply is_sha1_iff in S. rewrite S. reflexivity. Qed.
(** Whatever is asked for, what is built is a full commit: one given, one stored or one
    the repository names. *)
Lemma latest_from : forall revs w u out c revs', latest_revision revs w u out = (Some c, revs') ->
  ((exists k, In (k, c) revs) \/ exists r, points out r c) /\ forall k x, In (k, x) revs' -> In (k, x) revs \/ exists r, points out r x.
Proof.
  intros revs w u out c revs'. unfold latest_revision. set (key := revision_key _ _ _). destruct (get_rev key revs) as [x|] eqn:G.
  - intro H. injection H as <- <-. split; [|auto]. left. unfold get_rev in G. destruct (find _ revs) as [[k y]|] eqn:F; [|discriminate G]. injection G as <-. apply find_some in F. exists k. apply F.
  - destruct (resolve _ u out) as [y|] eqn:R; [|discriminate]. intro H. injection H as <- <-. apply resolve_In in R. split; [right; exact R|]. intros k x [H|H]; [|auto]. injection H as _ <-. right. exact R.
Qed.
Theorem revision_commit : forall revs w b a out c, (forall r x, points out r x -> sha1 x) -> (forall k x, In (k, x) revs -> sha1 x) ->
  fst (revision revs w b a out) = Some c -> sha1 c /\ (a = Rev c \/ (exists k, In (k, c) revs) \/ exists r, points out r c).
Proof.
  intros revs w b a out c O S.
  assert (L : forall rv u, (forall k x, In (k, x) rv -> sha1 x) -> forall y, fst (latest_revision rv w u out) = Some y -> sha1 y /\ ((exists k, In (k, y) rv) \/ exists r, points out r y)).
  { intros rv u SR y H. destruct (latest_revision rv w u out) as [z rv'] eqn:E. cbn in H. subst z. destruct (latest_from _ _ _ _ _ _ E) as [F _]. split; [|exact F]. destruct F as [[k I]|[r P]]; [apply (SR k y I)|apply (O r y P)]. }
  destruct a as [|r|]; cbn [revision].
  - discriminate.
  - destruct (is_sha1 r) eqn:I.
    + cbn. intro H. injection H as <-. split; [apply is_sha1_iff, I|auto].
    + intro H. destruct (L revs _ S c H) as [A B]. auto.
  - destruct (latest_revision revs w (unresolved w b) out) as [[r|] rv] eqn:E; [|discriminate].
    destruct (latest_from _ _ _ _ _ _ E) as [F M]. assert (SR : sha1 r) by (destruct F as [[k I]|[q P]]; [apply (S k r I)|apply (O q r P)]). rewrite (proj2 (is_sha1_iff r) SR). cbn. intro H. injection H as <-. auto.
Qed.
Definition c_old : str := s_ "1111111111111111111111111111111111111111".
Definition c_new : str := s_ "2222222222222222222222222222222222222222".
Definition c_obj : str := s_ "3333333333333333333333333333333333333333".
Definition repo_git : url := mkUrl (s_ "example.com") (s_ "/project") false.
Lemma sha1_b : forall r, is_sha1 r = true -> sha1 r.
Proof. intros r H. apply is_sha1_iff, H. Qed.
(** Without a revision the newest commit of the branch is built, and of a repository
    used in place the one of HEAD. *)
Theorem revision_newest : forall w b out c, refs_once out -> sha1 c -> ~ begins_refs b -> u_usehead w = false -> points out (branch_ref b) c -> fst (revision [] w b Latest out) = Some c.
Proof.
  intros w b out c O H B U P. unfold revision, latest_revision, unresolved. cbn [get_rev find option_map]. rewrite U. rewrite (proj2 (resolve_exact b out c O B) (or_introl P)). cbn iota beta. rewrite (proj2 (is_sha1_iff c) H). reflexivity.
Qed.
Theorem revision_head : forall w b out c, refs_once out -> sha1 c -> u_usehead w = true -> points out (s_ "HEAD") c -> fst (revision [] w b Latest out) = Some c.
Proof.
  intros w b out c O H U P. unfold revision, latest_revision, unresolved. cbn [get_rev find option_map]. rewrite U. rewrite (proj2 (resolve_full true (s_ "HEAD") out c O (or_introl eq_refl)) (or_introl P)). cbn iota beta. rewrite (proj2 (is_sha1_iff c) H). reflexivity.
Qed.
(** A revision that is no full commit is looked up in the repository. *)
Theorem revision_named : forall w b u out, u <> [] -> ~ sha1 u -> fst (revision [] w b (Rev u) out) = resolve (u_usehead w) u out.
Proof.
  intros w b u out N H. unfold revision, latest_revision. cbn [get_rev find option_map]. destruct (is_sha1 u) eqn:E; [exfalso; apply H, is_sha1_iff, E|]. destruct u as [|c u]; [congruence|]. destruct (resolve (u_usehead w) (c :: u) out); reflexivity.
Qed.
(** ";tag=1.0" means a branch if the repository has a branch of that name too. *)
Theorem tag_param_refuted : exists out tag, refs_once out /\ points out (tag_ref tag) c_old /\
  fst (revision [] repo_git (s_ "main") (srcrev_internal_helper (fun _ => None) (Some (s_ "hello")) None (Some tag) (s_ "default")) out) = Some c_new /\ ~ points out (tag_ref tag) c_new.
Proof.
  exists [(c_new, branch_ref (s_ "1.0")); (c_old, tag_ref (s_ "1.0"))], (s_ "1.0"). split; [repeat constructor; cbn; intuition discriminate|]. split; [right; left; reflexivity|]. split; [vm_compute; reflexivity|].
  intros [H|[H|[]]]; vm_compute in H; discriminate H.
Qed.
(** The full name of an annotated tag gives the object of the tag, not the commit. *)
Theorem full_tag_refuted : exists out tag, refs_once out /\ points out (tag_ref tag) c_obj /\ points out (peeled (tag_ref tag)) c_new /\
  resolve false tag out = Some c_new /\ resolve false (tag_ref tag) out = Some c_obj.
Proof.
  exists [(c_obj, tag_ref (s_ "1.0")); (c_new, peeled (tag_ref (s_ "1.0")))], (s_ "1.0"). split; [repeat constructor; cbn; intuition discriminate|]. split; [left; reflexivity|]. split; [right; left; reflexivity|]. split; reflexivity.
Qed.
(** With usehead a branch given as the revision is not found although it exists. *)
Theorem usehead_branch_refuted : exists out b, refs_once out /\ points out (branch_ref b) c_new /\
  fst (revision [] (mkUrl [] (s_ "/src/project") true) (s_ "main") (Rev b) out) = None.
Proof.
  exists [(c_old, s_ "HEAD"); (c_new, branch_ref (s_ "next"))], (s_ "next"). split; [repeat constructor; cbn; intuition discriminate|]. split; [right; left; reflexivity|reflexivity].
Qed.
Definition demo_out : remote := [(c_new, s_ "HEAD"); (c_new, branch_ref (s_ "main")); (c_obj, tag_ref (s_ "v1")); (c_old, peeled (tag_ref (s_ "v1")))].
Example demo_resolve : refs_once demo_out /\ ~ begins_refs (s_ "v1") /\ resolve false (s_ "v1") demo_out = Some c_old /\ resolve false (s_ "main") demo_out = Some c_new /\
  resolve true (s_ "HEAD") demo_out = Some c_new /\ resolve false (s_ "v2") demo_out = None /\ sha1 c_old /\ (forall r x, points demo_out r x -> sha1 x) /\
  fst (revision [] repo_git (s_ "main") Latest demo_out) = Some c_new.
Proof.
  split; [repeat constructor; cbn; intuition discriminate|]. split; [intros [v H]; discriminate H|]. split; [reflexivity|]. split; [reflexivity|]. split; [reflexivity|]. split; [reflexivity|]. split; [apply sha1_b; reflexivity|].
  split; [|vm_compute; reflexivity]. intros r x [H|[H|[H|[H|[]]]]]; assert (E := f_equal fst H); cbn [fst] in E; rewrite <- E; apply sha1_b; reflexivity.
Qed.

(** ** C126: the store of resolved revisions *)
Definition nth_answer (l : list request) (i : nat) : option str := match nth_error (ask_all [] l) i with Some r => r | None => None end.
Lemma nth_last : forall pre q, nth_answer (pre ++ [q]) (length pre) = fst (latest_revision (store [] pre) (fst (fst q)) (snd (fst q)) (snd q)).
Proof.
  intros pre [[w u] o]. unfold nth_answer. rewrite ask_all_app, nth_error_app2 by (rewrite ask_all_length; reflexivity). rewrite ask_all_length, Nat.sub_diag. cbn [ask_all fst snd]. destruct (latest_revision (store [] pre) w u o) as [r s]. reflexivity.
Qed.
Lemma nth_prefix : forall pre post i, i < length pre -> nth_answer (pre ++ post) i = nth_answer pre i.
Proof. intros pre post i L. unfold nth_answer. rewrite ask_all_app, nth_error_app1 by (rewrite ask_all_length; exact L). reflexivity. Qed.
(** Once a branch or tag is resolved every later request of the build gets the same
    commit, however the repository moves on. *)
Theorem asked_again : forall pre mid post w u out out' r,
  let l := pre ++ (w, u, out) :: mid ++ (w, u, out') :: post in
  nth_answer l (length pre) = Some r -> nth_answer l (length pre + S (length mid)) = Some r.
Proof.
  intros pre mid post w u out out' r l. unfold l.
  replace (pre ++ (w, u, out) :: mid ++ (w, u, out') :: post) with ((pre ++ [(w, u, out)]) ++ mid ++ (w, u, out') :: post) at 1 by (rewrite <- app_assoc; reflexivity).
  rewrite nth_prefix by (rewrite app_length; cbn; lia). rewrite nth_last. cbn [fst snd]. intro H.
  replace (pre ++ (w, u, out) :: mid ++ (w, u, out') :: post) with (((pre ++ (w, u, out) :: mid) ++ [(w, u, out')]) ++ post) by (rewrite <- !app_assoc; cbn; rewrite <- ?app_assoc; reflexivity).
  replace (length pre + S (length mid)) with (length (pre ++ (w, u, out) :: mid)) by (rewrite app_length; reflexivity).
  rewrite nth_prefix by (rewrite !app_length; cbn; lia). rewrite nth_last. cbn [fst snd]. apply latest_stored in H.
  rewrite latest_fst. cbn [key_of]. replace (store [] (pre ++ (w, u, out) :: mid)) with (store (snd (latest_revision (store [] pre) w u out)) mid).
  - rewrite (store_kept mid _ _ _ H). reflexivity.
  - clear. generalize (@nil (str * str)) as rv. induction pre as [|[[w' u'] o'] pre IH]; intro rv; [reflexivity|]. cbn [app store]. apply IH.
Qed.
(** The answers given for the same repository and the same branch or tag. *)
Definition same_request (w : url) (u : str) (q : request) : bool :=
  let '(w', u', _) := q in seqb (u_host w) (u_host w') && seqb (u_path w) (u_path w') && Bool.eqb (u_usehead w) (u_usehead w') && seqb u u'.
Definition answers_of (w : url) (u : str) (l : list request) : list remote := map snd (filter (same_request w u) l).
Lemma same_eq : forall w u q, same_request w u q = true -> fst q = (w, u).
Proof.
  intros [h p s] u [[[h' p' s'] u'] o] H. cbn in H. rewrite !andb_true_iff in H. destruct H as [[[A B] C] D]. apply seqb_eq in A. apply seqb_eq in B. apply eqb_prop in C. apply seqb_eq in D. cbn. subst. reflexivity.
Qed.
Lemma same_refl : forall w u o, same_request w u (w, u, o) = true.
Proof. intros [h p s] u o. cbn. rewrite !seqb_refl, eqb_reflx. reflexivity. Qed.
(** If no other repository or branch of the build has the same key, the answer is what
    this repository said when first asked with success. *)
Theorem answer_exact : forall pre w u out,
  (forall w' u' o, In (w', u', o) pre -> revision_key (u_host w') (u_path w') u' = revision_key (u_host w) (u_path w) u -> w' = w /\ u' = u) ->
  nth_answer (pre ++ [(w, u, out)]) (length pre) = first_some (map (resolve (u_usehead w) u) (answers_of w u pre ++ [out])).
Proof.
  intros pre w u out K. rewrite nth_last. cbn [fst snd]. rewrite latest_fst, store_get. cbn [get_rev find option_map].
  assert (E : map res_of (filter (fun q => seqb (key_of (w, u, out)) (key_of q)) pre) = map (resolve (u_usehead w) u) (answers_of w u pre)).
  { clear -K. unfold answers_of. induction pre as [|[[w' u'] o] pre IH]; [reflexivity|]. specialize (IH (fun a b c I => K a b c (or_intror I))). specialize (K w' u' o (or_introl eq_refl)).
    cbn [filter]. destruct (seqb (key_of (w, u, out)) (key_of (w', u', o))) eqn:E.
    - apply seqb_eq in E. destruct (K (eq_sym E)) as [-> ->]. rewrite same_refl. cbn [map snd]. rewrite IH. reflexivity.
    - destruct (same_request w u (w', u', o)) eqn:S; [|exact IH]. apply same_eq in S. cbn in S. injection S as -> ->. cbn [key_of] in E. rewrite seqb_refl in E. discriminate E. }
  rewrite E. clear. rewrite map_app. generalize (map (resolve (u_usehead w) u) (answers_of w u pre)) as l. induction l as [|[r|] l IH]; [|reflexivity|exact IH]. cbn. destruct (resolve (u_usehead w) u out); reflexivity.
Qed.
(** Keys of different repositories of a host differ if the paths have no dots and no
    doubled slashes. *)
Theorem keys_apart : forall host p q u, ~ In "."%char p -> ~ In "."%char q -> (forall a c, p <> a ++ s_ "//" ++ c) -> (forall a c, q <> a ++ s_ "//" ++ c) ->
  revision_key host p u = revision_key host q u -> p = q.
Proof.
  intros host p q u NP NQ DP DQ E. unfold revision_key in E. apply app_inv_head in E. apply app_inv_head in E. apply app_inv_tail in E. apply (dots_inj p q false); auto. discriminate.
Qed.
(** Doubled slashes do not matter. *)
Theorem keys_slashes : forall host p q u, revision_key host (p ++ s_ "//" ++ q) u = revision_key host (p ++ s_ "/" ++ q) u.
Proof.
  intros host p q u. unfold revision_key. f_equal. f_equal. f_equal. assert (G : forall b, dots b (p ++ s_ "//" ++ q) = dots b (p ++ s_ "/" ++ q)); [|apply G]. induction p as [|c p IH]; intro b; [destruct b; reflexivity|]. cbn [app dots]. destruct (aeqb c "/"); [destruct b|]; rewrite IH; reflexivity.
Qed.
(** A repository whose path differs by a dot for a slash, or a branch that continues the
    path, gets the commit of the other repository. *)
Theorem key_shared_refuted : exists w w' u u' out out', u_path w <> u_path w' /\ resolve false u' out' = Some c_new /\ (forall r, ~ points out' r c_old) /\
  nth_answer [(w, u, out); (w', u', out')] 1 = Some c_old.
Proof.
  exists (mkUrl (s_ "example.com") (s_ "/lib/x") false), (mkUrl (s_ "example.com") (s_ "/lib.x") false), (s_ "main"), (s_ "main"), [(c_old, branch_ref (s_ "main"))], [(c_new, branch_ref (s_ "main"))].
  split; [discriminate|]. split; [reflexivity|]. split; [|vm_compute; reflexivity]. intros r [H|[]]. assert (E := f_equal fst H). cbn [fst] in E. vm_compute in E. discriminate E.
Qed.
Theorem key_branch_refuted : exists w w' u u' out out', u_path w <> u_path w' /\ (forall c, In c (u_path w ++ u_path w') -> c <> "."%char) /\ resolve false u' out' = Some c_new /\
  nth_answer [(w, u, out); (w', u', out')] 1 = Some c_old.
Proof.
  exists (mkUrl (s_ "example.com") (s_ "/lib-x") false), (mkUrl (s_ "example.com") (s_ "/lib") false), (s_ "main"), (s_ "-xmain"), [(c_old, branch_ref (s_ "main"))], [(c_new, branch_ref (s_ "-xmain"))].
  split; [discriminate|]. split; [intros c I; cbn in I; intuition (subst; discriminate)|]. split; [reflexivity|vm_compute; reflexivity].
Qed.
Example demo_store : let w := mkUrl (s_ "example.com") (s_ "/lib/x") false in let w' := mkUrl (s_ "example.com") (s_ "/lib/y") false in
  let l := [(w, s_ "main", []); (w, s_ "main", [(c_old, branch_ref (s_ "main"))]); (w', s_ "main", demo_out); (w, s_ "main", [(c_new, branch_ref (s_ "main"))])] in
  map (nth_answer l) [0; 1; 2; 3] = [None; Some c_old; Some c_new; Some c_old] /\ ~ In "."%char (u_path w) /\ (forall a c, u_path w <> a ++ s_ "//" ++ c) /\
  (forall w'' u'' o, In (w'', u'', o) (firstn 3 l) -> revision_key (u_host w'') (u_path w'') u'' = revision_key (u_host w) (u_path w) (s_ "main") -> w'' = w /\ u'' = s_ "main").
Proof.
  cbn zeta. split; [vm_compute; reflexivity|]. split; [cbn; intuition discriminate|]. split.
  - intros a c E. assert (X : contains_sub (s_ "//") (s_ "/lib/x") = true) by (apply contains_sub_iff; exists a, c; exact E). discriminate X.
  - intros w'' u'' o [H|[H|[H|[]]]] E; assert (A := f_equal fst H); cbn [fst] in A; injection A as <- <-; try (split; reflexivity). vm_compute in E. discriminate E.
Qed.

(** ** C127: the names of the clones *)
Lemma drop_dot : forall (n m : str), n <> [] -> m <> [] -> (hd " "%char n = "."%char <-> hd " "%char m = "."%char) ->
  (match n with c :: n' => if aeqb c "." then n' else n | [] => n end) = (match m with c :: m' => if aeqb c "." then m' else m | [] => m end) -> n = m.
Proof.
  intros [|x n] [|y m] N M H E; try congruence. cbn in H. destruct (aeqb x ".") eqn:A, (aeqb y ".") eqn:B.
  - apply aeqb_eq in A. apply aeqb_eq in B. congruence.
  - apply aeqb_eq in A. apply H in A. subst y. discriminate B.
  - apply aeqb_eq in B. apply H in B. subst x. discriminate A.
  - exact E.
Qed.
(** Repositories of a host whose paths have only letters, digits, slashes and the like
    never share a clone or the archive of it. *)
Theorem clones_apart : forall host p q gitdir, (forall c, In c p -> ~ In c (s_ "._* ()")) -> (forall c, In c q -> ~ In c (s_ "._* ()")) ->
  (exists p', p = "/"%char :: p') -> (exists q', q = "/"%char :: q') ->
  (clonedir gitdir (gitsrcname host p false []) = clonedir gitdir (gitsrcname host q false []) \/ mirrortarball (gitsrcname host p false []) = mirrortarball (gitsrcname host q false [])) -> p = q.
Proof.
  intros host p q gitdir P Q [p' ->] [q' ->] H.
  assert (E : gitsrcname host ("/"%char :: p') false [] = gitsrcname host ("/"%char :: q') false []).
  { destruct H as [H|H]; unfold clonedir, mirrortarball in H; [apply app_inv_head in H; apply app_inv_head in H; exact H|apply app_inv_head in H; apply app_inv_tail in H; exact H]. }
  unfold gitsrcname in E. apply drop_dot in E.
  - apply app_inv_head in E. apply clean_inj; assumption.
  - intro X. apply app_eq_nil in X. destruct X as [_ X]. discriminate X.
  - intro X. apply app_eq_nil in X. destruct X as [_ X]. discriminate X.
  - destruct (replace_char ":" (s_ ".") host); reflexivity.
Qed.
(** A clone is an entry of the directory of clones itself. *)
Theorem clone_no_slash : forall host p b revs, ~ In "/"%char host -> (forall r, In r revs -> ~ In "/"%char r) -> ~ In "/"%char (gitsrcname host p b revs).
Proof.
  intros host p b revs H R. unfold gitsrcname.
  assert (N : ~ In "/"%char (replace_char ":" (s_ ".") host ++ map clean_char p)).
  { intro I. apply in_app_or in I. destruct I as [I|I].
    - unfold replace_char in I. apply in_flat_map in I. destruct I as (c & C & I). destruct (aeqb c ":"); [destruct I as [I|[]]; discriminate I|]. destruct I as [->|[]]. apply H, C.
    - apply in_map_iff in I. destruct I as (c & E & _). apply (clean_no_slash c E). }
  set (n := replace_char ":" (s_ ".") host ++ map clean_char p) in *. clearbody n.
  assert (M : ~ In "/"%char (match n with c :: n' => if aeqb c "." then n' else n | [] => n end)) by (destruct n as [|c n]; [exact N|]; destruct (aeqb c "."); [intro I; apply N; right; exact I|exact N]).
  revert M. generalize (match n with c :: n' => if aeqb c "." then n' else n | [] => n end) as m. intros m M. destruct b; [|exact M].
  revert m M. induction revs as [|r revs IH]; intros m M; [exact M|]. cbn [fold_left]. apply IH; [intros x I; apply R; right; exact I|]. intro I. apply in_app_or in I. destruct I as [I|I]; [exact (M I)|]. apply in_app_or in I. destruct I as [[I|[]]|I]; [discriminate I|]. apply (R r (or_introl eq_refl) I).
Qed.
(** A repository that may be rewritten has a clone of its own for each revision. *)
Theorem clones_per_revision : forall host p r r', gitsrcname host p true [r] = gitsrcname host p true [r'] -> r = r'.
Proof. intros host p r r' E. unfold gitsrcname in E. cbn [fold_left] in E. apply app_inv_head in E. apply app_inv_head in E. exact E. Qed.
(** A dot for a slash: two repositories share the clone and the archive of it. *)
Theorem clones_shared_refuted : exists p q, p <> q /\ forall host gitdir, clonedir gitdir (gitsrcname host p false []) = clonedir gitdir (gitsrcname host q false []).
Proof. exists (s_ "/lib/x"), (s_ "/lib.x"). split; [discriminate|]. intros. reflexivity. Qed.
Example demo_clones : gitsrcname (s_ "example.com:8080") (s_ "/lib/my project") false [] = s_ "example.com.8080.lib.my_project" /\ gitsrcname [] (s_ "/srv/x.git") true [s_ "abc"; s_ "def"] = s_ "srv.x.git_abc_def" /\
  (forall c, In c (s_ "/lib/x") -> ~ In c (s_ "._* ()")).
Proof. split; [reflexivity|]. split; [reflexivity|]. intros c I J. cbn in I, J. intuition (subst; discriminate). Qed.

(** ** C128: the revision in the version of the package *)
Theorem version_exact : forall (f : str) (scms : list (str * str)), 2 <= length scms -> f <> [] -> (forall n r : str, In (n, r) scms -> n <> []) ->
  exists toks, reads (map fst scms) f toks /\ get_srcrev (Some f) scms = Some (s_ "AUTOINC+" ++ flat_map (value scms) toks).
Proof.
  intros f scms L F N. destruct scms as [|[a a'] [|b scms]]; try (cbn in L; lia). destruct f as [|c f]; [congruence|]. set (l := (a, a') :: b :: scms) in *.
  destruct (name_to_rev_spec l) as [ND S].
  assert (LR : forall n, In n (map fst l) <-> exists q, last_rev n l = Some q).
  { intro n. unfold last_rev. split.
    - intro I. destruct (find (fun e => seqb n (fst e)) (rev l)) as [e|] eqn:E; [exists (snd e); reflexivity|]. exfalso. apply in_map_iff in I. destruct I as (e0 & <- & I). apply in_rev in I. pose proof (find_none _ _ E _ I) as X. cbn in X. rewrite seqb_refl in X. discriminate X.
    - intros (q & H). destruct (find _ (rev l)) as [e|] eqn:E; [|discriminate H]. apply find_some in E. destruct E as [I E]. apply seqb_eq in E. subst n. apply List.in_map, in_rev, I. }
  destruct (sub_reads (by_length (name_to_rev l)) (map fst l) (value l)) with (f := c :: f) as (toks & R & E).
  - apply by_length_sorted.
  - intro n. rewrite LR. split.
    + intros (q & H). exists (short q). apply by_length_In, S. eauto.
    + intros (r & H). apply by_length_In, S in H. destruct H as (q & H & _). eauto.
  - intros n r H. apply by_length_In, S in H. destruct H as (q & H & ->). cbn. rewrite H. reflexivity.
  - reflexivity.
  - intros n I. apply in_map_iff in I. destruct I as ([m r] & <- & I). apply (N m r I).
  - exists toks. split; [exact R|]. rewrite <- E. reflexivity.
Qed.
Theorem version_single : forall f n r, get_srcrev f [(n, r)] = Some (s_ "AUTOINC+" ++ firstn 10 r).
Proof. reflexivity. Qed.
Theorem version_without : forall f, get_srcrev f [] = Some [].
Proof. reflexivity. Qed.
Theorem version_needs_format : forall scms, 2 <= length scms -> get_srcrev None scms = None /\ get_srcrev (Some []) scms = None.
Proof. intros [|[a a'] [|b scms]] L; try (cbn in L; lia). auto. Qed.
Lemma last_rev_unique : forall scms n r, NoDup (map fst scms) -> In (n, r) scms -> last_rev n scms = Some r.
Proof.
  intros scms n r N I. unfold last_rev. apply in_rev in I. rewrite <- (rev_involutive scms), map_rev in N. apply NoDup_rev in N. rewrite rev_involutive in N.
  revert N I. generalize (rev scms) as l. induction l as [|[m q] l IH]; [intros _ []|]. intros N [H|H]; [injection H as -> ->; cbn; rewrite seqb_refl; reflexivity|]. inversion_clear N as [|? ? NI N']. cbn [find fst]. destruct (seqb n m) eqn:E; [|apply IH; assumption].
  apply seqb_eq in E. subst m. exfalso. apply NI. apply (List.in_map fst) in H. exact H.
Qed.
Lemma values_differ : forall scms scms' toks, (forall t, In t toks -> length (value scms t) = length (value scms' t)) -> flat_map (value scms) toks = flat_map (value scms') toks -> forall t, In t toks -> value scms t = value scms' t.
Proof.
  intros s s' toks. induction toks as [|x toks IH]; [intros L E t []|]. intros L E t [<-|I]; cbn [flat_map] in E; destruct (app_inj_len _ _ _ _ _ (L x (or_introl eq_refl)) E) as [A B]; [exact A|].
  apply IH; auto. intros y J. apply L. right. exact J.
Qed.
(** If the sources have names of their own, a new revision of a source that the format
    mentions shows in the version (as far as its first ten characters differ). *)
Theorem version_changes : forall (f : str) (scms scms' : list (str * str)) toks (n r r' : str), 2 <= length scms -> f <> [] -> NoDup (map fst scms) -> map fst scms' = map fst scms ->
  (forall m q : str, In (m, q) scms \/ In (m, q) scms' -> m <> [] /\ 10 <= length q) -> reads (map fst scms) f toks -> In (Name n) toks ->
  In (n, r) scms -> In (n, r') scms' -> firstn 10 r <> firstn 10 r' -> get_srcrev (Some f) scms <> get_srcrev (Some f) scms'.
Proof.
  intros f scms scms' toks n r r' L F ND M Q R IT I I' D E.
  assert (NE : forall m, In m (map fst scms) -> m <> []) by (intros m J; apply in_map_iff in J; destruct J as ([k q] & <- & J); apply (Q k q); auto).
  destruct (version_exact f scms) as (t1 & R1 & E1); auto; [intros m q J; apply (Q m q); auto|].
  destruct (version_exact f scms') as (t2 & R2 & E2); auto; [rewrite <- (map_length fst), M, map_length; exact L|intros m q J; apply (Q m q); auto|].
  rewrite M in R2. rewrite (reads_unique _ _ _ NE R1 _ R) in E1. rewrite (reads_unique _ _ _ NE R2 _ R) in E2. rewrite E1, E2 in E.
  assert (E' : flat_map (value scms) toks = flat_map (value scms') toks) by (apply (app_inv_head (s_ "AUTOINC+")); congruence). clear E.
  assert (LN : forall m, In m (map fst scms) -> exists a b, last_rev m scms = Some a /\ last_rev m scms' = Some b /\ 10 <= length a /\ 10 <= length b).
  { intros m J. pose proof J as J'. rewrite <- M in J'. apply in_map_iff in J. destruct J as ([k a] & <- & J). apply in_map_iff in J'. destruct J' as ([k' b] & KE & J'). cbn in KE. subst k'. exists a, b.
    split; [apply last_rev_unique; assumption|]. split; [apply last_rev_unique; [rewrite M; exact ND|exact J']|]. split; [apply (Q k a); auto|apply (Q k b); auto]. }
  assert (TN : forall m, In (Name m) toks -> In m (map fst scms)).
  { clear -R. induction R as [|k g t J _ R IH|c g t _ R IH]; intros m K; [destruct K|destruct K as [K|K]; [injection K as <-; exact J|auto]|destruct K as [K|K]; [discriminate K|auto]]. }
  apply D. pose proof (values_differ scms scms' toks) as V. assert (X : value scms (Name n) = value scms' (Name n)).
  { apply V; auto. intros [c|m] J; [reflexivity|]. destruct (LN m (TN m J)) as (a & b & A & B & LA & LB). cbn [value]. rewrite A, B, !firstn_length. lia. }
  cbn in X. rewrite (last_rev_unique scms n r ND I), (last_rev_unique scms' n r') in X; [exact X|rewrite M; exact ND|exact I'].
Qed.
(** Two sources with the same name: the revision of the first is not in the version. *)
Theorem version_names_refuted : exists f n r r' q, firstn 10 r <> firstn 10 r' /\ reads [n; n] f [Name n] /\ get_srcrev (Some f) [(n, r); (n, q)] = get_srcrev (Some f) [(n, r'); (n, q)].
Proof.
  exists (s_ "default"), (s_ "default"), c_old, c_new, c_obj. split; [discriminate|]. split; [|reflexivity]. rewrite <- (app_nil_r (s_ "default")) at 3. constructor; [left; reflexivity| |constructor].
  intros m g [<-|[<-|[]]] _; reflexivity.
Qed.
Example demo_version : let scms := [(s_ "app", c_old); (s_ "app-data", c_new)] in
  get_srcrev (Some (s_ "app-data_app+x")) scms = Some (s_ "AUTOINC+2222222222_1111111111+x") /\ reads (map fst scms) (s_ "app-data_app") [Name (s_ "app-data"); Char "_"%char; Name (s_ "app")].
Proof.
  cbn zeta. split; [vm_compute; reflexivity|]. change (s_ "app-data_app") with (s_ "app-data" ++ s_ "_app"). constructor; [right; left; reflexivity|intros m g [<-|[<-|[]]] _; cbn; lia|].
  change (s_ "_app") with ("_"%char :: s_ "app"). constructor; [intros m g [<-|[<-|[]]] E; discriminate E|]. rewrite <- (app_nil_r (s_ "app")). constructor; [left; reflexivity|intros m g [<-|[<-|[]]] E; [reflexivity|discriminate E]|constructor].
Qed.
Print Assumptions srcrev_exact. Print Assumptions srcrev_latest. Print Assumptions srcrev_missing. Print Assumptions srcrev_param. Print Assumptions srcrev_both.
Print Assumptions resolve_exact. Print Assumptions resolve_full. Print Assumptions resolve_fails. Print Assumptions revision_fixed. Print Assumptions revision_commit.
Print Assumptions tag_param_refuted. Print Assumptions full_tag_refuted. Print Assumptions usehead_branch_refuted.
Print Assumptions asked_again. Print Assumptions answer_exact. Print Assumptions keys_apart. Print Assumptions key_shared_refuted. Print Assumptions key_branch_refuted.
Print Assumptions clones_apart. Print Assumptions clone_no_slash. Print Assumptions clones_per_revision. Print Assumptions clones_shared_refuted.
Print Assumptions version_exact. Print Assumptions version_single. Print Assumptions version_needs_format. Print Assumptions version_changes. Print Assumptions version_names_refuted.
Example demo_newest : fst (revision [] (mkUrl (s_ "example.com") (s_ "/a//b") false) (s_ "main") Latest demo_out) = Some c_new /\ fst (revision [] (mkUrl [] (s_ "/src/project") true) (s_ "main") Latest ((c_old, s_ "HEAD") :: tl demo_out)) = Some c_old.
Proof. split; vm_compute; reflexivity. Qed.
Print Assumptions keys_slashes.
Print Assumptions revision_newest.
Print Assumptions revision_head.
Print Assumptions version_without.
Print Assumptions revision_named.
