(** Lemmas about configuration fragments and build profiles *)
From Coq Require Import String Ascii List Bool Arith Lia.
From Verif Require Import Str_Model Str_Proofs Words_Model Words_Spec Words_Proofs Posix_Model Posix_Proofs Patch_Spec Variants_Proofs Kernelcfg_Model Kernelcfg_Spec.
From Verif Require Patch_Model Patch_Proofs Vercmp_Model.
Import ListNotations.
Open Scope list_scope.

Lemma ext_iff p e : e <> [] -> (snd (Patch_Model.splitext (Patch_Model.basename p)) = e <-> has_ext p e).
Proof.
  intros NE. split.
  - intros E. destruct (Patch_Proofs.named_dec (Patch_Model.basename p)) as [(b & e' & N)|N].
    + rewrite (Patch_Proofs.splitext_named _ _ _ N) in E. cbn in E. subst e'. exists (Patch_Model.basename p), b. split; [apply Patch_Proofs.basename_spec|exact N].
    + rewrite (Patch_Proofs.splitext_none _ N) in E. cbn in E. congruence.
  - intros (n & b & B & N). rewrite (Patch_Proofs.basename_unique _ _ B). now rewrite (Patch_Proofs.splitext_named _ _ _ N).
Qed.
Lemma piece_cfg e : e <> [] -> (exists x, e = "."%char :: x) -> (contains_sub e (s_ ".cfg") = true <-> e = s_ "." \/ e = s_ ".c" \/ e = s_ ".cf" \/ e = s_ ".cfg").
Proof.
  intros NE (x & ->). split.
  - intros C. apply contains_sub_iff in C as (a & b & C). destruct a as [|y a].
    + cbn [app] in C. injection C as C. destruct x as [|c1 x]; [auto|]. cbn [app] in C. injection C as <- C. destruct x as [|c2 x]; [auto|]. cbn [app] in C. injection C as <- C.
      destruct x as [|c3 x]; [auto|]. cbn [app] in C. injection C as <- C. destruct x; [auto|discriminate].
    + exfalso. cbn [app] in C. injection C as _ C. assert (I : In "."%char (a ++ "."%char :: x ++ b)) by (apply in_or_app; right; now left).
      change (list_ascii_of_string "cfg" = a ++ "."%char :: x ++ b) in C. rewrite <- C in I. cbn in I. intuition discriminate.
  - intros [E|[E|[E|E]]]; rewrite E; reflexivity.
Qed.
Lemma fragment_iff u : is_fragment u = true <-> u_apply u <> Some (s_ "no") /\
  exists e, has_ext (u_local u) e /\ (e = s_ "." \/ e = s_ ".c" \/ e = s_ ".cf" \/ e = s_ ".cfg").
Proof.
  unfold is_fragment. rewrite andb_true_iff.
  assert (A : match u_apply u with Some a => negb (seqb a (s_ "no")) | None => true end = true <-> u_apply u <> Some (s_ "no")).
  { destruct (u_apply u) as [a|]; [|split; [discriminate|reflexivity]]. rewrite negb_true_iff. split.
    - intros H E. injection E as ->. rewrite seqb_refl in H. discriminate.
    - intros H. apply seqb_neq. congruence. }
  rewrite A. set (e := snd _). rewrite andb_true_iff, negb_true_iff.
  assert (B : (seqb e [] = false /\ contains_sub e (s_ ".cfg") = true) <-> exists e, has_ext (u_local u) e /\ (e = s_ "." \/ e = s_ ".c" \/ e = s_ ".cf" \/ e = s_ ".cfg")); [|rewrite B; reflexivity].
  split.
  - intros [N C]. apply seqb_neq in N. assert (H := proj1 (ext_iff (u_local u) e N) eq_refl). exists e. split; [exact H|].
    apply piece_cfg; [exact N| |exact C]. destruct H as (n & b & _ & (_ & (x & X & _) & _)). eauto.
  - intros (e' & H & K). assert (NE : e' <> []) by (destruct H as (n & b & _ & (_ & (x & -> & _) & _)); discriminate).
    assert (E : e = e') by (unfold e; now apply ext_iff). rewrite E. split; [now apply seqb_neq|]. apply piece_cfg; [exact NE| |exact K].
    destruct H as (n & b & _ & (_ & (x & X & _) & _)). eauto.
Qed.
Lemma filter_chosen {A} (f : A -> bool) (P : A -> Prop) : (forall x, f x = true <-> P x) -> forall l, chosen P l (filter f l).
Proof.
  intros E. induction l as [|x l IH]; cbn; [constructor|]. destruct (f x) eqn:F.
  - constructor; [now apply E|exact IH].
  - constructor; [rewrite <- E; congruence|exact IH].
Qed.

(** ** Words of stripped texts *)
Lemma split_spaces a t : Forall (fun c => is_space c = true) a -> split_ws (a ++ t) = split_ws t.
Proof. induction 1 as [|c a S F IH]; [reflexivity|]. cbn [app]. now rewrite split_ws_space. Qed.
Lemma split_strip t : split_ws (strip t) = split_ws t.
Proof.
  unfold strip. transitivity (split_ws (lstrip t)).
  - destruct (rstrip_spec (lstrip t)) as (b & E & F & _). rewrite E at 2. rewrite split_ws_front.
    + rewrite <- (app_nil_r b), (split_spaces b [] F). cbn. now rewrite app_nil_r.
    + destruct F as [|c b S F]; [now left|right; eauto].
  - destruct (lstrip_spec t) as (a & E & F & _). rewrite E at 2. now rewrite split_spaces.
Qed.
Lemma split_blank_words l : Forall word l -> split_ws (concat (map (fun w => s_ " " ++ w) l)) = l.
Proof.
  induction 1 as [|w l W F IH]; [reflexivity|]. cbn [map concat]. change (s_ " " ++ w) with (" "%char :: w). cbn [app]. rewrite split_ws_space by reflexivity.
  rewrite split_ws_front.
  - rewrite (split_ws_single w W). now rewrite IH.
  - destruct l as [|x l]; [now left|]. right. cbn. eauto.
Qed.

(** ** Paths *)
Lemma initial_longer a x y : (exists c1 c2 c3 r, a = c1 :: c2 :: c3 :: r) -> initial_slashes (a ++ x) = initial_slashes (a ++ y).
Proof. intros (c1 & c2 & c3 & r & ->). reflexivity. Qed.
Lemma normpath_dot a b : (exists c1 c2 c3 r, a = c1 :: c2 :: c3 :: r) -> normpath (a ++ slash :: s_ "." ++ slash :: b) = normpath (a ++ slash :: b).
Proof.
  intros L. unfold normpath, norm_comps. rewrite (initial_longer a (slash :: s_ "." ++ slash :: b) (slash :: b) L).
  rewrite !split_on_app. rewrite fold_left_app. change (split_on slash (s_ ".")) with [s_ "."]. rewrite !fold_left_app. reflexivity.
Qed.
Lemma dirname_cases p : (Patch_Model.basename p = p /\ sh_dirname p = s_ "." /\ ~ In "/"%char p) \/
  (exists d, d <> [] /\ p = d ++ s_ "/" ++ Patch_Model.basename p /\ sh_dirname p = d) \/ (exists b, p = "/"%char :: b).
Proof.
  unfold sh_dirname, Patch_Model.basename. pose proof (Patch_Proofs.rcut_spec "/"%char p) as R. destruct (Vercmp_Model.rcut_at "/"%char p) as [d [b|]]; destruct R as [E N].
  - destruct d as [|c d]; [right; right; exists b; exact E|]. right. left. exists (c :: d). split; [discriminate|]. split; [exact E|reflexivity].
  - subst d. left. split; [reflexivity|]. split; [destruct p; reflexivity|exact N].
Qed.
Lemma copied_place sdir workdir p : relative p -> startswith sdir p = false -> exists to, copied sdir workdir p = Some (workdir ++ s_ "/" ++ p, to) /\
  normpath to = normpath (sdir ++ s_ "/" ++ s_ "debian/fragments/" ++ p).
Proof.
  intros [(c & r & E & NS) _] S. unfold copied. rewrite S. eexists. split; [reflexivity|]. destruct (dirname_cases p) as [(B & D & _)|[(d & ND & P & D)|(b & P)]].
  - rewrite B, D. change (sdir ++ s_ "/debian/fragments/" ++ s_ "." ++ s_ "/" ++ p) with (sdir ++ s_ "/debian/fragments/" ++ s_ "." ++ slash :: p).
    replace (sdir ++ s_ "/debian/fragments/" ++ s_ "." ++ slash :: p) with ((sdir ++ s_ "/debian/fragments") ++ slash :: s_ "." ++ slash :: p) by (rewrite <- app_assoc; reflexivity).
    replace (sdir ++ s_ "/" ++ s_ "debian/fragments/" ++ p) with ((sdir ++ s_ "/debian/fragments") ++ slash :: p) by (rewrite <- app_assoc; reflexivity).
    apply normpath_dot. destruct sdir as [|x [|y [|z s]]]; cbn; eauto.
  - rewrite D. f_equal. rewrite P at 2. reflexivity.
  - exfalso. rewrite P in E. injection E as <- _. now apply NS.
Qed.
