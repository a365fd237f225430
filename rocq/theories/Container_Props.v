(** C42: names of downloaded container images. *)
From Coq Require Import Ascii String List Bool.
From Verif Require Import Str_Model Str_Proofs Sstname_Proofs Container_Model Container_Spec Container_Proofs.
Import ListNotations.
Open Scope list_scope.

(** The image a request denotes. *)
Definition denotes (r : request) : image :=
  {| i_host := r_host r; i_repo := if seqb (r_path r) (s_ "/") then [] else r_path r;
     i_ref := match r_digest r with
              | Some (c :: d) => ByDigest (c :: d)
              | _ => ByTag (match r_tag r with Some t => t | None => s_ "latest" end)
              end;
     i_platform := r_arch r |}.
Lemma denotes_ref r : i_ref (denotes r) = match digest r with Some d => ByDigest d | None => ByTag (tag r) end.
Proof. unfold denotes, digest, tag. cbn [i_ref]. destruct (r_digest r) as [[|c d]|]; auto. Qed.
(** Requests for which the file name identifies the image. *)
Definition plain_request (r : request) : Prop :=
  ~ In "."%char (r_path r) /\ ~ In "/"%char (r_arch r) /\
  (forall d, digest r = Some d -> oci_digest d) /\
  (digest r = None -> ~ In "_"%char (tag r) /\ ~ In "/"%char (tag r) /\ ~ digest_like (tag r)).
Lemma id_plain r : plain_request r -> forall i, i = match digest r with Some d => replace_char ":"%char (s_ "-") d | None => tag r end -> ~ In "_"%char i /\ ~ In "/"%char i.
Proof.
  intros (_ & _ & D & T) i ->. destruct (digest r) as [d|] eqn:E.
  - destruct (digest_shape d (D d eq_refl)) as (A & B & _). split; intros I; apply replace_In in I; destruct I as [I|I]; try discriminate; auto.
  - destruct (T eq_refl) as (A & B & _). auto.
Qed.
(** *** In one registry, different images have different files. *)
Theorem same_file_same_image r1 r2 : plain_request r1 -> plain_request r2 -> r_host r1 = r_host r2 ->
  localfile r1 = localfile r2 -> denotes r1 = denotes r2.
Proof.
  intros P1 P2 H E. unfold localfile in E. apply app_inv_head in E.
  set (id1 := match digest r1 with Some d => replace_char ":"%char (s_ "-") d | None => tag r1 end) in *.
  set (id2 := match digest r2 with Some d => replace_char ":"%char (s_ "-") d | None => tag r2 end) in *.
  destruct (id_plain r1 P1 id1 eq_refl) as [U1 S1]. destruct (id_plain r2 P2 id2 eq_refl) as [U2 S2].
  assert (F : forall r id, ~ In "/"%char id -> no_char "/"%char (localname r ++ s_ "_" ++ id ++ s_ ".zst")).
  { intros r id NI. apply no_char_In. rewrite !in_app_iff. intros [I|[I|[I|I]]]; auto; try (cbn in I; intuition discriminate). revert I. apply replace_gone. discriminate. }
  set (f1 := localname r1 ++ s_ "_" ++ id1 ++ s_ ".zst") in *. set (f2 := localname r2 ++ s_ "_" ++ id2 ++ s_ ".zst") in *.
  assert (N1 : no_char "/"%char f1) by (apply F; auto). assert (N2 : no_char "/"%char f2) by (apply F; auto).
  assert (SP : forall r f, plain_request r -> no_char "/"%char f ->
    split_on "/"%char (fst (arch_variant r) ++ s_ "/" ++ match snd (arch_variant r) with Some v => v ++ s_ "/" | None => [] end ++ f) =
    fst (arch_variant r) :: match snd (arch_variant r) with Some v => [v; f] | None => [f] end).
  { intros r f (_ & A & _) Nf. unfold arch_variant. destruct (seqb (r_arch r) (s_ "armhf")); [|destruct (seqb (r_arch r) (s_ "armel"))]; cbn [fst snd].
    - change (s_ "arm" ++ s_ "/" ++ (s_ "v7" ++ s_ "/") ++ f) with (s_ "arm" ++ "/"%char :: (s_ "v7" ++ "/"%char :: f)).
      rewrite split_on_cons by (apply no_char_In; cbn; intuition discriminate). rewrite split_on_cons by (apply no_char_In; cbn; intuition discriminate). now rewrite split_on_single.
    - change (s_ "arm" ++ s_ "/" ++ (s_ "v6" ++ s_ "/") ++ f) with (s_ "arm" ++ "/"%char :: (s_ "v6" ++ "/"%char :: f)).
      rewrite split_on_cons by (apply no_char_In; cbn; intuition discriminate). rewrite split_on_cons by (apply no_char_In; cbn; intuition discriminate). now rewrite split_on_single.
    - cbn [app s_ list_ascii_of_string]. rewrite split_on_cons by now apply no_char_In. now rewrite split_on_single. }
  pose proof (SP r1 f1 P1 N1) as Q1. pose proof (SP r2 f2 P2 N2) as Q2. apply (f_equal (split_on "/"%char)) in E. pose proof (eq_trans (eq_sym Q2) (eq_trans (eq_sym E) Q1)) as Q. clear SP Q1 Q2 E. rename Q into Q1.
  assert (AF : r_arch r1 = r_arch r2 /\ f1 = f2).
  { unfold arch_variant in Q1.
    destruct (seqb (r_arch r1) (s_ "armhf")) eqn:A1, (seqb (r_arch r2) (s_ "armhf")) eqn:A2, (seqb (r_arch r1) (s_ "armel")) eqn:B1, (seqb (r_arch r2) (s_ "armel")) eqn:B2; cbn [fst snd] in Q1;
    repeat match goal with H : seqb _ _ = true |- _ => apply seqb_eq in H | H : seqb _ _ = false |- _ => apply seqb_neq in H end; try congruence;
    try (injection Q1 as Q1 Q2; split; congruence); try discriminate Q1; injection Q1; intros; split; congruence. }
  destruct AF as [A EF]. unfold f1, f2 in EF.
  assert (EF' : localname r1 ++ "_"%char :: id1 = localname r2 ++ "_"%char :: id2).
  { apply (app_inv_tail (s_ ".zst")). rewrite <- !app_assoc. exact EF. }
  apply last_sep in EF'; [|now apply no_char_In|now apply no_char_In]. destruct EF' as [EN EI]. clear F f1 f2 N1 N2 Q1 EF.
  assert (DE : forall x y, i_host x = i_host y -> i_repo x = i_repo y -> i_ref x = i_ref y -> i_platform x = i_platform y -> x = y) by (intros [] []; cbn; congruence).
  apply DE; auto; [|rewrite !denotes_ref].
  - unfold denotes. cbn [i_repo]. unfold localname, container_name in EN. rewrite !replace_app, H in EN. apply app_inv_head in EN. revert EN. apply replace_inj.
    + destruct P1 as (D & _). destruct (seqb (r_path r1) (s_ "/")); auto.
    + destruct P2 as (D & _). destruct (seqb (r_path r2) (s_ "/")); auto.
  - unfold id1, id2 in EI. destruct P1 as (_ & _ & D1 & T1), P2 as (_ & _ & D2 & T2). destruct (digest r1) as [d1|], (digest r2) as [d2|].
    + f_equal. destruct (digest_shape d1 (D1 d1 eq_refl)) as (_ & _ & X1 & _). destruct (digest_shape d2 (D2 d2 eq_refl)) as (_ & _ & X2 & _). revert EI. now apply replace_inj.
    + exfalso. destruct (T2 eq_refl) as (_ & _ & X). apply X. rewrite <- EI. now apply digest_shape, D1.
    + exfalso. destruct (T1 eq_refl) as (_ & _ & X). apply X. rewrite EI. now apply digest_shape, D2.
    + now f_equal.
Qed.
Example same_file_same_image_example :
  let r := {| r_host := s_ "quay.io"; r_path := s_ "/org/tool_x"; r_tag := Some (s_ "v1.2-slim"); r_digest := None; r_arch := s_ "armhf" |} in
  plain_request r /\ localfile r = s_ "container-images/arm/v7/quay.io.org.tool_x_v1.2-slim.zst".
Proof.
  cbn zeta. split; [|vm_compute; reflexivity]. split; [cbn; intuition discriminate|]. split; [cbn; intuition discriminate|]. split; [discriminate|]. intros _.
  split; [cbn; intuition discriminate|]. split; [cbn; intuition discriminate|]. intros (alg & hex & E & L & _).
  assert (X : length (s_ "v1.2-slim") = length alg + (1 + length hex)) by (change (tag _) with (s_ "v1.2-slim") in E; rewrite E, !app_length; reflexivity).
  cbn in X. apply (PeanoNat.Nat.le_trans _ _ 9) in L; [|rewrite X, PeanoNat.Nat.add_comm; apply le_S_n; cbn; rewrite PeanoNat.Nat.add_comm; auto with arith].
  repeat (apply le_S_n in L). inversion L.
Qed.
Print Assumptions same_file_same_image.
(** *** What is fetched: the digest if one is given, else the tag, else the tag "latest" *)
Theorem fetched_image r : r_path r <> s_ "/" ->
  (forall d, r_digest r = Some d -> d <> [] -> container_src r = r_host r ++ r_path r ++ s_ "@" ++ d) /\
  (r_digest r = None \/ r_digest r = Some [] ->
     (forall t, r_tag r = Some t -> container_src r = r_host r ++ r_path r ++ s_ ":" ++ t) /\
     (r_tag r = None -> container_src r = r_host r ++ r_path r ++ s_ ":latest")).
Proof.
  intros NP. unfold container_src, container_name. apply seqb_neq in NP. rewrite NP. unfold digest, tag. rewrite <- app_assoc. split.
  - intros d -> ND. destruct d; [easy|reflexivity].
  - intros [->| ->]; (split; [intros t ->|intros ->]; reflexivity).
Qed.
(** A path of one slash is no path *)
Theorem fetched_root r1 r2 : r_path r1 = s_ "/" -> r_path r2 = [] -> r_host r1 = r_host r2 -> r_tag r1 = r_tag r2 -> r_digest r1 = r_digest r2 ->
  container_src r1 = container_src r2.
Proof. unfold container_src, container_name, digest, tag. intros -> -> -> -> ->. reflexivity. Qed.
(** *** Images chosen by tag are kept apart in the work directory of a recipe *)
Theorem unpacked_tags_apart r1 r2 : plain_request r1 -> plain_request r2 -> r_host r1 = r_host r2 ->
  (forall d, r_digest r1 <> Some d) -> (forall d, r_digest r2 <> Some d) -> ~ In ":"%char (tag r1) -> ~ In ":"%char (tag r2) ->
  unpacked r1 = unpacked r2 -> i_repo (denotes r1) = i_repo (denotes r2) /\ i_ref (denotes r1) = i_ref (denotes r2).
Proof.
  intros P1 P2 H D1 D2 T1 T2 E. unfold unpacked in E.
  assert (EF : localname r1 ++ ":"%char :: tag r1 = localname r2 ++ ":"%char :: tag r2).
  { apply (app_inv_tail (s_ ".zst")). rewrite <- !app_assoc. exact E. }
  apply last_sep in EF; [|now apply no_char_In|now apply no_char_In]. destruct EF as [EN ET]. split.
  - unfold denotes. cbn [i_repo]. unfold localname, container_name in EN. rewrite !replace_app, H in EN. apply app_inv_head in EN. revert EN. apply replace_inj.
    + destruct P1 as (D & _). destruct (seqb (r_path r1) (s_ "/")); auto.
    + destruct P2 as (D & _). destruct (seqb (r_path r2) (s_ "/")); auto.
  - rewrite !denotes_ref. unfold digest. destruct (r_digest r1) as [d|]; [now destruct (D1 d)|]. destruct (r_digest r2) as [d|]; [now destruct (D2 d)|]. now f_equal.
Qed.
Print Assumptions fetched_image.
Print Assumptions fetched_root.
Print Assumptions unpacked_tags_apart.

(** *** Refuted: slashes and dots of the name. *)
Theorem dotted_names_collide_refuted : exists r1 r2, r_host r1 = s_ "quay.io" /\ r_host r2 = s_ "quay.io" /\
  denotes r1 <> denotes r2 /\ localfile r1 = localfile r2.
Proof.
  exists {| r_host := s_ "quay.io"; r_path := s_ "/a/b"; r_tag := None; r_digest := None; r_arch := s_ "amd64" |},
         {| r_host := s_ "quay.io"; r_path := s_ "/a.b"; r_tag := None; r_digest := None; r_arch := s_ "amd64" |}.
  do 2 (split; [reflexivity|]). split; [|vm_compute; reflexivity]. intros E. apply (f_equal i_repo) in E. discriminate E.
Qed.
(** *** Refuted: underscores of the name and of the tag. *)
Theorem underscore_tags_collide_refuted : exists r1 r2, r_host r1 = r_host r2 /\ denotes r1 <> denotes r2 /\ localfile r1 = localfile r2.
Proof.
  exists {| r_host := s_ "h"; r_path := s_ "/a_b"; r_tag := Some (s_ "c"); r_digest := None; r_arch := s_ "amd64" |},
         {| r_host := s_ "h"; r_path := s_ "/a"; r_tag := Some (s_ "b_c"); r_digest := None; r_arch := s_ "amd64" |}.
  split; [reflexivity|]. split; [|vm_compute; reflexivity]. intros E. apply (f_equal i_repo) in E. discriminate E.
Qed.
(** *** Refuted: a digest and a tag spelled like it.  (The tags pushed by image signing tools look so.) *)
Theorem digest_and_tag_collide_refuted : exists r1 r2, r_host r1 = r_host r2 /\ r_path r1 = r_path r2 /\ denotes r1 <> denotes r2 /\ localfile r1 = localfile r2.
Proof.
  exists {| r_host := s_ "h"; r_path := s_ "/a"; r_tag := None; r_digest := Some (s_ "sha256:0123456789abcdef0123456789abcdef0123456789abcdef0123456789abcdef"); r_arch := s_ "amd64" |},
         {| r_host := s_ "h"; r_path := s_ "/a"; r_tag := Some (s_ "sha256-0123456789abcdef0123456789abcdef0123456789abcdef0123456789abcdef"); r_digest := None; r_arch := s_ "amd64" |}.
  do 2 (split; [reflexivity|]). split; [|vm_compute; reflexivity]. intros E. apply (f_equal i_ref) in E. discriminate E.
Qed.
(** *** Refuted: the unpacked files are kept apart.  Images chosen by digest all unpack as "latest". *)
Theorem unpacked_digests_collide_refuted : exists r1 r2, plain_request r1 /\ plain_request r2 /\ r_host r1 = r_host r2 /\
  localfile r1 <> localfile r2 /\ unpacked r1 = unpacked r2.
Proof.
  exists {| r_host := s_ "h"; r_path := s_ "/a"; r_tag := None; r_digest := Some (s_ "sha256:0123456789abcdef0123456789abcdef0123456789abcdef0123456789abcdef"); r_arch := s_ "amd64" |},
         {| r_host := s_ "h"; r_path := s_ "/a"; r_tag := None; r_digest := Some (s_ "sha256:1123456789abcdef0123456789abcdef0123456789abcdef0123456789abcdef"); r_arch := s_ "amd64" |}.
  assert (PR : forall c, hex_char c = true -> plain_request {| r_host := s_ "h"; r_path := s_ "/a"; r_tag := None; r_digest := Some (s_ "sha256:" ++ c :: s_ "123456789abcdef0123456789abcdef0123456789abcdef0123456789abcdef"); r_arch := s_ "amd64" |}).
  { intros c HC. split; [cbn; intuition discriminate|]. split; [cbn; intuition discriminate|]. split; [|discriminate]. intros d E. injection E as <-.
    exists (s_ "sha256"), (c :: s_ "123456789abcdef0123456789abcdef0123456789abcdef0123456789abcdef"). split; [reflexivity|]. split; [apply PeanoNat.Nat.leb_le; reflexivity|]. split.
    - constructor; auto. apply Forall_forall. apply forallb_forall. vm_compute. reflexivity.
    - intros x I J. cbn in I, J. intuition (subst; discriminate). }
  split; [apply (PR "0"%char); reflexivity|]. split; [apply (PR "1"%char); reflexivity|]. split; [reflexivity|]. split; [|vm_compute; reflexivity]. vm_compute. discriminate.
Qed.
