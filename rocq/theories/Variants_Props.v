(** The variants of recipes: theorems *)
From Coq Require Import String Ascii List Bool Arith.
From Verif Require Import Str_Model Str_Proofs Words_Model Words_Spec Words_Proofs Pcache_Model Pcache_Spec Pcache_Proofs Variants_Model Variants_Spec Variants_Proofs.
Import ListNotations.
Open Scope list_scope.

(** ** The variants that BBCLASSEXTEND names *)
(** Besides the recipe itself there is one datastore for each word of BBCLASSEXTEND as the finished recipe has it, each made from
    the recipe itself (not from another variant) by setting PN, or the class and the variant, and inheriting the class *)
Theorem variant_stores : forall (S : Type) getvar setvar inherit finalize (d : S),
  let stores := multi_finalize S getvar setvar inherit finalize None d in
  let main := finalize [] d in
  let text := getvar (s_ "BBCLASSEXTEND") main in
  let start := match text with [] => d | _ => setvar (s_ "BBCLASSEXTEND") text d end in
  named_apart stores /\
  (forall s, In ([], s) stores <-> s = main) /\
  (forall n s, In (n, s) stores -> n = [] \/ has_word text n) /\
  (forall n s, has_word text n -> colonless n ->
     (In (n, s) stores <-> s = finalize n (inherit n (setvar (s_ "PN") (getvar (s_ "PN") main ++ s_ "-" ++ n) start)))) /\
  (forall n cls v s, has_word text n -> colonless cls -> colonless v -> n = cls ++ s_ ":" ++ v \/ (exists r, n = cls ++ s_ ":" ++ v ++ s_ ":" ++ r) ->
     (In (n, s) stores <-> s = finalize n (inherit cls (setvar (s_ "BBEXTENDVARIANT") v (setvar (s_ "BBEXTENDCURR") cls start))))).
Proof.
  intros S getvar setvar inherit finalize d stores main text start.
  assert (M : forall n s, In (n, s) stores <-> n = [] /\ s = main \/ has_word text n /\ s = finalize n (extendfunc S setvar inherit (getvar (s_ "PN") main) n start)).
  { intros n s. unfold stores. rewrite (mf_in S getvar setvar inherit finalize None d n s). fold main text. rewrite has_word_iff.
    cbn [wanted]. assert (E : match text with [] => d | e :: l => setvar (s_ "BBCLASSEXTEND") (e :: l) d end = start) by (unfold start; destruct text; reflexivity).
    rewrite E. tauto. }
  assert (NE : forall n, has_word text n -> n <> []) by (intros n [[X _] _]; exact X).
  split; [apply (mf_apart S getvar setvar inherit finalize None d)|]. split; [|split; [|split]].
  - intros s. rewrite M. split; [intros [[_ H]|[H _]]; [exact H|exfalso; exact (NE _ H eq_refl)]|auto].
  - intros n s I. apply (proj1 (M n s)) in I. tauto.
  - intros n s W C. rewrite M. destruct (ext_plain n C) as [A B]. unfold extendfunc. rewrite A, B. split; [intros [[H _]|[_ H]]; [exfalso; exact (NE _ W H)|exact H]|auto].
  - intros n cls v s W C V F. rewrite M. assert (X : ext_class n = cls /\ ext_variant n = Some v).
    { destruct F as [->|[r ->]]; [now apply ext_colon|now apply ext_colons]. }
    destruct X as [A B]. unfold extendfunc. rewrite A, B. split; [intros [[H _]|[_ H]]; [exfalso; exact (NE _ W H)|exact H]|auto].
Qed.
(** The datastore a worker gets for a task is the one the cooker saw when it parsed all variants: parsing one variant alone,
    by the name that stands for file, variant and configuration, gives the same; a name that is no variant gives none *)
Theorem variant_same : forall (S : Type) getvar setvar inherit finalize (handle : str -> str -> S) mc fn v,
  no_colon fn -> no_colon mc ->
  parse_one S getvar setvar inherit finalize handle (realfn2virtual fn v mc) =
  find_in v (parse_all S getvar setvar inherit finalize handle mc fn).
Proof.
  intros S getvar setvar inherit finalize handle mc fn v F M. unfold parse_one. rewrite real_virtual by assumption. unfold parse_all. destruct v as [|c v].
  - reflexivity.
  - now apply (mf_find S getvar setvar inherit finalize (handle mc fn) (c :: v)).
Qed.
(** A datastore of names and values, to show cases *)
Definition x_get (n : str) (d : list (str * str)) : str := match find_in n d with Some v => v | None => [] end.
Definition x_recipe : list (str * str) := [(s_ "PN", s_ "tool"); (s_ "BBCLASSEXTEND", s_ "native  lib:a lib:ab native")].
Definition x_stores (only : option str) : list (str * list (str * str)) :=
  multi_finalize _ x_get (fun n v d => (n, v) :: d) (fun c d => (s_ "class", c) :: d) (fun _ d => d) only x_recipe.
Example variant_stores_met :
  map fst (x_stores None) = [[]; s_ "native"; s_ "lib:a"; s_ "lib:ab"] /\
  (forall s, find_in (s_ "native") (x_stores None) = Some s -> x_get (s_ "PN") s = s_ "tool-native" /\ x_get (s_ "class") s = s_ "native") /\
  (forall s, find_in (s_ "lib:ab") (x_stores None) = Some s -> x_get (s_ "PN") s = s_ "tool" /\ x_get (s_ "BBEXTENDVARIANT") s = s_ "ab" /\ x_get (s_ "class") s = s_ "lib") /\
  map fst (x_stores (Some (s_ "lib:ab"))) = [[]; s_ "lib:a"; s_ "lib:ab"] /\ map fst (x_stores (Some (s_ "default"))) = [[]].
Proof.
  split; [reflexivity|]. split; [intros s H; vm_compute in H; injection H as <-; split; reflexivity|].
  split; [intros s H; vm_compute in H; injection H as <-; split; [|split]; reflexivity|]. split; reflexivity.
Qed.
Example variant_same_met : no_colon (s_ "/l/tool.bb") /\ no_colon (s_ "arm") /\ realfn2virtual (s_ "/l/tool.bb") (s_ "lib:ab") (s_ "arm") = s_ "mc:arm:virtual:lib:ab:/l/tool.bb" /\
  parse_one _ x_get (fun n v d => (n, v) :: d) (fun c d => (s_ "class", c) :: d) (fun _ d => d) (fun mc _ => (s_ "MC", mc) :: x_recipe) (s_ "mc:arm:virtual:lib:ab:/l/tool.bb") <> None.
Proof. split; [intros I; cbn in I; intuition discriminate|]. split; [intros I; cbn in I; intuition discriminate|]. split; [reflexivity|]. vm_compute. discriminate. Qed.

(** ** Kernel modules for several kernels *)
(** With kernel names without colon, a kernel module has one datastore for each kernel in KERNEL_NAMES and for KERNEL_NAME, with
    that KERNEL_NAME and with the package name that ends in it; the other words of BBCLASSEXTEND give variants for KERNEL_NAME only *)
Theorem kernel_variants : forall base names front back k0,
  (back = [] \/ exists c r, back = c :: r /\ is_space c = true) ->
  (forall n, has_word front n \/ has_word back n -> ~ exists r, n = s_ "per-kernel:" ++ r) ->
  (forall k, has_word names k -> colonless k) ->
  let stores := kernel_stores base names front back k0 in
  let name := k_name base names front back in
  named_apart stores /\
  (forall k, k = k0 \/ has_word names k -> exists n d, In (n, d) stores /\ k_kernel d = k /\ name d = base ++ s_ "-" ++ k /\ (n = [] \/ n = s_ "per-kernel:" ++ k)) /\
  (forall n, has_word front n \/ has_word back n -> exists d, In (n, d) stores) /\
  (forall n d, In (n, d) stores ->
     n = [] /\ k_kernel d = k0 /\ name d = base ++ s_ "-" ++ k0 \/
     (exists k, has_word names k /\ k <> k0 /\ n = s_ "per-kernel:" ++ k /\ k_kernel d = k /\ name d = base ++ s_ "-" ++ k) \/
     (has_word front n \/ has_word back n) /\ k_kernel d = k0 /\ (colonless n -> name d = base ++ s_ "-" ++ k0 ++ s_ "-" ++ n)).
Proof.
  intros base names front back k0 B O K stores name.
  split; [apply mf_apart|]. split; [intros k H; now apply kernel_there|]. split; [intros n H; now apply other_there|]. intros n d H. now apply kernel_shape.
Qed.
Definition show_kernels (l : list (str * kstore)) (base names front back : str) : list (str * str * str) :=
  map (fun p => (fst p, k_kernel (snd p), k_name base names front back (snd p))) l.
Example kernel_variants_met :
  show_kernels (kernel_stores (s_ "mod") (s_ "amd64 cip rt cip") [] (s_ " native") (s_ "amd64")) (s_ "mod") (s_ "amd64 cip rt cip") [] (s_ " native") =
    [([], s_ "amd64", s_ "mod-amd64"); (s_ "per-kernel:cip", s_ "cip", s_ "mod-cip"); (s_ "per-kernel:rt", s_ "rt", s_ "mod-rt"); (s_ "native", s_ "amd64", s_ "mod-amd64-native")] /\
  (forall k, has_word (s_ "amd64 cip rt cip") k -> colonless k) /\ (forall n, has_word [] n \/ has_word (s_ " native") n -> ~ exists r, n = s_ "per-kernel:" ++ r).
Proof.
  split; [reflexivity|]. split.
  - intros k H. apply has_word_iff in H. cbn in H. intros I. repeat (destruct H as [H|H]; [subst k; cbn in I; intuition discriminate|]). contradiction.
  - intros n [H|H] [r E]; apply has_word_iff in H; cbn in H; [contradiction|]. destruct H as [H|H]; [|contradiction]. subst n. discriminate.
Qed.
(** A kernel whose name has a colon: the variant is made, but KERNEL_NAME is only what comes before the colon *)
Theorem kernel_colon_refuted : exists base names k0 k, has_word names k /\
  forall n d, In (n, d) (kernel_stores base names [] [] k0) -> k_kernel d <> k.
Proof.
  exists (s_ "mod"), (s_ "amd64 rt:6"), (s_ "amd64"), (s_ "rt:6"). split; [apply has_word_iff; cbn; tauto|].
  intros n d I. vm_compute in I. destruct I as [I|[I|I]]; [| |contradiction]; injection I as _ <-; vm_compute; discriminate.
Qed.

(** ** Customization packages *)
(** For each customization an image asks for, the package it installs is the one the recipe of that customization builds: the variant
    for this image if the image is in CUSTOMIZATION_FOR_IMAGES, and the recipe itself if not *)
Theorem customization_found : forall vars prefixed for_images back customizations bpn,
  (back = [] \/ exists c r, back = c :: r /\ is_space c = true) ->
  (forall i, has_word for_images i -> colonless i) ->
  forall p, In p (customization_packages vars prefixed for_images customizations bpn) <->
    exists x, has_word customizations x /\
    exists n d, In (n, d) (customization_stores vars prefixed for_images back (x ++ s_ "-customization")) /\
      (has_word for_images bpn /\ n = s_ "dpkg-customization:" ++ bpn \/ ~ has_word for_images bpn /\ n = []) /\
      p = c_getvar vars prefixed for_images back (x ++ s_ "-customization") (s_ "PN") d.
Proof.
  intros vars prefixed for_images back customizations bpn B C p. unfold customization_packages. rewrite in_map_iff. setoid_rewrite has_word_iff.
  setoid_rewrite package_name.
  split.
  - intros (x & <- & I). exists x. split; [exact I|]. destruct (mem_str bpn (split_ws for_images)) eqn:E.
    + apply mem_str_In, has_word_iff in E. destruct (image_there vars prefixed for_images back B C (x ++ s_ "-customization") bpn E) as (d & D & N).
      exists (s_ "dpkg-customization:" ++ bpn), d. split; [exact D|]. split; [now left|now symmetry].
    + destruct (main_there vars prefixed for_images back (x ++ s_ "-customization")) as [D N]. eexists _, _. split; [exact D|]. split; [|now symmetry].
      right. split; [|reflexivity]. intros H. apply has_word_iff, mem_str_In in H. congruence.
  - intros (x & W & n & d & D & K & ->). exists x. split; [|exact W]. destruct K as [[H ->]|[H ->]].
    + rewrite (image_only vars prefixed for_images back B C (x ++ s_ "-customization") bpn d H D). rewrite (proj2 (mem_str_In bpn (split_ws for_images))) by now apply has_word_iff. reflexivity.
    + rewrite (main_only vars prefixed for_images back (x ++ s_ "-customization") d D). destruct (mem_str bpn (split_ws for_images)) eqn:E; [|reflexivity].
      exfalso. apply H. apply has_word_iff. now apply mem_str_In.
Qed.
(** The variants for two images, and the recipe itself, are different packages, as long as no image name is a piece of CUSTOMIZATION_VARS_PREFIXED *)
Theorem customization_apart : forall vars prefixed for_images back pre,
  (back = [] \/ exists c r, back = c :: r /\ is_space c = true) ->
  (forall i, has_word for_images i -> colonless i /\ ~ piece_of i prefixed) ->
  let stores := customization_stores vars prefixed for_images back pre in
  let name := c_getvar vars prefixed for_images back pre (s_ "PN") in
  (forall i j d d', has_word for_images i -> has_word for_images j -> In (s_ "dpkg-customization:" ++ i, d) stores -> In (s_ "dpkg-customization:" ++ j, d') stores ->
     name d = name d' -> i = j) /\
  (forall i d d', has_word for_images i -> In (s_ "dpkg-customization:" ++ i, d) stores -> In ([], d') stores -> name d <> name d') /\
  (forall i d d', has_word for_images i -> In (s_ "dpkg-customization:" ++ i, d) stores -> In ([], d') stores -> name d = name d' ++ s_ "-" ++ i).
Proof.
  intros vars prefixed for_images back pre B C stores name.
  assert (CI : forall i, has_word for_images i -> colonless i) by (intros i H; apply (C i H)).
  assert (A : forall i d, has_word for_images i -> In (s_ "dpkg-customization:" ++ i, d) stores -> name d = customized_pn vars prefixed for_images pre [] ++ s_ "-" ++ i).
  { intros i d H I. unfold name. rewrite (image_only vars prefixed for_images back B CI pre i d H I). apply pn_image; [exact H|apply (C i H)]. }
  assert (M : forall d, In ([], d) stores -> name d = customized_pn vars prefixed for_images pre []).
  { intros d I. exact (main_only vars prefixed for_images back pre d I). }
  split; [|split].
  - intros i j d d' H J I I' E. rewrite (A i d H I), (A j d' J I') in E. apply app_inv_head in E. now apply app_inv_head in E.
  - intros i d d' H I I' E. rewrite (A i d H I), (M d' I') in E. rewrite <- (app_nil_r (customized_pn vars prefixed for_images pre [])) in E at 2.
    apply app_inv_head in E. discriminate.
  - intros i d d' H I I'. rewrite (A i d H I), (M d' I'). reflexivity.
Qed.
(** The usual configuration: the distribution in front, the machine behind *)
Theorem customization_usual : forall distro machine for_images back pre d,
  word distro -> word machine -> ~ piece_of machine distro ->
  In ([], d) (customization_stores (distro ++ s_ " " ++ machine) distro for_images back pre) ->
  c_getvar (distro ++ s_ " " ++ machine) distro for_images back pre (s_ "PN") d = distro ++ s_ "-" ++ pre ++ s_ "-" ++ machine.
Proof.
  intros distro machine for_images back pre d D M N I. rewrite (main_only _ _ _ _ _ _ I). unfold customized_pn, customization_prefix, customization_suffix. rewrite vars_none.
  change (distro ++ s_ " " ++ machine) with (distro ++ " "%char :: machine). rewrite split_ws_word by (auto; reflexivity). rewrite split_ws_single by exact M.
  cbn [filter]. rewrite contains_self. assert (F : contains_sub machine distro = false) by (apply not_true_is_false; intros X; apply N; now apply piece_iff).
  rewrite F. cbn [negb join]. destruct D as [DN _], M as [MN _]. destruct distro as [|a distro]; [congruence|]. destruct machine as [|b machine]; [congruence|].
  rewrite <- !app_assoc. reflexivity.
Qed.
Example customization_met :
  customization_packages (s_ "isar qemuarm") (s_ "isar") (s_ "base kiosk") (s_ "hostname net") (s_ "kiosk") =
    [s_ "isar-hostname-customization-qemuarm-kiosk"; s_ "isar-net-customization-qemuarm-kiosk"] /\
  customization_packages (s_ "isar qemuarm") (s_ "isar") (s_ "base kiosk") (s_ "hostname") (s_ "debug") = [s_ "isar-hostname-customization-qemuarm"] /\
  map fst (customization_stores (s_ "isar qemuarm") (s_ "isar") (s_ "base kiosk") (s_ " native") (s_ "hostname-customization")) =
    [[]; s_ "dpkg-customization:base"; s_ "dpkg-customization:kiosk"; s_ "native"] /\
  map (fun p => c_getvar (s_ "isar qemuarm") (s_ "isar") (s_ "base kiosk") (s_ " native") (s_ "hostname-customization") (s_ "PN") (snd p))
    (customization_stores (s_ "isar qemuarm") (s_ "isar") (s_ "base kiosk") (s_ " native") (s_ "hostname-customization")) =
    [s_ "isar-hostname-customization-qemuarm"; s_ "isar-hostname-customization-qemuarm-base"; s_ "isar-hostname-customization-qemuarm-kiosk"; s_ "isar-hostname-customization-qemuarm-native"] /\
  (forall i, has_word (s_ "base kiosk") i -> colonless i /\ ~ piece_of i (s_ "isar")) /\ word (s_ "isar") /\ word (s_ "qemuarm") /\ ~ piece_of (s_ "qemuarm") (s_ "isar").
Proof.
  split; [reflexivity|]. split; [reflexivity|]. split; [reflexivity|]. split; [reflexivity|].
  assert (P : forall w, contains_sub w (s_ "isar") = false -> ~ piece_of w (s_ "isar")) by (intros w H X; apply piece_iff in X; congruence).
  split; [|split; [|split]].
  - intros i H. apply has_word_iff in H. cbn in H. repeat (destruct H as [H|H]; [subst i; split; [intros I; cbn in I; intuition discriminate|now apply P]|]). contradiction.
  - split; [discriminate|repeat constructor].
  - split; [discriminate|repeat constructor].
  - now apply P.
Qed.
(** CUSTOMIZATION_VARS_PREFIXED is said to list the variables that stand in front of the package name.  It is searched as a text, so
    a machine that is not listed goes in front too if its name is a piece of the name of the distribution *)
Theorem customization_prefix_refuted : exists distro machine d, ~ has_word distro machine /\
  In ([], d) (customization_stores (distro ++ s_ " " ++ machine) distro [] [] (s_ "hostname-customization")) /\
  c_getvar (distro ++ s_ " " ++ machine) distro [] [] (s_ "hostname-customization") (s_ "PN") d = distro ++ s_ "-" ++ machine ++ s_ "-hostname-customization".
Proof.
  exists (s_ "arm-os"), (s_ "arm"). eexists. split; [|split; [left; reflexivity|reflexivity]].
  intros H. apply has_word_iff in H. cbn in H. destruct H as [H|H]; [discriminate|contradiction].
Qed.
(** An image whose name is a piece of the name of the distribution: its package name is not the one of the recipe itself with the image behind it *)
Theorem customization_image_refuted : exists vars prefixed for_images i d, has_word for_images i /\
  In (s_ "dpkg-customization:" ++ i, d) (customization_stores vars prefixed for_images [] (s_ "net-customization")) /\
  c_getvar vars prefixed for_images [] (s_ "net-customization") (s_ "PN") d = s_ "kiosk-os-kiosk-net-customization-pc".
Proof.
  exists (s_ "kiosk-os pc"), (s_ "kiosk-os"), (s_ "kiosk"), (s_ "kiosk"). eexists. split; [apply has_word_iff; cbn; tauto|]. split; [right; left; reflexivity|reflexivity].
Qed.

Print Assumptions variant_stores.
Print Assumptions variant_same.
Print Assumptions kernel_variants.
Print Assumptions kernel_colon_refuted.
Print Assumptions customization_found.
Print Assumptions customization_apart.
Print Assumptions customization_usual.
Print Assumptions customization_prefix_refuted.
Print Assumptions customization_image_refuted.
