(** C101: the provider of a runtime name. *)
From Coq Require Import Ascii String List Bool ZArith Lia Permutation.
From Verif Require Import Str_Model Str_Proofs Sstname_Model Imgtypes_Model Ksparser_Model Vercmp_Model Providers_Model Providers_Spec Providers_Proofs Providers_Props Rprov_Model Rprov_Spec Rprov_Proofs.
Import ListNotations.
Open Scope list_scope.

Lemma pn_inj (l : list recipe) a b : NoDup (map f_pn l) -> In a l -> In b l -> f_pn a = f_pn b -> a = b.
Proof.
  induction l as [|x l IH]; intros N A B E; [contradiction|]. cbn [map] in N. inversion N; subst. destruct A as [->|A], B as [->|B]; auto; exfalso; apply H1.
  - rewrite E. now apply in_map.
  - rewrite <- E. now apply in_map.
Qed.

(** Preferences only change the order: the files are the ones chosen for each recipe name,
    each once, and they come from the candidates. *)
Theorem runtime_reordered getvar provides files item : same_file files ->
  let r := filter_runtime getvar provides files item in
  Permutation (fst r) (filter_providers_ getvar files item) /\ NoDup (map f_name (fst r)) /\ forall f, In f (fst r) -> In f files.
Proof.
  intros C. cbv zeta. destruct (filter_nodup getvar files item C) as [N I]. unfold filter_runtime. set (el := filter_providers_ getvar files item) in *.
  assert (Q : forall l, Permutation l el -> Permutation l el /\ NoDup (map f_name l) /\ forall f, In f l -> In f files).
  { intros l P. split; [exact P|split]; [apply (Permutation_NoDup (Permutation_sym (Permutation_map f_name P)) N)|]. intros f F. apply I. now apply (Permutation_in _ P). }
  assert (R : Permutation (fst (let (el', pre) := infer (length el) getvar provides el 0 el true el [] in (el', length pre))) el).
  { assert (X := infer_all getvar provides el N). destruct (infer (length el) getvar provides el 0 el true el []) as [el' pre]. now destruct X. }
  destruct (getvar (s_ "PREFERRED_RPROVIDER_" ++ item)) as [[|c v]|]; auto.
  destruct (find (fun f => seqb (f_pn f) (c :: v)) el) as [f|] eqn:F; auto.
  apply Q. apply find_some in F. destruct F as [F _]. cbn [fst]. now apply remove_file_perm.
Qed.

(** A recipe named by PREFERRED_RPROVIDER comes first, whatever else is preferred. *)
Theorem rprovider_first getvar provides files item pn : same_file files ->
  (forall n, In n (map f_pn files) -> satisfiable getvar files n) ->
  pn <> [] -> getvar (s_ "PREFERRED_RPROVIDER_" ++ item) = Some pn -> In pn (map f_pn files) ->
  exists f t, filter_runtime getvar provides files item = (f :: t, 1) /\ f_pn f = pn.
Proof.
  intros C S NE G I. destruct (filter_spec getvar files item C) as (A & _ & B & _ & _); [intros m M; apply satisfiable_found; auto|].
  unfold filter_runtime. rewrite G. destruct pn as [|c pn]; [congruence|]. set (el := filter_providers_ getvar files item) in *.
  destruct (find (fun f => seqb (f_pn f) (c :: pn)) el) as [f|] eqn:E.
  - apply find_some in E. destruct E as [F E]. apply seqb_eq in E. exists f, (remove_file f el). auto.
  - exfalso. apply B in I. apply in_map_iff in I. destruct I as (f & X & F). apply (find_none _ _ E) in F. rewrite X, seqb_refl in F. discriminate.
Qed.

Lemma prefers_wants getvar provides files item pn : same_file files ->
  (forall n, In n (map f_pn files) -> satisfiable getvar files n) ->
  let el := filter_providers_ getvar files item in
  prefers getvar provides files pn <-> exists p f, In p el /\ wants getvar provides el p f /\ f_pn f = pn.
Proof.
  intros C S el. destruct (filter_spec getvar files item C) as (A & _ & B & D & _); [intros m M; apply satisfiable_found; auto|]. fold el in A, B, D.
  split.
  - intros (I & f & x & F & X & G). apply B in I. apply in_map_iff in I. destruct I as (g & GE & GI).
    assert (FI : In (f_pn f) (map f_pn el)) by (apply B; now apply in_map). apply in_map_iff in FI. destruct FI as (h & HE & HI).
    exists h, g. split; [exact HI|]. split; [|exact GE]. split; [exact GI|]. exists x. rewrite HE, GE. auto.
  - intros (p & f & P & (F & x & X & G) & <-). split; [apply B; now apply in_map|]. exists p, x. split; [now apply D|auto].
Qed.

(** Without it, the recipes named by PREFERRED_PROVIDER for something the candidates
    provide decide: none named, the order stays; one named, it comes first; and more than
    one is only reported if different recipes are named. *)
Theorem inferred_first getvar provides files item : same_file files ->
  (forall n, In n (map f_pn files) -> satisfiable getvar files n) -> no_rprovider getvar files item ->
  let (el, n) := filter_runtime getvar provides files item in
  (n = 0 <-> forall pn, ~ prefers getvar provides files pn) /\
  (n = 0 -> el = filter_providers_ getvar files item) /\
  (n <> 0 -> exists f t, el = f :: t /\ prefers getvar provides files (f_pn f)) /\
  (forall pn, (forall m, prefers getvar provides files m <-> m = pn) -> n = 1 /\ exists f t, el = f :: t /\ f_pn f = pn) /\
  (n > 1 -> exists m m', m <> m' /\ prefers getvar provides files m /\ prefers getvar provides files m').
Proof.
  intros C S NR. destruct (filter_spec getvar files item C) as (A & N & B & D & _); [intros m M; apply satisfiable_found; auto|].
  assert (PW := fun pn => prefers_wants getvar provides files item pn C S). cbv zeta in PW.
  unfold filter_runtime. set (el := filter_providers_ getvar files item) in *.
  replace (match getvar (s_ "PREFERRED_RPROVIDER_" ++ item) with Some (c :: v) => find (fun f => seqb (f_pn f) (c :: v)) el | _ => None end) with (@None recipe).
  2:{ unfold no_rprovider in NR. destruct (getvar (s_ "PREFERRED_RPROVIDER_" ++ item)) as [[|c v]|] eqn:G; auto. destruct (find (fun f => seqb (f_pn f) (c :: v)) el) as [f|] eqn:F; auto. exfalso.
      apply find_some in F. destruct F as [F E]. apply seqb_eq in E. destruct (NR (c :: v) eq_refl) as [Q|Q]; [discriminate|]. apply Q. apply B. rewrite <- E. now apply in_map. }
  assert (X := infer_all getvar provides el N). destruct (infer (length el) getvar provides el 0 el true el []) as [el' pre].
  destruct X as (X1 & X2 & X3 & X4 & X5).
  assert (P3 : forall f, In f pre -> In f el /\ prefers getvar provides files (f_pn f)).
  { intros f F. destruct (X3 f F) as (p & P & W). split; [apply W|]. apply PW. eauto. }
  assert (ZERO : length pre = 0 -> pre = []) by (destruct pre; [auto|discriminate]).
  assert (HEAD : length pre <> 0 -> exists f t, el' = f :: t /\ prefers getvar provides files (f_pn f)).
  { intros L. destruct X4 as [->|(t & q & f & -> & ->)]; [now destruct L|]. exists f, t. split; auto. apply P3. apply in_or_app. right. now left. }
  split; [|split; [|split; [|split]]].
  - split.
    + intros L pn P. apply PW in P. destruct P as (p & f & P & W & _). destruct (X5 (ZERO L)) as [_ Q]. now apply (Q p f).
    + intros H. destruct pre as [|f pre]; auto. exfalso. apply (H (f_pn f)). apply P3. now left.
  - intros L. now apply X5, ZERO.
  - exact HEAD.
  - intros pn U.
    assert (L1 : length pre <> 0).
    { intros L. assert (P : prefers getvar provides files pn) by now apply U. apply PW in P. destruct P as (p & f & P & W & _). destruct (X5 (ZERO L)) as [_ Q]. now apply (Q p f). }
    destruct (HEAD L1) as (f & t & E & P). apply U in P. split; [|eauto].
    destruct pre as [|a [|b pre]]; [now destruct L1|reflexivity|]. exfalso.
    destruct (P3 a (or_introl eq_refl)) as [IA PA], (P3 b (or_intror (or_introl eq_refl))) as [IB PB]. apply U in PA, PB.
    assert (a = b) by (apply (pn_inj el); congruence || auto).
    subst b. inversion X2 as [|? ? NI _]; subst. apply NI. now left.
  - intros L. destruct pre as [|a [|b pre]]; cbn in L; try lia.
    destruct (P3 a (or_introl eq_refl)) as [IA PA], (P3 b (or_intror (or_introl eq_refl))) as [IB PB].
    exists (f_pn a), (f_pn b). split; auto. intros E.
    assert (a = b) by (apply (pn_inj el); congruence || auto).
    subst b. inversion X2 as [|? ? NI _]; subst. apply NI. now left.
Qed.

(** The order in which the candidates were found does not matter. *)
Theorem runtime_order getvar provides files files' item : NoDup (map f_name files) -> Permutation files files' ->
  filter_runtime getvar provides files item = filter_runtime getvar provides files' item.
Proof. intros N P. unfold filter_runtime, filter_providers_. now rewrite (sort_files_canonical files files' N P). Qed.

(** The build goes on with a file only if it is one of the candidates, and it stops if
    there is none or if several recipes were found to be preferred. *)
Theorem rprovider_chosen getvar provides files item : same_file files ->
  (forall n, In n (map f_pn files) -> satisfiable getvar files n) ->
  match rprovider_choice getvar provides files item with
  | None => files = [] \/ exists m m', m <> m' /\ prefers getvar provides files m /\ prefers getvar provides files m'
  | Some el => el <> [] /\ Permutation el (filter_providers_ getvar files item) /\
      (forall pn, pn <> [] -> getvar (s_ "PREFERRED_RPROVIDER_" ++ item) = Some pn -> In pn (map f_pn files) -> exists f t, el = f :: t /\ f_pn f = pn) /\
      (forall pn, no_rprovider getvar files item -> (forall m, prefers getvar provides files m <-> m = pn) -> exists f t, el = f :: t /\ f_pn f = pn)
  end.
Proof.
  intros C S. unfold rprovider_choice. destruct files as [|f0 fs]; [now left|]. set (files := f0 :: fs) in *.
  pose proof (runtime_reordered getvar provides files item C) as R. cbv zeta in R.
  pose proof (fun pn => rprovider_first getvar provides files item pn C S) as F.
  assert (D : no_rprovider getvar files item \/ exists pn, pn <> [] /\ getvar (s_ "PREFERRED_RPROVIDER_" ++ item) = Some pn /\ In pn (map f_pn files)).
  { unfold no_rprovider. destruct (getvar (s_ "PREFERRED_RPROVIDER_" ++ item)) as [pn|] eqn:E; [|left; discriminate].
    destruct (in_dec str_eq_dec pn (map f_pn files)) as [I|NI]; [|left; intros q Q; injection Q as <-; auto].
    destruct (str_eq_dec pn []) as [->|NE]; [left; intros q Q; injection Q as <-; auto|right; eauto]. }
  assert (I := inferred_first getvar provides files item C S).
  destruct (filter_runtime getvar provides files item) as [el n]. cbn [fst] in R. destruct R as (P & _ & _).
  destruct el as [|g el].
  - exfalso. destruct (filter_spec getvar files item C) as (_ & _ & B & _ & _); [intros m M; apply satisfiable_found; auto|].
    apply Permutation_nil in P. rewrite P in B. apply (B (f_pn f0)). now left.
  - destruct n as [|[|n]].
    + split; [discriminate|]. split; [exact P|]. split.
      * intros pn NE G IN. destruct (F pn NE G IN) as (f & t & Q & _). discriminate.
      * intros pn NR U. destruct (I NR) as (_ & _ & _ & Q & _). now destruct (Q pn U).
    + split; [discriminate|]. split; [exact P|]. split.
      * intros pn NE G IN. destruct (F pn NE G IN) as (f & t & Q & E). injection Q as -> ->. eauto.
      * intros pn NR U. destruct (I NR) as (_ & _ & _ & Q & _). now destruct (Q pn U).
    + right. destruct D as [NR|(pn & NE & G & IN)]; [|destruct (F pn NE G IN) as (f & t & Q & _); discriminate].
      destruct (I NR) as (_ & _ & _ & _ & Q). apply Q. lia.
Qed.

(** A file that lists the name in PACKAGES or RPROVIDES is a candidate, and a pattern in
    PACKAGES_DYNAMIC counts only if no file does. *)
Theorem dynamic_last matches rproviders packages dynamic item f :
  In f (runtime_providers matches rproviders packages dynamic item) <->
  In f (rproviders item) \/ In f (packages item) \/
  (rproviders item = [] /\ packages item = [] /\ exists pattern fs, In (pattern, fs) dynamic /\ matches pattern item = true /\ In f fs).
Proof.
  unfold runtime_providers. destruct (rproviders item ++ packages item) as [|x l] eqn:E.
  - apply app_eq_nil in E. destruct E as [-> ->]. rewrite in_flat_map. split.
    + intros ((p & fs) & I & J). cbn [fst snd] in J. destruct (matches p item) eqn:M; [|destruct J]. right. right. eauto 8.
    + intros [[]|[[]|(_ & _ & p & fs & I & M & J)]]. exists (p, fs). cbn [fst snd]. now rewrite M.
  - rewrite <- E, in_app_iff. split; [tauto|]. intros [H|[H|(A & B & _)]]; auto. rewrite A, B in E. discriminate.
Qed.

Definition two_files := [rec "a_1.bb" "a" 5 0 "1"; rec "b_1.bb" "b" 5 0 "1"; rec "b_2.bb" "b" 5 0 "2"].
Definition two_provides (pn : str) : list str := if seqb pn (s_ "a") then [s_ "a"; s_ "virtual/x"] else [s_ "b"; s_ "virtual/y"].
Definition one_wish := vars [("PREFERRED_PROVIDER_virtual/y", "b")]%string.
Definition two_wishes := vars [("PREFERRED_PROVIDER_virtual/x", "a"); ("PREFERRED_PROVIDER_virtual/y", "b")]%string.

(** Two candidates that the configuration prefers for different names are not noticed:
    removing the first from the list the loop runs over makes it skip the second. *)
Theorem conflict_noticed_refuted : exists getvar provides files item m m',
  same_file files /\ (forall n, In n (map f_pn files) -> satisfiable getvar files n) /\ no_rprovider getvar files item /\
  m <> m' /\ prefers getvar provides files m /\ prefers getvar provides files m' /\
  snd (filter_runtime getvar provides files item) = 1.
Proof.
  exists two_wishes, two_provides, two_files, (s_ "tool"), (s_ "a"), (s_ "b").
  split; [apply nodup_consistent; repeat (constructor; [cbn; intuition discriminate|]); constructor|].
  split; [intros n _; left; split; [left; reflexivity|split; [left; reflexivity|reflexivity]]|]. split; [discriminate|]. split; [discriminate|]. split; [|split].
  - split; [now left|]. exists (rec "a_1.bb" "a" 5 0 "1"), (s_ "virtual/x"). split; [now left|]. split; [now right; left|reflexivity].
  - split; [now right; left|]. exists (rec "b_1.bb" "b" 5 0 "1"), (s_ "virtual/y"). split; [now right; left|]. split; [now right; left|reflexivity].
  - vm_compute. reflexivity.
Qed.

(** ** Examples *)
Example two_met getvar : (forall n, getvar (s_ "REQUIRED_VERSION:pn-" ++ n) = None /\ getvar (s_ "REQUIRED_VERSION_" ++ n) = None) -> getvar (s_ "REQUIRED_VERSION") = None ->
  same_file two_files /\ forall n, In n (map f_pn two_files) -> satisfiable getvar two_files n.
Proof.
  intros H H0. split; [apply nodup_consistent; repeat (constructor; [cbn; intuition discriminate|]); constructor|].
  intros n _. left. split; [left; apply (H n)|split; [left; apply (H n)|exact H0]].
Qed.
Example one_wish_met : (forall m, prefers one_wish two_provides two_files m <-> m = s_ "b") /\ no_rprovider one_wish two_files (s_ "tool") /\
  filter_runtime one_wish two_provides two_files (s_ "tool") = ([rec "b_2.bb" "b" 5 0 "2"; rec "a_1.bb" "a" 5 0 "1"], 1).
Proof.
  split; [|split; [discriminate|vm_compute; reflexivity]]. intros m. split.
  - intros (_ & f & x & F & X & G). assert (Q : x = s_ "a" \/ x = s_ "virtual/x" \/ x = s_ "b" \/ x = s_ "virtual/y").
    { unfold two_provides in X. destruct (seqb (f_pn f) (s_ "a")); destruct X as [<-|[<-|[]]]; auto. }
    destruct Q as [-> | [-> | [-> | ->]]]; vm_compute in G; try discriminate. injection G as <-. reflexivity.
  - intros ->. split; [now right; left|]. exists (rec "b_1.bb" "b" 5 0 "1"), (s_ "virtual/y"). split; [now right; left|]. split; [now right; left|reflexivity].
Qed.
Example rprovider_example :
  filter_runtime (vars [("PREFERRED_PROVIDER_virtual/x", "a"); ("PREFERRED_RPROVIDER_tool", "b")]%string) two_provides two_files (s_ "tool") = ([rec "b_2.bb" "b" 5 0 "2"; rec "a_1.bb" "a" 5 0 "1"], 1).
Proof. vm_compute. reflexivity. Qed.
(** A conflict that is noticed: the second candidate prefers the third one. *)
Example conflict_example : snd (filter_runtime (vars [("PREFERRED_PROVIDER_virtual/x", "a"); ("PREFERRED_PROVIDER_virtual/y", "b")]%string) two_provides
  (two_files ++ [rec "c_1.bb" "c" 5 0 "1"]) (s_ "tool")) = 2.
Proof. vm_compute. reflexivity. Qed.

(** Whatever the configuration says, the build does not go on without a provider, nor with a file that is not a candidate. *)
Theorem rprovider_some getvar provides files item el : same_file files -> rprovider_choice getvar provides files item = Some el ->
  el <> [] /\ forall f, In f el -> In f files.
Proof.
  intros C. unfold rprovider_choice. destruct files as [|f0 fs]; [discriminate|]. set (files := f0 :: fs) in *.
  destruct (runtime_reordered getvar provides files item C) as (_ & _ & I).
  destruct (filter_runtime getvar provides files item) as [[|f t] n] eqn:E; [discriminate|]. cbn [fst] in I.
  destruct n as [|[|n]]; intros H; try discriminate; injection H as <-; (split; [discriminate|exact I]).
Qed.
Definition too_new := vars [("REQUIRED_VERSION", "9")]%string.
Example rprovider_some_met : rprovider_choice one_wish two_provides two_files (s_ "tool") = Some [rec "b_2.bb" "b" 5 0 "2"; rec "a_1.bb" "a" 5 0 "1"] /\
  rprovider_choice too_new two_provides two_files (s_ "tool") = None.
Proof. split; vm_compute; reflexivity. Qed.

Print Assumptions runtime_reordered.
Print Assumptions rprovider_first.
Print Assumptions inferred_first.
Print Assumptions runtime_order.
Print Assumptions rprovider_chosen.
Print Assumptions dynamic_last.
Print Assumptions conflict_noticed_refuted.
Print Assumptions rprovider_some.
