(** C43: which recipe is chosen. *)
From Coq Require Import Ascii String List Bool ZArith Lia Permutation.
From Verif Require Import Str_Model Str_Proofs Vercmp_Model Vercmp_Props Providers_Model Providers_Spec Providers_Proofs.
Import ListNotations.
Open Scope list_scope.

(** Without a wanted version the chosen recipe is one that no other is to be taken before. *)
Theorem best_chosen getvar pn files : files <> [] ->
  asks_nothing getvar (s_ "REQUIRED") pn -> asks_nothing getvar (s_ "PREFERRED") pn ->
  exists f, find_best getvar pn files = Some (Some f, Some f, false) /\ best files f.
Proof.
  intros N R P. destruct (latest_best files N) as (f & E & B). exists f. split; auto. unfold find_best.
  assert (X : find_preferred getvar pn (sort_priorities files) = (None, false)).
  { unfold find_preferred. rewrite (asks_nothing_variable _ _ _ R), (asks_nothing_variable _ _ _ P). reflexivity. }
  rewrite X. destruct (groups_nonempty files N) as (g & gs & G). rewrite G in *. cbn [hd] in E. now rewrite E.
Qed.
(** Such a recipe is unique up to priority, preference and version, and so does not depend on the order of the files. *)
Theorem best_unique files f g : best files f -> best files g -> f_pri f = f_pri g /\ f_pref f = f_pref g /\ vercmp (version f) (version g) = 0%Z.
Proof.
  intros [F FB] [G GB]. specialize (FB g G). specialize (GB f F). unfold before in *.
  assert (A : f_pri f = f_pri g) by (destruct (Z.lt_trichotomy (f_pri f) (f_pri g)) as [H|[H|H]]; [exfalso; apply FB; auto|auto|exfalso; apply GB; auto]).
  assert (B : f_pref f = f_pref g). { destruct (Z.lt_trichotomy (f_pref f) (f_pref g)) as [H|[H|H]]; [exfalso; apply FB; right; auto|auto|exfalso; apply GB; right; auto]. }
  split; [auto|split; [auto|]].
  assert (C : ~ (vercmp (version f) (version g) < 0)%Z) by (intros H; apply FB; right; split; auto).
  assert (D : ~ (vercmp (version g) (version f) < 0)%Z) by (intros H; apply GB; right; split; auto).
  pose proof (vercmp_antisymmetric (version f) (version g)). lia.
Qed.
Theorem best_order getvar pn files files' : files <> [] -> Permutation files files' ->
  asks_nothing getvar (s_ "REQUIRED") pn -> asks_nothing getvar (s_ "PREFERRED") pn ->
  (forall f g, In f files -> In g files -> f_pri f = f_pri g -> f_pref f = f_pref g -> vercmp (version f) (version g) = 0%Z -> f = g) ->
  find_best getvar pn files = find_best getvar pn files'.
Proof.
  intros N P R Q U. assert (N' : files' <> []) by (intros ->; apply Permutation_sym, Permutation_nil in P; auto).
  destruct (best_chosen getvar pn files N R Q) as (f & -> & B). destruct (best_chosen getvar pn files' N' R Q) as (g & -> & B').
  assert (B2 : best files g). { destruct B' as [I H]. split; [now apply (Permutation_in _ (Permutation_sym P))|]. intros h Hh. apply H. now apply (Permutation_in _ P). }
  destruct (best_unique files f g B B2) as (X & Y & Z). rewrite (U f g); auto; [apply B|apply B2].
Qed.
(** A required version is obeyed or nothing is chosen. *)
Theorem required_obeyed getvar pn files e w : files <> [] -> plain_wanted e w -> asks getvar (s_ "REQUIRED") pn (wanted_text e w) ->
  exists latest chosen, find_best getvar pn files = Some (latest, chosen, true) /\
    match chosen with
    | Some f => In f files /\ fits e w f /\ forall g, In g files -> fits e w g -> (f_pri g <= f_pri f)%Z
    | None => forall g, In g files -> ~ fits e w g
    end.
Proof.
  intros N PW A. pose proof (find_wanted getvar pn files e w PW) as FW. pose proof (find_preferred_flag getvar pn (sort_priorities files)) as FL. rewrite (asks_variable _ _ _ _ A) in *. specialize (FW eq_refl).
  unfold find_best. destruct (find_preferred getvar pn (sort_priorities files)) as [p r]. cbn [fst snd] in *. subst r. destruct (groups_nonempty files N) as (g & gs & ->).
  exists (find_latest g), p. split; [|exact FW]. destruct p; reflexivity.
Qed.
(** A preferred version is taken when there is one; otherwise the best recipe is. *)
Theorem preferred_taken getvar pn files e w : files <> [] -> plain_wanted e w ->
  asks_nothing getvar (s_ "REQUIRED") pn -> asks getvar (s_ "PREFERRED") pn (wanted_text e w) ->
  exists latest f, find_best getvar pn files = Some (latest, Some f, false) /\ In f files /\
    ((fits e w f /\ forall g, In g files -> fits e w g -> (f_pri g <= f_pri f)%Z) \/
     ((forall g, In g files -> ~ fits e w g) /\ best files f)).
Proof.
  intros N PW R A. pose proof (find_wanted getvar pn files e w PW) as FW. pose proof (find_preferred_flag getvar pn (sort_priorities files)) as FL.
  rewrite (asks_nothing_variable _ _ _ R) in *. rewrite (asks_variable _ _ _ _ A) in *. specialize (FW eq_refl).
  destruct (latest_best files N) as (b & E & B). unfold find_best. destruct (find_preferred getvar pn (sort_priorities files)) as [p r]. cbn [fst snd] in *. subst r. destruct (groups_nonempty files N) as (g & gs & G). rewrite G in *. cbn [hd] in E.
  destruct p as [f|]; [exists (find_latest g), f|exists (find_latest g), b; rewrite E].
  - split; [reflexivity|]. destruct FW as (I & F & M). split; [exact I|left; auto].
  - split; [reflexivity|]. split; [apply B|right; auto].
Qed.

(** The configuration does not require a version of this recipe that no file has. *)
Definition satisfiable (getvar : str -> option str) (files : list recipe) (pn : str) : Prop :=
  asks_nothing getvar (s_ "REQUIRED") pn \/
  exists e w f, plain_wanted e w /\ asks getvar (s_ "REQUIRED") pn (wanted_text e w) /\ In f files /\ f_pn f = pn /\ fits e w f.
Lemma satisfiable_found getvar files pn : satisfiable getvar files pn ->
  find_preferred getvar pn (sort_priorities (of_pn (sort_files files) pn)) <> (None, true).
Proof.
  set (l := of_pn (sort_files files) pn). intros [R|(e & w & f & PW & A & I & P & F)] X.
  - pose proof (find_preferred_flag getvar pn (sort_priorities l)) as FL. rewrite X, (asks_nothing_variable _ _ _ R) in FL. discriminate.
  - pose proof (find_wanted getvar pn l e w PW) as FW. rewrite (asks_variable _ _ _ _ A) in FW. specialize (FW eq_refl). rewrite X in FW. cbn [fst] in FW.
    apply (FW f); auto. apply of_pn_in. split; auto. now apply (Permutation_in _ (Permutation_sym (sort_files_perm files))).
Qed.
Definition named (files : list recipe) (pn : str) : list recipe := filter (fun g => seqb (f_pn g) pn) files.

(** The providers of a name: one file for each recipe name, the one chosen as above, with the item's own recipe first. *)
Theorem one_per_recipe getvar files item : NoDup (map f_name files) ->
  (forall pn, In pn (map f_pn files) -> satisfiable getvar files pn) ->
  let el := filter_providers_ getvar files item in
  NoDup (map f_pn el) /\ (forall pn, In pn (map f_pn el) <-> In pn (map f_pn files)) /\
  (forall f, In f el -> In f files /\
    (asks_nothing getvar (s_ "REQUIRED") (f_pn f) -> asks_nothing getvar (s_ "PREFERRED") (f_pn f) -> best (named files (f_pn f)) f) /\
    (forall e w, plain_wanted e w ->
       asks getvar (s_ "REQUIRED") (f_pn f) (wanted_text e w) \/
       (asks_nothing getvar (s_ "REQUIRED") (f_pn f) /\ asks getvar (s_ "PREFERRED") (f_pn f) (wanted_text e w) /\ exists g, In g (named files (f_pn f)) /\ fits e w g) ->
       fits e w f /\ forall g, In g (named files (f_pn f)) -> fits e w g -> (f_pri g <= f_pri f)%Z)) /\
  (In item (map f_pn files) -> exists f t, el = f :: t /\ f_pn f = item).
Proof.
  intros N S. cbv zeta. destruct (filter_spec getvar files item (nodup_consistent _ N)) as (A & _ & B & C & D); [intros pn I; apply satisfiable_found; auto|].
  split; [exact A|]. split; [exact B|]. split; [|exact D]. intros f F. destruct (C f F) as [CF I]. split; [exact I|]. set (pn := f_pn f) in *. set (l := of_pn (sort_files files) pn) in *.
  assert (SM : forall g, In g l <-> In g (named files pn)).
  { intros g. unfold l, named. rewrite of_pn_in, filter_In, seqb_eq. split; intros [X Y]; split; auto; [apply (Permutation_in _ (sort_files_perm files) X)|apply (Permutation_in _ (Permutation_sym (sort_files_perm files)) X)]. }
  assert (NL : l <> []). { assert (X : In f l) by (apply of_pn_in; split; auto; now apply (Permutation_in _ (Permutation_sym (sort_files_perm files)))). destruct l; [contradiction|discriminate]. }
  unfold chosen_for in CF. fold l in CF. split.
  - intros R P. assert (X : fst (find_preferred getvar pn (sort_priorities l)) = None).
    { unfold find_preferred. rewrite (asks_nothing_variable _ _ _ R), (asks_nothing_variable _ _ _ P). reflexivity. }
    rewrite X in CF. destruct (latest_best l NL) as (r & E & [B1 B2]). rewrite E in CF. injection CF as ->. split; [now apply SM|]. intros g G. apply B2. now apply SM.
  - intros e w PW H. pose proof (find_wanted getvar pn l e w PW) as FW.
    assert (HV : (match version_variable getvar (s_ "REQUIRED") pn with Some v => Some v | None => version_variable getvar (s_ "PREFERRED") pn end) = Some (wanted_text e w)).
    { destruct H as [H|(R & P & _)]; [now rewrite (asks_variable _ _ _ _ H)|]. rewrite (asks_nothing_variable _ _ _ R). now apply asks_variable. }
    specialize (FW HV). destruct (fst (find_preferred getvar pn (sort_priorities l))) as [g|].
    + injection CF as ->. destruct FW as (_ & X & Y). split; auto. intros g G. apply Y. now apply SM.
    + exfalso. destruct H as [H|(_ & _ & g & G & X)]; [|apply (FW g); auto; now apply SM].
      destruct (S pn) as [R|(e' & w' & g & PW' & A' & G & GP & X)]; [now apply in_map| |].
      * rewrite (asks_nothing_variable _ _ _ R) in HV. apply asks_variable in H. rewrite (asks_nothing_variable _ _ _ R) in H. discriminate.
      * assert (E : wanted_text e w = wanted_text e' w') by (apply asks_variable in H, A'; congruence).
        pose proof (split_preferred_text e w PW) as S1. pose proof (split_preferred_text e' w' PW') as S2. rewrite <- E, S1 in S2. pose proof (f_equal snd S2) as WW. apply (f_equal fst) in S2. cbn [fst snd] in S2, WW. subst e'.
        assert (M : fits e w g). { apply version_match_fits; auto. rewrite WW. now apply version_match_fits. }
        apply (FW g); auto. apply SM. unfold named. apply filter_In. split; auto. now apply seqb_eq.
Qed.
(** The preferred provider is put first and reported as found. *)
Theorem preferred_provider_first getvar seen files item pn : NoDup (map f_name files) ->
  (forall n, In n (map f_pn files) -> satisfiable getvar files n) ->
  pn <> [] -> getvar (s_ "PREFERRED_PROVIDER_" ++ item) = Some pn ->
  (In pn (map f_pn files) -> exists f t, filter_providers getvar seen files item = (f :: t, true) /\ f_pn f = pn /\
     Permutation (f :: t) (filter_providers_ getvar files item)) /\
  (~ In pn (map f_pn files) -> filter_providers getvar seen files item = (filter_providers_ getvar files item, false)).
Proof.
  intros N S NE G. destruct (filter_spec getvar files item (nodup_consistent _ N)) as (A & A2 & B & C & D); [intros m I; apply satisfiable_found; auto|].
  unfold filter_providers. rewrite G. destruct pn as [|c pn]; [congruence|]. set (el := filter_providers_ getvar files item) in *.
  destruct (find (fun f => seqb (f_pn f) (c :: pn)) el) as [f|] eqn:E.
  - apply find_some in E. destruct E as [I E]. apply seqb_eq in E. split.
    + intros _. exists f, (remove_file f el). split; [reflexivity|]. split; [auto|now apply remove_file_perm].
    + intros NI. exfalso. apply NI. apply B. rewrite <- E. now apply in_map.
  - split; [|reflexivity]. intros I. exfalso. apply B in I. apply in_map_iff in I. destruct I as (f & X & F). apply (find_none _ _ E) in F. rewrite X, seqb_refl in F. discriminate.
Qed.
(** The order in which the providers were found does not matter. *)
Theorem provider_order getvar seen files files' item : NoDup (map f_name files) -> Permutation files files' ->
  filter_providers getvar seen files item = filter_providers getvar seen files' item.
Proof. intros N P. unfold filter_providers, filter_providers_. now rewrite (sort_files_canonical files files' N P). Qed.

Lemma preferred_in getvar pn files f : fst (find_preferred getvar pn (sort_priorities files)) = Some f -> In f files.
Proof.
  intros E. apply concat_groups_in. unfold find_preferred in E.
  destruct (match version_variable getvar (s_ "REQUIRED") pn with Some v => Some v | None => version_variable getvar (s_ "PREFERRED") pn end) as [[|c v]|]; try discriminate.
  destruct (split_preferred (c :: v)). cbn [fst] in E. now apply find_some in E.
Qed.
(** Whatever else is missing, a recipe for which a version is required is only offered in that version. *)
Theorem required_provider_fits getvar seen files item f e w : In f (fst (filter_providers getvar seen files item)) ->
  plain_wanted e w -> asks getvar (s_ "REQUIRED") (f_pn f) (wanted_text e w) -> In f files /\ fits e w f.
Proof.
  intros I PW A. set (l := sort_files files). set (fp := fun pn => find_preferred getvar pn (sort_priorities (of_pn l pn))).
  assert (RI : forall x y el, In x (remove_file y el) -> In x el).
  { intros x y el. induction el as [|z el IH]; cbn [remove_file]; [easy|]. destruct (seqb (f_name z) (f_name y)); [now right|]. intros [->|X]; [now left|right; auto]. }
  assert (IE : In f (filter_providers_ getvar files item)).
  { unfold filter_providers in I. destruct (match getvar (s_ "PREFERRED_PROVIDER_" ++ item) with Some (c :: v) => Some (c :: v) | _ => seen end) as [pn|]; [|exact I].
    destruct (find _ _) as [g|] eqn:G; [|exact I]. apply find_some in G. destruct G as [G _]. cbn [fst] in I. destruct I as [<-|I]; [exact G|]. revert I. apply RI. }
  clear I. unfold filter_providers_ in IE. fold l in IE. destruct (preferred_pass getvar l (pns l) []) as [el complete] eqn:P.
  assert (PP : forall names acc el c, preferred_pass getvar l names acc = (el, c) ->
    (forall x, In x el -> In x acc \/ exists pn, fst (fp pn) = Some x) /\ (c = true -> forall pn, In pn names -> fp pn <> (None, true))).
  { induction names as [|pn names IH]; intros acc el' c E; cbn [preferred_pass] in E; [injection E as <- <-; split; [auto|intros _ pn []]|].
    fold (fp pn) in E. destruct (fp pn) as [[g|] [|]] eqn:F; try (destruct (IH _ _ _ E) as [X Y]; split; [|intros C m [<-|M]; [rewrite F; congruence|now apply Y]]).
    - intros x Q. destruct (X x Q) as [Z|Z]; auto. apply in_app_or in Z. destruct Z as [Z|[<-|[]]]; auto. right. exists pn. now rewrite F.
    - intros x Q. destruct (X x Q) as [Z|Z]; auto. apply in_app_or in Z. destruct Z as [Z|[<-|[]]]; auto. right. exists pn. now rewrite F.
    - injection E as <- <-. split; [auto|discriminate].
    - exact X. }
  destruct (PP _ _ _ _ P) as [P1 P2]. clear PP P.
  assert (GOAL : exists pn, fst (fp pn) = Some f \/ (fp pn <> (None, true) /\ fst (fp pn) = None /\ find_latest (hd [] (sort_priorities (of_pn l pn))) = Some f)).
  { destruct complete; cbn [negb] in IE; [|destruct (P1 f IE) as [[]|(pn & X)]; exists pn; auto]. specialize (P2 eq_refl).
    assert (LP : forall x names, In x (latest_pass getvar l names) -> (forall pn, In pn names -> In pn (pns l)) -> exists pn, fp pn <> (None, true) /\ fst (fp pn) = None /\ find_latest (hd [] (sort_priorities (of_pn l pn))) = Some x).
    { intros x names X NS. unfold latest_pass in X. apply in_flat_map in X. destruct X as (pn & N & X). fold (fp pn) in X. destruct (fst (fp pn)) eqn:F; [destruct X|]. destruct (find_latest _) as [g|] eqn:G; [|destruct X]. destruct X as [->|[]]. exists pn. split; auto. }
    assert (EL : forall x, In x (el ++ latest_pass getvar l (pns l)) -> exists pn, fst (fp pn) = Some x \/ (fp pn <> (None, true) /\ fst (fp pn) = None /\ find_latest (hd [] (sort_priorities (of_pn l pn))) = Some x)).
    { intros x X. apply in_app_or in X. destruct X as [X|X]; [destruct (P1 x X) as [[]|(pn & Y)]; exists pn; auto|]. destruct (LP x (pns l) X (fun _ h => h)) as (pn & Y). exists pn. auto. }
    assert (SUB : forall p, In p l -> In (f_pn p) (pns l)) by (intros p Pp; apply pns_spec; now apply in_map).
    revert IE. generalize (el ++ latest_pass getvar l (pns l)), EL. clear EL. intros cur EC. revert SUB.
    match goal with |- _ -> In f (fold_left ?g l cur) -> _ => set (step := g); enough (ALL : forall ps, (forall p, In p ps -> In (f_pn p) (pns l)) -> forall cur, (forall x, In x cur -> exists pn, fst (fp pn) = Some x \/ (fp pn <> (None, true) /\ fst (fp pn) = None /\ find_latest (hd [] (sort_priorities (of_pn l pn))) = Some x)) ->
       In f (fold_left step ps cur) -> exists pn, fst (fp pn) = Some f \/ (fp pn <> (None, true) /\ fst (fp pn) = None /\ find_latest (hd [] (sort_priorities (of_pn l pn))) = Some f)) by (intros SUB IE; now apply (ALL l SUB cur EC)) end.
    clear cur EC. induction ps as [|p ps IH]; intros SUB cur EC IE; [now apply EC|]. cbn [fold_left] in IE. apply IH in IE; [exact IE|intros q Q; apply SUB; now right|]. unfold step.
    destruct (seqb (f_pn p) item); [|exact EC]. destruct (chosen_for getvar l (f_pn p)) as [g|] eqn:C; [|exact EC]. destruct (existsb _ cur); [|exact EC].
    intros x [<-|X]; [|apply EC; revert X; apply RI]. exists (f_pn p). unfold chosen_for in C. fold (fp (f_pn p)) in C. destruct (fst (fp (f_pn p))) as [h|] eqn:F; [left; congruence|right]. split; [|auto]. apply P2, SUB. now left. }
  destruct GOAL as (pn & GOAL).
  assert (IL : In f (of_pn l pn)).
  { destruct GOAL as [G|(_ & _ & G)].
    - apply preferred_in in G. exact G.
    - destruct (of_pn l pn) as [|x xs] eqn:O; [discriminate|]. rewrite <- O in *. destruct (latest_best (of_pn l pn)) as (r & R & B); [rewrite O; discriminate|]. rewrite R in G. injection G as <-. apply B. }
  apply of_pn_in in IL. destruct IL as [IL PN]. subst pn. split; [now apply (Permutation_in _ (sort_files_perm files))|].
  pose proof (find_wanted getvar (f_pn f) (of_pn l (f_pn f)) e w PW) as FW. rewrite (asks_variable _ _ _ _ A) in FW. specialize (FW eq_refl). fold (fp (f_pn f)) in FW.
  destruct GOAL as [G|(N & G & _)]; [rewrite G in FW; apply FW|]. exfalso. apply N. pose proof (find_preferred_flag getvar (f_pn f) (sort_priorities (of_pn l (f_pn f)))) as FL. fold (fp (f_pn f)) in FL. rewrite (asks_variable _ _ _ _ A) in FL.
  destruct (fp (f_pn f)) as [a b]. cbn [fst snd] in *. congruence.
Qed.
Print Assumptions required_provider_fits.

(** ** Examples *)
Definition rec (name pn : string) (pri pref : Z) (pv : string) : recipe :=
  {| f_name := s_ name; f_pn := s_ pn; f_pri := pri; f_pref := pref; f_pe := []; f_epoch := 0; f_pv := s_ pv; f_pr := s_ "r0" |}.
Definition vars (l : list (string * string)) (k : str) : option str :=
  match find (fun kv => seqb (s_ (fst kv)) k) l with Some kv => Some (s_ (snd kv)) | None => None end.
Definition some_files := [rec "a_1.0.bb" "a" 5 0 "1.0"; rec "a_1.10.bb" "a" 5 0 "1.10"; rec "a_1.9.bb" "a" 5 0 "1.9"; rec "a_2.0.bb" "a" 5 (-1) "2.0"; rec "b_1.bb" "b" 6 0 "1"].
Example best_example : find_best (vars []) (s_ "a") (named some_files (s_ "a")) = Some (Some (rec "a_1.10.bb" "a" 5 0 "1.10"), Some (rec "a_1.10.bb" "a" 5 0 "1.10"), false).
Proof. vm_compute. reflexivity. Qed.
Example wildcard_plain : plain_wanted None (Prefix (s_ "2.")).
Proof.
  split; [discriminate|]. split; [cbn; intuition discriminate|]. intros d r [D1 D2] E. destruct d as [|c [|c2 d]]; [congruence|discriminate|]. cbn in E. injection E as <- <- E. rewrite !Forall_cons_iff in D2. destruct D2 as (_ & D2 & _). discriminate.
Qed.
Example required_example : asks (vars [("REQUIRED_VERSION_a", "2.%")%string]) (s_ "REQUIRED") (s_ "a") (wanted_text None (Prefix (s_ "2."))) /\
  find_best (vars [("REQUIRED_VERSION_a", "2.%")%string]) (s_ "a") (named some_files (s_ "a")) = Some (Some (rec "a_1.10.bb" "a" 5 0 "1.10"), Some (rec "a_2.0.bb" "a" 5 (-1) "2.0"), true).
Proof. split; [split; [discriminate|right; left; split; [left; reflexivity|reflexivity]]|vm_compute; reflexivity]. Qed.
Example satisfiable_example : forall pn, In pn (map f_pn some_files) -> satisfiable (vars [("REQUIRED_VERSION_a", "2.%")%string]) some_files pn.
Proof.
  intros pn I. cbn in I. assert (E : pn = s_ "a" \/ pn = s_ "b") by intuition. destruct E as [-> | ->].
  - right. exists None, (Prefix (s_ "2.")), (rec "a_2.0.bb" "a" 5 (-1) "2.0"). split; [exact wildcard_plain|]. split; [apply required_example|]. split; [cbn; auto 6|]. split; [reflexivity|]. split; [discriminate|]. exists (s_ "0"). reflexivity.
  - left. repeat split; left; reflexivity.
Qed.
Example filter_example :
  filter_providers (vars [("PREFERRED_PROVIDER_virtual/x", "b")%string]) None some_files (s_ "virtual/x") = ([rec "b_1.bb" "b" 6 0 "1"; rec "a_1.10.bb" "a" 5 0 "1.10"], true).
Proof. vm_compute. reflexivity. Qed.

(** ** What does not hold *)
(** Among the recipes that fit a wildcard the best one is taken: it is the first in
    order of preference upwards, then of the list, so an older version or one marked as not to be preferred. *)
Theorem wildcard_best_refuted : exists getvar pn files w, plain_wanted None w /\ asks_nothing getvar (s_ "REQUIRED") pn /\ asks getvar (s_ "PREFERRED") pn (wanted_text None w) /\
  exists latest f g, find_best getvar pn files = Some (latest, Some f, false) /\ In g files /\ fits None w g /\ before g f.
Proof.
  exists (vars [("PREFERRED_VERSION_a", "2.%")%string]), (s_ "a"), [rec "a_2.1.bb" "a" 5 0 "2.1"; rec "a_2.2.bb" "a" 5 0 "2.2"], (Prefix (s_ "2.")).
  split; [exact wildcard_plain|]. split; [repeat split; left; reflexivity|]. split; [split; [discriminate|right; left; split; [left; reflexivity|reflexivity]]|].
  exists (Some (rec "a_2.2.bb" "a" 5 0 "2.2")), (rec "a_2.1.bb" "a" 5 0 "2.1"), (rec "a_2.2.bb" "a" 5 0 "2.2"). split; [vm_compute; reflexivity|]. split; [cbn; auto|]. split; [split; [discriminate|exists (s_ "2"); reflexivity]|].
  right. split; [reflexivity|]. right. split; [reflexivity|]. vm_compute. reflexivity.
Qed.
Theorem wildcard_preference_refuted : exists getvar pn files w, plain_wanted None w /\ asks_nothing getvar (s_ "REQUIRED") pn /\ asks getvar (s_ "PREFERRED") pn (wanted_text None w) /\
  (forall files', Permutation files files' -> exists latest f, find_best getvar pn files' = Some (latest, Some f, false) /\ (f_pref f < 0)%Z /\ exists g, In g files /\ fits None w g /\ (0 <= f_pref g)%Z).
Proof.
  exists (vars [("PREFERRED_VERSION_a", "2.%")%string]), (s_ "a"), [rec "a_2.1.bb" "a" 5 0 "2.1"; rec "a_2.2.bb" "a" 5 (-1) "2.2"], (Prefix (s_ "2.")).
  split; [exact wildcard_plain|]. split; [repeat split; left; reflexivity|]. split; [split; [discriminate|right; left; split; [left; reflexivity|reflexivity]]|].
  intros files' P. exists (Some (rec "a_2.1.bb" "a" 5 0 "2.1")), (rec "a_2.2.bb" "a" 5 (-1) "2.2"). split; [|split; [reflexivity|]].
  - apply Permutation_length_2_inv in P. destruct P as [->| ->]; vm_compute; reflexivity.
  - exists (rec "a_2.1.bb" "a" 5 0 "2.1"). split; [cbn; auto|]. split; [split; [discriminate|exists (s_ "1"); reflexivity]|]. cbn. lia.
Qed.
(** The choice does not depend on the order of the files: it does for wildcards. *)
Theorem wildcard_order_refuted : exists getvar pn files files', Permutation files files' /\ find_best getvar pn files <> find_best getvar pn files'.
Proof.
  exists (vars [("PREFERRED_VERSION_a", "2.%")%string]), (s_ "a"), [rec "a_2.1.bb" "a" 5 0 "2.1"; rec "a_2.2.bb" "a" 5 0 "2.2"], [rec "a_2.2.bb" "a" 5 0 "2.2"; rec "a_2.1.bb" "a" 5 0 "2.1"].
  split; [apply perm_swap|]. vm_compute. discriminate.
Qed.
(** A revision can be asked for with "_": the regular expression leaves it in the version, so nothing fits. *)
Theorem revision_ignored_refuted : exists getvar pn f, getvar (s_ "REQUIRED_VERSION_" ++ pn) = Some (f_pv f ++ s_ "_" ++ f_pr f) /\ f_pn f = pn /\
  exists latest, find_best getvar pn [f] = Some (latest, None, true).
Proof.
  exists (vars [("REQUIRED_VERSION_a", "2.1_r0")%string]), (s_ "a"), (rec "a_2.1.bb" "a" 5 0 "2.1"). split; [reflexivity|]. split; [reflexivity|]. exists (Some (rec "a_2.1.bb" "a" 5 0 "2.1")). vm_compute. reflexivity.
Qed.
(** A required version of one recipe that is missing hides the other providers of the name. *)
Theorem missing_hides_others_refuted : exists getvar files item, (exists f, In f files /\ asks_nothing getvar (s_ "REQUIRED") (f_pn f) /\ asks_nothing getvar (s_ "PREFERRED") (f_pn f)) /\
  filter_providers getvar None files item = ([], false).
Proof.
  exists (vars [("REQUIRED_VERSION_a", "3")%string]), some_files, (s_ "virtual/x"). split; [|vm_compute; reflexivity].
  exists (rec "b_1.bb" "b" 6 0 "1"). split; [cbn; auto 6|]. split; repeat split; left; reflexivity.
Qed.
(** An empty REQUIRED_VERSION asks for nothing: it makes every recipe unselectable. *)
Theorem empty_required_refuted : exists getvar pn f latest, getvar (s_ "REQUIRED_VERSION") = Some [] /\ (forall k, getvar k <> None -> k = s_ "REQUIRED_VERSION") /\
  find_best getvar pn [f] = Some (latest, None, true).
Proof.
  exists (vars [("REQUIRED_VERSION", "")%string]), (s_ "a"), (rec "a_2.1.bb" "a" 5 0 "2.1"), (Some (rec "a_2.1.bb" "a" 5 0 "2.1")). split; [reflexivity|]. split; [|vm_compute; reflexivity].
  intros k. unfold vars. cbn [find fst]. destruct (seqb (s_ "REQUIRED_VERSION") k) eqn:E; [apply seqb_eq in E; auto|intros X; exfalso; now apply X].
Qed.

Print Assumptions best_chosen.
Print Assumptions best_unique.
Print Assumptions best_order.
Print Assumptions required_obeyed.
Print Assumptions preferred_taken.
Print Assumptions one_per_recipe.
Print Assumptions preferred_provider_first.
Print Assumptions provider_order.
Print Assumptions wildcard_best_refuted.
Print Assumptions missing_hides_others_refuted.
