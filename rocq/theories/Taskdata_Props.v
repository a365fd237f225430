(** C96-C100: which recipes a build consists of. *)
From Coq Require Import String Ascii List Bool Arith Lia.
From Verif Require Import Str_Model Str_Proofs Taskdata_Model Taskdata_Spec Taskdata_Proofs.
Import ListNotations.
Open Scope list_scope.

Lemma init_weak C targets : weak C targets init.
Proof. constructor; cbn; try tauto. intros x t. unfold providers. cbn. constructor. Qed.
Lemma init_strong C : strong C nobody init.
Proof. constructor; cbn; tauto. Qed.
Lemma taskdata_ok C halt allow n targets s : taskdata C halt allow n targets = Ok s ->
  weak C targets s /\ (~ broken halt s -> strong C nobody s) /\ (allow = false -> ~ broken halt s -> resolved C s) /\
  forall t, In t targets -> c_ignored C t = true \/ settled s Build t.
Proof.
  unfold taskdata. assert (X := each_out (add_provider C halt) (fun s => weak C targets s /\ strong C nobody s) (fun _ => True) (fun _ => False)
    (fun t s => c_ignored C t = true \/ settled s Build t) targets).
  specialize (X (fun t s I H => out_weaken _ _ _ _ _ _ _ (add_provider_out C halt targets t s (proj1 H) I)
    (fun s' P => conj (conj (proj1 P) (proj1 (proj2 (proj2 P)) (proj2 H))) (conj (proj2 (proj2 (proj2 (proj2 P))))
       (fun b D => match D with or_introl e => or_introl e | or_intror e => or_intror (m_settled _ _ (proj1 (proj2 P)) _ _ e) end))) (fun _ P => P) (fun _ P => P))
    init (conj (init_weak C targets) (init_strong C))).
  destruct (each (add_provider C halt) targets init) as [s1|s1|s1| |]; try discriminate. cbn [out] in X. destruct X as ((W1 & Q1) & T1 & _).
  intros E. destruct (add_unresolved_ok C halt allow targets n s1 s W1 E) as (W & M & Q & R). split; [auto|]. split; [auto|]. split; [auto|].
  intros t I. destruct (T1 t I) as [H|H]; auto. right. now apply (m_settled _ _ M).
Qed.
Lemma not_broken C halt targets s : weak C targets s -> (halt = true -> forall t, In t targets -> ~ In t (s_failed s Build)) -> ~ broken halt s.
Proof. intros W H [E (t & I & J)]. apply (H E t); auto. now apply (w_ext _ _ _ W). Qed.
Lemma settled_provided C targets s x t : weak C targets s -> strong C nobody s -> settled s x t -> In t (s_failed s x) \/ provided C s x t.
Proof.
  intros W Q [H|H]; auto. right. destruct (providers s x t) as [|g rest] eqn:E; [congruence|]. assert (I : In g (providers s x t)) by (rewrite E; now left).
  exists g, rest. split; [auto|]. destruct (w_elig _ _ _ W x t g I) as [_ El]. split; auto. split; [|now apply (q_prov _ _ _ Q x t)]. destruct (q_pseen _ _ _ Q x t g I) as [[]|J]; auto.
Qed.

(** ** C96 *)
(** When the dependencies have been resolved, every name in DEPENDS or RDEPENDS of a recipe that takes part and has not
    failed is provided by a recipe that takes part and has not failed, or is assumed to be provided.  Without --continue
    this is so if no requested name has failed. *)
Theorem needs_provided : forall C halt n targets s fn x t,
  taskdata C halt false n targets = Ok s -> (halt = true -> forall u, In u targets -> ~ In u (s_failed s Build)) ->
  In fn (s_seen s) -> ~ In fn (s_ffns s) -> In t (c_needs C x fn) ->
  c_ignored C t = true \/ provided C s x t.
Proof.
  intros C halt n targets s fn x t E H S F N. destruct (taskdata_ok _ _ _ _ _ _ E) as (W & Q & R & _). assert (B := not_broken _ _ _ _ W H). specialize (Q B). specialize (R eq_refl B).
  destruct (q_keys _ _ _ Q x t fn S (or_introl N)) as [[]|[K|K]]; [contradiction|]. destruct (R x t K) as [Ig|St]; auto. right.
  destruct (settled_provided _ _ _ _ _ W Q St) as [Fl|P]; auto. destruct (q_fail _ _ _ Q x t fn S N Fl) as [[]|]; contradiction.
Qed.
(** The same for the names that were asked for *)
Theorem targets_provided : forall C halt allow n targets s t,
  taskdata C halt allow n targets = Ok s -> (halt = true -> forall u, In u targets -> ~ In u (s_failed s Build)) ->
  In t targets -> c_ignored C t = true \/ In t (s_failed s Build) \/ provided C s Build t.
Proof.
  intros C halt allow n targets s t E H I. destruct (taskdata_ok _ _ _ _ _ _ E) as (W & Q & _ & T). assert (B := not_broken _ _ _ _ W H). destruct (T t I) as [Ig|St]; auto.
  right. exact (settled_provided _ _ _ _ _ W (Q B) St).
Qed.
(** Nothing takes part that the targets do not need *)
Theorem only_wanted : forall C halt allow n targets s fn,
  taskdata C halt allow n targets = Ok s -> In fn (s_seen s) -> wanted_file C targets fn.
Proof. intros C halt allow n targets s fn E. destruct (taskdata_ok _ _ _ _ _ _ E) as (W & _). apply (w_seen _ _ _ W). Qed.

(** ** C97 *)
(** A recipe fails, and a name fails, only for a reason *)
Theorem failed_has_reason : forall C halt allow n targets s,
  taskdata C halt allow n targets = Ok s ->
  (forall fn, In fn (s_ffns s) -> bad_file C fn) /\ forall x t, In t (s_failed s x) -> bad_name C x t.
Proof. intros C halt allow n targets s E. destruct (taskdata_ok _ _ _ _ _ _ E) as (W & _). split; [apply (w_ffns _ _ _ W)|apply (w_failed _ _ _ W)]. Qed.
(** If every name has at most one provider, and the names in the flags of the tasks of a recipe are also in its DEPENDS
    or RDEPENDS, the recipes that fail are exactly those with a reason. *)
Theorem failed_exact : forall C halt n targets s fn,
  taskdata C halt false n targets = Ok s -> (halt = true -> forall u, In u targets -> ~ In u (s_failed s Build)) ->
  (forall x t g g', eligible C x t g -> eligible C x t g' -> g = g') -> (forall x f t, flag_names C x f t -> In t (c_needs C x f)) ->
  In fn (s_seen s) -> (In fn (s_ffns s) <-> bad_file C fn).
Proof.
  intros C halt n targets s fn E H One Fl S. split; [now apply (failed_has_reason _ _ _ _ _ _ E)|]. intros B. revert fn B S.
  apply (bad_file_mut C (fun fn _ => In fn (s_seen s) -> In fn (s_ffns s)) (fun x t _ => c_ignored C t = false /\ ~ provided C s x t)).
  - intros fn x t N _ [Ig NP] S. destruct (in_dec str_eq_dec fn (s_ffns s)) as [I|I]; auto. elim NP.
    assert (N' : In t (c_needs C x fn)) by (destruct N; auto). destruct (needs_provided C halt n targets s fn x t E H S I N') as [J|J]; [congruence|auto].
  - intros x t Ig Ch. split; auto. intros (g & rest & _ & (l & El & _) & _). congruence.
  - intros x t Ig Ch. split; auto. intros (g & rest & _ & (l & El & I) & _). rewrite Ch in El. injection El as <-. destruct I.
  - intros x t g Ig El _ IH. split; auto. intros (g' & rest & _ & El' & S' & F'). apply F'. rewrite (One x t g' g El' El) in *. auto.
Qed.

(** ** C98 *)
Definition names_of (C : cache) (targets files : list str) (x : side) : list str :=
  targets ++ flat_map (fun fn => c_needs C x fn ++ flat_map (fun k => map (fun w => hd [] (split_on ":"%char w)) (t_flag k x)) (c_tasks C fn)) files.
(** The resolution of the dependencies comes to an end, whatever the recipes say *)
Theorem resolution_ends : forall C halt allow targets files,
  (forall x t g, eligible C x t g -> In g files) -> exists n, forall m, n <= m -> taskdata C halt allow m targets <> OutOfFuel.
Proof.
  intros C halt allow targets files F.
  assert (U : forall x t, wanted_name C targets x t -> In t (names_of C targets files x)).
  { assert (G : forall fn, wanted_file C targets fn -> In fn files) by (intros fn [x t g _ _ El]; eauto).
    intros x t [t0 I|x0 fn t0 Wf N]; unfold names_of; apply in_app_iff; auto. right. apply in_flat_map. exists fn. split; auto. apply in_app_iff. destruct N as [N|(k & w & tk & I & J & E)]; auto.
    right. apply in_flat_map. exists k. split; auto. apply in_map_iff. exists w. now rewrite E. }
  unfold taskdata. assert (X := each_out (add_provider C halt) (fun s => weak C targets s) (fun _ => True) (fun _ => False) (fun _ _ => True) targets
    (fun t s I H => out_weaken _ _ _ _ _ _ _ (add_provider_out C halt targets t s H I) (fun s' P => conj (proj1 P) (conj Logic.I (fun _ _ => Logic.I))) (fun _ P => P) (fun _ P => P)) init (init_weak C targets)).
  destruct (each (add_provider C halt) targets init) as [s1|s1|s1| |]; cbn [out] in X; try contradiction; try (exists 0; discriminate).
  exists (S (still (names_of C targets files) s1)). intros m L. apply (add_unresolved_ends C halt allow targets (names_of C targets files) U); [apply X|lia].
Qed.

(** ** C99 *)
(** For a name in a flag depends or rdepends of a task of a recipe that has not failed, the build provides the name, or
    the name has failed.  That the recipe fails when the name has failed holds only if the name fails after the recipe
    has been added, see failed_flag_refuted. *)
Theorem flags_provided_partial : forall C halt n targets s fn x t,
  taskdata C halt false n targets = Ok s -> (halt = true -> forall u, In u targets -> ~ In u (s_failed s Build)) ->
  In fn (s_seen s) -> ~ In fn (s_ffns s) -> flag_names C x fn t ->
  c_ignored C t = true \/ provided C s x t \/ In t (s_failed s x).
Proof.
  intros C halt n targets s fn x t E H S F N. destruct (taskdata_ok _ _ _ _ _ _ E) as (W & Q & R & _). assert (B := not_broken _ _ _ _ W H). specialize (Q B). specialize (R eq_refl B).
  destruct (q_keys _ _ _ Q x t fn S (or_intror N)) as [[]|[K|K]]; [contradiction|]. destruct (R x t K) as [Ig|St]; auto. right.
  destruct (settled_provided _ _ _ _ _ W Q St); auto.
Qed.

(** ** C100 *)
(** Without --continue, and if every name has at most one provider, a resolution without an error means that nothing
    has failed, so everything that any recipe or task needs is provided.  With several providers this does not hold,
    see unbuildable_target_refuted. *)
Theorem unbuildable_target_stops_partial : forall C n targets s,
  (forall x t g g', eligible C x t g -> eligible C x t g' -> g = g') ->
  taskdata C true false n targets = Ok s ->
  s_ffns s = [] /\ (forall x, s_failed s x = []) /\ (forall t, In t targets -> c_ignored C t = true \/ provided C s Build t) /\
  forall fn x t, In fn (s_seen s) -> file_needs C x fn t -> c_ignored C t = true \/ provided C s x t.
Proof.
  intros C n targets s One E. assert (E0 := E). unfold taskdata in E.
  assert (X : forall ts s0 s1, (forall t, In t ts -> In t targets) -> weak C targets s0 -> strong C nobody s0 -> untouched s0 -> chained C targets s0 -> each (add_provider C true) ts s0 = Ok s1 ->
    weak C targets s1 /\ strong C nobody s1 /\ untouched s1 /\ chained C targets s1 /\ (forall t, In t ts \/ In t (s_external s0) -> In t (s_external s1))).
  { induction ts as [|t ts IH]; intros s0 s1 H W Q U Ch; cbn [each]; [intros [= <-]; split; [auto|]; split; [auto|]; split; [auto|]; split; [auto|]; intros t [[]|I]; auto|].
    destruct (add_provider C true t s0) as [s2|s2|s2| |] eqn:A; try discriminate. intros E1.
    destruct (add_provider_strict C targets t s0 s2 (H t (or_introl eq_refl)) W Q U Ch A) as (W2 & Q2 & U2 & C2 & T2 & X2).
    destruct (IH s2 s1 (fun u I => H u (or_intror I)) W2 Q2 U2 C2 E1) as (W1 & Q1 & U1 & C1 & X1). split; [auto|]. split; [auto|]. split; [auto|]. split; [auto|]. intros u [[<-|I]|I]; auto. }
  destruct (each (add_provider C true) targets init) as [s1|s1|s1| |] eqn:E1; try discriminate.
  destruct (X targets init s1 (fun t I => I) (init_weak C targets) (init_strong C) (conj eq_refl (fun _ => eq_refl)) (fun x t I => match I with end) E1) as (W1 & Q1 & U1 & C1 & X1).
  assert (Y := add_unresolved_strict C targets One n s1 s (Build_steady _ _ _ W1 Q1 U1 C1 (fun u I => X1 u (or_introl I))) E). destruct (y_untouched _ _ _ Y) as [F1 F2].
  assert (NF : true = true -> forall u, In u targets -> ~ In u (s_failed s Build)) by (intros _ u _; rewrite F2; auto).
  split; [auto|]. split; [auto|]. split.
  - intros t I. destruct (targets_provided C true false n targets s t E0 NF I) as [H|[H|H]]; auto. now rewrite F2 in H.
  - intros fn x t S [N|N]; [apply (needs_provided C true n targets s fn x t E0 NF S); auto; rewrite F1; auto|].
    destruct (flags_provided_partial C true n targets s fn x t E0 NF S) as [H|[H|H]]; auto; [rewrite F1; auto|now rewrite F2 in H].
Qed.

(** ** Examples *)
Definition no_flags (x : side) : list str := [].
Definition plain : list task := [Build_task (s_ "do_build") [] no_flags].
Definition pick (l : list (string * list string)) (k : str) : option (list str) :=
  match find (fun p => seqb (s_ (fst p)) k) l with Some p => Some (map s_ (snd p)) | None => None end.
Definition pick_all (l : list (string * list string)) (k : str) : list str := match pick l k with Some v => v | None => [] end.
Definition choice (b r : list (string * list string)) (x : side) : str -> option (list str) := match x with Build => pick b | Runtime => pick r end.
Definition needed (b r : list (string * list string)) (x : side) : str -> list str := match x with Build => pick_all b | Runtime => pick_all r end.

(** app needs lib and libc (assumed to be there) and at run time data; tool needs missing, which nothing provides *)
Definition demo : cache := {|
  c_choice := choice [("app", ["app.bb"]); ("lib", ["lib.bb"]); ("tool", ["tool.bb"])]%string [("data", ["data.bb"])]%string;
  c_ignored := fun t => seqb t (s_ "libc");
  c_tasks := fun fn => if seqb fn (s_ "app.bb")
    then [Build_task (s_ "do_compile") [s_ "do_patch"] (fun x => match x with Build => [s_ "lib:do_install"] | Runtime => [] end); Build_task (s_ "do_build") [s_ "do_compile"] no_flags] else plain;
  c_needs := needed [("app.bb", ["lib"; "libc"]); ("tool.bb", ["missing"; "lib"])]%string [("app.bb", ["data"])]%string
|}.
Definition demo_targets : list str := [s_ "app"; s_ "tool"].
Definition demo_state : state := match taskdata demo false false 9 demo_targets with Ok s => s | _ => init end.
Example demo_ok : taskdata demo false false 9 demo_targets = Ok demo_state /\ s_ffns demo_state = [s_ "tool.bb"] /\
  s_seen demo_state = [s_ "app.bb"; s_ "tool.bb"; s_ "lib.bb"; s_ "data.bb"] /\ s_failed demo_state Build = [s_ "missing"; s_ "tool"] /\
  providers demo_state Build (s_ "lib") = [s_ "lib.bb"] /\ providers demo_state Runtime (s_ "data") = [s_ "data.bb"] /\ s_external demo_state = demo_targets.
Proof. vm_compute. auto 10. Qed.
(** The hypotheses of the theorems hold for it *)
Example demo_met : In (s_ "app.bb") (s_seen demo_state) /\ ~ In (s_ "app.bb") (s_ffns demo_state) /\ In (s_ "lib") (c_needs demo Build (s_ "app.bb")) /\
  flag_names demo Build (s_ "app.bb") (s_ "lib") /\ In (s_ "tool.bb") (s_ffns demo_state).
Proof.
  split; [vm_compute; auto|]. split; [vm_compute; intros [H|[]]; discriminate|]. split; [vm_compute; auto|]. split; [|vm_compute; auto].
  eexists. exists (s_ "lib:do_install"), (s_ "do_install"). split; [left; reflexivity|]. split; [left; reflexivity|reflexivity].
Qed.
Example demo_single : (forall x t g g', eligible demo x t g -> eligible demo x t g' -> g = g') /\ (forall x f t, flag_names demo x f t -> In t (c_needs demo x f)) /\ exists files, forall x t g, eligible demo x t g -> In g files.
Proof.
  assert (A : forall x t l, c_choice demo x t = Some l -> exists g, l = [g] /\ In g [s_ "app.bb"; s_ "lib.bb"; s_ "tool.bb"; s_ "data.bb"]).
  { intros [] t l; cbn [demo c_choice choice]; unfold pick; cbn [find fst].
    - destruct (seqb (s_ "app") t); [intros [= <-]; eexists; split; [reflexivity|cbn; auto]|]. destruct (seqb (s_ "lib") t); [intros [= <-]; eexists; split; [reflexivity|cbn; auto]|].
      destruct (seqb (s_ "tool") t); [intros [= <-]; eexists; split; [reflexivity|cbn; auto]|discriminate].
    - destruct (seqb (s_ "data") t); [intros [= <-]; eexists; split; [reflexivity|cbn; auto]|discriminate]. }
  split; [|split].
  - intros x t g g' (l & E & I) (l' & E' & I'). assert (l' = l) as -> by congruence. destruct (A x t l E) as (h & -> & _). destruct I as [<-|[]], I' as [<-|[]]. reflexivity.
  - intros x f t (k & w & tk & I & J & E). cbn [demo c_tasks] in I. destruct (seqb f (s_ "app.bb")) eqn:F.
    + apply seqb_eq in F. subst. destruct I as [<-|[<-|[]]]; [|destruct J]. destruct x; cbn in J; [|destruct J]. destruct J as [<-|[]]. vm_compute in E. injection E as E _. rewrite <- E. vm_compute. auto.
    + destruct I as [<-|[]]. destruct J.
  - eexists. intros x t g (l & E & I). destruct (A x t l E) as (h & -> & J). destruct I as [<-|[]]. exact J.
Qed.
Example demo_halt : taskdata demo true false 9 [s_ "app"] <> OutOfFuel /\ match taskdata demo true false 9 [s_ "app"] with Ok s => s_failed s Build = [] /\ s_ffns s = [] | _ => False end /\
  match taskdata demo true false 9 demo_targets with NoProv _ => True | _ => False end.
Proof. vm_compute. split; [discriminate|]. auto. Qed.

(** ** C97 and C99, C100: what does not hold *)
Definition two : cache := {|
  c_choice := choice [("first", ["first.bb"]); ("app", ["app.bb"]); ("virtual/lib", ["a.bb"; "b.bb"])]%string [];
  c_ignored := fun _ => false;
  c_tasks := fun _ => plain;
  c_needs := needed [("first.bb", ["missing"]); ("app.bb", ["virtual/lib"]); ("a.bb", ["missing"])]%string []
|}.
(** A recipe can fail although recipes that can be built provide all its dependencies: if the first provider of a name
    fails at once, the name fails before the second provider is added.  Here app needs virtual/lib, which a.bb and b.bb
    provide, and a.bb needs something that is known to be missing. *)
Theorem other_provider_refuted : exists s, taskdata two false false 9 [s_ "first"; s_ "app"] = Ok s /\
  In (s_ "app.bb") (s_ffns s) /\ In (s_ "app.bb") (s_seen s) /\
  (forall x t, file_needs two x (s_ "app.bb") t -> provided two s x t).
Proof.
  eexists. split; [vm_compute; reflexivity|]. split; [vm_compute; auto|]. split; [vm_compute; auto|].
  intros x t [N|(k & w & tk & [<-|[]] & [] & _)]. destruct x; vm_compute in N; [|destruct N]. destruct N as [<-|[]].
  exists (s_ "b.bb"), []. split; [vm_compute; reflexivity|]. split; [exists [s_ "a.bb"; s_ "b.bb"]; vm_compute; auto|]. split; [vm_compute; auto 10|]. vm_compute. intros H. repeat destruct H as [H|H]; try discriminate; auto.
Qed.

Definition late : cache := {|
  c_choice := choice [("first", ["first.bb"]); ("app", ["app.bb"]); ("lib", ["lib.bb"])]%string [];
  c_ignored := fun _ => false;
  c_tasks := fun fn => if seqb fn (s_ "lib.bb") then [Build_task (s_ "do_build") [] (fun x => match x with Build => [s_ "missing:do_deploy"] | Runtime => [] end)] else plain;
  c_needs := needed [("first.bb", ["missing"]); ("app.bb", ["lib"])]%string []
|}.
(** A recipe with a task that depends by its flag on a name that has failed already does not fail: it is built without
    what it depends on. *)
Theorem failed_flag_refuted : exists s, taskdata late false false 9 [s_ "first"; s_ "app"] = Ok s /\
  In (s_ "lib.bb") (s_seen s) /\ ~ In (s_ "lib.bb") (s_ffns s) /\ flag_names late Build (s_ "lib.bb") (s_ "missing") /\
  In (s_ "missing") (s_failed s Build) /\ c_choice late Build (s_ "missing") = None.
Proof.
  eexists. split; [vm_compute; reflexivity|]. split; [vm_compute; auto 10|]. split; [vm_compute; intros H; repeat destruct H as [H|H]; try discriminate; auto|].
  split; [eexists; exists (s_ "missing:do_deploy"), (s_ "do_deploy"); split; [left; reflexivity|split; [left; reflexivity|reflexivity]]|]. split; vm_compute; auto.
Qed.

Definition swallow : cache := {|
  c_choice := choice [("image", ["image.bb"]); ("kernel", ["kernel.bb"]); ("tool", ["a.bb"; "b.bb"]); ("compiler", ["compiler.bb"]); ("image-data", ["image.bb"])]%string [];
  c_ignored := fun _ => false;
  c_tasks := fun _ => plain;
  c_needs := needed [("image.bb", ["kernel"]); ("kernel.bb", ["compiler"]); ("compiler.bb", ["missing"]); ("a.bb", ["missing"]); ("b.bb", ["image-data"])]%string []
|}.
(** Without --continue, a requested name that cannot be provided does not always stop the build: the exception is lost
    if it is raised while a provider of another name is added.  Then a failed recipe can remain the provider of a name
    that a recipe needs that has not failed. *)
Theorem unbuildable_target_refuted : exists s, taskdata swallow true false 9 [s_ "image"; s_ "tool"] = Ok s /\
  In (s_ "image") (s_failed s Build) /\ providers s Build (s_ "image") = [] /\
  In (s_ "b.bb") (s_seen s) /\ ~ In (s_ "b.bb") (s_ffns s) /\ In (s_ "image-data") (c_needs swallow Build (s_ "b.bb")) /\
  providers s Build (s_ "image-data") = [s_ "image.bb"] /\ In (s_ "image.bb") (s_ffns s).
Proof.
  eexists. split; [vm_compute; reflexivity|]. split; [vm_compute; auto 10|]. split; [vm_compute; reflexivity|]. split; [vm_compute; auto 10|].
  split; [vm_compute; intros H; repeat destruct H as [H|H]; try discriminate; auto|]. split; [vm_compute; auto|]. split; [vm_compute; reflexivity|vm_compute; auto 10].
Qed.

Print Assumptions needs_provided.
Print Assumptions targets_provided.
Print Assumptions only_wanted.
Print Assumptions failed_has_reason.
Print Assumptions failed_exact.
Print Assumptions resolution_ends.
Print Assumptions flags_provided_partial.
Print Assumptions unbuildable_target_stops_partial.
Print Assumptions other_provider_refuted.
Print Assumptions failed_flag_refuted.
Print Assumptions unbuildable_target_refuted.
