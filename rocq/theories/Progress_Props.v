(** C44: progress does not depend on how the output is cut into pieces. *)
From Coq Require Import Ascii String List Bool NArith Lia.
From Verif Require Import Str_Model Str_Proofs Progress_Model Progress_Spec Progress_Proofs.
Import ListNotations.
Open Scope list_scope.
Open Scope N_scope.

(** The same text in other pieces gives the same reports and fails or not alike;
    if it does not fail, the text is passed on and the next text will be treated alike. *)
Theorem pieces_irrelevant k chunks chunks' : concat chunks = concat chunks' ->
  reports (state (run k chunks)) = reports (state (run k chunks')) /\
  crashed (state (run k chunks)) = crashed (state (run k chunks')) /\
  (crashed (state (run k chunks)) = false -> run k chunks = run k chunks' /\ out (run k chunks) = concat chunks).
Proof.
  intros E. destruct (lines_exist (concat chunks)) as (ls & r & H). destruct (run_spec k chunks ls r H) as [A B]. rewrite E in H. destruct (run_spec k chunks' ls r H) as [A' B'].
  rewrite A, A'. split; auto. split; auto. intros C. destruct (B C) as [B1 B2], (B' C) as [B1' B2']. split; auto.
  destruct (run k chunks), (run k chunks'); cbn in *. congruence.
Qed.
(** Before a line announces the amount of work nothing but the initial 0 is reported. *)
Theorem silent_before_total k chunks lines rest : has_lines (concat chunks) lines rest -> (forall l n, In l lines -> ~ announces k l n) ->
  crashed (state (run k chunks)) = false /\ reports (state (run k chunks)) = [(0, 1)].
Proof. intros H N. destruct (run_spec k chunks lines rest H) as [A _]. rewrite A, early_lines by auto. auto. Qed.
(** Afterwards each line that tells of steps is reported, once, as 99 percent of the share of steps told so far. *)
Theorem counted k chunks early line late rest n totals :
  has_lines (concat chunks) (early ++ line :: late) rest -> (forall l m, In l early -> ~ announces k l m) -> announces k line n -> n <> 0 ->
  sums k 0 late totals ->
  crashed (state (run k chunks)) = false /\
  reports (state (run k chunks)) = (0, 1) :: map (fun s => (99 * s, n * steps_each k)) totals.
Proof.
  intros H E A NZ S. destruct (run_spec k chunks _ rest H) as [R _]. rewrite R, fold_left_app, early_lines by auto. cbn [fold_left]. rewrite (announced k line n A).
  apply (later_lines k late {| num := n; pkg := 0; set_up := 0; started := true; reports := [(0, 1)]; crashed := false |} totals); auto.
Qed.
Theorem totals_exist k lines : exists totals, sums k 0 lines totals.
Proof. apply sums_exist. Qed.
(** The totals never go back. *)
Lemma sums_above k lines : forall from totals, sums k from lines totals -> Forall (fun x => from <= x) totals.
Proof.
  induction lines as [|l ls IH]; intros from totals S; inversion S; subst; [constructor|auto|]. constructor; [lia|]. eapply Forall_impl; [|apply IH; eauto]. cbn. intros. lia.
Qed.
Theorem never_backwards k lines from totals : sums k from lines totals -> forall a x b y c, totals = a ++ x :: b ++ y :: c -> from <= x /\ x <= y.
Proof.
  intros S. induction S as [from|from l ls r N S IH|from l n ls r T S IH]; intros a x b y c E.
  - destruct a; discriminate.
  - eauto.
  - pose proof (sums_above _ _ _ _ S) as F. rewrite Forall_forall in F. destruct a as [|z a]; cbn [app] in E.
    + injection E as <- ->. split; [lia|]. apply F. apply in_or_app. right. now left.
    + injection E as _ E. destruct (IH a x b y c E). split; lia.
Qed.
(** If nothing is announced, the first line that tells of a step is a division by zero. *)
Theorem zero_packages_refuted k chunks early line late rest :
  has_lines (concat chunks) (early ++ line :: late) rest -> (forall l m, In l early -> ~ announces k l m) -> announces k line 0 ->
  (crashed (state (run k chunks)) = true <-> exists l n, In l late /\ tells k l n).
Proof.
  intros H E A. destruct (run_spec k chunks _ rest H) as [R _]. rewrite R, fold_left_app, early_lines by auto. cbn [fold_left]. rewrite (announced k line 0 A).
  apply (later_zero k late {| num := 0; pkg := 0; set_up := 0; started := true; reports := [(0, 1)]; crashed := false |}); auto.
Qed.
Definition lf : string := String nl EmptyString.
(** "0 upgraded, 0 newly installed", then the configuration of a package left half-installed *)
Example zero_packages_case : crashed (state (run Install [s_ "0 upgraded, 0 newly installed, 1 not fully installed." ++ s_ lf; s_ "Setting up foo" ++ s_ lf])) = true.
Proof. vm_compute. reflexivity. Qed.
Example counted_case : run Install [s_ "Reading"; s_ lf ++ s_ "1 upg"; s_ "raded, 1 newly installed." ++ s_ lf; s_ "Preparing to unpack a" ++ s_ lf ++ s_ "Setting up a" ++ s_ lf ++ s_ "x"] =
  {| buffer := s_ "x"; out := s_ "Reading" ++ s_ lf ++ s_ "1 upgraded, 1 newly installed." ++ s_ lf ++ s_ "Preparing to unpack a" ++ s_ lf ++ s_ "Setting up a" ++ s_ lf ++ s_ "x";
     state := {| num := 2; pkg := 1; set_up := 1; started := true; reports := [(0, 1); (99, 4); (198, 4)]; crashed := false |} |}.
Proof. vm_compute. reflexivity. Qed.
Example announces_case : announces Install (s_ "1 upgraded, 12 newly installed." ++ s_ lf) 13.
Proof.
  apply (apt_announces Install (s_ "1") (s_ "12") (s_ "." ++ s_ lf)); [discriminate| |]; (split; [discriminate|]); repeat constructor.
Qed.
Example sums_case : sums Install 0 [s_ "Setting up a"; s_ "other"; s_ "Preparing to unpack b"] [1; 2].
Proof.
  apply (sums_tell Install 0 _ 1); [apply tells_setup; exists (s_ " a"); reflexivity|]. apply sums_skip; [intros n X; inversion X as [|? [t T]|? [t T]| |]; discriminate|].
  apply (sums_tell Install 1 _ 1); [apply tells_unpack; exists (s_ " b"); reflexivity|]. constructor.
Qed.

(** The filter for lines of bitbake's other handlers: the same for texts without carriage returns. *)
Theorem filter_pieces_irrelevant_partial show chunks lines rest : has_lines (concat chunks) lines rest -> ~ In cr (concat chunks) ->
  frun show chunks = {| fbuffer := rest; seen := lines; fout := concat (filter show lines) |}.
Proof. intros H N. apply (frun_from show chunks {| fbuffer := []; seen := []; fout := [] |} lines rest); auto. Qed.
(** With them the pieces matter: what is shown, and which lines are looked at. *)
Theorem filter_pieces_refuted : exists show chunks chunks', concat chunks = concat chunks' /\ fout (frun show chunks) <> fout (frun show chunks') /\ seen (frun show chunks) <> seen (frun show chunks').
Proof.
  exists (fun _ => true), [s_ "10%" ++ [cr] ++ s_ "20%" ++ [nl]], [s_ "10%" ++ [cr]; s_ "20%" ++ [nl]].
  split; [reflexivity|]. split; vm_compute; discriminate.
Qed.
(** The end of an output that does not end in a newline is never passed on. *)
Theorem filter_tail_lost_refuted : exists chunks, concat chunks <> [] /\ fout (frun (fun _ => true) chunks) = [].
Proof. exists [s_ "fatal error"]. split; [discriminate|reflexivity]. Qed.

Print Assumptions pieces_irrelevant.
Print Assumptions silent_before_total.
Print Assumptions counted.
Print Assumptions never_backwards.
Print Assumptions zero_packages_refuted.
Print Assumptions filter_pieces_irrelevant_partial.
Print Assumptions filter_pieces_refuted.
