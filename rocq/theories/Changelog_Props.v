From Coq Require Import String Ascii List Bool Arith ZArith Lia.
From Verif Require Import Str_Model Str_Proofs Changelog_Model Changelog_Spec Changelog_Proofs.
Import ListNotations.
Open Scope list_scope.

(** C61.  What the changelog of the package holds after a successful execution, and when there is
    none: exactly the described text. *)
Theorem changelog_exact : forall pver psecs fdate p f l,
  (exists f', run pver psecs fdate p f = Some f' /\ s_log f' = Some l) <-> new_log pver psecs fdate p f l.
Proof. exact run_exact. Qed.

(** C61.  Nothing but the changelog and the kept copy is written. *)
Theorem changelog_given_kept : forall pver psecs fdate p f s,
  In s (fst (add_changelog pver psecs fdate p f)) -> w_log s = w_log f.
Proof. exact trace_log. Qed.

(** C61.  Repeated builds do not pile up entries: after any number of executions with any settings,
    the files are those of one execution with the last settings. *)
Theorem changelog_rebuilds : forall pver psecs fdate ps p f f',
  (s_log f = None -> original f = []) ->
  runs pver psecs fdate (ps ++ [p]) f = Some f' -> run pver psecs fdate p f = Some f'.
Proof.
  intros pver psecs fdate. induction ps as [|q ps IH]; intros p f f' C R.
  - cbn in R. destruct (run pver psecs fdate p f); auto.
  - cbn [app runs] in R. destruct (run pver psecs fdate q f) as [g|] eqn:Q; [|discriminate].
    destruct (run_keeps _ _ _ _ _ _ Q) as (O & W & S & _).
    assert (CG : s_log g = None -> original g = []) by congruence.
    rewrite <- (IH p g f' CG R). apply run_same; auto.
Qed.

(** C61.  Full statement: killed at any moment and started again, an execution gives what it would
    have given undisturbed.  Proved where the copy of the original changelog is complete and the
    changelog itself has not just been removed (see the three refuted theorems). *)
Theorem changelog_restart_partial : forall pver psecs fdate p q f s,
  (s_log f = None -> original f = []) ->
  In s (fst (add_changelog pver psecs fdate p f)) ->
  w_orig s = Some (original f) -> (s_log s = None -> original f = []) ->
  run pver psecs fdate q s = run pver psecs fdate q f.
Proof.
  intros pver psecs fdate p q f s C I O L. apply trace_log in I.
  assert (OS : original s = original f) by (unfold original at 1; now rewrite O).
  apply run_same; auto. rewrite OS. exact L.
Qed.

(** C61.  The new entry is younger than the original ones. *)
Theorem changelog_younger : forall pver psecs p f v t s,
  dated pver psecs p f v t -> s_log f <> None -> original f <> [] -> psecs (original f) = Some s -> (s < t)%Z.
Proof. intros pver psecs p f v t s D A B S. inversion D as [[H|H]|ov s' v' H1 H2 H3 H4 H5]; subst; try contradiction. rewrite S in H4. injection H4 as ->. lia. Qed.

(** ** Sample tools: the version is what stands in the first parentheses *)
Definition sample_pver (s : str) : option str :=
  match cut_at "("%char s with
  | (_, Some r) => match cut_at ")"%char r with (v, Some _) => Some v | _ => None end
  | _ => None
  end.
Definition sample_psecs (s : str) : option Z := Some 1000%Z.
Definition sample_date (t : Z) : str := dec (Z.to_N t).
Notation srun := (run sample_pver sample_psecs sample_date).
Definition sample_params : params := mkParams (s_ "foo") (s_ "<orig-version>+isar") 3600 (s_ "me").
Definition old_log : str := s_ "foo (1.2) unstable; urgency=low".

(** C61 is false for a build killed before it could mark that there was no changelog: the entry it
    wrote is taken for the original changelog and doubled. *)
Theorem changelog_killed_doubles_refuted : exists p f s g l,
  In s (fst (add_changelog sample_pver sample_psecs sample_date p f)) /\
  srun p f = Some (mkFiles (Some l) (Some []) None) /\ srun p s = Some g /\
  exists l', s_log g = Some (l' ++ nl :: l) /\ l' <> [].
Proof.
  set (p := mkParams (s_ "foo") (s_ "1.0") 3600 (s_ "me")). set (f := mkFiles None None None).
  set (l := entry sample_date p (s_ "1.0") 3600).
  exists p, f, (mkFiles (Some l) None None). eexists. exists l.
  split.
  { apply (nth_error_In _ (List.length l)). vm_compute. reflexivity. }
  split; [vm_compute; reflexivity|]. split; [vm_compute; reflexivity|].
  exists (entry sample_date p (s_ "1.0") 1042). split; [vm_compute; reflexivity|vm_compute; discriminate].
Qed.

(** C61 is false for a build killed while the original changelog is being copied: the beginning is
    taken for the whole, the rest is lost for good. *)
Theorem changelog_killed_truncates_refuted : exists p f s,
  In s (fst (add_changelog sample_pver sample_psecs sample_date p f)) /\
  s_log f = Some old_log /\ original s = [] /\
  srun p s = Some (mkFiles (Some (entry sample_date p (changelog_v p) (timestamp p))) (Some []) None).
Proof.
  exists sample_params, (mkFiles (Some old_log) None None), (mkFiles (Some old_log) (Some []) None).
  split; [|split; [reflexivity|split; [reflexivity|vm_compute; reflexivity]]].
  apply (nth_error_In _ 0). vm_compute. reflexivity.
Qed.

(** C61 is false for a build killed between removing the changelog and writing the given one: the
    original version is no longer filled in. *)
Theorem changelog_killed_removed_refuted : exists p f s,
  In s (fst (add_changelog sample_pver sample_psecs sample_date p f)) /\ w_orig s = Some (original f) /\
  srun p f <> srun p s.
Proof.
  set (w := s_ "foo (1.2+isar)").
  exists sample_params, (mkFiles (Some (s_ "(1.2)")) (Some (s_ "(1.2)")) (Some w)), (mkFiles None (Some (s_ "(1.2)")) (Some w)).
  split; [|split; [reflexivity|vm_compute; discriminate]].
  apply (nth_error_In _ (List.length (entry sample_date sample_params (s_ "1.2+isar") 1042) + 8)). vm_compute. reflexivity.
Qed.

(** C61 is false when new sources are unpacked over old ones: the kept copy wins over the changelog
    they bring, whatever it is. *)
Theorem changelog_new_sources_refuted : exists p f g, forall c,
  srun p f = Some g /\ srun p (put_log (Some c) g) = Some g.
Proof.
  exists sample_params, (mkFiles (Some old_log) None None). eexists. intros c. split; [vm_compute; reflexivity|]. vm_compute. reflexivity.
Qed.

(** C61: the comment in deb_debianize says that no entry is added if the given changelog has one for
    the version; only its first entry is looked at. *)
Theorem changelog_second_entry_refuted : exists p w l,
  contains_sub (s_ "foo (1.0)") w = true /\ srun p (mkFiles None None (Some w)) = Some (mkFiles (Some (l ++ nl :: w)) (Some []) (Some w)) /\
  contains_sub (s_ "foo (1.0)") l = true.
Proof.
  exists (mkParams (s_ "foo") (s_ "1.0") 3600 (s_ "me")), (s_ "foo (1.1)

foo (1.0)
"), (entry sample_date (mkParams (s_ "foo") (s_ "1.0") 3600 (s_ "me")) (s_ "1.0") 3600).
  split; [vm_compute; reflexivity|]. split; vm_compute; reflexivity.
Qed.

(** C62.  A list of packages is written in one form: its items, trimmed, without empty ones, in
    order; writing it again changes nothing. *)
Theorem deb_list_items : forall ps, Forall piece_ok ps ->
  beautify (join (s_ ",") (map piece_text ps)) = join (s_ ", ") (filter (fun w => match w with [] => false | _ => true end) (map item ps)).
Proof. exact beautify_pieces. Qed.
Theorem deb_list_any : forall s, exists ps, Forall piece_ok ps /\ s = join (s_ ",") (map piece_text ps) /\ ps <> [].
Proof. exact split_pieces. Qed.
Theorem deb_list_again : forall s, beautify (beautify s) = beautify s.
Proof. exact beautify_again. Qed.
(** C62.  The profiles of a build are the configured ones, and "cross" exactly for foreign
    architectures. *)
Theorem profiles_exact : forall p b, split_ws (build_profiles p b) = split_ws p ++ (if b then [s_ "cross"] else []).
Proof. exact profiles_words. Qed.

(** *** Cases that meet the hypotheses *)
Example first_build : srun sample_params (mkFiles (Some old_log) None None) =
  Some (mkFiles (Some (entry_text (s_ "foo") (s_ "1.2+isar") (s_ "me") (s_ "1042") ++ nl :: old_log)) (Some old_log) None).
Proof. vm_compute. reflexivity. Qed.
Example three_builds : runs sample_pver sample_psecs sample_date [sample_params; mkParams (s_ "foo") (s_ "7") 5 (s_ "you"); sample_params] (mkFiles (Some old_log) None None) =
  srun sample_params (mkFiles (Some old_log) None None).
Proof. vm_compute. reflexivity. Qed.
Example restarted : exists s, In s (fst (add_changelog sample_pver sample_psecs sample_date sample_params (mkFiles (Some (s_ "f (1)")) None None))) /\
  w_orig s = Some (s_ "f (1)") /\ s_log s = Some (s_ "foo (1+").
Proof. eexists. split; [vm_compute; do 13 right; left; reflexivity|]. split; reflexivity. Qed.
Example list_written : beautify (s_ " a , b (>= 1),, c,") = s_ "a, b (>= 1), c".
Proof. vm_compute. reflexivity. Qed.
Example profiles_written : build_profiles (s_ "nocheck") true = s_ "nocheck cross".
Proof. vm_compute. reflexivity. Qed.

Print Assumptions changelog_exact.
Print Assumptions changelog_given_kept.
Print Assumptions changelog_rebuilds.
Print Assumptions changelog_restart_partial.
Print Assumptions changelog_younger.
Print Assumptions changelog_killed_doubles_refuted.
Print Assumptions changelog_killed_truncates_refuted.
Print Assumptions changelog_killed_removed_refuted.
Print Assumptions changelog_new_sources_refuted.
Print Assumptions changelog_second_entry_refuted.
Print Assumptions deb_list_items.
Print Assumptions deb_list_any.
Print Assumptions deb_list_again.
Print Assumptions profiles_exact.

(** ** Further cases that meet the hypotheses *)
Example changelog_younger_met : dated sample_pver sample_psecs sample_params (mkFiles (Some old_log) None None) (s_ "1.2+isar") 1042 /\ original (mkFiles (Some old_log) None None) <> [].
Proof.
  split; [|discriminate]. apply (dated_orig sample_pver sample_psecs sample_params (mkFiles (Some old_log) None None) (s_ "1.2") 1000); try (vm_compute; reflexivity); try discriminate.
  left. exists [], (s_ "+isar"). split; [reflexivity|split; [reflexivity|]]. intros c d _. cbn. lia.
Qed.

