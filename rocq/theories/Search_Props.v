(** C48: search paths. *)
From Coq Require Import Ascii String List Bool Arith Lia.
From Verif Require Import Str_Model Str_Proofs Imgtypes_Model Imgtypes_Proofs Posix_Model Posix_Proofs Search_Model Search_Spec Search_Proofs.
Import ListNotations.
Open Scope list_scope.

(** The list: FILESEXTRAPATHS before the directories, each combined with every
    override, overrides first.  [dirs] are the non-empty directories. *)
Theorem filespath_is path extra over dirs : Forall (no_char colon) path ->
  dirs = directories path extra -> dirs <> [] ->
  split_on colon (base_set_filespath path extra over) = map place (combined (split_on colon over) dirs).
Proof.
  intros P E N. unfold base_set_filespath. cbv zeta. 
  match goal with |- context [flat_map (fun p => match p with [] => [] | _ => _ end) ?X] => set (all := X) end.
  assert (AL : filter (fun p => negb (seqb p [])) all = dirs) by (rewrite E; unfold directories, all; destruct (replace_str (s_ "__default:") [] extra); reflexivity).
  assert (C : Forall (no_char colon) dirs). { rewrite E. apply Forall_forall. intros x X. apply filter_In in X. destruct X as (X & _). apply in_app_or in X. destruct X as [X|X]; [|rewrite Forall_forall in P; auto]. destruct (split_on_spec colon (replace_str (s_ "__default:") [] extra)) as (F & _). rewrite Forall_forall in F. apply F. exact X. }
  assert (O : Forall (no_char colon) ([] :: split_on colon over)) by (constructor; [constructor|apply split_on_spec]).
  assert (Q : flat_map (fun o => flat_map (fun p => match p with [] => [] | _ => [pjoin p o] end) all) (rev (split_on colon (colon :: over))) = map place (combined (split_on colon over) dirs)).
  { unfold combined. rewrite map_flat_map, split_colon_first. apply flat_map_ext_in. intros o _. rewrite (flat_map_nonempty (fun p => pjoin p o)), AL, map_map. reflexivity. }
  match goal with |- split_on colon (join [colon] ?X) = _ => replace X with (map place (combined (split_on colon over) dirs)) by (symmetry; exact Q) end.
  apply split_on_join.
  - destruct dirs as [|d dirs]; [congruence|]. unfold combined. intros Z. assert (I : In (place ([], d)) []). { rewrite <- Z. apply in_map. apply in_flat_map. exists []. split; [apply -> in_rev; now left|now left]. } exact I.
  - apply Forall_forall. intros x X. apply in_map_iff in X. destruct X as ((o & d) & <- & X). unfold combined in X. apply in_flat_map in X. destruct X as (o' & I & X). apply in_map_iff in X. destruct X as (d' & [= -> ->] & X).
    apply in_rev in I. rewrite Forall_forall in C, O. unfold place. cbn [fst snd]. apply pjoin_colon; auto.
Qed.
(** [which] takes the first that exists, from either end. *)
Theorem which_first ok path item (reverse : bool) : let paths := if reverse then rev (split_on colon path) else split_on colon path in
  match fst (which ok path item reverse) with
  | Some x => first_with (fun c => ok c = true) (map (fun p => pjoin p item) paths) x
  | None => forall p, In p (split_on colon path) -> ok (pjoin p item) = false
  end.
Proof.
  cbv zeta. unfold which. set (paths := if reverse then rev (split_on colon path) else split_on colon path). assert (IN : forall p, In p (split_on colon path) -> In p paths) by (intros p; unfold paths; destruct reverse; auto; apply in_rev).
  pose proof (which_loop_spec ok item paths []) as W. destruct (which_loop ok item paths []) as [[x|] h]; cbn [fst].
  - destruct W as (b & p & a & E & -> & O & F & _). exists (map (fun p => pjoin p item) b), (map (fun p => pjoin p item) a). split; [rewrite E, map_app; reflexivity|]. split; auto. apply Forall_map. eapply Forall_impl; [|exact F]. cbn. intros q Q. congruence.
  - destruct W as (_ & F). intros p I. rewrite Forall_forall in F. auto.
Qed.
(** The most specific existing file is used: no directory has the file with a later
    override, and no earlier directory has it with the same override. *)
Theorem most_specific path extra over dirs ok item x : Forall (no_char colon) path ->
  dirs = directories path extra -> dirs <> [] ->
  fst (which ok (base_set_filespath path extra over) item false) = Some x ->
  exists os o os' ds d ds', [] :: split_on colon over = os ++ o :: os' /\ dirs = ds ++ d :: ds' /\ x = pjoin (pjoin d o) item /\ ok x = true /\
    (forall o' d', In o' os' -> In d' dirs -> ok (pjoin (pjoin d' o') item) = false) /\
    (forall d', In d' ds -> ok (pjoin (pjoin d' o) item) = false).
Proof.
  intros P E N W. pose proof (which_first ok (base_set_filespath path extra over) item false) as F. cbv zeta in F. rewrite W in F. rewrite (filespath_is path extra over dirs P E N) in F. clear W P E N.
  destruct F as (before & after & J & OK & NB). rewrite map_map in J. unfold combined in J.
  assert (G : forall l before after, map (fun od => pjoin (place od) item) (flat_map (fun o => map (fun d => (o, d)) dirs) l) = before ++ x :: after -> Forall (fun y => ok y <> true) before ->
     exists l1 o l2 ds d ds', l = l1 ++ o :: l2 /\ dirs = ds ++ d :: ds' /\ x = pjoin (pjoin d o) item /\ (forall o' d', In o' l1 -> In d' dirs -> ok (pjoin (pjoin d' o') item) = false) /\ (forall d', In d' ds -> ok (pjoin (pjoin d' o) item) = false)).
  { clear - OK. induction l as [|o l IH]; intros before after J NB; [destruct before; discriminate|]. cbn [flat_map] in J. rewrite map_app, map_map in J. cbn [fst snd] in J. unfold place at 1 in J. cbn [fst snd] in J.
    assert (K : (exists r, before = map (fun d => pjoin (pjoin d o) item) dirs ++ r) \/ exists ds d ds', dirs = ds ++ d :: ds' /\ x = pjoin (pjoin d o) item /\ before = map (fun d => pjoin (pjoin d o) item) ds).
    { clear IH NB. match type of J with _ ++ ?R = _ => revert J; generalize R as rest end. intros rest. revert before. generalize dirs as D. induction D as [|d D IHD]; intros before J; [left; exists before; reflexivity|]. cbn [map app] in J. destruct before as [|b before]; cbn [app] in J.
      - right. exists [], d, D. repeat split. now injection J.
      - injection J as <- J. destruct (IHD before J) as [(r & ->)|(ds & d' & ds' & -> & X & ->)]; [left; exists r; reflexivity|]. right. exists (d :: ds), d', ds'. auto. }
    destruct K as [(r & ->)|(ds & d & ds' & D & X & ->)].
    - rewrite <- app_assoc in J. apply app_inv_head in J. apply Forall_app in NB. destruct NB as (NB1 & NB2). destruct (IH r after J NB2) as (l1 & o1 & l2 & ds & d & ds' & -> & D & X & A & B). exists (o :: l1), o1, l2, ds, d, ds'. repeat split; auto.
      intros o' d' [<-|I] ID; [|now apply A]. rewrite Forall_map, Forall_forall in NB1. specialize (NB1 d' ID). destruct (ok (pjoin (pjoin d' o) item)); congruence.
    - exists [], o, l, ds, d, ds'. repeat split; auto; [intros ? ? []|]. intros d' I. rewrite Forall_map, Forall_forall in NB. specialize (NB d' I). destruct (ok (pjoin (pjoin d' o) item)); congruence. }
  destruct (G _ before after J NB) as (l1 & o & l2 & ds & d & ds' & L & D & X & A & B). exists (rev l2), o, (rev l1), ds, d, ds'. split.
  { rewrite <- (rev_involutive ([] :: split_on colon over)), L, rev_app_distr. cbn [rev]. now rewrite <- app_assoc. }
  repeat split; auto. intros o' d' I. apply A. now apply in_rev.
Qed.
(** Relative directories of the list are the only way to search the working directory. *)
Theorem absolute_places path extra over dirs : Forall (no_char colon) path ->
  dirs = directories path extra -> dirs <> [] ->
  (forall d, In d dirs -> isabs d = true) -> forall p, In p (split_on colon (base_set_filespath path extra over)) -> isabs p = true.
Proof.
  intros P E N A p I. rewrite (filespath_is path extra over dirs P E N) in I. apply in_map_iff in I. destruct I as ((o & d) & <- & I). unfold combined in I. apply in_flat_map in I. destruct I as (o' & _ & I). apply in_map_iff in I. destruct I as (d' & [= -> ->] & I). specialize (A d I).
  unfold place, pjoin. cbn [fst snd]. destruct (isabs o) eqn:O; auto. destruct d as [|c d]; [discriminate|]. destruct (rev (c :: d)) as [|x r] eqn:R; [|destruct (is_slash x); exact A]. exfalso. apply (f_equal (@rev ascii)) in R. rewrite rev_involutive in R. discriminate.
Qed.
(** Local files: an absolute name is used as it is; a relative one is found as by
    [which], and is in the last place searched when it does not exist. *)
Theorem local_absolute ok filespath s : localpath ok filespath (slash :: s) = Some (slash :: s).
Proof. reflexivity. Qed.
Theorem local_found ok filespath u x : isabs u = false -> u <> [] -> filespath <> [] ->
  fst (which ok filespath u false) = Some x -> localpath ok filespath u = Some x.
Proof.
  intros A N F. unfold localpath, localfile_searchpaths. destruct u as [|c u]; [congruence|]. cbn [isabs] in A. rewrite A. destruct filespath as [|f fs]; [congruence|]. unfold which. intros W.
  match goal with |- context [which_loop ok (c :: u) ?P []] => pose proof (which_loop_spec ok (c :: u) P []) as S; destruct (which_loop ok (c :: u) P []) as [[y|] h] end; cbn [fst snd] in *; [|discriminate]. injection W as ->.
  destruct S as (b & p & a & _ & _ & _ & _ & ->). cbn [app]. rewrite rev_app_distr. reflexivity.
Qed.
Theorem local_missing ok filespath u : isabs u = false -> u <> [] -> filespath <> [] -> fst (which ok filespath u false) = None ->
  exists ps p, split_on colon filespath = ps ++ [p] /\ localpath ok filespath u = Some (pjoin p u).
Proof.
  intros A N F. unfold localpath, localfile_searchpaths. destruct u as [|c u]; [congruence|]. cbn [isabs] in A. rewrite A. destruct filespath as [|f fs]; [congruence|]. unfold which. intros W. cbv match in *.
  pose proof (which_loop_spec ok (c :: u) (split_on colon (f :: fs)) []) as S. destruct (which_loop ok (c :: u) (split_on colon (f :: fs)) []) as [[y|] h]; cbn [fst snd] in *; [discriminate|]. destruct S as (-> & _).
  destruct (split_on_spec colon (f :: fs)) as (_ & NE & _). destruct (exists_last NE) as (ps & p & ->). exists ps, p. split; auto. cbn [app]. rewrite map_app, rev_app_distr. reflexivity.
Qed.
(** [which_wild]: every name that exists somewhere is reported once, from the first place that has it. *)
Theorem wild_first glob readable rel pathname paths : exists found : list (str * str), which_wild glob readable rel pathname paths = map snd found /\
  NoDup (map (fun ef => rel (snd ef) (fst ef)) found) /\
  (forall e f, In (e, f) found -> exists before after, paths = before ++ e :: after /\ In f (glob (pjoin e pathname)) /\ readable f = true /\
  forall e' f', In e' before -> In f' (glob (pjoin e' pathname)) -> readable f' = true -> rel f' e' <> rel f e) /\
  (forall e f, In e paths -> In f (glob (pjoin e pathname)) -> readable f = true -> exists e' f', In (e', f') found /\ rel f' e' = rel f e).
Proof.
  destruct (wild_loop_spec glob readable rel pathname paths [] []) as (new & E & N & _ & A & B). exists new. split; [exact E|]. split; [exact N|]. split.
  - intros e f I. destruct (A e f I) as (b & a & P & H & F). apply hits_in in H. exists b, a. split; auto. split; [apply H|]. split; [apply H|]. intros e' f' I' G R. apply (F e' f' I'). now apply hits_in.
  - intros e f I G R. destruct (B e f I) as [[]|X]; [now apply hits_in|]. apply in_map_iff in X. destruct X as ((e' & f') & X & Y). exists e', f'. auto.
Qed.

(** ** Cases *)
Definition dirs1 : list str := [s_ "/r/foo"; s_ "/r/files"].
Example filespath_case : base_set_filespath dirs1 (s_ "__default:/x:") (s_ "arm:qemu") =
  s_ "/x/qemu:/r/foo/qemu:/r/files/qemu:/x/arm:/r/foo/arm:/r/files/arm:/x/:/r/foo/:/r/files/".
Proof. vm_compute. reflexivity. Qed.
Example filespath_hyps : Forall (no_char colon) dirs1 /\ directories dirs1 (s_ "__default:/x:") = [s_ "/x"; s_ "/r/foo"; s_ "/r/files"].
Proof. split; [repeat constructor|vm_compute; reflexivity]. Qed.
Example local_case : localpath (fun p => seqb p (s_ "/r/files/arm/a.patch") || seqb p (s_ "/r/foo/a.patch")) (base_set_filespath dirs1 [] (s_ "arm")) (s_ "a.patch") = Some (s_ "/r/files/arm/a.patch").
Proof. vm_compute. reflexivity. Qed.
Example wild_case : which_wild (fun c => if seqb c (s_ "/a/*") then [s_ "/a/y"; s_ "/a/x"] else if seqb c (s_ "/b/*") then [s_ "/b/z"; s_ "/b/x"] else []) (fun _ => true) (fun f e => skipn (S (length e)) f) (s_ "*") [s_ "/a"; s_ "/b"] = [s_ "/a/x"; s_ "/a/y"; s_ "/b/z"].
Proof. vm_compute. reflexivity. Qed.

(** ** What does not hold *)
(** The flag is removed as an element of the list: it is removed as text, which joins two directories. *)
Theorem flag_textual_refuted : base_set_filespath [] (s_ "/x/my__default:/y") [] = s_ "/x/my/y/:/x/my/y/" /\ base_set_filespath [] (s_ "/x:__default") [] = s_ "/x/:__default/:/x/:__default/".
Proof. split; vm_compute; reflexivity. Qed.
(** Every override is searched below the directories. *)
Theorem absolute_override_refuted : base_set_filespath [s_ "/r"] [] (s_ "/etc") = s_ "/etc:/r/".
Proof. vm_compute. reflexivity. Qed.
(** Without directories nothing is searched: the working directory is. *)
Theorem no_directories_refuted : base_set_filespath [] [] [] = [] /\ fst (which (fun p => seqb p (s_ "a")) [] (s_ "a") false) = Some (s_ "a").
Proof. split; vm_compute; reflexivity. Qed.
(** A missing relative file without FILESPATH is reported: it is an exception. *)
Theorem no_filespath_refuted : localpath (fun _ => false) [] (s_ "a") = None.
Proof. reflexivity. Qed.

Print Assumptions filespath_is.
Print Assumptions which_first.
Print Assumptions most_specific.
Print Assumptions absolute_places.
Print Assumptions local_found.
Print Assumptions local_missing.
Print Assumptions wild_first.
