(** Edits of bblayers.conf: the claims. *)
From Coq Require Import Ascii String List Bool Arith Lia.
From Verif Require Import Str_Model Str_Proofs Data_Model Parse_Model Parse_Spec Parse_Proofs Layerconf_Model Layerconf_Spec Layerconf_Proofs.
Import ListNotations.
Open Scope list_scope.

(** ** C152: adding and removing layers *)
(** Whatever is added and removed, the file is read by bitbake afterwards, and all that is
    not about BBLAYERS is as before, in the same order. *)
Theorem layers_others : forall ps add remove ss, Forall good_part ps -> settings ps <> [] -> Forall layer_path add -> reads (file_of ps) ss ->
  exists o ss', edit_bblayers_conf (file_of ps) add remove = Some o /\ reads (o_text o) ss' /\ others ss' = others ss.
Proof.
  intros ps add remove ss F N A R. pose proof (edit_effect ps add remove ss F N A R) as E. destruct (sresults _ _ _ _) as [[[rest removed] sr] u]. destruct E as (o & ss' & E & _ & _ & R' & O & _). exists o, ss'. auto.
Qed.
(** A layer that is not listed is added behind those of the first setting; later settings
    that append or prepend stay. *)
Theorem layer_added : forall ps s rest ss x, Forall good_part ps -> settings ps = s :: rest -> appends_in (settings ps) <= 1 ->
  (s_op s = OLazy -> rest = []) -> (forall t, In t rest -> s_op t = OAppend \/ s_op t = OPrepend) ->
  layer_path x -> (forall t, In t (settings ps) -> ~ lists t x) -> reads (file_of ps) ss ->
  exists o ss' pre old post, edit_bblayers_conf (file_of ps) [x] [] = Some o /\ o_notadded o = [] /\ reads (o_text o) ss' /\ others ss' = others ss /\
    layers_of ss = pre ++ old ++ post /\ layers_of ss' = pre ++ map slashless old ++ [slashless x] ++ post /\ old = split_ws (s_value s).
Proof.
  intros ps s rest ss x F S P L H X N R. assert (NE : settings ps <> []) by (rewrite S; discriminate). pose proof (edit_effect ps [x] [] ss F NE (Forall_cons x X (Forall_nil _)) R) as E.
  assert (PF : is_plus (settings ps) = false) by (apply Nat.ltb_ge; exact P). rewrite PF in E.
  assert (T : tidy_path x) by apply X.
  assert (M : mem_str (slashless x) (kept_layers [] (settings ps)) = false) by (apply mem_str_false; intro I; apply kept_in in I; destruct I as [[]|(t & I & J)]; exact (N t I J)).
  assert (NA : not_added (settings ps) [x] [] = []) by (unfold not_added; cbn [map filter]; rewrite (slashless_twice x T), M; reflexivity).
  assert (TA : to_add (settings ps) [x] [] = [slashless x]) by (unfold to_add; rewrite NA; reflexivity).
  rewrite NA, TA in E. cbn [map] in E. rewrite S in E. assert (N0 : ~ In (slashless x) (map slashless (split_ws (s_value s)))) by (apply (N s); rewrite S; left; reflexivity).
  rewrite (add_one s rest (slashless x) N0) in E. destruct E as (o & ss' & E & O1 & _ & R' & O & LL & _). destruct (layers_first s rest H L) as (pre & post & Q). exists o, ss', pre, (split_ws (s_value s)), post. split; [exact E|]. split; [exact O1|]. split; [exact R'|]. split; [exact O|]. split; [|split; [|reflexivity]].
  - rewrite (reads_layers ps ss F R), S. apply Q. reflexivity.
  - rewrite LL. cbn [map]. rewrite app_nil_r. rewrite Q by reflexivity. assert (G : good_part (Setting s)) by (rewrite Forall_forall in F; apply F; assert (I : In s (settings ps)) by (rewrite S; left; reflexivity); unfold settings in I; apply in_flat_map in I; destruct I as ([i|s'] & I & J); [destruct J|destruct J as [<-|[]]; exact I]).
    rewrite listed_words; [rewrite <- !app_assoc; reflexivity|]. apply Forall_app. split; [apply (word_listed s); [exact G|intros z J; exact J]|]. constructor; [|constructor]. apply (fine_slashless x (layer_fine x X)).
Qed.
(** With two or more appending settings the layer gets a line of its own at the end; the
    rest of the file is untouched. *)
Theorem layer_added_end : forall ps ss x, Forall good_part ps -> 1 < appends_in (settings ps) -> layer_path x -> (forall t, In t (settings ps) -> ~ lists t x) -> reads (file_of ps) ss ->
  exists o ss', edit_bblayers_conf (file_of ps) [x] [] = Some o /\ o_notadded o = [] /\ o_text o = file_of ps ++ s_ "BBLAYERS += """ ++ slashless x ++ s_ """" ++ [nl] /\
    reads (o_text o) ss' /\ others ss' = others ss /\ layers_of ss' = layers_of ss ++ [slashless x].
Proof.
  intros ps ss x F P X N R. assert (NE : settings ps <> []) by (intro Z; rewrite Z in P; cbn in P; lia). pose proof (edit_effect ps [x] [] ss F NE (Forall_cons x X (Forall_nil _)) R) as E.
  assert (PF : is_plus (settings ps) = true) by (apply Nat.ltb_lt; exact P). rewrite PF in E. assert (T : tidy_path x) by apply X.
  assert (M : mem_str (slashless x) (kept_layers [] (settings ps)) = false) by (apply mem_str_false; intro I; apply kept_in in I; destruct I as [[]|(t & I & J)]; exact (N t I J)).
  assert (NA : not_added (settings ps) [x] [] = []) by (unfold not_added; cbn [map filter]; rewrite (slashless_twice x T), M; reflexivity).
  assert (TA : to_add (settings ps) [x] [] = [slashless x]) by (unfold to_add; rewrite NA; reflexivity).
  rewrite NA, TA in E. cbn [map] in E. rewrite keep_plus in E. destruct E as (o & ss' & E & O1 & _ & R' & O & LL & U). exists o, ss'. split; [exact E|]. split; [exact O1|]. split; [|split; [exact R'|split; [exact O|]]].
  - rewrite (U eq_refl). cbn [map]. unfold file_of. repeat (rewrite map_app || rewrite concat_app). cbn [map concat plus_part part_item s_item s_pieces item_lines app]. unfold s_head. cbn [s_before s_after s_op s_quote s_final s_tail repeat]. rewrite !app_nil_r, <- !app_assoc. reflexivity.
  - rewrite LL, (reads_layers ps ss F R). cbn [map]. unfold layers_in, fold_settings. rewrite fold_left_app. cbn [fold_left plus_setting s_op s_value s_pieces s_final map concat app].
    assert (W : split_ws (slashless x) = [slashless x]) by (apply split_ws_single; apply (fine_slashless x (layer_fine x X))).
    assert (K2 : forall l st, In OAppend (map s_op l) -> exists v, fst (fold_left (fun x s => operate (s_op s) (s_value s) x) l st) = Some v).
    { clear. assert (K : forall l st, (exists v, fst st = Some v) -> exists v, fst (fold_left (fun x s => operate (s_op s) (s_value s) x) l st) = Some v) by (induction l as [|s l IH]; intros st H; [exact H|]; cbn [fold_left]; apply IH; destruct st as [a b]; destruct H as [v H]; cbn [fst] in H; subst a; destruct (s_op s); cbn; eauto).
      induction l as [|s l IH]; intros st I; [destruct I|]. cbn [fold_left]. destruct I as [I|I]; [|apply IH, I]. apply K. rewrite I. destruct st. cbn. eauto. }
    assert (I : In OAppend (map s_op (settings ps))).
    { clear -P. unfold appends_in in P. induction (settings ps) as [|s l IH]; [cbn in P; lia|]. cbn [filter] in P. destruct (s_op s) eqn:O; try (right; apply IH; exact P). left. exact O. }
    destruct (K2 _ (None, None) I) as [v V]. fold (folds (settings ps) (None, None)) in V |- *. destruct (folds (settings ps) (None, None)) as [a b]. cbn [fst] in V. subst a. cbn [operate given]. rewrite split_sp, W. reflexivity.
Qed.
(** A layer that is listed is not added again: the file stays and the layer is reported. *)
Theorem layer_there : forall ps a s b x, Forall good_part ps -> settings ps = a ++ s :: b -> lists s x -> (forall t, In t b -> s_op t <> OSet) -> layer_path x ->
  edit_bblayers_conf (file_of ps) [x] [] = Some (mkOutcome (file_of ps) [slashless x] []).
Proof.
  intros ps a s b x F S I B X. assert (NE : settings ps <> []) by (rewrite S; destruct a; discriminate). pose proof (edit_main ps [x] [] F NE (Forall_cons x X (Forall_nil _))) as E. assert (T : tidy_path x) by apply X.
  assert (M : mem_str (slashless x) (kept_layers [] (settings ps)) = true) by (apply mem_str_In; rewrite S; apply kept_there; assumption).
  assert (NA : not_added (settings ps) [x] [] = [slashless x]) by (unfold not_added; cbn [map filter]; rewrite (slashless_twice x T), M; reflexivity).
  assert (TA : to_add (settings ps) [x] [] = []) by (unfold to_add; rewrite NA; cbn [map filter]; rewrite !(slashless_twice x T); cbn [mem_str existsb]; rewrite seqb_refl; reflexivity).
  rewrite NA, TA in E. cbn [map] in E. pose proof (settings_results _ (second_pass (is_plus (settings ps)) []) ps ([], [])) as SR. rewrite keep_all in SR. destruct (results _ _ _ ps) as [[[rest rm] r] u]. injection SR as <- <- _ <-. destruct E as (ps' & _ & _ & _ & U & _ & E). rewrite (U eq_refl eq_refl) in E. exact E.
Qed.
(** A layer that is removed is gone, whatever settings listed it, and no other one is. *)
Theorem layer_removed : forall ps s rest ss x, Forall good_part ps -> settings ps = s :: rest -> list_op (s_op s) \/ s_op s = OQues -> (forall t, In t rest -> list_op (s_op t)) ->
  layer_path x -> literal x -> (forall t, In t (settings ps) -> count_occ (list_eq_dec ascii_dec) (map slashless (split_ws (s_value t))) (slashless x) <= 1) -> reads (file_of ps) ss ->
  exists o ss', edit_bblayers_conf (file_of ps) [] [x] = Some o /\ reads (o_text o) ss' /\ others ss' = others ss /\
    map slashless (layers_of ss') = filter (fun l => negb (seqb l (slashless x))) (map slashless (layers_of ss)) /\
    (o_notremoved o = [] <-> exists t, In t (settings ps) /\ lists t x).
Proof.
  intros ps s rest ss x F S O1 O2 X L K R. assert (NE : settings ps <> []) by (rewrite S; discriminate). pose proof (edit_effect ps [] [x] ss F NE (Forall_nil _) R) as E. assert (T : tidy_path x) by apply X.
  assert (TA : to_add (settings ps) [] [x] = []) by reflexivity. rewrite TA in E. cbn [map] in E.
  assert (LY : literal (slashless x)) by (destruct (slashless_pre x) as [t Z]; intros c I; apply L; rewrite Z; apply in_or_app; left; exact I).
  assert (G : Forall (fun s => good_part (Setting s)) (settings ps)).
  { apply Forall_forall. intros t I. unfold settings in I. apply in_flat_map in I. destruct I as ([i|s'] & I & J); [destruct J|]. destruct J as [<-|[]]. rewrite Forall_forall in F. exact (F _ I). }
  pose proof (remove_run (slashless x) LY (slashless_twice x T) (settings ps) (is_plus (settings ps)) G (proj2 (Forall_forall _ _) K) [] (None, None) (None, None)) as Q.
  destruct (sresults _ (second_pass (is_plus (settings ps)) [slashless x]) ([], []) (settings ps)) as [[[rest' rm] sr] u].
  destruct Q as (-> & RL & RM).
  { split; [reflexivity|split; reflexivity]. }
  { intros a t Z. rewrite S in Z. injection Z as <- <-. destruct O1 as [O1|O1]; [left; exact O1|right; auto]. }
  { intros a t I ->. rewrite S in I. exact (O2 a I). }
  destruct E as (o & ss' & E & _ & NR & R' & O & LL & _). exists o, ss'. split; [exact E|]. split; [exact R'|]. split; [exact O|]. split.
  - rewrite LL, (reads_layers ps ss F R). cbn [map]. rewrite app_nil_r. destruct RL as (A & B & D). fold (without_layer (slashless x) (map slashless (layers_in (settings ps)))). unfold layers_in, fold_settings. unfold words_st in A. fold (folds sr (None, None)). fold (folds (settings ps) (None, None)). destruct (folds sr (None, None)) as [v' w']. destruct (folds (settings ps) (None, None)) as [v w]. cbn [fst snd] in A, B, D. subst w w'. destruct v, v'; exact A.
  - rewrite NR. cbn [filter]. destruct (mem_str (slashless x) rm) eqn:M; cbn [negb nodup].
    + apply mem_str_In in M. apply RM in M. destruct M as [[]|M]. split; [intros _; exact M|reflexivity].
    + split; [discriminate|]. intros H. assert (I : In (slashless x) rm) by (apply RM; right; exact H). apply mem_str_In in I. congruence.
Qed.
(** A layer that is not listed cannot be removed: the file stays and the layer is reported. *)
Theorem layer_missing : forall ps x, Forall good_part ps -> settings ps <> [] -> layer_path x -> literal x -> (forall t, In t (settings ps) -> ~ lists t x) ->
  edit_bblayers_conf (file_of ps) [] [x] = Some (mkOutcome (file_of ps) [] [slashless x]).
Proof.
  intros ps x F NE X L N. pose proof (edit_main ps [] [x] F NE (Forall_nil _)) as E. assert (T : tidy_path x) by apply X. change (to_add (settings ps) [] [x]) with (@nil str) in E. cbn [map] in E.
  assert (LY : literal (slashless x)) by (destruct (slashless_pre x) as [t Z]; intros c I; apply L; rewrite Z; apply in_or_app; left; exact I).
  assert (G : Forall (fun s => good_part (Setting s)) (settings ps)).
  { apply Forall_forall. intros t I. unfold settings in I. apply in_flat_map in I. destruct I as ([i|s'] & I & J); [destruct J|]. destruct J as [<-|[]]. rewrite Forall_forall in F. exact (F _ I). }
  pose proof (settings_results _ (second_pass (is_plus (settings ps)) [slashless x]) ps ([], [])) as SR. rewrite (remove_none (slashless x) LY (slashless_twice x T) (settings ps) _ [] G N) in SR. destruct (results _ _ _ ps) as [[[rest rm] r] u]. injection SR as <- <- _ <-. destruct E as (ps' & _ & _ & _ & U & _ & E). rewrite (U eq_refl eq_refl) in E. exact E.
Qed.
(** Without a setting of BBLAYERS there is an error. *)
Theorem layers_none : forall ps add remove, Forall good_part ps -> settings ps = [] -> edit_bblayers_conf (file_of ps) add remove = None.
Proof.
  intros ps add remove F S. unfold edit_bblayers_conf, edit_metadata. rewrite file_lines, readlines_put by (apply good_lines, F).
  pose proof (run _ first_pass ps F (mkEditing _ false false [] None ([], [])) eq_refl) as R1. cbn [e_cb e_updated e_out e_check] in R1. destruct (first_results ps [] []) as [r1 E1]. rewrite E1 in R1. destruct R1 as (ps1 & k1 & -> & _). cbn [e_updated e_out e_cb orb app]. rewrite S. reflexivity.
Qed.

Definition demo_file : list part :=
  [Other (Comment [] (s_ " layers")); Other (Stmt [] (s_ "A = ""1""") []); Setting (mkSetting OQues 1 1 """"%char [(s_ " ", []); (s_ "  /l/a ", s_ " "); (s_ "  /l/b/ ", [])] (s_ "  ") []); Other (Blank []); Setting (mkSetting OAppend 0 1 "'"%char [] (s_ "/l/c") (s_ " ")); Other (Blank []); Other (Stmt [] (s_ "B = ""2""") [])].
Example demo_good : Forall good_part demo_file.
Proof.
  assert (NM : forall a, forallb (fun c => negb (is_quote c)) a = true -> no_marks a) by (exact no_marks_lit).
  assert (P : forall l, forallb (fun x => negb (seqb (slashless x) []) && negb (ends_in "/"%char (slashless x))) l = true -> Forall tidy_path l).
  { intros l H. apply Forall_forall. intros x I. rewrite forallb_forall in H. specialize (H x I). apply andb_true_iff in H. destruct H as [H1 H2]. apply negb_true_iff in H1, H2. split; [intro Z; rewrite Z in H1; discriminate H1|]. intros [t E]. rewrite E, ends_in_snoc in H2. discriminate H2. }
  assert (EX : forall (s : str) c, rev s <> [] -> ends c s -> hd_error (rev s) = Some c) by (intros s c _ [t ->]; rewrite rev_app_distr; reflexivity).
  repeat (apply Forall_cons; [split; [|split]|]); [..|constructor].
  all: try (intros l I; cbn in I; repeat (destruct I as [<-|I]; [apply no_nl_lit; reflexivity|]); destruct I).
  all: try (split; [right; reflexivity|split; [apply NM; reflexivity|apply P; vm_compute; reflexivity]]).
  all: try (split; [left; reflexivity|split; [apply NM; reflexivity|apply P; vm_compute; reflexivity]]).
  all: try (split; [intros l r I E; cbn in I; repeat (destruct I as [<-|I]; [discriminate E|]); destruct I|]; intros t s I E; cbn in I; repeat (destruct I as [<-|I]; [vm_compute in E; injection E as <-; reflexivity|]); destruct I).
  all: cbn; repeat split; repeat constructor; try discriminate; try (intros [t E]; discriminate E).
  all: try (intros [t E]; apply (f_equal (@rev ascii)) in E; rewrite rev_app_distr in E; discriminate E).
  all: try (intros c [t E]; apply (f_equal (@rev ascii)) in E; rewrite rev_app_distr in E; cbn in E; injection E as E _; subst c; reflexivity).
Qed.
Example demo_edit : option_map o_text (edit_bblayers_conf (file_of demo_file) [s_ "/l/d/"] [s_ "/l/c"]) = Some (concat (map (fun l => l ++ [nl])
  [s_ "# layers"; s_ "A = ""1"""; s_ "BBLAYERS ?= "" \"; s_ "  /l/a \"; s_ "  /l/b \"; s_ "  /l/d \"; s_ "  """; []; s_ "B = ""2"""])) /\
  (exists ss, reads (file_of demo_file) ss /\ length (others ss) = 2 /\ layers_of ss = [s_ "/l/a"; s_ "/l/b/"; s_ "/l/c"]) /\ layer_path (s_ "/l/d/") /\ literal (s_ "/l/c").
Proof.
  split; [vm_compute; reflexivity|]. split; [|split].
  - eexists. split; [unfold reads; vm_compute; reflexivity|]. split; vm_compute; reflexivity.
  - split; [discriminate|]. split; [intros c I; cbn in I; repeat (destruct I as [<-|I]; [reflexivity|]); destruct I|]. split; [apply no_marks_lit; reflexivity|]. split; [discriminate|]. intros [t E]. apply (f_equal (@rev ascii)) in E. rewrite rev_app_distr in E. discriminate E.
  - intros c I. cbn in I. repeat (destruct I as [<-|I]; [cbn; intuition discriminate|]). destruct I.
Qed.

Definition lines_text (l : list str) : str := concat (map (fun x => x ++ [nl]) l).
(** Refuted: a layer that is reported as added is in effect.  The first setting gets it, and a
    later setting with an equals sign replaces that. *)
Theorem layer_overridden_refuted : exists text x o ss', edit_bblayers_conf text [x] [] = Some o /\ o_notadded o = [] /\ layer_path x /\
  reads (o_text o) ss' /\ ~ In x (layers_of ss').
Proof.
  exists (lines_text [s_ "BBLAYERS = ""/l/a"""; s_ "BBLAYERS = ""/l/b"""]), (s_ "/l/x"). eexists. eexists. split; [vm_compute; reflexivity|]. split; [reflexivity|].
  split; [split; [discriminate|]; split; [intros c I; cbn in I; repeat (destruct I as [<-|I]; [reflexivity|]); destruct I|]; split; [apply no_marks_lit; reflexivity|]; split; [discriminate|]; intros [t E]; apply (f_equal (@rev ascii)) in E; rewrite rev_app_distr in E; discriminate E|].
  split; [unfold reads; vm_compute; reflexivity|]. vm_compute. intros [E|[]]. discriminate E.
Qed.
(** Refuted: a file bitbake reads can be read after a layer was added.  If the last line has
    no line end and two settings append, the new setting is glued to that line. *)
Theorem layer_glued_refuted : exists text x o, (exists ss, reads text ss) /\ edit_bblayers_conf text [x] [] = Some o /\ o_notadded o = [] /\
  (forall ss', reads (o_text o) ss' -> ~ In x (layers_of ss')).
Proof.
  exists (lines_text [s_ "BBLAYERS = ""/l/a"""; s_ "BBLAYERS += ""/l/b"""] ++ s_ "BBLAYERS += ""/l/c"""), (s_ "/l/x"). eexists. split; [eexists; unfold reads; vm_compute; reflexivity|]. split; [vm_compute; reflexivity|]. split; [reflexivity|].
  intros ss' R. unfold reads in R. vm_compute in R. first [discriminate R|injection R as <-; vm_compute; intuition discriminate].
Qed.
(** Refuted: a setting bitbake reads is found.  With a tabulator before the operator there is
    an error. *)
Theorem layer_tab_refuted : exists text ss, reads text ss /\ layers_of ss = [s_ "/l/a"] /\ forall add remove, edit_bblayers_conf text add remove = None.
Proof.
  exists (s_ "BBLAYERS" ++ ["009"%char] ++ s_ "= ""/l/a""" ++ [nl]). eexists. split; [unfold reads; vm_compute; reflexivity|]. split; [vm_compute; reflexivity|]. intros add remove. reflexivity.
Qed.
(** Refuted: removing by a pattern removes all layers that match.  Only the first one of each
    setting goes, and nothing is reported. *)
Theorem layer_pattern_refuted : exists text o ss', edit_bblayers_conf text [] [s_ "/l/*"] = Some o /\ o_notremoved o = [] /\ reads (o_text o) ss' /\ layers_of ss' = [s_ "/l/b"].
Proof.
  exists (lines_text [s_ "BBLAYERS = ""/l/a /l/b"""]). eexists. eexists. split; [vm_compute; reflexivity|]. split; [vm_compute; reflexivity|]. split; [unfold reads; vm_compute; reflexivity|]. vm_compute. reflexivity.
Qed.
(** Refuted: removing a layer never makes another one effective.  A setting that appends and
    is emptied is dropped; a default behind it then counts. *)
Theorem layer_default_refuted : exists text o ss ss', edit_bblayers_conf text [] [s_ "/l/a"] = Some o /\ reads text ss /\ layers_of ss = [s_ "/l/a"] /\ reads (o_text o) ss' /\ layers_of ss' = [s_ "/l/b"].
Proof.
  exists (lines_text [s_ "BBLAYERS += ""/l/a"""; s_ "BBLAYERS ?= ""/l/b"""]). eexists. eexists. eexists. split; [vm_compute; reflexivity|]. split; [unfold reads; vm_compute; reflexivity|]. split; [vm_compute; reflexivity|]. split; [unfold reads; vm_compute; reflexivity|]. vm_compute. reflexivity.
Qed.
(** Refuted: what is not about BBLAYERS stays, in every file bitbake reads.  If the line with
    the last quotation mark is continued by an empty line, the end of the value is not
    found, and all lines from there on are lost when a layer is added. *)
Theorem layer_tail_refuted : exists text x o ss ss', edit_bblayers_conf text [x] [] = Some o /\ reads text ss /\ layers_of ss = [s_ "/l/a"; s_ "/l/b"] /\ others ss <> [] /\
  reads (o_text o) ss' /\ layers_of ss' = [s_ "/l/a"; x] /\ others ss' = [].
Proof.
  exists (lines_text [s_ "BBLAYERS = ""/l/a"""; s_ "BBLAYERS += ""\"; s_ " /l/b \"; s_ """\"; []; s_ "LAST = '1'"]), (s_ "/l/x"). eexists. eexists. eexists. split; [vm_compute; reflexivity|]. split; [unfold reads; vm_compute; reflexivity|]. split; [vm_compute; reflexivity|]. split; [discriminate|]. split; [unfold reads; vm_compute; reflexivity|]. split; vm_compute; reflexivity.
Qed.
Print Assumptions layers_others.
Print Assumptions layer_added.
Print Assumptions layer_added_end.
Print Assumptions layer_there.
Print Assumptions layer_removed.
Print Assumptions layer_missing.
Print Assumptions layers_none.
Print Assumptions layer_overridden_refuted.
Print Assumptions layer_glued_refuted.
Print Assumptions layer_tab_refuted.
Print Assumptions layer_pattern_refuted.
Print Assumptions layer_default_refuted.
Print Assumptions layer_tail_refuted.
