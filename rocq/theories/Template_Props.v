(** Templates: the theorems. *)
From Coq Require Import Ascii String List Bool Arith NArith Lia.
From Verif Require Import Str_Model Str_Proofs Posix_Model Data_Model Words_Spec Words_Proofs Lists_Proofs Parse_Proofs Search_Model Search_Proofs Template_Model Template_Spec Template_Proofs.
Import ListNotations.
Open Scope list_scope.

(** The output of a template is its text with the references to the variables of TEMPLATE_VARS replaced, in braces or not, and with
    nothing else changed *)
Theorem template_filled tv d penv text out :
  (exists w, has_word tv w) -> (forall w, has_word tv w -> ~ In "$"%char w /\ ~ In "}"%char w) ->
  (transform tv d penv text = Some out <-> filled_in (fun n v => has_word tv n /\ identifier n /\ template_value d penv n v) text out).
Proof.
  intros (w & W) P. apply has_word_iff in W. unfold transform. set (env := fun n => match template_env d (split_ws tv) penv n with Some v => v | None => [] end).
  assert (EX : forall n v, replaced (mentioned (format_of (split_ws tv))) env n v <-> has_word tv n /\ identifier n /\ template_value d penv n v).
  { intros n v. unfold replaced. rewrite <- has_word_iff. split.
    - intros (A & B & ->). apply mentioned_only in A; [|apply Forall_forall; intros x X; apply P; now apply has_word_iff]. destruct A as [A _]. split; [exact A|]. split; [exact B|]. now apply (env_value d (split_ws tv)).
    - intros (A & B & V). split; [now apply mentioned_in|]. split; [exact B|]. symmetry. now apply (env_value d (split_ws tv) penv n v A). }
  destruct (split_ws tv) as [|w0 ws] eqn:E; [destruct W|]. unfold envsubst. fold env. split.
  - intro H. injection H as <-. eapply filled_ext; [exact EX|]. apply sub_filled.
  - intro H. f_equal. apply sub_unique. eapply filled_ext; [intros n v; symmetry; apply EX|exact H].
Qed.
Example template_filled_met :
  let d := fun n => if seqb n (s_ "PN") then Some (s_ "hello") else if seqb n (s_ "PV") then Some (s_ "1.0") else None in
  transform (s_ "PN PV") d (fun _ => None) (s_ "${PN}_$PV ${HOME} $PNX") = Some (s_ "hello_1.0 ${HOME} $PNX").
Proof. reflexivity. Qed.

Example template_filled_hyp : (exists w, has_word (s_ "PN PV") w) /\ (forall w, has_word (s_ "PN PV") w -> ~ In "$"%char w /\ ~ In "}"%char w).
Proof.
  split; [exists (s_ "PN"); apply has_word_iff; cbn; auto|]. intros w W. apply has_word_iff in W. cbn in W. destruct W as [<-|[<-|[]]]; cbn; intuition discriminate.
Qed.

(** Text around a reference does not matter *)
Theorem template_reference tv d penv n a b :
  has_word tv n -> identifier n ->
  exists v A B, template_value d penv n v /\ transform tv d penv a = Some A /\ transform tv d penv b = Some B /\
    transform tv d penv (a ++ s_ "${" ++ n ++ s_ "}" ++ b) = Some (A ++ v ++ B).
Proof.
  intros W I. apply has_word_iff in W. unfold transform. pose proof (mentioned_in _ _ W I) as M. pose proof (fun v => env_value d (split_ws tv) penv n v W) as EV. destruct (split_ws tv) as [|w0 ws] eqn:E; [destruct W|]. unfold envsubst.
  set (vars := mentioned _) in *. set (env := fun n => match template_env d (w0 :: ws) penv n with Some v => v | None => [] end).
  exists (env n), (substitute vars env 0 a), (substitute vars env 0 b). split; [now apply EV|]. split; [reflexivity|]. split; [reflexivity|]. f_equal.
  change (s_ "${" ++ n ++ s_ "}" ++ b) with (dollar :: (s_ "{" ++ n ++ s_ "}" ++ b)). rewrite sub_dollar. f_equal. exact (sub_braces vars env n b M I).
Qed.
Example template_reference_met :
  has_word (s_ "PN PV") (s_ "PV") /\ identifier (s_ "PV").
Proof. split; [apply has_word_iff; cbn; auto|]. apply ident_intro; [reflexivity|]. repeat constructor. Qed.

(** A text without a dollar is copied *)
Theorem template_copied tv d penv text : (exists w, has_word tv w) -> ~ In "$"%char text -> transform tv d penv text = Some text.
Proof.
  intros (w & W) N. apply has_word_iff in W. unfold transform. destruct (split_ws tv) as [|w0 ws]; [destruct W|]. unfold envsubst. f_equal. clear W. generalize (mentioned (format_of (w0 :: ws))) as vars. intro vars.
  set (env := fun n => _). clearbody env. induction text as [|c text IH]; [reflexivity|]. cbn [substitute]. destruct (aeqb c dollar) eqn:E; [apply aeqb_eq in E; subst; exfalso; apply N; left; reflexivity|]. f_equal. apply IH. intro I. apply N. right. exact I.
Qed.
Example template_copied_met : (exists w, has_word (s_ "PN") w) /\ ~ In "$"%char (s_ "no reference {PN}").
Proof. split; [exists (s_ "PN"); apply has_word_iff; cbn; auto|]. cbn. intuition discriminate. Qed.

(** Without variables nothing is written *)
Theorem template_no_variables tv d penv text : transform tv d penv text = None <-> forall w, ~ has_word tv w.
Proof.
  setoid_rewrite <- has_word_iff. unfold transform. destruct (split_ws tv) as [|w ws]; split; [intros _ w []|reflexivity|discriminate|]. intro H. exfalso. exact (H w (or_introl eq_refl)).
Qed.

(** Refuted: that the output depends on the variables of bitbake only.  A variable that is unset (or empty) in bitbake is taken from
    the environment of the process *)
Theorem template_environment_refuted :
  let d := fun _ : str => @None str in
  transform (s_ "PN USER") d (fun _ => None) (s_ "${USER}") = Some [] /\
  transform (s_ "PN USER") d (fun n => if seqb n (s_ "USER") then Some (s_ "root") else None) (s_ "${USER}") = Some (s_ "root").
Proof. split; reflexivity. Qed.

(** ** Kickstart files *)
(** The names that are found in a kickstart template *)
Theorem wks_names_found text n : In n (wks_names text) <->
  exists a b, text = a ++ s_ "${" ++ n ++ s_ "}" ++ b /\ n <> [] /\ Forall (fun c => ~ In c (ascii_of_nat 9 :: ascii_of_nat 10 :: list_ascii_of_string "{}@ :")) n.
Proof.
  rewrite wks_names_iff. assert (R : forall c, rx_name c = true <-> ~ In c (ascii_of_nat 9 :: ascii_of_nat 10 :: list_ascii_of_string "{}@ :")).
  { intro c. unfold rx_name. rewrite negb_true_iff. split.
    - intros E I. assert (X : existsb (aeqb c) ("{"%char :: "}"%char :: "@"%char :: " "%char :: ":"%char :: ascii_of_nat 9 :: ascii_of_nat 10 :: nil) = true); [|congruence].
      apply existsb_exists. exists c. split; [cbn in *; tauto|apply aeqb_refl].
    - intro N. destruct (existsb _ _) eqn:E; [|reflexivity]. exfalso. apply N. apply existsb_exists in E. destruct E as (x & X & E). apply aeqb_eq in E. subst x. cbn in *. tauto. }
  split; intros (a & b & E & N & F); exists a, b; (split; [exact E|split; [exact N|]]); (eapply Forall_impl; [|exact F]); intros c C; now apply R.
Qed.
Example wks_names_found_met : wks_names (s_ "part / --uuid ${A} ${@b} ${C}") = [s_ "A"; s_ "C"].
Proof. reflexivity. Qed.

(** Every reference in braces in a kickstart template is replaced, also if its variable is not in TEMPLATE_VARS *)
Theorem wks_replaced tv d penv n a b :
  identifier n ->
  let text := a ++ s_ "${" ++ n ++ s_ "}" ++ b in
  exists v A B, template_value d penv n v /\ transform (wks_vars tv text) d penv a = Some A /\ transform (wks_vars tv text) d penv b = Some B /\
    transform (wks_vars tv text) d penv text = Some (A ++ v ++ B).
Proof.
  intros I text. apply template_reference; [|exact I]. apply has_word_iff. unfold wks_vars. change (tv ++ s_ " " ++ ?x) with (tv ++ " "%char :: x). rewrite split_ws_app by reflexivity. apply in_or_app. right.
  rewrite split_ws_join_any. apply in_concat. exists (split_ws n). assert (W : word n).
  { split; [destruct I as (x & r & -> & _); discriminate|]. pose proof (ident_chars n I) as F. eapply Forall_impl; [|exact F]. intros c C. destruct (is_space c) eqn:E; [|reflexivity].
    unfold is_space in E. exfalso. apply char_iff in C. revert C. apply char_false. repeat rewrite ?orb_true_iff, ?andb_true_iff in E. clear -E.
    destruct c as [[|] [|] [|] [|] [|] [|] [|] [|]]; first [reflexivity|exfalso; vm_compute in E; intuition discriminate]. }
  split; [|rewrite (split_ws_single n W); left; reflexivity]. apply in_map. apply wks_names_iff. exists a, b. split; [reflexivity|]. split; [destruct I as (x & r & -> & _); discriminate|now apply ident_rx].
Qed.
Example wks_replaced_met :
  identifier (s_ "ROOT_UUID") /\
  (let text := s_ "part / --uuid ${ROOT_UUID}" in
   transform (wks_vars [] text) (fun n => if seqb n (s_ "ROOT_UUID") then Some (s_ "12-34") else None) (fun _ => None) text = Some (s_ "part / --uuid 12-34")).
Proof. split; [|reflexivity]. apply ident_intro; [reflexivity|]. repeat constructor. Qed.

(** Refuted: that every reference is replaced.  Without braces, a variable that is not in TEMPLATE_VARS stays *)
Theorem wks_plain_refuted :
  let text := s_ "part / --uuid $ROOT_UUID --label ${LABEL}" in
  transform (wks_vars [] text) (fun n => if seqb n (s_ "ROOT_UUID") || seqb n (s_ "LABEL") then Some (s_ "x") else None) (fun _ => None) text =
  Some (s_ "part / --uuid $ROOT_UUID --label x").
Proof. reflexivity. Qed.

Lemma pjoin_wic p x name : isabs name = false -> pjoin (p ++ s_ "/" ++ x ++ s_ "c") name = p ++ s_ "/" ++ x ++ s_ "c/" ++ name.
Proof.
  intro A. unfold pjoin. rewrite A. replace (rev (p ++ s_ "/" ++ x ++ s_ "c")) with ("c"%char :: rev (p ++ s_ "/" ++ x)) by (rewrite !rev_app_distr; reflexivity). change (is_slash "c"%char) with false. cbv iota.
  rewrite <- !app_assoc. reflexivity.
Qed.
Lemma pjoin_canned p name : isabs name = false -> pjoin (p ++ s_ "/scripts/lib/wic/canned-wks") name = p ++ s_ "/scripts/lib/wic/canned-wks/" ++ name.
Proof.
  intro A. unfold pjoin. rewrite A. replace (rev (p ++ s_ "/scripts/lib/wic/canned-wks")) with ("s"%char :: rev (p ++ s_ "/scripts/lib/wic/canned-wk")) by (rewrite !rev_app_distr; reflexivity). change (is_slash "s"%char) with false. cbv iota.
  rewrite <- !app_assoc. reflexivity.
Qed.
Lemma first_unique (there : str -> bool) l p q : first_of there l p -> first_of there l q -> p = q.
Proof.
  intros (b & a & E & P & F) (b' & a' & E' & P' & F'). subst l. revert b' E' F'. induction b as [|x b IH]; intros [|x' b'] E' F'; cbn in E'.
  - now injection E'.
  - injection E' as -> _. inversion F'; congruence.
  - injection E' as -> _. inversion F; congruence.
  - injection E' as -> E'. inversion F; inversion F'; subst. eapply IH; eauto.
Qed.
(** A kickstart file that is not absolute is the first one that exists: in the directories wic of BBPATH and COREBASE, then in their
    canned-wks; an extension is added if there is none *)
Theorem wks_found_first there dirs corebase file name p :
  Forall (fun x => ~ In ":"%char x) (dirs ++ [corebase]) -> dirs <> [] -> file <> [] -> isabs file = false -> with_extension file name ->
  (wks_path there (join (s_ ":") dirs) (Some corebase) file = Some p <-> first_of there (wks_places (dirs ++ [corebase]) name) p).
Proof.
  intros F N FN AB WE. apply with_extension_name in WE. subst name. unfold wks_path. assert (ABN : isabs (wks_name file) = false) by (unfold wks_name; destruct (_ || _); [exact AB|destruct file; [contradiction|exact AB]]).
  destruct file as [|c file]; [contradiction|]. cbv beta iota zeta. rewrite ABN. rewrite split_on_join; [|exact N|apply Forall_app in F; destruct F as [F _]; eapply Forall_impl; [|exact F]; intros x X; now apply no_char_In].
  set (paths := dirs ++ [corebase]) in *. unfold which. cbv beta iota zeta. set (name := wks_name _) in *.
  set (l := map (fun p => p ++ s_ "/wic") paths ++ map (fun p => p ++ s_ "/scripts/lib/wic/canned-wks") paths).
  assert (L : split_on colon (join (s_ ":") l) = l).
  { apply split_on_join; [unfold l, paths; destruct dirs; discriminate|]. unfold l. apply Forall_app. split; apply Forall_map; (eapply Forall_impl; [|exact F]); intros x X; apply no_char_In; intro I; apply in_app_or in I; (destruct I as [I|I]; [exact (X I)|]); cbn in I; intuition discriminate. }
  change (fst (which_loop there name (split_on colon (join (s_ ":") l)) []) = Some p <-> first_of there (wks_places paths name) p). rewrite L. assert (PL : map (fun q => pjoin q name) l = wks_places paths name).
  { unfold l, wks_places. rewrite map_app, !map_map. f_equal; apply map_ext; intro x; [exact (pjoin_wic x (s_ "wi") name ABN)|exact (pjoin_canned x name ABN)]. }
  pose proof (which_loop_spec there name l []) as W. destruct (which_loop there name l []) as [[x|] h]; cbn [fst].
  - destruct W as (b & q & a & E & -> & T & FB & _). assert (FO : first_of there (wks_places paths name) (pjoin q name)).
    { exists (map (fun q => pjoin q name) b), (map (fun q => pjoin q name) a). split; [rewrite <- PL, E, map_app; reflexivity|]. split; [exact T|]. apply Forall_map. exact FB. }
    split; [intro H; injection H as <-; exact FO|]. intro H. f_equal. exact (first_unique _ _ _ _ FO H).
  - destruct W as [_ W]. split; [discriminate|]. intros (b & a & E & T & _). exfalso. rewrite <- PL in E. assert (I : In p (map (fun q => pjoin q name) l)) by (rewrite E; apply in_elt). apply in_map_iff in I. destruct I as (q & <- & I). rewrite Forall_forall in W. rewrite (W q I) in T. discriminate.
Qed.
Example wks_found_first_met :
  wks_path (fun p => seqb p (s_ "/isar/meta/wic/sdimage.wks") || seqb p (s_ "/isar/scripts/lib/wic/canned-wks/sdimage.wks")) (join (s_ ":") [s_ "/build"; s_ "/isar/meta"]) (Some (s_ "/isar")) (s_ "sdimage") = Some (s_ "/isar/meta/wic/sdimage.wks").
Proof. reflexivity. Qed.

(** ** Variables for wic *)
Lemma drop_quote x : (forall r, x <> quote :: r) -> drop_quotes x = x.
Proof. destruct x as [|c x]; [reflexivity|]. intro N. cbn [drop_quotes]. destruct (aeqb c quote) eqn:E; [apply aeqb_eq in E; subst; exfalso; exact (N x eq_refl)|reflexivity]. Qed.
Lemma unquote x : unquoted x -> strip_quotes (quote :: x ++ [quote]) = x.
Proof.
  intros [A B]. unfold strip_quotes. cbn [drop_quotes]. rewrite aeqb_refl. destruct x as [|c x]; [reflexivity|].
  rewrite (drop_quote ((c :: x) ++ [quote])) by (intros r R; cbn in R; injection R as -> _; exact (A x eq_refl)). rewrite rev_app_distr. change (rev [quote] ++ ?l) with (quote :: l). cbn [drop_quotes]. rewrite aeqb_refl.
  rewrite (drop_quote (rev (c :: x))); [apply rev_involutive|]. intros r R. apply (B (rev r)). rewrite <- (rev_involutive (c :: x)), R. reflexivity.
Qed.
Lemma parse_written v x : v <> [] -> Forall (fun c => key_char c = true) v -> unquoted x -> parse_line (v ++ s_ "=" ++ quote :: x ++ [quote]) = Some (v, x).
Proof.
  intros N F U. unfold parse_line. rewrite (span_app key_char v (s_ "=" ++ quote :: x ++ [quote]) F) by reflexivity. destruct v as [|k v]; [contradiction|]. cbn [app s_ list_ascii_of_string]. rewrite aeqb_refl, unquote by exact U. reflexivity.
Qed.
Lemma key_newline c : key_char c = true -> c <> newline.
Proof. intros K ->. discriminate. Qed.
Definition pick (var : str) (r : option str) (line : str) : option str := match parse_line line with Some (k, v) => if seqb k var then Some v else r | None => r end.
Lemma read_lines d var vars r :
  Forall (fun v => v <> [] /\ Forall (fun c => key_char c = true) v /\ forall x, d v = Some x -> one_line (strip x) /\ unquoted (strip x)) vars ->
  fold_left (pick var) (split_on newline (concat (map (fun v => match d v with Some (c :: x) => env_line v (c :: x) | _ => [] end) vars))) r =
  (if mem_str var vars then match d var with Some (c :: x) => Some (strip (c :: x)) | _ => r end else r).
Proof.
  intro F. revert r. induction F as [|v vars (N & K & V) F IH]; intro r; [reflexivity|]. cbn [map concat]. set (rest := concat _) in *.
  assert (D : forall c x, d v = Some (c :: x) -> fold_left (pick var) (split_on newline (env_line v (c :: x) ++ rest)) r = fold_left (pick var) (split_on newline rest) (if seqb v var then Some (strip (c :: x)) else r)).
  { intros c x E. destruct (V _ E) as [O U]. unfold env_line. rewrite <- !app_assoc. cbn [app]. rewrite <- !app_assoc. cbn [app].
    replace (v ++ s_ "=" ++ quote :: strip (c :: x) ++ quote :: newline :: rest) with ((v ++ s_ "=" ++ quote :: strip (c :: x) ++ [quote]) ++ newline :: rest) by (rewrite <- !app_assoc; cbn [app]; rewrite <- app_assoc; reflexivity).
    rewrite split_on_cons.
    - cbn [fold_left]. unfold pick at 2. rewrite parse_written by assumption. reflexivity.
    - apply no_char_In. intro I. apply in_app_or in I. destruct I as [I|[I|[I|I]]]; [rewrite Forall_forall in K; exact (key_newline _ (K _ I) eq_refl)|discriminate|discriminate|].
      apply in_app_or in I. destruct I as [I|[I|[]]]; [exact (O I)|discriminate]. }
  assert (ME : mem_str var (v :: vars) = seqb var v || mem_str var vars) by reflexivity. rewrite ME. clear ME. destruct (seqb var v) eqn:E.
  - apply seqb_eq in E. subst v. cbn [orb]. rewrite seqb_refl in D. assert (DV := eq_refl (d var)). destruct (d var) as [[|c x]|] in D, IH, DV |- *.
    + rewrite app_nil_l, IH. destruct (mem_str var vars); reflexivity.
    + rewrite (D c x eq_refl), IH. destruct (mem_str var vars); reflexivity.
    + rewrite app_nil_l, IH. destruct (mem_str var vars); reflexivity.
  - cbn [orb]. destruct (d v) as [[|c x]|] eqn:DV; [rewrite app_nil_l; apply IH| |rewrite app_nil_l; apply IH]. rewrite (D c x eq_refl), seqb_sym, E. apply IH.
Qed.
(** wic reads the variables of WICVARS as they are in bitbake, without the blanks around; all others it does not know *)
Theorem wicenv_read d wicvars var :
  (forall v, has_word wicvars v -> Forall wic_name_char v /\ forall x, d v = Some x -> one_line (strip x) /\ unquoted (strip x)) ->
  forall r, wic_var (env_text d wicvars) var = Some r <-> exists x, has_word wicvars var /\ d var = Some x /\ x <> [] /\ r = strip x.
Proof.
  intros H r. assert (RL : wic_var (env_text d wicvars) var = if mem_str var (split_ws wicvars) then match d var with Some (c :: x) => Some (strip (c :: x)) | _ => None end else None); [|rewrite RL].
  { apply (read_lines d var (split_ws wicvars) None). apply Forall_forall; intros v I; split; [pose proof (split_ws_words wicvars) as W; rewrite Forall_forall in W; exact (proj1 (W v I))|]; apply has_word_iff in I; destruct (H v I) as [HK HV]; split; [eapply Forall_impl; [|exact HK]; intros c C; now apply key_iff|exact HV]. }
  setoid_rewrite <- has_word_iff. destruct (mem_str var (split_ws wicvars)) eqn:M.
  - apply mem_str_In in M. destruct (d var) as [[|c x]|]; split; intro E.
    + discriminate.
    + destruct E as (x & _ & X & N & _). injection X as <-. contradiction.
    + injection E as <-. exists (c :: x). repeat split; auto. discriminate.
    + destruct E as (y & _ & X & _ & ->). injection X as <-. reflexivity.
    + discriminate.
    + destruct E as (y & _ & X & _). discriminate.
  - split; [discriminate|]. intros (x & I & _). apply mem_str_In in I. congruence.
Qed.
Definition env_example (n : str) : option str := if seqb n (s_ "IMAGE_ROOTFS") then Some (s_ "/build/rootfs") else if seqb n (s_ "APPEND") then Some (s_ " console=""tty0"" quiet ") else None.
Example wicenv_read_met : wic_var (env_text env_example (s_ "IMAGE_ROOTFS APPEND MACHINE")) (s_ "APPEND") = Some (s_ "console=""tty0"" quiet").
Proof. reflexivity. Qed.
Example wicenv_read_hyp v : has_word (s_ "IMAGE_ROOTFS APPEND MACHINE") v -> Forall wic_name_char v /\ forall x, env_example v = Some x -> one_line (strip x) /\ unquoted (strip x).
Proof.
  intro W. apply has_word_iff in W. assert (Q : forall x, unquoted x <-> (forall r, x <> quote :: r) /\ (forall r, rev x <> quote :: r)).
  { intro x. split; intros [A B]; (split; [exact A|]); intros r E; [apply (B (rev r))|apply (B (rev r))]; [rewrite <- (rev_involutive x), E; reflexivity|rewrite E, rev_app_distr; reflexivity]. }
  cbn in W. do 3 (destruct W as [<-|W]; [split; [apply Forall_forall; intros c J; apply key_iff; cbn in J; repeat (destruct J as [<-|J]; [reflexivity|]); destruct J|intros x E; vm_compute in E; first [discriminate|injection E as <-; split; [intro I; vm_compute in I; intuition discriminate|apply Q; split; intros r R; vm_compute in R; discriminate]]]|]). destruct W.
Qed.

(** Refuted: that wic reads every value as it is.  Of more than one line it reads the first; another line may even set another variable *)
Theorem wicenv_lines_refuted :
  let d := fun n => if seqb n (s_ "A") then Some (s_ "one" ++ [newline] ++ s_ "B=two") else if seqb n (s_ "B") then Some (s_ "three") else None in
  wic_var (env_text d (s_ "A B")) (s_ "A") = Some (s_ "one") /\ wic_var (env_text d (s_ "B A")) (s_ "B") = Some (s_ "two").
Proof. split; reflexivity. Qed.
(** Refuted: a quote at the end of a value is lost *)
Theorem wicenv_quote_refuted :
  let d := fun n => if seqb n (s_ "APPEND") then Some (s_ "init=""/bin/sh""") else None in
  wic_var (env_text d (s_ "APPEND")) (s_ "APPEND") = Some (s_ "init=""/bin/sh").
Proof. reflexivity. Qed.

Print Assumptions template_filled.
Print Assumptions template_reference.
Print Assumptions template_copied.
Print Assumptions template_no_variables.
Print Assumptions template_environment_refuted.
Print Assumptions wks_names_found.
Print Assumptions wks_replaced.
Print Assumptions wks_plain_refuted.
Print Assumptions wks_found_first.
Print Assumptions wicenv_read.
Print Assumptions wicenv_lines_refuted.
Print Assumptions wicenv_quote_refuted.
