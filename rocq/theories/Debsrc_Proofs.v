(** Lemmas for the claims on sources of Debian packages. *)
From Coq Require Import Ascii String List Bool Arith Lia.
From Verif Require Import Str_Model Str_Proofs Posix_Model Posix_Proofs Path_Model Path_Proofs Rootfiles_Model Rootfiles_Proofs Changelog_Model Debsrc_Model Debsrc_Spec.
Import ListNotations.
Open Scope list_scope.

(** ** Fragments *)
Lemma chosen_shape : forall l : str, (let e := extension (Rootfiles_Model.base l) in negb (seqb e []) && contains_sub e (s_ ".cfg")) = true -> exists n e, l = n ++ e /\ In e [s_ "."; s_ ".c"; s_ ".cf"; s_ ".cfg"].
Proof.
  intros l E. cbv zeta in E. apply andb_true_iff in E. destruct E as [N C]. unfold extension in *.
  destruct (last_dot (drop_lead (Rootfiles_Model.base l))) as [e|] eqn:L; [|discriminate N]. destruct (last_dot_shape _ _ L) as (a & b & LE & ->). destruct (drop_lead_end (Rootfiles_Model.base l)) as [a1 E1]. destruct (after_slash_end l []) as [a2 E2]. cbn [app] in E2. fold (Rootfiles_Model.base l) in E2.
  exists (a2 ++ a1 ++ a), ("."%char :: b). split; [rewrite E2 at 1; rewrite E1, LE, <- !app_assoc; reflexivity|]. clear L N LE E1 E2.
  apply contains_sub_iff in C. destruct C as (x & y & C). destruct x as [|x0 x].
  - change (s_ ".cfg") with ["."; "c"; "f"; "g"]%char in C. cbn [app] in C. injection C as C.
    destruct b as [|b1 b]; [left; reflexivity|]. cbn [app] in C. injection C as <- C. destruct b as [|b2 b]; [right; left; reflexivity|]. cbn [app] in C. injection C as <- C.
    destruct b as [|b3 b]; [right; right; left; reflexivity|]. cbn [app] in C. injection C as <- C. destruct b; [|discriminate C]. right; right; right; left. reflexivity.
  - exfalso. change (s_ ".cfg") with ("."%char :: s_ "cfg") in C. cbn [app] in C. injection C as _ C. assert (J : In "."%char (x ++ "."%char :: b ++ y)) by (apply in_or_app; right; left; reflexivity). unfold str in *. rewrite <- C in J. cbn in J. intuition discriminate.
Qed.
Lemma chosen_cfg : forall d n, ~ In "/"%char n -> (exists c, In c n /\ c <> "."%char) -> forall l, l = n ++ s_ ".cfg" \/ l = d ++ "/"%char :: n ++ s_ ".cfg" ->
  (let e := extension (Rootfiles_Model.base l) in negb (seqb e []) && contains_sub e (s_ ".cfg")) = true.
Proof.
  intros d n S C l H. assert (B : Rootfiles_Model.base l = n ++ s_ ".cfg").
  { assert (NS : ~ In "/"%char (n ++ s_ ".cfg")) by (intro J; apply in_app_or in J; destruct J as [J|J]; [exact (S J)|cbn in J; intuition discriminate]).
    unfold Rootfiles_Model.base. destruct H as [->| ->]; [rewrite after_slash_none by exact NS; reflexivity|apply after_slash_dir, NS]. }
  rewrite B. unfold extension. destruct (drop_lead_app n (s_ ".cfg") C) as [m ->]. assert (L : last_dot (m ++ s_ ".cfg") = Some (s_ ".cfg")) by (apply (last_dot_app m (s_ "cfg")); cbn; intuition discriminate). rewrite L. reflexivity.
Qed.
Definition looks (S f : str) : str := if startswith (S ++ s_ "/") f then skipn (length S + 1) f else s_ "debian/fragments/" ++ f.
Lemma looks_for : forall S f, looked_for S f (looks S f).
Proof.
  intros S f. unfold looks. destruct (startswith (S ++ s_ "/") f) eqn:E.
  - apply startswith_iff in E. destruct E as [x ->]. rewrite <- app_assoc. replace (skipn (length S + 1) (S ++ s_ "/" ++ x)) with x; [constructor|].
    rewrite app_assoc. replace (length S + 1) with (length (S ++ s_ "/")) by (rewrite app_length; reflexivity). rewrite skipn_app, skipn_all, Nat.sub_diag. reflexivity.
  - constructor. intros [x ->]. rewrite app_assoc, startswith_app in E. discriminate E.
Qed.
Lemma looks_one : forall S f w, looked_for S f w -> w = looks S f.
Proof.
  intros S f w H. pose proof (looks_for S f) as L. destruct H as [x|f N].
  - remember (S ++ s_ "/" ++ x) as g. destruct L as [y|g N]; [|exfalso; apply N; exists x; exact Heqg]. apply app_inv_head in Heqg. apply app_inv_head in Heqg. symmetry. exact Heqg.
  - destruct L as [y|g _]; [exfalso; apply N; exists y; reflexivity|reflexivity].
Qed.
Lemma a_word_word : forall w, a_word w -> word w.
Proof. intros w [N H]. split; [exact N|]. apply Forall_forall. exact H. Qed.
Lemma looks_word : forall S f, a_word f -> f <> S ++ s_ "/" -> word (looks S f).
Proof.
  intros S f [N H] D. pose proof (looks_for S f) as L. remember (looks S f) as w. clear Heqw. destruct L as [x|f _].
  - split; [intros ->; apply D; rewrite app_nil_r; reflexivity|]. apply Forall_forall. intros c I. apply H. apply in_or_app. right. apply in_or_app. right. exact I.
  - split; [discriminate|]. apply Forall_forall. intros c I. apply in_app_or in I. destruct I as [I|I]; [cbn in I; repeat (destruct I as [<-|I]; [reflexivity|]); contradiction|apply H, I].
Qed.
Lemma split_ws_lstrip : forall s, split_ws (lstrip s) = split_ws s.
Proof. induction s as [|c s IH]; [reflexivity|]. cbn [lstrip]. destruct (is_space c) eqn:E; [rewrite IH; symmetry; apply split_ws_space, E|reflexivity]. Qed.
Lemma split_ws_spaces : forall s, Forall (fun c => is_space c = true) s -> split_ws s = [].
Proof. induction s as [|c s IH]; intro F; [reflexivity|]. inversion F; subst. rewrite split_ws_space by assumption. apply IH. assumption. Qed.
Lemma split_ws_rstrip : forall s, split_ws (rstrip s) = split_ws s.
Proof.
  intro s. destruct (rstrip_spec s) as (b & E & F & _). destruct b as [|c b]; [rewrite app_nil_r in E; rewrite <- E; reflexivity|]. inversion F; subst.
  rewrite E at 2. rewrite split_ws_app by assumption. rewrite (split_ws_spaces b) by assumption. rewrite app_nil_r. reflexivity.
Qed.
Lemma split_ws_strip : forall s, split_ws (strip s) = split_ws s.
Proof. intro s. unfold strip. rewrite split_ws_rstrip. apply split_ws_lstrip. Qed.
Lemma flat_words : forall ws, Forall word ws -> split_ws (flat_map (fun w => s_ " " ++ w) ws) = ws.
Proof.
  intros ws F. induction F as [|w ws W F IH]; [reflexivity|]. cbn [flat_map]. change ((s_ " " ++ w) ++ flat_map (fun w => s_ " " ++ w) ws) with (" "%char :: (w ++ flat_map (fun w => s_ " " ++ w) ws)).
  rewrite split_ws_space by reflexivity. destruct ws as [|v ws]; [cbn [flat_map]; rewrite app_nil_r; apply split_ws_single, W|].
  cbn [flat_map] in *. change ((s_ " " ++ v) ++ flat_map (fun w => s_ " " ++ w) ws) with (" "%char :: (v ++ flat_map (fun w => s_ " " ++ w) ws)) in *. rewrite split_ws_word by (assumption || reflexivity). f_equal.
  rewrite split_ws_space in IH by reflexivity. exact IH.
Qed.
Lemma frag_text : forall S frags, get_kernel_config_fragments S frags = strip (flat_map (fun w => s_ " " ++ w) (map (looks S) frags)).
Proof. intros S frags. unfold get_kernel_config_fragments. f_equal. induction frags as [|f frags IH]; [reflexivity|]. cbn [map flat_map]. rewrite IH. reflexivity. Qed.
Lemma copy_spec : forall S frags work src out, copy_fragments S frags work src = Some out ->
  (forall f, In f frags -> startswith S f = false -> out (s_ "debian/fragments/" ++ f) = work f /\ work f <> None) /\
  forall p, (forall f, In f frags -> startswith S f = false -> p <> s_ "debian/fragments/" ++ f) -> out p = src p.
Proof.
  intros S. induction frags as [|f frags IH]; intros work src out H; [injection H as <-; split; [intros f []|reflexivity]|]. cbn [copy_fragments] in H. destruct (startswith S f) eqn:B.
  - destruct (IH _ _ _ H) as [A C]. split; [intros g [->|I] N; [congruence|exact (A g I N)]|]. intros p N. apply C. intros g I. apply N. right. exact I.
  - destruct (work f) as [v|] eqn:W; [|discriminate H]. destruct (IH _ _ _ H) as [A C]. split.
    + intros g [->|I] N; [|exact (A g I N)]. destruct (in_dec str_eq_dec g frags) as [I|NI]; [exact (A g I N)|]. split; [|congruence]. rewrite C.
      * unfold write. rewrite seqb_refl. symmetry. exact W.
      * intros k I _ E. apply app_inv_head in E. subst k. contradiction.
    + intros p N. rewrite C by (intros g I; apply N; right; exact I). unfold write. destruct (seqb p (s_ "debian/fragments/" ++ f)) eqn:E; [|reflexivity]. apply seqb_eq in E. exfalso. exact (N f (or_introl eq_refl) B E).
Qed.

(** ** The directory of the sources *)
Lemma plain_named : forall cs, Forall plain cs -> Forall named cs.
Proof.
  intros cs F. eapply Forall_impl; [|exact F]. intros c (N & S & D & DD). split; [|split; [exact D|exact DD]]. split; [exact N|]. apply no_char_In. exact S.
Qed.
Lemma common_prefix : forall w r, common (w ++ r) w = w.
Proof. induction w as [|c w IH]; intro r; [destruct r; reflexivity|]. cbn. rewrite seqb_refl, IH. reflexivity. Qed.
Lemma common_full : forall s w, common s w = w -> exists r, s = w ++ r.
Proof.
  induction s as [|c s IH]; intros [|d w] H; cbn in H; try discriminate H.
  - exists []. reflexivity.
  - exists (c :: s). reflexivity.
  - destruct (seqb c d) eqn:E; [|discriminate H]. apply seqb_eq in E. injection H as _ H. destruct (IH w H) as [r ->]. exists r. rewrite E. reflexivity.
Qed.
Lemma common_In : forall s w c, In c (common s w) -> In c w.
Proof. induction s as [|c s IH]; intros [|d w] x I; cbn in I; try contradiction. destruct (seqb c d) eqn:E; [|destruct I]. apply seqb_eq in E. destruct I as [<-|I]; [left; congruence|right; exact (IH _ _ I)]. Qed.
Lemma comps_norm : forall p, initial_slashes p = 1 -> components (normpath p) = norm_comps p.
Proof. exact nonempty_norm. Qed.
Lemma joined : forall cs, cs <> [] -> slash :: join [slash] cs = ptail cs.
Proof.
  induction cs as [|c cs IH]; intro N; [congruence|]. destruct cs as [|d cs]; [cbn; rewrite app_nil_r; reflexivity|]. cbn [ptail flat_map] in *. rewrite join_cons by discriminate. f_equal. f_equal. rewrite <- IH by discriminate. reflexivity.
Qed.
Lemma common_path : forall s w, initial_slashes s = 1 -> initial_slashes w = 1 -> norm_comps w <> [] ->
  (commonpath (normpath s) (normpath w) = normpath w <-> exists r, norm_comps s = norm_comps w ++ r).
Proof.
  intros s w Is Iw N. unfold commonpath. rewrite !comps_norm by assumption. rewrite (normpath_one w Iw). destruct (norm_comps_ok w) as (Fw & _). destruct (norm_comps_ok s) as (Fs & _). split.
  - intro E. injection E as E. apply common_full. set (c := common (norm_comps s) (norm_comps w)) in *.
    assert (NC : c <> []) by (intros Z; rewrite Z in E; destruct (norm_comps w) as [|x [|y l]]; [congruence| |]; [inversion Fw as [|? ? [X _]]; subst; apply X; cbn in E; symmetry; exact E|rewrite join_cons in E by discriminate; inversion Fw as [|? ? [X _]]; subst; destruct x; [congruence|discriminate E]]).
    assert (Fc : Forall comp c) by (apply Forall_forall; intros x I; rewrite Forall_forall in Fw; apply Fw; exact (common_In _ _ _ I)).
    apply (ptail_inj c (norm_comps w) Fc Fw). rewrite <- (joined c NC), <- (joined _ N). f_equal. exact E.
  - intros [r E]. rewrite E, common_prefix. reflexivity.
Qed.

(** ** Control files *)
Lemma lines_step : forall l t, one_line l -> split_on nl (put_line l ++ t) = l :: split_on nl t.
Proof. intros l t O. unfold put_line. rewrite <- app_assoc. cbn [app]. apply split_on_cons, no_char_In, O. Qed.
Lemma strip_space : forall v, strip (" "%char :: v) = strip v.
Proof. reflexivity. Qed.
(** [n] is a field name *)
Definition field_name (n : str) : Prop := ~ In ":"%char n /\ exists c m, n = c :: m /\ is_space c = false.
Lemma read_field : forall n v ls cur, field_name n -> read ((n ++ s_ ": " ++ v) :: ls) cur = read ls ((n, strip v) :: cur).
Proof.
  intros n v ls cur (S & c & m & -> & C). cbn [read app]. assert (B : blank (c :: m ++ s_ ": " ++ v) = false) by (unfold blank; cbn [forallb]; rewrite C; reflexivity). rewrite B, C.
  change (c :: m ++ s_ ": " ++ v) with ((c :: m) ++ ":"%char :: " "%char :: v). rewrite cut_at_some by (apply no_char_In; exact S). rewrite strip_space. reflexivity.
Qed.
Lemma join_one_line : forall l, (forall e, In e l -> one_line e) -> one_line (join (s_ ", ") l).
Proof.
  induction l as [|e l IH]; intros H; [intros []|]. destruct l as [|d l]; [apply H; left; reflexivity|]. rewrite join_cons by discriminate. intro I. apply in_app_or in I. destruct I as [I|I]; [exact (H e (or_introl eq_refl) I)|].
  apply in_app_or in I. destruct I as [I|I]; [cbn in I; intuition discriminate|]. exact (IH (fun x J => H x (or_intror J)) I).
Qed.
Lemma tidy_line : forall v, list_of_lines v -> one_line (tidy v).
Proof. intros v H. apply join_one_line. intros e I. apply filter_In in I. destruct I as [I _]. apply in_map_iff in I. destruct I as (x & <- & I). exact (H x I). Qed.
Lemma beautify_tidy : forall v, beautify v = tidy v.
Proof. reflexivity. Qed.
Lemma field_line : forall n v, one_line n -> one_line v -> one_line (n ++ v).
Proof. intros n v N V I. apply in_app_or in I. destruct I as [I|I]; [exact (N I)|exact (V I)]. Qed.

(** ** The debian directory *)
Lemma place_same : forall n e d, place_file n e d n = Some e.
Proof. intros n e d. unfold place_file. rewrite seqb_refl. reflexivity. Qed.
Lemma place_other : forall n e d m, m <> n -> place_file n e d m = d m.
Proof. intros n e d m N. unfold place_file. destruct (seqb m n) eqn:E; [apply seqb_eq in E; congruence|reflexivity]. Qed.
(** several files installed under their own names *)
Lemma installs : forall (x : bool) (name : str -> str) (w : Rootfiles_Model.fs) l d n,
  fold_left (fun d f => install (name f) (name f) x w d) l d n = if existsb (fun f => seqb n (name f)) l then match w n with Some c => Some (c, x) | None => d n end else d n.
Proof.
  intros x name w. induction l as [|f l IH]; intros d n; [reflexivity|]. cbn [fold_left existsb]. rewrite IH. unfold install. destruct (seqb n (name f)) eqn:E.
  - apply seqb_eq in E. subst n. cbn [orb]. destruct (w (name f)) as [c|] eqn:W; [rewrite place_same; destruct (existsb _ l); reflexivity|destruct (existsb _ l); reflexivity].
  - cbn [orb]. assert (NE : n <> name f) by (intros ->; rewrite seqb_refl in E; discriminate E). destruct (w (name f)) as [c|]; [rewrite !place_other by exact NE|]; reflexivity.
Qed.
