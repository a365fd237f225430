(** Lemmas on edits of bblayers.conf. *)
From Coq Require Import Ascii String List Bool Arith Lia.
From Verif Require Import Str_Model Str_Proofs Data_Model Parse_Model Parse_Spec Parse_Proofs Parse_Props Sigbase_Proofs Layerconf_Model Layerconf_Spec.
Import ListNotations.
Open Scope list_scope.

Definition put (l : str) : str := l ++ [nl].
Definition lines_of (ps : list part) : list str := concat (map (fun p => item_lines (part_item p)) ps).

(** ** Texts and lines *)
Lemma ends_in_snoc c s : ends_in c (s ++ [c]) = true.
Proof. unfold ends_in. rewrite rev_app_distr. cbn. apply aeqb_refl. Qed.
Lemma ends_in_no c s : ~ In c s -> ends_in c s = false.
Proof.
  intro N. unfold ends_in. destruct (rev s) as [|x r] eqn:E; [reflexivity|]. cbn. destruct (aeqb x c) eqn:F; [|reflexivity]. apply aeqb_eq in F. subst x. exfalso. apply N. apply in_rev. rewrite E. left. reflexivity.
Qed.
Lemma ends_in_other c d s : d <> c -> ends_in c (s ++ [d]) = false.
Proof. intro N. unfold ends_in. rewrite rev_app_distr. cbn. apply aeqb_neq. exact N. Qed.
Lemma keep_line l : ~ In nl l -> forall cur t, keep_ends cur (l ++ nl :: t) = (cur ++ l ++ [nl]) :: keep_ends [] t.
Proof.
  induction l as [|c l IH]; intros N cur t; cbn.
  - reflexivity.
  - assert (c <> nl) by (intros ->; apply N; left; reflexivity). apply aeqb_neq in H. rewrite H. rewrite IH by (intro I; apply N; right; exact I). rewrite <- app_assoc. reflexivity.
Qed.
Lemma readlines_put ls : Forall (fun l => ~ In nl l) ls -> readlines (concat (map put ls)) = map put ls.
Proof. unfold readlines. induction 1 as [|l ls N F IH]; [reflexivity|]. cbn [map concat]. unfold put at 1. rewrite <- app_assoc. cbn [app]. rewrite (keep_line l N []), IH. reflexivity. Qed.
Lemma text_lines_put ls : Forall (fun l => ~ In nl l) ls -> text_lines (concat (map put ls)) = ls.
Proof.
  intro F. assert (S : split_on nl (concat (map put ls)) = ls ++ [[]]).
  { induction F as [|l ls N F IH]; [reflexivity|]. cbn [map concat]. unfold put at 1. rewrite <- app_assoc. cbn [app]. rewrite split_on_cons, IH by (apply no_char_In; exact N). reflexivity. }
  unfold text_lines. rewrite S, rev_app_distr. cbn [rev app]. apply rev_involutive.
Qed.
Lemma good_lines ps : Forall good_part ps -> Forall (fun l => ~ In nl l) (lines_of ps).
Proof. intro F. apply Forall_forall. intros l I. unfold lines_of in I. apply in_concat in I. destruct I as (ls & I & J). apply in_map_iff in I. destruct I as (p & <- & I). rewrite Forall_forall in F. destruct (F p I) as (_ & N & _). exact (N l J). Qed.
Lemma file_lines ps : file_of ps = concat (map put (lines_of ps)).
Proof. reflexivity. Qed.
Lemma rstrip_put l : rstrip (put l) = rstrip l.
Proof. apply rstrip_spaces. repeat constructor. Qed.

(** ** One setting *)
Definition s_start (s : setting) : str := s_ "BBLAYERS" ++ repeat " "%char (s_before s) ++ op_text (s_op s).
Lemma head_start s : s_head s = s_start s ++ repeat " "%char (s_after s) ++ [s_quote s].
Proof. unfold s_head, s_start. rewrite <- !app_assoc. reflexivity. Qed.
Lemma spaces_repeat n : spaces (repeat " "%char n).
Proof. induction n; constructor; [reflexivity|assumption]. Qed.
Lemma op_last o : exists a c, op_text o = a ++ [c] /\ is_space c = false.
Proof. destruct o; [exists [], "="%char|exists (s_ ":"), "="%char|exists (s_ "??"), "="%char|exists (s_ "?"), "="%char|exists (s_ "+"), "="%char|exists (s_ "="), "+"%char|exists (s_ "."), "="%char|exists (s_ "="), "."%char]; split; reflexivity. Qed.
Lemma rstrip_start s n : rstrip (s_start s ++ repeat " "%char n) = s_start s.
Proof. rewrite rstrip_spaces by apply spaces_repeat. unfold s_start. destruct (op_last (s_op s)) as (a & c & -> & E). rewrite !app_assoc. apply rstrip_snoc, E. Qed.
Lemma strip_op s : strip (skipn (length (s_ "BBLAYERS")) (s_start s)) = op_text (s_op s).
Proof.
  unfold s_start. rewrite skipn_app, skipn_all, Nat.sub_diag. cbn [skipn app]. unfold strip. destruct (op_last (s_op s)) as (a & c & E & X).
  assert (Z : rstrip (op_text (s_op s)) = op_text (s_op s)) by (rewrite E; apply rstrip_snoc, X).
  rewrite lstrip_app; [exact Z|apply spaces_repeat|]. destruct (s_op s); reflexivity.
Qed.
Lemma span_repeat p n r : p " "%char = true -> match r with c :: _ => p c = false | [] => True end -> snd (span p (repeat " "%char n ++ r)) = r.
Proof. intros A B. rewrite span_app; [reflexivity| |exact B]. induction n; constructor; assumption. Qed.
Lemma match_head s t : quote_mark (s_quote s) -> var_match (s_ "BBLAYERS") (s_head s ++ t) = Some (s_quote s).
Proof.
  intro Q. unfold var_match, s_head. rewrite <- !app_assoc. rewrite strip_prefix_app. rewrite span_repeat; [|reflexivity|destruct (s_op s); reflexivity].
  assert (QS : re_space (s_quote s) = false /\ re_after (s_quote s) = false /\ is_quote (s_quote s) = true) by (destruct Q as [-> | ->]; repeat split; reflexivity). destruct QS as (Q1 & Q2 & Q3).
  assert (R : forall r, snd (span re_before (op_text (s_op s) ++ r)) = match s_op s with OPrepend => s_ "=+" ++ r | OPredot => s_ "=." ++ r | _ => s_ "=" ++ r end) by (intro r; destruct (s_op s); reflexivity).
  rewrite R. set (u := repeat " "%char (s_after s) ++ [s_quote s] ++ t).
  assert (U : snd (span re_after u) = u).
  { assert (H : match u with c :: _ => re_after c = false | [] => True end) by (subst u; destruct (s_after s); cbn; [exact Q2|reflexivity]). pose proof (span_app re_after [] u (Forall_nil _) H) as E. cbn [app] in E. rewrite E. reflexivity. }
  assert (V : snd (span re_space u) = s_quote s :: t) by (subst u; apply span_repeat; [reflexivity|exact Q1]).
  assert (W : forall x, re_after x = true -> snd (span re_after (x :: u)) = u) by (intros x X; cbn [span]; rewrite X; destruct (span re_after u); exact U).
  destruct (s_op s); cbn [app s_ list_ascii_of_string]; rewrite ?(aeqb_refl "="%char); rewrite ?W by reflexivity; rewrite ?U, V, Q3; reflexivity.
Qed.
Lemma head_no_quote s : quote_mark (s_quote s) -> no_char (s_quote s) (s_start s ++ repeat " "%char (s_after s)).
Proof.
  intro Q. apply no_char_In. intro I. unfold s_start in I. rewrite <- !app_assoc in I. assert (X : ~ In (s_quote s) (s_ "BBLAYERS ?+:.=")) by (destruct Q as [-> | ->]; cbn; intuition discriminate). apply X.
  assert (R : forall n, In (s_quote s) (repeat " "%char n) -> In (s_quote s) (s_ "BBLAYERS ?+:.=")) by (intros n J; apply repeat_spec in J; rewrite J; cbn; tauto).
  apply in_app_or in I. destruct I as [I|I]; [cbn in I |- *; tauto|]. apply in_app_or in I. destruct I as [I|I]; [exact (R _ I)|]. apply in_app_or in I. destruct I as [I|I]; [|exact (R _ I)].
  destruct (s_op s); cbn in I |- *; tauto.
Qed.
Lemma cut_head s t : quote_mark (s_quote s) -> cut_at (s_quote s) (s_head s ++ t) = (s_start s ++ repeat " "%char (s_after s), Some t).
Proof. intro Q. rewrite head_start. replace ((s_start s ++ repeat " "%char (s_after s) ++ [s_quote s]) ++ t) with ((s_start s ++ repeat " "%char (s_after s)) ++ s_quote s :: t) by (rewrite <- !app_assoc; reflexivity). apply cut_at_some, head_no_quote, Q. Qed.
Section Run.
  Variable C : Type.
  Variable varfunc : C -> str -> str -> C * verdict.
  Notation step := (edit_line (s_ "BBLAYERS") C varfunc).
  Lemma rest_lines q ps f tail : quote_mark q -> Forall (fun p : str * str => spaces (snd p)) ps -> spaces tail -> (forall x, In x (concat (map fst ps) ++ f) -> x <> q) -> forall e start full ls,
    fold_left step (map put (map (fun p => fst p ++ "\"%char :: snd p) ps ++ [(f ++ [q]) ++ tail])) (mkEditing C (e_updated C e) (e_check C e) (e_out C e) (Some (start, q, full, ls)) (e_cb C e)) =
    handle_var_end (s_ "BBLAYERS") C varfunc e start (full ++ concat (map fst ps) ++ f) (ls ++ map put (map (fun p => fst p ++ "\"%char :: snd p) ps ++ [(f ++ [q]) ++ tail])).
  Proof.
    intros Q F T. induction F as [|[p w] ps W F IH]; intros N e start full ls.
    - cbn [map concat app fold_left]. unfold edit_line. cbn [e_open]. rewrite rstrip_put, rstrip_spaces by exact T. assert (QS : is_space q = false) by (destruct Q as [-> | ->]; reflexivity). rewrite rstrip_snoc by exact QS. rewrite removelast_snoc, ends_in_snoc. unfold handle_var_end. cbn [e_cb e_out e_updated e_check]. reflexivity.
    - cbn [map concat app fold_left]. unfold edit_line at 2. cbn [e_open]. rewrite rstrip_put. cbn [fst snd]. rewrite rstrip_bs by exact W. rewrite removelast_snoc. rewrite ends_in_other by (destruct Q as [-> | ->]; discriminate). cbn [e_updated e_check e_out e_cb].
      rewrite IH by (intros x I; apply N; cbn [map concat fst]; rewrite <- app_assoc; apply in_or_app; right; exact I). rewrite <- !app_assoc. reflexivity.
  Qed.
  Lemma setting_run s e : good_part (Setting s) -> e_open C e = None ->
    fold_left step (map put (item_lines (s_item s))) e = handle_var_end (s_ "BBLAYERS") C varfunc e (s_start s) (s_value s) (map put (item_lines (s_item s))).
  Proof.
    intros (P & _ & Q & M & _) O. assert (N : forall x, In x (s_value s) -> x <> s_quote s) by (intros x I ->; exact (M _ Q I)). unfold s_item, s_value in *. cbn [part_item] in P. unfold s_item in P. destruct (s_pieces s) as [|[p w] ps] eqn:PS.
    - cbn [item_lines map concat app]. cbn [fold_left]. cbn [map concat app] in N. cbn in P. destruct P as (_ & _ & T & _). unfold edit_line. rewrite O. unfold put. rewrite <- !app_assoc. rewrite match_head by exact Q. rewrite cut_head by exact Q. rewrite rstrip_start.
      replace (s_final s ++ [s_quote s] ++ s_tail s ++ [nl]) with (put ((s_final s ++ [s_quote s]) ++ s_tail s)) by (unfold put; rewrite <- !app_assoc; reflexivity). rewrite rstrip_put, rstrip_spaces by exact T.
      assert (QS : is_space (s_quote s) = false) by (destruct Q as [-> | ->]; reflexivity). rewrite rstrip_snoc by exact QS. rewrite (ends_in_other backslash (s_quote s)) by (destruct Q as [-> | ->]; discriminate). rewrite ends_in_snoc, removelast_snoc. reflexivity.
    - cbn [item_lines map concat app fst snd]. cbn [map concat app fst] in N. cbn in P. destruct P as (F & _ & T & _). inversion F as [|? ? (_ & _ & W) F']; subst. cbn [fst snd] in W. cbn [fold_left].
      assert (L : put ((s_head s ++ p) ++ "\"%char :: w) = s_head s ++ put (p ++ "\"%char :: w)) by (unfold put; rewrite <- !app_assoc; reflexivity). rewrite !L.
      unfold edit_line at 2. rewrite O. rewrite match_head by exact Q. rewrite cut_head by exact Q. rewrite rstrip_start. rewrite rstrip_put, rstrip_bs by exact W. change backslash with "\"%char. rewrite ends_in_snoc, removelast_snoc. rewrite ends_in_no by (intro I; apply (N (s_quote s)); [apply in_or_app; left; apply in_or_app; left; exact I|reflexivity]).
      rewrite rest_lines; [|exact Q|apply Forall_forall; intros x I; rewrite Forall_forall in F'; apply (F' x I)|exact T|intros x I; apply N; rewrite <- app_assoc; apply in_or_app; right; exact I].
      rewrite <- !app_assoc. cbn [app]. reflexivity.
  Qed.
  Lemma no_match l : (forall r, l <> s_ "BBLAYERS" ++ r) -> var_match (s_ "BBLAYERS") (put l) = None.
  Proof.
    intro N. unfold var_match. destruct (strip_prefix (s_ "BBLAYERS") (put l)) as [r|] eqn:E; [|reflexivity]. apply strip_prefix_iff in E. exfalso. unfold put in E. destruct r as [|x r _] using rev_ind.
    - rewrite app_nil_r in E. apply (f_equal (@rev ascii)) in E. rewrite rev_app_distr in E. discriminate E.
    - rewrite app_assoc in E. apply app_inj_tail in E. destruct E as [E _]. exact (N r E).
  Qed.
  Lemma plain_lines ls : (forall l r, In l ls -> l <> s_ "BBLAYERS" ++ r) -> forall e, e_open C e = None -> e_check C e = false ->
    fold_left step (map put ls) e = mkEditing C (e_updated C e) false (e_out C e ++ map put ls) None (e_cb C e).
  Proof.
    induction ls as [|l ls IH]; intros N e O K.
    - cbn. rewrite app_nil_r. destruct e; cbn in *. subst. reflexivity.
    - cbn [map fold_left]. unfold edit_line at 2. rewrite O, no_match, K by (intro r; apply N; left; reflexivity). cbn [andb]. rewrite IH by (intros; first [reflexivity|apply N; right; assumption]). cbn [e_updated e_out e_cb]. rewrite <- app_assoc. reflexivity.
  Qed.
  Lemma item_first i : proper i -> exists l ls, item_lines i = l :: ls /\ (l = [] -> i = Blank []).
  Proof.
    destruct i as [w|more final|more final w]; cbn.
    - intros _. exists w, []. split; [reflexivity|]. intros ->. reflexivity.
    - intros _. destruct more as [|p more]; cbn; eexists; eexists; (split; [reflexivity|discriminate]).
    - intros (F & _ & _ & _ & N & _). destruct more as [|p more]; cbn.
      + eexists; eexists. split; [reflexivity|]. intro E. apply app_eq_nil in E. destruct E as [-> ->]. exfalso. apply N. reflexivity.
      + eexists; eexists. split; [reflexivity|]. intro E. inversion F as [|? ? (X & _) _]; subst. apply app_eq_nil in E. destruct E as [E _]. contradiction.
  Qed.
  Lemma other_run i e : good_part (Other i) -> e_open C e = None -> exists keep : bool, (keep = false -> i = Blank [] /\ e_check C e = true) /\
    fold_left step (map put (item_lines i)) e = mkEditing C (e_updated C e) false (e_out C e ++ if keep then map put (item_lines i) else []) None (e_cb C e).
  Proof.
    intros (P & _ & N & _) O. cbn [part_item] in P. destruct (item_first i P) as (l & ls & E & B). rewrite E in N |- *. cbn [map fold_left]. unfold edit_line at 2. rewrite O, no_match by (intro r; apply N; left; reflexivity).
    destruct (e_check C e && seqb (last (e_out C e) []) [nl] && seqb (put l) [nl]) eqn:K.
    - apply andb_true_iff in K. destruct K as [K1 K2]. apply andb_true_iff in K1. destruct K1 as [K1 _]. apply seqb_eq in K2. assert (L : l = []) by (unfold put in K2; destruct l as [|x [|y l]]; [reflexivity| |]; discriminate K2). assert (I := B L). exists false. split; [intros _; split; assumption|].
      subst i. cbn in E. injection E as _ <-. cbn [map fold_left]. rewrite app_nil_r. reflexivity.
    - exists true. split; [discriminate|]. rewrite plain_lines by (intros; first [reflexivity|apply N; right; assumption]). cbn [e_updated e_out e_cb]. rewrite <- app_assoc. reflexivity.
  Qed.

  (** ** The parts of the file afterwards *)
  Definition listed (s : setting) (l : list str) : setting :=
    mkSetting (s_op s) (s_before s) 1 """"%char (match l with [] => [] | _ => (s_ " ", []) :: map (fun i => (s_ "  " ++ i ++ s_ " ", [])) l end) (match l with [] => [] | _ => s_ "  " end) [].
  Lemma render_listed s l : render (s_start s) l = map put (item_lines (s_item (listed s l))).
  Proof.
    unfold render, s_item, listed. cbn [s_pieces s_final s_tail s_quote]. destruct l as [|x l]; cbn [s_pieces]; rewrite ?head_start; cbn [s_after s_quote s_before s_op].
    - cbn [item_lines map app fst snd]. unfold put. rewrite app_nil_r. change (s_start {| s_op := s_op s; s_before := s_before s; s_after := 1; s_quote := """"%char; s_pieces := []; s_final := []; s_tail := [] |}) with (s_start s). rewrite <- !app_assoc. reflexivity.
    - cbn [item_lines map app fst snd]. unfold put at 1. rewrite map_app, !map_map. cbn [map fst snd app]. match goal with |- context [s_start ?z] => change (s_start z) with (s_start s) end. rewrite <- !app_assoc. cbn [app repeat].
      f_equal. f_equal; [unfold put; rewrite <- !app_assoc; reflexivity|]. apply f_equal2; [|reflexivity]. apply map_ext. intro a. unfold put. rewrite <- !app_assoc. reflexivity.
  Qed.
  Fixpoint results (c : C) (ps : list part) : C * list part * bool :=
    match ps with
    | [] => (c, [], false)
    | Other i :: ps => let '(c, r, u) := results c ps in (c, Other i :: r, u)
    | Setting s :: ps =>
        let '(c, d) := varfunc c (s_value s) (op_text (s_op s)) in
        let '(c, r, u) := results c ps in
        match d with Keep => (c, Setting s :: r, u) | Drop => (c, r, true) | List l => (c, Setting (listed s l) :: r, true) end
    end.
  Definition shown (p : part) : bool := match p with Other (Blank []) => false | _ => true end.
  Lemma lines_cons p ps : lines_of (p :: ps) = item_lines (part_item p) ++ lines_of ps.
  Proof. reflexivity. Qed.
  Lemma run ps : Forall good_part ps -> forall e, e_open C e = None -> let '(c, r, u) := results (e_cb C e) ps in exists ps' k,
    fold_left step (map put (lines_of ps)) e = mkEditing C (e_updated C e || u) k (e_out C e ++ map put (lines_of ps')) None c /\
    filter shown ps' = filter shown r /\ incl ps' r /\ (e_check C e = false -> u = false -> ps' = ps).
  Proof.
    induction 1 as [|p ps G F IH]; intros e O.
    - cbn. exists [], (e_check C e). rewrite orb_false_r, app_nil_r. split; [|split; [reflexivity|split; [intros x []|reflexivity]]]. destruct e; cbn in *. subst. reflexivity.
    - destruct p as [i|s]; cbn [results]; rewrite lines_cons, map_app, fold_left_app; cbn [part_item].
      + destruct (other_run i e G O) as (keep & K & ->). specialize (IH (mkEditing C (e_updated C e) false (e_out C e ++ (if keep then map put (item_lines i) else [])) None (e_cb C e)) eq_refl). cbn [e_cb e_updated e_out e_check] in IH. destruct (results (e_cb C e) ps) as [[c r] u].
        destruct IH as (ps' & k & E & Sh & In & Un). cbn [part_item]. destruct keep.
        * exists (Other i :: ps'), k. rewrite E. rewrite lines_cons, map_app, <- app_assoc. split; [reflexivity|]. split; [cbn [filter]; rewrite Sh; reflexivity|]. split; [intros x [<-|I]; [left; reflexivity|right; exact (In x I)]|]. intros _ U. rewrite (Un eq_refl U). reflexivity.
        * destruct (K eq_refl) as [-> K2]. exists ps', k. rewrite E, app_nil_r. split; [reflexivity|]. split; [cbn [filter shown]; exact Sh|]. split; [intros x I; right; exact (In x I)|]. intros K3. congruence.
      + cbn [part_item]. rewrite (setting_run s e G O). unfold handle_var_end. rewrite strip_op. destruct (varfunc (e_cb C e) (s_value s) (op_text (s_op s))) as [c1 d] eqn:V. destruct d as [| |l]; match goal with |- context [fold_left step _ ?e1] => specialize (IH e1 eq_refl) end; cbn [e_cb e_updated e_out e_check] in IH; destruct (results c1 ps) as [[c r] u]; destruct IH as (ps' & k & E & Sh & In & Un); rewrite E.
        * exists (Setting s :: ps'), k. rewrite lines_cons, map_app, <- app_assoc. split; [reflexivity|]. split; [cbn [filter shown]; rewrite Sh; reflexivity|]. split; [intros x [<-|I]; [left; reflexivity|right; exact (In x I)]|]. intros K U. rewrite (Un K U). reflexivity.
        * exists ps', k. rewrite orb_true_r. split; [reflexivity|]. split; [exact Sh|]. split; [exact In|]. intros _ U. discriminate U.
        * exists (Setting (listed s l) :: ps'), k. rewrite lines_cons, map_app, render_listed, <- app_assoc, orb_true_r. split; [reflexivity|]. split; [cbn [filter shown]; rewrite Sh; reflexivity|]. split; [intros x [<-|I]; [left; reflexivity|right; exact (In x I)]|]. intros _ U. discriminate U.
  Qed.
End Run.

(** ** What the parser reads *)
Lemma feed_app a b : feed (a ++ b) = match feed a, feed b with Some x, Some y => Some (x ++ y) | _, _ => None end.
Proof.
  induction a as [|l a IH]; cbn; [destruct (feed b); reflexivity|]. rewrite IH. destruct (feeder l); [|reflexivity]. destruct (feed a); [|reflexivity]. destruct (feed b); reflexivity.
Qed.
Fixpoint feed_parts (ps : list part) : option (list statement) :=
  match ps with [] => Some [] | p :: ps => match feed (item_texts (part_item p)), feed_parts ps with Some a, Some b => Some (a ++ b) | _, _ => None end end.
Lemma good_proper ps : Forall good_part ps -> Forall proper (map part_item ps).
Proof. intro F. apply Forall_forall. intros i I. apply in_map_iff in I. destruct I as (p & <- & I). rewrite Forall_forall in F. apply (F p I). Qed.
Lemma reads_parts ps : Forall good_part ps -> statements (text_lines (file_of ps)) = feed_parts ps.
Proof.
  intro F. rewrite file_lines, text_lines_put by (apply good_lines, F). unfold statements. unfold lines_of. rewrite <- (map_map part_item item_lines). rewrite conf_layout by (apply good_proper, F). clear F.
  induction ps as [|p ps IH]; [reflexivity|]. cbn [map concat]. rewrite feed_app, IH. reflexivity.
Qed.
Lemma feed_shown ps : feed_parts (filter shown ps) = feed_parts ps.
Proof.
  induction ps as [|p ps IH]; [reflexivity|]. cbn [filter]. destruct (shown p) eqn:S; [cbn [feed_parts]; rewrite IH; reflexivity|]. destruct p as [[[|]| |]|]; try discriminate S. cbn. rewrite IH. destruct (feed_parts ps); reflexivity.
Qed.
Definition assign_of (s : setting) : assignment := {| a_exp := false; a_var := s_ "BBLAYERS"; a_flag := None; a_op := s_op s; a_value := s_value s |}.
Lemma setting_text s : item_texts (s_item s) = [s_head s ++ s_value s ++ [s_quote s]].
Proof. unfold s_item, s_value. destruct (s_pieces s) as [|[p w] ps]; cbn; rewrite <- ?app_assoc; reflexivity. Qed.
Lemma setting_feed s : good_part (Setting s) -> feed (item_texts (s_item s)) = Some [Assign (assign_of s)].
Proof.
  intros (_ & _ & Q & M & _). rewrite setting_text. cbn [feed]. rewrite (assignment_first _ (assign_of s)); [reflexivity|]. apply reading_exact.
  - exists [], (repeat " "%char (s_before s)), (repeat " "%char (s_after s)), (s_quote s). split; [unfold s_head; cbn [assign_of a_exp a_var a_flag a_op a_value flag_text app]; rewrite <- !app_assoc; reflexivity|]. split; [constructor|]. split; [apply spaces_repeat|]. split; [apply spaces_repeat|]. split; [discriminate|].
    split; [split; [discriminate|repeat constructor; left; left; reflexivity]|]. split; [exact I|]. split; [exact Q|]. intros (a & b & E & _). cbn [a_value assign_of] in E. apply (M _ Q). rewrite E. apply in_or_app. right. left. reflexivity.
  - split; [|right; discriminate]. intros c [t E]. cbn [assign_of a_var] in E. change (s_ "BBLAYERS") with (s_ "BBLAYER" ++ ["S"%char]) in E. apply app_inj_tail in E. destruct E as [_ <-]. cbn. intuition discriminate.
Qed.
Definition fold_settings (ss : list setting) : state := fold_left (fun x s => operate (s_op s) (s_value s) x) ss (None, None).
Lemma parts_value ps : Forall good_part ps -> forall ss, feed_parts ps = Some ss -> forall st, fold_left (fun x s => match about_layers s with Some (o, v) => operate o v x | None => x end) ss st = fold_left (fun x s => operate (s_op s) (s_value s) x) (settings ps) st.
Proof.
  induction 1 as [|p ps G F IH]; intros ss E st; cbn in E; [injection E as <-; reflexivity|]. destruct (feed (item_texts (part_item p))) as [a|] eqn:A; [|discriminate E]. destruct (feed_parts ps) as [b|] eqn:B; [|discriminate E]. injection E as <-. rewrite fold_left_app. destruct p as [i|s].
  - cbn [part_item settings flat_map app] in *. rewrite <- (IH b eq_refl). f_equal. destruct G as (_ & _ & _ & N). cbn [part_item] in A. clear -N A. revert a A. induction (item_texts i) as [|t ts IHt]; intros a A; cbn in A; [injection A as <-; reflexivity|].
    destruct (feeder t) as [s|] eqn:T; [|discriminate A]. destruct (feed ts) as [r|] eqn:R; [|discriminate A]. injection A as <-. cbn [fold_left]. rewrite (N t s (or_introl eq_refl) T). apply IHt; [intros t' s' I; apply N; right; exact I|reflexivity].
  - cbn [part_item settings flat_map app] in *. rewrite (setting_feed s G) in A. injection A as <-. cbn [fold_left about_layers assign_of a_var a_flag a_op a_value]. rewrite seqb_refl. cbn [andb]. apply (IH b eq_refl).
Qed.
Definition layers_in (ss : list setting) : list str := split_ws (match fold_settings ss with (Some v, _) => v | (None, Some w) => w | (None, None) => [] end).
Lemma reads_layers ps ss : Forall good_part ps -> reads (file_of ps) ss -> layers_of ss = layers_in (settings ps).
Proof. intros F R. unfold reads in R. rewrite reads_parts in R by exact F. unfold layers_of, layers_in, value_of, fold_settings. rewrite (parts_value ps F ss R). reflexivity. Qed.

Section Parts.
  Variable C : Type.
  Variable varfunc : C -> str -> str -> C * verdict.
  Fixpoint sresults (c : C) (ss : list setting) : C * list setting * bool :=
    match ss with
    | [] => (c, [], false)
    | s :: ss =>
        let '(c, d) := varfunc c (s_value s) (op_text (s_op s)) in
        let '(c, r, u) := sresults c ss in
        match d with Keep => (c, s :: r, u) | Drop => (c, r, true) | List l => (c, listed s l :: r, true) end
    end.
  Lemma settings_results ps : forall c, let '(c', r, u) := results C varfunc c ps in sresults c (settings ps) = (c', settings r, u).
  Proof.
    induction ps as [|[i|s] ps IH]; intro c; cbn [results settings flat_map app sresults]; [reflexivity| |].
    - specialize (IH c). destruct (results C varfunc c ps) as [[c' r] u]. exact IH.
    - destruct (varfunc c (s_value s) (op_text (s_op s))) as [c1 d]. specialize (IH c1). destruct (results C varfunc c1 ps) as [[c' r] u]. unfold settings in IH. rewrite IH. destruct d; reflexivity.
  Qed.
  (** the other statements stay *)
  Lemma results_others ps : Forall good_part ps -> forall c ss, feed_parts ps = Some ss -> let '(c', r, u) := results C varfunc c ps in Forall good_part r -> exists ss', feed_parts r = Some ss' /\ others ss' = others ss.
  Proof.
    induction 1 as [|p ps G F IH]; intros c ss E; cbn in E; [injection E as <-; intros _; exists []; split; reflexivity|]. destruct (feed (item_texts (part_item p))) as [a|] eqn:A; [|discriminate E]. destruct (feed_parts ps) as [b|] eqn:B; [|discriminate E]. injection E as <-.
    destruct p as [i|s]; cbn [results].
    - specialize (IH c b eq_refl). destruct (results C varfunc c ps) as [[c' r] u]. intro GR. inversion GR as [|? ? _ GR']; subst. destruct (IH GR') as (ss' & E & O). exists (a ++ ss'). cbn [feed_parts part_item] in *. rewrite A, E. split; [reflexivity|]. unfold others in *. rewrite !filter_app, O. reflexivity.
    - cbn [part_item] in A. rewrite (setting_feed s G) in A. injection A as <-. destruct (varfunc c (s_value s) (op_text (s_op s))) as [c1 d]. specialize (IH c1 b eq_refl). destruct (results C varfunc c1 ps) as [[c' r] u].
      assert (Z : others ([Assign (assign_of s)] ++ b) = others b) by (unfold others; cbn [filter app about_layers assign_of a_var a_flag]; rewrite seqb_refl; reflexivity). rewrite Z.
      destruct d as [| |l]; intro GR.
      + inversion GR as [|? ? _ GR']; subst. destruct (IH GR') as (ss' & E & O). exists (Assign (assign_of s) :: ss'). cbn [feed_parts part_item]. rewrite (setting_feed s G), E. split; [reflexivity|]. rewrite <- O. unfold others. cbn [filter about_layers assign_of a_var a_flag]. rewrite seqb_refl. reflexivity.
      + exact (IH GR).
      + inversion GR as [|? ? GL GR']; subst. destruct (IH GR') as (ss' & E & O). exists (Assign (assign_of (listed s l)) :: ss'). cbn [feed_parts part_item]. rewrite (setting_feed _ GL), E. split; [reflexivity|]. rewrite <- O. unfold others. cbn [filter about_layers assign_of a_var a_flag]. rewrite seqb_refl. reflexivity.
  Qed.
End Parts.
(** ** Lists as they are written *)
Lemma sp1 z : split_ws (s_ " " ++ z) = split_ws z.
Proof. exact (split_ws_space " "%char z eq_refl). Qed.
Lemma sp2 z : split_ws (s_ "  " ++ z) = split_ws z.
Proof. exact (eq_trans (split_ws_space " "%char (" "%char :: z) eq_refl) (split_ws_space " "%char z eq_refl)). Qed.
Lemma spw w z : word w -> split_ws (w ++ s_ " " ++ z) = w :: split_ws z.
Proof. intro W. exact (split_ws_word w " "%char z W eq_refl). Qed.
Lemma items_words l : Forall word l -> split_ws (concat (map (fun i : str => s_ "  " ++ i ++ s_ " ") l) ++ s_ "  ") = l.
Proof. induction 1 as [|x l W F IH]; [reflexivity|]. cbn [map concat]. rewrite <- !app_assoc. rewrite sp2, spw by assumption. rewrite IH. reflexivity. Qed.
Lemma listed_words s l : Forall word l -> split_ws (s_value (listed s l)) = l.
Proof.
  intro W. unfold s_value, listed. cbn [s_pieces s_final]. destruct l as [|x l]; [reflexivity|]. remember (x :: l) as m. cbn [map concat fst]. rewrite map_map. cbn [fst]. rewrite <- app_assoc. rewrite sp1. apply items_words, W.
Qed.
Definition fine (x : str) : Prop := word x /\ no_marks x /\ tidy_path x.
Lemma word_nl x : word x -> ~ In nl x.
Proof. intros [_ W] I. rewrite Forall_forall in W. discriminate (W _ I). Qed.
Lemma no_marks_app a b : no_marks a -> no_marks b -> no_marks (a ++ b).
Proof. intros A B q Q I. apply in_app_or in I. destruct I as [I|I]; [exact (A q Q I)|exact (B q Q I)]. Qed.
Lemma no_marks_lit a : forallb (fun c => negb (is_quote c)) a = true -> no_marks a.
Proof. intros F q Q I. rewrite forallb_forall in F. specialize (F q I). apply is_quote_iff in Q. rewrite Q in F. discriminate F. Qed.
Lemma no_nl_app a b : ~ In nl a -> ~ In nl b -> ~ In nl (a ++ b).
Proof. intros A B I. apply in_app_or in I. destruct I as [I|I]; [exact (A I)|exact (B I)]. Qed.
Lemma no_nl_lit a : forallb (fun c => negb (aeqb c nl)) a = true -> ~ In nl a.
Proof. intros F I. rewrite forallb_forall in F. specialize (F nl I). rewrite aeqb_refl in F. discriminate F. Qed.
Lemma no_nl_head s : quote_mark (s_quote s) -> ~ In nl (s_head s).
Proof.
  intro Q. unfold s_head. assert (R : forall n, ~ In nl (repeat " "%char n)) by (intros n I; apply repeat_spec in I; discriminate I).
  apply no_nl_app; [apply no_nl_lit; reflexivity|]. apply no_nl_app; [apply R|]. apply no_nl_app; [destruct (s_op s); apply no_nl_lit; reflexivity|]. apply no_nl_app; [apply R|]. intros [E|[]]. destruct Q as [Q|Q]; rewrite Q in E; discriminate E.
Qed.
Lemma head_shape s t : exists r, s_head s ++ t = "B"%char :: r.
Proof. unfold s_head. eexists. reflexivity. Qed.
Lemma listed_good s l : Forall fine l -> good_part (Setting (listed s l)).
Proof.
  intro F. assert (Q : quote_mark (s_quote (listed s l))) by (right; reflexivity). assert (H := no_nl_head _ Q).
  assert (V : no_marks (s_value (listed s l))).
  { unfold s_value, listed. cbn [s_pieces s_final]. destruct l as [|x l]; [apply no_marks_lit; reflexivity|]. remember (x :: l) as m. apply no_marks_app; [|apply no_marks_lit; reflexivity]. cbn [map concat fst]. apply no_marks_app; [apply no_marks_lit; reflexivity|]. rewrite map_map. cbn [fst]. clear -F. induction F as [|y m (_ & M & _) F IH]; cbn [map concat]; [apply no_marks_lit; reflexivity|]. apply no_marks_app; [|exact IH]. apply no_marks_app; [apply no_marks_lit; reflexivity|]. apply no_marks_app; [exact M|apply no_marks_lit; reflexivity]. }
  split; [|split].
  - cbn [part_item]. unfold s_item. assert (NB : forall t, ~ ends "\"%char (t ++ [s_quote (listed s l)])) by (intros t [u E]; apply app_inj_tail in E; destruct E as [_ E]; discriminate E).
    destruct (s_pieces (listed s l)) as [|[p w] ps] eqn:P.
    + cbn [proper map concat app]. destruct (head_shape (listed s l) (s_final (listed s l) ++ [s_quote (listed s l)])) as [r' E']. split; [constructor|]. split; [intros [r E]; rewrite E' in E; discriminate E|]. split; [constructor|]. split; [intros c [t E]; rewrite app_assoc in E; apply app_inj_tail in E; destruct E as [_ <-]; reflexivity|]. split; [|rewrite app_assoc; apply NB].
      intro E. apply (f_equal (fun z => match z with (f, _) :: _ => f | [] => [] end)) in E. cbn [app] in E. rewrite E' in E. discriminate E.
    + unfold listed in P. cbn [s_pieces] in P. destruct l as [|x l]; [discriminate P|]. injection P as <- <- <-. cbn [proper]. split; [|split; [|split; [|split; [|split]]]].
      * constructor; [cbn [fst snd]|].
        { split; [unfold s_head; discriminate|]. split; [|constructor]. intros [r E]. discriminate E. }
        apply Forall_forall. intros y I. apply (in_map_iff (fun i : str => (s_ "  " ++ i ++ s_ " ", [])) (x :: l)) in I. destruct I as (i & <- & I). cbn [fst snd]. split; [discriminate|]. split; [intros [r E]; discriminate E|constructor].
      * intros [r E]. discriminate E.
      * constructor.
      * intros c [t E]. apply app_inj_tail in E. destruct E as [_ <-]. reflexivity.
      * discriminate.
      * intros [t E]. rewrite app_assoc in E. apply app_inj_tail in E. destruct E as [_ E]. discriminate E.
  - cbn [part_item]. unfold s_item. destruct (s_pieces (listed s l)) as [|[p w] ps] eqn:P.
    + intros y [<-|[]]. apply no_nl_app; [|apply no_nl_lit; reflexivity]. apply no_nl_app; [exact H|]. apply no_nl_app; [unfold listed; cbn [s_final]; destruct l; apply no_nl_lit; reflexivity|]. intros [E|[]]. discriminate E.
    + unfold listed in P. cbn [s_pieces] in P. destruct l as [|x l]; [discriminate P|]. injection P as <- <- <-. cbn [item_lines map]. intros y [<-|I]; [apply no_nl_app; [|apply no_nl_lit; reflexivity]; cbn [fst]; apply no_nl_app; [exact H|apply no_nl_lit; reflexivity]|].
      apply in_app_or in I. destruct I as [I|[<-|[]]]; [|apply no_nl_lit; reflexivity]. apply (in_map_iff (fun p : str * str => fst p ++ "\"%char :: snd p) (map (fun i : str => (s_ "  " ++ i ++ s_ " ", [])) (x :: l))) in I. destruct I as (z & <- & I). apply (in_map_iff (fun i : str => (s_ "  " ++ i ++ s_ " ", [])) (x :: l)) in I. destruct I as (i & <- & I). cbn [fst snd]. rewrite Forall_forall in F. destruct (F i I) as (W & _). apply no_nl_app; [|apply no_nl_lit; reflexivity]. apply no_nl_app; [apply no_nl_lit; reflexivity|]. apply no_nl_app; [apply word_nl, W|apply no_nl_lit; reflexivity].
  - split; [exact Q|]. split; [exact V|]. rewrite listed_words by (apply Forall_forall; intros y I; rewrite Forall_forall in F; apply (F y I)). apply Forall_forall. intros y I. rewrite Forall_forall in F. apply (F y I).
Qed.
(** ** Paths *)
Lemma rts_eq p : remove_trailing_sep p = slashless p.
Proof.
  unfold remove_trailing_sep, slashless, ends_in. destruct (rev p) as [|c r] eqn:E; cbn.
  - apply (f_equal (@rev ascii)) in E. rewrite rev_involutive in E. exact E.
  - apply (f_equal (@rev ascii)) in E. rewrite rev_involutive in E. cbn [rev] in E. destruct (aeqb c "/"%char); [|reflexivity]. rewrite E. apply removelast_snoc.
Qed.
Lemma slashless_id p : ~ ends "/"%char p -> slashless p = p.
Proof.
  intro N. unfold slashless. destruct (rev p) as [|c r] eqn:E; apply (f_equal (@rev ascii)) in E; rewrite rev_involutive in E; [symmetry; exact E|]. destruct (aeqb c "/"%char) eqn:A; [|reflexivity]. apply aeqb_eq in A. subst c. exfalso. apply N. exists (rev r). exact E.
Qed.
Lemma slashless_twice p : tidy_path p -> slashless (slashless p) = slashless p.
Proof. intros [_ N]. apply slashless_id, N. Qed.
Lemma slashless_pre p : exists t, p = slashless p ++ t.
Proof.
  unfold slashless. destruct (rev p) as [|c r] eqn:E; apply (f_equal (@rev ascii)) in E; rewrite rev_involutive in E; [exists p; reflexivity|]. destruct (aeqb c "/"%char); [exists [c]; exact E|exists []; rewrite app_nil_r; reflexivity].
Qed.
Lemma fine_slashless p : fine p -> fine (slashless p).
Proof.
  intros ([N W] & M & T). destruct (slashless_pre p) as [t E]. split; [split|split].
  - apply T.
  - rewrite E in W. apply Forall_app in W. apply W.
  - intros q Q I. apply (M q Q). rewrite E. apply in_or_app. left. exact I.
  - split; rewrite (slashless_twice p T); apply T.
Qed.
Lemma layer_fine p : layer_path p -> fine p.
Proof. intros (N & W & M & T). split; [split; [exact N|apply Forall_forall; exact W]|split; assumption]. Qed.
Lemma setting_fine s : good_part (Setting s) -> Forall fine (split_ws (s_value s)).
Proof.
  intros (_ & _ & _ & M & T). apply Forall_forall. intros w I. pose proof (split_ws_words (s_value s)) as W. rewrite Forall_forall in W, T. split; [exact (W w I)|]. split; [|exact (T w I)]. destruct (word_sub w _ I) as (a & b & E). intros q Q J. apply (M q Q). rewrite E. apply in_or_app. right. apply in_or_app. left. exact J.
Qed.
Lemma remove_first_incl p : forall l r, remove_first p l = Some r -> incl r l.
Proof.
  induction l as [|x l IH]; intros r E; cbn in E; [discriminate E|]. destruct (fnmatch (remove_trailing_sep x) (remove_trailing_sep p)).
  - injection E as <-. intros y I. right. exact I.
  - destruct (remove_first p l) as [r'|]; [|discriminate E]. injection E as <-. intros y [<-|I]; [left; reflexivity|right; exact (IH _ eq_refl y I)].
Qed.
Lemma remove_layers_incl pats : forall l rm u, incl (fst (fst (remove_layers pats l rm u))) l.
Proof.
  induction pats as [|p pats IH]; intros l rm u; cbn [remove_layers]; [intros x I; exact I|]. destruct (remove_first p l) as [r|] eqn:E; [|apply IH]. intros x I. apply (remove_first_incl p l r E). apply (IH r _ _ x I).
Qed.
Lemma add_layers_incl add : forall l u, incl (fst (add_layers add l u)) (l ++ add).
Proof.
  induction add as [|a add IH]; intros l u; cbn [add_layers]; [rewrite app_nil_r; intros x I; exact I|]. destruct (mem_str a l); intros x I; apply IH in I; [apply in_app_or in I; apply in_or_app; destruct I as [I|I]; [left; exact I|right; right; exact I]|]. rewrite <- app_assoc in I. exact I.
Qed.
(** the second pass writes good parts *)
Lemma second_good plus pats ps : Forall good_part ps -> forall add rm, Forall fine add -> let '((add', rm'), r, u) := results _ (second_pass plus pats) (add, rm) ps in Forall good_part r /\ Forall fine add'.
Proof.
  induction 1 as [|p ps G F IH]; intros add rm A; cbn [results]; [split; [constructor|exact A]|]. destruct p as [i|s].
  - specialize (IH add rm A). destruct (results _ (second_pass plus pats) (add, rm) ps) as [[[add' rm'] r] u]. destruct IH as [I1 I2]. split; [constructor; assumption|exact I2].
  - unfold second_pass at 1. pose proof (setting_fine s G) as W.
    assert (L0 : Forall fine (map remove_trailing_sep (split_ws (s_value s)))) by (apply Forall_forall; intros x I; apply in_map_iff in I; destruct I as (y & <- & I); rewrite rts_eq; apply fine_slashless; rewrite Forall_forall in W; exact (W y I)).
    pose proof (remove_layers_incl pats (map remove_trailing_sep (split_ws (s_value s))) rm false) as RI. destruct (remove_layers pats (map remove_trailing_sep (split_ws (s_value s))) rm false) as [[l rm1] u1]. cbn [fst] in RI.
    assert (L1 : Forall fine l) by (apply Forall_forall; intros x I; rewrite Forall_forall in L0; exact (L0 x (RI x I))).
    assert (K : exists l2 u2 add2, (if plus then (l, u1, add) else let '(l, u) := add_layers add l u1 in (l, u, [])) = (l2, u2, add2) /\ Forall fine l2 /\ Forall fine add2).
    { destruct plus; [exists l, u1, add; auto|]. pose proof (add_layers_incl add l u1) as AI. destruct (add_layers add l u1) as [l2 u2]. cbn [fst] in AI. exists l2, u2, []. split; [reflexivity|]. split; [|constructor]. apply Forall_forall. intros x I. apply AI in I. apply in_app_or in I. rewrite Forall_forall in L1, A. destruct I as [I|I]; auto. }
    destruct K as (l2 & u2 & add2 & -> & K1 & K2). specialize (IH add2 rm1 K2). destruct (results _ (second_pass plus pats) (add2, rm1) ps) as [[[add' rm'] r] u]. destruct IH as [I1 I2].
    destruct u2; [|split; [constructor; assumption|exact I2]]. destruct (_ && _); split; try assumption. constructor; [apply listed_good, K1|exact I1].
Qed.
(** ** The first pass *)
Fixpoint kept_layers (orig : list str) (ss : list setting) : list str :=
  match ss with [] => orig | s :: ss => kept_layers ((match s_op s with OSet => [] | _ => orig end) ++ map slashless (split_ws (s_value s))) ss end.
Lemma map_rts l : map remove_trailing_sep l = map slashless l.
Proof. apply map_ext. apply rts_eq. Qed.
Lemma first_results ps : forall calls orig, exists r, results _ first_pass (calls, orig) ps = ((calls ++ map (fun s => op_text (s_op s)) (settings ps), kept_layers orig (settings ps)), r, false).
Proof.
  induction ps as [|[i|s] ps IH]; intros calls orig.
  - exists []. cbn. rewrite app_nil_r. reflexivity.
  - destruct (IH calls orig) as [r E]. exists (Other i :: r). cbn [results]. rewrite E. reflexivity.
  - cbn [results]. unfold first_pass at 1. rewrite map_rts. cbv zeta. destruct (IH (calls ++ [op_text (s_op s)]) ((if seqb (op_text (s_op s)) (s_ "=") then [] else orig) ++ map slashless (split_ws (s_value s)))) as [r E]. rewrite E. exists (Setting s :: r). cbn [settings flat_map app map kept_layers]. rewrite <- app_assoc. cbn [app]. replace (if seqb (op_text (s_op s)) (s_ "=") then [] else orig) with (match s_op s with OSet => [] | _ => orig end) by (destruct (s_op s); reflexivity). reflexivity.
Qed.
Definition plus_part (l : str) : part := Setting (mkSetting OAppend 1 1 """"%char [] l []).
Lemma plus_good l : fine l -> good_part (plus_part l).
Proof.
  intros (W & M & T). split; [|split].
  - unfold plus_part. cbn. split; [constructor|]. split; [intros [r E]; discriminate E|]. split; [constructor|]. split; [intros c [t E]; change ("B"%char :: ?z) with (["B"%char] ++ z) in E|]; [|split; [discriminate|]].
    + apply (f_equal (@rev ascii)) in E. cbn [app rev] in E. rewrite !rev_app_distr in E. cbn in E. injection E as E _. rewrite <- E. reflexivity.
    + intros [t E]. apply (f_equal (@rev ascii)) in E. cbn [app rev] in E. rewrite !rev_app_distr in E. cbn in E. discriminate E.
  - unfold plus_part. cbn [part_item s_item s_pieces s_head s_final s_quote s_tail s_before s_after s_op item_lines map app]. intros y [<-|[]]. rewrite app_nil_r. apply no_nl_app; [apply no_nl_lit; reflexivity|]. apply no_nl_app; [apply word_nl, W|apply no_nl_lit; reflexivity].
  - split; [right; reflexivity|]. cbn [s_value s_pieces s_final map concat app]. split; [exact M|]. rewrite split_ws_single by exact W. repeat constructor; apply T.
Qed.
(** ** The whole edit *)
Definition is_plus (ss : list setting) : bool := 1 <? length (filter (fun s => match s_op s with OAppend => true | _ => false end) ss).
Definition not_added (ss : list setting) (add remove : list str) : list str := filter (fun l => mem_str (slashless l) (kept_layers [] ss) && negb (mem_str (slashless l) (map slashless (map slashless remove)))) (map slashless add).
Definition to_add (ss : list setting) (add remove : list str) : list str := filter (fun l => negb (mem_str (slashless l) (map slashless (not_added ss add remove)))) (map slashless add).
Lemma edit_main ps add remove : Forall good_part ps -> settings ps <> [] -> Forall layer_path add ->
  let '((rest, removed), r, u) := results _ (second_pass (is_plus (settings ps)) (map slashless remove)) (to_add (settings ps) add remove, []) ps in
  exists ps', Forall good_part ps' /\ filter shown ps' = filter shown (r ++ map plus_part rest) /\ Forall good_part r /\ (u = false -> rest = [] -> ps' = ps) /\ (u = false -> ps' = ps ++ map plus_part rest) /\
  edit_bblayers_conf (file_of ps) add remove = Some (mkOutcome (file_of ps') (not_added (settings ps) add remove) (nodup (list_eq_dec ascii_dec) (filter (fun l => negb (mem_str l removed)) (map slashless remove)))).
Proof.
  intros F N A. unfold edit_bblayers_conf. rewrite !map_rts. unfold edit_metadata.
  rewrite file_lines, readlines_put by (apply good_lines, F).
  pose proof (run _ first_pass ps F (mkEditing _ false false [] None ([], [])) eq_refl) as R1. cbn [e_cb e_updated e_out e_check] in R1. destruct (first_results ps [] []) as [r1 E1]. rewrite E1 in R1. destruct R1 as (ps1 & k1 & -> & _ & _ & U1). rewrite (U1 eq_refl eq_refl) in *. clear U1 E1. cbn [e_updated e_out e_cb orb app].
  destruct (settings ps) as [|s0 ss0] eqn:SS; [congruence|]. rewrite <- SS in *.
  assert (P : (1 <? length (filter (fun o => seqb o (s_ "+=")) (map (fun s => op_text (s_op s)) (settings ps)))) = is_plus (settings ps)).
  { unfold is_plus. f_equal. clear. induction (settings ps) as [|s ss IH]; [reflexivity|]. cbn [map filter]. replace (seqb (op_text (s_op s)) (s_ "+=")) with (match s_op s with OAppend => true | _ => false end) by (destruct (s_op s); reflexivity). destruct (s_op s); cbn [length]; rewrite ?IH; reflexivity. }
  rewrite P.
  assert (NA : filter (fun l => mem_str (remove_trailing_sep l) (kept_layers [] (settings ps)) && negb (mem_str (remove_trailing_sep l) (map slashless (map slashless remove)))) (map slashless add) = not_added (settings ps) add remove) by (unfold not_added; apply filter_ext; intro l; rewrite rts_eq; reflexivity).
  rewrite NA.
  assert (TA : filter (fun l => negb (mem_str (remove_trailing_sep l) (map remove_trailing_sep (not_added (settings ps) add remove)))) (map slashless add) = to_add (settings ps) add remove) by (unfold to_add; apply filter_ext; intro l; rewrite rts_eq, map_rts; reflexivity).
  rewrite TA.
  set (f := second_pass (is_plus (settings ps)) (map slashless remove)).
  pose proof (run _ f ps F (mkEditing _ false false [] None (to_add (settings ps) add remove, [])) eq_refl) as R2. cbn [e_cb e_updated e_out e_check] in R2.
  assert (FA : Forall fine (to_add (settings ps) add remove)).
  { apply Forall_forall. intros x I. unfold to_add in I. apply filter_In in I. destruct I as [I _]. apply in_map_iff in I. destruct I as (y & <- & I). apply fine_slashless, layer_fine. rewrite Forall_forall in A. exact (A y I). }
  pose proof (second_good (is_plus (settings ps)) (map slashless remove) ps F (to_add (settings ps) add remove) [] FA) as SG. fold f in SG.
  destruct (results _ f (to_add (settings ps) add remove, []) ps) as [[[rest removed] r] u]. destruct SG as [GR GA]. destruct R2 as (ps2 & k2 & E2 & Sh & In2 & U2). rewrite E2. cbn [e_updated e_out e_cb orb app].
  exists (ps2 ++ map plus_part rest).
  assert (G2 : Forall good_part (ps2 ++ map plus_part rest)).
  { apply Forall_app. split; apply Forall_forall; intros x I; [rewrite Forall_forall in GR; exact (GR x (In2 x I))|]. apply in_map_iff in I. destruct I as (l & <- & I). apply plus_good. rewrite Forall_forall in GA. exact (GA l I). }
  split; [exact G2|]. split; [rewrite !filter_app, Sh; reflexivity|]. split; [exact GR|]. split; [intros -> ->; rewrite (U2 eq_refl eq_refl); apply app_nil_r|]. split; [intros ->; rewrite (U2 eq_refl eq_refl); reflexivity|].
  assert (T : concat (map put (lines_of ps2) ++ map (fun l => s_ "BBLAYERS += """ ++ l ++ s_ """" ++ [nl]) rest) = file_of (ps2 ++ map plus_part rest)).
  { rewrite file_lines. unfold lines_of. repeat (rewrite map_app || rewrite concat_app). f_equal. clear. induction rest as [|l rest IH]; [reflexivity|]. cbn [map concat]. rewrite IH. cbn [plus_part part_item s_item s_pieces item_lines map app concat]. unfold put. unfold s_head. cbn [s_before s_after s_op s_quote s_final s_tail repeat]. rewrite app_nil_r, <- !app_assoc. reflexivity. }
  rewrite T. rewrite SS at 1. cbn [map].
  f_equal. f_equal. destruct (u || _) eqn:UR; [reflexivity|]. apply orb_false_iff in UR. destruct UR as [-> UR]. destruct rest; [|discriminate UR]. rewrite (U2 eq_refl eq_refl). cbn [map]. rewrite app_nil_r, file_lines. reflexivity.
Qed.
Definition plus_setting (l : str) : setting := mkSetting OAppend 1 1 """"%char [] l [].
Lemma settings_app a b : settings (a ++ b) = settings a ++ settings b.
Proof. apply flat_map_app. Qed.
Lemma settings_shown ps : settings (filter shown ps) = settings ps.
Proof. induction ps as [|p ps IH]; [reflexivity|]. cbn [filter]. destruct p as [[[|]| |]|]; cbn [shown settings flat_map app]; try exact IH. f_equal. exact IH. Qed.
Lemma settings_plus rest : settings (map plus_part rest) = map plus_setting rest.
Proof. induction rest as [|l rest IH]; [reflexivity|]. cbn. f_equal. exact IH. Qed.
Lemma feed_parts_app a b : feed_parts (a ++ b) = match feed_parts a, feed_parts b with Some x, Some y => Some (x ++ y) | _, _ => None end.
Proof.
  induction a as [|p a IH]; cbn [app feed_parts]; [destruct (feed_parts b); reflexivity|]. rewrite IH. destruct (feed (item_texts (part_item p))) as [x|]; [|reflexivity]. destruct (feed_parts a); [|reflexivity]. destruct (feed_parts b); [|reflexivity]. rewrite app_assoc. reflexivity.
Qed.
Lemma plus_others rest : Forall good_part (map plus_part rest) -> exists ss, feed_parts (map plus_part rest) = Some ss /\ others ss = [].
Proof.
  induction rest as [|l rest IH]; intro F; [exists []; split; reflexivity|]. inversion F as [|? ? G F']; subst. destruct (IH F') as (ss & E & O). exists (Assign (assign_of (plus_setting l)) :: ss). cbn [map feed_parts]. rewrite E. change (part_item (plus_part l)) with (s_item (plus_setting l)). rewrite (setting_feed (plus_setting l) G). split; [reflexivity|]. unfold others in *. cbn [filter about_layers assign_of a_var a_flag]. rewrite seqb_refl. exact O.
Qed.
Lemma edit_effect ps add remove ss : Forall good_part ps -> settings ps <> [] -> Forall layer_path add -> reads (file_of ps) ss ->
  let '((rest, removed), sr, u) := sresults _ (second_pass (is_plus (settings ps)) (map slashless remove)) (to_add (settings ps) add remove, []) (settings ps) in
  exists o ss', edit_bblayers_conf (file_of ps) add remove = Some o /\ o_notadded o = not_added (settings ps) add remove /\ o_notremoved o = nodup (list_eq_dec ascii_dec) (filter (fun l => negb (mem_str l removed)) (map slashless remove)) /\
    reads (o_text o) ss' /\ others ss' = others ss /\ layers_of ss' = layers_in (sr ++ map plus_setting rest) /\ (u = false -> o_text o = file_of (ps ++ map plus_part rest)).
Proof.
  intros F N A R. pose proof (edit_main ps add remove F N A) as M. set (f := second_pass _ _) in *. set (c0 := (to_add _ _ _, @nil str)) in *. pose proof (settings_results _ f ps c0) as S. pose proof (R) as R0. unfold reads in R0. rewrite reads_parts in R0 by exact F. pose proof (results_others _ f ps F c0 ss R0) as O.
  destruct (results _ f c0 ps) as [[[rest removed] r] u]. rewrite S. destruct M as (ps' & G & Sh & GR & _ & U & ->). destruct (O GR) as (s1 & E1 & O1).
  assert (GP : Forall good_part (map plus_part rest)).
  { apply Forall_forall. intros x I. destruct (shown x) eqn:X; [|apply in_map_iff in I; destruct I as (l & <- & _); discriminate X]. rewrite Forall_forall in G. apply G. assert (J : In x (filter shown ps')) by (rewrite Sh; apply filter_In; split; [apply in_or_app; right; exact I|exact X]). apply filter_In in J. apply J. }
  destruct (plus_others rest GP) as (s2 & E2 & O2).
  assert (FE : feed_parts ps' = Some (s1 ++ s2)) by (rewrite <- feed_shown, Sh, feed_shown, feed_parts_app, E1, E2; reflexivity).
  assert (R' : reads (file_of ps') (s1 ++ s2)) by (unfold reads; rewrite reads_parts by exact G; exact FE).
  eexists; exists (s1 ++ s2). split; [reflexivity|]. cbn [o_notadded o_notremoved o_text]. split; [reflexivity|]. split; [reflexivity|]. split; [exact R'|]. split; [|split].
  - unfold others in *. rewrite filter_app, O1, O2. apply app_nil_r.
  - rewrite (reads_layers ps' _ G R'). rewrite <- (settings_shown ps'), Sh, settings_shown, settings_app, settings_plus. reflexivity.
  - intro Z. rewrite (U Z). reflexivity.
Qed.
(** ** What becomes of the settings *)
Lemma kept_in ss : forall orig y, In y (kept_layers orig ss) -> In y orig \/ exists s, In s ss /\ In y (map slashless (split_ws (s_value s))).
Proof.
  induction ss as [|s ss IH]; intros orig y I; cbn in I; [left; exact I|]. apply IH in I. destruct I as [I|(t & I & J)]; [|right; exists t; split; [right; exact I|exact J]]. apply in_app_or in I. destruct I as [I|I]; [|right; exists s; split; [left; reflexivity|exact I]]. left. destruct (s_op s); [destruct I| | | | | | |]; exact I.
Qed.
Lemma kept_stays ss : forall orig y, In y orig -> (forall s, In s ss -> s_op s <> OSet) -> In y (kept_layers orig ss).
Proof.
  induction ss as [|s ss IH]; intros orig y I N; cbn; [exact I|]. apply IH; [|intros t J; apply N; right; exact J]. apply in_or_app. left. assert (X := N s (or_introl eq_refl)). destruct (s_op s); try exact I. congruence.
Qed.
Lemma kept_there a s b : forall orig y, In y (map slashless (split_ws (s_value s))) -> (forall t, In t b -> s_op t <> OSet) -> In y (kept_layers orig (a ++ s :: b)).
Proof.
  induction a as [|t a IH]; intros orig y I N; cbn [app kept_layers]; [|apply IH; assumption]. apply kept_stays; [|exact N]. apply in_or_app. right. exact I.
Qed.
Lemma keep_all plus ss : forall rm, sresults _ (second_pass plus []) ([], rm) ss = (([], rm), ss, false).
Proof. induction ss as [|s ss IH]; intro rm; [reflexivity|]. cbn [sresults]. unfold second_pass at 1. cbn [remove_layers add_layers]. destruct plus; cbn [seqb]; rewrite IH; reflexivity. Qed.
Lemma keep_plus add ss : forall rm, sresults _ (second_pass true []) (add, rm) ss = ((add, rm), ss, false).
Proof. induction ss as [|s ss IH]; intro rm; [reflexivity|]. cbn [sresults]. unfold second_pass at 1. cbn [remove_layers]. rewrite IH. reflexivity. Qed.
Lemma add_one s ss x : ~ In x (map slashless (split_ws (s_value s))) -> sresults _ (second_pass false []) ([x], []) (s :: ss) = (([], []), listed s (map slashless (split_ws (s_value s)) ++ [x]) :: ss, true).
Proof.
  intro N. cbn [sresults]. unfold second_pass at 1. cbn [remove_layers add_layers]. rewrite map_rts. assert (M : mem_str x (map slashless (split_ws (s_value s))) = false) by (apply mem_str_false; exact N). rewrite M. rewrite keep_all.
  destruct (map slashless (split_ws (s_value s)) ++ [x]) as [|y l] eqn:E; [destruct (map slashless (split_ws (s_value s))); discriminate E|]. rewrite andb_false_r. reflexivity.
Qed.
(** ** What the settings say *)
Lemma split_sp a b : split_ws (a ++ s_ " " ++ b) = split_ws a ++ split_ws b.
Proof. exact (split_ws_app a " "%char b eq_refl). Qed.
Lemma around_rest rest : (forall t, In t rest -> s_op t = OAppend \/ s_op t = OPrepend) -> exists pre post, forall v w, exists v', fold_left (fun x s => operate (s_op s) (s_value s) x) rest (Some v, w) = (Some v', w) /\ split_ws v' = pre ++ split_ws v ++ post.
Proof.
  induction rest as [|s rest IH]; intro H.
  - exists [], []. intros v w. exists v. split; [reflexivity|]. rewrite app_nil_r. reflexivity.
  - destruct IH as (pre & post & IH); [intros t I; apply H; right; exact I|]. destruct (H s (or_introl eq_refl)) as [O|O].
    + exists pre, (split_ws (s_value s) ++ post). intros v w. cbn [fold_left]. rewrite O. cbn [operate given]. destruct (IH (v ++ s_ " " ++ s_value s) w) as (v' & E & Q). exists v'. split; [exact E|]. rewrite Q, split_sp, <- app_assoc. reflexivity.
    + exists (pre ++ split_ws (s_value s)), post. intros v w. cbn [fold_left]. rewrite O. cbn [operate given]. destruct (IH (s_value s ++ s_ " " ++ v) w) as (v' & E & Q). exists v'. split; [exact E|]. rewrite Q, split_sp, <- !app_assoc. reflexivity.
Qed.
Lemma first_words o x : o <> OLazy -> exists v, operate o x (None, None) = (Some v, None) /\ split_ws v = split_ws x.
Proof.
  intro N. destruct o; try congruence; cbn [operate given]; eexists; (split; [reflexivity|]); rewrite ?split_sp, ?app_nil_r; reflexivity.
Qed.
Lemma layers_first s rest : (forall t, In t rest -> s_op t = OAppend \/ s_op t = OPrepend) -> (s_op s = OLazy -> rest = []) -> exists pre post, forall s', s_op s' = s_op s -> layers_in (s' :: rest) = pre ++ split_ws (s_value s') ++ post.
Proof.
  intros H L. destruct (around_rest rest H) as (pre & post & Q). assert (D : s_op s = OLazy \/ s_op s <> OLazy) by (destruct (s_op s); (left; reflexivity) || (right; discriminate)). destruct D as [D|D].
  - rewrite (L D). exists [], []. intros s' E. unfold layers_in, fold_settings. cbn [fold_left]. rewrite E, D. cbn [operate]. rewrite app_nil_r. reflexivity.
  - exists pre, post. intros s' E. unfold layers_in, fold_settings. cbn [fold_left]. rewrite E. destruct (first_words (s_op s) (s_value s') D) as (v & V & W). rewrite V. destruct (Q v None) as (v' & V' & W'). rewrite V', W', W. reflexivity.
Qed.
(** ** Removing a layer *)
Lemma fnmatch_literal p : literal p -> forall n, fnmatch n p = seqb n p.
Proof.
  induction p as [|c p IH]; intros L n; cbn [fnmatch]; [destruct n; reflexivity|]. assert (C := L c (or_introl eq_refl)).
  assert (A : aeqb c "*"%char = false) by (apply aeqb_neq; intros ->; apply C; cbn; tauto). assert (B : aeqb c "?"%char = false) by (apply aeqb_neq; intros ->; apply C; cbn; tauto). rewrite A. destruct n as [|x n]; [reflexivity|]. rewrite B. cbn [orb seqb]. rewrite IH by (intros d I; apply L; right; exact I). f_equal. destruct (aeqb c x) eqn:E; [apply aeqb_eq in E; subst; symmetry; apply aeqb_refl|]. symmetry. apply aeqb_neq. apply aeqb_neq in E. congruence.
Qed.
Definition without_layer (y : str) (l : list str) : list str := filter (fun z => negb (seqb z y)) l.
Lemma without_absent y l : ~ In y l -> without_layer y l = l.
Proof. induction l as [|x l IH]; intro N; [reflexivity|]. cbn. destruct (seqb x y) eqn:E; [apply seqb_eq in E; subst; exfalso; apply N; left; reflexivity|]. cbn. f_equal. apply IH. intro I. apply N. right. exact I. Qed.
Lemma without_app y a b : without_layer y (a ++ b) = without_layer y a ++ without_layer y b.
Proof. apply filter_app. Qed.
Lemma removes_first y l : literal y -> slashless y = y -> Forall (fun z => slashless z = z) l -> count_occ (list_eq_dec ascii_dec) l y <= 1 ->
  remove_first y l = if mem_str y l then Some (without_layer y l) else None.
Proof.
  intros L Y F. induction F as [|x l X F IH]; intro K; [reflexivity|]. cbn [remove_first]. rewrite !rts_eq, X, Y, fnmatch_literal by exact L. cbn [count_occ] in K. destruct (seqb x y) eqn:E.
  - apply seqb_eq in E. subst x. destruct (list_eq_dec ascii_dec y y) as [_|D]; [|congruence]. assert (N : ~ In y l) by (apply (count_occ_not_In (list_eq_dec ascii_dec)); lia). replace (mem_str y (y :: l)) with true by (symmetry; apply mem_str_In; left; reflexivity). cbn. rewrite seqb_refl. cbn. fold (without_layer y l). rewrite (without_absent y l N). reflexivity.
  - assert (D : x <> y) by (intros ->; rewrite seqb_refl in E; discriminate E). destruct (list_eq_dec ascii_dec x y) as [Z|_]; [contradiction|]. rewrite (IH K). assert (M : mem_str y (x :: l) = mem_str y l) by (cbn; assert (seqb y x = false) by (apply seqb_neq; congruence); rewrite H; reflexivity). rewrite M. cbn [without_layer filter]. rewrite E. cbn [negb]. destruct (mem_str y l); reflexivity.
Qed.
Definition words_st (st : state) : list str := match fst st with Some v => split_ws v | None => [] end.
Definition rel (y : str) (st st' : state) : Prop := map slashless (words_st st') = without_layer y (map slashless (words_st st)) /\ snd st = None /\ snd st' = None.
Lemma operate_rel y o v v' st st' : list_op o \/ (o = OQues /\ fst st = None /\ fst st' = None) -> rel y st st' -> map slashless (split_ws v') = without_layer y (map slashless (split_ws v)) -> rel y (operate o v st) (operate o v' st').
Proof.
  intros O (R & S1 & S2) V. destruct st as [a b], st' as [a' b']. cbn [snd] in S1, S2. subst b b'. unfold rel, words_st in *. cbn [fst snd] in *. destruct O as [[->|[->|[->| ->]]]|(-> & -> & ->)]; cbn [operate fst snd given]; (split; [|split; reflexivity]); try exact V.
  - rewrite !split_sp, !map_app, without_app, V. f_equal. destruct a, a'; exact R.
  - rewrite !split_sp, !map_app, without_app, V. f_equal. destruct a, a'; exact R.
Qed.
Lemma drop_rel y v st st' : rel y st st' -> without_layer y (map slashless (split_ws v)) = [] -> rel y (operate OAppend v st) st'.
Proof.
  intros (R & S1 & S2) V. destruct st as [a b], st' as [a' b']. cbn [snd] in S1, S2. subst b b'. unfold rel, words_st in *. cbn [fst snd operate given] in *. split; [|split; reflexivity]. rewrite split_sp, map_app, without_app, V, app_nil_r. rewrite R. destruct a; reflexivity.
Qed.
Definition folds (ss : list setting) (st : state) : state := fold_left (fun x s => operate (s_op s) (s_value s) x) ss st.
Definition lists_once (y : str) (s : setting) : Prop := count_occ (list_eq_dec ascii_dec) (map slashless (split_ws (s_value s))) y <= 1.
Lemma tidy_words s : good_part (Setting s) -> Forall (fun z => slashless z = z) (map slashless (split_ws (s_value s))).
Proof. intro G. apply Forall_forall. intros z I. apply in_map_iff in I. destruct I as (w & <- & I). pose proof (setting_fine s G) as F. rewrite Forall_forall in F. apply slashless_twice. apply (F w I). Qed.
Lemma word_listed s l : good_part (Setting s) -> incl l (map slashless (split_ws (s_value s))) -> Forall word l.
Proof. intros G I. apply Forall_forall. intros z J. apply I in J. apply in_map_iff in J. destruct J as (w & <- & J). pose proof (setting_fine s G) as F. rewrite Forall_forall in F. apply (fine_slashless w (F w J)). Qed.
Lemma map_id_tidy l : Forall (fun z => slashless z = z) l -> map slashless l = l.
Proof. induction 1 as [|x l X F IH]; [reflexivity|]. cbn. rewrite X, IH. reflexivity. Qed.
Lemma remove_run y : literal y -> slashless y = y -> forall ss plus, Forall (fun s => good_part (Setting s)) ss -> Forall (lists_once y) ss -> forall rm st st', rel y st st' ->
  (forall s t, ss = s :: t -> list_op (s_op s) \/ (s_op s = OQues /\ fst st = None /\ fst st' = None)) -> (forall s t, In s (tl ss) -> t = s -> list_op (s_op t)) ->
  let '((add', rm'), sr, u) := sresults _ (second_pass plus [y]) ([], rm) ss in add' = [] /\ rel y (folds ss st) (folds sr st') /\ (In y rm' <-> In y rm \/ exists s, In s ss /\ In y (map slashless (split_ws (s_value s)))).
Proof.
  intros L Y ss plus G K. induction ss as [|s ss IH]; intros rm st st' R O1 O2.
  - cbn [sresults]. split; [reflexivity|]. split; [exact R|]. split; [intro I; left; exact I|]. intros [I|(s & [] & _)]. exact I.
  - inversion G as [|? ? Gs G']; subst. inversion K as [|? ? Ks K']; subst. specialize (IH G' K'). cbn [sresults]. unfold second_pass at 1. rewrite map_rts. cbn [remove_layers]. rewrite (removes_first y _ L Y (tidy_words s Gs) Ks). set (L0 := map slashless (split_ws (s_value s))) in *.
    assert (OP := O1 s ss eq_refl).
    assert (Q : forall st1 st1' rm1, rel y st1 st1' -> let '((add', rm'), sr, u) := sresults _ (second_pass plus [y]) ([], rm1) ss in add' = [] /\ rel y (folds ss st1) (folds sr st1') /\ (In y rm' <-> In y rm1 \/ exists s, In s ss /\ In y (map slashless (split_ws (s_value s))))).
    { intros st1 st1' rm1 R1. apply IH; [exact R1| |intros a t J; apply O2; destruct ss; [destruct J|right; exact J]]. intros a t ->. left. apply (O2 a a); [left; reflexivity|reflexivity]. }
    destruct (mem_str y L0) eqn:M.
    + apply mem_str_In in M. cbn [remove_layers]. replace (if plus then (without_layer y L0, true, []) else let '(l, u) := add_layers [] (without_layer y L0) true in (l, u, [])) with (without_layer y L0, true, @nil str) by (destruct plus; reflexivity).
      destruct (seqb (op_text (s_op s)) (s_ "+=") && match without_layer y L0 with [] => true | _ => false end) eqn:D.
      * apply andb_true_iff in D. destruct D as [D1 D2]. assert (OA : s_op s = OAppend) by (destruct (s_op s); try discriminate D1; reflexivity). assert (E0 : without_layer y L0 = []) by (destruct (without_layer y L0); [reflexivity|discriminate D2]).
        specialize (Q (operate OAppend (s_value s) st) st' (rm ++ [y]) (drop_rel y _ _ _ R E0)). destruct (sresults _ (second_pass plus [y]) ([], rm ++ [y]) ss) as [[[add' rm'] sr] u]. destruct Q as (Q1 & Q2 & Q3). split; [exact Q1|]. split; [cbn [folds fold_left]; rewrite OA; exact Q2|].
        rewrite Q3. split; [intros [I|(t & I & J)]|intros _; left; apply in_or_app; right; left; reflexivity]; [right; exists s; split; [left; reflexivity|exact M]|right; exists t; split; [right; exact I|exact J]].
      * assert (V : map slashless (split_ws (s_value (listed s (without_layer y L0)))) = without_layer y L0).
        { rewrite listed_words by (apply (word_listed s); [exact Gs|intros z J; apply filter_In in J; apply J]). apply map_id_tidy. apply Forall_forall. intros z J. apply filter_In in J. pose proof (tidy_words s Gs) as T. rewrite Forall_forall in T. apply T, J. }
        specialize (Q (operate (s_op s) (s_value s) st) (operate (s_op s) (s_value (listed s (without_layer y L0))) st') (rm ++ [y]) (operate_rel y _ _ _ _ _ OP R V)). destruct (sresults _ (second_pass plus [y]) ([], rm ++ [y]) ss) as [[[add' rm'] sr] u]. destruct Q as (Q1 & Q2 & Q3). split; [exact Q1|]. split; [exact Q2|].
        rewrite Q3. split; [intros [I|(t & I & J)]|intros _; left; apply in_or_app; right; left; reflexivity]; [right; exists s; split; [left; reflexivity|exact M]|right; exists t; split; [right; exact I|exact J]].
    + assert (M' : ~ In y L0) by (intro I; apply mem_str_In in I; congruence). cbn [remove_layers]. replace (if plus then (L0, false, []) else let '(l, u) := add_layers [] L0 false in (l, u, [])) with (L0, false, @nil str) by (destruct plus; reflexivity).
      specialize (Q (operate (s_op s) (s_value s) st) (operate (s_op s) (s_value s) st') rm (operate_rel y _ _ _ _ _ OP R (eq_sym (without_absent y L0 M')))). destruct (sresults _ (second_pass plus [y]) ([], rm) ss) as [[[add' rm'] sr] u]. destruct Q as (Q1 & Q2 & Q3). split; [exact Q1|]. split; [exact Q2|].
      rewrite Q3. split; intros [I|(t & I & J)]; [left; exact I|right; exists t; split; [right; exact I|exact J]|left; exact I|]. destruct I as [<-|I]; [contradiction|right; exists t; split; assumption].
Qed.
Lemma remove_none y : literal y -> slashless y = y -> forall ss plus rm, Forall (fun s => good_part (Setting s)) ss -> (forall s, In s ss -> ~ In y (map slashless (split_ws (s_value s)))) ->
  sresults _ (second_pass plus [y]) ([], rm) ss = (([], rm), ss, false).
Proof.
  intros L Y ss plus rm G. induction G as [|s ss Gs G IH]; intro N; [reflexivity|]. cbn [sresults]. unfold second_pass at 1. rewrite map_rts. cbn [remove_layers].
  assert (N1 := N s (or_introl eq_refl)). rewrite (removes_first y _ L Y (tidy_words s Gs)) by (rewrite (proj1 (count_occ_not_In (list_eq_dec ascii_dec) _ _) N1); lia). apply mem_str_false in N1. rewrite N1. replace (if plus then (map slashless (split_ws (s_value s)), false, []) else _) with (map slashless (split_ws (s_value s)), false, @nil str) by (destruct plus; reflexivity).
  rewrite IH by (intros t I; apply N; right; exact I). reflexivity.
Qed.
