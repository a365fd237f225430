From Coq Require Import String Ascii List Bool Arith Lia.
From Verif Require Import Str_Model Str_Proofs Targets_Model Targets_Spec.
Import ListNotations.
Open Scope list_scope.

Lemma count_app (a b : str) : count_occ ascii_dec (a ++ b) colon = count_occ ascii_dec a colon + count_occ ascii_dec b colon.
Proof. induction a as [|x a IH]; cbn; auto. destruct (ascii_dec x colon); rewrite IH; auto. Qed.
Lemma count_none (a : str) : ~ In colon a -> count_occ ascii_dec a colon = 0.
Proof. intros H. now apply count_occ_not_In. Qed.

Lemma task_part_count t : ~ In colon t -> count_occ ascii_dec (s_ ":do_" ++ t) colon = 1.
Proof. intros H. rewrite count_app, (count_none t H). reflexivity. Qed.

(** A request without a configuration *)
Lemma names_conf_none r : good r -> r_conf r = None -> names_conf (text r) = false.
Proof.
  intros ((NC & _) & _ & _ & T) E. unfold names_conf, text. rewrite E. apply andb_false_iff. right. apply Nat.leb_gt. cbn [app]. rewrite count_app, (count_none _ NC).
  destruct (r_task r) as [t|] eqn:R; [|cbn; lia]. destruct (T t eq_refl) as [[TC _] _]. rewrite task_part_count; auto.
Qed.
Lemma names_conf_some r c : r_conf r = Some c -> names_conf (text r) = true.
Proof.
  intros E. unfold names_conf, text. rewrite E. apply andb_true_iff. split; [reflexivity|]. apply Nat.leb_le. rewrite !count_app. cbn. lia.
Qed.
Definition rest (r : request) : str := r_name r ++ match r_task r with None => [] | Some t => s_ ":do_" ++ t end.
Lemma text_split r c : r_conf r = Some c -> ~ In colon c -> split_on colon (text r) = s_ "mc" :: c :: split_on colon (rest r).
Proof.
  intros E NC. unfold text. rewrite E. change (s_ "mc:" ++ c ++ s_ ":") with (s_ "mc" ++ colon :: c ++ [colon]).
  rewrite <- !app_assoc. cbn [app]. rewrite <- app_assoc. cbn [app].
  rewrite split_on_cons by (apply no_char_In; intros [H|[H|[]]]; discriminate). f_equal. rewrite split_on_cons; [reflexivity|now apply no_char_In].
Qed.
Lemma rest_split r : good r -> split_on colon (rest r) = r_name r :: match r_task r with None => [] | Some t => [s_ "do_" ++ t] end.
Proof.
  intros ((NC & _) & _ & _ & T). unfold rest. destruct (r_task r) as [t|] eqn:R.
  - destruct (T t eq_refl) as [[TC _] _]. change (s_ ":do_" ++ t) with (colon :: (s_ "do_" ++ t)). rewrite split_on_cons by now apply no_char_In. f_equal. apply split_on_single.
    apply no_char_In. intros H. apply in_app_or in H. destruct H as [H|H]; [cbn in H; intuition discriminate|now apply TC].
  - rewrite app_nil_r. apply split_on_single. now apply no_char_In.
Qed.
Lemma rest_join r : good r -> join [colon] (split_on colon (rest r)) = rest r.
Proof.
  intros G. rewrite (rest_split r G). unfold rest. destruct (r_task r); cbn [join]; [reflexivity|now rewrite app_nil_r].
Qed.
Lemma cut_sub_none p s : p <> [] -> ~ In (hd zero p) s -> cut_sub p s = None.
Proof.
  intros NE. destruct p as [|c p]; [congruence|]. cbn [hd]. induction s as [|x s IH]; intros H; cbn [cut_sub startswith]; auto.
  assert (E : aeqb c x = false). { destruct (aeqb c x) eqn:E; auto. apply aeqb_eq in E. subst. elim H. now left. }
  rewrite E. cbn [andb]. rewrite IH; auto. intros I. apply H. now right.
Qed.
Lemma cut_sub_some p a b : p <> [] -> ~ In (hd zero p) a -> cut_sub p (a ++ p ++ b) = Some (a, b).
Proof.
  intros NE. destruct p as [|c p]; [congruence|]. cbn [hd]. induction a as [|x a IH]; intros H.
  - cbn [app]. change (c :: p ++ b) with ((c :: p) ++ b). destruct ((c :: p) ++ b) eqn:Q; [discriminate|]. cbn [cut_sub]. rewrite <- Q. rewrite startswith_app. f_equal. f_equal. now rewrite skipn_app, skipn_all, Nat.sub_diag.
  - cbn [app cut_sub startswith]. assert (E : aeqb c x = false). { destruct (aeqb c x) eqn:E; auto. apply aeqb_eq in E. subst. elim H. now left. }
    rewrite E. cbn [andb]. change (a ++ c :: p ++ b) with (a ++ (c :: p) ++ b). rewrite IH; auto. intros I. apply H. now right.
Qed.
Lemma do_prefix_some t : (forall u, t <> s_ "do_" ++ u) -> do_prefix t = s_ "do_" ++ t.
Proof. intros H. unfold do_prefix. destruct (startswith (s_ "do_") t) eqn:E; auto. apply startswith_iff in E. destruct E as [u ->]. now elim (H u). Qed.
Lemma do_prefix_idem t : do_prefix (do_prefix t) = do_prefix t.
Proof. unfold do_prefix at 1. destruct (startswith (s_ "do_") (do_prefix t)) eqn:E; auto. exfalso. unfold do_prefix in E. destruct (startswith (s_ "do_") t) eqn:F; congruence || (rewrite startswith_app in E; discriminate). Qed.

Lemma parse_target_good mcs task r : good r -> (forall c, r_conf r = Some c -> ~ In colon c) -> In (conf_of r) mcs ->
  parse_target mcs (do_prefix task) (text r) = Some (meaning (do_prefix task) r).
Proof.
  intros G NC I. unfold parse_target.
  assert (H : (if names_conf (text r) then (nth 1 (split_on colon (text r)) [], join [colon] (skipn 2 (split_on colon (text r)))) else ([], text r)) = (conf_of r, rest r)).
  { unfold conf_of. destruct (r_conf r) as [c|] eqn:E.
    - rewrite (names_conf_some r c E), (text_split r c E (NC c eq_refl)). cbn [nth skipn]. now rewrite rest_join.
    - rewrite (names_conf_none r G E). unfold text, rest. now rewrite E. }
  rewrite H. assert (M : mem_str (conf_of r) mcs = true) by now apply mem_str_In. unfold meaning, task_of, rest.
  destruct G as ((NN & _) & _ & _ & T). destruct (r_task r) as [t|] eqn:R.
  - destruct (T t eq_refl) as [[TC _] TD]. rewrite cut_sub_some by (discriminate || exact NN). rewrite cut_sub_none by (discriminate || exact TC). rewrite M. now rewrite do_prefix_some.
  - rewrite app_nil_r. rewrite cut_sub_none by (discriminate || exact NN). rewrite M. now rewrite do_prefix_idem.
Qed.
Lemma parse_target_unknown mcs task r : good r -> (forall c, r_conf r = Some c -> ~ In colon c) -> ~ In (conf_of r) mcs ->
  parse_target mcs task (text r) = None.
Proof.
  intros G NC I. unfold parse_target.
  assert (H : (if names_conf (text r) then (nth 1 (split_on colon (text r)) [], join [colon] (skipn 2 (split_on colon (text r)))) else ([], text r)) = (conf_of r, rest r)).
  { unfold conf_of. destruct (r_conf r) as [c|] eqn:E.
    - rewrite (names_conf_some r c E), (text_split r c E (NC c eq_refl)). cbn [nth skipn]. now rewrite rest_join.
    - rewrite (names_conf_none r G E). unfold text, rest. now rewrite E. }
  rewrite H. assert (M : mem_str (conf_of r) mcs = false) by now apply mem_str_false. destruct (cut_sub (s_ ":do_") (rest r)) as [[a b]|]; now rewrite M.
Qed.
Lemma parse_all_app mcs task a b : parse_all mcs task (a ++ b) =
  match parse_all mcs task a, parse_all mcs task b with Some x, Some y => Some (x ++ y) | _, _ => None end.
Proof.
  induction a as [|k a IH]; cbn [app parse_all]; [now destruct (parse_all mcs task b)|]. rewrite IH. destruct (parse_target mcs task k); auto.
  destruct (parse_all mcs task a); auto. now destruct (parse_all mcs task b).
Qed.
Lemma parse_all_good mcs task l : Forall good l -> Forall (fun r => (forall c, r_conf r = Some c -> ~ In colon c) /\ In (conf_of r) mcs) l ->
  parse_all mcs (do_prefix task) (map text l) = Some (map (meaning (do_prefix task)) l).
Proof.
  intros G. induction G as [|r l Gr G IH]; intros H; auto. inversion H as [|? ? (A & B) C]; subst. cbn [map parse_all]. now rewrite parse_target_good, IH.
Qed.

(** checkPackages leaves such requests alone *)
Lemma not_word w r : good r -> ~ In colon w -> r_name r <> w -> (forall u, s_ "mc:" ++ u <> w) -> text r <> w.
Proof.
  intros G NC N M E. unfold text in E. destruct (r_conf r) as [c|].
  - apply NC. rewrite <- E. apply in_or_app. left. cbn. auto.
  - cbn [app] in E. destruct (r_task r) as [t|]; [|rewrite app_nil_r in E; congruence].
    apply NC. rewrite <- E. apply in_or_app. right. cbn. auto.
Qed.
Lemma split_colon_eq (a b x y : str) : ~ In colon a -> ~ In colon b -> a ++ colon :: x = b ++ colon :: y -> a = b.
Proof.
  revert b. induction a as [|c a IH]; intros [|d b] A B E; auto; cbn in E; injection E as E1 E2.
  - subst. elim B. now left.
  - subst. elim A. now left.
  - subst. f_equal. apply IH; auto; intros I; [apply A|apply B]; now right.
Qed.
Lemma not_respelled r : good r -> startswith (s_ "multiconfig:") (text r) = false.
Proof.
  intros G. destruct (startswith (s_ "multiconfig:") (text r)) eqn:E; auto. exfalso. apply startswith_iff in E. destruct E as [u E].
  destruct G as ((NC & _) & _ & W & _). unfold text in E. destruct (r_conf r) as [c|]; [discriminate|]. cbn [app] in E.
  assert (MC : ~ In colon (s_ "multiconfig")) by (cbn; intuition discriminate).
  change (s_ "multiconfig:" ++ u) with (s_ "multiconfig" ++ colon :: u) in E.
  destruct (r_task r) as [t|].
  - change (s_ ":do_" ++ t) with (colon :: (s_ "do_" ++ t)) in E. apply split_colon_eq in E; auto. apply W. rewrite E. cbn. auto.
  - rewrite app_nil_r in E. apply NC. rewrite E. apply in_or_app. right. now left.
Qed.
Lemma respell_same l : Forall (fun p => startswith (s_ "multiconfig:") p = false) l -> respell l = l.
Proof.
  unfold respell. enough (H : forall l0, Forall (fun p => startswith (s_ "multiconfig:") p = false) l -> fold_left (fun l p => if startswith (s_ "multiconfig:") p then remove_word p l ++ [replace_str (s_ "multiconfig:") (s_ "mc:") p] else l) l l0 = l0) by auto.
  induction l as [|p l IH]; intros l0 F; auto. inversion F; subst. cbn [fold_left]. rewrite H1. auto.
Qed.
Lemma check_same mcs world universe l : Forall good l -> check_packages mcs world universe (map text l) = map text l.
Proof.
  intros G. unfold check_packages. rewrite respell_same.
  2:{ apply Forall_forall. intros k K. apply in_map_iff in K. destruct K as (r & <- & R). apply not_respelled. rewrite Forall_forall in G. auto. }
  assert (X : forall w, In w [s_ "world"; s_ "universe"] -> mem_str w (map text l) = false).
  { intros w W. apply mem_str_false. intros I. apply in_map_iff in I. destruct I as (r & E & R). rewrite Forall_forall in G. specialize (G r R). revert E. apply not_word; auto.
    - destruct W as [<-|[<-|[]]]; cbn; intuition discriminate.
    - intros E. destruct G as (_ & _ & N & _). apply N. rewrite E. destruct W as [<-|[<-|[]]]; cbn; auto.
    - intros u E. destruct W as [<-|[<-|[]]]; discriminate. }
  unfold unfold_word. rewrite X by (cbn; auto). now rewrite X by (cbn; auto).
Qed.

(** The wildcard *)
Definition bare (r : request) : bool := match r_conf r with None => true | Some _ => false end.
Lemma expand_plain mcs l : Forall good l -> Forall (fun r => forall c, r_conf r = Some c -> plain c) l ->
  forall more full i e, expand mcs (map text l ++ more) full i e false = expand mcs more (full ++ map text l) i (e || existsb bare l) false.
Proof.
  intros G. induction G as [|r l Gr G IH]; intros P more full i e.
  - cbn. now rewrite app_nil_r, orb_false_r.
  - inversion P as [|? ? Pr Pl]; subst. cbn [map app expand existsb]. unfold bare at 1. destruct (r_conf r) as [c|] eqn:E.
    + rewrite (names_conf_some r c E). destruct (Pr c eq_refl) as [NC NS]. rewrite (text_split r c E NC). cbn [nth].
      assert (Q : seqb c [star] = false). { destruct (seqb c [star]) eqn:Q; auto. apply seqb_eq in Q. subst. elim NS. now left. }
      rewrite Q, IH by auto. rewrite <- app_assoc. cbn [app orb]. reflexivity.
    + rewrite (names_conf_none r Gr E), IH by auto. rewrite <- app_assoc. cbn [app orb]. now rewrite orb_true_r.
Qed.
Lemma expand_bare mcs l : Forall good l -> Forall (fun r => r_conf r = None) l ->
  forall full i e w, expand mcs (map text l) full i e w = Some (full ++ map text l, i, e || existsb bare l).
Proof.
  intros G. induction G as [|r l Gr G IH]; intros P full i e w.
  - cbn. now rewrite app_nil_r, orb_false_r.
  - inversion P as [|? ? Pr Pl]; subst. cbn [map expand existsb]. unfold bare at 1. rewrite Pr, (names_conf_none r Gr Pr), IH by auto. rewrite <- app_assoc. cbn [app orb]. now rewrite orb_true_r.
Qed.
Lemma replace_none t s : ~ In star s -> replace_char star t s = s.
Proof.
  unfold replace_char. induction s as [|x s IH]; intros H; auto. cbn [flat_map].
  assert (E : aeqb x star = false). { destruct (aeqb x star) eqn:E; auto. apply aeqb_eq in E. subst. elim H. now left. }
  rewrite E. cbn [app]. f_equal. apply IH. intros I. apply H. now right.
Qed.
Lemma replace_app c t a b : replace_char c t (a ++ b) = replace_char c t a ++ replace_char c t b.
Proof. apply flat_map_app. Qed.
Definition within (mc : str) (r : request) : request := Build_request (Some mc) (r_name r) (r_task r).
Lemma replace_text r mc : good r -> r_conf r = Some [star] -> replace_char star mc (text r) = text (within mc r).
Proof.
  intros ((_ & NS) & _ & _ & T) E. unfold text, within. rewrite E. cbn [r_conf r_name r_task]. rewrite !replace_app, (replace_none mc _ NS).
  change (replace_char star mc (s_ "mc:")) with (s_ "mc:"). change (replace_char star mc (s_ ":")) with (s_ ":").
  replace (replace_char star mc [star]) with mc by (cbn; now rewrite app_nil_r). f_equal. f_equal.
  destruct (r_task r) as [t|]; auto. destruct (T t eq_refl) as [[_ TS] _]. apply replace_none. intros I. apply in_app_or in I. destruct I as [I|I]; [cbn in I; intuition discriminate|auto].
Qed.
