(** Lemmas on mirrors. *)
From Coq Require Import Ascii String List Bool Arith Lia Permutation.
From Verif Require Sstname_Proofs.
From Verif Require Import Str_Model Str_Proofs Data_Model Data_Proofs Posix_Model Posix_Proofs Url_Model Url_Spec Url_Proofs Mirror_Model Mirror_Spec.
Import ListNotations.
Open Scope list_scope.

(** ** Replacing texts *)
Lemma replace_none_aux p t : p <> [] -> forall s, contains_sub p s = false -> replace_aux p t 0 s = s.
Proof.
  intros N. induction s as [|c s IH]; intro H; [reflexivity|]. cbn [contains_sub] in H. apply orb_false_iff in H. destruct H as [H1 H2]. cbn [replace_aux]. rewrite H1. f_equal. apply IH, H2.
Qed.
Lemma replace_none p t s : contains_sub p s = false -> replace_str p t s = s.
Proof. intros H. unfold replace_str. destruct p as [|c p]; [reflexivity|]. apply replace_none_aux; [discriminate|exact H]. Qed.
Lemma replace_skip p t : forall k s, length s = k -> replace_aux p t k s = [].
Proof. induction k as [|k IH]; intros [|c s] L; try discriminate L; [reflexivity|]. cbn [replace_aux]. apply IH. injection L as L. exact L. Qed.
Lemma replace_whole p t : p <> [] -> replace_str p t p = t.
Proof.
  intros N. unfold replace_str. destruct p as [|c p]; [congruence|]. cbn [replace_aux].
  assert (S : startswith (c :: p) (c :: p) = true) by (apply startswith_iff; exists []; rewrite app_nil_r; reflexivity). rewrite S. rewrite replace_skip by (cbn [length]; lia). apply app_nil_r.
Qed.
Lemma subst_plain reps s : (forall kv, In kv reps -> contains_sub (fst kv) s = false) -> subst reps s = s.
Proof.
  unfold subst. induction reps as [|kv reps IH]; intro H; [reflexivity|]. cbn [fold_left]. rewrite replace_none by (apply H; left; reflexivity). apply IH. intros x I. apply H. right. exact I.
Qed.
Lemma subst_keywords t h p s : plain s -> subst (replacements t h p) s = s.
Proof. intro P. apply subst_plain. intros kv I. apply P. cbn in I. cbn. destruct I as [<-|[<-|[<-|[<-|[<-|[]]]]]]; cbn [fst]; tauto. Qed.

(** ** Regular expressions *)
Lemma star_any k : forall s, ~ In nl s -> k [] <> None -> star k UAny s = k [].
Proof.
  induction s as [|c s IH]; intros N K; [reflexivity|]. cbn [star fits]. assert (E : aeqb c nl = false) by (apply aeqb_neq; intro; subst; apply N; left; reflexivity). rewrite E. cbn [negb].
  rewrite IH; [|intro I; apply N; right; exact I|exact K]. destruct (k []) eqn:Q; [reflexivity|congruence].
Qed.
Lemma match_dotstar s : ~ In nl s -> re_match (s_ ".*") s = Some [].
Proof. intro N. change (re_match (s_ ".*") s) with (star (match_items []) UAny s). rewrite star_any; [reflexivity|exact N|discriminate]. Qed.
Lemma match_pathstar s : ~ In nl s -> re_match (s_ "/.*") ("/"%char :: s) = Some [].
Proof. intro N. change (re_match (s_ "/.*") ("/"%char :: s)) with (star (match_items []) UAny s). rewrite star_any; [reflexivity|exact N|discriminate]. Qed.
Lemma alpha_not : forall c d, is_alpha c = true -> is_alpha d = false -> aeqb c d = false.
Proof. intros c d A B. apply aeqb_neq. intros ->. congruence. Qed.
Lemma units_letters : forall t, (forall c, In c t -> is_alpha c = true) -> units (t ++ s_ "$") = map (fun c => One (UChar c)) t ++ [End].
Proof.
  induction t as [|c t IH]; intro A; [reflexivity|]. assert (AC : is_alpha c = true) by (apply A; left; reflexivity). specialize (IH (fun d I => A d (or_intror I))).
  assert (X : units (c :: (t ++ s_ "$")) = One (UChar c) :: units (t ++ s_ "$")).
  { cbn [units]. rewrite !(alpha_not c _ AC) by reflexivity. cbn [andb]. destruct t as [|d t]; [reflexivity|]. cbn [app]. assert (AD : is_alpha d = true) by (apply A; right; left; reflexivity). rewrite !(alpha_not d _ AD) by reflexivity. reflexivity. }
  cbn [app map]. rewrite X, IH. reflexivity.
Qed.
Lemma compile_letters t : letters t -> compile (anchored t) = map (fun c => One (UChar c)) t ++ [End].
Proof.
  intros [N A]. assert (E : anchored t = t ++ s_ "$").
  { unfold anchored. destruct t as [|c t]; [congruence|]. destruct (endswith (s_ "$") (c :: t)) eqn:Q; [|reflexivity]. exfalso. apply endswith_iff in Q. destruct Q as [r Q]. assert (F := A "$"%char). rewrite Q in F. discriminate F. apply in_or_app. right. left. reflexivity. }
  rewrite E. destruct t as [|c t]; [congruence|]. assert (H : aeqb c "^" = false) by (apply alpha_not; [apply A; left; reflexivity|reflexivity]).
  change (compile ((c :: t) ++ s_ "$")) with (if aeqb c "^" then units (t ++ s_ "$") else units ((c :: t) ++ s_ "$")). rewrite H. apply units_letters. exact A.
Qed.
Lemma match_ones : forall t s r, match_items (map (fun c => One (UChar c)) t ++ [End]) s = Some r <-> (s = t /\ r = []) \/ (s = t ++ [nl] /\ r = [nl]).
Proof.
  induction t as [|c t IH]; intros s r.
  - cbn [map app match_items]. destruct s as [|d [|e s]].
    + split; [intro E; injection E as <-; left; split; reflexivity|intros [[_ ->]|[E _]]; [reflexivity|discriminate E]].
    + destruct (aeqb d nl) eqn:Q.
      * apply aeqb_eq in Q. subst d. split; [intro E; injection E as <-; right; split; reflexivity|intros [[E _]|[_ ->]]; [discriminate E|reflexivity]].
      * split; [discriminate|]. intros [[E _]|[E _]]; [discriminate E|]. injection E as ->. rewrite (proj2 (aeqb_eq nl nl) eq_refl) in Q. discriminate Q.
    + split; [discriminate|]. intros [[E _]|[E _]]; discriminate E.
  - cbn [map app match_items fits]. destruct s as [|d s].
    + split; [discriminate|]. intros [[E _]|[E _]]; discriminate E.
    + destruct (aeqb d c) eqn:Q.
      * apply aeqb_eq in Q. subst d. rewrite IH. split; intros [[E R]|[E R]]; [left|right|left|right]; (split; [|exact R]); [congruence|congruence|injection E as E; exact E|injection E as E; exact E].
      * split; [discriminate|]. intros [[E _]|[E _]]; injection E as -> _; rewrite (proj2 (aeqb_eq c c) eq_refl) in Q; discriminate Q.
Qed.
Lemma match_letters t s : letters t -> ~ In nl s -> re_match (anchored t) s = if seqb s t then Some [] else None.
Proof.
  intros L N. unfold re_match. rewrite (compile_letters t L). destruct (match_items (map (fun c => One (UChar c)) t ++ [End]) s) as [r|] eqn:E.
  - apply match_ones in E. destruct E as [[-> ->]|[-> ->]]; [rewrite seqb_refl; reflexivity|]. exfalso. apply N. apply in_or_app. right. left. reflexivity.
  - destruct (seqb s t) eqn:Q; [|reflexivity]. apply seqb_eq in Q. subst s. assert (M := proj2 (match_ones t t []) (or_introl (conj eq_refl eq_refl))). congruence.
Qed.

(** ** Names *)
Lemma head_part_slash : forall p, head_part p = [] -> ~ In "/"%char p.
Proof.
  induction p as [|c p IH]; intros H I; [exact I|]. cbn [head_part] in H. destruct (head_part p) eqn:E; [|discriminate H]. destruct (is_slash c) eqn:S; [discriminate H|]. destruct I as [->|I]; [discriminate S|exact (IH eq_refl I)].
Qed.
Lemma head_basename : forall p, p = head_part p ++ basename p /\ ~ In "/"%char (basename p).
Proof.
  unfold basename. induction p as [|c p [IH1 IH2]]; [split; [reflexivity|intros []]|]. cbn [head_part]. destruct (head_part p) as [|h hs] eqn:E.
  - pose proof (head_part_slash p E) as N. cbn [app length skipn] in IH1, IH2. destruct (is_slash c) eqn:S; cbn [length skipn app]; [split; [reflexivity|exact N]|]. split; [reflexivity|]. intros [->|I]; [discriminate S|exact (N I)].
  - change (length (c :: h :: hs)) with (S (length (h :: hs))). cbn [skipn]. split; [cbn [app]; rewrite IH1 at 1; reflexivity|exact IH2].
Qed.
Lemma endswith_slash_no : forall d n, n <> [] -> ~ In "/"%char n -> endswith (s_ "/" ++ n) (d ++ s_ "/") = false.
Proof.
  intros d n N S. destruct (endswith (s_ "/" ++ n) (d ++ s_ "/")) eqn:E; [|reflexivity]. exfalso. apply endswith_iff in E. destruct E as [r E]. destruct (exists_last N) as (m & c & ->). rewrite !app_assoc in E. apply app_inj_tail in E. destruct E as [_ E]. apply S. apply in_or_app. right. left. symmetry. exact E.
Qed.
Lemma named_ends name orig new : name <> [] -> ~ In "/"%char name -> exists d, s_ "/" ++ named name orig new = d ++ s_ "/" ++ name.
Proof.
  intros N S. unfold named. destruct name as [|x name]; [congruence|]. set (nm := x :: name) in *. set (old := basename orig). set (path := s_ "/" ++ new).
  destruct (negb (seqb old []) && negb (seqb nm old) && endswith (s_ "/" ++ old) path) eqn:C.
  - apply andb_true_iff in C. destruct C as [_ C]. apply endswith_iff in C. destruct C as [t C].
    assert (F : firstn (length path - length old) path = t ++ s_ "/").
    { rewrite C. assert (L : length (t ++ s_ "/" ++ old) - length old = length (t ++ s_ "/")) by (rewrite app_assoc, app_length; lia). rewrite L, app_assoc, firstn_app, firstn_all, Nat.sub_diag. cbn [firstn]. apply app_nil_r. }
    rewrite F. destruct t as [|c t].
    + exists []. reflexivity.
    + exists (c :: t). assert (c = "/"%char) by (unfold path in C; cbn in C; injection C as E _; symmetry; exact E). subst c. cbn [skipn app]. rewrite <- app_assoc. reflexivity.
  - destruct (negb (endswith (s_ "/" ++ nm) path)) eqn:D.
    + change (skipn 1 path) with new. unfold pjoin. assert (I : isabs nm = false) by (cbn; destruct (is_slash x) eqn:Q; [|reflexivity]; exfalso; apply S; left; apply aeqb_eq; exact Q). rewrite I.
      destruct (rev new) as [|c r] eqn:R.
      * exists []. reflexivity.
      * assert (E : new = rev r ++ [c]) by (rewrite <- (rev_involutive new), R; reflexivity). destruct (is_slash c) eqn:Q.
        -- apply aeqb_eq in Q. exists (s_ "/" ++ rev r). rewrite E, Q. cbn [app]. rewrite <- !app_assoc. reflexivity.
        -- exists (s_ "/" ++ new). rewrite <- app_assoc. reflexivity.
    + apply negb_false_iff in D. apply endswith_iff in D. destruct D as [t D]. exists t. exact D.
Qed.

(** ** Parameters *)
Lemma set_params_get reps : forall repl m k, NoDup (map fst repl) -> get (set_params reps repl m) k = match get repl k with Some v => Some (subst reps v) | None => get m k end.
Proof.
  unfold set_params. induction repl as [|[k' v] repl IH]; intros m k N; [reflexivity|]. cbn [map fst] in N. inversion N as [|? ? NI NR]; subst. cbn [fold_left fst snd]. rewrite (IH _ _ NR). cbn [get]. rewrite get_set.
  destruct (seqb k k') eqn:E; [|reflexivity]. apply seqb_eq in E. subst k'. assert (G : get repl k = None).
  { clear - NI. induction repl as [|[a b] repl IH]; [reflexivity|]. cbn [get]. destruct (seqb k a) eqn:E; [apply seqb_eq in E; subst; exfalso; apply NI; left; reflexivity|]. apply IH. intro I. apply NI. right. exact I. }
  rewrite G. reflexivity.
Qed.
Lemma same_params_iff : forall find orig, same_params find orig = Some true <-> forall k v, In (k, v) find -> get orig k = Some v.
Proof.
  induction find as [|[k v] find IH]; intro orig; [split; [intros _ k v []|reflexivity]|]. cbn [same_params]. destruct (get orig k) as [w|] eqn:G.
  - destruct (seqb w v) eqn:E.
    + apply seqb_eq in E. subst w. rewrite IH. split; [intros H a b [J|J]; [injection J as <- <-; exact G|apply H, J]|intros H a b J; apply H; right; exact J].
    + split; [discriminate|]. intro H. specialize (H k v (or_introl eq_refl)). rewrite G in H. injection H as ->. rewrite seqb_refl in E. discriminate E.
  - split; [discriminate|]. intro H. specialize (H k v (or_introl eq_refl)). congruence.
Qed.

(** ** Lines *)
Lemma replace_word : forall a c s, contains_sub (s_ "\n") a = false -> c <> "n"%char -> replace_aux (s_ "\n") (s_ " ") 0 (a ++ c :: s) = a ++ replace_aux (s_ "\n") (s_ " ") 0 (c :: s).
Proof.
  induction a as [|x a IH]; intros c s H C; [reflexivity|]. pose proof H as H'. cbn [contains_sub] in H. apply orb_false_iff in H. destruct H as [H1 H2]. cbn [app]. cbn [replace_aux].
  assert (N : startswith (s_ "\n") (x :: a ++ c :: s) = false).
  { destruct (startswith (s_ "\n") (x :: a ++ c :: s)) eqn:E; [|reflexivity]. exfalso. apply startswith_iff in E. destruct E as [t E]. destruct a as [|y a]; cbn in E.
    - injection E as _ E _. exact (C E).
    - injection E as -> -> E. discriminate H1. }
  rewrite N. f_equal. apply IH; assumption.
Qed.
Lemma drop_perm : forall x l, In x l -> Permutation l (x :: drop x l).
Proof.
  intros x l. induction l as [|y l IH]; intro I; [destruct I|]. cbn [drop]. destruct (seqb (fst x) (fst y) && seqb (snd x) (snd y)) eqn:E.
  - apply andb_true_iff in E. destruct E as [E1 E2]. apply seqb_eq in E1, E2. destruct x, y. cbn in E1, E2. subst. reflexivity.
  - destruct I as [->|I]; [rewrite !seqb_refl in E; discriminate E|]. rewrite (IH I) at 1. apply perm_swap.
Qed.
Lemma comes_app repl : forall u xs v, comes_by repl u xs v -> forall x w, repl v x = Some w -> comes_by repl u (xs ++ [x]) w.
Proof. intros u xs v H. induction H as [u|u x v xs w R C IH]; intros y z E; cbn [app]; [apply (comes_line _ _ _ z); [exact E|constructor]|apply (comes_line _ _ _ v); [exact R|apply IH, E]]. Qed.

(** ** Regular expressions *)
Lemma star_sound k u : forall s r, star k u s = Some r -> exists a b, s = a ++ b /\ (forall c, In c a -> fits u c = true) /\ k b = Some r.
Proof.
  induction s as [|c s IH]; intros r H; cbn [star] in H.
  - exists [], []. split; [reflexivity|]. split; [intros c []|exact H].
  - destruct (fits u c) eqn:F.
    + destruct (star k u s) as [r'|] eqn:E.
      * injection H as <-. destruct (IH r' eq_refl) as (a & b & -> & A & K). exists (c :: a), b. split; [reflexivity|]. split; [|exact K]. intros d [<-|I]; [exact F|exact (A d I)].
      * exists [], (c :: s). split; [reflexivity|]. split; [intros d []|exact H].
    + exists [], (c :: s). split; [reflexivity|]. split; [intros d []|exact H].
Qed.
Lemma star_none k u : forall a b, (forall c, In c a -> fits u c = true) -> star k u (a ++ b) = None -> k b = None.
Proof.
  induction a as [|c a IH]; intros b A H.
  - destruct b as [|c b]; [exact H|]. cbn [app star] in H. destruct (fits u c); [|exact H]. destruct (star k u b); [discriminate H|exact H].
  - cbn [app star] in H. rewrite (A c (or_introl eq_refl)) in H. apply IH; [intros d I; apply A; right; exact I|]. destruct (star k u (a ++ b)); [discriminate H|reflexivity].
Qed.
Lemma fit_stars u l post : forall a pre, (forall c, In c a -> fits u c = true) -> fit l pre post -> fit (Star u :: l) (a ++ pre) post.
Proof. induction a as [|c a IH]; intros pre A F; [apply fit_star0, F|]. cbn [app]. apply fit_star1; [apply A; left; reflexivity|]. apply IH; [intros d I; apply A; right; exact I|exact F]. Qed.
Lemma match_sound : forall l s r, match_items l s = Some r -> exists pre, s = pre ++ r /\ fit l pre r.
Proof.
  induction l as [|i l IH]; intros s r H.
  - injection H as <-. exists []. split; [reflexivity|constructor].
  - destruct i as [u|u|u|]; cbn [match_items] in H.
    + destruct s as [|c s]; [discriminate H|]. destruct (fits u c) eqn:F; [|discriminate H]. destruct (IH s r H) as (pre & -> & P). exists (c :: pre). split; [reflexivity|]. apply fit_one; assumption.
    + destruct (star_sound _ _ _ _ H) as (a & b & -> & A & K). destruct (IH b r K) as (pre & -> & P). exists (a ++ pre). split; [apply app_assoc|]. apply fit_stars; assumption.
    + destruct s as [|c s].
      * destruct (IH [] r H) as (pre & E & P). exists pre. split; [exact E|]. apply fit_opt0, P.
      * assert (N : match_items l (c :: s) = Some r -> exists pre, c :: s = pre ++ r /\ fit (Opt u :: l) pre r) by (intro X; destruct (IH _ _ X) as (pre & E & P); exists pre; split; [exact E|apply fit_opt0, P]).
        destruct (fits u c) eqn:F; [|exact (N H)]. destruct (match_items l s) as [r'|] eqn:E; [|exact (N H)]. injection H as <-. destruct (IH s r' E) as (pre & -> & P). exists (c :: pre). split; [reflexivity|]. apply fit_opt1; assumption.
    + destruct s as [|c [|d s]]; [| |discriminate H].
      * destruct (IH _ _ H) as (pre & E & P). exists pre. split; [exact E|]. apply fit_end; [left; symmetry; exact E|exact P].
      * destruct (aeqb c nl) eqn:C; [|discriminate H]. apply aeqb_eq in C. subst c. destruct (IH _ _ H) as (pre & E & P). exists pre. split; [exact E|]. apply fit_end; [right; symmetry; exact E|exact P].
Qed.
Lemma match_complete : forall l pre post, fit l pre post -> match_items l (pre ++ post) <> None.
Proof.
  intros l pre post F. induction F as [post|u c l pre post U F IH|u l pre post F IH|u c l pre post U F IH|u l pre post F IH|u c l pre post U F IH|l pre post E F IH].
  - discriminate.
  - cbn [app match_items]. rewrite U. exact IH.
  - cbn [match_items]. destruct (pre ++ post) as [|c s]; [exact IH|]. destruct (fits u c); [|exact IH]. destruct (match_items l s); [discriminate|exact IH].
  - cbn [app match_items]. rewrite U. destruct (match_items l (pre ++ post)); [discriminate|contradiction].
  - cbn [match_items]. intro H. apply IH. apply (star_none _ u [] (pre ++ post)); [intros c []|exact H].
  - cbn [match_items app star]. rewrite U. cbn [match_items] in IH. destruct (star (match_items l) u (pre ++ post)); [discriminate|contradiction].
  - cbn [match_items]. destruct E as [E|E]; rewrite E in IH |- *; [exact IH|]. exact IH.
Qed.
(** ** Other lemmas *)
Lemma basename_last d b : ~ In "/"%char b -> last (split_on "/"%char (d ++ s_ "/" ++ b)) [] = b.
Proof. intro N. apply Sstname_Proofs.split_on_last. apply no_char_In. exact N. Qed.
Lemma NoDup_snoc (l : list str) x : NoDup l -> ~ In x l -> NoDup (l ++ [x]).
Proof. intros D N. apply NoDup_rev in D. rewrite <- (rev_involutive (l ++ [x])). apply NoDup_rev. rewrite rev_app_distr. cbn [rev app]. constructor; [|exact D]. intro I. apply in_rev in I. exact (N I). Qed.
Definition add_step repl setup orig fuel u (lines : list (str * str)) (st : list str * option str) (line : str * str) : list str * option str :=
        let (uris, newud) := (st : list str * option str) in
        match repl u line with
        | None => st
        | Some new =>
            if mem_str new uris || seqb new orig then st
            else match setup new with
                 | Good => (adduri repl setup orig fuel new (drop line lines) (uris ++ [new]), Some new)
                 | No_path => (adduri repl setup orig fuel new (drop line lines) uris, Some new)
                 | No_data => match newud with Some old => (adduri repl setup orig fuel old (drop line lines) uris, newud) | None => st end
                 end
        end.
Lemma adduri_step repl setup orig fuel u lines uris : adduri repl setup orig (S fuel) u lines uris = fst (fold_left (add_step repl setup orig fuel u lines) lines (uris, None)).
Proof. reflexivity. Qed.
Lemma adduri_inv repl setup orig (P : list str -> Prop) : (forall us new, P us -> ~ In new us -> new <> orig -> P (us ++ [new])) ->
  forall fuel u lines uris, P uris -> P (adduri repl setup orig fuel u lines uris).
Proof.
  intro ST. induction fuel as [|fuel IH]; intros u lines uris H; [exact H|]. rewrite adduri_step.
  assert (X : forall ls st, P (fst st) -> P (fst (fold_left (add_step repl setup orig fuel u lines) ls st))).
  { induction ls as [|x ls IHL]; intros st S; [exact S|]. cbn [fold_left]. apply IHL. destruct st as [us nu]. cbn [fst] in S. unfold add_step. destruct (repl u x) as [new|]; [|exact S]. destruct (mem_str new us || seqb new orig) eqn:M; [exact S|]. apply orb_false_iff in M. destruct M as [M1 M2]. apply mem_str_false in M1. apply seqb_neq in M2.
    destruct (setup new); cbn [fst]; [apply IH, ST; assumption|apply IH; exact S|]. destruct nu; [cbn [fst]; apply IH; exact S|exact S]. }
  apply X. exact H.
Qed.
Lemma adduri_direct repl setup orig : forall fuel u lines uris x v, In x lines -> repl u x = Some v -> v <> orig -> setup v = Good -> In v (adduri repl setup orig (S fuel) u lines uris).
Proof.
  intros fuel u lines uris x v I R O G. rewrite adduri_step.
  assert (K : forall ls st, In v (fst st) -> In v (fst (fold_left (add_step repl setup orig fuel u lines) ls st))).
  { induction ls as [|y ls IHL]; intros st S; [exact S|]. cbn [fold_left]. apply IHL. destruct st as [us nu]. cbn [fst] in S. unfold add_step. destruct (repl u y) as [new|]; [|exact S]. destruct (mem_str new us || seqb new orig); [exact S|].
    assert (A : forall us' f w l, In v us' -> In v (adduri repl setup orig f w l us')) by (intros us' f w l J; apply (adduri_inv repl setup orig (fun z => In v z)); [intros; apply in_or_app; left; assumption|exact J]).
    destruct (setup new); cbn [fst]; [apply A; apply in_or_app; left; exact S|apply A; exact S|]. destruct nu; [cbn [fst]; apply A; exact S|exact S]. }
  assert (X : forall ls st, In x ls -> In v (fst (fold_left (add_step repl setup orig fuel u lines) ls st))).
  { induction ls as [|y ls IHL]; intros st J; [destruct J|]. cbn [fold_left]. destruct J as [->|J]; [|apply IHL, J]. apply K. destruct st as [us nu]. unfold add_step. rewrite R. destruct (mem_str v us) eqn:M; cbn [orb].
    - apply mem_str_In in M. exact M.
    - apply seqb_neq in O. rewrite O. rewrite G. cbn [fst]. apply (adduri_inv repl setup orig (fun z => In v z)); [intros; apply in_or_app; left; assumption|]. apply in_or_app. right. left. reflexivity. }
  apply X, I.
Qed.
