(** Commands of root file systems: lemmas. *)
From Coq Require Import Ascii String List Bool Arith Lia Permutation.
From Verif Require Import Str_Model Str_Proofs Rootcmd_Model Rootcmd_Spec.
Import ListNotations.
Open Scope list_scope.

(** ** Arguments *)
Definition chdir_text (items : list item) : str := flat_map (fun i => match i with Chdir d => s_ " --chdir " ++ d | _ => [] end) items.
Definition bind_text (items : list item) : str := flat_map (fun i => match i with Bind x y => s_ " --bind " ++ x ++ s_ " " ++ y | _ => [] end) items.
Definition ok_roots (l : list str) : Prop := forall a r b, l = a ++ r :: b -> b <> [] -> r = [].
Lemma ok_cons : forall r l, ok_roots (r :: l) -> l <> [] -> r = [].
Proof. intros r l H N. apply (H [] r l eq_refl N). Qed.
Lemma ok_tail : forall r l, ok_roots (r :: l) -> ok_roots l.
Proof. intros r l H a x b E N. apply (H (r :: a) x b); [rewrite E; reflexivity|exact N]. Qed.
Lemma ok_nil : forall l, ok_roots ([] :: l) <-> ok_roots l.
Proof. intro l. split; [apply ok_tail|]. intros H [|y a] x b E N; injection E as <- E; [reflexivity|apply (H a x b E N)]. Qed.
Lemma plain_tests : forall r, plain r -> seqb r (s_ "--") = false /\ seqb r (s_ "--bind") = false /\ seqb r (s_ "--chdir") = false /\ startswith (s_ "-") r = false.
Proof.
  intros r P. repeat split; try (apply seqb_neq; intro E; apply (P (tl r)); rewrite E; reflexivity).
  destruct (startswith (s_ "-") r) eqn:E; [|reflexivity]. apply startswith_iff in E. destruct E as [t E]. exfalso. exact (P t E).
Qed.
Lemma options_usage : forall items v cmd, (forall r, In r (roots items) -> plain r) -> ok_roots (v_root v :: roots items) ->
  options (usage items cmd) v = inr (mkVars (v_args v ++ chdir_text items) (v_binds v ++ bind_text items) (last (roots items) (v_root v)), s_ "--" :: cmd).
Proof.
  induction items as [|i items IH]; intros v cmd P O.
  - unfold usage, chdir_text, bind_text, roots. cbn [flat_map app last]. rewrite !app_nil_r. destruct v. reflexivity.
  - destruct i as [x y|d|r].
    + change (usage (Bind x y :: items) cmd) with (s_ "--bind" :: x :: y :: usage items cmd). cbn [options]. change (seqb (s_ "--bind") (s_ "--")) with false. cbn iota. rewrite IH; [|exact P|exact O].
      unfold chdir_text, bind_text. cbn [flat_map v_args v_binds v_root]. rewrite <- !app_assoc. reflexivity.
    + change (usage (Chdir d :: items) cmd) with (s_ "--chdir" :: d :: usage items cmd). cbn [options]. change (seqb (s_ "--chdir") (s_ "--")) with false. change (seqb (s_ "--chdir") (s_ "--bind")) with false. cbn iota. rewrite IH; [|exact P|exact O].
      unfold chdir_text, bind_text. cbn [flat_map v_args v_binds v_root]. rewrite <- !app_assoc. reflexivity.
    + change (usage (Root r :: items) cmd) with (r :: usage items cmd). cbn [options]. destruct (plain_tests r (P r (or_introl eq_refl))) as (T1 & T2 & T3 & T4). rewrite T1, T2, T3, T4.
      change (roots (Root r :: items)) with (r :: roots items) in *. rewrite (ok_cons _ _ O) by discriminate. rewrite IH; [|intros x I; apply P; right; exact I|cbn [v_root]; apply (ok_tail _ _ O)].
      unfold chdir_text, bind_text. cbn [flat_map v_args v_binds v_root]. f_equal. f_equal. f_equal. destruct (roots items) as [|x m]; [reflexivity|]. change (last (r :: x :: m) []) with (last (x :: m) []). clear. revert x. induction m as [|z m IH]; intro x; [reflexivity|apply IH].
Qed.
Lemma options_shape : forall n l v v' rest, length l <= n -> options l v = inr (v', rest) ->
  exists items, l = flat_map written items ++ rest /\ (forall r, In r (roots items) -> plain r) /\ ok_roots (v_root v :: roots items) /\ (rest = [] \/ exists c, rest = s_ "--" :: c).
Proof.
  induction n as [|n IH]; intros l v v' rest L H.
  - destruct l; [|cbn in L; lia]. injection H as <- <-. exists []. split; [reflexivity|]. split; [intros r []|]. split; [|left; reflexivity]. intros [|? [|? ?]] r b E N; [injection E as <- E; congruence|discriminate E|discriminate E].
  - destruct l as [|a l].
    { injection H as <- <-. exists []. split; [reflexivity|]. split; [intros r []|]. split; [|left; reflexivity]. intros [|? [|? ?]] r b E N; [injection E as <- E; congruence|discriminate E|discriminate E]. }
    cbn [options] in H. destruct (seqb a (s_ "--")) eqn:T1.
    { apply seqb_eq in T1. subst a. injection H as <- <-. exists []. split; [reflexivity|]. split; [intros r []|]. split; [|right; exists l; reflexivity]. intros [|? [|? ?]] r b E N; [injection E as <- E; congruence|discriminate E|discriminate E]. }
    destruct (seqb a (s_ "--bind")) eqn:T2.
    { apply seqb_eq in T2. subst a. destruct l as [|x [|y l]]; try discriminate H. apply IH in H; [|cbn in L; lia]. destruct H as (items & -> & P & O & R). exists (Bind x y :: items). split; [reflexivity|]. split; [exact P|]. split; [exact O|exact R]. }
    destruct (seqb a (s_ "--chdir")) eqn:T3.
    { apply seqb_eq in T3. subst a. destruct l as [|x l]; try discriminate H. apply IH in H; [|cbn in L; lia]. destruct H as (items & -> & P & O & R). exists (Chdir x :: items). split; [reflexivity|]. split; [exact P|]. split; [exact O|exact R]. }
    destruct (startswith (s_ "-") a) eqn:T4; [discriminate H|]. destruct (v_root v) as [|c w] eqn:V; [|discriminate H]. apply IH in H; [|cbn in L; lia]. destruct H as (items & -> & P & O & R).
    exists (Root a :: items). split; [reflexivity|]. split.
    { intros r [<-|I]; [|apply P, I]. intros t E. subst a. discriminate T4. }
    split; [|exact R]. apply ok_nil. exact O.
Qed.
Lemma one_word_word : forall w, one_word w -> word w.
Proof. intros w [N F]. split; [exact N|apply Forall_forall, F]. Qed.
Lemma add_words : forall ws a, Forall word ws -> split_ws (a ++ s_ " " ++ join (s_ " ") ws) = split_ws a ++ ws.
Proof. intros ws a F. change (s_ " " ++ join (s_ " ") ws) with (" "%char :: join (s_ " ") ws). rewrite split_ws_app by reflexivity. rewrite split_ws_join by exact F. reflexivity. Qed.
Lemma lit_word : forall w, negb (seqb w []) && forallb (fun c => negb (is_space c)) w = true -> word w.
Proof. intros w H. apply andb_true_iff in H. destruct H as [N F]. split; [intros ->; discriminate N|]. apply Forall_forall. intros c I. rewrite forallb_forall in F. apply negb_true_iff, F, I. Qed.
Lemma split_chdir : forall items a, (forall i, In i items -> item_words i) -> split_ws (a ++ chdir_text items) = split_ws a ++ chdirs items.
Proof.
  induction items as [|i items IH]; intros a W; [unfold chdir_text, chdirs; cbn [flat_map]; rewrite !app_nil_r; reflexivity|].
  assert (W' : forall j, In j items -> item_words j) by (intros j J; apply W; right; exact J). pose proof (W i (or_introl eq_refl)) as WI.
  destruct i as [x y|d|r]; unfold chdir_text, chdirs; cbn [flat_map]; fold (chdir_text items); fold (chdirs items); [apply IH, W'| |apply IH, W'].
  rewrite app_assoc, IH by exact W'. change (s_ " --chdir " ++ d) with (s_ " " ++ join (s_ " ") [s_ "--chdir"; d]). rewrite add_words; [rewrite <- app_assoc; reflexivity|].
  constructor; [apply lit_word; reflexivity|]. constructor; [apply one_word_word, WI|constructor].
Qed.
Lemma split_bind : forall items a, (forall i, In i items -> item_words i) -> split_ws (a ++ bind_text items) = split_ws a ++ binds items.
Proof.
  induction items as [|i items IH]; intros a W; [unfold bind_text, binds; cbn [flat_map]; rewrite !app_nil_r; reflexivity|].
  assert (W' : forall j, In j items -> item_words j) by (intros j J; apply W; right; exact J). pose proof (W i (or_introl eq_refl)) as WI.
  destruct i as [x y|d|r]; unfold bind_text, binds; cbn [flat_map]; fold (bind_text items); fold (binds items); [|apply IH, W'|apply IH, W'].
  rewrite app_assoc, IH by exact W'. change (s_ " --bind " ++ x ++ s_ " " ++ y) with (s_ " " ++ join (s_ " ") [s_ "--bind"; x; y]). rewrite add_words; [rewrite <- app_assoc; reflexivity|].
  destruct WI as [WX WY]. constructor; [apply lit_word; reflexivity|]. constructor; [apply one_word_word, WX|]. constructor; [apply one_word_word, WY|constructor].
Qed.
Lemma word_app : forall a b, Forall (fun c => is_space c = false) a -> word b -> word (a ++ b).
Proof. intros a b A [N B]. split; [intro E; apply app_eq_nil in E; apply N, E|apply Forall_app; split; assumption]. Qed.
Lemma split_ro : forall (isdir : str -> bool) root ds a, Forall (fun c => is_space c = false) root -> Forall word ds ->
  split_ws (fold_left (fun a d => if isdir (root ++ s_ "/" ++ d) then a ++ s_ " --ro-bind " ++ root ++ s_ "/" ++ d ++ s_ " /" ++ d else a) ds a) =
  split_ws a ++ flat_map (fun d => if isdir (root ++ s_ "/" ++ d) then [s_ "--ro-bind"; root ++ s_ "/" ++ d; s_ "/" ++ d] else []) ds.
Proof.
  intros isdir root ds. induction ds as [|d ds IH]; intros a R W; [cbn; rewrite app_nil_r; reflexivity|]. inversion W as [|? ? WD WS]; subst. cbn [fold_left flat_map]. rewrite IH by assumption.
  destruct (isdir (root ++ s_ "/" ++ d)); [|reflexivity]. match goal with |- _ = ?x ++ ?y ++ ?z => rewrite (app_assoc x y z) end. f_equal.
  assert (E : s_ " --ro-bind " ++ root ++ s_ "/" ++ d ++ s_ " /" ++ d = s_ " " ++ join (s_ " ") [s_ "--ro-bind"; root ++ s_ "/" ++ d; s_ "/" ++ d]) by (cbn [join]; rewrite <- !app_assoc; reflexivity).
  rewrite E. apply add_words. constructor; [apply lit_word; reflexivity|]. constructor; [apply word_app; [exact R|]; apply (word_app (s_ "/")); [repeat constructor|exact WD]|]. constructor; [apply (word_app (s_ "/")); [repeat constructor|exact WD]|constructor].
Qed.
Lemma ro_words : Forall word ro_dirs.
Proof. repeat constructor; try discriminate. Qed.

(** ** Names *)
Lemma ends_shape : forall s, ends s = true -> exists v a r, s = s_ "_" ++ v ++ s_ "_" ++ a ++ s_ ".deb'" ++ r.
Proof.
  intros [|c s] H; [discriminate H|]. cbn [ends] in H. apply andb_true_iff in H. destruct H as [C H]. apply aeqb_eq in C. subst c.
  destruct (cut_at "_"%char s) as [v [r|]] eqn:E; [|discriminate H]. destruct (cut_at "_"%char r) as [x y] eqn:E2. cbn [fst] in H. apply contains_sub_iff in H. destruct H as (a & b & ->).
  apply cut_at_spec in E. apply cut_at_spec in E2. destruct E as [_ E]. destruct E2 as [_ E2]. cbn in E, E2.
  exists v, a. destruct y as [y|]; [exists (b ++ "_"%char :: y)|exists b]; subst s r; cbn [app]; rewrite <- ?app_assoc; reflexivity.
Qed.
Lemma ends_quote : forall s, ~ In "'"%char s -> ends s = false.
Proof.
  intros s H. destruct (ends s) eqn:E; [|reflexivity]. exfalso. apply ends_shape in E. destruct E as (v & a & r & ->). apply H. apply in_or_app. right. apply in_or_app. right. apply in_or_app. right. apply in_or_app. right. apply in_or_app. left. cbn. auto 10.
Qed.
Lemma group_none : forall s, (forall p q, s = p ++ q -> ends q = false) -> group s = None.
Proof. induction s as [|c s IH]; intro H; [reflexivity|]. cbn [group]. rewrite IH by (intros p q E; apply (H (c :: p) q); rewrite E; reflexivity). rewrite (H [] (c :: s) eq_refl). reflexivity. Qed.
Lemma group_quote : forall s, ~ In "'"%char s -> group s = None.
Proof. intros s H. apply group_none. intros p q E. apply ends_quote. intro I. apply H. rewrite E. apply in_or_app. right. exact I. Qed.
Lemma split_unique : forall (c : ascii) a b x y, ~ In c a -> ~ In c b -> a ++ c :: b = x ++ c :: y -> a = x /\ b = y.
Proof.
  intro c. induction a as [|d a IH]; intros b x y A B E.
  - destruct x as [|d x]; [injection E as <-; auto|]. injection E as <- ->. exfalso. apply B. apply in_or_app. right. left. reflexivity.
  - destruct x as [|d' x]; [injection E as <- E; exfalso; apply A; left; reflexivity|]. injection E as <- E. destruct (IH b x y (fun I => A (or_intror I)) B E) as [-> ->]. auto.
Qed.
Definition us (s : str) : nat := count_occ ascii_dec s "_"%char.
Lemma us_app : forall a b, us (a ++ b) = us a + us b.
Proof. intros. apply count_occ_app. Qed.
Lemma us_none : forall a, ~ In "_"%char a -> us a = 0.
Proof. intros a H. apply count_occ_not_In, H. Qed.
Lemma group_name : forall n v a r, none_of ["_"; "'"]%char n -> none_of ["_"; "'"]%char v -> none_of ["_"; "'"]%char a -> ~ In "'"%char r ->
  group (n ++ s_ "_" ++ v ++ s_ "_" ++ a ++ s_ ".deb'" ++ r) = Some n.
Proof.
  intros n v a r N V A R. assert (G0 : group (v ++ s_ "_" ++ a ++ s_ ".deb'" ++ r) = None).
  { apply group_none. intros p q E. destruct (ends q) eqn:EQ; [|reflexivity]. exfalso. apply ends_shape in EQ. destruct EQ as (v' & a' & r' & ->).
    assert (X : (v ++ s_ "_" ++ a ++ s_ ".deb") ++ "'"%char :: r = (p ++ s_ "_" ++ v' ++ s_ "_" ++ a' ++ s_ ".deb") ++ "'"%char :: r').
    { rewrite <- !app_assoc. exact E. }
    apply split_unique in X; [|intro I; rewrite !in_app_iff in I; destruct I as [I|[I|[I|I]]]; [apply (V "'"%char); cbn; auto|cbn in I; intuition discriminate|apply (A "'"%char); cbn; auto|cbn in I; intuition discriminate]|exact R].
    destruct X as [X _]. apply (f_equal us) in X. rewrite !us_app in X. rewrite (us_none v), (us_none a) in X by (try apply V; try apply A; cbn; auto). cbn in X. lia. }
  assert (G1 : group (s_ "_" ++ v ++ s_ "_" ++ a ++ s_ ".deb'" ++ r) = Some []).
  { change (s_ "_" ++ v ++ s_ "_" ++ a ++ s_ ".deb'" ++ r) with ("_"%char :: (v ++ s_ "_" ++ a ++ s_ ".deb'" ++ r)). cbn [group]. rewrite G0. unfold ends.
    assert (C : cut_at "_"%char (v ++ s_ "_" ++ a ++ s_ ".deb'" ++ r) = (v, Some (a ++ s_ ".deb'" ++ r))) by (apply (cut_at_some "_"%char v), no_char_In, V; cbn; auto). rewrite C. rewrite aeqb_refl. cbn [andb].
    assert (K : contains_sub (s_ ".deb'") (fst (cut_at "_"%char (a ++ s_ ".deb'" ++ r))) = true); [|rewrite K; reflexivity].
    apply contains_sub_iff. assert (AN : ~ In "_"%char (a ++ s_ ".deb'")) by (intro I; apply in_app_or in I; destruct I as [I|I]; [apply (A "_"%char); cbn; auto|cbn in I; intuition discriminate]).
    rewrite app_assoc. destruct (cut_at "_"%char r) as [x [y|]] eqn:E; apply cut_at_spec in E; destruct E as [NX E]; cbn in E; subst r; exists a, x.
    - rewrite app_assoc. rewrite cut_at_some; [cbn [fst]; rewrite <- app_assoc; reflexivity|]. apply no_char_In. intro I. apply in_app_or in I. destruct I as [I|I]; [exact (AN I)|]. apply no_char_In in NX. exact (NX I).
    - rewrite cut_at_none; [cbn [fst]; rewrite <- app_assoc; reflexivity|]. apply no_char_In. intro I. apply in_app_or in I. destruct I as [I|I]; [exact (AN I)|]. apply no_char_In in NX. exact (NX I). }
  clear N. induction n as [|c n IH]; [exact G1|]. cbn [app group]. rewrite IH. reflexivity.
Qed.
Lemma sed_none : forall s, (forall p q, s = p ++ "/"%char :: q -> group q = None) -> sed_name s = None.
Proof.
  induction s as [|c s IH]; intro H; [reflexivity|]. cbn [sed_name]. rewrite IH by (intros p q E; apply (H (c :: p) q); rewrite E; reflexivity).
  destruct (aeqb c "/") eqn:C; [|reflexivity]. apply aeqb_eq in C. subst c. apply (H [] s eq_refl).
Qed.
Lemma sed_some : forall pre s n, sed_name s = None -> group s = Some n -> sed_name (pre ++ "/"%char :: s) = Some n.
Proof. induction pre as [|c pre IH]; intros s n S G; cbn [app sed_name]; [rewrite S; exact G|]. rewrite (IH s n S G). reflexivity. Qed.
Lemma sed_line : forall u, apt_line u -> sed_name (line u) = Some (u_name u).
Proof.
  intros [d n v a r] (N & V & A & R). cbn [u_dir u_name u_version u_arch u_rest] in *. unfold line. cbn [u_dir u_name u_version u_arch u_rest].
  change (s_ "'" ++ d ++ s_ "/" ++ n ++ s_ "_" ++ v ++ s_ "_" ++ a ++ s_ ".deb'" ++ r) with (s_ "'" ++ d ++ "/"%char :: (n ++ s_ "_" ++ v ++ s_ "_" ++ a ++ s_ ".deb'" ++ r)). rewrite app_assoc.
  assert (RQ : ~ In "'"%char r) by (apply R; left; reflexivity). apply sed_some.
  - apply sed_none. intros p q E. apply group_quote. intro I.
    assert (X : (n ++ s_ "_" ++ v ++ s_ "_" ++ a ++ s_ ".deb'") ++ r = p ++ "/"%char :: q) by (rewrite <- E; rewrite <- !app_assoc; reflexivity).
    apply app_eq_app in X. destruct X as (m & [[X Y]|[X Y]]).
    + destruct m as [|c m]; [cbn in Y; apply RQ; rewrite <- Y; right; exact I|]. cbn [app] in Y. injection Y as <- Y. assert (J : In "/"%char (n ++ s_ "_" ++ v ++ s_ "_" ++ a ++ s_ ".deb'")) by (rewrite X; apply in_or_app; right; left; reflexivity).
      rewrite !in_app_iff in J. destruct J as [J|[J|[J|[J|[J|J]]]]]; [apply (N "/"%char); cbn; auto|cbn in J; intuition discriminate|apply (V "/"%char); cbn; auto|cbn in J; intuition discriminate|apply (A "/"%char); cbn; auto|cbn in J; intuition discriminate].
    + apply RQ. rewrite Y. apply in_or_app. right. right. exact I.
  - apply group_name; [intros c [<-|[<-|[]]]; apply N; cbn; auto|intros c [<-|[<-|[]]]; apply V; cbn; auto|intros c [<-|[<-|[]]]; apply A; cbn; auto|exact RQ].
Qed.

(** ** Words *)
Lemma contains_words : forall sub ws, word sub -> contains_sub sub (join (s_ " ") ws) = true <-> exists w, In w ws /\ contains_sub sub w = true.
Proof.
  intros sub ws [NE NS]. induction ws as [|w ws IH].
  - split; [|intros (w & [] & _)]. intro H. apply contains_sub_iff in H. destruct H as (a & b & E). destruct a; [destruct sub; [congruence|discriminate E]|discriminate E].
  - destruct ws as [|w2 ws].
    + cbn [join]. split; [intro H; exists w; split; [left; reflexivity|exact H]|intros (x & [<-|[]] & H); exact H].
    + rewrite join_cons by discriminate. split.
      * intro H. apply contains_sub_iff in H. destruct H as (a & b & E). apply app_eq_app in E. destruct E as (m & [[E1 E2]|[E1 E2]]).
        -- (* starts in w *) apply app_eq_app in E2. destruct E2 as (k & [[E2 E3]|[E2 E3]]).
           ++ destruct k as [|c k]; [rewrite app_nil_r in E2; exists w; split; [left; reflexivity|apply contains_sub_iff; exists a, []; rewrite app_nil_r, E2; exact E1]|].
              exfalso. cbn in E3. injection E3 as <- _. rewrite E2 in NS. apply Forall_app in NS. destruct NS as [_ NS]. inversion NS as [|? ? X _]; subst. discriminate X.
           ++ exists w. split; [left; reflexivity|]. apply contains_sub_iff. exists a, k. rewrite E1, E2. reflexivity.
        -- destruct m as [|c m].
           ++ cbn [app] in E2. rewrite app_nil_r in E1. destruct sub as [|c sub]; [congruence|]. exfalso. cbn in E2. injection E2 as <- _. inversion NS as [|? ? X _]; subst. discriminate X.
           ++ cbn in E2. injection E2 as <- E2. assert (H : contains_sub sub (join (s_ " ") (w2 :: ws)) = true) by (apply contains_sub_iff; exists m, b; exact E2). apply IH in H. destruct H as (x & I & H). exists x. split; [right; exact I|exact H].
      * intros (x & [<-|I] & H).
        -- apply contains_sub_iff in H. destruct H as (a & b & ->). apply contains_sub_iff. exists a, (b ++ s_ " " ++ join (s_ " ") (w2 :: ws)). rewrite <- !app_assoc. reflexivity.
        -- assert (C : contains_sub sub (join (s_ " ") (w2 :: ws)) = true) by (apply IH; exists x; auto). apply contains_sub_iff in C. destruct C as (a & b & C). apply contains_sub_iff. exists (w ++ s_ " " ++ a), b. rewrite C, <- !app_assoc. reflexivity.
Qed.

(** ** Initrd *)
Lemma fold_last : forall (l : list str) x d, l <> [] -> fold_left (fun _ c => Some c) l x = Some (last l d).
Proof. induction l as [|c l IH]; intros x d N; [congruence|]. cbn [fold_left]. destruct l as [|y l]; [reflexivity|]. rewrite (IH _ d) by discriminate. reflexivity. Qed.
Lemma put_In : forall n c boot m x, In (m, x) (put n c boot) -> (m = n /\ x = c) \/ In (m, x) boot.
Proof.
  induction boot as [|[k y] boot IH]; intros m x I; cbn [put] in I; [destruct I as [I|[]]; injection I as <- <-; auto|]. destruct (seqb k n).
  - destruct I as [I|I]; [injection I as <- <-; auto|right; right; exact I].
  - destruct I as [I|I]; [right; left; exact I|]. destruct (IH m x I) as [H|H]; [left; exact H|right; right; exact H].
Qed.
Lemma put_there : forall n c boot, In (n, c) (put n c boot).
Proof. induction boot as [|[k y] boot IH]; cbn [put]; [left; reflexivity|]. destruct (seqb k n); [left; reflexivity|right; exact IH]. Qed.
Lemma put_own : forall n c boot, NoDup (map fst boot) -> forall x, In (n, x) (put n c boot) -> x = c.
Proof.
  induction boot as [|[k y] boot IH]; intros N x I; cbn [put] in I; [destruct I as [I|[]]; injection I as <-; reflexivity|]. cbn [map fst] in N. inversion N as [|? ? NK NB]; subst. destruct (seqb k n) eqn:E.
  - apply seqb_eq in E. subst k. destruct I as [I|I]; [injection I as <-; reflexivity|]. exfalso. apply NK. apply in_map_iff. exists (n, x). auto.
  - destruct I as [I|I]; [injection I as -> _; rewrite seqb_refl in E; discriminate E|apply IH; assumption].
Qed.
Lemma put_names : forall n c boot m, In m (map fst (put n c boot)) -> m = n \/ In m (map fst boot).
Proof. intros n c boot m I. apply in_map_iff in I. destruct I as ([k x] & E & I). cbn in E. subst k. apply put_In in I. destruct I as [[-> _]|I]; [auto|right; apply in_map_iff; exists (m, x); auto]. Qed.
Lemma put_nodup : forall n c boot, NoDup (map fst boot) -> NoDup (map fst (put n c boot)).
Proof.
  induction boot as [|[k y] boot IH]; intro N; cbn [put]; [repeat constructor; intros []|]. cbn [map fst] in N. inversion N as [|? ? NK NB]; subst. destruct (seqb k n) eqn:E.
  - apply seqb_eq in E. subst k. cbn [map fst]. constructor; assumption.
  - cbn [map fst]. constructor; [|apply IH, NB]. intro I. apply put_names in I. destruct I as [->|I]; [rewrite seqb_refl in E; discriminate E|exact (NK I)].
Qed.
Lemma kernels_boot : forall gen order ks st, NoDup (map fst (fst st)) -> NoDup (map fst (fst (fold_left (one_kernel gen order) ks st))) /\
  forall n, In n (map fst (fst (fold_left (one_kernel gen order) ks st))) -> In n (map fst (fst st)) \/ exists k, In k ks /\ n = initrd_name (kernel_version k).
Proof.
  intros gen order. induction ks as [|k ks IH]; intros st N; [split; [exact N|auto]|]. cbn [fold_left].
  destruct (IH (one_kernel gen order st k)) as [N2 H2]; [unfold one_kernel; cbn [fst]; apply put_nodup, N|]. split; [exact N2|].
  intros n I. destruct (H2 n I) as [J|(k' & J & E)]; [|right; exists k'; split; [right; exact J|exact E]]. unfold one_kernel in J. cbn [fst] in J. apply put_names in J.
  destruct J as [J|J]; [right; exists k; split; [left; reflexivity|exact J]|left; exact J].
Qed.
