From Coq Require Import String Ascii List Bool Arith ZArith Lia.
From Verif Require Import Str_Model Str_Proofs Changelog_Model Changelog_Spec.
Import ListNotations.
Open Scope list_scope.

Lemma some_inj {A} (x y : A) : Some x = Some y -> x = y.
Proof. congruence. Qed.
Lemma last_map {A B} (g : A -> B) l x d : last (map g (l ++ [x])) d = g x.
Proof. rewrite map_app. cbn. apply last_last. Qed.
Lemma writing_snoc b t : writing b t = map (fun n => b ++ firstn n t) (seq 0 (length t)) ++ [b ++ t].
Proof. unfold writing. rewrite seq_S, map_app. cbn. now rewrite firstn_all. Qed.
Lemma last_writing {A} (g : str -> A) b t d : last (map g (writing b t)) d = g (b ++ t).
Proof. rewrite writing_snoc. apply last_map. Qed.
Lemma last_app_ne {A} (a b : list A) d : b <> [] -> last (a ++ b) d = last b d.
Proof.
  intros N. induction a as [|x a IH]; auto. cbn [app]. destruct (a ++ b) eqn:E.
  - destruct a; [cbn in E; congruence|discriminate].
  - cbn [last]. cbn in IH. exact IH.
Qed.
Lemma last_app {A} (a b : list A) d : last (a ++ b) d = last b (last a d).
Proof.
  destruct b as [|x b]; [now rewrite app_nil_r|]. rewrite last_app_ne by discriminate.
  generalize (last a d). intros e. revert x. induction b as [|y b IH]; intros x; [reflexivity|]. exact (IH y).
Qed.

Lemma sed_first_spec pat new s : pat <> [] -> first_replaced pat new s (sed_first pat new s).
Proof.
  intros N. induction s as [|c s IH].
  - cbn. destruct pat as [|x pat]; [congruence|]. right. split; auto. intros a b E. destruct a; discriminate.
  - cbn [sed_first]. destruct (startswith pat (c :: s)) eqn:S.
    + apply startswith_iff in S. destruct S as [t S]. rewrite S. left. exists [], t. split; auto. split; [|intros; cbn; lia].
      cbn. f_equal. rewrite skipn_app, skipn_all, Nat.sub_diag. reflexivity.
    + assert (S' : forall t, c :: s <> pat ++ t).
      { intros t E. assert (X : startswith pat (c :: s) = true) by (apply startswith_iff; eauto). congruence. }
      destruct IH as [(a & b & E & R & M)|[R M]].
      * left. exists (c :: a), b. cbn. rewrite <- E, R. split; auto. split; auto.
        intros a' b' E'. destruct a' as [|x a']; [exfalso; exact (S' _ E')|]. cbn in *. injection E' as -> E'. specialize (M _ _ E'). lia.
      * right. rewrite R. split; auto. intros a b E. destruct a as [|x a]; [exact (S' _ E)|]. injection E as -> E. exact (M _ _ E).
Qed.
Lemma first_replaced_fun pat new s r r' : pat <> [] -> first_replaced pat new s r -> first_replaced pat new s r' -> r = r'.
Proof.
  intros N [(a & b & E & R & M)|[R M]] [(a' & b' & E' & R' & M')|[R' M']]; subst; auto.
  - assert (L : length a = length a') by (pose proof (M _ _ E'); pose proof (M' _ _ eq_refl); lia).
    assert (X : a ++ (pat ++ b) = a' ++ (pat ++ b')) by exact E'.
    assert (Y : a = a' /\ pat ++ b = pat ++ b').
    { clear - L X. revert a' L X. induction a as [|x a IH]; intros [|y a'] L X; cbn in *; try discriminate; auto.
      injection X as -> X. injection L as L. destruct (IH _ L X) as [-> ->]. auto. }
    destruct Y as [-> Y]. apply app_inv_head in Y. now subst.
  - exfalso. exact (M' _ _ eq_refl).
  - exfalso. exact (M _ _ eq_refl).
Qed.

Section Tools.
  Variable pver : str -> option str.
  Variable psecs : str -> option Z.
  Variable fdate : Z -> str.
  Notation run := (run pver psecs fdate).
  Notation version_time := (version_time pver psecs).

  (** The files after the copy *)
  Lemma keep_orig_last f : last_of f (keep_orig f) = match s_log f, w_orig f with Some c, None => put_orig (Some c) f | _, _ => f end.
  Proof.
    unfold last_of, keep_orig. destruct (s_log f) as [c|], (w_orig f) as [o|]; auto.
    rewrite last_writing. reflexivity.
  Qed.
  Definition text_of (p : params) (v : str) (t : Z) (o : str) : str := entry fdate p v t ++ then_text o.
  (** The whole function as an equation *)
  Definition result (p : params) (f : files) : option files :=
    match version_time p f with
    | None => None
    | Some (v, t) =>
      let base := text_of p v t (original f) in
      match w_log f with
      | None => Some (mkFiles (Some base) (Some (original f)) None)
      | Some w => match pver w with
                  | None => None
                  | Some lv => Some (mkFiles (Some (if seqb lv v then w else base ++ nl :: w)) (Some (original f)) (Some w))
                  end
      end
    end.
  Lemma version_time_kept p f : version_time p (last_of f (keep_orig f)) = version_time p f.
  Proof.
    rewrite keep_orig_last. unfold Changelog_Model.version_time. destruct f as [l o w]. cbn. destruct l, o; reflexivity.
  Qed.
  Lemma run_result p f : run p f = result p f.
  Proof.
    unfold Changelog_Model.run, result, add_changelog. rewrite version_time_kept. destruct (version_time p f) as [[v t]|]; [|reflexivity].
    set (l1 := keep_orig f). set (f1 := last_of f l1).
    assert (F1 : exists l, f1 = mkFiles l (match s_log f, w_orig f with Some c, None => Some c | _, o => o end) (w_log f)).
    { unfold f1, l1. rewrite keep_orig_last. destruct f as [l o w]. cbn. destruct l, o; eexists; reflexivity. }
    destruct F1 as [l F1].
    set (l2 := write_entry (entry fdate p v t) f1). set (f2 := last_of f1 l2).
    assert (F2 : f2 = put_log (Some (entry fdate p v t)) f1).
    { unfold f2, l2, last_of, write_entry. rewrite last_writing. reflexivity. }
    set (l3 := touch_orig f2). set (f3 := last_of f2 l3).
    assert (F3 : f3 = mkFiles (Some (entry fdate p v t)) (Some (original f)) (w_log f)).
    { unfold f3, l3, last_of, touch_orig. rewrite F2, F1. cbn. unfold original. destruct f as [sl wo wl]. cbn. destruct sl, wo; reflexivity. }
    set (l4 := add_orig f3). set (f4 := last_of f3 l4).
    assert (F4 : f4 = mkFiles (Some (text_of p v t (original f))) (Some (original f)) (w_log f)).
    { unfold f4, l4, last_of, add_orig. rewrite F3. cbn [w_orig s_log content filled]. unfold text_of. destruct (original f) as [|c o]; cbn [filled].
      - cbn. now rewrite app_nil_r.
      - rewrite last_writing. reflexivity. }
    unfold add_given. rewrite F4. cbn [w_log s_log content]. destruct (w_log f) as [w|] eqn:W.
    - destruct (pver w) as [lv|]; [|reflexivity]. destruct (seqb lv v).
      + f_equal. unfold last_of. rewrite !app_assoc, last_app. cbn [last]. 
        set (g := fun x : str => put_log (Some x) (mkFiles (Some (text_of p v t (original f))) (Some (original f)) (Some w))).
        change (last (map g (writing [] w)) (put_log None (mkFiles (Some (text_of p v t (original f))) (Some (original f)) (Some w))) = mkFiles (Some w) (Some (original f)) (Some w)) || idtac.
        destruct (map g (writing [] w)) eqn:M; [unfold writing in M; discriminate|]. rewrite <- M, last_writing. reflexivity.
      + f_equal. unfold last_of. rewrite !app_assoc, last_app, last_writing. reflexivity.
    - f_equal. rewrite app_nil_r. unfold last_of. rewrite !app_assoc, !last_app. fold l1 in f1. unfold f4, f3, f2, f1, last_of in F4. exact F4.
  Qed.

  (** Every state on the way *)
  Lemma trace_log p f s : In s (fst (add_changelog pver psecs fdate p f)) -> w_log s = w_log f.
  Proof.
    unfold add_changelog. set (l1 := keep_orig f). 
    assert (K : forall l g, (forall x, In x l -> w_log x = w_log g) -> w_log (last_of g l) = w_log g).
    { intros l g H. unfold last_of. destruct l as [|x l] using rev_ind; auto. rewrite last_last. apply H. apply in_or_app. right. left. auto. }
    assert (L1 : forall x, In x l1 -> w_log x = w_log f).
    { unfold l1, keep_orig. intros x X. destruct (s_log f), (w_orig f); cbn [In] in X; try contradiction; apply in_map_iff in X; destruct X as (y & <- & _); reflexivity. }
    set (f1 := last_of f l1). assert (F1 : w_log f1 = w_log f) by (apply K; auto).
    destruct (Changelog_Model.version_time pver psecs p f1) as [[v t]|]; [|apply L1].
    set (l2 := write_entry (entry fdate p v t) f1).
    assert (L2 : forall x, In x l2 -> w_log x = w_log f1).
    { intros x X. apply in_map_iff in X. destruct X as (y & <- & _). reflexivity. }
    set (f2 := last_of f1 l2). assert (F2 : w_log f2 = w_log f) by (rewrite <- F1; apply K; auto).
    set (l3 := touch_orig f2).
    assert (L3 : forall x, In x l3 -> w_log x = w_log f2).
    { unfold l3, touch_orig. intros x X. destruct (w_orig f2); [destruct X|]. destruct X as [<-|[]]. reflexivity. }
    set (f3 := last_of f2 l3). assert (F3 : w_log f3 = w_log f) by (rewrite <- F2; apply K; auto).
    set (l4 := add_orig f3).
    assert (L4 : forall x, In x l4 -> w_log x = w_log f3).
    { unfold l4, add_orig. intros x X. destruct (filled (w_orig f3)); [|destruct X]. apply in_map_iff in X. destruct X as (y & <- & _). reflexivity. }
    set (f4 := last_of f3 l4). assert (F4 : w_log f4 = w_log f) by (rewrite <- F3; apply K; auto).
    assert (L5 : forall l5 x, add_given pver v f4 = Some l5 -> In x l5 -> w_log x = w_log f4).
    { unfold add_given. intros l5 x. destruct (w_log f4) as [w|] eqn:W; [|intros E; injection E as <-; intros []].
      destruct (pver w) as [lv|]; [|discriminate]. destruct (seqb lv v); intros E; apply some_inj in E; subst l5; intros X.
      - apply in_inv in X. destruct X as [<-|X]; [cbn; congruence|]. apply in_map_iff in X. destruct X as (y & <- & _). cbn; congruence.
      - apply in_map_iff in X. destruct X as (y & <- & _). cbn; congruence. }
    destruct (add_given pver v f4) as [l5|] eqn:G; cbn [fst]; intros X; rewrite !in_app_iff in X;
      destruct X as [X|[X|[X|X]]];
      try (apply L1 in X; congruence); try (apply L2 in X; congruence); try (apply L3 in X; congruence).
    - destruct X as [X|X]; [apply L4 in X; congruence|]. apply (L5 l5 _ eq_refl) in X. congruence.
    - apply L4 in X. congruence.
  Qed.

  (** A run depends on the original changelog, the one in WORKDIR, and on whether there is a
      changelog when there was an original one *)
  Lemma run_same p f g : original f = original g -> w_log f = w_log g ->
    (s_log f = None -> original f = []) -> (s_log g = None -> original g = []) -> run p f = run p g.
  Proof.
    intros O W A B. rewrite !run_result. unfold result. rewrite <- O, <- W.
    assert (V : version_time p f = version_time p g).
    { unfold Changelog_Model.version_time. destruct f as [fl fo fw], g as [gl go gw]. unfold original in *. cbn in *.
      destruct fl as [c|], fo as [o|], gl as [c'|], go as [o'|]; subst; cbn; auto;
        repeat match goal with H : None = None -> _ |- _ => specialize (H eq_refl); cbn in H; subst end; auto. }
    rewrite V. reflexivity.
  Qed.
  Lemma run_keeps p f f' : run p f = Some f' -> original f' = original f /\ w_log f' = w_log f /\ s_log f' <> None /\ w_orig f' = Some (original f).
  Proof.
    rewrite run_result. unfold result. destruct (version_time p f) as [[v t]|]; [|discriminate].
    destruct (w_log f) as [w|]; [destruct (pver w); [|discriminate]|]; intros E; injection E as <-; cbn; repeat split; discriminate.
  Qed.
  Lemma version_time_dated p f v t : version_time p f = Some (v, t) <-> dated pver psecs p f v t.
  Proof.
    assert (N : placeholder <> []) by discriminate.
    unfold Changelog_Model.version_time. destruct f as [l o w]. cbn. destruct l as [c|]; cbn.
    - set (og := match o with Some x => x | None => c end).
      assert (OG : original (mkFiles (Some c) o w) = og) by (unfold original, og; destruct o; reflexivity).
      destruct og as [|x og'] eqn:EO.
      + split; [intros E; injection E as <- <-; constructor 1; now right|].
        intros D. inversion D as [H|ov s v' H1 H2 H3 H4 H5]; subst; auto. rewrite OG in H2. congruence.
      + split.
        * destruct (pver (x :: og')) as [ov|] eqn:P; [|discriminate]. destruct (psecs (x :: og')) as [s|] eqn:Q; [|discriminate].
          intros E. injection E as <- <-. apply dated_orig with ov; cbn; try discriminate; try (rewrite OG; auto; discriminate).
          apply sed_first_spec. exact N.
        * intros D. inversion D as [H|ov s v' H1 H2 H3 H4 H5]; subst.
          -- destruct H as [H|H]; [discriminate|]. rewrite OG in H. discriminate.
          -- rewrite OG in H3, H4. rewrite H3, H4. f_equal. f_equal. eapply first_replaced_fun; [exact N|apply sed_first_spec; exact N|exact H5].
    - split; [intros E; injection E as <- <-; constructor 1; now left|].
      intros D. inversion D as [H|ov s v' H1 H2 H3 H4 H5]; subst; auto. cbn in H1. congruence.
  Qed.
  Lemma entry_is p v t : entry fdate p v t = entry_text (bpn p) v (maintainer p) (fdate t).
  Proof. reflexivity. Qed.
  Lemma run_exact p f l : (exists f', run p f = Some f' /\ s_log f' = Some l) <-> new_log pver psecs fdate p f l.
  Proof.
    rewrite run_result. unfold result. split.
    - intros (f' & R & L). destruct (version_time p f) as [[v t]|] eqn:V; [|discriminate]. apply version_time_dated in V.
      destruct (w_log f) as [w|] eqn:W.
      + destruct (pver w) as [lv|] eqn:P; [|discriminate]. injection R as <-. cbn in L. injection L as <-. destruct (seqb lv v) eqn:E.
        * apply seqb_eq in E. subst lv. eapply new_given; eauto.
        * apply seqb_neq in E. unfold text_of. rewrite entry_is, <- app_assoc. eapply new_both; eauto.
      + injection R as <-. cbn in L. injection L as <-. unfold text_of. rewrite entry_is. eapply new_plain; eauto.
    - intros D. inversion D as [v t V W|v t w V W P|v t w lv V W P NE]; subst; apply version_time_dated in V; rewrite V, W.
      + eexists. split; [reflexivity|]. reflexivity.
      + rewrite P, seqb_refl. eexists. split; [reflexivity|]. reflexivity.
      + rewrite P. apply seqb_neq in NE. rewrite NE. eexists. split; [reflexivity|]. cbn. unfold text_of. rewrite entry_is, <- app_assoc. reflexivity.
  Qed.
End Tools.

(** ** deb_list_beautify *)
Definition blanks (s : str) : Prop := Forall (fun c => is_space c = true) s.
Definition tight (s : str) : Prop := strip s = s.
Lemma lstrip_blanks a s : blanks a -> lstrip (a ++ s) = lstrip s.
Proof. induction a as [|c a IH]; auto. intros H. apply Forall_cons_iff in H. destruct H as [C H]. cbn [app lstrip]. rewrite C. auto. Qed.
Lemma blanks_rev s : blanks s -> blanks (rev s).
Proof. apply Forall_rev. Qed.
Lemma rstrip_blanks a s : blanks a -> rstrip (s ++ a) = rstrip s.
Proof. intros H. unfold rstrip. rewrite rev_app_distr, lstrip_blanks; auto using blanks_rev. Qed.
Lemma strip_all_blank s : blanks s -> strip s = [].
Proof. intros H. unfold strip. rewrite lstrip_nil_all_space by exact H. reflexivity. Qed.
Lemma lstrip_len u : List.length (lstrip u) <= List.length u.
Proof. induction u as [|d u IH]; cbn; auto. destruct (is_space d); cbn; lia. Qed.
Lemma rstrip_len u : List.length (rstrip u) <= List.length u.
Proof. unfold rstrip. rewrite rev_length. etransitivity; [apply lstrip_len|]. now rewrite rev_length. Qed.
Lemma strip_around a b s : blanks a -> blanks b -> tight s -> strip (a ++ s ++ b) = s.
Proof.
  intros A B T. destruct s as [|c s].
  - apply strip_all_blank. apply Forall_app. split; auto.
  - unfold strip. rewrite lstrip_blanks by auto. unfold tight, strip in T. destruct (is_space c) eqn:C.
    + exfalso. cbn [lstrip] in T. rewrite C in T. apply (f_equal (@List.length _)) in T. pose proof (rstrip_len (lstrip s)). pose proof (lstrip_len s). cbn in T. lia.
    + cbn [app]. rewrite lstrip_nospace by auto. change (c :: s ++ b) with ((c :: s) ++ b). rewrite rstrip_blanks by auto.
      rewrite lstrip_nospace in T by auto. exact T.
Qed.
Lemma lstrip_head v : match lstrip v with [] => True | y :: _ => is_space y = false end.
Proof. induction v as [|y v IH]; cbn; auto. destruct (is_space y) eqn:Y; auto. Qed.
Lemma lstrip_twice v : lstrip (lstrip v) = lstrip v.
Proof. induction v as [|y v IH]; cbn; auto. destruct (is_space y) eqn:Y; auto. cbn. now rewrite Y. Qed.
Lemma rstrip_twice v : rstrip (rstrip v) = rstrip v.
Proof. unfold rstrip. now rewrite rev_involutive, lstrip_twice. Qed.
Lemma strip_tight s : tight (strip s).
Proof.
  unfold tight, strip. destruct (rstrip_spec (lstrip s)) as (b & E & _). pose proof (lstrip_head s) as H.
  revert E H. generalize (lstrip s). intros u E H.
  assert (L : lstrip (rstrip u) = rstrip u).
  { destruct (rstrip u) as [|c w] eqn:R; auto. rewrite E in H. cbn in H. now apply lstrip_nospace. }
  rewrite L. apply rstrip_twice.
Qed.
Lemma tight_no_char c s : no_char c s -> no_char c (strip s).
Proof.
  intros N. unfold strip. destruct (lstrip_spec s) as (a & E & _). rewrite E in N. apply Forall_app in N. destruct N as [_ N].
  destruct (rstrip_spec (lstrip s)) as (b & E' & _). rewrite E' in N. apply Forall_app in N. tauto.
Qed.
(** A list of items with blanks around them, some empty *)
Record piece := mkPiece { before : str; item : str; behind : str }.
Definition piece_text (x : piece) : str := before x ++ item x ++ behind x.
Definition piece_ok (x : piece) : Prop := blanks (before x) /\ blanks (behind x) /\ tight (item x) /\ ~ In ","%char (item x).
Lemma blanks_no_comma s : blanks s -> no_char ","%char s.
Proof.
  intros B. eapply Forall_impl; [|exact B]. intros c C. apply aeqb_neq. intros ->. discriminate.
Qed.
Lemma piece_no_comma x : piece_ok x -> no_char ","%char (piece_text x).
Proof. intros (A & B & _ & N). unfold piece_text. apply Forall_app. split; [exact (blanks_no_comma _ A)|]. apply Forall_app. split; [exact (proj2 (no_char_In _ _) N)|exact (blanks_no_comma _ B)]. Qed.
Definition nonempty (w : str) : bool := match w with [] => false | _ => true end.
Lemma beautify_pieces ps : Forall piece_ok ps ->
  beautify (join (s_ ",") (map piece_text ps)) = join (s_ ", ") (filter nonempty (map item ps)).
Proof.
  intros F. unfold beautify. destruct ps as [|x ps]; [reflexivity|].
  rewrite split_on_join; [|discriminate|].
  - f_equal. rewrite map_map. f_equal. apply map_ext_in. intros y Y. rewrite Forall_forall in F. destruct (F y Y) as (A & B & T & _). now apply strip_around.
  - apply Forall_map. eapply Forall_impl; [|exact F]. apply piece_no_comma.
Qed.
Lemma split_pieces s : exists ps, Forall piece_ok ps /\ s = join (s_ ",") (map piece_text ps) /\ ps <> [].
Proof.
  destruct (split_on_spec ","%char s) as (F & N & J).
  assert (X : forall l, Forall (no_char ","%char) l -> exists ps, Forall piece_ok ps /\ map piece_text ps = l).
  { induction l as [|w l IH]; intros H; [exists []; split; auto|]. apply Forall_cons_iff in H. destruct H as [W H]. destruct (IH H) as (ps & P & <-).
    destruct (lstrip_spec w) as (a & E & A & _). destruct (rstrip_spec (lstrip w)) as (b & E' & B & _).
    exists (mkPiece a (strip w) b :: ps). split.
    - constructor; auto. split; [exact A|]. split; [exact B|]. split; [apply strip_tight|]. cbn. apply no_char_In. now apply tight_no_char.
    - cbn. f_equal. unfold piece_text, strip. cbn. rewrite E at 2. f_equal. now rewrite <- E'. }
  destruct (X _ F) as (ps & P & M). exists ps. split; auto. rewrite M. split; [symmetry; exact J|]. intros ->. cbn in M. congruence.
Qed.
Lemma filter_nonempty l : Forall (fun i : str => i <> []) l -> filter nonempty l = l.
Proof. induction 1 as [|x l N _ IH]; auto. cbn [filter]. destruct x; [congruence|]. cbn [nonempty]. now f_equal. Qed.
Lemma beautify_again s : beautify (beautify s) = beautify s.
Proof.
  destruct (split_pieces s) as (ps & F & -> & _). rewrite beautify_pieces by auto.
  set (is := filter nonempty (map item ps)).
  assert (I : Forall (fun i : str => tight i /\ ~ In ","%char i /\ i <> []) is).
  { apply Forall_forall. intros i Hi. apply filter_In in Hi. destruct Hi as [Hi NE]. apply in_map_iff in Hi. destruct Hi as (x & <- & X).
    rewrite Forall_forall in F. destruct (F x X) as (_ & _ & T & N). split; [exact T|]. split; [exact N|]. intros Z. rewrite Z in NE. discriminate. }
  destruct is as [|i is]; [reflexivity|].
  set (qs := mkPiece [] i [] :: map (fun j => mkPiece [" "%char] j []) is).
  assert (J : join (s_ ", ") (i :: is) = join (s_ ",") (map piece_text qs)).
  { unfold qs. cbn [map]. unfold piece_text at 1. cbn [before item behind app]. rewrite app_nil_r.
    clear. revert i. induction is as [|j is IH]; intros i; [reflexivity|]. rewrite (join_cons (s_ ", ")) by discriminate. cbn [map]. rewrite (join_cons (s_ ",")) by discriminate.
    f_equal. rewrite IH. unfold piece_text at 2. cbn [before item behind]. rewrite app_nil_r.
    destruct is as [|k is]; [reflexivity|]. cbn [map]. rewrite !join_cons by discriminate. reflexivity. }
  rewrite J, beautify_pieces.
  - rewrite <- J. f_equal. unfold qs. cbn [map item]. rewrite map_map. cbn. rewrite map_id.
    apply (filter_nonempty (i :: is)). eapply Forall_impl; [|exact I]. intros x (_ & _ & H); exact H.
  - unfold qs. apply Forall_cons_iff in I. destruct I as [(T & N & _) I]. constructor.
    + split; [constructor|]. split; [constructor|]. auto.
    + apply Forall_map. eapply Forall_impl; [|exact I]. intros j (Tj & Nj & _). split; [repeat constructor|]. split; [constructor|]. auto.
Qed.
Lemma profiles_words p b : split_ws (build_profiles p b) = split_ws p ++ (if b then [s_ "cross"] else []).
Proof.
  assert (S : forall s, split_ws (strip s) = split_ws s).
  { intros s. unfold strip. destruct (lstrip_spec s) as (a & E & A & _). destruct (rstrip_spec (lstrip s)) as (b' & E' & B & _).
    assert (X : forall a s, blanks a -> split_ws (a ++ s) = split_ws s).
    { clear. induction a as [|c a IH]; intros s H; auto. apply Forall_cons_iff in H. destruct H as [C H]. cbn [app]. rewrite split_ws_space; auto. }
    assert (Y : forall b s, blanks b -> split_ws (s ++ b) = split_ws s).
    { clear. intros b s H. destruct b as [|c b]; [now rewrite app_nil_r|]. apply Forall_cons_iff in H. destruct H as [C H].
      rewrite split_ws_app by auto. assert (Z : split_ws b = []); [|now rewrite Z, app_nil_r].
      induction b as [|d b IH]; auto. apply Forall_cons_iff in H. destruct H as [D H]. rewrite split_ws_space; auto. }
    rewrite E at 2. rewrite X by exact A. rewrite E' at 2. now rewrite Y by exact B. }
  unfold build_profiles. rewrite S. destruct b; [|now rewrite !app_nil_r].
  change (s_ " cross") with (" "%char :: s_ "cross"). rewrite split_ws_app by reflexivity. reflexivity.
Qed.
