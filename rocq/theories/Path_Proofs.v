From Coq Require Import Ascii String List Bool Arith Lia.
From Verif Require Import Str_Model Str_Proofs Posix_Model Posix_Proofs Path_Model Path_Spec.
Import ListNotations.
Open Scope list_scope.

(** ** The root *)
(** [Q]: the root without its last slash *)
Definition rootlike (Q : str) : Prop :=
  forallb is_slash Q = true \/ exists h x, Q = h ++ [x] /\ is_slash x = false.
Lemma endswith_slash h x : endswith [slash] (h ++ [x]) = is_slash x.
Proof.
  unfold endswith. rewrite rev_app_distr. cbn [rev app startswith]. unfold is_slash, aeqb. rewrite andb_true_r. apply Ascii.eqb_sym.
Qed.
Lemma repeat_snoc {A} (x : A) n : repeat x (S n) = repeat x n ++ [x].
Proof. induction n; cbn in *; congruence. Qed.
Lemma forallb_repeat_slash n : forallb is_slash (repeat slash n) = true.
Proof. induction n; cbn; auto. Qed.
Lemma join_last_nonslash n cs : cs <> [] -> Forall comp cs ->
  exists h x, repeat slash n ++ join [slash] cs = h ++ [x] /\ is_slash x = false.
Proof.
  intros N F. destruct cs as [|c cs _] using rev_ind; [congruence|].
  apply Forall_app in F. destruct F as [_ F]. inversion F; subst. destruct (comp_last c) as (h & x & -> & X); auto.
  destruct cs as [|d cs].
  - exists (repeat slash n ++ h), x. cbn. rewrite app_assoc. auto.
  - exists (repeat slash n ++ join [slash] (d :: cs) ++ slash :: h), x. split; auto. rewrite <- !app_assoc. f_equal.
    clear. revert d. induction cs as [|e cs IH]; intros d.
    + reflexivity.
    + change ((d :: e :: cs) ++ [h ++ [x]]) with (d :: (e :: cs) ++ [h ++ [x]]). rewrite !join_cons by (try (destruct cs); discriminate).
      rewrite <- !app_assoc. f_equal. cbn [app]. f_equal. apply IH.
Qed.
Lemma the_root_form root : exists Q, the_root root = Q ++ [slash] /\ rootlike Q /\
  (normpath root = Q /\ (exists h x, Q = h ++ [x] /\ is_slash x = false) \/ (normpath root = Q ++ [slash] /\ forallb is_slash Q = true)).
Proof.
  unfold the_root. destruct (normpath_form root) as (n & cs & (A & B & C) & E & [(-> & -> & F)|(D & F)]); rewrite F.
  - exists dot. split; [reflexivity|]. split; [right; exists [], "."%char; auto|]. left. split; auto. exists [], "."%char. auto.
  - destruct cs as [|c cs].
    + rewrite app_nil_r. destruct n as [|n]; [destruct D; congruence|].
      rewrite repeat_snoc, endswith_slash. exists (repeat slash n). split; [reflexivity|]. split; [left; apply forallb_repeat_slash|].
      right. split; auto. apply forallb_repeat_slash.
    + destruct (join_last_nonslash n (c :: cs)) as (h & x & H & X); [discriminate|auto|]. rewrite H, endswith_slash, X.
      exists (h ++ [x]). split; auto. split; [right; eauto|]. left. eauto.
Qed.
Lemma the_root_slashed root : the_root root = slashed (normpath root).
Proof. reflexivity. Qed.

(** ** Positions below the root *)
Section Jail.
Variable Q : str.
Hypothesis HQ : rootlike Q.
Let root := Q ++ [slash].

(** [p] is the string the code uses for the directory reached by [cs] *)
Definition at_ (p : str) (cs : list str) : Prop :=
  match cs with
  | [] => p = root \/ (p = Q /\ exists h x, Q = h ++ [x] /\ is_slash x = false)
  | _ => p = Q ++ ptail cs
  end.
Definition okc (c : str) : Prop := comp c /\ c <> dotdot.

Lemma ptail_last cs : cs <> [] -> Forall comp cs -> exists h x, ptail cs = h ++ [x] /\ is_slash x = false.
Proof.
  intros N F. destruct cs as [|c cs _] using rev_ind; [congruence|]. apply Forall_app in F. destruct F as [_ F]. inversion F; subst.
  destruct (comp_last c) as (h & x & -> & X); auto. exists (ptail cs ++ slash :: h), x. split; auto.
  rewrite ptail_app. cbn. rewrite app_nil_r, <- app_assoc. reflexivity.
Qed.
Lemma okc_comp cs : Forall okc cs -> Forall comp cs.
Proof. intros F. eapply Forall_impl; [|exact F]. intros a [X _]. exact X. Qed.
Lemma at_root : at_ root [].
Proof. now left. Qed.
Lemma at_join p cs d : at_ p cs -> Forall okc cs -> comp d -> pjoin p d = Q ++ ptail (cs ++ [d]).
Proof.
  intros A F [D1 D2]. rewrite ptail_app. cbn [ptail flat_map]. rewrite app_nil_r.
  destruct cs as [|c cs]; cbn [at_] in A.
  - destruct A as [->|(-> & h & x & E & X)].
    + unfold root. rewrite pjoin_slash by now apply no_char_isabs. reflexivity.
    + rewrite E. rewrite pjoin_plain; auto. now apply no_char_isabs.
  - subst p. destruct (ptail_last (c :: cs)) as (h & x & E & X); [discriminate|now apply okc_comp|]. rewrite E.
    rewrite app_assoc. rewrite pjoin_plain; auto using no_char_isabs. now rewrite <- !app_assoc.
Qed.
Lemma at_dirname cs d : Forall okc cs -> comp d -> at_ (dirname (Q ++ ptail (cs ++ [d]))) cs.
Proof.
  intros F [D1 D2]. rewrite ptail_app. cbn [ptail flat_map]. rewrite app_nil_r, app_assoc.
  destruct cs as [|c cs].
  - cbn [ptail flat_map]. rewrite app_nil_r. destruct HQ as [S|(h & x & E & X)].
    + rewrite dirname_slashed; auto. now left.
    + rewrite E at 1. rewrite dirname_plain; auto. right. split; eauto.
  - destruct (ptail_last (c :: cs)) as (h & x & E & X); [discriminate|now apply okc_comp|]. rewrite E, app_assoc.
    rewrite dirname_plain; auto. cbn [at_]. rewrite E, <- app_assoc. reflexivity.
Qed.
Lemma at_dirname_root : at_ (dirname root) [].
Proof.
  unfold root. destruct HQ as [S|(h & x & E & X)].
  - rewrite (dirname_slashed Q []); auto; [now left|constructor].
  - rewrite E at 1. rewrite dirname_plain; auto; [|constructor]. right. split; eauto.
Qed.
Lemma ptail_length cs : Forall comp cs -> cs <> [] -> 2 <= length (ptail cs).
Proof.
  destruct cs as [|c cs]; [congruence|]. intros F _. inversion F as [|? ? [N _] _]; subst. cbn. rewrite app_length.
  destruct c; [congruence|]. cbn. lia.
Qed.
Lemma at_long p cs : at_ p cs -> Forall okc cs -> (length root <=? length p) = true ->
  (cs = [] /\ p = root) \/ (cs <> [] /\ p = Q ++ ptail cs).
Proof.
  intros A F L. apply Nat.leb_le in L. destruct cs; [|right; split; [discriminate|exact A]].
  destruct A as [A|(A & _)]; auto. subst p. unfold root in L. rewrite app_length in L. cbn in L. lia.
Qed.
Lemma at_below p cs : at_ p cs -> is_path_below p root = true.
Proof.
  intros A. apply startswith_iff. destruct cs as [|c cs]; cbn [at_] in A.
  - destruct A as [->|(-> & _)]; [exists [slash]; reflexivity|exists []; now rewrite app_nil_r].
  - subst p. exists (c ++ ptail cs ++ [slash]). unfold root. cbn [ptail flat_map]. fold (ptail cs). repeat (cbn [app]; rewrite <- !app_assoc). reflexivity.
Qed.
Lemma root_len p cs : cs <> [] -> Forall comp cs -> p = Q ++ ptail cs -> (length root <=? length p) = true.
Proof. intros N F ->. apply Nat.leb_le. pose proof (ptail_length cs F N). unfold root. rewrite !app_length. cbn. lia. Qed.

Variable f : fs.
Variable assume : bool.
Variable phys : bool.
Hypothesis Hdir : forall p, readlink f (p ++ [slash]) = None.

Definition resolved (cs : list str) : Prop := forall a b, cs = a ++ b -> a <> [] -> readlink f (Q ++ ptail a) = None.
Definition presolved (cs : list str) : Prop := forall a b, cs = a ++ b -> a <> [] -> b <> [] -> readlink f (Q ++ ptail a) = None.
Definition plain : Prop := forall p t, readlink f p = Some t -> normpath t = t /\ t <> dot.

Lemma resolved_prefix a b : resolved (a ++ b) -> resolved a.
Proof. intros R x y E N. apply (R x (y ++ b)); auto. now rewrite E, <- app_assoc. Qed.
Lemma presolved_snoc cs d : presolved (cs ++ [d]) -> resolved cs.
Proof. intros R x y E N. apply (R x (y ++ [d])); auto; [now rewrite E, <- app_assoc|destruct y; discriminate]. Qed.
Lemma resolved_snoc cs d : resolved cs -> presolved (cs ++ [d]).
Proof.
  intros R x y E N M. destruct y as [|z y _] using rev_ind; [congruence|]. rewrite app_assoc in E. apply app_inj_tail in E. destruct E as [E _].
  apply (R x y); auto.
Qed.

Lemma realpath1_nolink cnt p : readlink f p = None -> realpath1 f root assume cnt p = Ok (p, isdir f p).
Proof. intros H. destruct cnt; cbn; rewrite H; destruct (_ <=? _); reflexivity. Qed.
Lemma at_nolink p cs : at_ p cs -> resolved cs -> (if length root <=? length p then readlink f p else None) = None.
Proof.
  intros A R. destruct cs as [|c cs]; cbn [at_] in A.
  - destruct A as [->|(-> & _)]; [unfold root; rewrite Hdir; now destruct (_ <=? _)|].
    destruct (_ <=? _) eqn:L; auto. apply Nat.leb_le in L. unfold root in L. rewrite app_length in L. cbn in L. lia.
  - subst p. rewrite (R (c :: cs) []); [now destruct (_ <=? _)|now rewrite app_nil_r|discriminate].
Qed.
Lemma realpath1_at cnt p cs : at_ p cs -> resolved cs -> realpath1 f root assume cnt p = Ok (p, isdir f p).
Proof. intros A R. pose proof (at_nolink p cs A R) as H. destruct cnt; cbn; rewrite H; reflexivity. Qed.

(** the root as the specification writes it *)
Variable R0 : str.
Hypothesis HR0 : slashed R0 = root.
Lemma path_of_at cs d : path_of R0 (cs ++ [d]) = Q ++ ptail (cs ++ [d]).
Proof.
  unfold path_of. rewrite HR0. unfold root. destruct (cs ++ [d]) eqn:E; [destruct cs; discriminate|]. rewrite <- E.
  rewrite ptail_join by (rewrite E; discriminate). now rewrite <- app_assoc.
Qed.
Definition wk0 := walk (readlink f) R0.
Lemma walk_app0 cs a m : wk0 cs a m -> forall b r, wk0 m b r -> wk0 cs (a ++ b) r.
Proof.
  induction 1; intros b q W; cbn [app].
  - exact W.
  - apply w_skip; auto. now apply IHwalk.
  - apply w_up. now apply IHwalk.
  - apply w_step; auto. now apply IHwalk.
  - eapply w_rel; eauto. specialize (IHwalk b q W). now rewrite <- app_assoc in IHwalk.
  - eapply w_abs; eauto. specialize (IHwalk b q W). now rewrite <- app_assoc in IHwalk.
Qed.

Definition good (p : str) (cs : list str) : Prop := at_ p cs /\ Forall okc cs /\ (phys = true -> resolved cs).

Definition rp_ok (rp : str -> res (str * bool)) : Prop :=
  forall p cs, at_ p cs -> Forall okc cs -> (phys = true -> presolved cs) ->
    match rp p with
    | Err e => e <> EAssert
    | Ok (q, _) => exists cs', good q cs' /\
        (cs = [] -> q = p) /\
        (phys = true -> plain -> forall a d, cs = a ++ [d] -> d <> dot -> wk0 a [d] cs')
    end.
(** the shape of the list of components the code walks over *)
Definition shape (start : str) (ds : list str) : Prop :=
  exists k cs, ds = repeat [] k ++ cs /\ Forall comp cs /\ (k <> 0 -> start = root).

Lemma okc_snoc cs d : Forall okc cs -> comp d -> d <> dotdot -> Forall okc (cs ++ [d]).
Proof. intros F C N. apply Forall_app. split; auto. repeat constructor; auto; apply C. Qed.

Lemma realpath_rel_ok rp : rp_ok rp ->
  forall ds start have cs, good start cs -> shape start ds -> (phys = true -> resolved cs) ->
  match realpath_rel rp root assume start have ds with
  | Err e => e <> EAssert
  | Ok q => exists cs', good q cs' /\ (phys = true -> plain -> ~ In dot ds -> wk0 cs ds cs')
  end.
Proof.
  intros HR. induction ds as [|d ds IH]; intros start have cs (A & F & G) (k & l & E & FC & K) RS; cbn [realpath_rel].
  { exists cs. split; [split; auto|]. intros. constructor. }
  destruct (negb have && negb assume); [discriminate|].
  assert (NEXT : forall st' cs1 hv, good st' cs1 -> (d = [] -> st' = root) ->
            (phys = true -> plain -> d <> dot -> wk0 cs [d] cs1) ->
            match (if is_path_below st' root then realpath_rel rp root assume st' hv ds else Err EAssert) with
            | Err e => e <> EAssert
            | Ok q => exists cs', good q cs' /\ (phys = true -> plain -> ~ In dot (d :: ds) -> wk0 cs (d :: ds) cs')
            end).
  { intros st' cs1 hv (A1 & F1 & G1) ND W1. rewrite (at_below _ _ A1).
    assert (SH : shape st' ds).
    { destruct k as [|k].
      - cbn in E. destruct l as [|x l]; [discriminate|]. inversion E; subst. inversion FC; subst. exists 0, l. repeat split; auto. congruence.
      - cbn in E. inversion E; subst. exists k, l. repeat split; auto. }
    specialize (IH st' hv cs1 (conj A1 (conj F1 G1)) SH G1).
    destruct (realpath_rel rp root assume st' hv ds) as [q|e]; auto.
    destruct IH as (cs' & G' & W'). exists cs'. split; auto. intros P PL ND'.
    change (d :: ds) with ([d] ++ ds). eapply walk_app0.
    - apply W1; auto. intros ->. apply ND'. now left.
    - apply W'; auto. intros X. apply ND'. now right. }
  destruct (seqb d dotdot) eqn:DD.
  - apply seqb_eq in DD. subst d. destruct (length root <=? length start) eqn:L.
    + destruct (at_long _ _ A F L) as [(-> & ->)|(NE & ->)].
      * apply (NEXT _ []); [|discriminate|].
        -- split; [apply at_dirname_root|]. split; auto.
        -- intros _ _ _. apply w_up. constructor.
      * destruct cs as [|z cs _] using rev_ind; [congruence|]. apply Forall_app in F. destruct F as [F1 F2]. inversion F2 as [|? ? [Z1 Z2] _]; subst.
        apply (NEXT _ cs); [|discriminate|].
        -- split; [now apply at_dirname|]. split; auto. intros P. eapply resolved_prefix. now apply G.
        -- intros _ _ _. apply w_up. rewrite removelast_last. constructor.
    + apply (NEXT _ cs); [split; auto|discriminate|]. intros _ _ _. 
      assert (cs = []) as ->.
      { destruct cs; auto. exfalso. rewrite (root_len start (s :: cs)) in L; [discriminate|discriminate|now apply okc_comp|exact A]. }
      apply w_up. constructor.
  - apply seqb_neq in DD. destruct (seqb d []) eqn:DE.
    + apply seqb_eq in DE. subst d. assert (start = root) as ->.
      { destruct k; [|apply K; lia]. cbn in E. destruct l as [|x l]; [discriminate|]. inversion E; subst. inversion FC as [|? ? [X _] _]; congruence. }
      assert (cs = []) as ->.
      { destruct cs as [|c cs]; auto. exfalso. cbn [at_] in A. inversion F as [|? ? [[C _] _] _]; subst. unfold root in A. apply app_inv_head in A. cbn in A.
        destruct c; [congruence|discriminate]. }
      assert (PJ : pjoin root [] = root).
      { unfold root. rewrite pjoin_slash by reflexivity. reflexivity. }
      rewrite PJ. specialize (HR root [] at_root (Forall_nil _)).
      destruct (rp root) as [[q b]|e].
      * destruct HR as (cs' & G' & Z & _). { intros _ x y Ex Nx. destruct x; [congruence|discriminate]. }
        rewrite (Z eq_refl) in *. assert (cs' = []) as ->.
        { destruct G' as (A' & F' & _). destruct cs' as [|c cs']; auto. exfalso. cbn [at_] in A'. inversion F' as [|? ? [[C _] _] _]; subst. unfold root in A'. apply app_inv_head in A'. cbn in A'.
          destruct c; [congruence|discriminate]. }
        apply (NEXT _ []); auto. intros _ _ _. apply w_skip; [auto|constructor].
      * apply HR. intros _ x y Ex Nx. destruct x; [congruence|discriminate].
    + apply seqb_neq in DE. assert (CD : comp d).
      { destruct k; cbn in E; [|congruence]. destruct l as [|x l]; [discriminate|]. inversion E; subst. inversion FC; auto. }
      rewrite (at_join _ _ _ A F CD).
      assert (A2 : at_ (Q ++ ptail (cs ++ [d])) (cs ++ [d])) by (destruct cs; reflexivity).
      specialize (HR _ _ A2 (okc_snoc _ _ F CD DD) (fun P => resolved_snoc cs d (RS P))).
      destruct (rp (Q ++ ptail (cs ++ [d]))) as [[q b]|e]; auto.
      destruct HR as (cs' & G' & _ & W). apply (NEXT _ cs'); auto. congruence.
Qed.

Lemma shape_suffix k cs l l' : repeat [] k ++ cs = l ++ l' -> Forall comp cs -> exists k' cs', l' = repeat [] k' ++ cs' /\ Forall comp cs'.
Proof.
  revert k cs l'. induction l as [|x l IH]; intros k cs l' E F; cbn in E; [eauto|].
  destruct k as [|k]; cbn in E.
  - destruct cs as [|c cs]; [discriminate|]. inversion E; subst. inversion F; subst. apply (IH 0 (l ++ l') l'); auto.
  - inversion E; subst. eapply IH; eauto.
Qed.

Lemma realpath1_ok cnt : rp_ok (realpath1 f root assume cnt).
Proof.
  induction cnt as [|cnt IH]; intros p cs A F P; cbn [realpath1].
  - destruct (if length root <=? length p then readlink f p else None) eqn:L; [discriminate|].
    exists cs. split; [|split; auto].
    + split; auto. split; auto. intros PH a b E N. destruct b as [|z b]; [|now apply (P PH a (z :: b))].
      rewrite app_nil_r in E. subst a. destruct cs; [congruence|]. cbn [at_] in A. subst p.
      rewrite (root_len _ (s :: cs)) in L; auto. now apply okc_comp.
    + intros PH PL a d -> ND. assert (AP : p = Q ++ ptail (a ++ [d])) by (destruct a; exact A).
      apply Forall_app in F. destruct F as [F1 F2]. inversion F2 as [|? ? [[D1 D2] D3] _]; subst.
      apply w_step; auto; [|constructor]. rewrite path_of_at.
      rewrite (root_len _ (a ++ [d])) in L; auto; [destruct a; discriminate|]. apply Forall_app. split; [now apply okc_comp|repeat constructor; auto].
  - destruct (if length root <=? length p then readlink f p else None) as [t|] eqn:L.
    2:{ exists cs. split; [|split; auto].
    + split; auto. split; auto. intros PH a b E N. destruct b as [|z b]; [|now apply (P PH a (z :: b))].
      rewrite app_nil_r in E. subst a. destruct cs; [congruence|]. cbn [at_] in A. subst p.
      rewrite (root_len _ (s :: cs)) in L; auto. now apply okc_comp.
    + intros PH PL a d -> ND. assert (AP : p = Q ++ ptail (a ++ [d])) by (destruct a; exact A).
      apply Forall_app in F. destruct F as [F1 F2]. inversion F2 as [|? ? [[D1 D2] D3] _]; subst.
      apply w_step; auto; [|constructor]. rewrite path_of_at.
      rewrite (root_len _ (a ++ [d])) in L; auto; [destruct a; discriminate|]. apply Forall_app. split; [now apply okc_comp|repeat constructor; auto]. }
    destruct (length root <=? length p) eqn:LR; [|discriminate].
    destruct (at_long _ _ A F LR) as [(-> & ->)|(NE & AP)].
    { unfold root in L. rewrite Hdir in L. discriminate. }
    destruct cs as [|d cs _] using rev_ind; [congruence|]. apply Forall_app in F. destruct F as [F1 F2]. inversion F2 as [|? ? [D1 D2] _]; subst p. subst.
    cbv zeta. rewrite normpath_isabs.
    match goal with |- context [isabs t || is_path_below ?x root] => set (tdir := x) end.
    set (tcs := if isabs t then [] else cs).
    assert (GT : good tdir tcs).
    { unfold tdir, tcs. destruct (isabs t).
      - split; [apply at_root|]. split; auto. intros _ x y Ex Nx. destruct x; [congruence|discriminate].
      - split; [now apply at_dirname|]. split; auto. intros PH. eapply presolved_snoc. eauto. }
    assert (B : (isabs t || is_path_below tdir root) = true).
    { destruct GT as (A1 & _). rewrite (at_below _ _ A1). apply orb_true_r. }
    rewrite B. destruct (normpath_split t) as (k & ncs & ES & FN & KA & NDD).
    assert (SH : shape tdir (split_on slash (normpath t))).
    { exists k, ncs. split; auto. split; auto. intros K0. unfold tdir. rewrite (proj2 KA K0). reflexivity. }
    pose proof (realpath_rel_ok _ IH _ tdir true tcs GT SH (proj2 (proj2 GT))) as HR.
    destruct (realpath_rel (realpath1 f root assume cnt) root assume tdir true (split_on slash (normpath t))) as [q|e]; auto.
    destruct HR as (cs1 & G1 & W1).
    assert (P1 : phys = true -> presolved cs1).
    { intros PH a b E N _. destruct G1 as (_ & _ & G1). apply (G1 PH a b); auto. }
    pose proof (IH q cs1 (proj1 G1) (proj1 (proj2 G1)) P1) as H2.
    destruct (realpath1 f root assume cnt q) as [[q2 b2]|e] eqn:E2; auto.
    destruct H2 as (cs2 & G2 & _ & _).
    destruct phys eqn:PH.
    + rewrite (realpath1_at cnt q cs1) in E2; [|apply G1|destruct G1 as (_ & _ & X); now apply X]. inversion E2; subst.
      exists cs1. split; auto. split; [intros X; destruct cs; discriminate|]. intros _ PL a d' Ea ND.
      apply app_inj_tail in Ea. destruct Ea as [<- <-].
      destruct (PL _ _ L) as [NT TD]. rewrite NT in *.
      assert (NDOT : ~ In dot (split_on slash t)).
      { destruct (normpath_form t) as (n & xs & (NA & NB & NC) & NE' & [(-> & -> & NF)|(ND' & NF)]); [congruence|].
        rewrite <- NT, NF, split_slashes. intros X. apply in_app_iff in X. destruct X as [X|X]; [apply repeat_spec in X; discriminate|].
        destruct xs as [|x xs]; [cbn in X; destruct X as [X|[]]; discriminate|].
        rewrite split_on_join in X; auto; [discriminate|]. eapply Forall_impl; [|exact NA]. intros y [_ Y]; exact Y. }
      specialize (W1 eq_refl PL NDOT). unfold tcs in W1. destruct (isabs t) eqn:IA.
      * eapply w_abs; eauto; [apply D1|rewrite path_of_at; exact L|rewrite app_nil_r; exact W1].
      * eapply w_rel; eauto; [apply D1|rewrite path_of_at; exact L|rewrite app_nil_r; exact W1].
    + exists cs2. split; [exact G2|]. split; [intros X; destruct cs; discriminate|congruence].
Qed.

(** ** What the kernel would find is found, with a large enough loop count *)
Lemma realpath_rel_app rp start have a b :
  realpath_rel rp root true start have (a ++ b) =
  match realpath_rel rp root true start have a with
  | Ok m => realpath_rel rp root true m true b
  | Err e => Err e
  end.
Proof.
  assert (HV : forall b start h1 h2, realpath_rel rp root true start h1 b = realpath_rel rp root true start h2 b).
  { clear. induction b as [|x b IH]; intros; cbn [realpath_rel]; auto. rewrite !andb_false_r. destruct (seqb x dotdot); auto.
    destruct (is_path_below _ root); auto. }
  revert start have. induction a as [|x a IH]; intros start have; cbn [app realpath_rel]; [apply HV|].
  rewrite !andb_false_r. destruct (seqb x dotdot).
  - destruct (is_path_below _ root); auto.
  - destruct (rp (pjoin start x)) as [[st' h']|e]; auto. destruct (is_path_below st' root); auto.
Qed.
Lemma realpath_rel_have rp start h b : realpath_rel rp root true start h b = realpath_rel rp root true start true b.
Proof. apply (realpath_rel_app rp start h [] b). Qed.
Lemma realpath_rel_mono rp rp' : (forall p r, rp p = Ok r -> rp' p = Ok r) ->
  forall ds start have q, realpath_rel rp root true start have ds = Ok q -> realpath_rel rp' root true start have ds = Ok q.
Proof.
  intros H. induction ds as [|d ds IH]; intros start have q; cbn [realpath_rel]; auto. rewrite !andb_false_r.
  destruct (seqb d dotdot).
  - destruct (is_path_below _ root); auto.
  - destruct (rp (pjoin start d)) as [[st' h']|e] eqn:E; [|discriminate]. rewrite (H _ _ E). destruct (is_path_below st' root); auto.
Qed.
Lemma realpath1_S cnt p : realpath1 f root true (S cnt) p =
  match (if length root <=? length p then readlink f p else None) with
  | None => Ok (p, isdir f p)
  | Some l =>
      let tdir := if isabs (normpath l) then root else dirname p in
      if isabs (normpath l) || is_path_below tdir root then
        match realpath_rel (realpath1 f root true cnt) root true tdir true (split_on slash (normpath l)) with
        | Err e => Err e
        | Ok file' => realpath1 f root true cnt file'
        end
      else Err EAssert
  end.
Proof. reflexivity. Qed.
Lemma realpath1_mono cnt : forall p r, realpath1 f root true cnt p = Ok r -> realpath1 f root true (S cnt) p = Ok r.
Proof.
  induction cnt as [|cnt IH]; intros p r.
  - cbn [realpath1]. destruct (if length root <=? length p then readlink f p else None); [discriminate|auto].
  - rewrite (realpath1_S cnt), (realpath1_S (S cnt)). destruct (if length root <=? length p then readlink f p else None) as [t|]; auto. cbv zeta.
    destruct (isabs (normpath t) || _); [|discriminate].
    destruct (realpath_rel (realpath1 f root true cnt) root true _ true (split_on slash (normpath t))) as [q|e] eqn:E; [|discriminate].
    intros H. rewrite (realpath_rel_mono _ (realpath1 f root true (S cnt)) IH _ _ _ _ E). now apply IH.
Qed.
Lemma realpath1_mono_le n m p r : n <= m -> realpath1 f root true n p = Ok r -> realpath1 f root true m p = Ok r.
Proof. induction 1; auto. intros E. apply realpath1_mono. auto. Qed.

Hypothesis Hphys : phys = true.
Hypothesis Hassume : assume = true.
Hypothesis Hplain : plain.
Lemma target_shape t p : readlink f p = Some t ->
  exists k cs, split_on slash t = repeat [] k ++ cs /\ Forall comp cs /\ (isabs t = true <-> k <> 0) /\ ~ In dot cs.
Proof.
  intros L. destruct (Hplain _ _ L) as [NT TD].
  destruct (normpath_form t) as (n & xs & (NA & NB & NC) & NE' & [(-> & -> & NF)|(ND' & NF)]); [congruence|].
  assert (ES : split_on slash t = split_on slash (normpath t)) by now rewrite NT.
  rewrite ES, NF, split_slashes. destruct xs as [|x xs].
  - exists (n + 1), []. rewrite repeat_app, app_nil_r. split; [reflexivity|]. split; [constructor|]. split; [|intros []].
    rewrite NE'. destruct ND'; [|congruence]. split; lia.
  - exists n, (x :: xs). rewrite split_on_join; [|discriminate|]; auto. eapply Forall_impl; [|exact NA]. intros y [_ Y]; exact Y.
Qed.
Lemma pjoin_root_empty : pjoin root [] = root.
Proof. unfold root. rewrite pjoin_slash by reflexivity. reflexivity. Qed.

Lemma found cs ds r : wk0 cs ds r -> forall start, good start cs -> shape start ds -> ~ In dot ds ->
  exists n q, forall cnt, n <= cnt -> realpath_rel (realpath1 f root true cnt) root true start true ds = Ok q.
Proof.
  assert (HAS : forall cnt, realpath1 f root assume cnt = realpath1 f root true cnt) by (intros; now rewrite Hassume).
  assert (NOL : forall cnt p, readlink f p = None -> realpath1 f root true cnt p = Ok (p, isdir f p)) by (intros; rewrite <- HAS; now apply realpath1_nolink).
  assert (TAIL : forall d ds start, d <> [] -> shape start (d :: ds) -> comp d /\ Forall comp ds).
  { clear cs ds r. intros d ds start N (k & l & E & FC & _). destruct k; cbn in E; [|inversion E; congruence].
    destruct l; [discriminate|]. inversion E; subst. inversion FC; auto. }
  intros W. induction W as [cs|cs d ds r D W IH|cs ds r W IH|cs d ds r D1 D2 D3 L W IH|cs d t ds r D1 D2 D3 L IA W IH|cs d t ds r D1 D2 D3 L IA W IH];
    intros start G SH ND.
  - exists 0, start. reflexivity.
  - destruct D as [->| ->]; [|exfalso; apply ND; now left].
    assert (start = root) as ->.
    { destruct SH as (k & l & E & FC & K). destruct k; [|apply K; lia]. cbn in E. destruct l; [discriminate|]. inversion E; subst. inversion FC as [|? ? [X _] _]; congruence. }
    assert (SH' : shape root ds).
    { destruct SH as (k & l & E & FC & K). destruct k; cbn in E.
      - destruct l; [discriminate|]. inversion E; subst. inversion FC as [|? ? [X _] _]; congruence.
      - inversion E; subst. exists k, l. auto. }
    destruct (IH root G SH') as (n & q & H); [intros X; apply ND; now right|]. exists n, q. intros cnt C. cbn [realpath_rel negb andb].
    change (seqb [] dotdot) with false. cbv iota. rewrite pjoin_root_empty.
    rewrite NOL by apply Hdir. rewrite (at_below root []) by apply at_root.
    rewrite realpath_rel_have; auto.
  - destruct G as (A & F & RS).
    pose (st' := if length root <=? length start then dirname start else start).
    assert (GS : good st' (removelast cs)).
    { unfold st'. destruct (length root <=? length start) eqn:LL.
      - destruct (at_long _ _ A F LL) as [(-> & ->)|(NE & ->)].
        + split; [apply at_dirname_root|]. split; auto.
        + destruct cs as [|z cs _] using rev_ind; [congruence|]. rewrite removelast_last. apply Forall_app in F. destruct F as [F1 F2]. inversion F2 as [|? ? [Z1 Z2] _]; subst.
          split; [now apply at_dirname|]. split; auto. intros P. eapply resolved_prefix. now apply RS.
      - destruct cs as [|c cs]; [split; auto|]. exfalso. rewrite (root_len start (c :: cs)) in LL; [discriminate|discriminate|now apply okc_comp|exact A]. }
    destruct (TAIL dotdot ds start) as [_ FT]; [discriminate|auto|].
    destruct (IH st' GS) as (n & q & H); [exists 0, ds; repeat split; auto; congruence|intros X; apply ND; now right|].
    exists n, q. intros cnt C. cbn [realpath_rel negb andb]. rewrite seqb_refl. cbv zeta. fold st'. rewrite (at_below _ _ (proj1 GS)). auto.
  - destruct (TAIL d ds start D1 SH) as [CD FT]. destruct G as (A & F & RS).
    rewrite path_of_at in L. assert (A2 : at_ (Q ++ ptail (cs ++ [d])) (cs ++ [d])) by (destruct cs; reflexivity).
    assert (G2 : good (Q ++ ptail (cs ++ [d])) (cs ++ [d])).
    { split; auto. split; [now apply okc_snoc|]. intros P x y E N. destruct y as [|z y _] using rev_ind.
      - rewrite app_nil_r in E. subst x. exact L.
      - rewrite app_assoc in E. apply app_inj_tail in E. destruct E as [E _]. now apply (RS P x y). }
    destruct (IH _ G2) as (n & q & H); [exists 0, ds; repeat split; auto; congruence|intros X; apply ND; now right|].
    exists n, q. intros cnt C. cbn [realpath_rel negb andb]. apply seqb_neq in D3. rewrite D3. rewrite (at_join _ _ _ A F CD).
    rewrite NOL by exact L.
    match goal with |- context [is_path_below ?a ?b] => replace (is_path_below a b) with true by (symmetry; exact (at_below _ _ A2)) end. specialize (H cnt C).
    rewrite realpath_rel_have; auto.
  - destruct (TAIL d ds start D1 SH) as [CD FT]. destruct G as (A & F & RS). rewrite path_of_at in L.
    destruct (target_shape _ _ L) as (k & l & E & FL & KA & NDL). destruct (Hplain _ _ L) as [NT _].
    assert (k = 0) as -> by (destruct k; auto; destruct KA as [_ KA]; rewrite KA in IA by lia; discriminate). cbn [repeat app] in E.
    pose (tdir := dirname (Q ++ ptail (cs ++ [d]))).
    assert (GT : good tdir cs) by (split; [now apply at_dirname|split; auto]).
    destruct (IH tdir GT) as (n & q & H).
    { exists 0, (l ++ ds). rewrite E. split; auto. split; [apply Forall_app; auto|congruence]. }
    { intros X. apply in_app_iff in X. destruct X as [X|X]; [rewrite E in X; auto|apply ND; now right]. }
    exists (S n), q. intros cnt C. destruct cnt as [|cnt]; [lia|]. cbn [realpath_rel negb andb]. pose proof D3 as D3'. apply seqb_neq in D3. rewrite D3. rewrite (at_join _ _ _ A F CD).
    assert (H1 := H cnt ltac:(lia)). rewrite realpath_rel_app in H1.
    destruct (realpath_rel (realpath1 f root true cnt) root true tdir true (split_on slash t)) as [m|] eqn:EM; [|discriminate].
    assert (SHT : shape tdir (split_on slash t)) by (exists 0, l; rewrite E; repeat split; auto; congruence).
    pose proof (realpath_rel_ok _ (realpath1_ok cnt) (split_on slash t) tdir true cs GT SHT (fun P => RS P)) as HM.
    rewrite Hassume in HM. rewrite EM in HM. destruct HM as (mcs & GM & _).
    assert (E1 : realpath1 f root true (S cnt) (Q ++ ptail (cs ++ [d])) = Ok (m, isdir f m)).
    { rewrite realpath1_S. rewrite (root_len _ (cs ++ [d])); auto; [|destruct cs; discriminate|apply Forall_app; split; [now apply okc_comp|auto]].
      match goal with |- context [readlink f ?x] => replace (readlink f x) with (Some t) by (symmetry; exact L) end. cbv zeta. rewrite NT, IA. cbn [orb]. fold tdir.
      match goal with |- context [is_path_below ?a ?b] => replace (is_path_below a b) with true by (symmetry; exact (at_below _ _ (proj1 GT))) end. change (dirname (Q ++ ptail (cs ++ [d]))) with tdir. rewrite EM.
      rewrite <- HAS. apply (realpath1_at _ _ mcs); [apply GM|now apply GM]. }
    match goal with |- context [match realpath1 f root true (S cnt) ?x with _ => _ end] => replace (realpath1 f root true (S cnt) x) with (@Ok (str * bool) (m, isdir f m)) by (symmetry; exact E1) end.
    rewrite (at_below _ _ (proj1 GM)).
    pose proof (realpath_rel_mono _ (realpath1 f root true (S cnt)) (realpath1_mono cnt) _ _ _ _ H1) as H2.
    rewrite realpath_rel_have; auto.
  - destruct (TAIL d ds start D1 SH) as [CD FT]. destruct G as (A & F & RS). rewrite path_of_at in L.
    destruct (target_shape _ _ L) as (k & l & E & FL & KA & NDL). destruct (Hplain _ _ L) as [NT _].
    assert (GT : good root []) by (split; [apply at_root|split; auto; intros _ x y Ex Nx; destruct x; [congruence|discriminate]]).
    destruct (IH root GT) as (n & q & H).
    { exists k, (l ++ ds). rewrite E, <- app_assoc. split; auto. split; [apply Forall_app; auto|congruence]. }
    { intros X. apply in_app_iff in X. destruct X as [X|X]; [|apply ND; now right]. rewrite E in X. apply in_app_iff in X.
      destruct X as [X|X]; auto. apply repeat_spec in X. discriminate. }
    exists (S n), q. intros cnt C. destruct cnt as [|cnt]; [lia|]. cbn [realpath_rel negb andb]. pose proof D3 as D3'. apply seqb_neq in D3. rewrite D3. rewrite (at_join _ _ _ A F CD).
    assert (H1 := H cnt ltac:(lia)). rewrite realpath_rel_app in H1.
    destruct (realpath_rel (realpath1 f root true cnt) root true root true (split_on slash t)) as [m|] eqn:EM; [|discriminate].
    assert (SHT : shape root (split_on slash t)) by (exists k, l; rewrite E; repeat split; auto; congruence).
    pose proof (realpath_rel_ok _ (realpath1_ok cnt) (split_on slash t) root true [] GT SHT (proj2 (proj2 GT))) as HM.
    rewrite Hassume in HM. rewrite EM in HM. destruct HM as (mcs & GM & _).
    assert (E1 : realpath1 f root true (S cnt) (Q ++ ptail (cs ++ [d])) = Ok (m, isdir f m)).
    { rewrite realpath1_S. rewrite (root_len _ (cs ++ [d])); auto; [|destruct cs; discriminate|apply Forall_app; split; [now apply okc_comp|auto]].
      match goal with |- context [readlink f ?x] => replace (readlink f x) with (Some t) by (symmetry; exact L) end. cbv zeta. rewrite NT, IA. cbn [orb]. rewrite EM.
      rewrite <- HAS. apply (realpath1_at _ _ mcs); [apply GM|now apply GM]. }
    match goal with |- context [match realpath1 f root true (S cnt) ?x with _ => _ end] => replace (realpath1 f root true (S cnt) x) with (@Ok (str * bool) (m, isdir f m)) by (symmetry; exact E1) end.
    rewrite (at_below _ _ (proj1 GM)).
    pose proof (realpath_rel_mono _ (realpath1 f root true (S cnt)) (realpath1_mono cnt) _ _ _ _ H1) as H2.
    rewrite realpath_rel_have; auto.
Qed.
End Jail.

(** ** From positions to the specification *)
Lemma slashed_root root Q : the_root root = Q ++ [slash] -> slashed (normpath root) = Q ++ [slash].
Proof. auto. Qed.
Lemma at_inside root Q p cs : the_root root = Q ++ [slash] ->
  (normpath root = Q /\ (exists h x, Q = h ++ [x] /\ is_slash x = false) \/ (normpath root = Q ++ [slash] /\ forallb is_slash Q = true)) ->
  at_ Q p cs -> Forall okc cs -> inside (normpath root) p.
Proof.
  intros HS HR A F. unfold inside. rewrite (slashed_root _ _ HS). destruct cs as [|c cs]; cbn [at_] in A.
  - destruct A as [->|(-> & h & x & E & X)].
    + right. exists []. split; [now rewrite app_nil_r|]. intros [Z|[]]; discriminate.
    + destruct HR as [(HR & _)|(HR & SL)]; [left; auto|]. subst Q. rewrite forallb_app in SL. cbn in SL. rewrite X, andb_false_r in SL. discriminate.
  - right. exists (join [slash] (c :: cs)). split.
    + subst p. rewrite ptail_join by discriminate. now rewrite <- app_assoc.
    + rewrite split_on_join; [|discriminate|].
      * intros X. rewrite Forall_forall in F. destruct (F _ X) as [_ Y]. congruence.
      * eapply Forall_impl; [|exact F]. intros y [[_ Y] _]. exact Y.
Qed.

(** boundary prefixes of a path *)
Lemma split_ptail Q cs : Forall comp cs -> split_on slash (Q ++ ptail cs) = split_on slash Q ++ cs.
Proof.
  intros F. destruct cs as [|c cs]; [cbn; now rewrite !app_nil_r|]. rewrite ptail_join by discriminate.
  rewrite split_on_app. rewrite split_on_join; auto; [discriminate|]. eapply Forall_impl; [|exact F]. intros y [_ Y]; exact Y.
Qed.
Lemma join_app_ptail a l : a <> [] -> join [slash] (a ++ l) = join [slash] a ++ ptail l.
Proof.
  intros N. induction a as [|x a IH]; [congruence|]. destruct a as [|y a].
  - cbn [app]. destruct l as [|z l]; [cbn; now rewrite app_nil_r|]. rewrite join_cons by discriminate. rewrite ptail_join by discriminate. reflexivity.
  - change ((x :: y :: a) ++ l) with (x :: (y :: a) ++ l). rewrite !join_cons by discriminate. rewrite IH by discriminate.
    rewrite <- !app_assoc. reflexivity.
Qed.
Lemma boundary Q cs a b : Forall comp cs -> Q ++ ptail cs = a ++ b -> (b = [] \/ exists b', b = slash :: b') -> length Q < length a ->
  exists l l', cs = l ++ l' /\ a = Q ++ ptail l.
Proof.
  intros F E [->|(b' & ->)] L.
  - exists cs, []. rewrite !app_nil_r in *. auto.
  - pose proof (split_ptail Q cs F) as S. rewrite E, split_on_app in S. symmetry in S.
    destruct (split_on_spec slash a) as (_ & NA & JA). destruct (split_on_spec slash Q) as (_ & NQ & JQ).
    apply app_eq_app in S. destruct S as (l & [(S1 & S2)|(S1 & S2)]).
    + exfalso. rewrite S1, join_app_ptail in JQ by auto. rewrite JA in JQ. rewrite <- JQ in L. rewrite app_length in L. lia.
    + exists l, (split_on slash b'). split; auto. rewrite <- JA, S1, join_app_ptail, JQ by auto. reflexivity.
Qed.

Lemma at_link_free root Q p cs f : the_root root = Q ++ [slash] -> at_ Q p cs -> Forall okc cs -> resolved Q f cs ->
  link_free (readlink f) (normpath root) p.
Proof.
  intros HS A F R a b E B L. rewrite (slashed_root _ _ HS) in L. rewrite app_length in L. cbn in L.
  destruct cs as [|c cs]; cbn [at_] in A.
  - exfalso. assert (length p <= length Q + 1) by (destruct A as [->|(-> & _)]; rewrite ?app_length; cbn; lia).
    rewrite E, app_length in H. lia.
  - subst p. destruct (boundary Q (c :: cs) a b) as (l & l' & EL & ->); auto; [now apply okc_comp|lia|].
    apply (R l l'); auto. intros ->. cbn in L. rewrite app_nil_r in L. lia.
Qed.

(** the initial path of the resolution *)
Lemma file_below root file Q : the_root root = Q ++ [slash] -> is_path_below (normpath file) (the_root root) = true ->
  (normpath file = Q \/ exists rest, normpath file = Q ++ slash :: rest).
Proof.
  intros HS B. unfold is_path_below in B. rewrite HS in B. apply startswith_iff in B. destruct B as (t & E).
  destruct t as [|x t _] using rev_ind.
  - rewrite app_nil_r in E. apply app_inj_tail in E. left. tauto.
  - rewrite app_assoc in E. apply app_inj_tail in E. destruct E as [E _]. right. exists t. rewrite E, <- app_assoc. reflexivity.
Qed.
Lemma file_shape file Q rest : normpath file = Q ++ slash :: rest ->
  exists k cs, split_on slash (slash :: rest) = repeat [] k ++ cs /\ Forall comp cs /\ k <> 0.
Proof.
  intros E. destruct (normpath_split file) as (k & cs & S0 & F & _). rewrite E, split_on_app in S0.
  change (slash :: rest) with ([] ++ slash :: rest). rewrite split_on_cons by constructor.
  destruct (shape_suffix k cs (split_on slash Q) (split_on slash rest) (eq_sym S0) F) as (k' & cs' & S' & F').
  exists (S k'), cs'. rewrite S'. repeat split; auto.
Qed.
Lemma normpath_one p : initial_slashes p = 1 -> normpath p = slash :: join [slash] (norm_comps p).
Proof. intros E. unfold normpath. rewrite E. reflexivity. Qed.
Lemma normpath_one_ptail p : initial_slashes p = 1 -> norm_comps p <> [] -> normpath p = ptail (norm_comps p).
Proof. intros E N. rewrite normpath_one by auto. now rewrite ptail_join. Qed.
Lemma ptail_inj a b : Forall comp a -> Forall comp b -> ptail a = ptail b -> a = b.
Proof.
  intros F G E. apply (f_equal (split_on slash)) in E. pose proof (split_ptail [] a F) as A. pose proof (split_ptail [] b G) as B.
  cbn [app] in A, B. rewrite A, B in E. now inversion E.
Qed.
Lemma ptail_prefix Qs cs rest : Forall comp cs -> Forall comp Qs -> ptail cs = ptail Qs ++ slash :: rest -> exists l, cs = Qs ++ l /\ l <> [].
Proof.
  intros F G E. apply (f_equal (split_on slash)) in E. pose proof (split_ptail [] cs F) as A. cbn [app] in A. rewrite A, split_on_app in E.
  pose proof (split_ptail [] Qs G) as B. cbn [app] in B. rewrite B in E. cbn in E. inversion E. exists (split_on slash rest). split; auto.
  apply split_on_spec.
Qed.
(** an absolute path below an absolute root is a position *)
Lemma file_at root file Q : initial_slashes root = 1 -> initial_slashes file = 1 -> the_root root = Q ++ [slash] ->
  (normpath root = Q /\ (exists h x, Q = h ++ [x] /\ is_slash x = false) \/ (normpath root = Q ++ [slash] /\ forallb is_slash Q = true)) ->
  (normpath file = Q \/ exists rest, normpath file = Q ++ slash :: rest) ->
  exists cs, at_ Q (normpath file) cs /\ Forall okc cs.
Proof.
  intros R1 F1 HS HR FB.
  destruct (norm_comps_ok root) as (RA & RB & RC). destruct (norm_comps_ok file) as (FA & FBd & FC).
  rewrite R1 in RC. rewrite F1 in FC.
  assert (OKF : Forall okc (norm_comps file)).
  { rewrite Forall_forall in *. intros x X. split; auto. intros ->. apply FC; auto. }
  destruct (norm_comps root) as [|r rs] eqn:ER.
  - assert (NR : normpath root = [slash]) by (rewrite normpath_one, ER; auto).
    assert (Q = []) as ->.
    { unfold the_root in HS. rewrite NR in HS. change (endswith [slash] [slash]) with true in HS. cbv iota in HS.
      change [slash] with ([] ++ [slash]) in HS at 1. apply app_inj_tail in HS. symmetry. tauto. }
    exists (norm_comps file). split; auto. destruct (norm_comps file) as [|c cs] eqn:EF.
    + left. rewrite normpath_one, EF; auto.
    + cbn [at_ app]. rewrite <- EF. apply normpath_one_ptail; auto. rewrite EF. discriminate.
  - assert (NR : normpath root = ptail (r :: rs)) by (rewrite <- ER; apply normpath_one_ptail; auto; rewrite ER; discriminate).
    assert (HQ : Q = ptail (r :: rs)).
    { destruct HR as [(HR & _)|(HR & SL)]; [congruence|]. exfalso. destruct (ptail_last (r :: rs)) as (h & x & EH & X); [discriminate|auto|].
      rewrite NR, EH in HR. apply app_inj_tail in HR. destruct HR as [_ ->]. discriminate. }
    destruct FB as [FB|(rest & FB)].
    + exists []. split; auto. right. split; auto. rewrite HQ. destruct (ptail_last (r :: rs)) as (h & x & EH & X); [discriminate|auto|]. eauto.
    + assert (NE : norm_comps file <> []).
      { intros EF. rewrite normpath_one, EF in FB by auto. rewrite HQ in FB. cbn in FB. inversion FB. destruct r; [inversion RA as [|? ? [Z _] _]; congruence|discriminate]. }
      rewrite normpath_one_ptail in FB |- * by auto. rewrite HQ in FB. destruct (ptail_prefix (r :: rs) (norm_comps file) rest FA RA FB) as (l & El & NL).
      exists l. split; [|rewrite El in OKF; now apply Forall_app in OKF]. destruct l; [congruence|]. cbn [at_]. rewrite El, ptail_app, HQ. reflexivity.
Qed.
Lemma no_dot_in_file file rest Q : normpath file = Q ++ slash :: rest -> ~ In dot (split_on slash (slash :: rest)).
Proof.
  intros E X. change (slash :: rest) with ([] ++ slash :: rest) in X. rewrite split_on_cons in X by constructor.
  destruct X as [X|X]; [discriminate|].
  destruct (normpath_form file) as (n & xs & (NA & NB & NC) & NE' & [(-> & -> & NF)|(ND' & NF)]).
  - rewrite NF in E. apply (f_equal (split_on slash)) in E. rewrite split_on_app in E. 
    pose proof (f_equal (@length _) E) as L. rewrite app_length in L. cbn in L.
    destruct (split_on_spec slash Q) as (_ & NQ & _). destruct (split_on_spec slash rest) as (_ & NR & _).
    destruct (split_on slash Q), (split_on slash rest); cbn in L; try congruence; lia.
  - rewrite NF in E. apply (f_equal (split_on slash)) in E. rewrite split_slashes, split_on_app in E.
    assert (Y : In dot (repeat [] n ++ split_on slash (join [slash] xs))) by (rewrite E; apply in_or_app; auto).
    apply in_app_iff in Y. destruct Y as [Y|Y]; [apply repeat_spec in Y; discriminate|].
    destruct xs as [|x xs]; [cbn in Y; destruct Y as [Y|[]]; discriminate|].
    rewrite split_on_join in Y; auto; [discriminate|]. eapply Forall_impl; [|exact NA]. intros y [_ Z]; exact Z.
Qed.

(** ** Relative links *)
(** components that are names: not '.', not '..' *)
Definition named (c : str) : Prop := comp c /\ c <> dot /\ c <> dotdot.
Lemma named_comp cs : Forall named cs -> Forall comp cs.
Proof. intros F. eapply Forall_impl; [|exact F]. intros a [X _]. exact X. Qed.
Lemma norm_named n cs acc : Forall named cs -> fold_left (norm_step n) cs acc = rev cs ++ acc.
Proof.
  revert acc. induction cs as [|c cs IH]; intros acc F; auto. inversion F as [|? ? ((N & _) & D & DD) F']; subst. cbn [fold_left rev].
  assert (E : norm_step n acc c = c :: acc).
  { unfold norm_step. apply seqb_neq in N, D, DD. rewrite N, D, DD. reflexivity. }
  rewrite E, IH by auto. now rewrite <- app_assoc.
Qed.
Lemma norm_ups n k acc : n <> 0 -> ~ In dotdot acc -> k <= length acc ->
  fold_left (norm_step n) (repeat dotdot k) acc = skipn k acc.
Proof.
  intros N. revert acc. induction k as [|k IH]; intros acc ND L; auto. destruct acc as [|x acc]; cbn [length] in L; [lia|].
  cbn [repeat fold_left skipn]. assert (E : norm_step n (x :: acc) dotdot = acc).
  { unfold norm_step. change (seqb dotdot [] || seqb dotdot dot) with false. change (seqb dotdot dotdot) with true. cbn [negb orb].
    assert (X : seqb x dotdot = false) by (apply seqb_neq; intros ->; apply ND; now left). rewrite X. rewrite (proj2 (Nat.eqb_neq n 0) N). reflexivity. }
  rewrite E. apply IH; [|lia]. intros X. apply ND. now right.
Qed.
Lemma initial_one c cs s : comp c -> initial_slashes (ptail (c :: cs) ++ s) = 1.
Proof.
  intros [N F]. destruct c as [|x c]; [congruence|]. inversion F as [|? ? FX _]; subst.
  assert (X : is_slash x = false) by exact FX. cbn. rewrite X. destruct ((c ++ flat_map (fun c0 => slash :: c0) cs) ++ s); reflexivity.
Qed.
Lemma normpath_eq a b : initial_slashes a = initial_slashes b -> norm_comps a = norm_comps b -> normpath a = normpath b.
Proof. intros E F. unfold normpath. now rewrite E, F. Qed.
Lemma split_ptail0 cs : Forall comp cs -> split_on slash (ptail cs) = [] :: cs.
Proof. intros F. exact (split_ptail [] cs F). Qed.

Lemma before_last cs c : no_char slash c -> before_last_slash (ptail (cs ++ [c])) = ptail cs.
Proof.
  intros N. unfold before_last_slash. rewrite ptail_app. cbn [ptail flat_map]. rewrite app_nil_r. rewrite head_part_app by auto. apply removelast_last.
Qed.
Lemma before_last_snoc h c : no_char slash c -> before_last_slash (h ++ slash :: c) = h.
Proof. intros N. unfold before_last_slash. rewrite head_part_app by auto. apply removelast_last. Qed.
Lemma ptail_cons_nonempty c cs : ptail (c :: cs) <> [].
Proof. discriminate. Qed.
Lemma ancestor_found link a ps : a <> [] -> Forall comp ps -> startswith (ptail a) link = true ->
  (forall pre post, ps = pre ++ post -> pre <> [] -> startswith (ptail (a ++ pre)) link = false) ->
  forall fuel k, length ps < fuel -> ancestor fuel link (ptail (a ++ ps)) k = (ptail a, k + length ps).
Proof.
  intros NA F SW. induction ps as [|p ps IH] using rev_ind; intros H fuel k L.
  - rewrite app_nil_r. cbn [length]. rewrite Nat.add_0_r. destruct fuel as [|fuel]; [cbn in L; lia|]. cbn [ancestor].
    destruct (ptail a) eqn:E; [destruct a; [congruence|discriminate]|]. now rewrite SW.
  - rewrite app_length in *. cbn in L |- *. destruct fuel as [|fuel]; [lia|]. cbn [ancestor].
    apply Forall_app in F. destruct F as [F1 F2]. inversion F2 as [|? ? [P1 P2] _]; subst.
    rewrite (H (ps ++ [p]) []); [|now rewrite app_nil_r|destruct ps; discriminate].
    destruct (ptail (a ++ ps ++ [p])) eqn:E; [destruct a; [congruence|discriminate]|]. rewrite <- E. rewrite app_assoc.
    rewrite before_last by auto. rewrite IH; auto; [f_equal; lia| |lia].
    intros pre post EP NP. apply (H pre (post ++ [p])); auto. now rewrite EP, <- app_assoc.
Qed.
Lemma ancestor_none link ps : Forall comp ps ->
  (forall pre post, ps = pre ++ post -> pre <> [] -> startswith (ptail pre) link = false) ->
  forall fuel k, length ps < fuel -> fst (ancestor fuel link (ptail ps) k) = [].
Proof.
  intros F. induction ps as [|p ps IH] using rev_ind; intros H fuel k L.
  - destruct fuel as [|fuel]; [cbn in L; lia|]. reflexivity.
  - rewrite app_length in *. cbn in L |- *. destruct fuel as [|fuel]; [lia|]. cbn [ancestor].
    apply Forall_app in F. destruct F as [F1 F2]. inversion F2 as [|? ? [P1 P2] _]; subst.
    rewrite (H (ps ++ [p]) []); [|now rewrite app_nil_r|destruct ps; discriminate].
    destruct (ptail (ps ++ [p])) eqn:E; [destruct ps; discriminate|]. rewrite <- E.
    rewrite before_last by auto. rewrite IH; auto; [|lia].
    intros pre post EP NP. apply (H pre (post ++ [p])); auto. now rewrite EP, <- app_assoc.
Qed.
(** the first component decides *)
Lemma prefix_first p pre ls : comp p -> Forall comp ls ->
  (match ls with l :: _ => startswith p l = false | [] => True end) ->
  startswith (ptail (p :: pre)) (ptail ls) = false.
Proof.
  intros [PN PF] F H. destruct (startswith (ptail (p :: pre)) (ptail ls)) eqn:E; auto. exfalso.
  apply startswith_iff in E. destruct E as (t & E). destruct ls as [|l ls]; [discriminate|]. cbn in E. inversion E as [E1]. clear E.
  inversion F as [|? ? [LN LF] _]; subst. rewrite <- app_assoc in E1. apply app_eq_app in E1. destruct E1 as (z & [(Z1 & Z2)|(Z1 & Z2)]).
  - assert (startswith p l = true) by (apply startswith_iff; eauto). congruence.
  - destruct z as [|x z]; [rewrite app_nil_r in Z1; subst p; assert (startswith l l = true) by (apply startswith_iff; exists []; now rewrite app_nil_r); congruence|].
    subst p. apply Forall_app in PF. destruct PF as [_ PF]. inversion PF; subst.
    destruct ls as [|l2 ls]; cbn in Z2; [discriminate|]. inversion Z2; subst. discriminate.
Qed.
Lemma startswith_cons_app a b s : startswith (a ++ b) (a ++ s) = startswith b s.
Proof. induction a as [|x a IH]; cbn; auto. unfold aeqb. now rewrite Ascii.eqb_refl, IH. Qed.

Lemma drop_slashes_comp c s : comp c -> drop_slashes (c ++ s) = c ++ s.
Proof. intros [N F]. destruct c as [|x c]; [congruence|]. inversion F as [|? ? X _]; subst. cbn. change (is_slash x) with (aeqb x slash). now rewrite X. Qed.
Lemma strip_ptail ls : Forall comp ls -> strip_slashes (ptail ls) = join [slash] ls.
Proof.
  intros F. destruct ls as [|l ls]; auto. rewrite ptail_join by discriminate.
  unfold strip_slashes. assert (D : drop_slashes (slash :: join [slash] (l :: ls)) = join [slash] (l :: ls)).
  { inversion F; subst. destruct ls as [|m ls].
    - cbn [join]. rewrite <- (app_nil_r l) at 2. rewrite <- (drop_slashes_comp l []); auto. now rewrite app_nil_r.
    - rewrite join_cons by discriminate. cbn [drop_slashes]. change (is_slash slash) with true. cbv iota. fold (drop_slashes (l ++ [slash] ++ join [slash] (m :: ls))).
      now apply drop_slashes_comp. }
  rewrite D. destruct (join_last_nonslash 0 (l :: ls)) as (h & x & E & X); [discriminate|auto|]. cbn [repeat app] in E. rewrite E.
  unfold rstrip_slashes. rewrite rev_app_distr. cbn [rev app]. rewrite drop_slashes_cons by auto. cbn [rev]. now rewrite rev_involutive.
Qed.

(** a chain of '../' in front of a path *)
Lemma split_ups n s : split_on slash (concat (repeat (s_ "../") n) ++ s) = repeat dotdot n ++ split_on slash s.
Proof.
  induction n as [|n IH]; auto. cbn [repeat concat app]. rewrite <- app_assoc.
  change (s_ "../" ++ concat (repeat (s_ "../") n) ++ s) with (dotdot ++ slash :: concat (repeat (s_ "../") n) ++ s).
  rewrite split_on_cons by (repeat constructor). now rewrite IH.
Qed.
Lemma relative_start n ls : Forall comp ls -> isabs (concat (repeat (s_ "../") n) ++ join [slash] ls) = false.
Proof.
  intros F. destruct n; [|reflexivity]. cbn. destruct ls as [|l ls]; auto. inversion F as [|? ? [N X] _]; subst. destruct l as [|x l]; [congruence|].
  inversion X as [|? ? Y _]; subst. destruct ls; exact Y.
Qed.
Lemma norm_skip_empty n l acc : fold_left (norm_step n) ([] :: l) acc = fold_left (norm_step n) l acc.
Proof. reflexivity. Qed.
Lemma named_no_dotdot cs : Forall named cs -> ~ In dotdot cs.
Proof. intros F X. rewrite Forall_forall in F. destruct (F _ X) as (_ & _ & Y). congruence. Qed.

(** what a link made of ups and components refers to *)
Lemma refers_relative d c a ups t ls : Forall named (a ++ ups) -> comp c -> Forall comp ls ->
  dirname d = ptail (a ++ ups) -> a ++ ups <> [] -> isabs t = false ->
  split_on slash t = repeat dotdot (length ups) ++ ls \/ split_on slash t = repeat dotdot (length ups) ++ ls ++ [[]] \/ (ups = [] /\ ls = [] /\ t = dot) ->
  refers_to d t = normpath (ptail (a ++ ls)) \/ a ++ ls = [].
Proof.
  intros FN C FL ED NE IA ST. destruct (a ++ ls) as [|y ys] eqn:EY; [right; auto|left]. rewrite <- EY.
  unfold refers_to. rewrite ED.
  destruct (ptail_last (a ++ ups) NE (named_comp _ FN)) as (h & x & EH & X).
  assert (PJ : pjoin (ptail (a ++ ups)) t = ptail (a ++ ups) ++ slash :: t) by (rewrite EH; apply pjoin_plain; auto).
  rewrite PJ. apply normpath_eq.
  - destruct (a ++ ups) as [|u us] eqn:EU; [congruence|]. pose proof (named_comp _ FN) as FC. inversion FC; subst.
    assert (comp y).
    { destruct a as [|a0 a]; cbn in EY.
      - subst ls. inversion FL; auto.
      - inversion EY; subst. inversion EU; subst. auto. }
    rewrite EY. rewrite initial_one by auto. rewrite <- (app_nil_r (ptail (y :: ys))). now rewrite initial_one.
  - assert (I1 : initial_slashes (ptail (a ++ ups) ++ slash :: t) = 1).
    { destruct (a ++ ups) as [|u us]; [congruence|]. pose proof (named_comp _ FN) as FC. inversion FC; subst. now apply initial_one. }
    assert (I2 : initial_slashes (ptail (a ++ ls)) = 1).
    { rewrite EY, <- (app_nil_r (ptail (y :: ys))). apply initial_one.
      destruct a as [|a0 a]; cbn in EY.
      - subst ls. inversion FL; auto.
      - inversion EY; subst. inversion FN as [|? ? [Z _] _]; auto. }
    unfold norm_comps. rewrite I1, I2. f_equal.
    rewrite split_on_app, split_ptail0 by now apply named_comp.
    rewrite (split_ptail0 (a ++ ls)) by (apply Forall_app; split; auto; apply named_comp; now apply Forall_app in FN).
    cbn [app]. rewrite !norm_skip_empty. rewrite !fold_left_app.
    pose proof (proj1 (proj1 (Forall_app _ _ _) FN)) as FA.
    rewrite (norm_named 1 a [] FA). rewrite (norm_named 1 ups) by now apply Forall_app in FN.
    rewrite app_nil_r.
    assert (UPS : fold_left (norm_step 1) (repeat dotdot (length ups)) (rev ups ++ rev a) = rev a).
    { rewrite norm_ups; [|lia| |rewrite app_length, rev_length; lia].
      - rewrite <- (rev_length ups). rewrite skipn_app, skipn_all, Nat.sub_diag. reflexivity.
      - rewrite <- rev_app_distr, <- in_rev. now apply named_no_dotdot. }
    destruct ST as [ST|[ST|(-> & -> & ->)]].
    + rewrite ST, fold_left_app, UPS. reflexivity.
    + rewrite ST, !fold_left_app, UPS. reflexivity.
    + reflexivity.
Qed.

Lemma initial_rel t : isabs t = false -> initial_slashes (slash :: t) = 1.
Proof. intros H. destruct t as [|x [|y t]]; cbn in *; auto; rewrite H; auto. Qed.
(** the same from any directory, for components L in normal form *)
Lemma refers_relative_norm cs a ups t ls : Forall named cs -> cs <> [] -> removelast cs = a ++ ups -> Forall named ls -> isabs t = false ->
  split_on slash t = repeat dotdot (length ups) ++ ls \/ (ups = [] /\ ls = [] /\ t = dot) ->
  forall l, initial_slashes l = 1 -> norm_comps l = a ++ ls -> refers_to (ptail cs) t = normpath l.
Proof.
  intros F NE RL FL IA ST l I1 NL. destruct (exists_last NE) as (q & c & ->). rewrite removelast_last in RL. subst q.
  apply Forall_app in F. destruct F as [FN F2]. inversion F2 as [|? ? ([CN CF] & _) _]; subst.
  assert (DIR : exists Z, pjoin (dirname (ptail ((a ++ ups) ++ [c]))) t = Z /\ initial_slashes Z = 1 /\ split_on slash Z = [] :: (a ++ ups) ++ split_on slash t).
  { rewrite ptail_app. cbn [ptail flat_map]. rewrite app_nil_r.
    destruct (a ++ ups) as [|u us] eqn:EU.
    - exists (slash :: t). cbn [ptail flat_map app]. change (slash :: c) with ([] ++ slash :: c). rewrite dirname_slashed by auto.
      cbn [app]. split; [|split; [now apply initial_rel|]].
      + exact (pjoin_slash [] t IA).
      + change (slash :: t) with ([] ++ slash :: t). now rewrite split_on_cons by constructor.
    - pose proof (named_comp _ FN) as FC. destruct (ptail_last (u :: us)) as (h & x & EH & X); [discriminate|auto|].
      exists (ptail (u :: us) ++ slash :: t). rewrite EH at 1. rewrite dirname_plain by auto. split; [rewrite EH; apply pjoin_plain; auto|].
      split; [inversion FC; subst; now apply initial_one|]. rewrite split_on_app, split_ptail0 by auto. reflexivity. }
  destruct DIR as (Z & EZ & IZ & SZ). unfold refers_to. rewrite EZ. apply normpath_eq; [congruence|].
  rewrite NL. unfold norm_comps. rewrite IZ, SZ, norm_skip_empty, fold_left_app.
  rewrite (norm_named 1 (a ++ ups) [] FN), app_nil_r, rev_app_distr.
  assert (UPS : fold_left (norm_step 1) (repeat dotdot (length ups)) (rev ups ++ rev a) = rev a).
    { rewrite norm_ups; [|lia| |rewrite app_length, rev_length; lia].
      - rewrite <- (rev_length ups). rewrite skipn_app, skipn_all, Nat.sub_diag. reflexivity.
      - rewrite <- rev_app_distr, <- in_rev. now apply named_no_dotdot. }
  destruct ST as [ST|(-> & -> & ->)].
  - rewrite ST, fold_left_app, UPS. rewrite norm_named by auto. now rewrite rev_app_distr, !rev_involutive.
  - cbn. rewrite rev_involutive, app_nil_r. reflexivity.
Qed.

Lemma strip_common_spec a b : exists com, a = com ++ fst (strip_common a b) /\ b = com ++ snd (strip_common a b).
Proof.
  revert b. induction a as [|x a IH]; intros [|y b]; try (exists []; split; reflexivity).
  cbn [strip_common]. destruct (seqb x y) eqn:E; [|exists []; split; reflexivity]. apply seqb_eq in E. subst y.
  destruct (IH b) as (com & E1 & E2). exists (x :: com). cbn. now rewrite <- E1, <- E2.
Qed.
Lemma filter_comp cs : Forall comp cs -> filter (fun c => negb (seqb c [])) cs = cs.
Proof.
  induction cs as [|c cs IH]; intros F; auto. inversion F as [|? ? [N _] F']; subst. cbn. apply seqb_neq in N. rewrite N. cbn. now rewrite IH.
Qed.
Lemma nonempty_norm p : initial_slashes p = 1 -> nonempty_comps (normpath p) = norm_comps p.
Proof.
  intros I. rewrite normpath_one by auto. unfold nonempty_comps.
  assert (S : split_on slash (slash :: join [slash] (norm_comps p)) = [] :: split_on slash (join [slash] (norm_comps p))).
  { change (slash :: join [slash] (norm_comps p)) with ([] ++ slash :: join [slash] (norm_comps p)). now rewrite split_on_cons by constructor. }
  rewrite S. cbn [filter seqb negb]. destruct (norm_comps_ok p) as (A & _). destruct (norm_comps p) as [|c cs]; auto.
  rewrite split_on_join; [now apply filter_comp|discriminate|]. eapply Forall_impl; [|exact A]. intros y [_ Y]; exact Y.
Qed.
Lemma norm_comps_ptail cs : Forall named cs -> norm_comps (ptail cs) = cs.
Proof.
  intros F. unfold norm_comps. rewrite split_ptail0 by now apply named_comp. rewrite norm_skip_empty, norm_named by auto. now rewrite app_nil_r, rev_involutive.
Qed.
Lemma initial_ptail c cs : comp c -> initial_slashes (ptail (c :: cs)) = 1.
Proof. intros C. rewrite <- (app_nil_r (ptail (c :: cs))). now apply initial_one. Qed.
Lemma isabs_initial p : initial_slashes p = 1 -> isabs p = true.
Proof. intros I. rewrite initial_slashes_abs, I. reflexivity. Qed.

Lemma relpath_refers cwd cs l : Forall named cs -> cs <> [] -> initial_slashes l = 1 ->
  refers_to (ptail cs) (relpath cwd l (dirname (ptail cs))) = normpath l.
Proof.
  intros F NE I.
  assert (DC : nonempty_comps (abspath cwd (dirname (ptail cs))) = removelast cs).
  { destruct (exists_last NE) as (q & c & ->). rewrite removelast_last. apply Forall_app in F. destruct F as [FQ F2]. inversion F2 as [|? ? ([CN CF] & _) _]; subst.
    rewrite ptail_app. cbn [ptail flat_map]. rewrite app_nil_r. destruct q as [|u us].
    - cbn [ptail flat_map app]. change (slash :: c) with ([] ++ slash :: c). rewrite dirname_slashed by auto. reflexivity.
    - destruct (ptail_last (u :: us)) as (h & x & EH & X); [discriminate|now apply named_comp|]. rewrite EH. rewrite dirname_plain by auto. rewrite <- EH.
      pose proof (named_comp _ FQ) as FC. inversion FC; subst. unfold abspath. rewrite isabs_initial by now apply initial_ptail.
      rewrite nonempty_norm by now apply initial_ptail. now apply norm_comps_ptail. }
  unfold relpath. rewrite DC. unfold abspath. rewrite (isabs_initial l I), nonempty_norm by auto.
  destruct (norm_comps_ok l) as (LA & LB & LC). rewrite I in LC.
  assert (LN : Forall named (norm_comps l)).
  { rewrite Forall_forall in *. intros x X. repeat split; try (apply LA; auto); intros ->; [auto|apply LC; auto]. }
  destruct (strip_common_spec (removelast cs) (norm_comps l)) as (com & E1 & E2).
  destruct (strip_common (removelast cs) (norm_comps l)) as [ups rest]. cbn [fst snd] in E1, E2.
  assert (FR : Forall named rest) by (rewrite E2 in LN; now apply Forall_app in LN).
  destruct ups as [|u ups]; [destruct rest as [|r rest]|].
  - apply (refers_relative_norm cs com [] dot []); auto.
  - assert (SP : split_on slash (join [slash] (r :: rest)) = r :: rest).
    { apply split_on_join; [discriminate|]. eapply Forall_impl; [|exact FR]. intros y [[_ Y] _]; exact Y. }
    apply (refers_relative_norm cs com [] (join [slash] (r :: rest)) (r :: rest)); auto.
    exact (relative_start 0 (r :: rest) (named_comp _ FR)).
  - assert (SP : split_on slash (join [slash] (repeat dotdot (length (u :: ups)) ++ rest)) = repeat dotdot (length (u :: ups)) ++ rest).
    { apply split_on_join; [discriminate|]. apply Forall_app. split.
      - apply Forall_forall. intros y Y. apply repeat_spec in Y. subst y. repeat constructor.
      - eapply Forall_impl; [|exact FR]. intros y [[_ Y] _]; exact Y. }
    apply (refers_relative_norm cs com (u :: ups) (join [slash] (repeat dotdot (length (u :: ups)) ++ rest)) rest); auto.
    cbn [length repeat app]. destruct (repeat dotdot (length ups) ++ rest); reflexivity.
Qed.

Lemma after_last_spec base rest : base <> [] -> (forall x y, base ++ rest = x ++ base ++ y -> x = []) -> after_last base (base ++ rest) = Some rest.
Proof.
  intros NB H. destruct base as [|b base]; [congruence|]. cbn [app after_last].
  assert (K : forall s, (forall x y, s = x ++ (b :: base) ++ y -> False) -> after_last (b :: base) s = None).
  { induction s as [|c s IH]; intros HS; auto. cbn [after_last]. rewrite IH.
    - destruct (startswith (b :: base) (c :: s)) eqn:E; auto. exfalso. apply startswith_iff in E. destruct E as (t & E). apply (HS [] t). exact E.
    - intros x y E. apply (HS (c :: x) y). rewrite E. reflexivity. }
  rewrite K.
  - assert (S : startswith (b :: base) (b :: base ++ rest) = true) by (apply startswith_iff; exists rest; reflexivity). rewrite S.
    change (b :: base ++ rest) with ((b :: base) ++ rest). rewrite skipn_app, skipn_all, Nat.sub_diag. reflexivity.
  - intros x y E. specialize (H (b :: x) y). cbn [app] in H. rewrite E in H. discriminate (H eq_refl).
Qed.

(** ** is_path_parent *)
Lemma trailing_form cwd p : initial_slashes p = 1 -> abs_path_trailing cwd p = ptail (norm_comps p) ++ [slash].
Proof.
  intros I. unfold abs_path_trailing, abspath. rewrite isabs_initial by auto. destruct (norm_comps_ok p) as (A & _).
  destruct (norm_comps p) as [|c cs] eqn:E.
  - rewrite normpath_one, E by auto. reflexivity.
  - rewrite normpath_one_ptail by (auto; rewrite E; discriminate). rewrite E.
    destruct (ptail_last (c :: cs)) as (h & x & EH & X); [discriminate|auto|]. rewrite EH at 1. rewrite endswith_slash, X. reflexivity.
Qed.
Lemma trailing_prefix a b : Forall comp a -> Forall comp b ->
  (startswith (ptail a ++ [slash]) (ptail b ++ [slash]) = true <-> exists more, b = a ++ more).
Proof.
  intros FA FB. rewrite startswith_iff. split.
  - intros (t & E). destruct t as [|x t _] using rev_ind.
    + rewrite app_nil_r in E. apply app_inj_tail in E. exists []. rewrite app_nil_r. symmetry. apply ptail_inj; auto. symmetry. tauto.
    + rewrite app_assoc in E. apply app_inj_tail in E. destruct E as [E _]. rewrite <- app_assoc in E. cbn [app] in E.
      destruct (ptail_prefix a b t FB FA E) as (l & El & _). eauto.
  - intros (more & ->). rewrite ptail_app. destruct more as [|m more]; [exists []; cbn; now rewrite !app_nil_r|].
    exists (m ++ ptail more ++ [slash]). cbn [ptail flat_map]. rewrite <- !app_assoc. reflexivity.
Qed.
