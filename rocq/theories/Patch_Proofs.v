From Coq Require Import String Ascii List Bool Arith ZArith Lia.
From Verif Require Import Str_Model Str_Proofs Vercmp_Model Vercmp_Proofs Deps_Spec Deps_Proofs Sigtask_Proofs Patch_Model Patch_Spec.
Import ListNotations.
Open Scope list_scope.

(** * Selection *)
Lemma str_ltb_lt a : forall b, str_ltb a b = true <-> str_lt a b.
Proof.
  induction a as [|x a IH]; intros [|y b]; cbn [str_ltb].
  - split; [discriminate|inversion 1].
  - split; [constructor|reflexivity].
  - split; [discriminate|inversion 1].
  - destruct (N_of_ascii x <? N_of_ascii y)%N eqn:L.
    + split; [intros _|reflexivity]. apply lt_head. apply N.ltb_lt in L. unfold nat_of_ascii. lia.
    + apply N.ltb_ge in L. destruct (aeqb x y) eqn:E.
      * apply aeqb_eq in E. subst y. rewrite IH. split; [apply lt_tail|]. inversion 1; subst; auto. exfalso. lia.
      * split; [discriminate|]. inversion 1; subst; [unfold nat_of_ascii in *; lia|]. rewrite (proj2 (aeqb_eq y y) eq_refl) in E. discriminate.
Qed.
Lemma not_ltb a b : negb (str_ltb a b) = true <-> le b a.
Proof. unfold le. rewrite negb_true_iff, <- str_ltb_lt. destruct (str_ltb a b); split; congruence. Qed.

Lemma rcut_spec c s : match rcut_at c s with
  | (a, Some b) => s = a ++ c :: b /\ ~ In c b
  | (a, None) => a = s /\ ~ In c s
  end.
Proof.
  unfold rcut_at. destruct (cut_at c (rev s)) as [a o] eqn:E. pose proof (cut_at_spec _ _ _ _ E) as [N S]. destruct o as [b|].
  - split; [|rewrite <- in_rev; now apply no_char_In]. rewrite <- (rev_involutive s), S, rev_app_distr. cbn [rev]. now rewrite <- app_assoc.
  - split; auto. rewrite in_rev, S. now apply no_char_In.
Qed.
Lemma rcut_app c a b : ~ In c b -> rcut_at c (a ++ c :: b) = (a, Some b).
Proof.
  intros N. unfold rcut_at. rewrite rev_app_distr. cbn [rev]. rewrite <- app_assoc. cbn [app]. rewrite cut_at_some by (apply no_char_In; now rewrite <- in_rev). now rewrite !rev_involutive.
Qed.
Lemma rcut_none c s : ~ In c s -> rcut_at c s = (s, None).
Proof. intros N. unfold rcut_at. rewrite cut_at_none; auto. apply no_char_In. now rewrite <- in_rev. Qed.
Lemma basename_spec p : is_basename p (basename p).
Proof. unfold basename. pose proof (rcut_spec "/"%char p) as S. destruct (rcut_at "/" p) as [a [b|]]; destruct S as [S N]; split; auto. right. exists a. exact S. Qed.
Lemma basename_unique p n : is_basename p n -> basename p = n.
Proof. intros [N [->|(d & ->)]]; unfold basename; [now rewrite rcut_none|now rewrite rcut_app]. Qed.

Lemma lead_dots_spec s : let '(d, r) := lead_dots s in s = d ++ r /\ Forall (eq "."%char) d /\ (forall c x, r = c :: x -> c <> "."%char).
Proof.
  induction s as [|c s IH]; cbn [lead_dots]; [repeat split; auto; discriminate|]. destruct (aeqb c ".") eqn:E.
  - apply aeqb_eq in E. subst c. destruct (lead_dots s) as [d r]. destruct IH as (-> & F & H). repeat split; auto.
  - repeat split; auto. intros d x X. injection X as <- _. intros ->. discriminate.
Qed.
Lemma lead_dots_app b : (exists c, In c b /\ c <> "."%char) -> forall e, lead_dots (b ++ e) = (fst (lead_dots b), snd (lead_dots b) ++ e) /\ snd (lead_dots b) <> [].
Proof.
  induction b as [|x b IH]; intros (c & I & C) e; [destruct I|]. cbn [app lead_dots]. destruct (aeqb x ".") eqn:E.
  - apply aeqb_eq in E. subst x. destruct I as [I|I]; [congruence|]. destruct (IH (ex_intro _ c (conj I C)) e) as [P Q]. rewrite P. destruct (lead_dots b) as [d r]. cbn in *. auto.
  - cbn. split; [reflexivity|discriminate].
Qed.
Lemma splitext_named n b e : named n b e -> splitext n = (b, e).
Proof.
  intros (-> & (x & -> & X) & B). unfold splitext. destruct (lead_dots_app b B ("."%char :: x)) as [P Q]. rewrite P. pose proof (lead_dots_spec b) as S.
  destruct (lead_dots b) as [d r]. cbn [fst snd] in *. destruct S as (-> & _). rewrite rcut_app by exact X. reflexivity.
Qed.
Lemma splitext_none n : (forall b e, ~ named n b e) -> splitext n = (n, []).
Proof.
  intros H. unfold splitext. pose proof (lead_dots_spec n) as S. destruct (lead_dots n) as [d r]. destruct S as (-> & D & R).
  pose proof (rcut_spec "."%char r) as C. destruct (rcut_at "." r) as [a [e|]]; [|reflexivity]. destruct C as [-> E]. exfalso.
  apply (H (d ++ a) ("."%char :: e)). split; [now rewrite <- app_assoc|]. split; [exists e; auto|]. destruct a as [|c a].
  - exfalso. now apply (R "."%char e).
  - exists c. split; [apply in_or_app; right; now left|]. eapply R. reflexivity.
Qed.
Lemma named_dec n : {b : str & {e | named n b e}} + {forall b e, ~ named n b e}.
Proof.
  destruct (splitext n) as [b e] eqn:S. destruct e as [|c e].
  - right. intros b' e' H. pose proof (splitext_named _ _ _ H) as H'. rewrite S in H'. injection H' as -> <-. destruct H as (_ & (x & H & _) & _). discriminate.
  - left. exists b, (c :: e). unfold splitext in S. pose proof (lead_dots_spec n) as L. destruct (lead_dots n) as [d r]. destruct L as (-> & D & R).
    pose proof (rcut_spec "."%char r) as C. destruct (rcut_at "." r) as [a [x|]]; [|discriminate]. injection S as <- <- <-. destruct C as [-> C].
    split; [now rewrite <- app_assoc|]. split; [exists x; auto|]. destruct a as [|y a].
    + exfalso. now apply (R "."%char x).
    + exists y. split; [apply in_or_app; right; now left|]. eapply R. reflexivity.
Qed.
Lemma named_fun n b e b' e' : named n b e -> named n b' e' -> b = b' /\ e = e'.
Proof. intros H H'. apply splitext_named in H, H'. rewrite H in H'. injection H' as -> ->. auto. Qed.
Lemma mem_patch e : mem_str e [s_ ".diff"; s_ ".patch"] = true <-> patch_ext e.
Proof. rewrite mem_str_In. unfold patch_ext. cbn [In]. intuition. Qed.
Lemma mem_packed e : mem_str e [s_ ".gz"; s_ ".bz2"; s_ ".xz"; s_ ".Z"] = true <-> packed_ext e.
Proof. rewrite mem_str_In. unfold packed_ext. cbn [In]. intuition. Qed.
Lemma patch_not_packed e : patch_ext e -> ~ packed_ext e.
Proof. intros [->| ->] [X|[X|[X|X]]]; discriminate. Qed.

(** The extension that decides, as the code computes it *)
Definition deciding (n : str) : str := let '(b, e) := splitext n in if mem_str e [s_ ".gz"; s_ ".bz2"; s_ ".xz"; s_ ".Z"] then snd (splitext b) else e.
Lemma ext_nil n : (forall b e, ~ named n b e) -> snd (splitext n) = [].
Proof. intros H. now rewrite splitext_none. Qed.
Lemma deciding_iff n : mem_str (deciding n) [s_ ".diff"; s_ ".patch"] = true <-> patch_name n.
Proof.
  unfold deciding, patch_name. rewrite mem_patch. destruct (named_dec n) as [(b & e & H)|H].
  - rewrite (splitext_named _ _ _ H). destruct (mem_str e _) eqn:M.
    + apply mem_packed in M. split.
      * intros P. exists b, e. split; auto. right. split; auto. destruct (named_dec b) as [(b' & e' & H')|H'].
        -- rewrite (splitext_named _ _ _ H') in P. eauto.
        -- rewrite ext_nil in P by exact H'. destruct P; discriminate.
      * intros (b0 & e0 & H0 & X). destruct (named_fun _ _ _ _ _ H H0) as [<- <-]. destruct X as [X|(_ & b' & e' & H' & P)]; [now apply patch_not_packed in X|]. now rewrite (splitext_named _ _ _ H').
    + assert (M' : ~ packed_ext e) by (rewrite <- mem_packed; congruence). split.
      * intros P. exists b, e. auto.
      * intros (b0 & e0 & H0 & X). destruct (named_fun _ _ _ _ _ H H0) as [<- <-]. tauto.
  - rewrite splitext_none by exact H. change (mem_str [] _) with false. split; [intros [X|X]; discriminate|]. intros (b & e & X & _). now apply H in X.
Qed.
Lemma oe_boolean_iff v : (oe_boolean v = Some true <-> yes v) /\ (oe_boolean v = Some false <-> no v).
Proof.
  unfold oe_boolean, yes, no. destruct (mem_str (lower v) [s_ "yes"; s_ "y"; s_ "true"; s_ "t"; s_ "1"]) eqn:A.
  - apply mem_str_In in A. split; [tauto|]. split; [discriminate|]. intros B. exfalso. cbn [In] in A, B.
    repeat (destruct A as [A|A]; [rewrite <- A in B; repeat (destruct B as [B|B]; [discriminate|]); exact B|]). exact A.
  - apply mem_str_false in A. destruct (mem_str (lower v) [s_ "no"; s_ "n"; s_ "false"; s_ "f"; s_ "0"]) eqn:B.
    + apply mem_str_In in B. split; [split; [discriminate|contradiction]|tauto].
    + apply mem_str_false in B. split; (split; [discriminate|contradiction]).
Qed.
Lemma patch_path_patch workdir u f : patch_path workdir u = PatchAt f -> is_patch u /\ read_from workdir u f.
Proof.
  unfold patch_path, is_patch, read_from. destruct (s_isdir u); [discriminate|]. destruct (splitext (basename (s_local u))) as [base ext] eqn:S.
  set (pk := mem_str ext _). intros H.
  assert (R : f = (if pk then workdir ++ s_ "/" ++ base else s_local u)).
  { destruct (parm (s_ "apply") (s_parm u)); [destruct (oe_boolean s) as [[]|]; try discriminate; injection H as H; now symmetry|]. destruct (mem_str _ [s_ ".diff"; s_ ".patch"]); [injection H as H; now symmetry|discriminate]. }
  split.
  - split; auto. unfold has_parm, no_parm. destruct (parm (s_ "apply") (s_parm u)) as [v|].
    + left. exists v. split; auto. apply oe_boolean_iff. destruct (oe_boolean v) as [[]|]; try discriminate. reflexivity.
    + right. split; auto. exists (basename (s_local u)). split; [apply basename_spec|]. apply deciding_iff. unfold deciding. rewrite S. fold pk. destruct (mem_str (if pk then _ else _) _); [reflexivity|discriminate].
  - exists (basename (s_local u)). split; [apply basename_spec|]. destruct pk eqn:K; unfold pk in K.
    + left. apply mem_packed in K. exists base, ext. split; auto. destruct (named_dec (basename (s_local u))) as [(b & e & N)|N].
      * rewrite (splitext_named _ _ _ N) in S. injection S as <- <-. exact N.
      * rewrite splitext_none in S by exact N. injection S as _ <-. destruct K as [K|[K|[K|K]]]; discriminate.
    + right. split; auto. intros b e N P. rewrite (splitext_named _ _ _ N) in S. injection S as <- <-. apply mem_packed in P. congruence.
Qed.
Lemma patch_path_not workdir u : patch_path workdir u = NotPatch -> ~ is_patch u.
Proof.
  unfold patch_path, is_patch. destruct (s_isdir u); [intros _ [X _]; discriminate|]. destruct (splitext (basename (s_local u))) as [base ext] eqn:S. intros H [_ D]. unfold has_parm, no_parm in D.
  destruct D as [(v & A & Y)|(A & n & N & P)]; rewrite A in H.
  - apply oe_boolean_iff in Y. rewrite Y in H. discriminate.
  - apply basename_unique in N. subst n. apply deciding_iff in P. unfold deciding in P. rewrite S in P. rewrite P in H. discriminate.
Qed.
Lemma patch_path_raised workdir u : patch_path workdir u = Raised -> exists v, has_parm u "apply" v /\ ~ yes v /\ ~ no v.
Proof.
  unfold patch_path, has_parm. destruct (s_isdir u); [discriminate|]. destruct (splitext (basename (s_local u))) as [base ext].
  destruct (parm (s_ "apply") (s_parm u)) as [v|]; [|destruct (mem_str _ [s_ ".diff"; s_ ".patch"]); discriminate]. intros H. exists v. split; auto. destruct (oe_boolean_iff v) as [A B]. rewrite <- A, <- B. destruct (oe_boolean v) as [[]|]; try discriminate. split; discriminate.
Qed.
Lemma and_then_true a b : and_then a b = Some true <-> a = Some true /\ b = Some true.
Proof. destruct a as [[]|]; cbn; intuition discriminate. Qed.
Lemma limit_true k ps f : limit k ps f = Some true <-> forall v, parm k ps = Some v -> f v = Some true.
Proof. unfold limit. destruct (parm k ps) as [v|]; split; auto; [intros H w W; now injection W as <-|intros _ v; discriminate]. Qed.
Lemma with_date_true fs f : with_date fs f = Some true <-> exists d, f_date fs = Some d /\ f d = true.
Proof. unfold with_date. destruct (f_date fs) as [d|]; split; try discriminate; [intros H; exists d; split; congruence|intros (x & X & F); injection X as <-; now rewrite F|intros (x & X & _); discriminate]. Qed.
Lemma with_rev_true fs f : with_rev fs f = Some true <-> forall r, f_rev fs = Some r -> r <> [] -> f r = true.
Proof. unfold with_rev. destruct (f_rev fs) as [[|c r]|]; split; auto; try (intros _ x X; congruence). - intros H x X _. injection X as <-. congruence. - intros H. f_equal. apply H; [reflexivity|discriminate]. Qed.
Lemma op_gt a b : option_map negb (vercmp_string_op a b (s_ ">")) = Some true <-> exists z, vercmp_string a b = Some z /\ (z <= 0)%Z.
Proof.
  assert (E : vercmp_string_op a b (s_ ">") = option_map (fun z => (0 <? z)%Z) (vercmp_string a b)) by (unfold vercmp_string_op; destruct (vercmp_string a b); reflexivity).
  rewrite E. destruct (vercmp_string a b) as [z|]; cbn [option_map]; [|split; [discriminate|intros (z & X & _); discriminate]]. split.
  - intros H. exists z. split; auto. injection H as H. apply negb_true_iff, Z.ltb_ge in H. exact H.
  - intros (y & Y & L). injection Y as <-. f_equal. apply negb_true_iff, Z.ltb_ge. exact L.
Qed.
Lemma op_lt a b : option_map negb (vercmp_string_op a b (s_ "<")) = Some true <-> exists z, vercmp_string a b = Some z /\ (z >= 0)%Z.
Proof.
  assert (E : vercmp_string_op a b (s_ "<") = option_map (fun z => (z <? 0)%Z) (vercmp_string a b)) by (unfold vercmp_string_op; destruct (vercmp_string a b); reflexivity).
  rewrite E. destruct (vercmp_string a b) as [z|]; cbn [option_map]; [|split; [discriminate|intros (z & X & _); discriminate]]. split.
  - intros H. exists z. split; auto. injection H as H. apply negb_true_iff, Z.ltb_ge in H. lia.
  - intros (y & Y & L). injection Y as <-. f_equal. apply negb_true_iff, Z.ltb_ge. lia.
Qed.
Lemma should_apply_iff fs u : should_apply fs (s_parm u) = Some true <-> in_limits fs u.
Proof.
  unfold should_apply, in_limits, has_parm. rewrite !and_then_true, !limit_true. split.
  - intros (A & B & C & D & E & F & G & H). split; [|split; [|split; [|split]]].
    + intros v V. apply B in V. apply with_date_true in V. destruct V as (d & V & X). exists d. split; auto. now apply not_ltb.
    + intros v V. apply A in V. apply with_date_true in V. destruct V as (d & V & X). exists d. split; auto. now apply not_ltb.
    + intros v r R N. split; [|split; [|split]]; intros V.
      * apply C in V. rewrite with_rev_true in V. now apply not_ltb, V.
      * apply D in V. rewrite with_rev_true in V. now apply not_ltb, V.
      * apply E in V. rewrite with_rev_true in V. now apply contains_sub_iff, V.
      * apply F in V. rewrite with_rev_true in V. specialize (V r R N). apply negb_true_iff in V. rewrite <- contains_sub_iff. congruence.
    + intros v V. apply op_lt. now apply H.
    + intros v V. apply op_gt. now apply G.
  - intros (A & B & C & G & H). repeat apply conj; intros v V.
    + apply with_date_true. destruct (B v V) as (d & X & Y). exists d. split; auto. now apply not_ltb.
    + apply with_date_true. destruct (A v V) as (d & X & Y). exists d. split; auto. now apply not_ltb.
    + apply with_rev_true. intros r R N. apply not_ltb. now apply (C v r R N).
    + apply with_rev_true. intros r R N. apply not_ltb. now apply (C v r R N).
    + apply with_rev_true. intros r R N. apply contains_sub_iff. now apply (C v r R N).
    + apply with_rev_true. intros r R N. apply negb_true_iff. destruct (contains_sub v r) eqn:Z; auto. exfalso. apply contains_sub_iff in Z. now apply (C v r R N) in V.
    + apply op_gt. now apply H.
    + apply op_lt. now apply G.
Qed.

(** * Application *)
Section Generic.
Variables tree content : Type.
Variable papply : str -> content -> tree -> option tree.
Variables disk mem : Type.
Variable mem0 : mem.
Variable clean : str -> disk -> bool * disk.
Variable step : str -> pfile content -> mem * disk -> bool * (mem * disk).
Variable resolve : str -> str.
Variable base : str -> tree.
Lemma nodup_left {A} (a b : list A) : NoDup (a ++ b) -> NoDup a.
Proof. induction a as [|x a IH]; intros H; constructor; inversion H; subst; auto. intros X. apply H2. apply in_or_app. now left. Qed.
Variable fine : str -> pfile content -> Prop.
Variable Good : str -> disk -> Prop.
Variable Mid : str -> list (pfile content) -> mem * disk -> Prop.
Variable Left : str -> list (pfile content) -> disk -> Prop.
Notation apply_all := (apply_all tree content papply).
Notation of_dir := (of_dir content).
Notation names := (map (pf_name content)).
Hypothesis Hclean : forall ds p d, fine ds p -> Good (resolve ds) d -> exists d', clean ds d = (true, d') /\ Mid ds [] (mem0, d').
Hypothesis Hstep : forall ds ps p md, Mid ds ps md -> Forall (fine ds) ps -> fine ds p -> NoDup (names (ps ++ [p])) ->
  (exists t md', apply_all (ps ++ [p]) (base (resolve ds)) = Some t /\ step ds p md = (true, md') /\ Mid ds (ps ++ [p]) md') \/
  (exists md', apply_all (ps ++ [p]) (base (resolve ds)) = None /\ step ds p md = (false, md') /\ Left ds ps (snd md')).

Lemma of_dir_app ds a b : of_dir ds (a ++ b) = of_dir ds a ++ of_dir ds b.
Proof. unfold Patch_Spec.of_dir. now rewrite filter_app, map_app. Qed.
Lemma of_dir_one ds ds' p : of_dir ds [(ds', p)] = if seqb ds' ds then [p] else [].
Proof. unfold Patch_Spec.of_dir. cbn. now destruct (seqb ds' ds). Qed.
Lemma of_dir_none ds l : ~ In ds (map fst l) -> of_dir ds l = [].
Proof.
  intros N. unfold Patch_Spec.of_dir. induction l as [|[d p] l IH]; auto. cbn [filter fst]. destruct (seqb d ds) eqn:E; [apply seqb_eq in E; subst; exfalso; apply N; now left|]. apply IH. intros X. apply N. now right.
Qed.
Lemma of_dir_in ds l p : In p (of_dir ds l) <-> In (ds, p) l.
Proof.
  unfold Patch_Spec.of_dir. rewrite in_map_iff. split.
  - intros ([d q] & <- & I). apply filter_In in I. destruct I as [I E]. apply seqb_eq in E. cbn in *. now subst.
  - intros I. exists (ds, p). split; auto. apply filter_In. split; auto. cbn. now apply seqb_eq.
Qed.

Definition inv (w0 : str -> disk) (l0 : list (str * pfile content)) (classes : list (str * mem)) (w : str -> disk) : Prop :=
  (forall ds, In ds (map fst l0) -> exists m, find_class mem ds classes = Some m /\ Mid ds (of_dir ds l0) (m, w (resolve ds))) /\
  (forall ds, ~ In ds (map fst l0) -> find_class mem ds classes = None) /\
  (forall D, (forall ds, In ds (map fst l0) -> resolve ds <> D) -> w D = w0 D).

Lemma put_same (w : str -> disk) k d : put disk w k d k = d.
Proof. unfold put. now rewrite (proj2 (seqb_eq k k) eq_refl). Qed.
Lemma put_other (w : str -> disk) k d k' : k' <> k -> put disk w k d k' = w k'.
Proof. intros N. unfold put. destruct (seqb k' k) eqn:E; auto. apply seqb_eq in E. congruence. Qed.

Lemma generic_run w0 l : (forall ds, In ds (map fst l) -> Good (resolve ds) (w0 (resolve ds))) ->
  (forall ds p, In (ds, p) l -> fine ds p) -> orderly content resolve l ->
  forall l1 l0, l = l0 ++ l1 -> forall classes w, inv w0 l0 classes w ->
  (exists w', do_patch content disk mem mem0 clean step resolve classes w l1 = (true, w') /\
     exists classes', inv w0 l classes' w') \/
  (exists w' a ds p b, do_patch content disk mem mem0 clean step resolve classes w l1 = (false, w') /\
     l = a ++ (ds, p) :: b /\ apply_all (of_dir ds a ++ [p]) (base (resolve ds)) = None /\ Left ds (of_dir ds a) (w' (resolve ds)) /\
     (forall ds', In ds' (map fst a) -> ds' <> ds -> exists m, Mid ds' (of_dir ds' a) (m, w' (resolve ds'))) /\
     (forall D, (forall ds', In ds' (map fst (a ++ [(ds, p)])) -> resolve ds' <> D) -> w' D = w0 D)).
Proof.
  intros G F [ND AL]. induction l1 as [|[ds p] l1 IH]; intros l0 E classes w (I1 & I2 & I3).
  { left. exists w. split; [reflexivity|]. rewrite app_nil_r in E. subst l0. exists classes. split; auto. }
  assert (INl : forall x, In x (map fst l0) -> In x (map fst l)) by (intros x X; rewrite E, map_app; apply in_or_app; auto).
  assert (INd : In ds (map fst l)) by (rewrite E, map_app; apply in_or_app; right; now left).
  assert (FL : Forall (fine ds) (of_dir ds l0)) by (apply Forall_forall; intros q Q; apply of_dir_in in Q; apply F; rewrite E; apply in_or_app; auto).
  assert (Fp : fine ds p) by (apply F; rewrite E; apply in_or_app; right; now left).
  assert (NDp : NoDup (names (of_dir ds l0 ++ [p]))).
  { specialize (ND ds). rewrite E in ND. change ((ds, p) :: l1) with ([(ds, p)] ++ l1) in ND. rewrite app_assoc, of_dir_app, of_dir_app, of_dir_one, (proj2 (seqb_eq ds ds) eq_refl), !map_app in ND.
    rewrite map_app. apply nodup_left in ND. exact ND. }
  cbn [do_patch].
  assert (ST : exists m d, (match find_class mem ds classes with
        | Some m => (true, (m, w (resolve ds)))
        | None => let '(ok, d) := clean ds (w (resolve ds)) in (ok, (mem0, d))
        end) = (true, (m, d)) /\ Mid ds (of_dir ds l0) (m, d)).
  { destruct (in_dec str_eq_dec ds (map fst l0)) as [X|X].
    - destruct (I1 ds X) as (m & FC & M). rewrite FC. eauto.
    - rewrite (I2 ds X). rewrite (I3 (resolve ds)) by (intros ds' Y Z; apply X; rewrite <- (AL ds' ds (INl _ Y) INd Z); exact Y).
      destruct (Hclean ds p _ Fp (G ds INd)) as (d & C & M). rewrite C. exists mem0, d. split; auto. now rewrite of_dir_none. }
  destruct ST as (m & d & ST & M). rewrite ST.
  assert (NEQ : forall ds', In ds' (map fst l0) -> ds' <> ds -> resolve ds' <> resolve ds) by (intros ds' Y Z R; apply Z; apply AL; auto).
  destruct (Hstep ds (of_dir ds l0) p (m, d) M FL Fp NDp) as [(t & [m' d'] & A & S & M')|([m' d'] & A & S & L)]; rewrite S.
  - apply (IH (l0 ++ [(ds, p)])); [rewrite <- app_assoc; exact E|]. split; [|split].
    + intros ds' X. rewrite map_app, in_app_iff in X. destruct (str_eq_dec ds' ds) as [->|N].
      * exists m'. cbn [find_class]. rewrite (proj2 (seqb_eq ds ds) eq_refl). split; auto. rewrite of_dir_app, of_dir_one, (proj2 (seqb_eq ds ds) eq_refl), put_same. exact M'.
      * destruct X as [X|[X|[]]]; [|cbn in X; congruence]. destruct (I1 ds' X) as (m1 & FC & M1). exists m1. cbn [find_class]. destruct (seqb ds' ds) eqn:Q; [apply seqb_eq in Q; congruence|]. split; auto.
        rewrite of_dir_app, of_dir_one. destruct (seqb ds ds') eqn:Q'; [apply seqb_eq in Q'; congruence|]. rewrite app_nil_r, put_other by auto. exact M1.
    + intros ds' X. rewrite map_app, in_app_iff in X. cbn [find_class]. destruct (seqb ds' ds) eqn:Q; [apply seqb_eq in Q; subst ds'; exfalso; apply X; right; now left|]. apply I2. tauto.
    + intros D X. rewrite put_other; [apply I3; intros ds' Y; apply X; rewrite map_app, in_app_iff; auto|]. intros Z. apply (X ds); auto. rewrite map_app, in_app_iff. right. now left.
  - right. exists (put disk w (resolve ds) d'), l0, ds, p, l1. split; auto. split; auto. split; auto. split; [rewrite put_same; exact L|]. split.
    + intros ds' Y Z. destruct (I1 ds' Y) as (m1 & _ & M1). exists m1. rewrite put_other by auto. exact M1.
    + intros D X. rewrite put_other; [apply I3; intros ds' Y; apply X; rewrite map_app, in_app_iff; auto|]. intros Z. apply (X ds); auto. rewrite map_app, in_app_iff. right. now left.
Qed.
End Generic.

(** ** Applying lists *)
Section Lists.
Variables tree content : Type.
Variable papply : str -> content -> tree -> option tree.
Lemma apply_all_snoc ps p t : apply_all tree content papply (ps ++ [p]) t =
  match apply_all tree content papply ps t with Some t' => papply (pf_strip _ p) (pf_text _ p) t' | None => None end.
Proof. revert t. induction ps as [|q ps IH]; intros t; cbn [app apply_all]; [destruct (papply _ _ t); reflexivity|]. destruct (papply _ _ t); auto. Qed.
Lemma apply_all_app ps qs t : apply_all tree content papply (ps ++ qs) t =
  match apply_all tree content papply ps t with Some t' => apply_all tree content papply qs t' | None => None end.
Proof. revert t. induction ps as [|q ps IH]; intros t; cbn [app apply_all]; auto. destruct (papply _ _ t); auto. Qed.
End Lists.

(** ** PatchTree *)
Section PT.
Variables tree content : Type.
Variable papply : str -> content -> tree -> option tree.
Variable prevert : str -> option content -> tree -> option tree.
Hypothesis undo : forall s c t t', papply s c t = Some t' -> prevert s (Some c) t' = Some t.
Variable base : str -> tree.
Variable resolve : str -> str.
Notation apply_all := (apply_all tree content papply).
Definition line_of (p : pfile content) : str := pf_name _ p ++ s_ "," ++ pf_strip _ p.
Definition pt_plain (p : pfile content) : Prop := plain (pf_name _ p) /\ plain (pf_strip _ p).
Definition pt_fine (ds : str) (p : pfile content) : Prop := ~ In ","%char ds /\ pt_plain p.
(** The directory holds exactly the patches [ps] *)
Definition pt_holds (D : str) (ps : list (pfile content)) (d : ptdisk tree content) : Prop :=
  pt_series _ _ d = map line_of ps /\ apply_all ps (base D) = Some (pt_tree _ _ d) /\
  NoDup (map (pf_name content) ps) /\ Forall pt_plain ps /\
  forall p, In p ps -> pt_store _ _ d (pf_name _ p) = Some (pf_text _ p).
Definition pt_good (D : str) (d : ptdisk tree content) : Prop := exists ps, pt_holds D ps d.
Definition pt_mid (ds : str) (ps : list (pfile content)) (md : ptmem content * ptdisk tree content) : Prop :=
  pt_holds (resolve ds) ps (snd md) /\ fst (fst md) = ps /\ snd (fst md) = match length ps with 0 => None | S k => Some k end.
Lemma strip_line p : pt_plain p -> strip (line_of p) = line_of p.
Proof.
  intros ((N & _ & H1 & _) & (M & _ & _ & H2)). unfold line_of, strip. destruct (pf_name _ p) as [|c r]; [congruence|].
  assert (C : is_space c = false) by (eapply H1; reflexivity). cbn [app]. rewrite lstrip_nospace by exact C.
  destruct (exists_last (l := pf_strip _ p)) as (q & e & E); [exact M|]. rewrite E.
  change (c :: r ++ s_ "," ++ q ++ [e]) with ((c :: r) ++ s_ "," ++ q ++ [e]). rewrite !app_assoc. apply rstrip_snoc. eapply H2. exact E.
Qed.
Lemma pt_remove_top D ds ps p d : ~ In ","%char ds -> pt_holds D (ps ++ [p]) d ->
  exists t, apply_all ps (base D) = Some t /\ pt_remove tree content prevert ds (line_of p) d = Some t.
Proof.
  intros Cd (_ & A & _ & F & ST). rewrite apply_all_snoc in A. destruct (apply_all ps (base D)) as [t|]; [|discriminate]. exists t. split; auto.
  apply Forall_app in F. destruct F as [_ F]. inversion F as [|? ? Fp _]; subst. unfold pt_remove. rewrite (strip_line p Fp).
  destruct Fp as ((_ & Cn & _) & (_ & Cs & _)).
  assert (E : patchdir ds ++ s_ "/" ++ line_of p = ((patchdir ds ++ s_ "/") ++ pf_name _ p) ++ ","%char :: pf_strip _ p) by (unfold line_of; rewrite <- !app_assoc; reflexivity).
  rewrite E, split_on_cons; [|apply no_char_In; unfold patchdir; rewrite !in_app_iff; intros X; repeat (destruct X as [X|X]; auto); cbn in X; intuition discriminate].
  rewrite split_on_single by now apply no_char_In. unfold pt_read. rewrite startswith_app, skipn_app, skipn_all, Nat.sub_diag. cbn [skipn app].
  rewrite ST by (apply in_or_app; right; now left). now apply undo.
Qed.
Lemma pt_remove_all_ok D ds ps d : ~ In ","%char ds -> pt_holds D ps d -> pt_remove_all tree content prevert ds (rev (pt_series _ _ d)) d =
  (true, {| pt_tree := base D; pt_series := pt_series _ _ d; pt_store := pt_store _ _ d |}).
Proof.
  intros Cd H. pose proof H as (E & _). rewrite E at 1. clear E.
  assert (G : forall ps d, (exists ser, pt_holds D ps {| pt_tree := pt_tree _ _ d; pt_series := ser; pt_store := pt_store _ _ d |}) ->
     pt_remove_all tree content prevert ds (rev (map line_of ps)) d = (true, {| pt_tree := base D; pt_series := pt_series _ _ d; pt_store := pt_store _ _ d |})).
  { clear H ps d. induction ps as [|p ps IH] using rev_ind; intros d (ser & H).
    - destruct H as (_ & A & _). cbn in A. injection A as A. cbn. rewrite A. destruct d; reflexivity.
    - rewrite map_app, rev_app_distr. cbn [map rev app pt_remove_all]. destruct (pt_remove_top D ds ps p _ Cd H) as (t & A & R).
      assert (R' : pt_remove tree content prevert ds (line_of p) d = Some t) by exact R. rewrite R'. rewrite IH; [reflexivity|].
      exists (map line_of ps). destruct H as (_ & _ & ND & F & ST). cbn [pt_tree pt_store pt_series] in *. split; [reflexivity|]. split; [exact A|]. rewrite map_app in ND. split; [now apply nodup_left in ND|]. split; [now apply Forall_app in F|]. intros q Q. apply ST. apply in_or_app. now left. }
  apply G. exists (pt_series _ _ d). destruct d. exact H.
Qed.
Lemma pt_clean_ok ds p d : pt_fine ds p -> pt_good (resolve ds) d -> exists d', pt_clean tree content prevert ds d = (true, d') /\ pt_mid ds [] (pt_mem0 content, d').
Proof.
  intros (Cd & _) (ps & H). unfold pt_clean. rewrite (pt_remove_all_ok (resolve ds) ds ps d Cd H). eexists. split; [reflexivity|]. split; [|split; reflexivity].
  split; [reflexivity|]. split; [reflexivity|]. split; [constructor|]. split; [constructor|]. intros q [].
Qed.
Lemma pt_step_ok ds ps p md : pt_mid ds ps md -> Forall (pt_fine ds) ps -> pt_fine ds p -> NoDup (map (pf_name content) (ps ++ [p])) ->
  (exists t md', apply_all (ps ++ [p]) (base (resolve ds)) = Some t /\ pt_step tree content papply ds p md = (true, md') /\ pt_mid ds (ps ++ [p]) md') \/
  (exists md', apply_all (ps ++ [p]) (base (resolve ds)) = None /\ pt_step tree content papply ds p md = (false, md') /\ pt_holds (resolve ds) ps (snd md')).
Proof.
  intros ((S & A & ND & F & ST) & M1 & M2) _ Fp NDp. destruct md as [[m c] d]. cbn [fst snd] in *. subst m.
  assert (I : pt_import content p (ps, c) = (ps ++ [p], c)).
  { unfold pt_import. cbn [fst snd]. subst c. f_equal. destruct ps as [|q ps]; [reflexivity|]. cbn [length]. change (Datatypes.S (length ps)) with (length (q :: ps)). now rewrite firstn_all, skipn_all. }
  assert (N : nth_error (ps ++ [p]) (match c with Some k => Datatypes.S k | None => 0 end) = Some p).
  { subst c. destruct ps as [|q ps]; [reflexivity|]. cbn [length]. change (Datatypes.S (length ps)) with (length (q :: ps)). rewrite nth_error_app2 by lia. now rewrite Nat.sub_diag. }
  unfold pt_step. cbn [fst snd]. rewrite I. unfold pt_push. cbn [fst snd]. rewrite N. rewrite apply_all_snoc, A.
  destruct (papply (pf_strip _ p) (pf_text _ p) (pt_tree _ _ d)) as [t|] eqn:P.
  - left. exists t. eexists. split; [reflexivity|]. split; [reflexivity|]. unfold pt_mid. cbn [fst snd pt_append]. split; [|split; [reflexivity|]].
    + unfold pt_holds. cbn [pt_tree pt_series pt_store]. split; [rewrite S, map_app; reflexivity|]. split; [rewrite apply_all_snoc, A; exact P|]. split; [exact NDp|]. split; [apply Forall_app; split; [exact F|constructor; [apply Fp|constructor]]|].
      intros q Q. unfold pt_append, set_store. cbn [pt_store]. destruct (seqb (pf_name _ q) (pf_name _ p)) eqn:E.
      * apply seqb_eq in E. apply in_app_or in Q. destruct Q as [Q|[Q|[]]]; [|now subst q]. exfalso. rewrite map_app in NDp. cbn [map] in NDp. apply NoDup_remove_2 in NDp. apply NDp. rewrite app_nil_r, <- E. now apply in_map.
      * apply in_app_or in Q. destruct Q as [Q|[Q|[]]]; [now apply ST|]. subst q. rewrite (proj2 (seqb_eq _ _) eq_refl) in E. discriminate.
    + rewrite app_length, Nat.add_comm. cbn. subst c. destruct (length ps); reflexivity.
  - right. eexists. split; [reflexivity|]. split; [reflexivity|]. cbn [snd]. split; auto.
Qed.
End PT.

(** ** QuiltTree *)
Section Quilt.
Variables tree content : Type.
Variable papply : str -> content -> tree -> option tree.
Variable base : str -> tree.
Variable resolve : str -> str.
Notation apply_all := (apply_all tree content papply).
Definition q_fine (ds : str) (p : pfile content) : Prop := True.
Definition q_base (d : qdisk tree content) : tree := match rev (q_applied _ _ d) with [] => q_tree _ _ d | (_, t) :: _ => t end.
Definition q_good (D : str) (d : qdisk tree content) : Prop := q_base d = base D /\ (q_applied _ _ d = [] -> q_series _ _ d = []).
Definition q_holds (D : str) (ps : list (pfile content)) (d : qdisk tree content) : Prop :=
  map fst (q_applied _ _ d) = rev (map (pf_name content) ps) /\ q_base d = base D /\ apply_all ps (base D) = Some (q_tree _ _ d).
Definition q_mid (ds : str) (ps : list (pfile content)) (md : unit * qdisk tree content) : Prop :=
  q_holds (resolve ds) ps (snd md) /\ q_series _ _ (snd md) = map (fun p => (pf_name _ p, pf_strip _ p)) ps.
Definition q_left (ds : str) (ps : list (pfile content)) (d : qdisk tree content) : Prop := q_holds (resolve ds) ps d.
Lemma q_clean_ok ds p d : q_fine ds p -> q_good (resolve ds) d -> exists d', q_clean tree content ds d = (true, d') /\ q_mid ds [] (tt, d').
Proof.
  intros _ (B & E). unfold q_clean, q_base in *. destruct (rev (q_applied _ _ d)) as [|[n t] r] eqn:R.
  - apply (f_equal (@rev _)) in R. rewrite rev_involutive in R. cbn in R. exists d. split; auto. destruct d as [t sr ap lk]. cbn in *. subst ap t. rewrite (E eq_refl). split; [|reflexivity]. split; [reflexivity|]. split; reflexivity.
  - eexists. split; [reflexivity|]. split; [|reflexivity]. split; [reflexivity|]. cbn. rewrite B. auto.
Qed.
Lemma after_last l n s st : ~ In n (map fst l) -> after n (l ++ (n, s) :: st) = st.
Proof.
  induction l as [|[k v] l IH]; intros N; cbn [app after].
  - now rewrite (proj2 (seqb_eq n n) eq_refl).
  - destruct (seqb k n) eqn:E; [apply seqb_eq in E; subst; exfalso; apply N; now left|]. apply IH. intros X. apply N. now right.
Qed.
Lemma q_base_cons n t d s l : q_base {| q_tree := t; q_series := s; q_applied := (n, q_tree _ _ d) :: q_applied _ _ d; q_links := l |} = q_base d.
Proof. unfold q_base. cbn [q_applied rev]. destruct (rev (q_applied _ _ d)) as [|[a b] r]; reflexivity. Qed.
Lemma q_step_ok ds ps p md : q_mid ds ps md -> Forall (q_fine ds) ps -> q_fine ds p -> NoDup (map (pf_name content) (ps ++ [p])) ->
  (exists t md', apply_all (ps ++ [p]) (base (resolve ds)) = Some t /\ q_step tree content papply ds p md = (true, md') /\ q_mid ds (ps ++ [p]) md') \/
  (exists md', apply_all (ps ++ [p]) (base (resolve ds)) = None /\ q_step tree content papply ds p md = (false, md') /\ q_left ds ps (snd md')).
Proof.
  intros ((N & B & A) & S) _ _ ND. destruct md as [[] d]. cbn [snd] in *.
  assert (X : q_next tree content (q_import tree content p d) = Some (pf_name _ p, pf_strip _ p)).
  { unfold q_next, q_import. cbn [q_applied q_series]. rewrite S. destruct ps as [|q ps _] using rev_ind.
    - destruct (q_applied _ _ d) as [|a r]; [reflexivity|discriminate].
    - rewrite !map_app, rev_app_distr in N. cbn [map rev app] in N. destruct (q_applied _ _ d) as [|[n t] r]; [discriminate|]. cbn [map fst] in N. injection N as N _. subst n.
      rewrite map_app. cbn [map]. rewrite <- app_assoc. cbn [app]. rewrite after_last; [reflexivity|]. rewrite map_map. cbn [fst].
      rewrite !map_app in ND. apply nodup_left in ND. cbn [map] in ND. apply NoDup_remove_2 in ND. rewrite app_nil_r in ND. exact ND. }
  assert (LK : q_links tree content (q_import tree content p d) (pf_name _ p) = Some (pf_text _ p)) by (unfold q_import, set_store; cbn [q_links]; now rewrite (proj2 (seqb_eq _ _) eq_refl)).
  unfold q_step. cbn [snd]. unfold q_push. rewrite X, LK.
  change (q_tree tree content (q_import tree content p d)) with (q_tree tree content d). rewrite apply_all_snoc, A.
  destruct (papply (pf_strip _ p) (pf_text _ p) (q_tree _ _ d)) as [t|] eqn:P.
  - left. exists t. eexists. split; [reflexivity|]. split; [reflexivity|]. unfold q_mid. cbn [snd]. split.
    + split; [|split].
      * cbn [q_applied q_import map fst]. rewrite N, map_app, rev_app_distr. reflexivity.
      * change (q_base {| q_tree := t; q_series := q_series _ _ (q_import tree content p d); q_applied := (pf_name _ p, q_tree _ _ d) :: q_applied _ _ d; q_links := q_links _ _ (q_import tree content p d) |} = base (resolve ds)).
        rewrite q_base_cons. exact B.
      * cbn [q_tree]. rewrite apply_all_snoc, A. exact P.
    + cbn [q_series q_import]. rewrite S, map_app. reflexivity.
  - right. eexists. split; [reflexivity|]. split; [reflexivity|]. cbn [snd]. split; [exact N|]. split; [exact B|exact A].
Qed.
Lemma q_holds_good D ps d : ps <> [] -> q_holds D ps d -> q_good D d.
Proof.
  intros NE (N & B & _). split; auto. intros E. rewrite E in N. destruct ps as [|p ps]; [congruence|]. cbn in N. now apply app_cons_not_nil in N.
Qed.
Lemma q_mid_good ds ps md : q_mid ds ps md -> q_good (resolve ds) (snd md).
Proof.
  intros ((N & B & _) & S). split; auto. intros E. rewrite E in N. rewrite S. destruct ps as [|p ps]; [reflexivity|]. cbn in N. now apply app_cons_not_nil in N.
Qed.
End Quilt.
