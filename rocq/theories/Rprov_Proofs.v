From Coq Require Import Ascii String List Bool ZArith Lia Permutation.
From Verif Require Import Str_Model Str_Proofs Sstname_Model Imgtypes_Model Ksparser_Model Vercmp_Model Providers_Model Providers_Spec Providers_Proofs Rprov_Model Rprov_Spec.
Import ListNotations.
Open Scope list_scope.

Lemma by_pn_some el pn f : by_pn el pn = Some f -> In f el /\ f_pn f = pn.
Proof. unfold by_pn. intros H. apply find_some in H. destruct H as [I E]. apply seqb_eq in E. split; auto. now apply in_rev. Qed.
Lemma by_pn_none el pn : by_pn el pn = None -> ~ In pn (map f_pn el).
Proof. unfold by_pn. intros H I. apply in_map_iff in I. destruct I as (f & E & I). apply in_rev in I. apply (find_none _ _ H) in I. rewrite E, seqb_refl in I. discriminate. Qed.
Lemma has_file_in f l : has_file f l = true <-> In (f_name f) (map f_name l).
Proof. apply name_in. Qed.

Section Infer.
Variable getvar : str -> option str.
Variable provides : str -> list str.
Variable all : list recipe.

Definition wants (p f : recipe) : Prop := In f all /\ exists x, In x (provides (f_pn p)) /\ getvar (s_ "PREFERRED_PROVIDER_" ++ x) = Some (f_pn f).

Lemma pick_some pre names f : pick getvar all pre names = Some f ->
  In f all /\ ~ In (f_name f) (map f_name pre) /\ exists x, In x names /\ getvar (s_ "PREFERRED_PROVIDER_" ++ x) = Some (f_pn f).
Proof.
  induction names as [|x r IH]; cbn [pick]; [discriminate|]. intros H.
  assert (R : pick getvar all pre r = Some f -> In f all /\ ~ In (f_name f) (map f_name pre) /\ exists y, In y (x :: r) /\ getvar (s_ "PREFERRED_PROVIDER_" ++ y) = Some (f_pn f)).
  { intros Q. destruct (IH Q) as (A & B & y & C & D). split; [|split]; auto. exists y. split; auto. now right. }
  destruct (getvar (s_ "PREFERRED_PROVIDER_" ++ x)) as [pn|] eqn:G; auto. destruct (by_pn all pn) as [g|] eqn:P; auto. destruct (has_file g pre) eqn:M; auto.
  injection H as ->. apply by_pn_some in P. destruct P as [I E]. split; [exact I|split].
  - intros Q. apply has_file_in in Q. congruence.
  - exists x. split; [now left|congruence].
Qed.
Lemma pick_none names : pick getvar all [] names = None ->
  forall x pn, In x names -> getvar (s_ "PREFERRED_PROVIDER_" ++ x) = Some pn -> ~ In pn (map f_pn all).
Proof.
  induction names as [|y r IH]; cbn [pick]; intros H x pn I G; [destruct I|]. destruct I as [->|I].
  - rewrite G in H. destruct (by_pn all pn) as [g|] eqn:P; [discriminate|]. now apply by_pn_none.
  - destruct (getvar (s_ "PREFERRED_PROVIDER_" ++ y)) as [q|]; [destruct (by_pn all q); [discriminate|]|]; eapply IH; eauto.
Qed.

Lemma infer_sound fuel : forall i it shared el pre, NoDup (map f_name el) -> Permutation el all ->
  (forall p, In p it -> In p all) -> NoDup (map f_name pre) ->
  (forall f, In f pre -> exists p, In p all /\ wants p f) ->
  (pre = [] \/ exists t q f, el = f :: t /\ pre = q ++ [f]) ->
  let (el', pre') := infer fuel getvar provides all i it shared el pre in
  Permutation el' all /\ NoDup (map f_name pre') /\ (forall f, In f pre' -> exists p, In p all /\ wants p f) /\
  (pre' = [] \/ exists t q f, el' = f :: t /\ pre' = q ++ [f]) /\ (exists q, pre' = pre ++ q).
Proof.
  induction fuel as [|fuel IH]; intros i it sh el pre N P I NP W H; cbn [infer].
  { split; [|split; [|split; [|split]]]; auto. exists []. now rewrite app_nil_r. }
  destruct (nth_error it i) as [p|] eqn:E; [|split; [|split; [|split; [|split]]]; auto; exists []; now rewrite app_nil_r].
  apply nth_error_In in E. destruct (pick getvar all pre (provides (f_pn p))) as [f|] eqn:PK; [|now apply IH].
  apply pick_some in PK. destruct PK as (IF & NF & x & IX & GX).
  assert (IE : In f el) by (apply (Permutation_in _ (Permutation_sym P)); exact IF).
  pose proof (remove_file_perm f el N IE) as PR.
  assert (X := IH (S i) (if sh then remove_file f it else it) false (f :: remove_file f el) (pre ++ [f])).
  destruct (infer fuel getvar provides all (S i) (if sh then remove_file f it else it) false (f :: remove_file f el) (pre ++ [f])) as [el' pre'].
  destruct X as (X1 & X2 & X3 & X4 & q & X5).
  - apply (Permutation_NoDup (Permutation_sym (Permutation_map f_name PR)) N).
  - now rewrite PR.
  - intros g G. apply I. destruct sh; [|exact G]. clear -G. induction it as [|y it IH]; [destruct G|]. cbn [remove_file] in G. destruct (seqb (f_name y) (f_name f)); [now right|]. destruct G as [->|G]; [now left|right; auto].
  - rewrite map_app. apply (Permutation_NoDup (l := f_name f :: map f_name pre)); [apply Permutation_cons_append|]. now constructor.
  - intros g G. apply in_app_or in G. destruct G as [G|[<-|[]]]; auto. exists p. split; auto. split; auto. eauto.
  - right. exists (remove_file f el), pre, f. auto.
  - split; [|split; [|split; [|split]]]; auto. exists ([f] ++ q). now rewrite X5, <- app_assoc.
Qed.

(** Up to the first match nothing is skipped. *)
Lemma infer_first fuel : forall i, i + fuel = length all -> NoDup (map f_name all) ->
  let (el', pre') := infer fuel getvar provides all i all true all [] in
  (pre' = [] -> el' = all /\ forall j p, i <= j -> nth_error all j = Some p -> pick getvar all [] (provides (f_pn p)) = None).
Proof.
  induction fuel as [|fuel IH]; intros i L N; cbn [infer].
  - intros _. split; auto. intros j p J E. assert (Q : j < length all) by (apply nth_error_Some; congruence). lia.
  - destruct (nth_error all i) as [p|] eqn:E; [|apply nth_error_None in E; lia].
    destruct (pick getvar all [] (provides (f_pn p))) as [f|] eqn:PK.
    + assert (PS := pick_some _ _ _ PK). destruct PS as (IF & _).
      pose proof (remove_file_perm f all N IF) as PR.
      assert (W : forall g, In g [f] -> exists q, In q all /\ wants q g).
      { intros g [<-|[]]. exists p. split; [now apply nth_error_In in E|]. split; auto. apply pick_some in PK. destruct PK as (_ & _ & x & A & B). eauto. }
      assert (X := infer_sound fuel (S i) (remove_file f all) false (f :: remove_file f all) ([] ++ [f])).
      destruct (infer fuel getvar provides all (S i) (remove_file f all) false (f :: remove_file f all) ([] ++ [f])) as [el' pre'].
      destruct X as (_ & _ & _ & _ & q & X); auto.
      * apply (Permutation_NoDup (Permutation_sym (Permutation_map f_name PR)) N).
      * intros g G. clear -G. induction all as [|y it IH]; [destruct G|]. cbn [remove_file] in G. destruct (seqb (f_name y) (f_name f)); [now right|]. destruct G as [->|G]; [now left|right; auto].
      * cbn. constructor; [intros []|constructor].
      * right. exists (remove_file f all), [], f. auto.
      * intros ->. discriminate.
    + assert (X := IH (S i)). destruct (infer fuel getvar provides all (S i) all true all []) as [el' pre'].
      intros Q. destruct (X ltac:(lia) N Q) as [A B]. split; auto. intros j r J F. destruct (Nat.eq_dec i j) as [->|D]; [congruence|]. apply (B j r); auto. lia.
Qed.
End Infer.

(** The early return of _filterProviders keeps one file per recipe, too. *)
Lemma preferred_pass_nodup getvar l names : forall el, NoDup names -> (forall n, In n names -> ~ In n (map f_pn el)) -> NoDup (map f_pn el) ->
  (forall f, In f el -> In f l) ->
  let el' := fst (preferred_pass getvar l names el) in NoDup (map f_pn el') /\ (forall f, In f el' -> In f l).
Proof.
  cbv zeta. induction names as [|n names IH]; intros el N D ND I; cbn [preferred_pass]; [split; auto|]. inversion N as [|? ? NI NN]; subst.
  destruct (find_preferred getvar n (sort_priorities (of_pn l n))) as [[f|] r] eqn:E.
  - assert (FI : In f l /\ f_pn f = n).
    { apply of_pn_in. apply concat_groups_in. unfold find_preferred in E. destruct (match version_variable getvar (s_ "REQUIRED") n with Some v => Some v | None => version_variable getvar (s_ "PREFERRED") n end) as [[|c v]|]; try discriminate.
      destruct (split_preferred (c :: v)). injection E as E _. now apply find_some in E. }
    destruct FI as [FI FP].
    assert (Q : (let (a, _) := preferred_pass getvar l names (el ++ [f]) in a) = fst (preferred_pass getvar l names (el ++ [f]))) by now destruct (preferred_pass getvar l names (el ++ [f])).
    apply IH; auto.
    + intros m M X. rewrite map_app in X. apply in_app_or in X. destruct X as [X|[X|[]]]; [apply (D m); auto; now right|]. cbn in X. subst m. congruence.
    + rewrite map_app. apply (Permutation_NoDup (l := f_pn f :: map f_pn el)); [apply Permutation_cons_append|]. constructor; auto. rewrite FP. apply D. now left.
    + intros g G. apply in_app_or in G. destruct G as [G|[<-|[]]]; auto.
  - destruct r; [split; auto|]. apply IH; auto. intros m M. apply D. now right.
Qed.
Lemma preferred_pass_complete getvar l names : forall el, snd (preferred_pass getvar l names el) = true ->
  forall pn, In pn names -> find_preferred getvar pn (sort_priorities (of_pn l pn)) <> (None, true).
Proof.
  induction names as [|n names IH]; intros el H pn I; [destruct I|]. cbn [preferred_pass] in H.
  destruct (find_preferred getvar n (sort_priorities (of_pn l n))) as [[f|] r] eqn:E.
  - destruct I as [<-|I]; [rewrite E; congruence|eapply IH; eauto].
  - destruct r; [discriminate|]. destruct I as [<-|I]; [rewrite E; congruence|eapply IH; eauto].
Qed.
Lemma filter_nodup getvar files item : same_file files ->
  NoDup (map f_name (filter_providers_ getvar files item)) /\ (forall f, In f (filter_providers_ getvar files item) -> In f files).
Proof.
  intros C. set (l := sort_files files). assert (PL : Permutation l files) by apply sort_files_perm.
  destruct (snd (preferred_pass getvar l (pns l) [])) eqn:E.
  - destruct (filter_spec getvar files item C) as (_ & B & _ & D & _).
    { intros pn I. eapply (preferred_pass_complete getvar l (pns l) []); auto. apply pns_spec. now apply (Permutation_in _ (Permutation_sym (Permutation_map f_pn PL))). }
    split; auto. intros f F. now apply D.
  - assert (Q : filter_providers_ getvar files item = fst (preferred_pass getvar l (pns l) [])).
    { unfold filter_providers_. fold l. destruct (preferred_pass getvar l (pns l) []) as [el c]. cbn [snd] in E. subst c. reflexivity. }
    rewrite Q. destruct (pns_spec l) as [NP _].
    destruct (preferred_pass_nodup getvar l (pns l) [] NP) as [A B]; [intros ? ? []|constructor|intros ? []|].
    split; [|intros f F; apply (Permutation_in _ PL); auto]. apply nodup_by_pn; auto. intros a b X Y. apply C; apply (Permutation_in _ PL); auto.
Qed.
Lemma infer_all getvar provides el : NoDup (map f_name el) ->
  let (el', pre) := infer (length el) getvar provides el 0 el true el [] in
  Permutation el' el /\ NoDup (map f_name pre) /\ (forall f, In f pre -> exists p, In p el /\ wants getvar provides el p f) /\
  (pre = [] \/ exists t q f, el' = f :: t /\ pre = q ++ [f]) /\
  (pre = [] -> el' = el /\ forall p f, In p el -> ~ wants getvar provides el p f).
Proof.
  intros N. assert (A := infer_sound getvar provides el (length el) 0 el true el []). assert (B := infer_first getvar provides el (length el) 0 eq_refl N).
  destruct (infer (length el) getvar provides el 0 el true el []) as [el' pre].
  destruct A as (A1 & A2 & A3 & A4 & _); auto; [constructor|intros ? []|]. split; [|split; [|split; [|split]]]; auto.
  intros E. destruct (B E) as [B1 B2]. split; auto. intros p f P (IF & x & X & G).
  apply In_nth_error in P. destruct P as [j J]. assert (Q := B2 j p ltac:(lia) J). apply (pick_none getvar el _ Q x (f_pn f)); auto. now apply in_map.
Qed.
