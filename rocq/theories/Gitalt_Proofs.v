(** Lemmas about the adjustment of git repositories. *)
From Coq Require Import Ascii String List Bool Arith Lia.
From Verif Require Import Str_Model Str_Proofs Posix_Model Posix_Proofs Path_Model Path_Spec Path_Proofs Gitalt_Model Gitalt_Spec.
Import ListNotations.
Open Scope list_scope.

Lemma absolute_ptail l : absolute l = ptail l.
Proof. unfold absolute, ptail. symmetry. apply flat_map_concat_map. Qed.
Lemma name_named c : a_name c -> named c.
Proof. intros (A & B & C & D). split; [split; [exact A|now apply no_char_In]|]. split; assumption. Qed.
Lemma names_named l : Forall a_name l -> Forall named l.
Proof. apply Forall_impl. exact name_named. Qed.
Lemma names_initial l : l <> [] -> Forall named l -> initial_slashes (ptail l) = 1.
Proof. intros N F. destruct l as [|c l]; [contradiction|]. inversion F as [|? ? [C _] _]; subst. now apply initial_ptail. Qed.
Lemma normpath_names l : l <> [] -> Forall named l -> normpath (ptail l) = ptail l.
Proof. intros N F. rewrite normpath_one_ptail; rewrite ?norm_comps_ptail by exact F; [reflexivity|now apply names_initial|exact N]. Qed.

Lemma comps_app p b : norm_comps (p ++ slash :: b) = rev (fold_left (norm_step (initial_slashes (p ++ slash :: b))) (split_on slash b) (fold_left (norm_step (initial_slashes (p ++ slash :: b))) (split_on slash p) [])).
Proof. unfold norm_comps. now rewrite split_on_app, fold_left_app. Qed.
Lemma comps_tail p bs : initial_slashes p = 1 -> initial_slashes (p ++ ptail bs) = 1 -> Forall named bs -> norm_comps (p ++ ptail bs) = norm_comps p ++ bs.
Proof.
  intros I J F. destruct bs as [|b bs]; [cbn; rewrite !app_nil_r; reflexivity|]. rewrite ptail_join in * by discriminate. rewrite comps_app, J.
  rewrite split_on_join; [|discriminate|eapply Forall_impl; [|exact F]; intros a [[_ A] _]; exact A].
  rewrite (norm_named 1 (b :: bs) _ F), rev_app_distr, rev_involutive. unfold norm_comps. now rewrite I.
Qed.
Lemma initial_tail p bs : initial_slashes p = 1 -> Forall named bs -> (exists x, nth_error p 1 = Some x) -> initial_slashes (p ++ ptail bs) = 1.
Proof.
  intros I F (x & E). destruct p as [|a [|b [|c p]]]; [discriminate|discriminate| |exact I].
  cbn in I. destruct (is_slash a) eqn:A, (is_slash b) eqn:B; try discriminate.
  destruct bs as [|u bs]; cbn; rewrite A, B; reflexivity.
Qed.
(** A path whose normal form has names begins with one slash, or with more than two *)
Lemma normal_initial p l : l <> [] -> Forall named l -> normpath p = ptail l -> initial_slashes p = 1 /\ norm_comps p = l.
Proof.
  intros N F E. unfold normpath in E. pose proof (norm_comps_ok p) as (A & _ & _).
  assert (X : forall n : nat, repeat slash n ++ join [slash] (norm_comps p) <> [] -> repeat slash n ++ join [slash] (norm_comps p) = ptail l -> n = 1).
  { intros n _ G. destruct l as [|[|x c] l]; [contradiction|inversion F as [|? ? [[C _] _] _]; contradiction|].
    assert (XN : is_slash x = false) by (inversion F as [|? ? [[_ C] _] _]; subst; inversion C as [|? ? C1 _]; subst; exact C1).
    cbn in G. destruct n as [|[|n]]; [|reflexivity|].
    - cbn [repeat app] in G. destruct (norm_comps p) as [|[|y d] cs] eqn:Q; [discriminate| |].
      + inversion A as [|? ? [D _] _]. contradiction.
      + inversion A as [|? ? [_ D] _]; subst. inversion D as [|? ? D1 _]; subst. destruct cs; cbn in G; injection G as G _; subst y; discriminate.
    - cbn [repeat app] in G. injection G as G _. subst x. discriminate. }
  destruct (repeat slash (initial_slashes p) ++ join [slash] (norm_comps p)) as [|z q] eqn:R.
  - exfalso. destruct l as [|[|x c] l]; [contradiction|inversion F as [|? ? [[C _] _] _]; contradiction|]. discriminate.
  - assert (I : initial_slashes p = 1) by (apply X; rewrite R; [discriminate|exact E]). split; [exact I|]. rewrite I in R. cbn [repeat app] in R.
    destruct (norm_comps p) as [|c cs] eqn:Q.
    + cbn in R. injection R as <- <-. exfalso. destruct l as [|[|x c] l]; [contradiction|inversion F as [|? ? [[C _] _] _]; contradiction|]. discriminate.
    + rewrite <- ptail_join in R by discriminate. rewrite <- R in E. apply ptail_inj in E; [exact E|exact A|now apply named_comp].
Qed.
Lemma pjoin_names a bs : initial_slashes a = 1 -> norm_comps a <> [] -> Forall named bs -> bs <> [] ->
  initial_slashes (pjoin a (join [slash] bs)) = 1 /\ norm_comps (pjoin a (join [slash] bs)) = norm_comps a ++ bs.
Proof.
  intros I NE F N. assert (B : isabs (join [slash] bs) = false).
  { destruct bs as [|[|x c] bs]; [contradiction|inversion F as [|? ? [[C _] _] _]; contradiction|]. inversion F as [|? ? [[_ C] _] _]; subst. inversion C as [|? ? C1 _]; subst. destruct bs; exact C1. }
  assert (T : exists x, nth_error a 1 = Some x).
  { destruct a as [|x [|y a]]; [discriminate| |eexists; reflexivity]. exfalso. apply NE. cbn in I. destruct (is_slash x) eqn:X; [|discriminate]. apply is_slash_iff in X. subst x. reflexivity. }
  destruct a as [|z a] using rev_ind; [discriminate|]. clear IHa. destruct (is_slash z) eqn:Z.
  - apply is_slash_iff in Z. subst z. rewrite pjoin_slash by exact B. change (a ++ slash :: join [slash] bs) with (a ++ (slash :: join [slash] bs)). rewrite <- ptail_join by exact N.
    assert (E : norm_comps (a ++ [slash]) = rev (fold_left (norm_step 1) (split_on slash a) [])) by (rewrite comps_app, I; reflexivity).
    assert (J : initial_slashes a = 1 \/ a = [slash; slash]).
    { destruct a as [|p [|q [|r a]]]; [destruct T; discriminate|exfalso; cbn in I; destruct (is_slash p); discriminate| |left; exact I]. cbn in I. destruct (is_slash p) eqn:P; [|discriminate]. destruct (is_slash q) eqn:Q; [|left; cbn; rewrite P, Q; reflexivity]. right. apply is_slash_iff in P, Q. now subst. }
    destruct J as [J| ->]; [|exfalso; apply NE; reflexivity].
    assert (T2 : exists x, nth_error a 1 = Some x).
    { destruct a as [|p [|q a]]; [discriminate| |eexists; reflexivity]. exfalso. apply NE. cbn in J. destruct (is_slash p) eqn:P; [|discriminate]. apply is_slash_iff in P. subst p. reflexivity. }
    pose proof (initial_tail a bs J F T2) as K. split; [exact K|]. rewrite (comps_tail a bs J K F), E. unfold norm_comps. now rewrite J.
  - rewrite pjoin_plain by assumption. change ((a ++ [z]) ++ slash :: join [slash] bs) with ((a ++ [z]) ++ (slash :: join [slash] bs)). rewrite <- ptail_join by exact N.
    pose proof (initial_tail (a ++ [z]) bs I F T) as K. split; [exact K|now apply comps_tail].
Qed.

(** ** sed *)
Lemma like_self pat rest : like_prefix pat (pat ++ rest) = Some rest.
Proof. induction pat as [|p pat IH]; cbn; [reflexivity|]. now rewrite aeqb_refl, orb_true_r. Qed.
Lemma filled_plain rep m : ~ In "&"%char rep -> filled rep m = rep.
Proof.
  induction rep as [|c rep IH]; intro N; [reflexivity|]. unfold filled in *. cbn [map concat].
  destruct (aeqb c "&"%char) eqn:E; [apply aeqb_eq in E; subst; exfalso; apply N; left; reflexivity|]. cbn. f_equal. apply IH. intro I. apply N. right. exact I.
Qed.
Lemma sed_self pat rep rest : ~ In "&"%char rep -> sed_line pat rep (pat ++ rest) = rep ++ rest.
Proof.
  intro N. destruct (pat ++ rest) eqn:E; cbn [sed_line]; rewrite <- E, like_self, filled_plain by exact N; reflexivity.
Qed.
Lemma special_quiet l s : (forall c, In c l -> In c (list_ascii_of_string "|[*\&")) -> quiet s -> special l s = false.
Proof.
  intros L Q. unfold special. destruct (existsb _ s) eqn:E; [|reflexivity]. apply existsb_exists in E. destruct E as (c & I & E). apply existsb_exists in E. destruct E as (d & J & E). apply aeqb_eq in E. subst d.
  exfalso. exact (Q c I (L c J)).
Qed.
Lemma quiet_app a b : quiet (a ++ b) <-> quiet a /\ quiet b.
Proof. unfold quiet. split; [intro H; split; intros c I; apply H, in_or_app; auto|intros [A B] c I; apply in_app_or in I; destruct I; auto]. Qed.
Lemma quiet_join l : Forall quiet l -> quiet (join [slash] l).
Proof.
  induction l as [|x l IH]; intro F; [intros c []|]. inversion F as [|? ? A B]; subst. destruct l as [|y l]; [exact A|].
  change (join [slash] (x :: y :: l)) with (x ++ [slash] ++ join [slash] (y :: l)). apply quiet_app. split; [exact A|]. apply quiet_app. split; [|exact (IH B)].
  intros c [<-|[]] I. cbn in I. intuition discriminate.
Qed.
Lemma quiet_ptail l : quiet (ptail l) <-> Forall quiet l.
Proof.
  induction l as [|x l IH]; [split; [constructor|intros _ c []]|]. change (ptail (x :: l)) with ([slash] ++ x ++ ptail l). rewrite !quiet_app, IH. split; [intros (_ & A & B); constructor; assumption|].
  intro F. inversion F; subst. split; [|tauto]. intros c [<-|[]] I. cbn in I. intuition discriminate.
Qed.

(** ** The relative path *)
Lemma relpath_form cwd ll start : ll <> [] -> Forall named ll -> relpath cwd (ptail ll) start = dot \/
  exists n com rest, ll = com ++ rest /\ (n <> 0 \/ rest <> []) /\ relpath cwd (ptail ll) start = join [slash] (repeat dotdot n ++ rest).
Proof.
  intros N F. unfold relpath. assert (E : nonempty_comps (abspath cwd (ptail ll)) = ll).
  { unfold abspath. pose proof (names_initial ll N F) as I. rewrite (isabs_initial _ I), nonempty_norm by exact I. now apply norm_comps_ptail. }
  rewrite E. destruct (strip_common_spec (nonempty_comps (abspath cwd start)) ll) as (com & E1 & E2). destruct (strip_common (nonempty_comps (abspath cwd start)) ll) as [ups rest]. cbn [fst snd] in *.
  destruct ups as [|u ups]; [destruct rest as [|r rest]; [left; reflexivity|]|]; right.
  - exists 0, com, (r :: rest). split; [exact E2|]. split; [right; discriminate|reflexivity].
  - exists (length (u :: ups)), com, rest. split; [exact E2|]. split; [left; discriminate|reflexivity].
Qed.
Lemma relpath_quiet cwd ll start : ll <> [] -> Forall named ll -> Forall quiet ll -> quiet (relpath cwd (ptail ll) start).
Proof.
  intros N F Q. destruct (relpath_form cwd ll start N F) as [->|(n & com & rest & E & _ & ->)].
  - intros c I J. cbn in I, J. destruct I as [<-|[]]. intuition discriminate.
  - apply quiet_join, Forall_app. split; [|rewrite E in Q; now apply Forall_app in Q]. apply Forall_forall. intros x I. apply repeat_spec in I. subst x. intros c I J. cbn in I, J. destruct I as [<-|[<-|[]]]; intuition discriminate.
Qed.
Lemma relpath_relative cwd ll start : ll <> [] -> Forall named ll -> isabs (relpath cwd (ptail ll) start) = false /\ relpath cwd (ptail ll) start <> [].
Proof.
  intros N F. destruct (relpath_form cwd ll start N F) as [->|(n & com & rest & E & G & ->)]; [split; [reflexivity|discriminate]|].
  destruct n as [|n].
  - cbn [repeat app]. destruct G as [G|G]; [contradiction|]. assert (FR : Forall named rest) by (rewrite E in F; now apply Forall_app in F).
    destruct rest as [|[|x c] rest]; [contradiction|inversion FR as [|? ? [[C _] _] _]; contradiction|]. inversion FR as [|? ? [[_ C] _] _]; subst. inversion C as [|? ? C1 _]; subst.
    destruct rest; (split; [exact C1|discriminate]).
  - cbn [repeat app]. destruct (repeat dotdot n ++ rest); (split; [reflexivity|discriminate]).
Qed.
Lemma isabs_app a b : a <> [] -> isabs (a ++ b) = isabs a.
Proof. destruct a; [contradiction|reflexivity]. Qed.
Lemma adjusted_line cwd destdir ds ls tl : ds <> [] -> Forall named ds -> ls <> [] -> Forall named ls -> tl <> [] -> Forall named tl -> normpath destdir = ptail ds ->
  git_object_dir destdir (relpath cwd (ptail ls) (pjoin destdir (s_ ".git/objects")) ++ ptail tl) = ptail (ls ++ tl).
Proof.
  intros ND FD NL FL NT FT E. destruct (normal_initial destdir ds ND FD E) as [I C].
  set (objs := pjoin destdir (s_ ".git/objects")). 
  assert (FO : Forall named [s_ ".git"; s_ "objects"]) by (repeat constructor; discriminate).
  destruct (pjoin_names destdir [s_ ".git"; s_ "objects"] I) as [IO CO]; [rewrite C; exact ND|exact FO|discriminate|]. change (join [slash] [s_ ".git"; s_ "objects"]) with (s_ ".git/objects") in IO, CO. fold objs in IO, CO. rewrite C in CO.
  set (os := ds ++ [s_ ".git"; s_ "objects"]) in *. assert (FOS : Forall named os) by (apply Forall_app; auto). assert (NOS : os <> []) by (unfold os; destruct ds; discriminate).
  set (rel := relpath cwd (ptail ls) objs). destruct (relpath_relative cwd ls objs NL FL) as [RA RN]. fold rel in RA, RN.
  (* the end of objs is no slash *)
  assert (EO : exists h, objs = h ++ s_ "s").
  { unfold objs, pjoin. change (isabs (s_ ".git/objects")) with false. cbv iota. destruct (rev destdir) as [|c r]; [exists (s_ ".git/object"); reflexivity|]. destruct (is_slash c).
    - exists (destdir ++ s_ ".git/object"). now rewrite <- app_assoc.
    - exists (destdir ++ slash :: s_ ".git/object"). now rewrite <- app_assoc. }
  destruct EO as (h & EO).
  assert (PJ : forall x, isabs x = false -> pjoin objs x = objs ++ slash :: x).
  { intros x X. rewrite EO. apply (pjoin_plain h "s"%char x X). reflexivity. }
  unfold git_object_dir. rewrite isabs_app by exact RN. rewrite RA. fold objs. rewrite PJ by (rewrite isabs_app by exact RN; exact RA).
  assert (T : exists x, nth_error objs 1 = Some x) by (destruct objs as [|a [|b o]]; [discriminate|exfalso; cbn in IO; destruct (is_slash a) eqn:A; [apply is_slash_iff in A; subst a; cbn in CO; destruct ds; discriminate|discriminate]|eexists; reflexivity]).
  (* the beginning with rel *)
  assert (IR : forall x, initial_slashes (objs ++ x) = 1).
  { intro x. destruct objs as [|a [|b [|c o]]]; [discriminate|destruct T; discriminate| |exact IO]. exfalso. destruct h as [|h0 [|h1 h]]; [discriminate| |apply (f_equal (@length ascii)) in EO; cbn in EO; rewrite app_length in EO; cbn in EO; lia]. cbn in EO. injection EO as -> ->.
    cbn in IO. destruct (is_slash h0) eqn:A; [|discriminate]. apply is_slash_iff in A. subst h0. unfold norm_comps in CO. cbn in CO. unfold os in CO. apply (f_equal (@length str)) in CO. rewrite app_length in CO. cbn in CO. lia. }
  assert (CR : norm_comps (objs ++ slash :: rel) = ls).
  { pose proof (relpath_refers cwd (os ++ [s_ "x"]) (ptail ls)) as H.
    assert (DN : dirname (ptail (os ++ [s_ "x"])) = ptail os).
    { rewrite ptail_app. cbn [ptail flat_map]. rewrite app_nil_r. destruct (ptail_last os NOS (named_comp _ FOS)) as (h2 & x & EH & X). rewrite EH. rewrite dirname_plain; [reflexivity|repeat constructor|exact X]. }
    unfold refers_to in H. rewrite DN in H. rewrite (normpath_names ls NL FL) in H.
    assert (RE : relpath cwd (ptail ls) (ptail os) = rel).
    { unfold rel, relpath, abspath. rewrite (isabs_initial _ (names_initial os NOS FOS)), (isabs_initial _ IO). rewrite (nonempty_norm objs IO), CO. rewrite (nonempty_norm (ptail os)) by (now apply names_initial). rewrite norm_comps_ptail by exact FOS. reflexivity. }
    rewrite RE in H. specialize (H ltac:(apply Forall_app; split; [exact FOS|repeat constructor; discriminate]) ltac:(destruct os; discriminate) (names_initial ls NL FL)).
    destruct (ptail_last os NOS (named_comp _ FOS)) as (h2 & x & EH & X). rewrite EH, pjoin_plain, <- EH in H by assumption.
    apply (normal_initial _ ls NL FL) in H. destruct H as [H1 H2]. rewrite <- H2. rewrite !comps_app, H1, IR.
    f_equal. f_equal. pose proof CO as CO'. unfold norm_comps in CO'. rewrite IO in CO'. pose proof (norm_comps_ptail os FOS) as CP. unfold norm_comps in CP. rewrite names_initial in CP by assumption.
    apply (f_equal (@rev str)) in CO', CP. rewrite rev_involutive in CO', CP. congruence. }
  change (slash :: rel ++ ptail tl) with ((slash :: rel) ++ ptail tl). rewrite app_assoc.
  assert (K : norm_comps ((objs ++ slash :: rel) ++ ptail tl) = ls ++ tl).
  { rewrite comps_tail; [now rewrite CR|apply IR|rewrite <- app_assoc; apply IR|exact FT]. }
  rewrite normpath_one_ptail; [now rewrite K|rewrite <- app_assoc; apply IR|rewrite K; destruct ls; [contradiction|discriminate]].
Qed.
