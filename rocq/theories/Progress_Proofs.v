From Coq Require Import Ascii String List Bool NArith Lia.
From Verif Require Import Str_Model Str_Proofs Sstname_Model Sstname_Proofs Url_Proofs Progress_Model Progress_Spec.
Import ListNotations.
Open Scope list_scope.
Open Scope N_scope.

(** ** Lines *)
Lemma lines_exist text : exists lines rest, has_lines text lines rest.
Proof.
  induction text as [|c text (ls & r & E & F & N)]; [exists [], []; split; [reflexivity|split; [constructor|intros []]]|].
  destruct (ascii_dec c nl) as [->|NE].
  - exists ([nl] :: ls), r. split; [cbn; now rewrite E|]. split; [|auto]. constructor; auto. exists []. split; auto.
  - destruct ls as [|l ls].
    + exists [], (c :: r). split; [cbn in *; now rewrite E|]. split; [constructor|]. intros [X|X]; auto.
    + inversion F as [|? ? (a & -> & A) F']; subst. exists (((c :: a) ++ [nl]) :: ls), r. split; [reflexivity|]. split; [|auto]. constructor; auto. exists (c :: a). split; auto. intros [X|X]; auto.
Qed.
Lemma first_nl a a' t t' : ~ In nl a -> ~ In nl a' -> a ++ nl :: t = a' ++ nl :: t' -> a = a' /\ t = t'.
Proof.
  revert a'. induction a as [|c a IH]; intros [|c' a'] A A' E; cbn in E.
  - injection E as E. auto.
  - injection E as E1 E2. exfalso. apply A'. left. auto.
  - injection E as E1 E2. exfalso. apply A. left. auto.
  - injection E as -> E. destruct (IH a') as [-> ->]; auto; intros X; [apply A|apply A']; now right.
Qed.
Lemma lines_unique text : forall ls r ls' r', has_lines text ls r -> has_lines text ls' r' -> ls = ls' /\ r = r'.
Proof.
  intros ls r ls' r' (E & F & N) (E' & F' & N'). subst text. revert ls' r' E' F' N'.
  induction F as [|l ls (a & -> & A) F IH]; intros ls' r' E' F' N'; destruct F' as [|l' ls' (a' & -> & A') F']; cbn [concat app] in E'; auto.
  - exfalso. apply N. rewrite E'. rewrite <- !app_assoc. apply in_or_app. right. now left.
  - exfalso. apply N'. rewrite <- E'. rewrite <- !app_assoc. apply in_or_app. right. now left.
  - rewrite <- !app_assoc in E'. cbn [app] in E'. apply first_nl in E'; auto. destruct E' as [-> E']. destruct (IH ls' r' E' F' N') as [-> ->]. auto.
Qed.
Lemma lines_app t1 ls1 r1 t2 ls2 r2 : has_lines t1 ls1 r1 -> has_lines (r1 ++ t2) ls2 r2 -> has_lines (t1 ++ t2) (ls1 ++ ls2) r2.
Proof.
  intros (-> & F & _) (E & F' & N'). split; [|split; [now apply Forall_app|auto]]. now rewrite concat_app, <- !app_assoc, E.
Qed.

(** ** The loop *)
Definition lin (k : kind) (c : core) (l : str) : core := if crashed c then c else line_in k c l.
Lemma fold_crashed k ls c : crashed c = true -> fold_left (lin k) ls c = c.
Proof. intros C. induction ls as [|l ls IH]; auto. cbn. unfold lin at 2. rewrite C. exact IH. Qed.
Lemma drain_spec k : forall fuel text ls r c, has_lines text ls r -> (length ls < fuel)%nat ->
  snd (drain fuel k text c) = fold_left (lin k) ls c /\ (crashed (fold_left (lin k) ls c) = false -> fst (drain fuel k text c) = r).
Proof.
  induction fuel as [|fuel IH]; intros text ls r c H L; [lia|]. cbn [drain]. destruct (crashed c) eqn:C.
  - cbn [snd fst]. rewrite (fold_crashed k ls c C). split; [auto|congruence].
  - destruct ls as [|l ls].
    + destruct H as (E & _ & N). cbn [concat app] in E. subst r. rewrite cut_at_none by now apply no_char_In. auto.
    + destruct H as (E & F & N). inversion F as [|? ? (a & -> & A) F']; subst. cbn [concat]. rewrite <- !app_assoc. cbn [app]. rewrite cut_at_some by now apply no_char_In.
      cbn [fold_left]. replace (lin k c (a ++ [nl])) with (line_in k c (a ++ [nl])) by (unfold lin; now rewrite C).
      apply IH; [split; auto|cbn in L; lia].
Qed.
Lemma lines_length ls : Forall is_line ls -> (length ls <= length (concat ls))%nat.
Proof. induction 1 as [|l ls (a & -> & _) F IH]; auto. cbn [concat length]. rewrite app_length, app_length. cbn. lia. Qed.
Lemma run_from k chunks : forall h ls r, has_lines (buffer h ++ concat chunks) ls r -> ~ In nl (buffer h) ->
  state (fold_left (write k) chunks h) = fold_left (lin k) ls (state h) /\
  (crashed (fold_left (lin k) ls (state h)) = false -> buffer (fold_left (write k) chunks h) = r /\ out (fold_left (write k) chunks h) = out h ++ concat chunks).
Proof.
  induction chunks as [|ch chunks IH]; intros h ls r H N.
  - cbn [concat fold_left] in *. rewrite app_nil_r in *. assert (H0 : has_lines (buffer h) [] (buffer h)) by (split; [auto|split; [constructor|auto]]).
    destruct (lines_unique _ _ _ _ _ H H0) as [-> ->]. auto.
  - cbn [fold_left]. unfold write at 2. unfold write at 3. unfold write at 4. destruct (crashed (state h)) eqn:C.
    + assert (K : forall l, fold_left (write k) l h = h). { induction l as [|x l IHl]; auto. cbn. unfold write at 2. rewrite C. exact IHl. }
      rewrite K, fold_crashed by auto. split; [auto|congruence].
    + destruct (lines_exist (buffer h ++ ch)) as (ls1 & r1 & H1).
      destruct (drain_spec k (S (length (buffer h ++ ch))) _ ls1 r1 (state h) H1) as [D1 D2].
      { destruct H1 as (E1 & F1 & _). rewrite E1, app_length. pose proof (lines_length ls1 F1). lia. }
      destruct (lines_exist (r1 ++ concat chunks)) as (ls2 & r2 & H2).
      assert (HH := lines_app _ _ _ _ _ _ H1 H2). cbn [concat] in H. rewrite app_assoc in H. destruct (lines_unique _ _ _ _ _ H HH) as [-> ->].
      destruct (drain (S (length (buffer h ++ ch))) k (buffer h ++ ch) (state h)) as [b c]. cbn [fst snd] in *.
      rewrite fold_left_app. rewrite <- D1. destruct (crashed c) eqn:CC.
      * set (h' := {| buffer := b; out := out h ++ ch; state := c |}). assert (K : forall l, fold_left (write k) l h' = h'). { induction l as [|x l IHl]; auto. cbn [fold_left]. unfold write at 2. unfold h' at 1. cbn [state]. rewrite CC. exact IHl. }
        rewrite K, fold_crashed by auto. split; [auto|congruence].
      * assert (b = r1) by (apply D2; rewrite <- D1; auto). subst b.
        destruct (IH {| buffer := r1; out := out h ++ ch; state := c |} ls2 r2) as [I1 I2]; [exact H2|apply H1|]. cbn [state out buffer] in *. split; auto. intros X. destruct (I2 X) as [Y Z]. split; auto. rewrite Z. cbn [concat]. now rewrite app_assoc.
Qed.
Lemma run_spec k chunks ls r : has_lines (concat chunks) ls r ->
  state (run k chunks) = fold_left (lin k) ls fresh /\
  (crashed (fold_left (lin k) ls fresh) = false -> buffer (run k chunks) = r /\ out (run k chunks) = concat chunks).
Proof. intros H. apply (run_from k chunks {| buffer := []; out := []; state := fresh |} ls r); [exact H|intros []]. Qed.

(** ** Single lines *)
Lemma digits_span a t : Forall (fun c => is_digit c = true) a -> (forall c t', t = c :: t' -> is_digit c = false) -> span is_digit (a ++ t) = (a, t).
Proof. intros D H. apply span_all; [rewrite Forall_forall in D; auto|]. destruct t as [|c t]; auto. apply (H c t eq_refl). Qed.
Lemma skip_prefix (p s : str) n : length p = n -> skipn n (p ++ s) = s.
Proof. intros <-. rewrite skipn_app, skipn_all, PeanoNat.Nat.sub_diag. reflexivity. Qed.
Lemma span_out p (s a b : str) : span p s = (a, b) -> s = a ++ b /\ Forall (fun c => p c = true) a /\ (forall c t, b = c :: t -> p c = false).
Proof.
  revert a b. induction s as [|c s IH]; intros a b E; cbn [span] in E; [injection E as <- <-; repeat split; auto; discriminate|].
  destruct (p c) eqn:P.
  - destruct (span p s) as [a' b'] eqn:S. injection E as <- <-. destruct (IH a' b' eq_refl) as (-> & F & G). repeat split; auto.
  - injection E as <- <-. repeat split; auto. intros c' t X. injection X as <- <-. auto.
Qed.
Definition total k line := match k with Initrd => initrd_total line | _ => apt_total line end.
Lemma apt_total_iff k line n : k <> Initrd -> apt_total line = Some n <-> announces k line n.
Proof.
  intros K. unfold apt_total. split.
  - destruct (span is_digit line) as [[|c a] r] eqn:S; [discriminate|]. destruct (startswith (s_ " upgraded, ") r) eqn:U; [|discriminate]. apply startswith_iff in U. destruct U as [r1 ->].
    rewrite skip_prefix by reflexivity. destruct (span is_digit r1) as [[|c' b] r2] eqn:S2; [discriminate|]. destruct (startswith (s_ " newly installed") r2) eqn:I; [|discriminate]. apply startswith_iff in I. destruct I as [t ->].
    intros X. injection X as <-. apply span_out in S, S2. destruct S as (-> & D & _). destruct S2 as (-> & D' & _). apply apt_announces; auto; split; auto; discriminate.
  - intros A. destruct A as [k a b t _ [NA A] [NB B]|]; [|congruence]. rewrite digits_span; auto; [|intros c t' E; injection E as <- _; reflexivity].
    destruct a as [|c a]; [congruence|]. rewrite startswith_app, skip_prefix by reflexivity. rewrite digits_span; auto; [|intros c' t' E; injection E as <- _; reflexivity].
    destruct b as [|c' b]; [congruence|]. now rewrite startswith_app.
Qed.
Lemma initrd_total_iff line n : initrd_total line = Some n <-> announces Initrd line n.
Proof.
  unfold initrd_total. split.
  - destruct (startswith (s_ "Total number of modules: ") line) eqn:U; [|discriminate]. apply startswith_iff in U. destruct U as [r ->]. rewrite skip_prefix by reflexivity.
    destruct (span is_digit r) as [[|c a] t] eqn:S; [discriminate|]. intros X. injection X as <-. apply span_out in S. destruct S as (-> & D & E). apply initrd_announces; auto. split; auto. discriminate.
  - intros A. remember Initrd as k eqn:K. destruct A as [|a t [NA A] E]; [congruence|]. rewrite startswith_app, skip_prefix by reflexivity. rewrite digits_span by auto. destruct a as [|c a]; [congruence|reflexivity].
Qed.
Lemma total_iff k line n : total k line = Some n <-> announces k line n.
Proof. destruct k; cbn [total]; [apply apt_total_iff; discriminate|apply apt_total_iff; discriminate|apply initrd_total_iff]. Qed.
Definition told k line : option N :=
  match k with
  | Download => if startswith (s_ "Get:") line then Some 1 else None
  | Install => if startswith (s_ "Preparing to unpack") line then Some 1 else if startswith (s_ "Setting up") line then Some 1 else None
  | Initrd => if startswith (s_ "Adding module") line || startswith (s_ "dracut-install: cp") line
         || startswith (s_ "dracut-install: Failed to find module") line then Some 1
      else if startswith (s_ "(excluding") line then Some (N.of_nat (length (split_on " "%char line) - 1)) else None
  end.
Lemma split_length sep s : length (split_on sep s) = S (count_occ ascii_dec s sep).
Proof.
  unfold split_on. generalize (@nil ascii). induction s as [|c s IH]; intros cur; cbn [split_aux]; [reflexivity|]. cbn [count_occ]. destruct (aeqb c sep) eqn:E; destruct (ascii_dec c sep) as [X|X]; try (apply aeqb_eq in E; congruence); try (apply aeqb_neq in E; congruence).
  all: try (cbn [length]; now rewrite IH). all: apply IH.
Qed.
Lemma starts_iff p l : startswith (s_ p) l = true <-> starts p l.
Proof. apply startswith_iff. Qed.
Lemma told_iff k line n : told k line = Some n <-> tells k line n.
Proof.
  destruct k; cbn [told]; split.
  - destruct (startswith _ line) eqn:E; [|discriminate]. intros X. injection X as <-. constructor. now apply starts_iff.
  - intros T. inversion T; subst. apply starts_iff in H. now rewrite H.
  - destruct (startswith _ line) eqn:E; [intros X; injection X as <-; constructor; now apply starts_iff|]. destruct (startswith (s_ "Setting up") line) eqn:E2; [|discriminate]. intros X; injection X as <-. apply tells_setup. now apply starts_iff.
  - intros T. inversion T; subst; apply starts_iff in H; rewrite H; [reflexivity|]. destruct (startswith (s_ "Preparing to unpack") line); reflexivity.
  - destruct (_ || _ || _) eqn:E.
    + intros X; injection X as <-. apply tells_module. rewrite !orb_true_iff, !starts_iff in E. tauto.
    + destruct (startswith (s_ "(excluding") line) eqn:E2; [|discriminate]. intros X; injection X as <-. rewrite split_length. rewrite PeanoNat.Nat.sub_succ, PeanoNat.Nat.sub_0_r. apply tells_excluding. now apply starts_iff.
  - intros T. inversion T; subst.
    + assert (X : startswith (s_ "Adding module") line || startswith (s_ "dracut-install: cp") line || startswith (s_ "dracut-install: Failed to find module") line = true) by (rewrite !orb_true_iff, !starts_iff; tauto). now rewrite X.
    + destruct H as [t ->]. rewrite split_length, PeanoNat.Nat.sub_succ, PeanoNat.Nat.sub_0_r. reflexivity.
Qed.
Definition done (c : core) : N := pkg c + set_up c.
Lemma process_line_told k line c : crashed c = false -> (k <> Install -> set_up c = 0) ->
  let c' := process_line k line c in
  match told k line with
  | None => c' = c
  | Some n => (k <> Install -> set_up c' = 0) /\ started c' = started c /\ num c' = num c /\ done c' = done c + n /\
      if num c =? 0 then crashed c' = true /\ reports c' = reports c
      else crashed c' = false /\ reports c' = reports c ++ [(99 * (done c + n), num c * steps_each k)]
  end.
Proof.
  intros C SU. cbv zeta. unfold done.
  assert (G : forall a b c0, crashed c0 = false -> set_up (update a b c0) = set_up c0 /\ started (update a b c0) = started c0 /\ num (update a b c0) = num c0 /\ pkg (update a b c0) = pkg c0 /\
    if b =? 0 then crashed (update a b c0) = true /\ reports (update a b c0) = reports c0 else crashed (update a b c0) = false /\ reports (update a b c0) = reports c0 ++ [(a, b)]).
  { intros a b c0 C0. unfold update. destruct (b =? 0); cbn; auto 8. }
  destruct k; cbn [told process_line steps_each].
  - destruct (startswith _ line); [|reflexivity]. destruct (G (99 * pkg (add_pkg 1 c)) (num (add_pkg 1 c)) (add_pkg 1 c) C) as (G1 & G2 & G3 & G4 & G5). rewrite G1, G2, G3, G4. cbn [add_pkg pkg set_up started num] in *. rewrite (SU ltac:(discriminate)), !N.add_0_r, N.mul_1_r. repeat split; auto.
  - assert (Z : forall x, (x * 2 =? 0) = (x =? 0)) by (intros x; destruct (N.eqb_spec x 0), (N.eqb_spec (x * 2) 0); auto; lia).
    destruct (startswith _ line); [|destruct (startswith (s_ "Setting up") line); [|reflexivity]].
    + destruct (G (99 * (pkg (add_pkg 1 c) + set_up (add_pkg 1 c))) (num (add_pkg 1 c) * 2) (add_pkg 1 c) C) as (G1 & G2 & G3 & G4 & G5). rewrite G1, G2, G3, G4. cbn [add_pkg pkg set_up started num] in *. rewrite Z in G5.
      replace (pkg c + set_up c + 1) with (pkg c + 1 + set_up c) by lia. repeat split; auto; congruence.
    + destruct (G (99 * (pkg (add_set_up 1 c) + set_up (add_set_up 1 c))) (num (add_set_up 1 c) * 2) (add_set_up 1 c) C) as (G1 & G2 & G3 & G4 & G5). rewrite G1, G2, G3, G4. cbn [add_set_up pkg set_up started num] in *. rewrite Z in G5.
      replace (pkg c + set_up c + 1) with (pkg c + (set_up c + 1)) by lia. repeat split; auto; congruence.
  - destruct (_ || _ || _); [|destruct (startswith (s_ "(excluding") line); [|reflexivity]].
    + destruct (G (99 * pkg (add_pkg 1 c)) (num (add_pkg 1 c)) (add_pkg 1 c) C) as (G1 & G2 & G3 & G4 & G5). rewrite G1, G2, G3, G4. cbn [add_pkg pkg set_up started num] in *. rewrite (SU ltac:(discriminate)), !N.add_0_r, N.mul_1_r. repeat split; auto.
    + match goal with |- context [add_pkg ?m c] => set (n := m) end.
      destruct (G (99 * pkg (add_pkg n c)) (num (add_pkg n c)) (add_pkg n c) C) as (G1 & G2 & G3 & G4 & G5). rewrite G1, G2, G3, G4. cbn [add_pkg pkg set_up started num] in *. rewrite (SU ltac:(discriminate)), !N.add_0_r, N.mul_1_r. repeat split; auto.
Qed.
Lemma sums_exist k ls : forall from, exists r, sums k from ls r.
Proof.
  induction ls as [|l ls IH]; intros from; [exists []; constructor|]. destruct (told k l) as [n|] eqn:T.
  - destruct (IH (from + n)) as [r R]. exists (from + n :: r). apply sums_tell; auto. now apply told_iff.
  - destruct (IH from) as [r R]. exists r. apply sums_skip; auto. intros n X. apply told_iff in X. congruence.
Qed.
Lemma later_lines k ls : forall c r, crashed c = false -> started c = true -> (k <> Install -> set_up c = 0) -> num c <> 0 -> sums k (done c) ls r ->
  crashed (fold_left (lin k) ls c) = false /\ reports (fold_left (lin k) ls c) = reports c ++ map (fun s => (99 * s, num c * steps_each k)) r.
Proof.
  induction ls as [|l ls IH]; intros c r C ST SU NZ S; cbn [fold_left].
  - inversion S; subst. cbn. now rewrite app_nil_r.
  - unfold lin at 2 4. rewrite C. unfold line_in. rewrite ST. pose proof (process_line_told k l c C SU) as P. cbv zeta in P. inversion S as [|? ? ? ? H1 H2|? ? n ? r0 H1 H2]; subst.
    + destruct (told k l) as [n|] eqn:T; [apply told_iff in T; exfalso; eapply H1; eauto|]. rewrite P. now apply IH.
    + apply told_iff in H1. rewrite H1 in P. destruct P as (P1 & P2 & P3 & P4 & P5). destruct (N.eqb_spec (num c) 0) as [Z|_]; [congruence|]. destruct P5 as [P5 P6].
      destruct (IH (process_line k l c) r0) as [I1 I2]; auto; [congruence|congruence|rewrite P4; auto|]. split; auto. rewrite I2, P6, P3. cbn [map]. now rewrite <- app_assoc.
Qed.
Lemma later_zero k ls : forall c, crashed c = false -> started c = true -> (k <> Install -> set_up c = 0) -> num c = 0 ->
  reports (fold_left (lin k) ls c) = reports c /\ (crashed (fold_left (lin k) ls c) = true <-> exists l n, In l ls /\ tells k l n).
Proof.
  induction ls as [|l ls IH]; intros c C ST SU NZ; cbn [fold_left].
  - split; auto. rewrite C. split; [discriminate|intros (? & ? & [] & _)].
  - replace (lin k c l) with (process_line k l c) by (unfold lin, line_in; now rewrite C, ST). pose proof (process_line_told k l c C SU) as P. cbv zeta in P.
    destruct (told k l) as [n|] eqn:T.
    + destruct P as (P1 & P2 & P3 & P4 & P5). rewrite NZ in P5. cbn [N.eqb] in P5. destruct P5 as [P5 P6]. rewrite fold_crashed by auto. split; auto. split; auto. intros _. exists l, n. split; [now left|now apply told_iff].
    + rewrite P. destruct (IH c C ST SU NZ) as [I1 I2]. split; auto. rewrite I2. split; [intros (l' & n & I & X); exists l', n; split; [now right|auto]|].
      intros (l' & n & [<-|I] & X); [apply told_iff in X; congruence|eauto].
Qed.
Lemma early_lines k ls : (forall l n, In l ls -> ~ announces k l n) -> fold_left (lin k) ls fresh = fresh.
Proof.
  induction ls as [|l ls IH]; intros H; auto. cbn [fold_left]. replace (lin k fresh l) with fresh; [apply IH; intros; apply H; now right|].
  unfold lin, line_in, process_total. cbn [crashed fresh started]. change (match k with Initrd => initrd_total l | _ => apt_total l end) with (total k l).
  destruct (total k l) as [n|] eqn:T; auto. apply total_iff in T. exfalso. eapply H; [now left|exact T].
Qed.
Lemma announced k l n : announces k l n -> lin k fresh l = {| num := n; pkg := 0; set_up := 0; started := true; reports := [(0, 1)]; crashed := false |}.
Proof.
  intros A. apply total_iff in A. unfold lin, line_in, process_total. cbn [crashed fresh started]. change (match k with Initrd => initrd_total l | _ => apt_total l end) with (total k l). now rewrite A.
Qed.

(** ** The line filter without carriage returns *)
Lemma after_cr_none l : ~ In cr l -> after_cr l = l.
Proof. intros N. unfold after_cr. rewrite split_on_single by now apply no_char_In. cbn [last]. destruct l; auto. Qed.
Lemma fdrain_spec show : forall fuel f ls r, has_lines (fbuffer f) ls r -> ~ In cr (fbuffer f) -> (length ls < fuel)%nat ->
  fdrain fuel show f = {| fbuffer := r; seen := seen f ++ ls; fout := fout f ++ concat (filter show ls) |}.
Proof.
  induction fuel as [|fuel IH]; intros f ls r H NC L; [lia|]. cbn [fdrain]. destruct ls as [|l ls].
  - destruct H as (E & _ & N). cbn [concat app] in E. rewrite E in *. rewrite !cut_at_none by now apply no_char_In. cbn. rewrite !app_nil_r. destruct f; cbn in *; congruence.
  - destruct H as (E & F & N). inversion F as [|? ? (a & -> & A) F']; subst. rewrite E. cbn [concat]. rewrite <- !app_assoc. cbn [app]. rewrite cut_at_some by now apply no_char_In.
    rewrite E in NC. cbn [concat] in NC. rewrite !in_app_iff in NC. rewrite after_cr_none by (rewrite in_app_iff; tauto).
    rewrite (IH _ ls r); [|split; auto|cbn [fbuffer]; rewrite in_app_iff; tauto|cbn in L; lia]. cbn [seen fout filter]. rewrite <- app_assoc. destruct (show (a ++ [nl])); cbn [concat]; [now rewrite <- app_assoc|reflexivity].
Qed.
Lemma frun_from show chunks : forall f ls r, has_lines (fbuffer f ++ concat chunks) ls r -> ~ In cr (fbuffer f ++ concat chunks) -> ~ In nl (fbuffer f) ->
  fold_left (fwrite show) chunks f = {| fbuffer := r; seen := seen f ++ ls; fout := fout f ++ concat (filter show ls) |}.
Proof.
  induction chunks as [|ch chunks IH]; intros f ls r H NC N.
  - cbn [concat fold_left] in *. rewrite app_nil_r in *. assert (H0 : has_lines (fbuffer f) [] (fbuffer f)) by (split; [auto|split; [constructor|auto]]).
    destruct (lines_unique _ _ _ _ _ H H0) as [-> ->]. cbn. rewrite !app_nil_r. now destruct f.
  - cbn [fold_left]. unfold fwrite at 2. destruct (lines_exist (fbuffer f ++ ch)) as (ls1 & r1 & H1). cbn [concat] in *. rewrite app_assoc in H, NC.
    rewrite (fdrain_spec show _ _ ls1 r1); [|exact H1|cbn [fbuffer]; rewrite in_app_iff in NC; tauto|]; cycle 1.
    { destruct H1 as (E1 & F1 & _). rewrite E1, app_length. pose proof (lines_length ls1 F1). lia. }
    destruct (lines_exist (r1 ++ concat chunks)) as (ls2 & r2 & H2).
    assert (HH := lines_app _ _ _ _ _ _ H1 H2). destruct (lines_unique _ _ _ _ _ H HH) as [-> ->]. cbn [seen fout].
    rewrite (IH _ ls2 r2); cbn [fbuffer seen fout]; auto; [|destruct H1 as (E1 & _); rewrite E1, !in_app_iff in NC; rewrite in_app_iff; tauto|apply H1].
    now rewrite filter_app, concat_app, !app_assoc.
Qed.
