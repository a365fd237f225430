(** Lemmas about stamps. *)
From Coq Require Import Ascii String List Bool Arith Lia.
From Verif Require Import Str_Model Str_Proofs Sstman_Proofs Stamps_Model Stamps_Spec.
Import ListNotations.
Open Scope list_scope.

Lemma not_star : forall c, c <> "*"%char -> aeqb c star = false.
Proof. intros c N. destruct (aeqb c star) eqn:E; auto. apply aeqb_eq in E. contradiction. Qed.
Lemma gmatch_lit : forall p q s, literal p -> (gmatch (p ++ q) s = true <-> exists s', s = p ++ s' /\ gmatch q s' = true).
Proof.
  unfold literal. induction p as [|c p IH]; intros q s L; cbn [app].
  - split; [intro H; exists s; auto|]. intros (s' & -> & H). exact H.
  - cbn [gmatch]. rewrite not_star by (intros ->; apply L; left; reflexivity). destruct s as [|x s].
    + split; [discriminate|]. intros (s' & E & _). discriminate E.
    + rewrite andb_true_iff, IH by (intro H; apply L; right; exact H). rewrite aeqb_eq. split.
      * intros (-> & s' & -> & H). exists s'. auto.
      * intros (s' & E & H). injection E as -> ->. eauto.
Qed.
Lemma gmatch_all : forall p s, literal p -> (gmatch p s = true <-> s = p).
Proof.
  intros p s L. rewrite <- (app_nil_r p) at 1. rewrite gmatch_lit by exact L. split.
  - intros (s' & -> & H). destruct s'; [apply app_nil_r|discriminate H].
  - intros ->. exists []. split; [symmetry; apply app_nil_r|reflexivity].
Qed.
Lemma gmatch_star : forall q s, gmatch (star :: q) s = true <-> exists m s', ~ In "/"%char m /\ s = m ++ s' /\ gmatch q s' = true.
Proof.
  intros q s. cbn [gmatch]. change (aeqb star star) with true. cbn match.
  induction s as [|x s IH].
  - rewrite orb_false_r. split.
    + intro H. exists [], []. repeat split; auto.
    + intros (m & s' & N & E & H). destruct m; [|discriminate E]. destruct s'; [exact H|discriminate E].
  - rewrite orb_true_iff, andb_true_iff, IH. split.
    + intros [H|(N & m & s' & NI & -> & H)].
      * exists [], (x :: s). repeat split; auto.
      * exists (x :: m), s'. repeat split; auto. intros [->|I]; [discriminate N|contradiction].
    + intros (m & s' & N & E & H). destruct m as [|y m].
      * cbn [app] in E. subst s'. left. exact H.
      * injection E as <- ->. right. split.
        -- destruct (aeqb x "/") eqn:A; auto. apply aeqb_eq in A. subst. exfalso. apply N. left. reflexivity.
        -- exists m, s'. repeat split; auto. intro I. apply N. right. exact I.
Qed.

(** ** Dots at the end *)
Lemma drop_dots_no : forall s, (forall r, s <> "."%char :: r) -> drop_dots s = s.
Proof. intros [|c s] N; cbn; auto. destruct (aeqb c ".") eqn:E; auto. apply aeqb_eq in E. subst. exfalso. eapply N. reflexivity. Qed.
Lemma rstrip_no : forall s, (forall u, s <> u ++ s_ ".") -> rstrip_dots s = s.
Proof.
  intros s N. unfold rstrip_dots. rewrite drop_dots_no; [apply rev_involutive|].
  intros r E. apply (N (rev r)). rewrite <- (rev_involutive s), E. reflexivity.
Qed.
Lemma rstrip_dot : forall s, (forall u, s <> u ++ s_ ".") -> rstrip_dots (s ++ s_ ".") = s.
Proof. intros s N. unfold rstrip_dots. rewrite rev_app_distr. cbn. fold (rstrip_dots s). apply rstrip_no, N. Qed.
Lemma last_app : forall (a : str) c d u, a ++ [c] = u ++ [d] -> c = d.
Proof. intros a c d u E. apply app_inj_tail in E. tauto. Qed.
Lemma ends_app : forall (a b : str), b <> [] -> (forall u, b <> u ++ s_ ".") -> forall u, a ++ b <> u ++ s_ ".".
Proof.
  intros a b NE N u E. destruct (exists_last NE) as (b' & c & ->). rewrite app_assoc in E. apply last_app in E. subst c. eapply N. reflexivity.
Qed.

(** ** Replacing *)
Lemma replace_at : forall p t a b, p <> [] -> (forall a1 a2, a = a1 ++ a2 -> a2 <> [] -> startswith p (a2 ++ p ++ b) = false) -> lacks p b ->
  replace_str p t (a ++ p ++ b) = a ++ t ++ b.
Proof.
  intros p t a b NE A B. unfold replace_str. destruct p as [|c0 p0]; [congruence|]. set (p := c0 :: p0) in *. clearbody p.
  induction a as [|c a IH].
  - cbn [app]. pose proof (replace_once p t b NE B) as R. unfold replace_str in R. destruct p; [congruence|exact R].
  - pose proof (A [] (c :: a) eq_refl ltac:(discriminate)) as S. cbn [app] in S. cbn [app replace_aux]. rewrite S. f_equal. apply IH.
    intros a1 a2 -> N2. apply (A (c :: a1) a2); auto.
Qed.
Lemma lacks_dot : forall p x y, p <> [] -> ~ In "."%char p -> lacks p x -> lacks p y -> lacks p (x ++ s_ "." ++ y).
Proof.
  intros p x y NE ND LX LY u v E. apply app_eq_app in E. destruct E as (l & [[-> E]|[-> E]]).
  - (* x = u ++ l *)
    apply eq_sym, app_eq_app in E. destruct E as (k & [[-> E]|[-> E]]).
    + exact (LX u k eq_refl).
    + destruct k as [|c k].
      * rewrite app_nil_r in *. apply (LX u []). rewrite app_nil_r. reflexivity.
      * injection E as <- E. apply ND, in_or_app. right. left. reflexivity.
  - destruct l as [|c l].
    + cbn [app] in E. destruct p as [|c p]; [congruence|]. injection E as <- E. apply ND. left. reflexivity.
    + injection E as _ E. exact (LY l v E).
Qed.
Lemma lacks_char : forall c p x, In c p -> ~ In c x -> lacks p x.
Proof. intros c p x I N u v ->. apply N, in_or_app. right. apply in_or_app. left. exact I. Qed.
Lemma prefix_free : forall p x r, ~ In "."%char p -> lacks p x -> startswith p (x ++ s_ "." ++ r) = false.
Proof.
  intros p x r ND L. destruct (startswith p _) eqn:S; auto. exfalso. apply startswith_iff in S. destruct S as (k & E).
  apply app_eq_app in E. destruct E as (l & [[-> E]|[-> E]]).
  - apply (L [] l). reflexivity.
  - destruct l as [|c l].
    + apply (L [] []). cbn [app]. rewrite !app_nil_r. reflexivity.
    + injection E as <- E. apply ND, in_or_app. right. left. reflexivity.
Qed.
Lemma suffix_dot : forall base a1 a2, base ++ s_ "." = a1 ++ a2 -> a2 <> [] -> exists x, a2 = x ++ s_ "." /\ base = a1 ++ x.
Proof.
  intros base a1 a2 E NE. destruct (exists_last NE) as (x & c & ->). rewrite app_assoc in E. apply app_inj_tail in E. destruct E as [-> <-]. exists x. auto.
Qed.
Lemma replace_task : forall base t r b, t <> [] -> ~ In "."%char t -> lacks t base -> lacks t b ->
  replace_str t r (base ++ s_ "." ++ t ++ b) = base ++ s_ "." ++ r ++ b.
Proof.
  intros base t r b NE ND L B. rewrite !(app_assoc base). apply replace_at; auto.
  intros a1 a2 E N2. destruct (suffix_dot _ _ _ E N2) as (x & -> & ->). rewrite <- app_assoc. apply prefix_free; auto.
  intros u v ->. apply (L (a1 ++ u) v). rewrite !app_assoc. reflexivity.
Qed.

(** ** The names of a usual task *)
Lemma scene_alone : forall t, lacks scene t -> replace_str scene [] (t ++ scene) = t.
Proof.
  intros t L. rewrite <- (app_nil_r scene) at 2. rewrite (replace_at scene [] t []).
  - rewrite !app_nil_r. reflexivity.
  - discriminate.
  - intros a1 a2 -> N2. rewrite app_nil_r. destruct (startswith scene (a2 ++ scene)) eqn:S; auto. exfalso.
    apply startswith_iff in S. destruct S as (k & E).
    apply app_eq_app in E. destruct E as (l & [[-> E]|[E1 E]]).
    + apply (L a1 l). reflexivity.
    + destruct l as [|c l]; [rewrite app_nil_r in E1; apply (L a1 []); rewrite app_nil_r, E1; reflexivity|].
      assert (c = "_"%char) as -> by (unfold scene in E; cbn in E; injection E as ? _; auto).
      assert (I : In "_"%char (skipn 1 scene)) by (destruct a2 as [|y a2]; [congruence|]; rewrite E1; cbn [app skipn]; apply in_or_app; right; left; reflexivity).
      cbn in I. repeat (destruct I as [I|I]; [discriminate I|]). exact I.
  - intros u v E. destruct u; discriminate E.
Qed.
Definition shape (base task x extra : str) : str := base ++ s_ "." ++ task ++ s_ "." ++ x ++ with_extra extra.
Lemma strip_shape : forall base task x extra, x <> [] -> (forall u, x <> u ++ s_ ".") -> (forall u, extra <> u ++ s_ ".") ->
  rstrip_dots (base ++ s_ "." ++ task ++ s_ "." ++ x ++ s_ "." ++ extra) = shape base task x extra.
Proof.
  intros base task x extra NE NX N. unfold shape, with_extra. destruct extra as [|c e].
  - rewrite !app_nil_r. replace (base ++ s_ "." ++ task ++ s_ "." ++ x ++ s_ ".") with ((base ++ s_ "." ++ task ++ s_ "." ++ x) ++ s_ ".") by (rewrite <- !app_assoc; reflexivity).
    apply rstrip_dot. intros u E. revert E. repeat rewrite app_assoc. apply ends_app; assumption.
  - apply rstrip_no. intros u E. revert E. repeat rewrite app_assoc. apply ends_app; [discriminate|exact N].
Qed.
Lemma usual_plain : forall base task extra, usual base task extra -> flag_task task = task /\ hash_task task = task /\ replace_str scene [] task = task.
Proof.
  intros base task extra (_ & _ & _ & _ & _ & _ & _ & _ & L & _).
  assert (E : endswith scene task = false) by (destruct (endswith scene task) eqn:E; auto; apply endswith_iff in E; destruct E as (t & ->); exfalso; apply (L t []); rewrite app_nil_r; reflexivity).
  unfold flag_task, hash_task. rewrite E. repeat split. unfold replace_str. cbn match. apply (replace_aux_none scene [] task). exact L.
Qed.
Lemma usual_scene : forall base task extra, usual base task extra -> flag_task (task ++ scene) = task /\ hash_task (task ++ scene) = task /\ replace_str scene [] (task ++ scene) = task.
Proof.
  intros base task extra (_ & _ & _ & _ & _ & _ & _ & _ & L & _).
  unfold flag_task, hash_task. rewrite endswith_app. rewrite scene_alone by exact L. repeat split.
  rewrite app_length. change (length scene) with 9. replace (length task + 9 - 9) with (length task) by lia. rewrite firstn_app, firstn_all, Nat.sub_diag. apply app_nil_r.
Qed.
Lemma star_end : forall u, [star] <> u ++ s_ ".".
Proof. intros [|? [|? u]] E; discriminate E. Qed.
Lemma mask_plain : forall base extra task, usual base task (extra task) -> cleanmask base extra task = shape base task [star] (extra task).
Proof.
  intros base extra task U. unfold cleanmask. rewrite (proj1 (usual_plain _ _ _ U)).
  destruct U as (_ & _ & _ & _ & _ & _ & _ & _ & _ & N). apply strip_shape; [discriminate|apply star_end|exact N].
Qed.
Lemma mask_scene : forall base extra task, usual base task (extra task) -> cleanmask base extra (task ++ scene) = shape base (task ++ scene) [star] (extra task).
Proof.
  intros base extra task U. unfold cleanmask. rewrite (proj1 (usual_scene _ _ _ U)).
  destruct U as (_ & _ & _ & _ & _ & _ & _ & _ & _ & N). apply strip_shape; [discriminate|apply star_end|exact N].
Qed.
Lemma rest_lacks : forall task extra x, (exists y, task = s_ "do_" ++ y) -> ~ In "."%char task -> lacks task extra -> ~ In "d"%char x -> lacks task (x ++ s_ "." ++ [star] ++ with_extra extra).
Proof.
  intros task extra x (y & ->) ND LE NX.
  assert (D : In "d"%char (s_ "do_" ++ y)) by (left; reflexivity).
  apply lacks_dot; [discriminate|exact ND|eapply lacks_char; eauto|].
  destruct extra as [|c e]; cbn [with_extra].
  - eapply lacks_char; [exact D|]. intros [H|[]]. discriminate H.
  - apply lacks_dot; [discriminate|exact ND| |exact LE]. eapply lacks_char; [exact D|]. intros [H|[]]. discriminate H.
Qed.
Lemma usual_ne : forall base task extra, usual base task extra -> task <> [].
Proof. intros base task extra (_ & _ & _ & (x & ->) & _). discriminate. Qed.
Lemma masks_plain : forall base extra task, usual base task (extra task) ->
  masks base extra task = [shape base task [star] (extra task); shape base (task ++ scene) [star] (extra task)].
Proof.
  intros base extra task U. unfold masks. rewrite (proj2 (proj2 (usual_plain _ _ _ U))), mask_plain by exact U. repeat f_equal.
  unfold shape. destruct U as (LB & LT & LE & DO & ND & NS & OB & OE & SC & NE).
  rewrite replace_task; auto; [destruct DO as (x & ->); discriminate|]. apply (rest_lacks task (extra task) []); auto.
Qed.
Lemma masks_scene : forall base extra task, usual base task (extra task) ->
  masks base extra (task ++ scene) = [shape base (task ++ scene) [star] (extra task); shape base (task ++ scene ++ scene) [star] (extra task)].
Proof.
  intros base extra task U. unfold masks. rewrite (proj2 (proj2 (usual_scene _ _ _ U))), mask_scene by exact U. repeat f_equal.
  unfold shape. destruct U as (LB & LT & LE & DO & ND & NS & OB & OE & SC & NE).
  rewrite <- (app_assoc task). rewrite replace_task; auto; [|destruct DO as (x & ->); discriminate|].
  - rewrite <- !app_assoc. reflexivity.
  - apply (rest_lacks task (extra task) scene); auto. cbn. intuition discriminate.
Qed.
Lemma lit_app : forall a b, literal a -> literal b -> literal (a ++ b).
Proof. unfold literal. intros a b A B I. apply in_app_or in I. tauto. Qed.
Lemma lit_extra : forall e, literal e -> literal (with_extra e).
Proof. intros [|c e] L; [exact L|]. apply (lit_app (s_ ".")); [intros [H|[]]; discriminate H|exact L]. Qed.
Lemma lit_scene : literal scene.
Proof. unfold literal. cbn. intuition discriminate. Qed.
Lemma mask_stamp : forall base task extra f, literal base -> literal task -> literal extra ->
  (gmatch (shape base task [star] extra) f = true <-> stamp_of base task extra f).
Proof.
  intros base task extra f LB LT LE. unfold shape, stamp_of.
  replace (base ++ s_ "." ++ task ++ s_ "." ++ [star] ++ with_extra extra) with ((base ++ s_ "." ++ task ++ s_ ".") ++ star :: with_extra extra) by (rewrite <- !app_assoc; reflexivity).
  assert (DL : literal (s_ ".")) by (intros [H|[]]; discriminate H).
  rewrite gmatch_lit by (repeat apply lit_app; auto). split.
  - intros (s' & -> & G). apply gmatch_star in G. destruct G as (m & s2 & N & -> & G). apply gmatch_all in G; [|apply lit_extra, LE]. subst s2. exists m. split; [exact N|]. rewrite <- !app_assoc. reflexivity.
  - intros (h & N & ->). exists (h ++ with_extra extra). rewrite <- !app_assoc. split; [reflexivity|]. apply gmatch_star. exists h, (with_extra extra). repeat split; auto. apply gmatch_all; [apply lit_extra, LE|reflexivity].
Qed.
Lemma kept_iff : forall f, kept f = true <-> no_stamp f.
Proof. intro f. unfold kept, no_stamp. rewrite !orb_true_iff, !contains_sub_iff, endswith_iff. tauto. Qed.
Lemma matches_iff : forall base extra task f x y e, literal base -> literal x -> literal y -> literal e ->
  masks base extra task = [shape base x [star] e; shape base y [star] e] -> (matches base extra task f = true <-> stamp_of base x e f \/ stamp_of base y e f).
Proof.
  intros base extra task f x y e LB LX LY LE E. unfold matches. rewrite E. cbn [existsb]. rewrite orb_false_r, orb_true_iff, !mask_stamp by auto. reflexivity.
Qed.
Lemma make_iff : forall base hash extra task files f, In f (make_stamp base hash extra task files) <->
  f = stampfile base hash extra task \/ (In f files /\ (no_stamp f \/ matches base extra task f <> true)).
Proof.
  intros. unfold make_stamp, clean_stamp. rewrite in_app_iff, !filter_In, !negb_true_iff, andb_false_iff, negb_false_iff, kept_iff, seqb_neq, not_true_iff_false. cbn [In].
  destruct (str_eq_dec f (stampfile base hash extra task)) as [->|N]; [tauto|]. intuition congruence.
Qed.
Lemma stampfile_plain : forall base hash extra task, usual base task (extra task) -> usual_hash (hash task) -> stampfile base hash extra task = shape base task (hash task) (extra task).
Proof.
  intros base hash extra task U (HN & HD & _). unfold stampfile. destruct (usual_plain _ _ _ U) as (-> & -> & _).
  apply strip_shape; [exact HN| |apply U]. intros u E. apply HD. rewrite E. apply in_or_app. right. left. reflexivity.
Qed.
Lemma stampfile_scene : forall base hash extra task, usual base task (extra task) -> usual_hash (hash task) -> stampfile base hash extra (task ++ scene) = shape base (task ++ scene) (hash task) (extra task).
Proof.
  intros base hash extra task U (HN & HD & _). unfold stampfile. destruct (usual_scene _ _ _ U) as (-> & -> & _).
  apply strip_shape; [exact HN| |apply U]. intros u E. apply HD. rewrite E. apply in_or_app. right. left. reflexivity.
Qed.

(** ** Whether a task is up to date *)
Lemma restored_iff : forall w d, restored w d = true <-> from_shared w d.
Proof.
  intros w d. unfold restored, from_shared, truthy. destruct (t_scene w d) as [[|n]|].
  - cbn. split; [discriminate|]. intros (t3 & E & L & _). injection E as <-. lia.
  - cbn [andb]. rewrite orb_true_iff. destruct (t_stamp w d) as [[|m]|].
    + cbn. split; [intros _|tauto]. exists (S n). repeat split; auto. lia.
    + split.
      * intros [H|H]; [discriminate H|]. apply Nat.ltb_lt in H. exists (S n). repeat split; auto; [lia|]. right. right. eauto.
      * intros (t3 & E & _ & [H|[H|(t2 & H & L)]]); try discriminate H. injection E as <-. injection H as <-. right. apply Nat.ltb_lt. exact L.
    + cbn. split; [intros _|tauto]. exists (S n). repeat split; auto. lia.
  - cbn. split; [discriminate|]. intros (t3 & E & _). discriminate E.
Qed.
Definition sound (w : tasks) (c : cache) : Prop := forall t b, look t c = Some b -> (b = true <-> up_to_date w t).
Lemma sound_add : forall w c t b, sound w c -> (b = true <-> up_to_date w t) -> sound w ((t, b) :: c).
Proof. intros w c t b S H x y. cbn. destruct (Nat.eqb_spec x t) as [->|N]; [intros E; injection E as <-; exact H|apply S]. Qed.

Definition go (w : tasks) (recurse : bool) (rec : nat -> cache -> option (bool * cache)) (t t1 : nat) : list nat -> cache -> option (bool * cache) :=
  fix go (ds : list nat) (c : cache) : option (bool * cache) :=
  match ds with
  | [] => Some (true, c)
  | d :: r =>
      if restored w d then go r c
      else if seqb (t_recipe w t) (t_recipe w d) then
        match t_stamp w d with
        | Some (S t2) =>
            if Nat.ltb t1 (S t2) then Some (false, c)
            else if recurse then
              match look d c with
              | Some true => go r c
              | Some false => Some (false, c)
              | None => match rec d c with None => None | Some (b, c) => if b then go r ((d, b) :: c) else Some (false, (d, b) :: c) end
              end
            else go r c
        | _ => Some (false, c)
        end
      else go r c
  end.
Lemma go_cons : forall w recurse rec t t1 d r c, go w recurse rec t t1 (d :: r) c =
      if restored w d then go w recurse rec t t1 r c
      else if seqb (t_recipe w t) (t_recipe w d) then
        match t_stamp w d with
        | Some (S t2) =>
            if Nat.ltb t1 (S t2) then Some (false, c)
            else if recurse then
              match look d c with
              | Some true => go w recurse rec t t1 r c
              | Some false => Some (false, c)
              | None => match rec d c with None => None | Some (b, c) => if b then go w recurse rec t t1 r ((d, b) :: c) else Some (false, (d, b) :: c) end
              end
            else go w recurse rec t t1 r c
        | _ => Some (false, c)
        end
      else go w recurse rec t t1 r c.
Proof. reflexivity. Qed.
Lemma go_nil : forall w recurse rec t t1 c, go w recurse rec t t1 [] c = Some (true, c).
Proof. reflexivity. Qed.
Lemma check_eq : forall w recurse fuel t c, check w recurse (S fuel) t c =
  match t_stamp w t with
  | None => Some (false, c)
  | Some t1 =>
      if t_nostamp w t then Some (false, c) else if endswith scene (t_name w t) then Some (true, c)
      else match go w recurse (check w true fuel) t t1 (t_deps w t) c with None => None | Some (b, c) => Some (b, if recurse then (t, b) :: c else c) end
  end.
Proof. intros. cbn [check]. destruct (t_stamp w t); [|reflexivity]. destruct (t_nostamp w t); [reflexivity|]. destruct (endswith scene (t_name w t)); reflexivity. Qed.

(** what a dependency has to fulfil *)
Definition fine (w : tasks) (t t1 : nat) (P : nat -> Prop) (d : nat) : Prop :=
  ~ from_shared w d -> t_recipe w d = t_recipe w t -> (exists t2, t_stamp w d = Some t2 /\ 0 < t2 <= t1) /\ P d.
Lemma go_true : forall w rec t t1, (forall d c b c', rec d c = Some (b, c') -> sound w c -> (b = true <-> up_to_date w d) /\ sound w c') ->
  forall ds c b c', go w true rec t t1 ds c = Some (b, c') -> sound w c -> (b = true <-> forall d, In d ds -> fine w t t1 (up_to_date w) d) /\ sound w c'.
Proof.
  intros w rec t t1 R. induction ds as [|d ds IH]; intros c b c' G S; [rewrite go_nil in G|rewrite go_cons in G].
  - injection G as <- <-. split; [|exact S]. split; [intros _ d []|reflexivity].
  - assert (skip : fine w t t1 (up_to_date w) d -> forall c0, go w true rec t t1 ds c0 = Some (b, c') -> sound w c0 -> (b = true <-> forall d0, In d0 (d :: ds) -> fine w t t1 (up_to_date w) d0) /\ sound w c').
    { intros F c0 G0 S0. destruct (IH _ _ _ G0 S0) as [E S']. split; [|exact S']. rewrite E. split; [intros H d0 [<-|I]; auto|intros H d0 I; apply H; right; exact I]. }
    assert (stop : ~ fine w t t1 (up_to_date w) d -> false = true <-> forall d0, In d0 (d :: ds) -> fine w t t1 (up_to_date w) d0).
    { intro F. split; [discriminate|]. intro H. exfalso. apply F, H. left. reflexivity. }
    destruct (restored w d) eqn:RS.
    { apply (skip) with (c0 := c); auto. intros NF. exfalso. apply NF, restored_iff, RS. }
    assert (NF : ~ from_shared w d) by (rewrite <- restored_iff, RS; discriminate).
    destruct (seqb (t_recipe w t) (t_recipe w d)) eqn:SQ.
    2: { apply (skip) with (c0 := c); auto. intros _ E. apply seqb_neq in SQ. congruence. }
    apply seqb_eq in SQ. symmetry in SQ.
    destruct (t_stamp w d) as [[|t2]|] eqn:T2.
    1,3: injection G as <- <-; split; [apply stop; intro F; destruct (F NF SQ) as [(x & E & L) _]; rewrite T2 in E; try discriminate E; injection E as <-; lia|exact S].
    destruct (Nat.ltb_spec t1 (Datatypes.S t2)).
    { injection G as <- <-. split; [|exact S]. apply stop. intro F. destruct (F NF SQ) as [(x & E & L) _]. rewrite T2 in E. injection E as <-. lia. }
    assert (F1 : up_to_date w d -> fine w t t1 (up_to_date w) d) by (intros U _ _; split; [exists (Datatypes.S t2); split; [exact T2|lia]|exact U]).
    destruct (look d c) as [[|]|] eqn:LK.
    + apply skip with (c0 := c); auto. apply F1. apply (S _ _ LK). reflexivity.
    + injection G as <- <-. split; [|exact S]. apply stop. intro F. destruct (F NF SQ) as [_ U]. apply (S _ _ LK) in U. discriminate U.
    + destruct (rec d c) as [[b0 c0]|] eqn:RC; [|discriminate G]. destruct (R _ _ _ _ RC S) as [E0 S0]. destruct b0.
      * apply skip with (c0 := (d, true) :: c0); auto; [apply F1, E0; reflexivity|apply sound_add; auto].
      * injection G as <- <-. split; [|apply sound_add; auto]. apply stop. intro F. destruct (F NF SQ) as [_ U]. apply E0 in U. discriminate U.
Qed.
Lemma check_true : forall w fuel t c b c', check w true fuel t c = Some (b, c') -> sound w c -> (b = true <-> up_to_date w t) /\ sound w c'.
Proof.
  intros w. induction fuel as [|fuel IH]; intros t c b c' C S; [discriminate C|]. rewrite check_eq in C.
  destruct (t_stamp w t) as [t1|] eqn:T1.
  2: { injection C as <- <-. split; [|exact S]. split; [discriminate|]. intros U. inversion U; congruence. }
  destruct (t_nostamp w t) eqn:NS.
  { injection C as <- <-. split; [|exact S]. split; [discriminate|]. intros U. inversion U; congruence. }
  destruct (endswith scene (t_name w t)) eqn:SC.
  { injection C as <- <-. split; [|exact S]. split; [intros _|reflexivity]. apply endswith_iff in SC. eapply up_scene; eauto. }
  destruct (go w true (check w true fuel) t t1 (t_deps w t) c) as [[b0 c0]|] eqn:G; [|discriminate C]. injection C as <- <-.
  destruct (go_true w (check w true fuel) t t1 (fun d c b c' H1 H2 => IH d c b c' H1 H2) _ _ _ _ G S) as [E S'].
  assert (Q : b0 = true <-> up_to_date w t).
  { rewrite E. split.
    - intro H. apply (up_task w t t1 T1 NS). intros d I NF SR. exact (H d I NF SR).
    - intros U d I NF SR. inversion U as [? x ? ? (y & Y)|? x T1' _ H]; subst; [exfalso; rewrite Y, endswith_app in SC; discriminate SC|].
      rewrite T1 in T1'. injection T1' as <-. apply H; auto. }
  split; [exact Q|]. apply sound_add; auto.
Qed.
Lemma go_some : forall w recurse rec t t1 ds c, (forall d c, In d ds -> rec d c <> None) -> go w recurse rec t t1 ds c <> None.
Proof.
  intros w recurse rec t t1. induction ds as [|d ds IH]; intros c R; [rewrite go_nil; discriminate|rewrite go_cons].
  assert (R' : forall d0 c0, In d0 ds -> rec d0 c0 <> None) by (intros; apply R; right; assumption).
  destruct (restored w d); [apply IH; auto|]. destruct (seqb _ _); [|apply IH; auto]. destruct (t_stamp w d) as [[|t2]|]; try discriminate. destruct (Nat.ltb _ _); [discriminate|]. destruct recurse; [|apply IH; auto].
  destruct (look d c) as [[|]|]; [apply IH; auto|discriminate|]. destruct (rec d c) as [[[|] c0]|] eqn:E; [apply IH; auto|discriminate|]. exfalso. eapply R; [left; reflexivity|exact E].
Qed.
Lemma check_some : forall w (rank : nat -> nat), (forall t d, In d (t_deps w t) -> rank d < rank t) -> forall fuel t c, rank t < fuel -> check w true fuel t c <> None.
Proof.
  intros w rank RK. induction fuel as [|fuel IH]; intros t c L; [lia|]. rewrite check_eq. destruct (t_stamp w t) as [t1|]; [|discriminate]. destruct (t_nostamp w t); [discriminate|]. destruct (endswith _ _); [discriminate|].
  destruct (go w true (check w true fuel) t t1 (t_deps w t) c) as [[b c0]|] eqn:G; [discriminate|]. exfalso. revert G. apply go_some. intros d c1 I. apply IH. specialize (RK t d I). lia.
Qed.
Lemma go_false : forall w rec t t1 ds c, exists b, go w false rec t t1 ds c = Some (b, c) /\ (b = true <-> forall d, In d ds -> fine w t t1 (fun _ => True) d).
Proof.
  intros w rec t t1. induction ds as [|d ds IH]; intros c; [rewrite go_nil|rewrite go_cons].
  - exists true. split; [reflexivity|]. split; [intros _ d []|reflexivity].
  - destruct (IH c) as (b & G & E).
    assert (skip : fine w t t1 (fun _ => True) d -> (b = true <-> forall d0, In d0 (d :: ds) -> fine w t t1 (fun _ => True) d0)).
    { intros F. rewrite E. split; [intros H d0 [<-|I]; auto|intros H d0 I; apply H; right; exact I]. }
    assert (stop : ~ fine w t t1 (fun _ => True) d -> false = true <-> forall d0, In d0 (d :: ds) -> fine w t t1 (fun _ => True) d0).
    { intro F. split; [discriminate|]. intro H. exfalso. apply F, H. left. reflexivity. }
    destruct (restored w d) eqn:RS. { exists b. split; [exact G|]. apply skip. intros NF. exfalso. apply NF, restored_iff, RS. }
    assert (NF : ~ from_shared w d) by (rewrite <- restored_iff, RS; discriminate).
    destruct (seqb (t_recipe w t) (t_recipe w d)) eqn:SQ.
    2: { exists b. split; [exact G|]. apply skip. intros _ Q. apply seqb_neq in SQ. congruence. }
    apply seqb_eq in SQ. symmetry in SQ.
    destruct (t_stamp w d) as [[|t2]|] eqn:T2.
    1,3: exists false; split; [reflexivity|]; apply stop; intro F; destruct (F NF SQ) as [(x & Q & L) _]; rewrite T2 in Q; try discriminate Q; injection Q as <-; lia.
    destruct (Nat.ltb_spec t1 (S t2)).
    { exists false. split; [reflexivity|]. apply stop. intro F. destruct (F NF SQ) as [(x & Q & L) _]. rewrite T2 in Q. injection Q as <-. lia. }
    exists b. split; [exact G|]. apply skip. intros _ _. split; [|exact I]. exists (S t2). split; [exact T2|lia].
Qed.

(** ** The stamps of a shared-state task *)
Lemma one_dot : forall l r, s_ ".do_" = l ++ r -> l <> [] -> ~ In "."%char r.
Proof. intros l r E N. destruct l as [|c l]; [congruence|]. intro I. assert (J : In "."%char (l ++ r)) by (apply in_or_app; right; exact I). injection E as _ E. rewrite <- E in J. cbn in J. intuition discriminate. Qed.
(** the mark is found nowhere else *)
Lemma mark_once : forall X Y u w, lacks (s_ ".do_") X -> lacks (s_ ".do_") Y -> X ++ s_ ".do_" ++ Y = u ++ s_ ".do_" ++ w -> u = X /\ w = Y.
Proof.
  intros X Y u w LX LY E. pose proof E as E0. apply app_eq_app in E. destruct E as (l & [[-> E]|[-> E]]).
  - destruct l as [|c l].
    + rewrite app_nil_r. cbn [app] in E. apply (app_inv_head (s_ ".do_")) in E. auto.
    + exfalso. apply eq_sym in E. apply eq_sym, app_eq_app in E. destruct E as (k & [[E1 E2]|[E1 E2]]).
      * destruct k as [|e k]; [rewrite app_nil_r in E1; apply (LX u []); rewrite app_nil_r, <- E1; reflexivity|].
        injection E2 as <- _. apply (one_dot (c :: l) ("."%char :: k)); [exact E1|discriminate|left; reflexivity].
      * apply (LX u k). rewrite E1. reflexivity.
  - destruct l as [|c l].
    + rewrite app_nil_r in *. cbn [app] in E. apply (app_inv_head (s_ ".do_")) in E. auto.
    + exfalso. apply app_eq_app in E. destruct E as (k & [[E1 E2]|[E1 E2]]).
      * destruct k as [|e k]; [|injection E2 as <- _; apply (one_dot (c :: l) ("."%char :: k)); [exact E1|discriminate|left; reflexivity]].
        apply (LY [] w). symmetry. exact E2.
      * apply (LY k w). exact E2.
Qed.
Lemma no_dot_split : forall (a b x y : str), ~ In "."%char a -> ~ In "."%char b -> a ++ s_ "." ++ x = b ++ s_ "." ++ y -> a = b /\ x = y.
Proof.
  induction a as [|c a IH]; intros [|e b] x y NA NB E; cbn in E.
  - injection E as ->. auto.
  - injection E as <- _. exfalso. apply NB. left. reflexivity.
  - injection E as -> _. exfalso. apply NA. left. reflexivity.
  - injection E as <- E. destruct (IH b x y) as [-> ->]; auto; intro I; [apply NA|apply NB]; right; exact I.
Qed.
Lemma no_dot_tail : forall (a b x y : str), ~ In "."%char x -> ~ In "."%char y -> a ++ s_ "." ++ x = b ++ s_ "." ++ y -> a = b /\ x = y.
Proof.
  intros a b x y NX NY E. assert (R : rev x ++ s_ "." ++ rev a = rev y ++ s_ "." ++ rev b).
  { apply (f_equal (@rev ascii)) in E. rewrite !rev_app_distr in E. cbn [rev app] in E. rewrite <- !app_assoc in E. exact E. }
  apply no_dot_split in R; [|now rewrite <- in_rev|now rewrite <- in_rev]. destruct R as [R1 R2]. apply (f_equal (@rev ascii)) in R1, R2. rewrite !rev_involutive in R1, R2. auto.
Qed.
