(** Lemmas about tasks. *)
From Coq Require Import String Ascii List Bool Arith Lia.
From Verif Require Import Str_Model Str_Proofs Tasks_Model Tasks_Spec.
Import ListNotations.
Open Scope list_scope.

Lemma named_iff t d : named t d <-> d = full_name t.
Proof.
  unfold named, full_name. destruct (startswith (s_ "do_") t) eqn:E.
  - apply startswith_iff in E. destruct E as [r E]. split.
    + intros [(r' & _ & X)|[N _]]; auto. exfalso. now apply (N r).
    + intros ->. left. eauto.
  - split.
    + intros [(r & -> & _)|[_ X]]; auto. rewrite startswith_app in E. discriminate.
    + intros ->. right. split; auto. intros r ->. rewrite startswith_app in E. discriminate.
Qed.
Lemma add_new_in l x y : In y (add_new l x) <-> In y l \/ y = x.
Proof.
  unfold add_new. destruct (mem_str x l) eqn:E.
  - apply mem_str_In in E. split; [auto|]. intros [H| ->]; auto.
  - rewrite in_app_iff. cbn. intuition.
Qed.
Lemma add_new_nodup l x : NoDup l -> NoDup (add_new l x).
Proof.
  intros N. unfold add_new. destruct (mem_str x l) eqn:E; auto. apply mem_str_false in E.
  rewrite <- (rev_involutive (l ++ [x])). apply NoDup_rev. rewrite rev_app_distr. constructor; [now rewrite <- in_rev|now apply NoDup_rev].
Qed.
Lemma add_all_in ws l y : In y (fold_left add_new ws l) <-> In y l \/ In y ws.
Proof. revert l. induction ws as [|w ws IH]; intros l; cbn [fold_left]; [cbn; tauto|]. rewrite IH, add_new_in. cbn. intuition. Qed.
Lemma add_all_nodup ws l : NoDup l -> NoDup (fold_left add_new ws l).
Proof. revert l. induction ws as [|w ws IH]; intros l N; cbn [fold_left]; auto. apply IH. now apply add_new_nodup. Qed.
Lemma remove_first_in l x y : NoDup l -> (In y (remove_first x l) <-> In y l /\ y <> x).
Proof.
  induction l as [|z l IH]; intros N; cbn [remove_first]; [cbn; tauto|]. apply NoDup_cons_iff in N. destruct N as [Z N]. destruct (seqb x z) eqn:E.
  - apply seqb_eq in E. subst z. split; [|intros [[<-|H] K]; [congruence|auto]]. intros H. split; [now right|]. intros ->. contradiction.
  - apply seqb_neq in E. cbn [In]. rewrite (IH N). split; [intros [<-|H]; [split; [now left|congruence]|tauto]|tauto].
Qed.
Lemma remove_first_nodup l x : NoDup l -> NoDup (remove_first x l).
Proof.
  induction l as [|z l IH]; intros N; cbn [remove_first]; auto. inversion N as [|? ? Z M]; subst. destruct (seqb x z); auto. constructor; auto. intros I. apply remove_first_in in I; auto. tauto.
Qed.

(** ** One statement *)
Definition good (r : recipe) : Prop := NoDup (r_tasks r) /\ forall b, NoDup (r_deps r b).
Lemma upd_same f k v : upd f k v k = v.
Proof. unfold upd. now rewrite seqb_refl. Qed.
Lemma upd_other f k v x : x <> k -> upd f k v x = f x.
Proof. intros N. unfold upd. apply seqb_neq in N. now rewrite N. Qed.
Lemma before_fold t ws : forall dp : str -> list str, (forall b, NoDup (dp b)) ->
  let dp' := fold_left (fun dp e => if mem_str t (dp e) then dp else upd dp e (t :: dp e)) ws dp in
  (forall b, NoDup (dp' b)) /\ forall a b, In a (dp' b) <-> In a (dp b) \/ (a = t /\ In b ws).
Proof.
  induction ws as [|w ws IH]; intros dp N; cbn [fold_left]; [split; auto; intros; cbn; tauto|].
  set (dp1 := if mem_str t (dp w) then dp else upd dp w (t :: dp w)).
  assert (N1 : forall b, NoDup (dp1 b)).
  { intros b. unfold dp1. destruct (mem_str t (dp w)) eqn:E; auto. destruct (str_eq_dec b w) as [->|K]; [rewrite upd_same; constructor; auto; now apply mem_str_false|now rewrite upd_other]. }
  assert (I1 : forall a b, In a (dp1 b) <-> In a (dp b) \/ (a = t /\ b = w)).
  { intros a b. unfold dp1. destruct (mem_str t (dp w)) eqn:E.
    - apply mem_str_In in E. split; auto. intros [H|[-> ->]]; auto.
    - destruct (str_eq_dec b w) as [->|K]; [rewrite upd_same; cbn; intuition|rewrite upd_other by auto; intuition]. }
  destruct (IH dp1 N1) as [A B]. split; auto. intros a b. rewrite B, I1. cbn. intuition.
Qed.
Lemma addtask_good t b a r : good r -> good (addtask t b a r).
Proof.
  intros [N M]. unfold addtask, good. cbn [r_tasks r_deps]. split; [now apply add_new_nodup|]. apply before_fold. intros x.
  destruct (str_eq_dec x (full_name t)) as [->|K]; [rewrite upd_same; now apply add_all_nodup|now rewrite upd_other].
Qed.
Lemma addtask_tasks t b a r x : In x (r_tasks (addtask t b a r)) <-> In x (r_tasks r) \/ x = full_name t.
Proof. cbn [addtask r_tasks]. apply add_new_in. Qed.
Lemma addtask_deps t bef aft r a b : good r ->
  (In a (r_deps (addtask t bef aft r) b) <-> In a (r_deps r b) \/ (b = full_name t /\ In a (words_of aft)) \/ (a = full_name t /\ In b (words_of bef))).
Proof.
  intros [N M]. unfold addtask. cbn [r_deps]. destruct (before_fold (full_name t) (words_of bef) (upd (r_deps r) (full_name t) (fold_left add_new (words_of aft) (r_deps r (full_name t))))) as [_ E].
  - intros x. destruct (str_eq_dec x (full_name t)) as [->|K]; [rewrite upd_same; now apply add_all_nodup|now rewrite upd_other].
  - rewrite E. destruct (str_eq_dec b (full_name t)) as [->|K]; [rewrite upd_same, add_all_in; tauto|rewrite upd_other by auto; tauto].
Qed.
Lemma remove_fold t ks : forall dp : str -> list str, (forall b, NoDup (dp b)) ->
  let dp' := fold_left (fun dp k => if mem_str t (dp k) then upd dp k (remove_first t (dp k)) else dp) ks dp in
  (forall b, NoDup (dp' b)) /\ forall a b, In a (dp' b) <-> In a (dp b) /\ ~ (a = t /\ In b ks).
Proof.
  induction ks as [|w ks IH]; intros dp N; cbn [fold_left]; [split; auto; intros; cbn; tauto|].
  set (dp1 := if mem_str t (dp w) then upd dp w (remove_first t (dp w)) else dp).
  assert (N1 : forall b, NoDup (dp1 b)).
  { intros b. unfold dp1. destruct (mem_str t (dp w)) eqn:E; auto. destruct (str_eq_dec b w) as [->|K]; [rewrite upd_same; now apply remove_first_nodup|now rewrite upd_other]. }
  assert (I1 : forall a b, In a (dp1 b) <-> In a (dp b) /\ ~ (a = t /\ b = w)).
  { intros a b. unfold dp1. destruct (mem_str t (dp w)) eqn:E.
    - destruct (str_eq_dec b w) as [->|K]; [rewrite upd_same, remove_first_in by auto; intuition|rewrite upd_other by auto; intuition].
    - apply mem_str_false in E. split; [|tauto]. intros H. split; auto. intros [-> ->]. contradiction. }
  destruct (IH dp1 N1) as [A B]. split; auto. intros a b. rewrite B, I1. cbn. intuition.
Qed.
Lemma deltask_good t r : good r -> good (deltask t r).
Proof.
  intros [N M]. unfold deltask, good. cbn [r_tasks r_deps]. split; [now apply remove_first_nodup|]. apply remove_fold. intros x.
  destruct (str_eq_dec x (full_name t)) as [->|K]; [rewrite upd_same; constructor|now rewrite upd_other].
Qed.
Lemma deltask_tasks t r x : good r -> (In x (r_tasks (deltask t r)) <-> In x (r_tasks r) /\ x <> full_name t).
Proof. intros [N _]. cbn [deltask r_tasks]. now apply remove_first_in. Qed.
Lemma deltask_deps t r a b : good r ->
  (In a (r_deps (deltask t r) b) <-> In a (r_deps r b) /\ b <> full_name t /\ ~ (a = full_name t /\ In b (r_tasks r))).
Proof.
  intros [N M]. unfold deltask. cbn [r_deps]. destruct (remove_fold (full_name t) (remove_first (full_name t) (r_tasks r)) (upd (r_deps r) (full_name t) [])) as [_ E].
  - intros x. destruct (str_eq_dec x (full_name t)) as [->|K]; [rewrite upd_same; constructor|now rewrite upd_other].
  - rewrite E, remove_first_in by auto. destruct (str_eq_dec b (full_name t)) as [->|K]; [rewrite upd_same; cbn; tauto|rewrite upd_other by auto; tauto].
Qed.
Lemma del_good ts r : good r -> good (fold_left (fun r t => deltask t r) ts r).
Proof. revert r. induction ts as [|t ts IH]; intros r G; cbn [fold_left]; auto. apply IH. now apply deltask_good. Qed.
Lemma del_all ts : forall r, good r -> let r' := fold_left (fun r t => deltask t r) ts r in
  (forall x, In x (r_tasks r') <-> In x (r_tasks r) /\ forall t, In t ts -> x <> full_name t) /\
  forall a b, In a (r_deps r' b) <-> In a (r_deps r b) /\ (forall t, In t ts -> b <> full_name t) /\ ~ (In b (r_tasks r) /\ exists t, In t ts /\ a = full_name t).
Proof.
  induction ts as [|t ts IH]; intros r G; cbn [fold_left].
  - split; intros; cbn; firstorder.
  - destruct (IH (deltask t r) (deltask_good t r G)) as [A B]. split.
    + intros x. rewrite A, deltask_tasks by auto. cbn. split; [intros [[H K] L]; split; auto; intros y [<-|Y]; auto|intros [H K]; split; [split|]; auto].
    + intros a b. rewrite B, deltask_deps, deltask_tasks by auto. split.
      * intros ((H & K & L) & M & N). split; auto. split; [intros y [<-|Y]; auto|]. intros (I & y & [<-|Y] & E); [apply L; auto|]. apply N. eauto.
      * intros (H & K & L). split; [split; [auto|split; [apply K; now left|]]|split].
        -- intros [E I]. apply L. split; auto. exists t. split; auto. now left.
        -- intros y Y. apply K. now right.
        -- intros [[I _] (y & Y & E)]. apply L. split; auto. exists y. split; auto. now right.
Qed.

(** ** Histories *)
Lemma snoc_split {A} (h : list A) c h1 d h2 : h ++ [c] = h1 ++ d :: h2 -> (h2 = [] /\ h1 = h /\ d = c) \/ (exists k, h2 = k ++ [c] /\ h = h1 ++ d :: k).
Proof.
  intros E. destruct h2 as [|x h2] using rev_ind.
  - left. apply app_inj_tail in E. destruct E as [-> ->]. auto.
  - right. exists h2. clear IHh2. change (d :: h2 ++ [x]) with ((d :: h2) ++ [x]) in E. rewrite app_assoc in E. apply app_inj_tail in E. destruct E as [-> ->]. auto.
Qed.
Lemma is_task_snoc h c t : is_task (h ++ [c]) t <-> creates c t \/ (is_task h t /\ ~ deletes c t).
Proof.
  split.
  - intros (h1 & d & h2 & E & C & N). apply snoc_split in E. destruct E as [(-> & -> & ->)|(k & -> & ->)]; [now left|]. right. split.
    + exists h1, d, k. split; auto. split; auto. intros x X. apply N. apply in_or_app. now left.
    + apply N. apply in_or_app. right. now left.
  - intros [C|[(h1 & d & h2 & -> & C & N) D]].
    + exists h, c, []. split; auto.
    + exists h1, d, (h2 ++ [c]). split; [now rewrite <- app_assoc|]. split; auto. intros x X. apply in_app_iff in X. destruct X as [X|[<-|[]]]; auto.
Qed.
Lemma waits_snoc h c a b : waits (h ++ [c]) a b <-> declares c a b \/ (waits h a b /\ ~ deletes c b /\ (deletes c a -> ~ is_task h b)).
Proof.
  split.
  - intros (h1 & d & h2 & E & C & N & M). apply snoc_split in E. destruct E as [(-> & -> & ->)|(k & -> & ->)]; [now left|]. right. split; [|split].
    + exists h1, d, k. split; auto. split; auto. split; [intros x X; apply N; apply in_or_app; now left|]. intros k1 x k2 -> X. apply (M k1 x (k2 ++ [c])); auto. now rewrite <- app_assoc.
    + apply N. apply in_or_app. right. now left.
    + intros X. now apply (M k c []).
  - intros [C|[(h1 & d & h2 & -> & C & N & M) [D D']]].
    + exists h, c, []. split; auto. split; auto. split; [intros x []|]. intros k1 x k2 E. destruct k1; discriminate.
    + exists h1, d, (h2 ++ [c]). split; [now rewrite <- app_assoc|]. split; auto. split.
      * intros x X. apply in_app_iff in X. destruct X as [X|[<-|[]]]; auto.
      * intros k1 x k2 E X. apply snoc_split in E. destruct E as [(-> & -> & ->)|(k & -> & ->)]; [now apply D'|]. eapply M; eauto.
Qed.
Lemma words_of_in x o : In x (words_of o) <-> word_in x o.
Proof. unfold words_of, word_in. destruct o as [s|]; [split; [eauto|intros (s' & E & I); now injection E as ->]|split; [intros []|intros (s & E & _); discriminate]]. Qed.
Lemma run_snoc h c : run (h ++ [c]) = step (run h) c.
Proof. unfold run. now rewrite fold_left_app. Qed.
Lemma run_good h : good (run h).
Proof.
  induction h as [|c h IH] using rev_ind; [split; [constructor|intros; constructor]|]. rewrite run_snoc. destruct c as [t b a|ts]; cbn [step]; [now apply addtask_good|now apply del_good].
Qed.
Lemma step_tasks r c x : good r -> (In x (r_tasks (step r c)) <-> creates c x \/ (In x (r_tasks r) /\ ~ deletes c x)).
Proof.
  intros G. destruct c as [t b a|ts]; cbn [step].
  - rewrite addtask_tasks. split.
    + intros [H| ->]; [right; split; auto; intros (? & ? & E & _); discriminate|left; exists t, b, a; split; auto; now apply named_iff].
    + intros [(t' & b' & a' & E & N)|[H _]]; auto. injection E as -> -> ->. apply named_iff in N. auto.
  - destruct (del_all (split_ws ts) r G) as [A _]. rewrite A. split.
    + intros [H K]. right. split; auto. intros (ts' & y & E & I & N). injection E as <-. apply named_iff in N. now apply (K y).
    + intros [(t' & b' & a' & E & N)|[H K]]; [discriminate|]. split; auto. intros y Y E. apply K. exists ts, y. split; auto. split; auto. now apply named_iff.
Qed.
Lemma step_deps r c a b : good r -> (In a (r_deps (step r c) b) <-> declares c a b \/ (In a (r_deps r b) /\ ~ deletes c b /\ (deletes c a -> ~ In b (r_tasks r)))).
Proof.
  intros G. destruct c as [t bef aft|ts]; cbn [step].
  - rewrite addtask_deps by auto. split.
    + intros [H|H]; [right; split; auto; split; [|intros X; exfalso; revert X]; intros (? & ? & E & _); discriminate|].
      left. exists t, bef, aft. split; auto. rewrite <- !words_of_in, !named_iff. tauto.
    + intros [(t' & b' & a' & E & H)|[H _]]; auto. injection E as -> -> ->. rewrite <- !words_of_in, !named_iff in H. tauto.
  - destruct (del_all (split_ws ts) r G) as [_ B]. rewrite B. split.
    + intros (H & K & L). right. split; auto. split.
      * intros (ts' & y & E & I & N). injection E as <-. apply named_iff in N. now apply (K y).
      * intros (ts' & y & E & I & N) T. injection E as <-. apply named_iff in N. apply L. eauto.
    + intros [(t' & b' & a' & E & N)|(H & K & L)]; [discriminate|]. split; auto. split.
      * intros y Y E. apply K. exists ts, y. split; auto. split; auto. now apply named_iff.
      * intros (T & y & Y & E). apply L in T; auto. exists ts, y. split; auto. split; auto. now apply named_iff.
Qed.
Lemma run_exact h : (forall t, In t (r_tasks (run h)) <-> is_task h t) /\ forall a b, In a (r_deps (run h) b) <-> waits h a b.
Proof.
  induction h as [|c h [IT ID]] using rev_ind.
  - split; intros; (split; [intros []|]); intros (h1 & c & h2 & E & _); destruct h1; discriminate.
  - rewrite run_snoc. pose proof (run_good h) as G. split.
    + intros t. rewrite step_tasks, is_task_snoc, IT by auto. tauto.
    + intros a b. rewrite step_deps, waits_snoc, ID, IT by auto. tauto.
Qed.

(** ** The line *)
Lemma rsplit_none p s : p <> [] -> (rsplit_at p s = None <-> ~ occurs p s).
Proof.
  intros NE. induction s as [|c s IH]; cbn [rsplit_at].
  - split; auto. intros _ (a & b & E). destruct a; [|discriminate]. destruct p; [congruence|discriminate].
  - destruct (rsplit_at p s) as [[a b]|] eqn:E.
    + split; [discriminate|]. intros N. exfalso. assert (K : ~ occurs p s) by (intros (x & y & ->); apply N; now exists (c :: x), y). apply IH in K. discriminate.
    + assert (K : ~ occurs p s) by now apply IH. destruct (startswith p (c :: s)) eqn:S.
      * split; [discriminate|]. intros N. apply startswith_iff in S. destruct S as [t S]. exfalso. apply N. now exists [], t.
      * split; auto. intros _ (a & b & X). destruct a as [|d a]; [cbn in X; rewrite X, startswith_app in S; discriminate|]. injection X as -> ->. apply K. now exists a, b.
Qed.
Lemma rsplit_last p c q X Y : p = c :: q -> rsplit_at p (q ++ Y) = None -> rsplit_at p (X ++ p ++ Y) = Some (X, p ++ Y).
Proof.
  intros -> N. induction X as [|x X IH]; cbn [app rsplit_at].
  - rewrite N. replace (startswith (c :: q) (c :: q ++ Y)) with true; auto. symmetry. apply startswith_iff. now exists Y.
  - change (c :: q ++ Y) with ((c :: q) ++ Y). rewrite IH. reflexivity.
Qed.
Lemma rsplit_step p c s : rsplit_at p s = None -> startswith p (c :: s) = false -> rsplit_at p (c :: s) = None.
Proof. intros N S. cbn [rsplit_at]. now rewrite N, S. Qed.
Lemma after_none a : ~ occurs (s_ "after") a -> rsplit_at (s_ "after") (s_ "fter " ++ a) = None.
Proof.
  intros N. apply rsplit_none in N; [|discriminate]. change (s_ "fter " ++ a) with ("f"%char :: "t"%char :: "e"%char :: "r"%char :: " "%char :: a).
  repeat (apply rsplit_step; [|reflexivity]). exact N.
Qed.
Lemma before_none a : ~ occurs (s_ "before") a -> rsplit_at (s_ "before") (s_ "efore " ++ a) = None.
Proof.
  intros N. apply rsplit_none in N; [|discriminate]. change (s_ "efore " ++ a) with ("e"%char :: "f"%char :: "o"%char :: "r"%char :: "e"%char :: " "%char :: a).
  repeat (apply rsplit_step; [|reflexivity]). exact N.
Qed.
Lemma after_last X a : ~ occurs (s_ "after") a -> upto (s_ "after") (X ++ s_ "after " ++ a) = (X, s_ "after " ++ a).
Proof. intros N. unfold upto. pose proof (rsplit_last (s_ "after") "a"%char (s_ "fter") X (s_ " " ++ a) eq_refl (after_none a N)) as R. change (s_ "after" ++ s_ " " ++ a) with (s_ "after " ++ a) in R. now rewrite R. Qed.
Lemma before_last X a : ~ occurs (s_ "before") a -> upto (s_ "before") (X ++ s_ "before " ++ a) = (X, s_ "before " ++ a).
Proof. intros N. unfold upto. pose proof (rsplit_last (s_ "before") "b"%char (s_ "efore") X (s_ " " ++ a) eq_refl (before_none a N)) as R. change (s_ "before" ++ s_ " " ++ a) with (s_ "before " ++ a) in R. now rewrite R. Qed.
Lemma upto_none p s : p <> [] -> ~ occurs p s -> upto p s = (s, []).
Proof. intros P N. unfold upto. apply rsplit_none in N; auto. now rewrite N. Qed.
Lemma lstrip_more s c t : is_space c = false -> lstrip (s ++ c :: t) = lstrip s ++ c :: t.
Proof. intros N. induction s as [|d s IH]; cbn [app lstrip]; [now rewrite N|]. destruct (is_space d); auto. Qed.
Lemma split_lstrip s : split_ws (lstrip s) = split_ws s.
Proof. induction s as [|c s IH]; cbn [lstrip]; auto. destruct (is_space c) eqn:E; auto. rewrite IH. symmetry. now apply split_ws_space. Qed.
Lemma split_trail s : split_ws (s ++ s_ " ") = split_ws s.
Proof. change (s_ " ") with [" "%char]. rewrite split_ws_app by reflexivity. cbn. now rewrite app_nil_r. Qed.
Lemma occurs_lstrip p s : occurs p (lstrip s) -> occurs p s.
Proof. destruct (lstrip_spec s) as (w & E & _). intros (a & b & X). exists (w ++ a), b. rewrite E, X. now rewrite <- app_assoc. Qed.

(** one round *)
Lemma clauses_end n b a : clauses n [] b a = (b, a).
Proof. destruct n; reflexivity. Qed.
Lemma clause_before_end n v b a : ~ occurs (s_ "after") v -> clauses (S n) (s_ "before " ++ v) b a = (Some (lstrip v), a).
Proof.
  intros N. cbn [clauses]. replace (startswith (s_ "before") (s_ "before " ++ v)) with true by reflexivity.
  change (lstrip (skipn 6 (s_ "before " ++ v))) with (lstrip v). rewrite upto_none; [|discriminate|intros O; now apply N, occurs_lstrip]. apply clauses_end.
Qed.
Lemma clause_after_end n v b a : ~ occurs (s_ "before") v -> clauses (S n) (s_ "after " ++ v) b a = (b, Some (lstrip v)).
Proof.
  intros N. cbn [clauses]. replace (startswith (s_ "before") (s_ "after " ++ v)) with false by reflexivity. replace (startswith (s_ "after") (s_ "after " ++ v)) with true by reflexivity.
  change (lstrip (skipn 5 (s_ "after " ++ v))) with (lstrip v). rewrite upto_none; [|discriminate|intros O; now apply N, occurs_lstrip]. apply clauses_end.
Qed.
Lemma clause_before n v w b a : ~ occurs (s_ "after") w -> clauses (S n) (s_ "before " ++ v ++ s_ " after " ++ w) b a = clauses n (s_ "after " ++ w) (Some (lstrip (v ++ s_ " "))) a.
Proof.
  intros N. cbn [clauses]. replace (startswith (s_ "before") (s_ "before " ++ v ++ s_ " after " ++ w)) with true by reflexivity.
  change (lstrip (skipn 6 (s_ "before " ++ v ++ s_ " after " ++ w))) with (lstrip (v ++ s_ " after " ++ w)).
  replace (v ++ s_ " after " ++ w) with ((v ++ s_ " ") ++ "a"%char :: (s_ "fter " ++ w)) by (rewrite <- app_assoc; reflexivity).
  rewrite lstrip_more by reflexivity. change ("a"%char :: s_ "fter " ++ w) with (s_ "after " ++ w). now rewrite after_last.
Qed.
Lemma clause_after n v w b a : ~ occurs (s_ "before") w -> clauses (S n) (s_ "after " ++ v ++ s_ " before " ++ w) b a = clauses n (s_ "before " ++ w) b (Some (lstrip (v ++ s_ " "))).
Proof.
  intros N. cbn [clauses]. replace (startswith (s_ "before") (s_ "after " ++ v ++ s_ " before " ++ w)) with false by reflexivity.
  replace (startswith (s_ "after") (s_ "after " ++ v ++ s_ " before " ++ w)) with true by reflexivity.
  change (lstrip (skipn 5 (s_ "after " ++ v ++ s_ " before " ++ w))) with (lstrip (v ++ s_ " before " ++ w)).
  replace (v ++ s_ " before " ++ w) with ((v ++ s_ " ") ++ "b"%char :: (s_ "efore " ++ w)) by (rewrite <- app_assoc; reflexivity).
  rewrite lstrip_more by reflexivity. change ("b"%char :: s_ "efore " ++ w) with (s_ "before " ++ w). now rewrite before_last.
Qed.
Lemma take_word_app t r : Forall (fun c => word_char c = true) t -> (match r with c :: _ => word_char c = false | [] => True end) -> take_word (t ++ r) = (t, r).
Proof.
  intros F R. induction F as [|c t C F IH]; cbn [app take_word]; [|now rewrite C, IH]. destruct r as [|c r]; auto. cbn [take_word]. now rewrite R.
Qed.
Lemma lstrip_all w s : Forall (fun c => is_space c = true) w -> lstrip (w ++ s) = lstrip s.
Proof. induction 1 as [|c w C W IH]; cbn [app lstrip]; auto. now rewrite C. Qed.
Lemma space_not_word c : is_space c = true -> word_char c = false.
Proof. destruct c as [[] [] [] [] [] [] [] []]; vm_compute; auto. Qed.
Lemma match_start w t r : Forall (fun c => is_space c = true) w -> w <> [] -> t <> [] -> Forall (fun c => word_char c = true) t ->
  (match r with c :: _ => word_char c = false | [] => True end) ->
  match_addtask (s_ "addtask" ++ w ++ t ++ r) = (let '(b, a) := clauses (length r) (lstrip r) None None in Some (t, b, a)).
Proof.
  intros W WN TN F R. unfold match_addtask. rewrite startswith_app. change (skipn 7 (s_ "addtask" ++ w ++ t ++ r)) with (w ++ t ++ r).
  rewrite lstrip_all by auto. assert (L : lstrip (t ++ r) = t ++ r).
  { destruct t as [|c t]; [congruence|]. cbn [app]. apply lstrip_nospace. inversion F as [|? ? C ?]; subst. destruct (is_space c) eqn:E; auto. apply space_not_word in E. congruence. }
  rewrite L. destruct (Nat.eqb (length (t ++ r)) (length (w ++ t ++ r))) eqn:E.
  - apply Nat.eqb_eq in E. rewrite (app_length w) in E. destruct w; [congruence|cbn in E; lia].
  - rewrite take_word_app by auto. destruct t as [|c t]; [congruence|reflexivity].
Qed.
Lemma clauses_start w s : Forall (fun c => is_space c = true) w -> (match s with c :: _ => is_space c = false | [] => True end) -> lstrip (w ++ s) = s.
Proof. intros W S. rewrite lstrip_all by auto. destruct s as [|c s]; auto. now apply lstrip_nospace. Qed.
Lemma word_end w s : Forall (fun c => is_space c = true) w -> w <> [] -> match w ++ s with c :: _ => word_char c = false | [] => True end.
Proof. intros W N. destruct W as [|c w C W]; [congruence|]. cbn [app]. now apply space_not_word. Qed.

(** ** Between two tasks *)
Section Between.
  Variable tasks : list str.
  Variable deps : str -> list str.
  Variable e : str.
  Notation nxt := (next tasks deps e).
  Notation pth := (path tasks deps e).
  Notation circ := (circular tasks deps e).
  Lemma path_trans x y z : pth x y -> pth y z -> pth x z.
  Proof. induction 1; auto. intros. eapply path_next; eauto. Qed.
  Lemma path_from_end x : pth e x -> x = e.
  Proof. intros P. inversion P as [|? y ? (N & _)]; subst; auto. congruence. Qed.
  Lemma not_circular_end : ~ circ e.
  Proof. intros (y & (N & _) & _). congruence. Qed.

  Definition body n task chain := fun acc other =>
    match acc with
    | Done out =>
        if seqb other task then acc
        else if seqb task e then Done (fold_left add_new chain out)
        else if mem_str task (deps other) then follow tasks deps e n other chain out else acc
    | _ => acc
    end.
  Lemma body_stuck n task chain l r : (forall out, r <> Done out) -> fold_left (body n task chain) l r = r.
  Proof. intros N. induction l as [|x l IH]; cbn [fold_left]; auto. rewrite <- IH at 2. f_equal. destruct r; auto. exfalso. eapply N; reflexivity. Qed.
  Lemma follow_eq n task chain out : follow tasks deps e (S n) task chain out = (if mem_str task chain then Fatal else fold_left (body n task (chain ++ [task])) tasks (Done out)).
  Proof. reflexivity. Qed.

  (** what a completed search says *)
  Definition sound_done task chain out out' : Prop :=
    (forall x, In x out' <-> In x out \/ (pth task e /\ (In x chain \/ (pth task x /\ pth x e)))) /\
    (forall y, pth task y -> ~ circ y /\ ~ In y chain) /\ (NoDup out -> NoDup out').
  Definition sound task chain out (r : result) : Prop :=
    match r with
    | Fuel => True
    | Fatal => exists y, pth task y /\ (circ y \/ In y chain)
    | Done out' => sound_done task chain out out'
    end.
  Hypothesis other : exists o, In o tasks /\ o <> e.

  Lemma body_end n chain l : forall out, exists out', fold_left (body n e chain) l (Done out) = Done out' /\
    (forall x, In x out' <-> In x out \/ ((exists o, In o l /\ o <> e) /\ In x chain)) /\ (NoDup out -> NoDup out').
  Proof.
    induction l as [|o l IH]; intros out; cbn [fold_left].
    - exists out. split; auto. split; auto. intros x. split; auto. intros [H|[(o & [] & _) _]]; auto.
    - cbn [body]. destruct (seqb o e) eqn:E.
      + apply seqb_eq in E. subst o. destruct (IH out) as (out' & R & X & Y). exists out'. split; auto. split; auto. intros x. rewrite X. split; (intros [H|[(o & I & N) C]]; [now left|right; split; auto; exists o; split; auto]); [now right|]. destruct I as [<-|I]; [congruence|auto].
      + apply seqb_neq in E. rewrite seqb_refl. destruct (IH (fold_left add_new chain out)) as (out' & R & X & Y). exists out'. split; auto. split; [|intros M; apply Y; now apply add_all_nodup].
        intros x. rewrite X, add_all_in. split.
        * intros [[H|H]|[_ H]]; auto; right; (split; [exists o; split; [now left|auto]|auto]).
        * intros [H|[_ H]]; auto.
  Qed.
  Lemma body_mid n task chain l : task <> e -> (forall other out, In other l -> sound other chain out (follow tasks deps e n other chain out)) -> incl l tasks -> forall out,
    match fold_left (body n task chain) l (Done out) with
    | Fuel => True
    | Fatal => exists y z, In y l /\ nxt task y /\ pth y z /\ (circ z \/ In z chain)
    | Done out' =>
        (forall x, In x out' <-> In x out \/ exists y, In y l /\ nxt task y /\ pth y e /\ (In x chain \/ (pth y x /\ pth x e))) /\
        (forall y z, In y l -> nxt task y -> pth y z -> ~ circ z /\ ~ In z chain) /\ (NoDup out -> NoDup out')
    end.
  Proof.
    intros T S I. induction l as [|o l IH]; intros out; cbn [fold_left].
    - split; [|split; auto; intros ? ? []]. intros x. split; auto. intros [H|(y & [] & _)]; auto.
    - assert (S' : forall other out, In other l -> sound other chain out (follow tasks deps e n other chain out)) by (intros; apply S; now right).
      assert (I' : incl l tasks) by (intros x X; apply I; now right). specialize (IH S' I').
      assert (OT : In o tasks) by (apply I; now left).
      assert (skip : ~ nxt task o -> fold_left (body n task chain) (o :: l) (Done out) = fold_left (body n task chain) l (Done out) -> 
        match fold_left (body n task chain) l (Done out) with
        | Fuel => True
        | Fatal => exists y z, In y (o :: l) /\ nxt task y /\ pth y z /\ (circ z \/ In z chain)
        | Done out' =>
            (forall x, In x out' <-> In x out \/ exists y, In y (o :: l) /\ nxt task y /\ pth y e /\ (In x chain \/ (pth y x /\ pth x e))) /\
            (forall y z, In y (o :: l) -> nxt task y -> pth y z -> ~ circ z /\ ~ In z chain) /\ (NoDup out -> NoDup out')
        end).
      { intros NX _. specialize (IH out). destruct (fold_left (body n task chain) l (Done out)) as [| |out'].
        - destruct IH as (y & z & Y & Z). exists y, z. split; auto. now right.
        - auto.
        - destruct IH as (A & B & C). split; [|split; auto].
          + intros x. rewrite A. split; (intros [H|(y & Y & N & R)]; [now left|right; exists y]); [split; auto; now right|]. destruct Y as [<-|Y]; [contradiction|auto].
          + intros y z [<-|Y] N; [contradiction|]. now apply B. }
      unfold body at 2. destruct (seqb o task) eqn:E1; [|destruct (seqb task e) eqn:E2; [apply seqb_eq in E2; congruence|destruct (mem_str task (deps o)) eqn:E3]].
      + apply seqb_eq in E1. apply skip; [intros (_ & _ & N & _); congruence|]. cbn [fold_left body]. subst o. now rewrite seqb_refl.
      + assert (NX : nxt task o) by (split; auto; split; auto; split; [now apply seqb_neq|now apply mem_str_In]).
        pose proof (S o out (or_introl eq_refl)) as SO. destruct (follow tasks deps e n o chain out) as [| |out1]; cbn [sound] in SO.
        * rewrite body_stuck by discriminate. destruct SO as (y & P & C). exists o, y. split; [now left|auto].
        * rewrite body_stuck by discriminate. exact Logic.I.
        * destruct SO as (A1 & B1 & C1). specialize (IH out1). destruct (fold_left (body n task chain) l (Done out1)) as [| |out'].
          -- destruct IH as (y & z & Y & Z). exists y, z. split; auto. now right.
          -- auto.
          -- destruct IH as (A & B & C). split; [|split; auto].
             ++ intros x. rewrite A, A1. split.
                ** intros [[H|[P R]]|(y & Y & N & R)]; [now left|right; exists o; split; [now left|auto]|right; exists y; split; [now right|auto]].
                ** intros [H|(y & [<-|Y] & N & P & R)]; [auto|left; right; auto|right; exists y; auto].
             ++ intros y z [<-|Y] N P; [now apply B1|now apply (B y)].
      + apply skip; [intros (_ & _ & _ & N); apply mem_str_false in E3; contradiction|]. cbn [fold_left body]. now rewrite E1, E2, E3.
  Qed.
  Lemma follow_sound n : forall task chain out, sound task chain out (follow tasks deps e n task chain out).
  Proof.
    induction n as [|n IH]; intros task chain out; [exact I|]. rewrite follow_eq. destruct (mem_str task chain) eqn:E.
    - apply mem_str_In in E. exists task. split; [constructor|auto].
    - apply mem_str_false in E. destruct (str_eq_dec task e) as [->|T].
      + destruct (body_end n (chain ++ [e]) tasks out) as (out' & R & A & B). rewrite R. cbn [sound]. split; [|split; auto].
        * intros x. rewrite A, in_app_iff. cbn [In]. split.
          -- intros [H|[_ [C|[<-|[]]]]]; auto; right; (split; [constructor|]); [now left|right; split; constructor].
          -- intros [H|[_ [C|[P _]]]]; auto. apply path_from_end in P. subst x. auto.
        * intros y P. apply path_from_end in P. subst y. split; auto. apply not_circular_end.
      + pose proof (body_mid n task (chain ++ [task]) tasks T (fun o out _ => IH o (chain ++ [task]) out) (incl_refl _) out) as M.
        destruct (fold_left (body n task (chain ++ [task])) tasks (Done out)) as [| |out']; cbn [sound].
        * destruct M as (y & z & _ & N & P & [C|C]).
          -- exists z. split; [eapply path_next; eauto|auto].
          -- apply in_app_iff in C. destruct C as [C|[<-|[]]]; [exists z; split; [eapply path_next; eauto|auto]|]. exists task. split; [constructor|]. left. exists y. auto.
        * auto.
        * destruct M as (A & B & C). split; [|split; auto].
          -- intros x. rewrite A. split.
             ++ intros [H|(y & _ & N & P & R)]; [now left|]. right. split; [eapply path_next; eauto|]. rewrite in_app_iff in R. destruct R as [[R|[<-|[]]]|[R1 R2]]; [now left|right; split; [constructor|eapply path_next; eauto]|right; split; auto; eapply path_next; eauto].
             ++ intros [H|[P R]]; [now left|]. right. inversion P as [|? y ? N Q]; subst; [congruence|]. destruct R as [R|[R1 R2]].
                ** exists y. split; [apply N|]. split; auto. split; auto. left. apply in_or_app. now left.
                ** inversion R1 as [|? y' ? N' Q']; subst.
                   --- exists y. split; [apply N|]. split; auto. split; auto. left. apply in_or_app. right. now left.
                   --- exists y'. split; [apply N'|]. split; auto. split; [eapply path_trans; eauto|auto].
          -- intros y P. inversion P as [|? z ? N Q]; subst.
             ++ split; auto. intros (z & N & Q). destruct (B z y) as [_ X]; auto; [apply N|]. apply X. apply in_or_app. right. now left.
             ++ destruct (B z y) as [X Y]; auto; [apply N|]. split; auto. intros C'. apply Y. apply in_or_app. now left.
  Qed.
  Lemma follow_fuel st n : forall task chain out, NoDup chain -> incl chain (st :: tasks) -> In task (st :: tasks) -> n + length chain = S (S (length tasks)) ->
    follow tasks deps e n task chain out <> Fuel.
  Proof.
    induction n as [|n IH]; intros task chain out N I T L.
    - exfalso. apply NoDup_incl_length in I; auto. cbn in I. lia.
    - rewrite follow_eq. destruct (mem_str task chain) eqn:E; [discriminate|]. apply mem_str_false in E.
      assert (N' : NoDup (chain ++ [task])) by (rewrite <- (rev_involutive (chain ++ [task])); apply NoDup_rev; rewrite rev_app_distr; constructor; [now rewrite <- in_rev|now apply NoDup_rev]).
      assert (I' : incl (chain ++ [task]) (st :: tasks)) by (intros x X; apply in_app_iff in X; destruct X as [X|[<-|[]]]; auto).
      assert (L' : n + length (chain ++ [task]) = S (S (length tasks))) by (rewrite app_length; cbn; lia).
      assert (K : forall l r, incl l tasks -> r <> Fuel -> fold_left (body n task (chain ++ [task])) l r <> Fuel).
      { induction l as [|o l IHl]; intros r IL R; cbn [fold_left]; auto. apply IHl; [intros x X; apply IL; now right|]. destruct r as [| |out0]; cbn [body]; auto; try congruence.
        destruct (seqb o task); [congruence|]. destruct (seqb task e); [congruence|]. destruct (mem_str task (deps o)); [|congruence]. apply IH; auto. right. apply IL. now left. }
      apply K; [apply incl_refl|discriminate].
  Qed.
End Between.
