From Coq Require Import Ascii String List Bool Arith Lia Permutation.
From Verif Require Import Str_Model Str_Proofs Sstname_Model Sstname_Proofs Sstfind_Model Sstfind_Spec.
Import ListNotations.
Open Scope list_scope.

Lemma nodup_app {A} (l r : list A) : NoDup l -> NoDup r -> (forall x, In x l -> ~ In x r) -> NoDup (l ++ r).
Proof.
  induction l as [|x l IH]; intros L R D; [exact R|]. apply NoDup_cons_iff in L. destruct L as [L1 L2]. cbn. constructor.
  - intros I. apply in_app_or in I. destruct I as [I|I]; [contradiction|]. exact (D x (or_introl eq_refl) I).
  - apply IH; auto. intros y I. apply D. now right.
Qed.
Lemma nodup_split {A} (l r : list A) : NoDup (l ++ r) -> NoDup l /\ NoDup r.
Proof.
  induction l as [|x l IH]; intros H; [split; [constructor|exact H]|]. cbn in H. apply NoDup_cons_iff in H. destruct H as [A1 A2]. destruct (IH A2) as [L R]. split; [|exact R].
  constructor; [|exact L]. intros I. apply A1, in_or_app. now left.
Qed.
(** ** Names *)
Lemma short_task_form (fn t : str) : ~ In ":"%char t -> short_task (fn ++ s_ ":do_" ++ t) = Some t.
Proof.
  intros N. unfold short_task. assert (L : last (split_on ":" (fn ++ s_ ":do_" ++ t)) [] = s_ "do_" ++ t).
  { change (s_ ":do_" ++ t) with (":"%char :: (s_ "do_" ++ t)). apply split_on_last. apply no_char_In. intros [Q|[Q|[Q|Q]]]; try discriminate. exact (N Q). }
  assert (G : 2 <= length (split_on ":" (fn ++ s_ ":do_" ++ t))).
  { clear. change (s_ ":do_" ++ t) with (":"%char :: (s_ "do_" ++ t)). unfold split_on. generalize (@nil ascii). induction fn as [|c fn IH]; intros cur.
    - cbn [app split_aux]. change (aeqb ":" ":") with true. cbn [length]. assert (X : forall s a, 1 <= length (split_aux ":" a s)) by (induction s as [|y s IHs]; intros a; cbn [split_aux]; [cbn; lia|destruct (aeqb y ":"); cbn [length]; [lia|apply IHs]]). specialize (X (s_ "do_" ++ t) []). lia.
    - cbn [app split_aux]. destruct (aeqb c ":"); cbn [length]; [specialize (IH []); lia|apply IH]. }
  destruct (split_on ":" (fn ++ s_ ":do_" ++ t)) as [|a l] eqn:E; [cbn in G; lia|].
  destruct (exists_last (l := a :: l)) as (l' & x & E'); [discriminate|]. rewrite E' in *. rewrite last_last in L. subst x. rewrite rev_app_distr. cbn [rev app].
  rewrite app_length in G. cbn [length] in G. destruct (rev l') as [|y r] eqn:R.
  - apply (f_equal (@length _)) in R. rewrite rev_length in R. cbn in R. lia.
  - reflexivity.
Qed.
Lemma hashfn_split (a b c : str) : no_blank a -> no_blank b -> no_blank c -> split_on " " (a ++ s_ " " ++ b ++ s_ " " ++ c) = [a; b; c].
Proof.
  intros A B C. change (s_ " " ++ c) with (" "%char :: c). change (s_ " " ++ b ++ " "%char :: c) with (" "%char :: (b ++ " "%char :: c)).
  assert (S : forall x, split_on " " (a ++ " "%char :: x) = a :: split_on " " x) by (intros x; apply split_on_cons; apply no_char_In; exact A).
  rewrite S. rewrite split_on_cons by (apply no_char_In; exact B). rewrite split_on_single by (apply no_char_In; exact C). reflexivity.
Qed.

(** ** The local directory *)
Lemma local_scan_spec lsb dir sq sg ex ts : forall found missed f m, local_scan lsb dir sq sg ex ts found missed = Some (f, m) ->
  (forall t, In t ts -> exists n, file_of lsb sq sg t = Some n) /\
  exists f' m', f = f' ++ found /\ m = m' ++ missed /\ Permutation (f' ++ m') ts /\
    (forall t, In t f' -> exists n, file_of lsb sq sg t = Some n /\ ex (dir ++ s_ "/" ++ n) = true) /\
    (forall t, In t m' -> exists n, file_of lsb sq sg t = Some n /\ ex (dir ++ s_ "/" ++ n) = false).
Proof.
  induction ts as [|t ts IH]; intros found missed f m H; cbn [local_scan] in H.
  - injection H as <- <-. split; [intros t []|]. exists [], []. cbn. split; [auto|]. split; [auto|]. split; [auto|]. split; intros t [].
  - destruct (file_of lsb sq sg t) as [n|] eqn:E; [|discriminate]. destruct (ex (dir ++ s_ "/" ++ n)) eqn:X.
    + apply IH in H. destruct H as (A & f' & m' & -> & -> & P & F & M). split; [intros t' [<-|I]; eauto|]. exists (f' ++ [t]), m'.
      rewrite <- app_assoc. split; [auto|]. split; [auto|]. split; [rewrite <- app_assoc; cbn [app]; symmetry; apply Permutation_cons_app; symmetry; exact P|]. split; [|exact M].
      intros t' I. apply in_app_or in I. destruct I as [I|[<-|[]]]; eauto.
    + apply IH in H. destruct H as (A & f' & m' & -> & -> & P & F & M). split; [intros t' [<-|I]; eauto|]. exists f', (m' ++ [t]).
      rewrite <- app_assoc. split; [auto|]. split; [auto|]. split; [rewrite app_assoc; rewrite Permutation_app_comm; cbn [app]; now constructor|]. split; [exact F|].
      intros t' I. apply in_app_or in I. destruct I as [I|[<-|[]]]; eauto.
Qed.
Lemma local_scan_none lsb dir sq sg ex ts : forall found missed, local_scan lsb dir sq sg ex ts found missed = None <-> exists t, In t ts /\ file_of lsb sq sg t = None.
Proof.
  induction ts as [|t ts IH]; intros found missed; cbn [local_scan].
  - split; [discriminate|intros (t & [] & _)].
  - destruct (file_of lsb sq sg t) as [n|] eqn:E.
    + assert (Q : (exists t0, In t0 ts /\ file_of lsb sq sg t0 = None) <-> (exists t0, In t0 (t :: ts) /\ file_of lsb sq sg t0 = None)).
      { split; intros (t0 & I & N); exists t0; [split; [now right|exact N]|]. destruct I as [<-|I]; [congruence|auto]. }
      destruct (ex _); rewrite IH; exact Q.
    + split; [intros _; exists t; split; [now left|exact E]|reflexivity].
Qed.
Lemma all_some_files (g : str -> option str) ts : (forall t, In t ts -> exists n, g t = Some n) ->
  exists fl, all_some (map (fun t => match g t with Some f => Some (t, f) | None => None end) ts) = Some fl /\ map fst fl = ts /\ forall t f, In (t, f) fl -> g t = Some f.
Proof.
  induction ts as [|t ts IH]; intros H; [exists []; cbn; split; [auto|split; [auto|intros t f []]]|].
  destruct (H t (or_introl eq_refl)) as [n E]. destruct IH as (fl & A & B & C); [intros; apply H; now right|]. exists ((t, n) :: fl). cbn [map all_some]. rewrite E, A. split; [auto|]. split; [cbn; now rewrite B|].
  intros t' f' [Q|I]; [injection Q as <- <-; exact E|now apply C].
Qed.

(** ** The pool *)
Lemma nth_set {A} (l : list A) : forall i w, nth_error l i = Some w -> exists a b, l = a ++ w :: b /\ forall w', set_nth i w' l = a ++ w' :: b.
Proof.
  induction l as [|x l IH]; intros [|i] w H; cbn in H; try discriminate.
  - injection H as ->. exists [], l. split; reflexivity.
  - destruct (IH i w H) as (a & b & E & S). exists (x :: a), b. split; [cbn; now rewrite <- E|]. intros w'. cbn. now rewrite S.
Qed.
Definition checking (w : worker) : list (str * str) := match w with Checking t f => [(t, f)] | _ => [] end.
Definition adding (w : worker) : list str := match w with Adding t => [t] | _ => [] end.
Record pool_inv (check : str -> outcome) (files : list (str * str)) (found0 missed0 : list str) (p : pool) (ok bad : list (str * str)) : Prop := {
  i_files : Permutation files (p_queue p ++ flat_map checking (p_workers p) ++ ok ++ bad);
  i_ok : forall x, In x ok -> check (snd x) = Present;
  i_bad : forall x, In x bad -> check (snd x) <> Present;
  i_found : p_found p = map fst ok ++ found0;
  i_missed : forall t, In t (p_missed p) -> In t missed0 /\ (In t (map fst ok) -> In t (flat_map adding (p_workers p)));
  i_adding : forall t, In t (flat_map adding (p_workers p)) -> In t (map fst ok);
  i_kept : forall t, In t missed0 -> ~ In t (map fst ok) -> In t (p_missed p);
  i_nodup : NoDup missed0 -> NoDup (p_missed p)
}.
Lemma set_remove_In x l y : In y (set_remove x l) <-> In y l /\ y <> x.
Proof.
  unfold set_remove. rewrite filter_In, negb_true_iff. split; intros [A B]; (split; [exact A|]).
  - intros ->. rewrite seqb_refl in B. discriminate.
  - apply seqb_neq. congruence.
Qed.
Lemma pm1 {A} (x : A) q a b o : Permutation (q ++ (a ++ x :: b) ++ o) (q ++ (a ++ b) ++ x :: o).
Proof. apply Permutation_app_head. rewrite <- !app_assoc. apply Permutation_app_head. cbn [app]. apply Permutation_middle. Qed.
Lemma pm2 {A} (x : A) q a b o : Permutation ((x :: q) ++ (a ++ b) ++ o) (q ++ (a ++ x :: b) ++ o).
Proof. rewrite pm1. cbn [app]. rewrite !(app_assoc q). apply Permutation_middle. Qed.
Lemma pm3 {A} (x : A) q a b o r : Permutation (q ++ (a ++ x :: b) ++ o ++ r) (q ++ (a ++ b) ++ o ++ x :: r).
Proof. rewrite pm1. do 2 apply Permutation_app_head. apply Permutation_middle. Qed.
Lemma pool_step_inv check files f0 m0 p ok bad i : pool_inv check files f0 m0 p ok bad -> exists ok' bad', pool_inv check files f0 m0 (pool_step check p i) ok' bad'.
Proof.
  intros [IF IO IB IFo IM IA IK IN]. unfold pool_step. destruct (nth_error (p_workers p) i) as [w|] eqn:E; [|exists ok, bad; now constructor].
  destruct (nth_set _ _ _ E) as (a & b & EW & S). rewrite EW, flat_map_app in IF. cbn [flat_map] in IF.
  assert (AD : forall w', flat_map adding (a ++ w' :: b) = flat_map adding a ++ adding w' ++ flat_map adding b) by (intros; rewrite flat_map_app; reflexivity).
  assert (CH : forall w', flat_map checking (a ++ w' :: b) = flat_map checking a ++ checking w' ++ flat_map checking b) by (intros; rewrite flat_map_app; reflexivity).
  rewrite EW, AD in IM, IA.
  destruct w as [|t f|t|].
  - destruct (p_queue p) as [|[t f] q] eqn:Q.
    + exists ok, bad. constructor; cbn [p_queue p_workers p_found p_missed]; auto.
      * rewrite S, CH. exact IF.
      * intros t I. rewrite S, AD. apply (IM t I).
      * intros t I. rewrite S, AD in I. exact (IA t I).
    + exists ok, bad. constructor; cbn [p_queue p_workers p_found p_missed]; auto.
      * rewrite S, CH. cbn [checking app] in *. rewrite IF. apply pm2.
      * intros t' I. rewrite S, AD. apply (IM t' I).
      * intros t' I. rewrite S, AD in I. exact (IA t' I).
  - destruct (check f) eqn:C.
    + exists ((t, f) :: ok), bad. constructor; cbn [p_queue p_workers p_found p_missed]; auto.
      * rewrite S, CH. cbn [checking app] in *. rewrite IF. apply pm1.
      * intros x [<-|I]; [exact C|auto].
      * now rewrite IFo.
      * intros t' I. rewrite S, AD. destruct (IM t' I) as [A B]. split; [exact A|]. intros [<-|I']; [apply in_or_app; right; apply in_or_app; left; now left|]. specialize (B I').
        cbn [adding app] in B. apply in_app_or in B. apply in_or_app. destruct B as [B|B]; [now left|]. right. apply in_or_app. now right.
      * intros t' I. rewrite S, AD in I. cbn [adding app map fst] in *. apply in_app_or in I. destruct I as [I|[I|I]]; [right; apply IA, in_or_app; now left|now left|right; apply IA, in_or_app; now right].
      * intros t' I N. apply IK; auto. intros I'. apply N. now right.
    + exists ok, ((t, f) :: bad). constructor; cbn [p_queue p_workers p_found p_missed]; auto.
      * rewrite S, CH. cbn [checking app] in *. rewrite IF. apply pm3.
      * intros x [<-|I]; [cbn; congruence|auto].
      * intros t' I. rewrite S, AD. apply (IM t' I).
      * intros t' I. rewrite S, AD in I. exact (IA t' I).
    + exists ok, ((t, f) :: bad). constructor; cbn [p_queue p_workers p_found p_missed]; auto.
      * rewrite S, CH. cbn [checking app] in *. rewrite IF. apply pm3.
      * intros x [<-|I]; [cbn; congruence|auto].
      * intros t' I. rewrite S, AD. apply (IM t' I).
      * intros t' I. rewrite S, AD in I. exact (IA t' I).
  - exists ok, bad. constructor; cbn [p_queue p_workers p_found p_missed]; auto.
    + rewrite S, CH. exact IF.
    + intros t' I. apply set_remove_In in I. destruct I as [I NE]. destruct (IM t' I) as [A B]. split; [exact A|]. intros I'. specialize (B I'). rewrite S, AD. cbn [adding app] in *.
      apply in_app_or in B. apply in_or_app. destruct B as [B|[B|B]]; [now left|congruence|now right].
    + intros t' I. rewrite S, AD in I. apply IA. cbn [adding app] in *. apply in_app_or in I. apply in_or_app. destruct I as [I|I]; [now left|right; now right].
    + intros t' I N. apply set_remove_In. split; [auto|]. intros ->. apply N, IA. apply in_or_app. right. now left.
    + intros N. apply NoDup_filter. auto.
  - exists ok, bad. constructor; auto.
    + rewrite EW, CH. exact IF.
    + intros t I. rewrite EW, AD. exact (IM t I).
    + intros t I. rewrite EW, AD in I. exact (IA t I).
Qed.
Lemma run_inv check files f0 m0 sched : forall p ok bad, pool_inv check files f0 m0 p ok bad -> exists ok' bad', pool_inv check files f0 m0 (run_pool check sched p) ok' bad'.
Proof. induction sched as [|i sched IH]; intros p ok bad H; [exists ok, bad; exact H|]. cbn. destruct (pool_step_inv _ _ _ _ _ _ _ i H) as (ok' & bad' & H'). exact (IH _ _ _ H'). Qed.
Lemma repeat_none {B} (g : worker -> list B) n : g Waiting = [] -> flat_map g (repeat Waiting n) = [].
Proof. intros E. induction n; cbn; [auto|]. now rewrite E. Qed.
Lemma start_inv check files n f0 m0 : pool_inv check files f0 m0 (start_pool files n f0 m0) [] [].
Proof.
  constructor; cbn [start_pool p_queue p_workers p_found p_missed]; auto; try (rewrite !repeat_none by auto).
  - cbn. now rewrite !app_nil_r.
  - intros x [].
  - intros t I. split; [exact I|intros []].
  - intros t [].
Qed.
Lemma completed_spec p : completed p = true -> p_queue p = [] /\ flat_map checking (p_workers p) = [] /\ flat_map adding (p_workers p) = [].
Proof.
  unfold completed. destruct (p_queue p); [|discriminate]. intros H. split; [auto|]. induction (p_workers p) as [|w l IH]; [auto|]. cbn in H. destruct w; try discriminate. apply IH. exact H.
Qed.
Lemma pool_result check files n f0 m0 sched : NoDup (map fst files) -> (forall x, In x f0 -> ~ In x (map fst files)) ->
  let p := run_pool check sched (start_pool files n f0 m0) in completed p = true ->
  (forall t, In t (p_found p) <-> In t f0 \/ exists f, In (t, f) files /\ check f = Present) /\
  (forall t, In t (p_missed p) <-> In t m0 /\ ~ exists f, In (t, f) files /\ check f = Present) /\
  (NoDup f0 -> NoDup (p_found p)) /\ (NoDup m0 -> NoDup (p_missed p)).
Proof.
  intros ND DJ p C. destruct (run_inv check files f0 m0 sched _ _ _ (start_inv check files n f0 m0)) as (ok & bad & [IF IO IB IFo IM IA IK IN]).
  fold p in IF, IFo, IM, IA, IK, IN. destruct (completed_spec p C) as (Q & CH & AD). rewrite Q, CH in IF. cbn [app] in IF.
  assert (K : forall t, In t (map fst ok) <-> exists f, In (t, f) files /\ check f = Present).
  { intros t. split.
    - intros I. apply in_map_iff in I. destruct I as ([t' f] & <- & I). exists f. split; [|apply (IO _ I)]. rewrite IF. apply in_or_app. now left.
    - intros (f & I & P). rewrite IF in I. apply in_app_or in I. destruct I as [I|I]; [apply in_map_iff; exists (t, f); auto|]. exfalso. exact (IB _ I P). }
  split; [|split; [|split]].
  - intros t. rewrite IFo, in_app_iff, K. tauto.
  - intros t. rewrite <- K. split.
    + intros I. destruct (IM t I) as [A B]. split; [exact A|]. intros I'. specialize (B I'). rewrite AD in B. exact B.
    + intros [A B]. now apply IK.
  - intros N. rewrite IFo. apply nodup_app; [|exact N|].
    + rewrite IF, map_app in ND. now apply nodup_split in ND.
    + intros t I I'. apply (DJ t I'). rewrite IF, map_app. apply in_or_app. now left.
  - exact IN.
Qed.

(** ** The pool ends *)
Definition work (w : worker) : nat := match w with Waiting => 1 | Checking _ _ => 3 | Adding _ => 2 | Gone => 0 end.
Definition left_over (p : pool) : nat := 3 * length (p_queue p) + list_sum (map work (p_workers p)).
Lemma step_less check p i : pool_step check p i <> p -> left_over (pool_step check p i) < left_over p.
Proof.
  unfold pool_step, left_over. destruct (nth_error (p_workers p) i) as [w|] eqn:E; [|congruence]. destruct (nth_set _ _ _ E) as (a & b & EW & S).
  assert (L : forall w', list_sum (map work (set_nth i w' (p_workers p))) + work w = list_sum (map work (p_workers p)) + work w').
  { intros w'. rewrite S, EW, !map_app, !list_sum_app. cbn [map list_sum fold_right]. unfold list_sum. cbn [fold_right]. lia. }
  destruct w as [|t f|t|]; [| | |congruence].
  - destruct (p_queue p) as [|[t f] q]; cbn [p_queue p_workers length].
    + specialize (L Gone). cbn [work] in L. lia.
    + specialize (L (Checking t f)). cbn [work] in L. lia.
  - destruct (check f); cbn [p_queue p_workers]; [specialize (L (Adding t))|specialize (L Waiting)|specialize (L Waiting)]; cbn [work] in L; lia.
  - cbn [p_queue p_workers]. specialize (L Waiting). cbn [work] in L. lia.
Qed.
Definition gone_inv (p : pool) : Prop := In Gone (p_workers p) -> p_queue p = [].
Lemma step_gone check p i : gone_inv p -> gone_inv (pool_step check p i).
Proof.
  unfold gone_inv, pool_step. intros H. destruct (nth_error (p_workers p) i) as [w|] eqn:E; [|exact H]. destruct (nth_set _ _ _ E) as (a & b & EW & S).
  assert (L : forall w', w' <> Gone -> In Gone (set_nth i w' (p_workers p)) -> In Gone (p_workers p)).
  { intros w' N I. rewrite S in I. rewrite EW. apply in_app_or in I. apply in_or_app. destruct I as [I|[I|I]]; [now left|congruence|right; now right]. }
  destruct w as [|t f|t|]; [| | |exact H].
  - destruct (p_queue p) as [|[t f] q]; cbn [p_queue p_workers]; [auto|]. intros I. apply L in I; [|discriminate]. specialize (H I). discriminate.
  - destruct (check f); cbn [p_queue p_workers]; intros I; (apply L in I; [auto|discriminate]).
  - cbn [p_queue p_workers]. intros I. apply L in I; [auto|discriminate].
Qed.
Lemma step_count check p i : length (p_workers (pool_step check p i)) = length (p_workers p).
Proof.
  unfold pool_step. destruct (nth_error (p_workers p) i) as [w|] eqn:E; [|auto]. destruct (nth_set _ _ _ E) as (a & b & EW & S).
  assert (L : forall w', length (set_nth i w' (p_workers p)) = length (p_workers p)) by (intros; rewrite S, EW, !app_length; reflexivity).
  destruct w; auto; [destruct (p_queue p) as [|[t f] q]; apply L|destruct (check file); apply L|apply L].
Qed.
Lemma run_gone check sched : forall p, gone_inv p -> gone_inv (run_pool check sched p) /\ length (p_workers (run_pool check sched p)) = length (p_workers p).
Proof.
  induction sched as [|i sched IH]; intros p H; [split; auto|]. cbn. destruct (IH (pool_step check p i) (step_gone check p i H)) as [A B]. split; [exact A|]. unfold run_pool in B. rewrite B. apply step_count.
Qed.
Lemma start_gone files n f0 m0 : gone_inv (start_pool files n f0 m0).
Proof. intros I. cbn in I. apply repeat_spec in I. discriminate. Qed.
Lemma step_enabled check p : gone_inv p -> p_workers p <> [] -> completed p = false -> exists i, pool_step check p i <> p.
Proof.
  intros G W C. assert (X : exists w i, nth_error (p_workers p) i = Some w /\ w <> Gone).
  { destruct (p_queue p) as [|x q] eqn:Q.
    - unfold completed in C. rewrite Q in C. clear W G Q. induction (p_workers p) as [|w l IH]; [discriminate|]. destruct w; cbn in C; try (eexists; exists 0; split; [reflexivity|discriminate]).
      destruct (IH C) as (w & i & A & B). exists w, (S i). auto.
    - destruct (p_workers p) as [|w l] eqn:E; [contradiction|]. exists w, 0. split; [reflexivity|]. intros ->. unfold gone_inv in G. rewrite E, Q in G. specialize (G (or_introl eq_refl)). discriminate. }
  destruct X as (w & i & E & N). exists i. intros F. unfold pool_step in F. rewrite E in F. destruct (nth_set _ _ _ E) as (a & b & EW & S).
  assert (K : forall w', set_nth i w' (p_workers p) = p_workers p -> w' = w) by (intros w' Q; rewrite S, EW in Q; apply app_inv_head in Q; now injection Q).
  destruct w as [|t f|t|]; [| | |contradiction].
  - destruct (p_queue p) as [|[t f] q]; apply (f_equal p_workers) in F; cbn [p_workers] in F; apply K in F; discriminate.
  - destruct (check f); apply (f_equal p_workers) in F; cbn [p_workers] in F; apply K in F; discriminate.
  - apply (f_equal p_workers) in F; cbn [p_workers] in F; apply K in F; discriminate.
Qed.
