(** Lemmas on the execution of tasks. *)
From Coq Require Import Ascii String List Bool Arith Lia.
From Verif Require Import Str_Model Str_Proofs Exec_Model Exec_Spec.
Import ListNotations.
Open Scope list_scope.

Definition well (L : list item) : trace := map (fun i => (i, None)) L.
Definition quiet_item (i : item) : Prop := match i with Release _ | CloseLog => True | _ => False end.
Definition calm (tr : trace) : Prop := Forall (fun x => quiet_item (fst x)) tr.
(** [p] does what is in [L], up to the first exception; after that it only cleans up *)
Definition follows (p : prog) (L : list item) : Prop := forall s, exists r s' tr, p s = (r, s') /\ log s' = log s ++ tr /\
  match r with
  | None => tr = well L
  | Some e => exists k x e0 rest, nth_error L k = Some x /\ tr = well (firstn k L) ++ (x, Some e0) :: rest /\ calm rest /\ In (Some e) (map snd tr)
  end.
Lemma follows_act i : follows (act i) [i].
Proof.
  intro s. unfold act. eexists _, _, [(i, _)]. split; [reflexivity|]. split; [reflexivity|]. destruct (hd None (oracle s)) as [e|]; [|reflexivity].
  exists 0, i, e, []. split; [reflexivity|]. split; [reflexivity|]. split; [constructor|left; reflexivity].
Qed.
Lemma follows_skip : follows skip [].
Proof. intro s. exists None, s, []. split; [reflexivity|]. split; [symmetry; apply app_nil_r|reflexivity]. Qed.
Lemma well_app a b : well (a ++ b) = well a ++ well b. Proof. apply map_app. Qed.
Lemma follows_seq p q A B : follows p A -> follows q B -> follows (seq p q) (A ++ B).
Proof.
  intros P Q s. unfold seq. destruct (P s) as (r & s1 & tr & E & LG & R). rewrite E. destruct r as [e|].
  - exists (Some e), s1, tr. split; [reflexivity|]. split; [exact LG|]. destruct R as (k & x & e0 & rest & NK & -> & C & I). exists k, x, e0, rest.
    assert (KL : k < length A) by (apply nth_error_Some; congruence). split; [rewrite nth_error_app1 by exact KL; exact NK|]. split; [|split; assumption].
    rewrite firstn_app. replace (k - length A) with 0 by lia. rewrite firstn_O, app_nil_r. reflexivity.
  - destruct (Q s1) as (r2 & s2 & tr2 & E2 & LG2 & R2). exists r2, s2, (tr ++ tr2). rewrite E2. split; [reflexivity|]. split; [rewrite LG2, LG, app_assoc; reflexivity|]. subst tr. destruct r2 as [e|].
    + destruct R2 as (k & x & e0 & rest & NK & -> & C & I). exists (length A + k), x, e0, rest. split; [rewrite nth_error_app2 by lia; replace (length A + k - length A) with k by lia; exact NK|]. split; [|split; [exact C|rewrite map_app; apply in_or_app; right; exact I]].
      rewrite firstn_app_2, well_app, <- app_assoc. reflexivity.
    + rewrite R2, well_app. reflexivity.
Qed.
Lemma follows_each (A : Type) (p : A -> prog) (L : A -> list item) l : (forall x, follows (p x) (L x)) -> follows (each (map p l)) (flat_map L l).
Proof. intro H. induction l as [|x l IH]; cbn [map each flat_map]; [exact follows_skip|]. apply follows_seq; [apply H|exact IH]. Qed.
Lemma calm_well L : Forall quiet_item L -> calm (well L).
Proof. intro H. induction H; constructor; [exact H|exact IHForall]. Qed.
Lemma calm_app a b : calm a -> calm b -> calm (a ++ b). Proof. intros A B. apply Forall_app. split; assumption. Qed.
Lemma Forall_first (A : Type) (P : A -> Prop) k l : Forall P l -> Forall P (firstn k l).
Proof. intro H. revert k. induction H; intros [|k]; cbn; constructor; auto. Qed.
Lemma follows_finally p q A B : Forall quiet_item B -> follows p A -> follows q B -> follows (finally p q) (A ++ B).
Proof.
  intros QB P Q s. unfold finally. destruct (P s) as (r & s1 & tr & E & LG & R). rewrite E. destruct (Q s1) as (r2 & s2 & tr2 & E2 & LG2 & R2). rewrite E2.
  assert (C2 : calm tr2 /\ forall e, r2 = Some e -> In (Some e) (map snd tr2)).
  { destruct r2 as [e|]; [|split; [subst tr2; exact (calm_well B QB)|discriminate]]. destruct R2 as (k & x & e0 & rest & NK & -> & C & I). split; [|intros e' Z; injection Z as <-; exact I]. apply calm_app; [apply calm_well, Forall_first, QB|]. constructor; [|exact C]. rewrite Forall_forall in QB. exact (QB x (nth_error_In _ _ NK)). }
  destruct C2 as [C2 I2]. destruct r as [e|].
  - destruct R as (k & x & e0 & rest & NK & -> & C & I). assert (KL : k < length A) by (apply nth_error_Some; congruence).
    assert (G : forall e', In (Some e') (map snd ((well (firstn k A) ++ (x, Some e0) :: rest) ++ tr2)) ->
      exists k' x' e0' rest', nth_error (A ++ B) k' = Some x' /\ (well (firstn k A) ++ (x, Some e0) :: rest) ++ tr2 = well (firstn k' (A ++ B)) ++ (x', Some e0') :: rest' /\ calm rest' /\ In (Some e') (map snd ((well (firstn k A) ++ (x, Some e0) :: rest) ++ tr2))).
    { intros e' I'. exists k, x, e0, (rest ++ tr2). split; [rewrite nth_error_app1 by exact KL; exact NK|]. split; [|split; [exact (calm_app _ _ C C2)|exact I']].
      rewrite firstn_app. replace (k - length A) with 0 by lia. rewrite firstn_O, app_nil_r, <- app_assoc. reflexivity. }
    destruct r2 as [e2|].
    + exists (Some e2), s2, ((well (firstn k A) ++ (x, Some e0) :: rest) ++ tr2). split; [reflexivity|]. split; [rewrite LG2, LG, <- app_assoc; reflexivity|]. apply G. rewrite map_app. apply in_or_app. right. exact (I2 e2 eq_refl).
    + exists (Some e), s2, ((well (firstn k A) ++ (x, Some e0) :: rest) ++ tr2). split; [reflexivity|]. split; [rewrite LG2, LG, <- app_assoc; reflexivity|]. apply G. rewrite map_app. apply in_or_app. left. exact I.
  - subst tr. destruct r2 as [e2|].
    + exists (Some e2), s2, (well A ++ tr2). split; [reflexivity|]. split; [rewrite LG2, LG, <- app_assoc; reflexivity|]. destruct R2 as (k & x & e0 & rest & NK & -> & C & I). exists (length A + k), x, e0, rest. split; [rewrite nth_error_app2 by lia; replace (length A + k - length A) with k by lia; exact NK|]. split; [|split; [exact C|rewrite map_app; apply in_or_app; right; exact I]].
      rewrite firstn_app_2, well_app, <- app_assoc. reflexivity.
    + exists None, s2, (well A ++ tr2). split; [reflexivity|]. split; [rewrite LG2, LG, <- app_assoc; reflexivity|]. rewrite R2, well_app. reflexivity.
Qed.
(** the whole of a function and of a task *)
Definition script (flags : str -> func) (name : str) : list item :=
  let f := flags name in
  flat_map (fun d => [Remove d; Mkdir d]) (fl_cleandirs f) ++ map Mkdir (fl_dirs f) ++
  if has_body f then [Prepare name] ++ map Acquire (fl_locks f) ++ [Run name (last_dir (fl_dirs f))] ++ map Release (fl_locks f) else [].
Lemma flat_single (A B : Type) (f : A -> B) l : flat_map (fun x => [f x]) l = map f l.
Proof. induction l; cbn; congruence. Qed.
Lemma follows_acts (f : str -> item) l : follows (each (map (fun d => act (f d)) l)) (map f l).
Proof. rewrite <- (flat_single _ _ f l). apply (follows_each str (fun d => act (f d)) (fun d => [f d])). intro d. apply follows_act. Qed.
Lemma follows_func flags name : follows (exec_func flags name) (script flags name).
Proof.
  unfold exec_func, script. apply follows_seq; [apply follows_each; intro d; apply (follows_seq _ _ [Remove d] [Mkdir d]); apply follows_act|]. apply follows_seq; [apply follows_acts|].
  destruct (has_body (flags name)); [|exact follows_skip]. apply (follows_seq _ _ [Prepare name]); [apply follows_act|]. unfold fileslocked. apply follows_seq; [apply follows_acts|].
  apply (follows_finally _ _ [Run name (last_dir (fl_dirs (flags name)))]).
  - apply Forall_forall. intros x X. apply in_map_iff in X. destruct X as (y & <- & _). exact I.
  - apply follows_act.
  - apply follows_acts.
Qed.
Definition body (flags : str -> func) (t : task) : list item := [Fire Started] ++ flat_map (script flags) (t_pre t) ++ script flags (t_name t) ++ flat_map (script flags) (t_post t).
Lemma follows_task flags t : follows (finally (seq (act (Fire Started)) (seq (each (map (exec_func flags) (t_pre t))) (seq (exec_func flags (t_name t)) (each (map (exec_func flags) (t_post t)))))) (act CloseLog)) (body flags t ++ [CloseLog]).
Proof.
  apply follows_finally; [constructor; [exact I|constructor]| |apply follows_act]. unfold body. apply (follows_seq _ _ [Fire Started]); [apply follows_act|]. apply follows_seq; [apply follows_each; intro; apply follows_func|]. apply follows_seq; [apply follows_func|]. apply follows_each. intro. apply follows_func.
Qed.
(** what is run in it *)
Fixpoint runs (L : list item) : list str := match L with [] => [] | Run f _ :: L => f :: runs L | _ :: L => runs L end.
Fixpoint fires (L : list item) : list event := match L with [] => [] | Fire e :: L => e :: fires L | _ :: L => fires L end.
Lemma runs_app a b : runs (a ++ b) = runs a ++ runs b. Proof. induction a as [|i a IH]; [reflexivity|]. destruct i; cbn; rewrite IH; reflexivity. Qed.
Lemma fires_app a b : fires (a ++ b) = fires a ++ fires b. Proof. induction a as [|i a IH]; [reflexivity|]. destruct i; cbn; rewrite IH; reflexivity. Qed.
Lemma ran_app a b : ran (a ++ b) = ran a ++ ran b. Proof. induction a as [|[i r] a IH]; [reflexivity|]. destruct i; cbn; rewrite IH; reflexivity. Qed.
Lemma fired_app a b : fired (a ++ b) = fired a ++ fired b. Proof. induction a as [|[i r] a IH]; [reflexivity|]. destruct i; cbn; rewrite IH; reflexivity. Qed.
Lemma ran_well L : ran (well L) = map (fun f => (f, None)) (runs L). Proof. induction L as [|i L IH]; [reflexivity|]. unfold well in *. destruct i; cbn [map ran runs]; rewrite IH; reflexivity. Qed.
Lemma fired_well L : fired (well L) = fires L. Proof. induction L as [|i L IH]; [reflexivity|]. unfold well in *. destruct i; cbn [map fired fires]; rewrite IH; reflexivity. Qed.
Lemma ran_calm tr : calm tr -> ran tr = [] /\ fired tr = [] /\ ~ In Stamp (map fst tr).
Proof. intro H. induction H as [|[i r] tr Q _ (A & B & C)]; [repeat split; intros []|]. destruct i; cbn in Q; try contradiction; cbn; (split; [exact A|split; [exact B|intros [Z|Z]; [discriminate Z|exact (C Z)]]]). Qed.
Lemma runs_script flags f : runs (script flags f) = if has_body (flags f) then [f] else [].
Proof.
  unfold script. rewrite !runs_app. assert (A : forall l, runs (flat_map (fun d => [Remove d; Mkdir d]) l) = []) by (induction l; [reflexivity|exact IHl]). assert (B : forall l, runs (map Mkdir l) = []) by (induction l; [reflexivity|exact IHl]). rewrite A, B.
  destruct (has_body (flags f)); [|reflexivity]. rewrite !runs_app. assert (C : forall l, runs (map Acquire l) = []) by (induction l; [reflexivity|exact IHl]). assert (D : forall l, runs (map Release l) = []) by (induction l; [reflexivity|exact IHl]). rewrite C, D. reflexivity.
Qed.
Lemma fires_script flags f : fires (script flags f) = [].
Proof.
  unfold script. rewrite !fires_app. assert (A : forall l, fires (flat_map (fun d => [Remove d; Mkdir d]) l) = []) by (induction l; [reflexivity|exact IHl]). assert (B : forall l, fires (map Mkdir l) = []) by (induction l; [reflexivity|exact IHl]). rewrite A, B.
  destruct (has_body (flags f)); [|reflexivity]. rewrite !fires_app. assert (C : forall l, fires (map Acquire l) = []) by (induction l; [reflexivity|exact IHl]). assert (D : forall l, fires (map Release l) = []) by (induction l; [reflexivity|exact IHl]). rewrite C, D. reflexivity.
Qed.
Lemma no_stamp_script flags f : ~ In Stamp (script flags f).
Proof.
  assert (M : forall (g : str -> item) l, (forall x, g x <> Stamp) -> ~ In Stamp (map g l)) by (intros g l G H; apply in_map_iff in H; destruct H as (d & Z & _); exact (G d Z)).
  unfold script. rewrite !in_app_iff. intros [H|[H|H]].
  - apply in_flat_map in H. destruct H as (d & _ & Z). cbn in Z. destruct Z as [Z|[Z|[]]]; discriminate Z.
  - revert H. apply M. discriminate.
  - destruct (has_body (flags f)); [|destruct H]. rewrite !in_app_iff in H. destruct H as [[Z|[]]|[H|[[Z|[]]|H]]]; [discriminate Z| |discriminate Z|]; revert H; apply M; discriminate.
Qed.
Lemma runs_scripts flags l : runs (flat_map (script flags) l) = filter (fun f => has_body (flags f)) l.
Proof. induction l as [|f l IH]; [reflexivity|]. cbn [flat_map filter]. rewrite runs_app, runs_script, IH. destruct (has_body (flags f)); reflexivity. Qed.
Lemma fires_scripts flags l : fires (flat_map (script flags) l) = [].
Proof. induction l as [|f l IH]; [reflexivity|]. cbn [flat_map]. rewrite fires_app, fires_script, IH. reflexivity. Qed.
Lemma runs_body flags t : runs (body flags t) = parts flags t.
Proof.
  unfold body, parts. rewrite !runs_app, !runs_scripts, runs_script, !filter_app. cbn [runs filter app]. destruct (has_body (flags (t_name t))); reflexivity.
Qed.
Lemma fires_body flags t : fires (body flags t) = [Started].
Proof. unfold body. rewrite !fires_app, !fires_scripts, fires_script. reflexivity. Qed.
Lemma no_stamp_body flags t : ~ In Stamp (body flags t).
Proof.
  unfold body. rewrite !in_app_iff. intros [[Z|[]]|[H|[H|H]]]; [discriminate Z| |exact (no_stamp_script flags _ H)|]; apply in_flat_map in H; destruct H as (f & _ & H); exact (no_stamp_script flags f H).
Qed.
Lemma runs_prefix L k : exists n, runs (firstn k L) = firstn n (runs L).
Proof. exists (length (runs (firstn k L))). assert (E : runs L = runs (firstn k L) ++ runs (skipn k L)) by (rewrite <- runs_app, firstn_skipn; reflexivity). rewrite E, firstn_app, Nat.sub_diag, firstn_O, app_nil_r, firstn_all. reflexivity. Qed.
Lemma all_well_well L : all_well (well L). Proof. induction L; constructor; [reflexivity|exact IHL]. Qed.
(** ** Waiting for lock files *)
Lemma nth_set ts i p j : i < length ts -> nth_error (set_phase ts i p) j = if Nat.eqb j i then option_map (fun t => (fst t, p)) (nth_error ts i) else nth_error ts j.
Proof.
  revert ts j. induction i as [|i IH]; intros [|[l q] ts] j L; cbn in L; try lia.
  - destruct j; reflexivity.
  - destruct j; [reflexivity|]. cbn. apply (IH ts j). lia.
Qed.
Lemma len_set ts i p : length (set_phase ts i p) = length ts.
Proof. revert ts. induction i as [|i IH]; intros [|[l q] ts]; try reflexivity. cbn. f_equal. apply IH. Qed.
Definition exclusive (ts : tasks) : Prop := forall i j a b f, nth_error ts i = Some a -> nth_error ts j = Some b -> In f (holds_locks a) -> In f (holds_locks b) -> i = j.
Definition fits (t : list str * phase) : Prop := match snd t with Waiting k => k <= length (fst t) | _ => True end.
Lemma taken_false ts f : taken ts f = false <-> forall i t, nth_error ts i = Some t -> ~ In f (holds_locks t).
Proof.
  unfold taken. split.
  - intros H i t N I. assert (E : existsb (fun t => mem_str f (holds_locks t)) ts = true) by (apply existsb_exists; exists t; split; [exact (nth_error_In _ _ N)|apply mem_str_In; exact I]). congruence.
  - intro H. destruct (existsb _ ts) eqn:E; [|reflexivity]. apply existsb_exists in E. destruct E as (t & I & M). apply In_nth_error in I. destruct I as [i N]. exfalso. exact (H i t N (proj1 (mem_str_In f (holds_locks t)) M)).
Qed.
Lemma firstn_S_nth (A : Type) (l : list A) k x : nth_error l k = Some x -> firstn (S k) l = firstn k l ++ [x].
Proof. revert k. induction l as [|y l IH]; intros [|k] H; cbn in H; try discriminate; [injection H as ->; reflexivity|]. cbn [firstn app]. rewrite <- IH by exact H. reflexivity. Qed.
(** a step only takes a free file, or takes none *)
Lemma step_cases ts i ts' : lock_step ts i = Some ts' -> exists l p p', nth_error ts i = Some (l, p) /\ ts' = set_phase ts i p' /\
  (forall f, In f (holds_locks (l, p')) -> In f (holds_locks (l, p)) \/ taken ts f = false) /\ (fits (l, p) -> fits (l, p')).
Proof.
  unfold lock_step. destruct (nth_error ts i) as [[l p]|] eqn:N; [|discriminate]. destruct p as [k| |]; [| |discriminate].
  - destruct (nth_error l k) as [f|] eqn:NF.
    + destruct (taken ts f) eqn:T; [discriminate|]. intro H. injection H as <-. exists l, (Waiting k), (Waiting (S k)). split; [reflexivity|]. split; [reflexivity|]. split.
      * intros g. unfold holds_locks. cbn [fst snd]. rewrite (firstn_S_nth _ _ _ _ NF). intro I. apply in_app_iff in I. destruct I as [I|[<-|[]]]; [left; exact I|right; exact T].
      * intros _. cbn. assert (k < length l) by (apply nth_error_Some; congruence). lia.
    + intro H. injection H as <-. exists l, (Waiting k), Running. split; [reflexivity|]. split; [reflexivity|]. split; [|intros _; exact I].
      intros g I. left. apply nth_error_None in NF. unfold holds_locks in *. cbn [fst snd] in *. rewrite firstn_all2 by lia. exact I.
  - intro H. injection H as <-. exists l, Running, Done. split; [reflexivity|]. split; [reflexivity|]. split; [intros g []|intros _; exact I].
Qed.
Lemma step_exclusive ts i ts' : exclusive ts -> lock_step ts i = Some ts' -> exclusive ts'.
Proof.
  intros X H. destruct (step_cases ts i ts' H) as (l & p & p' & N & -> & HO & _). assert (LI : i < length ts) by (apply nth_error_Some; congruence).
  assert (OLD : forall j t f, nth_error (set_phase ts i p') j = Some t -> In f (holds_locks t) -> (exists t0, nth_error ts j = Some t0 /\ In f (holds_locks t0)) \/ (j = i /\ taken ts f = false)).
  { intros j t f. rewrite (nth_set ts i p' j LI), N. cbn [option_map fst]. destruct (Nat.eqb_spec j i) as [->|NE].
    - intros E I. injection E as <-. destruct (HO f I) as [I'|T]; [left; exists (l, p); split; [exact N|exact I']|right; split; [reflexivity|exact T]].
    - intros E I. left. exists t. split; assumption. }
  intros a b ta tb f NA NB IA IB. destruct (OLD a ta f NA IA) as [(t0 & N0 & I0)|[-> T0]], (OLD b tb f NB IB) as [(t1 & N1 & I1)|[-> T1]].
  - exact (X a b t0 t1 f N0 N1 I0 I1).
  - exfalso. exact (proj1 (taken_false ts f) T1 a t0 N0 I0).
  - exfalso. exact (proj1 (taken_false ts f) T0 b t1 N1 I1).
  - reflexivity.
Qed.
Lemma start_nth l i t : nth_error (lock_start l) i = Some t -> exists files, nth_error l i = Some files /\ t = (files, Waiting 0).
Proof. unfold lock_start. rewrite nth_error_map. destruct (nth_error l i) as [files|]; [|discriminate]. cbn. intro H. injection H as <-. exists files. split; reflexivity. Qed.
Lemma reach_inv l ts : lock_reach l ts -> exclusive ts /\ Forall fits ts /\ map fst ts = l.
Proof.
  intro R. induction R as [|ts i ts' R (X & F & M) H].
  - split; [|split].
    + intros i j a b f NA _ IA. destruct (start_nth l i a NA) as (files & _ & ->). destruct IA.
    + apply Forall_forall. intros t I. apply in_map_iff in I. destruct I as (files & <- & _). cbn. lia.
    + unfold lock_start. rewrite map_map. cbn. apply map_id.
  - split; [exact (step_exclusive ts i ts' X H)|]. destruct (step_cases ts i ts' H) as (fl & p & p' & N & -> & _ & FI). assert (LI : i < length ts) by (apply nth_error_Some; congruence). split.
    + apply Forall_forall. intros t I. apply In_nth_error in I. destruct I as [j I]. rewrite (nth_set ts i p' j LI), N in I. cbn [option_map fst] in I. rewrite Forall_forall in F. destruct (Nat.eqb_spec j i).
      * injection I as <-. exact (FI (F _ (nth_error_In _ _ N))).
      * exact (F _ (nth_error_In _ _ I)).
    + rewrite <- M. clear - N. revert ts N. induction i as [|i IH]; intros [|[a q] ts] N; cbn in N; try discriminate; [reflexivity|]. cbn. f_equal. exact (IH ts N).
Qed.
(** how much is left to do *)
Definition left_of (t : list str * phase) : nat := match snd t with Waiting k => length (fst t) - k + 2 | Running => 1 | Done => 0 end.
Definition left (ts : tasks) : nat := list_sum (map left_of ts).
Lemma left_set ts i p t : nth_error ts i = Some t -> left_of (fst t, p) < left_of t -> left (set_phase ts i p) < left ts.
Proof.
  unfold left. revert ts. induction i as [|i IH]; intros [|[a q] ts] N H; cbn in N; try discriminate.
  - injection N as <-. cbn [set_phase firstn skipn app map list_sum fold_right]. cbn [fst] in H. unfold list_sum in *. cbn [fold_right map]. lia.
  - specialize (IH ts N H). unfold set_phase in *. cbn [firstn skipn app map]. unfold list_sum in *. cbn [fold_right map]. lia.
Qed.
Lemma step_left ts i ts' : Forall fits ts -> lock_step ts i = Some ts' -> left ts' < left ts.
Proof.
  intros F H. unfold lock_step in H. destruct (nth_error ts i) as [[l p]|] eqn:N; [|discriminate]. destruct p as [k| |]; [| |discriminate].
  - rewrite Forall_forall in F. pose proof (F _ (nth_error_In _ _ N)) as FK. cbn in FK. destruct (nth_error l k) as [f|] eqn:NF.
    + destruct (taken ts f); [discriminate|]. injection H as <-. apply (left_set ts i _ _ N). cbn. assert (k < length l) by (apply nth_error_Some; congruence). lia.
    + injection H as <-. apply (left_set ts i _ _ N). cbn. lia.
  - injection H as <-. apply (left_set ts i _ _ N). cbn. lia.
Qed.
(** All that can be in the record of a task. *)
Lemma task_cases flags verbose logged t faults r tr : run_task flags verbose logged t faults = (r, tr) ->
  (t_valid t = false /\ exists o, tr = [(Fire Invalid, o)] /\ exit_code r = 1) \/
  (t_valid t = true /\ t_temp t = false /\ tr = [] /\ exit_code r = 1) \/
  (t_valid t = true /\ t_temp t = true /\
   ((exists e, tr = [(Setup, Some e)] /\ exit_code r = 1) \/
    (exists k x e0 rest e, nth_error (body flags t ++ [CloseLog]) k = Some x /\ calm rest /\ let tr0 := (Setup, None) :: well (firstn k (body flags t ++ [CloseLog])) ++ (x, Some e0) :: rest in In (Some e) (map snd tr0) /\ exit_code r = 1 /\
       ((caught e = false /\ tr = tr0 /\ r = Raise e) \/ caught e = true /\ exists o, tr = tr0 ++ [(Fire (if t_quiet t then FailedSilent else Failed (logged || verbose || is_handled e)), o)])) \/
    (exists l o, tr = (Setup, None) :: well (body flags t ++ [CloseLog]) ++ l /\
       ((l = [(Fire Succeeded, Some o)] /\ exit_code r = 1) \/
        (t_nostamp t = false /\ t_selfstamp t = false /\ (l = [(Fire Succeeded, None); (Stamp, None)] /\ r = Ret 0 \/ l = [(Fire Succeeded, None); (Stamp, Some o)] /\ exit_code r = 1)) \/
        (negb (t_nostamp t) && negb (t_selfstamp t) = false /\ l = [(Fire Succeeded, None)] /\ r = Ret 0))))).
Proof.
  intro H. unfold run_task in H. destruct (exec_task flags verbose logged t (mkSt [] faults)) as [r0 s0] eqn:E. injection H as -> <-. unfold exec_task in E.
  assert (WR : forall p n s, exists r1 s1, then_ret p n s = (r1, s1) /\ (fst (p s) = None /\ r1 = Ret n \/ exists e, fst (p s) = Some e /\ r1 = Raise e) /\ s1 = snd (p s)).
  { intros p n s. unfold then_ret. destruct (p s) as [[e|] s1]; [exists (Raise e), s1|exists (Ret n), s1]; (split; [reflexivity|split; [|reflexivity]]); [right; exists e; split; reflexivity|left; split; reflexivity]. }
  assert (EC : forall r1 s1, (match (r1, s1) with (Raise e, s) => if is_exception e then (if t_quiet t then (Ret 1, s) else (Raise Error, s)) else (Raise e, s) | x => x end) = (r, s0) -> s0 = s1 /\ (r1 = r \/ (exists e, r1 = Raise e /\ is_exception e = true) /\ exit_code r = 1)).
  { intros r1 s1 Z. destruct r1 as [n|e]; [injection Z as <- <-; split; [reflexivity|left; reflexivity]|]. destruct (is_exception e) eqn:IE; [destruct (t_quiet t)|]; injection Z as <- <-; (split; [reflexivity|]); [right; split; [exists e; split; [reflexivity|exact IE]|reflexivity]|right; split; [exists e; split; [reflexivity|exact IE]|reflexivity]|left; reflexivity]. }
  destruct (exec_task_inner flags verbose logged t (mkSt [] faults)) as [r1 s1] eqn:IN. destruct (EC r1 s1 E) as [-> RR]. clear E EC. unfold exec_task_inner in IN. destruct (t_valid t); cbn [negb] in IN.
  2: { left. split; [reflexivity|]. destruct (WR (act (Fire Invalid)) 1 (mkSt [] faults)) as (r2 & s2 & E2 & C & ->). rewrite E2 in IN. injection IN as <- <-. eexists. split; [reflexivity|]. destruct C as [[_ ->]|(e & _ & ->)]; destruct RR as [<-|[_ Z]]; try exact Z; reflexivity. }
  right. destruct (t_temp t); cbn [negb] in IN.
  2: { left. injection IN as <- <-. split; [reflexivity|]. split; [reflexivity|]. split; [reflexivity|]. destruct RR as [<-|[_ Z]]; [reflexivity|exact Z]. }
  right. split; [reflexivity|]. split; [reflexivity|]. destruct (act Setup (mkSt [] faults)) as [o s2] eqn:AS. unfold act in AS. injection AS as OE <-. cbn [log oracle app] in IN. destruct o as [e|]; rewrite OE in IN.
  { left. injection IN as <- <-. exists e. split; [reflexivity|]. destruct RR as [<-|[_ Z]]; [reflexivity|exact Z]. }
  right. destruct (follows_task flags t (mkSt [(Setup, None)] (tl faults))) as (r3 & s3 & tr3 & E3 & L3 & R3). rewrite E3 in IN. cbn [log app] in L3. destruct r3 as [e|].
  - left. destruct R3 as (k & x & e0 & rest & NK & -> & C & I). exists k, x, e0, rest, e. split; [exact NK|]. split; [exact C|]. cbv zeta. split; [right; exact I|]. destruct (caught e) eqn:CA.
    + set (ev := if t_quiet t then FailedSilent else Failed (logged || verbose || is_handled e)).
      assert (IN' : then_ret (act (Fire ev)) 1 s3 = (r1, s1)) by (unfold ev; destruct (t_quiet t); exact IN).
      destruct (WR (act (Fire ev)) 1 s3) as (r2 & s2 & E2 & C2 & ->). rewrite E2 in IN'. injection IN' as <- <-.
      split; [destruct C2 as [[_ ->]|(e' & _ & ->)]; destruct RR as [<-|[_ Z]]; try exact Z; reflexivity|]. right. split; [reflexivity|]. eexists. unfold act. cbn [snd log]. rewrite L3. reflexivity.
    + injection IN as <- <-. split; [destruct RR as [<-|[_ Z]]; [reflexivity|exact Z]|]. left. split; [reflexivity|]. split; [exact L3|]. destruct e; try discriminate CA. destruct RR as [<-|[(e' & Z & Y) _]]; [reflexivity|]. injection Z as <-. discriminate Y.
  - right. subst tr3. set (st0 := negb (t_nostamp t) && negb (t_selfstamp t)) in *.
    destruct (act (Fire Succeeded) s3) as [o s4] eqn:A4. unfold then_ret, seq in IN. rewrite A4 in IN. unfold act in A4. injection A4 as O4 S4.
    assert (L4 : log s4 = (Setup, None) :: well (body flags t ++ [CloseLog]) ++ [(Fire Succeeded, o)]) by (rewrite <- S4; cbn [log]; rewrite L3, O4; reflexivity).
    destruct o as [e|].
    + injection IN as <- <-. exists [(Fire Succeeded, Some e)], e. split; [exact L4|]. left. split; [reflexivity|]. destruct RR as [<-|[_ Z]]; [reflexivity|exact Z].
    + destruct st0 eqn:ST.
      * assert (NS : t_nostamp t = false /\ t_selfstamp t = false) by (unfold st0 in ST; apply andb_true_iff in ST; rewrite !negb_true_iff in ST; exact ST). unfold act in IN. destruct (hd None (oracle s4)) as [e|] eqn:O5.
        -- injection IN as <- <-. exists [(Fire Succeeded, None); (Stamp, Some e)], e. cbn [log]. rewrite L4. split; [cbn [app]; rewrite <- app_assoc; reflexivity|]. right. left. split; [exact (proj1 NS)|]. split; [exact (proj2 NS)|]. right. split; [reflexivity|]. destruct RR as [<-|[_ Z]]; [reflexivity|exact Z].
        -- injection IN as <- <-. exists [(Fire Succeeded, None); (Stamp, None)], Error. cbn [log]. rewrite L4. split; [cbn [app]; rewrite <- app_assoc; reflexivity|]. right. left. split; [exact (proj1 NS)|]. split; [exact (proj2 NS)|]. left. split; [reflexivity|]. destruct RR as [<-|[(e' & Z & _) _]]; [reflexivity|discriminate Z].
      * injection IN as <- <-. exists [(Fire Succeeded, None)], Error. split; [exact L4|]. right. right. split; [reflexivity|]. split; [reflexivity|]. destruct RR as [<-|[(e' & Z & _) _]]; [reflexivity|discriminate Z].
Qed.
Lemma runs_all flags t : runs (body flags t ++ [CloseLog]) = parts flags t.
Proof. rewrite runs_app, runs_body. apply app_nil_r. Qed.
Lemma fires_all flags t : fires (body flags t ++ [CloseLog]) = [Started].
Proof. rewrite fires_app, fires_body. reflexivity. Qed.
Lemma split_nth (A : Type) (L : list A) k x : nth_error L k = Some x -> L = firstn k L ++ x :: skipn (S k) L.
Proof. revert k. induction L as [|y L IH]; intros [|k] NK; cbn in NK; try discriminate; [injection NK as ->; reflexivity|]. change (y :: L = y :: (firstn k L ++ x :: skipn (S k) L)). f_equal. exact (IH k NK). Qed.
Lemma ran_stop L k x e0 rest : nth_error L k = Some x -> calm rest ->
  (exists n, ran (well (firstn k L) ++ (x, Some e0) :: rest) = map (fun f => (f, None)) (firstn n (runs L))) \/
  (exists n f, ran (well (firstn k L) ++ (x, Some e0) :: rest) = map (fun f => (f, None)) (firstn n (runs L)) ++ [(f, Some e0)] /\ nth_error (runs L) n = Some f).
Proof.
  intros NK C. destruct (ran_calm rest C) as (RC & _ & _). set (n := length (runs (firstn k L))).
  assert (RL : runs L = runs (firstn k L) ++ runs (x :: skipn (S k) L)).
  { rewrite <- runs_app. f_equal. exact (split_nth _ L k x NK). }
  assert (RF : firstn n (runs L) = runs (firstn k L)) by (rewrite RL, firstn_app; unfold n; rewrite Nat.sub_diag, firstn_O, app_nil_r, firstn_all; reflexivity).
  destruct x; try (left; exists n; rewrite RF, ran_app, ran_well; cbn [ran]; rewrite RC, app_nil_r; reflexivity).
  right. exists n, func. split; [rewrite RF, ran_app, ran_well; cbn [ran]; rewrite RC; reflexivity|]. rewrite RL. rewrite nth_error_app2 by (unfold n; lia). unfold n. rewrite Nat.sub_diag. reflexivity.
Qed.
(** the events up to the exception: none if that came with the first *)
Lemma fired_stop flags t k x e0 rest : nth_error (body flags t ++ [CloseLog]) k = Some x -> calm rest -> fired (well (firstn k (body flags t ++ [CloseLog])) ++ (x, Some e0) :: rest) = [Started].
Proof.
  intros NK C. destruct (ran_calm rest C) as (_ & FC & _). set (L := body flags t ++ [CloseLog]) in *.
  assert (FL : fires (firstn k L) ++ fires (x :: skipn (S k) L) = [Started]).
  { rewrite <- fires_app. rewrite <- (fires_all flags t). f_equal. symmetry. exact (split_nth _ L k x NK). }
  rewrite fired_app, fired_well. destruct k as [|k].
  - cbn [firstn fires app] in *. change (nth_error L 0) with (Some (Fire Started)) in NK. injection NK as <-. cbn [fired]. rewrite FC. reflexivity.
  - assert (LE : exists L', L = Fire Started :: L') by (eexists; reflexivity). destruct LE as [L' LE]. clearbody L. rewrite LE in FL |- *. cbn [firstn fires] in FL |- *. cbn [app] in FL. injection FL as FL. apply app_eq_nil in FL. destruct FL as [FL FX]. rewrite FL. destruct x; cbn [fired app]; try (rewrite FC; reflexivity). discriminate FX.
Qed.
Lemma calm_stamp flags t k x e0 rest : nth_error (body flags t ++ [CloseLog]) k = Some x -> calm rest -> ~ In Stamp (map fst ((Setup, None) :: well (firstn k (body flags t ++ [CloseLog])) ++ (x, Some e0) :: rest)).
Proof.
  intros NK C. destruct (ran_calm rest C) as (_ & _ & SC). assert (NB : ~ In Stamp (body flags t ++ [CloseLog])) by (rewrite in_app_iff; intros [H|[H|[]]]; [exact (no_stamp_body flags t H)|discriminate H]).
  cbn [map fst]. rewrite map_app. intros [Z|H]; [discriminate Z|]. apply in_app_iff in H. destruct H as [H|[H|H]].
  - unfold well in H. rewrite map_map in H. cbn in H. rewrite map_id in H. apply NB. rewrite <- (firstn_skipn k (body flags t ++ [CloseLog])). apply in_or_app. left. exact H.
  - cbn in H. subst x. exact (NB (nth_error_In _ _ NK)).
  - exact (SC H).
Qed.
Lemma not_well_stop a x e0 rest : ~ all_well (a ++ (x, Some e0) :: rest).
Proof. intro H. apply Forall_app in H. destruct H as [_ H]. inversion H. discriminate. Qed.
Lemma nth_first (A : Type) (l : list A) k q : q < k -> nth_error (firstn k l) q = nth_error l q.
Proof. revert k q. induction l as [|y l IH]; intros [|k] [|q] H; try lia; try reflexivity. cbn. apply IH. lia. Qed.
(** ** No deadlock *)
Section Progress.
Variables (rank : str -> nat) (ts : tasks).
Hypothesis in_order : forall t, In t ts -> ordered rank (fst t).
Hypothesis stuck : forall i, lock_step ts i = None.
Definition blocked (n : nat) : Prop := exists l k f, In (l, Waiting k) ts /\ nth_error l k = Some f /\ n <= rank f.
Lemma held_blocked l k f : In (l, Waiting k) ts -> nth_error l k = Some f -> blocked (S (rank f)).
Proof.
  intros I NF. apply In_nth_error in I. destruct I as [i N]. pose proof (stuck i) as S0. unfold lock_step in S0. rewrite N, NF in S0. destruct (taken ts f) eqn:T; [|discriminate S0]. unfold taken in T. apply existsb_exists in T. destruct T as ([l2 p2] & I2 & M). apply mem_str_In in M.
  pose proof I2 as I2'. apply In_nth_error in I2'. destruct I2' as [j N2]. pose proof (stuck j) as S2. unfold lock_step in S2. rewrite N2 in S2. destruct p2 as [k2| |]; [|discriminate S2|destruct M]. destruct (nth_error l2 k2) as [f2|] eqn:NF2; [|discriminate S2].
  exists l2, k2, f2. split; [exact I2|]. split; [exact NF2|]. unfold holds_locks in M. cbn [fst snd] in M. apply In_nth_error in M. destruct M as [q MQ].
  assert (QK : q < k2) by (assert (q < length (firstn k2 l2)) by (apply nth_error_Some; congruence); rewrite firstn_length in *; lia).
  assert (NQ : nth_error l2 q = Some f) by (rewrite <- MQ; symmetry; apply nth_first; exact QK).
  exact (in_order (l2, Waiting k2) I2 q k2 f f2 QK NQ NF2).
Qed.
Lemma blocked_all n : (exists m, blocked m) -> blocked n.
Proof.
  intros [m B]. assert (B0 : blocked 0) by (destruct B as (l & k & f & A & C & _); exists l, k, f; split; [exact A|split; [exact C|lia]]). clear m B. induction n as [|n IH]; [exact B0|].
  destruct IH as (l & k & f & A & C & LE). destruct (held_blocked l k f A C) as (l2 & k2 & f2 & A2 & C2 & LE2). exists l2, k2, f2. split; [exact A2|]. split; [exact C2|lia].
Qed.
Lemma max_le l x : In x l -> x <= list_max l.
Proof. intro I. pose proof (proj1 (list_max_le l (list_max l)) (le_n _)) as F. rewrite Forall_forall in F. exact (F x I). Qed.
Lemma not_blocked : ~ blocked (S (list_max (map rank (concat (map fst ts))))).
Proof.
  intros (l & k & f & A & C & LE). assert (I : In (rank f) (map rank (concat (map fst ts)))).
  { apply in_map. apply in_concat. exists l. split; [apply in_map_iff; exists (l, Waiting k); split; [reflexivity|exact A]|exact (nth_error_In _ _ C)]. }
  apply max_le in I. lia.
Qed.
Lemma stuck_done : all_done ts.
Proof.
  apply Forall_forall. intros [l p] I. pose proof I as I'. apply In_nth_error in I'. destruct I' as [i N]. pose proof (stuck i) as S0. unfold lock_step in S0. rewrite N in S0. destruct p as [k| |]; [|discriminate S0|reflexivity]. destruct (nth_error l k) as [f|] eqn:NF; [|discriminate S0].
  exfalso. apply not_blocked. apply blocked_all. exists 0, l, k, f. split; [exact I|]. split; [exact NF|lia].
Qed.
End Progress.
Lemma steps_reach l is ts ts' : lock_reach l ts -> steps ts is = Some ts' -> lock_reach l ts' /\ length is + left ts' <= left ts.
Proof.
  revert ts. induction is as [|i is IH]; intros ts R H; cbn [steps] in H.
  - injection H as <-. split; [exact R|cbn; lia].
  - destruct (lock_step ts i) as [ts1|] eqn:E; [|discriminate H]. destruct (IH ts1 (reach_step l ts i ts1 R E) H) as [R' LE]. split; [exact R'|]. pose proof (step_left ts i ts1 (proj1 (proj2 (reach_inv l ts R))) E). cbn [length]. lia.
Qed.
(** ** The end of a function *)
Lemma acts_tail (f : str -> item) l s : exists r s' tr, each (map (fun d => act (f d)) l) s = (r, s') /\ log s' = log s ++ tr /\ (exists k, map fst tr = firstn k (map f l)) /\ (all_well tr -> tr = well (map f l)).
Proof.
  revert s. induction l as [|d l IH]; intro s.
  - exists None, s, []. split; [reflexivity|]. split; [symmetry; apply app_nil_r|]. split; [exists 0; reflexivity|reflexivity].
  - cbn [map each]. unfold seq, act at 1. destruct (hd None (oracle s)) as [e|].
    + eexists _, _, [(f d, Some e)]. split; [reflexivity|]. split; [reflexivity|]. split; [exists 1; reflexivity|]. intro W. inversion W. discriminate.
    + destruct (IH (mkSt (log s ++ [(f d, None)]) (tl (oracle s)))) as (r & s' & tr & E & LG & [k K] & W). exists r, s', ((f d, None) :: tr). split; [exact E|]. split; [rewrite LG; cbn [log]; rewrite <- app_assoc; reflexivity|]. split; [exists (S k); cbn; rewrite K; reflexivity|]. intro Z. apply Forall_inv_tail in Z. rewrite (W Z). reflexivity.
Qed.
Lemma seq_assoc p q r s : seq p (seq q r) s = seq (seq p q) r s.
Proof. unfold seq. destruct (p s) as [[e|] s1]; reflexivity. Qed.
Lemma func_tail flags name faults r s : has_body (flags name) = true -> exec_func flags name (mkSt [] faults) = (r, s) ->
  let f := flags name in
  let before := flat_map (fun d => [Remove d; Mkdir d]) (fl_cleandirs f) ++ map Mkdir (fl_dirs f) ++ [Prepare name] ++ map Acquire (fl_locks f) in
  ran (log s) = [] \/ exists o after, log s = map (fun i => (i, None)) before ++ (Run name (last_dir (fl_dirs f)), o) :: after /\
     (all_well after -> after = map (fun l => (Release l, None)) (fl_locks f)) /\ exists k, map fst after = firstn k (map Release (fl_locks f)).
Proof.
  intros HB H f before. unfold exec_func in H. fold f in H. rewrite (HB : has_body f = true) in H. unfold fileslocked in H.
  set (A := each (map (fun d => seq (act (Remove d)) (act (Mkdir d))) (fl_cleandirs f))) in H. set (B := each (map (fun d => act (Mkdir d)) (fl_dirs f))) in H. set (C := each (map (fun d => act (Acquire d)) (fl_locks f))) in H. set (Z := finally (act (Run name (last_dir (fl_dirs f)))) (each (map (fun d => act (Release d)) (fl_locks f)))) in H.
  assert (E : seq (seq A (seq B (seq (act (Prepare name)) C))) Z (mkSt [] faults) = (r, s)).
  { rewrite <- H. unfold seq. destruct (A (mkSt [] faults)) as [[e|] s1]; [reflexivity|]. destruct (B s1) as [[e|] s2]; [reflexivity|]. destruct (act (Prepare name) s2) as [[e|] s3]; reflexivity. }
  assert (F : follows (seq A (seq B (seq (act (Prepare name)) C))) before).
  { unfold before, A, B, C. apply follows_seq; [apply follows_each; intro d; apply (follows_seq _ _ [Remove d] [Mkdir d]); apply follows_act|]. apply follows_seq; [apply follows_acts|]. apply (follows_seq _ _ [Prepare name]); [apply follows_act|]. apply follows_acts. }
  assert (NB : runs before = []).
  { unfold before. rewrite !runs_app. assert (X : forall l, runs (flat_map (fun d => [Remove d; Mkdir d]) l) = []) by (induction l; [reflexivity|exact IHl]). assert (Y : forall l, runs (map Mkdir l) = []) by (induction l; [reflexivity|exact IHl]). assert (W : forall l, runs (map Acquire l) = []) by (induction l; [reflexivity|exact IHl]). rewrite X, Y, W. reflexivity. }
  destruct (F (mkSt [] faults)) as (r1 & s1 & tr & E1 & LG & R). cbn [log app] in LG. unfold seq at 1 in E. rewrite E1 in E. destruct r1 as [e|].
  - left. injection E as <- <-. rewrite LG. destruct R as (k & x & e0 & rest & NK & -> & CA & _). destruct (ran_stop _ k x e0 rest NK CA) as [(n & ->)|(n & g & _ & Y)]; [rewrite NB, firstn_nil; reflexivity|]. rewrite NB in Y. destruct n; discriminate Y.
  - right. rewrite R in LG. unfold Z, finally in E. unfold act at 1 in E. destruct (acts_tail Release (fl_locks f) (mkSt (log s1 ++ [(Run name (last_dir (fl_dirs f)), hd None (oracle s1))]) (tl (oracle s1)))) as (r2 & s2 & tr2 & E2 & LG2 & K & W). rewrite E2 in E.
    exists (hd None (oracle s1)), tr2. assert (SE : s = s2) by (destruct r2; congruence). split; [rewrite SE, LG2; cbn [log]; rewrite LG, <- app_assoc; reflexivity|]. split; [|exact K]. intro X. rewrite (W X). unfold well. apply map_map.
Qed.
Lemma fst_well L : map fst (well L) = L.
Proof. unfold well. rewrite map_map. apply map_id. Qed.
Lemma fst_none (l : list str) : map fst (map (fun f => (f, @None exn)) l) = l.
Proof. rewrite map_map. apply map_id. Qed.
Lemma no_stamp_well flags t : ~ In Stamp (map fst (well (body flags t ++ [CloseLog]))).
Proof. rewrite fst_well, in_app_iff. intros [Z|[Z|[]]]; [exact (no_stamp_body flags t Z)|discriminate Z]. Qed.
