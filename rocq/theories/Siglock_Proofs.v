From Coq Require Import String Ascii List Arith Bool Lia.
From Verif Require Import Str_Model Str_Proofs Siglock_Model Siglock_Spec.
Import ListNotations.

Lemma b_reflect b (P : Prop) : (b = true <-> P) -> (b = false <-> ~ P).
Proof. intros E. rewrite <- E. destruct b; split; intros; congruence. Qed.
Lemma has_class_iff l c : has_class l c = true <-> inherits l c.
Proof. unfold has_class, inherits. apply contains_sub_iff. Qed.
Lemma kernel_iff l : is_kernel l = true <-> kernel l.
Proof. unfold is_kernel, kernel. now rewrite orb_true_iff, !has_class_iff. Qed.
Lemma native_iff r : is_native r = true <-> native r.
Proof. apply endswith_iff. Qed.
Lemma host_iff r : is_native r || is_cross r || is_nativesdk r = true <-> for_host r.
Proof.
  rewrite !orb_true_iff, native_iff. unfold for_host, is_cross, is_nativesdk. rewrite contains_sub_iff, startswith_iff. tauto.
Qed.
Lemma rundepfilter_iff q : rundepfilter q = true <-> counts q.
Proof.
  unfold rundepfilter, counts.
  destruct (seqb (q_task q) (s_ "do_rm_work")) eqn:T; [apply seqb_eq in T; intuition congruence|apply seqb_neq in T].
  assert (O : seqb (q_recipe q) (q_dep q) && q_same_mc q = true <-> own q) by (unfold own; now rewrite andb_true_iff, seqb_eq).
  destruct (seqb (q_recipe q) (q_dep q) && q_same_mc q) eqn:EO.
  - assert (OW : own q) by tauto.
    assert (K : seqb (q_task q) (s_ "do_kernel_configme") && seqb (q_deptask q) (s_ "do_unpack_and_patch") = true <-> q_task q = s_ "do_kernel_configme" /\ q_deptask q = s_ "do_unpack_and_patch") by now rewrite andb_true_iff, !seqb_eq.
    rewrite negb_true_iff, (b_reflect _ _ K). tauto.
  - assert (NO : ~ own q) by (rewrite <- O; discriminate). clear O EO.
    assert (S : declared_safe q <-> mem_str (q_recipe q ++ s_ "->" ++ q_dep q) (q_safe q) = true \/ mem_str (s_ "*->" ++ q_dep q) (q_safe q) && negb (seqb (q_recipe q) (q_dep q)) = true).
    { unfold declared_safe. rewrite andb_true_iff, !mem_str_In, negb_true_iff, seqb_neq. reflexivity. }
    destruct (mem_str (q_recipe q ++ s_ "->" ++ q_dep q) (q_safe q)); [intuition congruence|].
    destruct (mem_str (s_ "*->" ++ q_dep q) (q_safe q) && negb (seqb (q_recipe q) (q_dep q))); [intuition congruence|].
    assert (NS : ~ declared_safe q) by (rewrite S; intuition congruence). clear S.
    pose proof (host_iff (q_recipe q)) as HI. destruct (is_native (q_recipe q) || is_cross (q_recipe q) || is_nativesdk (q_recipe q)); [intuition|].
    assert (NH : ~ for_host (q_recipe q)) by (rewrite <- HI; discriminate). clear HI.
    assert (A : has_class (q_inherits q) (s_ "/packagegroup.bbclass") && has_class (q_inherits q) (s_ "/allarch.bbclass") && negb (is_native (q_dep q)) = true <-> architecture_free_group q).
    { unfold architecture_free_group. rewrite !andb_true_iff, !has_class_iff, negb_true_iff, (b_reflect _ _ (native_iff (q_dep q))). tauto. }
    destruct (_ && _ && _) eqn:EA in |- *; [apply A in EA; intuition congruence|apply (b_reflect _ _ A) in EA]. clear A.
    assert (B : mem_str (q_dep q) (q_abisafe q) && negb (has_class (q_inherits q) (s_ "/image.bbclass")) = true <-> abi_safe q).
    { unfold abi_safe. rewrite andb_true_iff, mem_str_In, negb_true_iff, (b_reflect _ _ (has_class_iff _ _)). reflexivity. }
    destruct (mem_str (q_dep q) (q_abisafe q) && negb (has_class (q_inherits q) (s_ "/image.bbclass"))); [assert (abi_safe q) by (apply B; reflexivity); intuition congruence|].
    assert (EB : ~ abi_safe q) by (rewrite <- B; discriminate). clear B.
    assert (M : is_kernel (q_dep_inherits q) && negb (is_kernel (q_inherits q)) && existsb (fun recs => contains_sub (s_ "kernel-module-") (join (s_ " ") recs)) (q_recommends q) = true <-> module_only q).
    { unfold module_only. rewrite !andb_true_iff, kernel_iff, negb_true_iff, (b_reflect _ _ (kernel_iff _)), existsb_exists. split.
      - intros ((K1 & K2) & recs & R & C). apply contains_sub_iff in C. destruct C as (a & b & C). split; [auto|]. split; [auto|]. exists recs, a, b. auto.
      - intros (K1 & K2 & recs & a & b & R & C). split; [auto|]. exists recs. split; auto. apply contains_sub_iff. eauto. }
    destruct (_ && _ && _); [assert (module_only q) by (apply M; reflexivity); intuition congruence|].
    assert (EM : ~ module_only q) by (rewrite <- M; discriminate). intuition.
Qed.

(** ** Locks *)
Lemma find_lock_none m t : find_lock m t = None <-> forall v, ~ In (t, v) m.
Proof.
  induction m as [|[k v] m IH]; cbn [find_lock]; [split; auto|]. destruct (seqb t k) eqn:E.
  - apply seqb_eq in E. subst. split; [discriminate|]. intros F. exfalso. apply (F v). now left.
  - apply seqb_neq in E. rewrite IH. split; intros F w.
    + intros [Q|Q]; [congruence|]. eapply F; eauto.
    + intros Q. apply (F w). now right.
Qed.
Lemma spread_iff u deps : existsb (fun y => existsb (fun x => contains_sub x y) u) deps = true <-> exists y, In y deps /\ names_unlocked u y.
Proof.
  rewrite existsb_exists. split.
  - intros (y & Y & E). apply existsb_exists in E. destruct E as (x & X & E). apply contains_sub_iff in E. destruct E as (a & b & E). exists y. split; auto. exists x, a, b. auto.
  - intros (y & Y & x & a & b & X & E). exists y. split; auto. apply existsb_exists. exists x. split; auto. apply contains_sub_iff. eauto.
Qed.
Lemma first_call locks st c : not_hashed st (c_tid c) ->
  (forall h, locked_to locks (l_unlocked st) c h -> fst (locked_taskhash locks st c) = h) /\
  ((forall h, ~ locked_to locks (l_unlocked st) c h) -> fst (locked_taskhash locks st c) = c_hash c).
Proof.
  intros N. apply find_lock_none in N. unfold locked_taskhash. rewrite N.
  destruct (mem_str (c_recipe c) (l_unlocked st)) eqn:L.
  { apply mem_str_In in L. cbn [negb andb]. split; [intros h (_ & X & _); exfalso; auto|reflexivity]. }
  apply mem_str_false in L. destruct (existsb _ (c_deps c)) eqn:S; cbn [negb andb].
  { apply spread_iff in S. destruct S as (y & Y & U). split; [intros h (_ & _ & X); exfalso; exact (X y Y U)|reflexivity]. }
  assert (S' : forall y, In y (c_deps c) -> ~ names_unlocked (l_unlocked st) y).
  { intros y Y U. assert (X : existsb (fun y => existsb (fun x => contains_sub x y) (l_unlocked st)) (c_deps c) = true) by (apply spread_iff; eauto). congruence. }
  destruct (lock_of locks (c_recipe c) (c_task c)) as [h|] eqn:E; cbn [fst].
  - split; [intros h' (X & _); congruence|]. intros F. exfalso. apply (F h). split; auto.
  - split; [intros h' (X & _); congruence|reflexivity].
Qed.

Lemma call_keeps locks st c t v : find_lock (l_hashes st) t = Some v -> find_lock (l_hashes (snd (locked_taskhash locks st c))) t = Some v.
Proof.
  intros F. unfold locked_taskhash. destruct (find_lock (l_hashes st) (c_tid c)) as [[|x h]|] eqn:E; auto.
  assert (N : seqb t (c_tid c) = false). { apply seqb_neq. intros ->. congruence. }
  destruct (negb _ && negb _); [destruct (lock_of locks (c_recipe c) (c_task c))|]; cbn [snd l_hashes find_lock]; now rewrite N.
Qed.
Lemma call_records locks st c : exists v, find_lock (l_hashes (snd (locked_taskhash locks st c))) (c_tid c) = Some v /\
  (v = [] \/ fst (locked_taskhash locks st c) = v).
Proof.
  unfold locked_taskhash. destruct (find_lock (l_hashes st) (c_tid c)) as [[|x h]|] eqn:E; [exists []; auto|exists (x :: h); auto|].
  destruct (negb _ && negb _); [destruct (lock_of locks (c_recipe c) (c_task c)) as [h|]|]; cbn [fst snd l_hashes find_lock]; rewrite seqb_refl; eauto.
Qed.
Lemma run_keeps locks : forall cs st t v, find_lock (l_hashes st) t = Some v -> find_lock (l_hashes (snd (locked_run locks st cs))) t = Some v.
Proof.
  induction cs as [|c cs IH]; intros st t v F; [exact F|]. cbn [locked_run].
  pose proof (call_keeps locks st c t v F) as F1. destruct (locked_taskhash locks st c) as [h st1]. cbn [snd] in F1.
  pose proof (IH st1 t v F1) as F2. destruct (locked_run locks st1 cs) as [hs st2]. exact F2.
Qed.
Lemma locked_run_app locks : forall a b st, fst (locked_run locks st (a ++ b)) = fst (locked_run locks st a) ++ fst (locked_run locks (snd (locked_run locks st a)) b).
Proof.
  induction a as [|c a IH]; intros b st; [reflexivity|]. cbn [app locked_run]. destruct (locked_taskhash locks st c) as [h st1].
  pose proof (IH b st1) as E. destruct (locked_run locks st1 (a ++ b)) as [hs st2], (locked_run locks st1 a) as [hs1 st3]. cbn [fst snd] in *. now rewrite E.
Qed.
Lemma existsb_never (l : list str) : existsb (fun _ : str => false) l = false.
Proof. induction l; auto. Qed.
Lemma call_unlocked locks st c : l_unlocked st = [] -> l_unlocked (snd (locked_taskhash locks st c)) = [].
Proof.
  intros U. unfold locked_taskhash. destruct (find_lock (l_hashes st) (c_tid c)) as [[|x h]|]; auto. rewrite U. cbn [mem_str existsb].
  rewrite existsb_never. cbn [negb andb].
  destruct (lock_of locks (c_recipe c) (c_task c)); reflexivity.
Qed.

(** ** Writing and reading locks *)
Lemma parse_lock_ok pn task h : ~ In ":"%char pn -> ~ In ":"%char task -> parse_lock (pn ++ s_ ":" ++ task ++ s_ ":" ++ h) = Some (pn, task, h).
Proof.
  intros P T. apply no_char_In in P, T. unfold parse_lock. change (s_ ":") with [":"%char]. cbn [app].
  rewrite cut_at_some by auto. now rewrite cut_at_some.
Qed.
Definition lock_word (e : str * str * str) : str := fst (fst e) ++ s_ ":" ++ snd (fst e) ++ s_ ":" ++ snd e.
Lemma split_spaces n s : split_ws (repeat " "%char n ++ s) = split_ws s.
Proof. induction n as [|n IH]; [reflexivity|]. cbn [repeat app]. now rewrite split_ws_space. Qed.
Lemma dump_words es : Forall (fun e => word (lock_word e)) es -> split_ws (dump_locks es) = map lock_word es.
Proof.
  unfold dump_locks. induction 1 as [|e es W F IH]; [reflexivity|]. cbn [map List.concat].
  change (s_ "    ") with (repeat " "%char 4) at 1. rewrite <- !app_assoc. rewrite split_spaces.
  change (s_ " " ++ ?x) with (" "%char :: x).
  match goal with |- split_ws ?t = _ => replace t with (lock_word e ++ " "%char :: (List.concat (map (fun e0 : str * str * str => s_ "    " ++ fst (fst e0) ++ s_ ":" ++ snd (fst e0) ++ s_ ":" ++ snd e0 ++ s_ " ") es) ++ s_ "    ")) end.
  2:{ unfold lock_word. rewrite <- !app_assoc. reflexivity. }
  rewrite split_ws_word by auto. f_equal. exact IH.
Qed.
Lemma add_locks_ok es : Forall (fun e => ~ In ":"%char (fst (fst e)) /\ ~ In ":"%char (snd (fst e))) es ->
  forall acc, add_locks (map lock_word es) acc = Some (rev es ++ acc).
Proof.
  induction 1 as [|[[p t] h] es [P T] F IH]; intros acc; [reflexivity|]. cbn [map add_locks]. unfold lock_word at 1. cbn [fst snd] in *. rewrite parse_lock_ok by auto. rewrite IH. cbn [rev]. now rewrite <- app_assoc.
Qed.
Lemma lock_of_in locks p t h : NoDup (map fst locks) -> (lock_of locks p t = Some h <-> In (p, t, h) locks).
Proof.
  induction locks as [|[[a b] c] locks IH]; intros ND; cbn [lock_of]; [split; [discriminate|intros []]|]. inversion ND as [|? ? N ND1]; subst.
  destruct (seqb a p && seqb b t) eqn:E.
  - apply andb_true_iff in E. destruct E as [E1 E2]. apply seqb_eq in E1, E2. subst. split; [intros [= ->]; now left|].
    intros [Q|I]; [congruence|]. exfalso. apply N. change (p, t) with (fst (p, t, h)). now apply in_map.
  - rewrite IH by auto. split; [now right|]. intros [[= -> -> ->]|I]; auto. rewrite !seqb_refl in E. discriminate.
Qed.
