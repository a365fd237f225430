(** C54-C58: task hashes. *)
From Coq Require Import String Ascii List Arith Bool Lia Permutation.
From Verif Require Import Str_Model Str_Proofs Sigtask_Model Sigtask_Spec Sigtask_Proofs.
Import ListNotations.

(** C54.  The order in which dependencies are listed and in which the file system returns files
    does not matter. *)
Theorem task_text_order_free : forall t t' u,
  t_base t' = t_base t -> Permutation (t_deps t') (t_deps t) -> Permutation (t_files t') (t_files t) ->
  t_taint t' = t_taint t -> Forall (fun f => absolute (fst f)) (t_files t) ->
  task_text t' u = task_text t u.
Proof.
  intros t t' u B D F T A. unfold task_text. rewrite B, T. rewrite (sort_pairs_perm _ _ D). do 2 f_equal. f_equal. f_equal. symmetry. apply files_perm; auto. now apply Permutation_sym.
Qed.

(** C54.  Moving the directory that holds all the files does not matter. *)
Theorem task_text_relocatable : forall t t' u p q,
  t_base t' = t_base t -> t_deps t' = t_deps t -> t_taint t' = t_taint t ->
  absolute p -> absolute q -> no_mark p -> no_mark q -> Forall2 (moved p q) (t_files t) (t_files t') ->
  task_text t' u = task_text t u.
Proof.
  intros t t' u p q B D T AP AQ NP NQ F. unfold task_text. rewrite B, D, T. do 2 f_equal. f_equal. f_equal. symmetry. exact (files_moved p q _ _ NP NQ AP AQ F).
Qed.

(** C54 is false for files from two directories that move separately: single files are sorted by
    their absolute path, so the hash changes although nothing else does. *)
Theorem task_text_two_dirs_refuted : exists t t' u,
  t_base t' = t_base t /\ t_deps t' = t_deps t /\ t_taint t' = t_taint t /\
  Forall2 (fun a b => snd a = snd b /\ exists p q, moved p q a b) (t_files t) (t_files t') /\
  task_text t' u <> task_text t u.
Proof.
  exists (mkTask (s_ "b") [] [(s_ "/layer/isar/x.patch", s_ "11"); (s_ "/layer/local/y.patch", s_ "22")] None),
         (mkTask (s_ "b") [] [(s_ "/layer/zisar/x.patch", s_ "11"); (s_ "/layer/local/y.patch", s_ "22")] None), (fun _ => []).
  split; [reflexivity|]. split; [reflexivity|]. split; [reflexivity|]. split.
  - constructor; [|constructor; [|constructor]].
    + split; [reflexivity|]. exists (s_ "/layer/isar"), (s_ "/layer/zisar"). split; [reflexivity|]. exists (s_ "/x.patch"). split; [eexists; reflexivity|split; reflexivity].
    + split; [reflexivity|]. exists (s_ "/layer/local"), (s_ "/layer/local"). split; [reflexivity|]. exists (s_ "/y.patch"). split; [eexists; reflexivity|split; reflexivity].
  - vm_compute. discriminate.
Qed.

(** C54 is false behind a second mark: of a directory entry /layer/./files/./NAME only "files" counts,
    so renaming the file is not seen. *)
Theorem task_text_second_mark_refuted : exists t t' u,
  t_files t = [(s_ "/layer/./files/./a", s_ "11")] /\ t_files t' = [(s_ "/layer/./files/./b", s_ "11")] /\
  t_base t' = t_base t /\ t_deps t' = t_deps t /\ t_taint t' = t_taint t /\ task_text t' u = task_text t u /\
  task_text (mkTask (t_base t) (t_deps t) [(s_ "/layer/./files/a", s_ "11")] (t_taint t)) u <>
  task_text (mkTask (t_base t) (t_deps t) [(s_ "/layer/./files/b", s_ "11")] (t_taint t)) u.
Proof.
  exists (mkTask (s_ "x") [] [(s_ "/layer/./files/./a", s_ "11")] None), (mkTask (s_ "x") [] [(s_ "/layer/./files/./b", s_ "11")] None), (fun _ => []).
  repeat (split; [reflexivity|]). vm_compute. discriminate.
Qed.
(** C54.  A different checksum of one file is seen. *)
Theorem task_text_file_change : forall base deps a b f c c' taint u,
  NoDup (map clean_path (a ++ (f, c) :: b)) -> c <> c' ->
  task_text (mkTask base deps (a ++ (f, c) :: b) taint) u <> task_text (mkTask base deps (a ++ (f, c') :: b) taint) u /\
  one_input (mkTask base deps (a ++ (f, c) :: b) taint) (mkTask base deps (a ++ (f, c') :: b) taint).
Proof.
  intros base deps a b f c c' taint u ND NE.
  assert (D : files_part (mkTask base deps (a ++ (f, c) :: b) taint) <> files_part (mkTask base deps (a ++ (f, c') :: b) taint)).
  { unfold files_part. cbn [t_files]. destruct (by_path_replace a b f c c' ND) as (x & y & -> & ->). rewrite !map_app, !concat_app. cbn [map List.concat].
    intros Q. apply app_inv_head in Q. apply app_inv_tail in Q. unfold file_text in Q. cbn [fst snd] in Q. destruct c as [|k c], c' as [|k' c'].
    - congruence.
    - symmetry in Q. apply app_eq_nil in Q. destruct Q. discriminate.
    - apply app_eq_nil in Q. destruct Q. discriminate.
    - apply app_inv_head in Q. congruence. }
  split.
  - unfold task_text. cbn [t_base t_deps t_taint]. intros Q. do 2 apply app_inv_head in Q. apply app_inv_tail in Q. exact (D Q).
  - split; [reflexivity|]. right; left. auto.
Qed.

(** C54.  Whatever order the hashing loop takes, every task gets the same hash. *)
Theorem task_hashes_schedule_free : forall H g depends tids o1 o2 n1 n2 m1 m2,
  well_formed g depends tids -> any_order o1 -> any_order o2 ->
  hash_loop H g depends o1 n1 tids [] [] = Some (Some m1) -> hash_loop H g depends o2 n2 tids [] [] = Some (Some m2) ->
  forall t, lookup m1 t = lookup m2 t.
Proof.
  intros H g depends tids o1 o2 n1 n2 m1 m2 (ND & W) O1 O2 L1 L2 t.
  assert (K0 : forall x, known [] x <-> In x []) by (intros x; split; [intros [h Q]; discriminate|intros []]).
  apply loop_built in L1; auto; [|constructor]. apply loop_built in L2; auto; [|constructor]. destruct L1 as [B1 K1], L2 as [B2 K2].
  destruct (lookup m1 t) as [h1|] eqn:E1, (lookup m2 t) as [h2|] eqn:E2.
  - f_equal. exact (consistent_unique H g m1 m2 B1 (built_consistent H g m2 B2) t h1 h2 E1 E2).
  - exfalso. assert (X : known m2 t). { apply K2, K1. eexists; eauto. } destruct X. congruence.
  - exfalso. assert (X : known m1 t). { apply K1, K2. eexists; eauto. } destruct X. congruence.
  - reflexivity.
Qed.

(** C54.  Without circles the loop ends, never meets a dependency without a hash, and hashes
    every task. *)
Theorem task_hashes_complete : forall H g depends tids order n,
  well_formed g depends tids -> acyclic depends -> any_order order -> length tids <= n ->
  exists m, hash_loop H g depends order n tids [] [] = Some (Some m) /\
  (forall t, In t tids <-> exists h, lookup m t = Some h) /\
  (forall t h, lookup m t = Some h -> h = H (task_text (g t) (unihash m))).
Proof.
  intros H g depends tids order n W A O L.
  assert (K0 : forall x, known [] x <-> In x []) by (intros x; split; [intros [h Q]; discriminate|intros []]).
  destruct W as (ND & W). assert (D0 : forall x, In x tids -> ~ In x []) by (intros x _ []).
  destruct (loop_some H g depends tids (conj ND W) order O A n tids [] [] L (b_nil H g) K0 ND D0) as [m E]; [intros x; cbn; tauto|].
  exists m. split; auto. apply loop_built in E; auto; [|constructor]. destruct E as [B K]. split.
  - intros t. pose proof (K t) as Kt. unfold known in Kt. rewrite Kt. cbn. tauto.
  - intros t h X. apply (built_consistent H g m B t h X).
Qed.

(** C55.  A change of one input of task [t] (its base hash, its files or its taint) leaves the
    hash of every task that does not need [t], and changes the hash of [t] and of every task that
    needs it - unless two different texts, hashed for one of these tasks before and after the
    change, have the same digest. *)
Theorem task_change_propagates : forall H g g' depends tids o o' n n' m m' t,
  fixed_length H -> well_formed g depends tids -> well_formed g' depends tids -> any_order o -> any_order o' ->
  one_input (g t) (g' t) -> (forall v, v <> t -> g' v = g v) ->
  hash_loop H g depends o n tids [] [] = Some (Some m) -> hash_loop H g' depends o' n' tids [] [] = Some (Some m') ->
  (forall v, In v tids -> ~ needs g v t -> lookup m v = lookup m' v) /\
  (forall v, In v tids -> needs g v t -> lookup m v <> lookup m' v \/
     exists u a a', needs g v u /\ needs g u t /\ a <> a' /\ H a = H a' /\
       lookup m u = Some (H a) /\ lookup m' u = Some (H a') /\
       a = task_text (g u) (unihash m) /\ a' = task_text (g' u) (unihash m')).
Proof.
  intros H g g' depends tids o o' n n' m m' t [k LEN] (ND & W) (_ & W') O O' ONE OT L L'.
  assert (K0 : forall x, known [] x <-> In x []) by (intros x; split; [intros [h Q]; discriminate|intros []]).
  apply loop_built in L; auto; [|constructor]. apply loop_built in L'; auto; [|constructor]. destruct L as [B K], L' as [B' K'].
  assert (D : t_deps (g' t) = t_deps (g t)) by (destruct ONE; congruence).
  split; intros v I N.
  - assert (X : known m v) by (apply K; auto). assert (X' : known m' v) by (apply K'; auto). destruct X as [h X], X' as [h' X']. rewrite X, X'. f_equal.
    exact (unaffected H g g' t OT D m m' B (built_consistent H g' m' B') v h h' X X' N).
  - assert (X : known m v) by (apply K; auto). assert (X' : known m' v) by (apply K'; auto). destruct X as [h X], X' as [h' X'].
    destruct (affected H k LEN g g' t OT D ONE m m' B (built_consistent H g' m' B') v h h' X X' N) as [Q|Q]; [left; congruence|right; auto].
Qed.

(** C56.  Recomputing a hash from the data dumped for it gives the hash, as long as the
    dependencies have different names and the taint file is as it was. *)
Theorem sigdata_recomputes_partial : forall t u file,
  NoDup (map fst (t_deps t)) ->
  (match t_taint t with
   | Some x => (exists r, x = s_ "nostamp:" ++ r) \/ (file = Some x /\ x <> [] /\ forall a b, x <> a ++ s_ "nostamp:" ++ b)
   | None => file = None \/ file = Some []
   end) ->
  calc_text (dump t u file) = task_text t u.
Proof. exact dump_text. Qed.

(** C56 is false for two dependencies with the same recipe and task name (two versions of one
    recipe): one entry is kept for both, and a mismatch is reported. *)
Theorem sigdata_same_name_refuted : exists t u,
  NoDup (map snd (t_deps t)) /\ t_taint t = None /\ calc_text (dump t u None) <> task_text t u.
Proof.
  exists (mkTask (s_ "b") [(s_ "x:do_a", s_ "/x_1.bb:do_a"); (s_ "x:do_a", s_ "/x_2.bb:do_a")] [] None),
         (fun tid => if seqb tid (s_ "/x_1.bb:do_a") then s_ "1" else s_ "2").
  split; [|split; [reflexivity|vm_compute; discriminate]].
  repeat constructor; cbn; intuition discriminate.
Qed.

(** C57.  A task identifier is read back as the multiconfig, recipe file and task it was made of;
    so different tasks have different identifiers. *)
Theorem tid_round_trip : forall mc fn task,
  ~ In ":"%char mc -> ~ In ":"%char task -> (mc = [] -> forall r, fn <> s_ "mc:" ++ r) ->
  split_tid_mcfn (build_tid mc fn task) =
  Some (mc, fn, task, match mc with [] => fn | _ => s_ "mc:" ++ mc ++ s_ ":" ++ fn end).
Proof. exact split_build. Qed.
Theorem tid_injective : forall mc fn task mc' fn' task',
  ~ In ":"%char mc -> ~ In ":"%char task -> (mc = [] -> forall r, fn <> s_ "mc:" ++ r) ->
  ~ In ":"%char mc' -> ~ In ":"%char task' -> (mc' = [] -> forall r, fn' <> s_ "mc:" ++ r) ->
  build_tid mc fn task = build_tid mc' fn' task' -> mc = mc' /\ fn = fn' /\ task = task'.
Proof.
  intros mc fn task mc' fn' task' A B C A' B' C' E. pose proof (tid_round_trip mc fn task A B C) as P. rewrite E, (tid_round_trip mc' fn' task' A' B' C') in P.
  assert (Q : (mc', fn', task') = (mc, fn, task)) by congruence. now injection Q as -> -> ->.
Qed.

(** C58.  Taints over the calls of a session; an event is what the taint file holds and the
    random text drawn. *)
Definition taints (is_nostamp : bool) (mem : option str) (calls : list (option str * str)) : option str :=
  fold_left (fun m e => prep_taint is_nostamp m (fst e) (snd e)) calls mem.
Definition no_file (f : option str) : Prop := f = None \/ f = Some [].

(** A task that is never up to date keeps one random taint for the session. *)
Theorem nostamp_taint_stable : forall calls first f,
  no_file f -> Forall (fun e => no_file (fst e)) calls ->
  taints true None ((f, first) :: calls) = Some (s_ "nostamp:" ++ first).
Proof.
  intros calls first f N F. unfold taints. cbn [fold_left fst snd].
  assert (E : prep_taint true None f first = Some (nostamp ++ first)) by (destruct N as [->| ->]; reflexivity).
  rewrite E. clear E. induction F as [|[x r] calls X F IH]; [reflexivity|]. cbn [fold_left fst snd].
  assert (E : prep_taint true (Some (nostamp ++ first)) x r = Some (nostamp ++ first)).
  { unfold prep_taint. rewrite startswith_app. destruct X as [X|X]; cbn [fst] in X; rewrite X; reflexivity. }
  rewrite E. exact IH.
Qed.
(** Two sessions that draw different random texts give it different hashes. *)
Theorem nostamp_sessions_differ : forall base deps files calls calls' r r',
  Forall (fun e => no_file (fst e)) calls -> Forall (fun e => no_file (fst e)) calls' -> r <> r' ->
  one_input (mkTask base deps files (taints true None ((None, r) :: calls)))
            (mkTask base deps files (taints true None ((None, r') :: calls'))).
Proof.
  intros base deps files calls calls' r r' F F' N. rewrite !nostamp_taint_stable by (auto; now left). split; [reflexivity|]. right; right. split; [reflexivity|]. split; [reflexivity|].
  cbn [t_taint taint_text]. exact N.
Qed.
(** A forced run counts from the call that sees the taint file, whatever happened before, and
    for an ordinary task it goes on counting for the rest of the session. *)
Theorem forced_taint_counts : forall is_nostamp mem before c r fresh,
  taints is_nostamp mem (before ++ [(Some (c :: r), fresh)]) = Some (c :: r).
Proof. intros. unfold taints. rewrite fold_left_app. cbn [fold_left fst snd prep_taint]. reflexivity. Qed.
Theorem forced_taint_stays : forall mem before c r fresh after,
  Forall (fun e => no_file (fst e)) after ->
  taints false mem (before ++ (Some (c :: r), fresh) :: after) = Some (c :: r).
Proof.
  intros mem before c r fresh after F. unfold taints. rewrite fold_left_app. cbn [fold_left fst snd]. change (prep_taint false _ (Some (c :: r)) fresh) with (Some (c :: r)).
  induction F as [|[x y] l X F IH]; [reflexivity|]. cbn [fold_left fst snd]. assert (E : prep_taint false (Some (c :: r)) x y = Some (c :: r)) by (destruct X as [X|X]; cbn [fst] in X; rewrite X; reflexivity).
  rewrite E. exact IH.
Qed.
(** An ordinary task without a taint file is not tainted. *)
Theorem untainted : forall calls, Forall (fun e => no_file (fst e)) calls -> taints false None calls = None.
Proof.
  intros calls F. unfold taints. induction F as [|[x y] l X F IH]; [reflexivity|]. cbn [fold_left fst snd].
  assert (E : prep_taint false None x y = None) by (destruct X as [X|X]; cbn [fst] in X; rewrite X; reflexivity). rewrite E. exact IH.
Qed.

(** *** A case that meets the hypotheses: lib <- app <- image, lib <- tool, doc alone *)
Definition toy (x : str) : str :=
  [ascii_of_nat (fold_left (fun a c => (a * 31 + nat_of_ascii c) mod 251) x 7)].
Definition deps_of (k : str) : list str :=
  if seqb k (s_ "app") then [s_ "lib"] else if seqb k (s_ "image") then [s_ "app"; s_ "doc"] else if seqb k (s_ "tool") then [s_ "lib"] else [].
Definition graph (libbase : str) (k : str) : task :=
  mkTask (if seqb k (s_ "lib") then libbase else toy k) (map (fun d => (d, d)) (deps_of k)) [(s_ "/l/p/./a.c", s_ "00ff")] None.
Definition names := [s_ "image"; s_ "tool"; s_ "doc"; s_ "app"; s_ "lib"].
Example graph_ok : fixed_length toy /\ (forall b, well_formed (graph b) deps_of names) /\ acyclic deps_of /\
  one_input (graph (s_ "v1") (s_ "lib")) (graph (s_ "v2") (s_ "lib")) /\ any_order (fun _ l => l) /\ any_order (fun _ l => rev l).
Proof.
  split; [exists 1; reflexivity|]. split; [intros b|].
  { split; [|split].
    - repeat constructor; cbn; intuition discriminate.
    - intros t p d I. cbn [graph t_deps] in I. apply in_map_iff in I. destruct I as (x & [= <- <-] & I). exact I.
    - intros t d T. unfold names in T. cbn [In] in T. destruct T as [<-|[<-|[<-|[<-|[<-|[]]]]]]; cbn [deps_of]; vm_compute; intuition. }
  split. { exists (fun k => if seqb k (s_ "image") then 2 else if seqb k (s_ "app") then 1 else if seqb k (s_ "tool") then 1 else 0).
    intros t d. unfold deps_of. destruct (seqb t (s_ "app")) eqn:E1; [apply seqb_eq in E1; subst; intros [<-|[]]; vm_compute; lia|].
    destruct (seqb t (s_ "image")) eqn:E2; [intros [<-|[<-|[]]]; vm_compute; lia|].
    destruct (seqb t (s_ "tool")) eqn:E3; [intros [<-|[]]; vm_compute; lia|intros []]. }
  split. { split; [reflexivity|]. left. split; [vm_compute; discriminate|]. split; reflexivity. }
  split; [intros n l; apply Permutation_refl|intros n l; apply Permutation_sym, Permutation_rev].
Qed.
Example graph_hashes : match hash_loop toy (graph (s_ "v1")) deps_of (fun _ l => l) 5 names [] [],
    hash_loop toy (graph (s_ "v2")) deps_of (fun _ l => rev l) 5 names [] [] with
  | Some (Some m), Some (Some m') =>
      map (fun t => match lookup m t, lookup m' t with Some a, Some b => seqb a b | _, _ => true end) names = [false; false; true; false; false]
  | _, _ => False
  end.
Proof. vm_compute. reflexivity. Qed.
Example clean_paths : map clean_path [(s_ "/l/files/./sub/a.c", s_ "1"); (s_ "/l/b.patch", s_ "2")] = [s_ "./sub/a.c"; s_ "/l/b.patch"].
Proof. reflexivity. Qed.
Example tids : build_tid (s_ "qemu") (s_ "virtual:native:/l/x.bb") (s_ "do_a") = s_ "mc:qemu:virtual:native:/l/x.bb:do_a" /\
  split_tid_mcfn (s_ "/l/x.bb:do_a") = Some ([], s_ "/l/x.bb", s_ "do_a", s_ "/l/x.bb").
Proof. split; reflexivity. Qed.

Print Assumptions task_text_order_free.
Print Assumptions task_text_relocatable.
Print Assumptions task_text_two_dirs_refuted.
Print Assumptions task_text_second_mark_refuted.
Print Assumptions task_text_file_change.
Print Assumptions task_hashes_schedule_free.
Print Assumptions task_hashes_complete.
Print Assumptions task_change_propagates.
Print Assumptions sigdata_recomputes_partial.
Print Assumptions sigdata_same_name_refuted.
Print Assumptions tid_round_trip.
Print Assumptions tid_injective.
Print Assumptions nostamp_taint_stable.
Print Assumptions nostamp_sessions_differ.
Print Assumptions forced_taint_counts.
Print Assumptions forced_taint_stays.
Print Assumptions untainted.

(** ** Further cases that meet the hypotheses *)
Lemma no_mark_checked p : contains_sub (s_ "/./") (p ++ s_ "/") = false -> no_mark p.
Proof. intros H a b E. rewrite E in H. assert (X : contains_sub (s_ "/./") (a ++ s_ "/./" ++ b) = true) by (apply contains_sub_iff; eauto). congruence. Qed.
Example relocatable_met : task_text (mkTask (s_ "b") [] [(s_ "/new/place/a.c", s_ "1"); (s_ "/new/place/x/./b.c", s_ "2")] None) (fun t => t) =
  task_text (mkTask (s_ "b") [] [(s_ "/old/a.c", s_ "1"); (s_ "/old/x/./b.c", s_ "2")] None) (fun t => t).
Proof.
  apply (task_text_relocatable _ _ _ (s_ "/old") (s_ "/new/place")); auto.
  - now exists (s_ "old").
  - now exists (s_ "new/place").
  - apply no_mark_checked. reflexivity.
  - apply no_mark_checked. reflexivity.
  - constructor; [|constructor; [|constructor]]; (split; [reflexivity|]).
    + exists (s_ "/a.c"). split; [now exists (s_ "a.c")|auto].
    + exists (s_ "/x/./b.c"). split; [now exists (s_ "x/./b.c")|auto].
Qed.

