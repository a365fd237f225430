(** Theorems on SOURCE_DATE_EPOCH (C171, C172). *)
From Coq Require Import Ascii String List Bool Arith NArith ZArith Lia.
From Verif Require Import Str_Model Str_Proofs Epoch_Model Epoch_Spec Epoch_Proofs.
Import ListNotations.
Open Scope list_scope.

(** ** C171: which time is used *)
(** For a recipe with git sources the time of the last commit. *)
Theorem epoch_git w p c : sane (w_tree w) -> git_uri w -> usual_git w p -> w_git w p = Some c -> c <> 0%Z -> get_epoch w = c.
Proof. intros S U G E N. unfold get_epoch. rewrite (from_git_uri w U), (find_usual w p S G), E. cbn [py_or]. rewrite (proj2 (Z.eqb_neq c 0) N). reflexivity. Qed.
(** If the repository is at none of the usual places it is searched for, except in some
    directories. *)
Theorem epoch_git_searched w : sane (w_tree w) -> git_uri w -> (forall p, ~ usual_git w p) ->
  (exists q, let p := q ++ [s_ ".git"] in dir_at (w_tree w) p /\ Forall (fun n => excluded n = false) q /\ forall c, w_git w p = Some c -> c <> 0%Z -> get_epoch w = c) \/
  ((forall q, dir_at (w_tree w) (q ++ [s_ ".git"]) -> exists n, In n q /\ excluded n = true) /\ get_epoch w = py_or (from_youngest w) (w_fallback w)).
Proof.
  intros S U N.
  assert (F1 : is_dir (w_tree w) [s_ "git"; s_ ".git"] = false) by (apply not_true_iff_false; intro X; apply (proj1 (sub_dir _ _ S)) in X; apply (N [s_ "git"; s_ ".git"]); left; auto).
  assert (F2 : is_dir (w_tree w) (w_s w ++ [s_ ".git"]) = false) by (apply not_true_iff_false; intro X; apply (proj1 (sub_dir _ _ S)) in X; apply (N (w_s w ++ [s_ ".git"])); right; split; [intro Y; apply (proj2 (sub_dir _ _ S)) in Y; congruence|auto]).
  assert (FG : find_git w = walk_git (w_tree w)) by (unfold find_git; rewrite F1, F2; reflexivity). destruct (walk_git (w_tree w)) as [p|] eqn:W.
  - left. destruct (walk_found _ p W) as (D & q & -> & E). exists q. split; [exact D|]. split; [exact E|]. intros c G NZ. unfold get_epoch. rewrite (from_git_uri w U), FG, G. cbn [py_or]. rewrite (proj2 (Z.eqb_neq c 0) NZ). reflexivity.
  - right. split; [|unfold get_epoch; rewrite (from_git_uri w U), FG; reflexivity]. intros q D. pose proof (walk_none _ W q D) as NF. apply Exists_exists. apply Exists_Forall_neg in NF; [|intro x; destruct (excluded x); [right|left]; congruence].
    eapply Exists_impl; [|exact NF]. intros x H. cbn beta in H. destruct (excluded x); [reflexivity|exfalso; apply H; reflexivity].
Qed.
(** Otherwise the time of the youngest file of the sources. *)
Theorem epoch_youngest w t v : ~ git_uri w -> source w t -> from_1970 t -> youngest t v -> v <> 0%Z -> get_epoch w = v.
Proof.
  intros U [NS S] F Y NZ. unfold get_epoch. rewrite (from_git_none w U). cbn [py_or]. unfold from_youngest. destruct (w_s w) as [|x p] eqn:E; [exfalso; apply NS; reflexivity|]. rewrite S. pose proof (youngest_times t F) as T. destruct (fold_left newer (times t) None) as [k|].
  - rewrite (youngest_unique t k v T Y). cbn [py_or]. rewrite (proj2 (Z.eqb_neq v 0) NZ). reflexivity.
  - exfalso. destruct Y as [(q & A & C) _]. exact (T q v A C).
Qed.
(** With no files, or sources that are right in WORKDIR, the fallback. *)
Theorem epoch_fallback w : ~ git_uri w -> w_s w = [] \/ (exists t, source w t /\ from_1970 t /\ forall p m, file_at t p m -> ~ counts p) -> get_epoch w = w_fallback w.
Proof.
  intros U K. unfold get_epoch. rewrite (from_git_none w U). cbn [py_or]. unfold from_youngest. destruct K as [-> |(t & [NS S] & F & N)]; [reflexivity|]. destruct (w_s w) as [|x p]; [reflexivity|]. rewrite S. pose proof (youngest_times t F) as T. destruct (fold_left newer (times t) None) as [k|]; [|reflexivity]. exfalso. destruct T as [(q & A & C) _]. exact (N q k A C).
Qed.
(** The same sources give the same time, in whatever order directories are listed, if the
    repository is at one of the usual places. *)
Theorem epoch_reproducible w w' : sane (w_tree w) -> sane (w_tree w') -> same_tree (w_tree w) (w_tree w') -> w_s w' = w_s w -> w_uri w' = w_uri w -> w_git w' = w_git w -> w_fallback w' = w_fallback w ->
  from_1970 (w_tree w) -> (git_uri w -> exists p, usual_git w p) -> get_epoch w' = get_epoch w.
Proof.
  intros S S' [SF SD] ES EU EG EF F G. unfold get_epoch. rewrite EF.
  assert (FG : from_git w' = from_git w).
  { destruct (contains_sub (s_ "git://") (w_uri w) || contains_sub (s_ "gitsm://") (w_uri w)) eqn:U.
    - assert (GU : git_uri w) by (apply orb_prop in U; destruct U as [U|U]; apply contains_sub_iff in U; [left|right]; exact U). destruct (G GU) as [p GP].
      assert (GU' : git_uri w') by (unfold git_uri in *; rewrite EU; exact GU).
      assert (GP' : usual_git w' p) by (destruct GP as [[E D]|(N & E & D)]; [left; split; [exact E|apply SD; exact D]|right; split; [intro X; apply SD in X; exact (N X)|]; split; [rewrite ES; exact E|apply SD; exact D]]).
      rewrite (from_git_uri w GU), (from_git_uri w' GU'), (find_usual w p S GP), (find_usual w' p S' GP'), EG. reflexivity.
    - apply orb_false_elim in U. destruct U as [U1 U2]. unfold from_git. rewrite EU, U1, U2. reflexivity. }
  rewrite FG. f_equal. f_equal. unfold from_youngest. rewrite ES. destruct (w_s w) as [|x p]; [reflexivity|]. set (q := x :: p).
  assert (ID : is_dir (w_tree w) q = true <-> is_dir (w_tree w') q = true) by (rewrite (sub_dir q _ S), (sub_dir q _ S'); apply SD). unfold is_dir in ID.
  destruct (sub (w_tree w) q) as [t|] eqn:T; destruct (sub (w_tree w') q) as [t'|] eqn:T'; [|destruct ID as [ID _]; discriminate (ID eq_refl)|destruct ID as [_ ID]; discriminate (ID eq_refl)|reflexivity].
  assert (SA : forall r m, r <> [] -> (file_at t r m <-> file_at t' r m)) by (intros r m NR; rewrite <- (sub_file q _ t r m S T NR), <- (sub_file q _ t' r m S' T' NR); apply SF).
  assert (FT : from_1970 t) by (intros r m A; apply (F (q ++ r) m); apply (sub_file q _ t r m S T (file_nonempty _ _ _ A)); exact A).
  assert (FT' : from_1970 t') by (intros r m A; apply (FT r m); apply SA; [exact (file_nonempty _ _ _ A)|exact A]).
  pose proof (youngest_times t FT) as Y. pose proof (youngest_times t' FT') as Y'. destruct (fold_left newer (times t) None) as [v|]; destruct (fold_left newer (times t') None) as [v'|].
  - f_equal. apply (youngest_unique t'); [exact Y'|]. destruct Y as [(r & A & C) M]. split; [exists r; split; [apply SA; [exact (file_nonempty _ _ _ A)|exact A]|exact C]|]. intros r' m A' C'. apply (M r' m); [apply SA; [exact (file_nonempty _ _ _ A')|exact A']|exact C'].
  - exfalso. destruct Y as [(r & A & C) _]. apply (Y' r v); [apply SA; [exact (file_nonempty _ _ _ A)|exact A]|exact C].
  - exfalso. destruct Y' as [(r & A & C) _]. apply (Y r v'); [apply SA; [exact (file_nonempty _ _ _ A)|exact A]|exact C].
  - reflexivity.
Qed.
Definition empty : tree := Dir [] [].
Definition exsrc : tree := Dir [(s_ "NEWS", 100%Z); (s_ ".hidden", 900%Z)] [(s_ "src", Dir [(s_ "a.c", 300%Z); (s_ "singletask.lock", 800%Z)] []); (s_ "doc", Dir [(s_ "d", 200%Z)] [])].
Definition exworld (uri : string) (t : tree) : world := mkWorld t [s_ "foo-1.0"] (s_ uri) (fun p => match p with [a; _] => if seqb a (s_ "git") then Some 500%Z else if seqb a (s_ "one") then Some 600%Z else Some 700%Z | _ => None end) 5.
Example exworld_tar : get_epoch (exworld "http://x/foo.tar.gz" (Dir [] [(s_ "foo-1.0", exsrc)])) = 300%Z.
Proof. vm_compute. reflexivity. Qed.
Example exworld_git : get_epoch (exworld "git://x/foo" (Dir [] [(s_ "foo-1.0", exsrc); (s_ "git", Dir [] [(s_ ".git", empty)])])) = 500%Z.
Proof. vm_compute. reflexivity. Qed.
Example exworld_none : get_epoch (exworld "file://x" (Dir [] [(s_ "foo-1.0", empty)])) = 5%Z.
Proof. vm_compute. reflexivity. Qed.
Lemma sane_two a b t u : sane t -> sane u -> a <> b -> sane (Dir [] [(a, t); (b, u)]).
Proof. intros T U N. constructor; [repeat constructor; [intros [E|[]]; exact (N (eq_sym E))|intros []]|]. intros n s [E|[E|[]]]; injection E as _ <-; assumption. Qed.
Lemma sane_empty fs : sane (Dir fs []).
Proof. constructor; [constructor|intros n s []]. Qed.
Lemma sane_one fs a t : sane t -> sane (Dir fs [(a, t)]).
Proof. intro T. constructor; [repeat constructor; intros []|]. intros n s [E|[]]; injection E as _ <-; exact T. Qed.
Example epoch_met : let w := exworld "git://x/foo" (Dir [] [(s_ "foo-1.0", Dir [(s_ "a", 3%Z)] []); (s_ "git", Dir [] [(s_ ".git", empty)])]) in
  let w' := exworld "http://x/foo.tar.gz" (Dir [] [(s_ "foo-1.0", Dir [(s_ "a", 3%Z)] [])]) in
  sane (w_tree w) /\ git_uri w /\ usual_git w [s_ "git"; s_ ".git"] /\ w_git w [s_ "git"; s_ ".git"] = Some 500%Z /\ ~ git_uri w' /\ source w' (Dir [(s_ "a", 3%Z)] []) /\ youngest (Dir [(s_ "a", 3%Z)] []) 3 /\ from_1970 (Dir [(s_ "a", 3%Z)] []).
Proof.
  intros w w'. split; [apply sane_two; [apply sane_empty|apply sane_one, sane_empty|discriminate]|]. split; [left; exists [], (s_ "x/foo"); reflexivity|]. split; [left; split; [reflexivity|]; eapply dir_below; [right; left; reflexivity|]; eapply dir_below; [left; reflexivity|constructor]|]. split; [reflexivity|].
  split; [intros [X|X]; apply contains_sub_iff in X; vm_compute in X; discriminate X|]. split; [split; [discriminate|reflexivity]|].
  assert (A : forall p m, file_at (Dir [(s_ "a", 3%Z)] []) p m -> m = 3%Z).
  { intros p m Q. inversion Q as [fs' ds' n k I|fs' ds' n s q k I F']; subst; [destruct I as [E|[]]; injection E as _ E; symmetry; exact E|destruct I]. }
  split; [|intros p m Q; rewrite (A p m Q); lia]. split; [exists [s_ "a"]; split; [constructor; left; reflexivity|exists [], (s_ "a"); split; [reflexivity|split; [intros r E; discriminate E|discriminate]]]|]. intros p m Q _. rewrite (A p m Q). lia.
Qed.
(** With repositories in two subdirectories the time depends on the order in which the file
    system lists them. *)
Theorem epoch_order_refuted : exists w w', sane (w_tree w) /\ sane (w_tree w') /\ same_tree (w_tree w) (w_tree w') /\ w_s w' = w_s w /\ w_uri w' = w_uri w /\ w_git w' = w_git w /\ w_fallback w' = w_fallback w /\ git_uri w /\ get_epoch w = 600%Z /\ get_epoch w' = 700%Z.
Proof.
  exists (exworld "git://x" (Dir [] [(s_ "one", Dir [] [(s_ ".git", empty)]); (s_ "two", Dir [] [(s_ ".git", empty)])])), (exworld "git://x" (Dir [] [(s_ "two", Dir [] [(s_ ".git", empty)]); (s_ "one", Dir [] [(s_ ".git", empty)])])).
  split; [apply sane_two; [apply sane_one, sane_empty|apply sane_one, sane_empty|discriminate]|]. split; [apply sane_two; [apply sane_one, sane_empty|apply sane_one, sane_empty|discriminate]|]. split; [split|].
  - intros p m. split; intro A; exfalso; inversion A as [fs' ds' n k I|fs' ds' n s q k I F']; subst; try (destruct I; fail); destruct I as [E|[E|[]]]; injection E as <- <-; inversion F' as [fs2 ds2 n2 k2 I2|fs2 ds2 n2 s2 q2 k2 I2 F2]; subst; try (destruct I2; fail); destruct I2 as [E|[]]; injection E as <- <-; inversion F2 as [fs3 ds3 n3 k3 I3|fs3 ds3 n3 s3 q3 k3 I3 F3]; subst; destruct I3.
  - intro p. split; intro A; (inversion A as [|fs' ds' n s q I D]; subst; [constructor|]); apply dir_below with s; try assumption; destruct I as [E|[E|[]]]; [right; left; exact E|left; exact E|right; left; exact E|left; exact E].
  - repeat split; [left; exists [], (s_ "x"); reflexivity].
Qed.

(** ** C172: the file with the time, and the times of files *)
Theorem epoch_number z : py_int (py_str z) = Some z.
Proof. apply int_str. Qed.
(** Wherever writing is interrupted the file is as before or complete; and nothing else is
    changed but the temporary file. *)
Theorem epoch_atomic fs file text k : (write_state fs file text k file = fs file \/ write_state fs file text k file = Some text) /\ forall n, n <> file -> n <> file ++ s_ ".new" -> write_state fs file text k n = fs n.
Proof.
  unfold write_state. destruct k as [|k]; [split; [left; reflexivity|reflexivity]|]. cbn zeta. destruct (k <=? length text).
  - split; [left; apply put_other, tmp_other|]. intros n _ N. apply put_other. exact N.
  - split; [right; apply put_same|]. intros n N N'. rewrite put_other by exact N. apply put_other. exact N'.
Qed.
Theorem epoch_written fs file text k : length text + 2 <= k -> write_state fs file text k file = Some text /\ write_state fs file text k (file ++ s_ ".new") = None.
Proof.
  intro L. unfold write_state. destruct k as [|k]; [lia|]. cbn zeta. rewrite (proj2 (Nat.leb_gt k (length text))) by lia. split; [apply put_same|]. rewrite put_other by (intro E; symmetry in E; exact (tmp_other _ E)). apply put_same.
Qed.
(** A task gets what was determined when the sources were unpacked; the fallback without such a
    file, or if it has no number. *)
Theorem epoch_read fs fallback cache file z : (forall v, cache <> Some (v, file)) ->
  (fs file = Some (py_str z) -> fst (read_epoch fs fallback cache file) = py_str z) /\
  (fs file = None \/ (exists s, fs file = Some s /\ py_int s = None) -> fst (read_epoch fs fallback cache file) = py_str fallback).
Proof.
  intro C. assert (R : fst (read_epoch fs fallback cache file) = py_str match fs file with Some s => match py_int s with Some z => z | None => fallback end | None => fallback end).
  { unfold read_epoch. destruct cache as [[[|c r] f]|]; [reflexivity| |reflexivity]. destruct (seqb f file) eqn:E; [|reflexivity]. apply seqb_eq in E. subst f. exfalso. exact (C _ eq_refl). }
  rewrite R. split; [intros ->; rewrite int_str; reflexivity|]. intros [-> |(s & -> & ->)]; reflexivity.
Qed.
Theorem epoch_unpacked fs w file k : length (py_str (get_epoch w)) + 2 <= k -> fst (read_epoch (write_state fs file (py_str (get_epoch w)) k) (w_fallback w) None file) = py_str (get_epoch w).
Proof. intro L. destruct (epoch_written fs file (py_str (get_epoch w)) k L) as [E _]. apply (epoch_read _ (w_fallback w) None file (get_epoch w)); [discriminate|exact E]. Qed.
(** Within a task all get the same, whatever happens to the files. *)
Theorem epoch_stable fs fallback cache file l : (forall f, In (Read f) l -> f = file) -> exists v, forall x, In x (reads fs fallback cache l) -> x = (file, v).
Proof.
  assert (H : forall l fs c r, (forall f, In (Read f) l -> f = file) -> forall x, In x (reads fs fallback (Some (c :: r, file)) l) -> x = (file, c :: r)).
  { clear. induction l as [|o l IH]; intros fs c r A x I; [destruct I|]. destruct o as [f|fs']; cbn [reads] in I.
    - rewrite (A f (or_introl eq_refl)) in I. cbn [read_epoch] in I. rewrite seqb_refl in I. destruct I as [<-|I]; [reflexivity|]. exact (IH fs c r (fun g J => A g (or_intror J)) x I).
    - exact (IH fs' c r (fun g J => A g (or_intror J)) x I). }
  assert (K : forall fs, (exists c r, cache = Some (c :: r, file)) \/ exists z, read_epoch fs fallback cache file = (py_str z, Some (py_str z, file))).
  { intro f0. unfold read_epoch. destruct cache as [[[|c r] f]|]; [right; eexists; reflexivity| |right; eexists; reflexivity].
    destruct (seqb f file) eqn:E; [apply seqb_eq in E; subst f; left; eauto|right; eexists; reflexivity]. }
  revert fs. induction l as [|o l IH]; intros fs A; [exists []; intros x []|]. destruct o as [f|fs'].
  - destruct (K fs) as [(c & r & E)|(z & E)]; [exists (c :: r); rewrite E; apply H; exact A|].
    rewrite (A f (or_introl eq_refl)). cbn [reads]. rewrite E. destruct (str_head z) as (c & r & E'). exists (py_str z). intros x [<-|I]; [reflexivity|]. rewrite E' in *. exact (H l fs c r (fun g J => A g (or_intror J)) x I).
  - cbn [reads]. apply IH. intros g J. apply A. right. exact J.
Qed.
(** No file of the image is younger, and files that would be are alike. *)
Theorem epoch_clamped epoch m m' : (clamp epoch m = Z.min m (epoch * 1000000000))%Z /\ ((epoch * 1000000000 <= m)%Z -> (epoch * 1000000000 <= m')%Z -> clamp epoch m = clamp epoch m').
Proof.
  assert (E : forall x, clamp epoch x = Z.min x (epoch * 1000000000)) by (intro x; unfold clamp; destruct (Z.ltb (epoch * 1000000000) x) eqn:L; [apply Z.ltb_lt in L|apply Z.ltb_ge in L]; lia).
  split; [apply E|]. rewrite !E. lia.
Qed.
Definition exfs : fsys := fun n => if seqb n (s_ "f") then Some (s_ "17") else None.
Example exfs_reads : reads exfs 5 None [Read (s_ "f"); Files (fun _ => Some (s_ "18")); Read (s_ "f")] = [(s_ "f", s_ "17"); (s_ "f", s_ "17")] /\ fst (read_epoch (fun _ => Some (s_ "x")) 5 None (s_ "f")) = s_ "5".
Proof. vm_compute. auto. Qed.
Example exfs_writes : map (fun k => (write_state exfs (s_ "f") (s_ "42") k (s_ "f"), write_state exfs (s_ "f") (s_ "42") k (s_ "f.new"))) [0; 1; 2; 3; 4] = [(Some (s_ "17"), None); (Some (s_ "17"), Some []); (Some (s_ "17"), Some (s_ "4")); (Some (s_ "17"), Some (s_ "42")); (Some (s_ "42"), None)].
Proof. vm_compute. reflexivity. Qed.
(** Read before the sources are unpacked, the fallback stays, although the file is there then. *)
Theorem epoch_stale_refuted : exists fs fs' file, fs file = None /\ fs' file = Some (py_str 17) /\ reads fs 5 None [Read file; Files fs'; Read file] = [(file, py_str 5); (file, py_str 5)].
Proof. exists (fun _ => None), exfs, (s_ "f"). vm_compute. auto. Qed.

Print Assumptions epoch_git.
Print Assumptions epoch_git_searched.
Print Assumptions epoch_youngest.
Print Assumptions epoch_fallback.
Print Assumptions epoch_reproducible.
Print Assumptions epoch_atomic.
Print Assumptions epoch_read.
Print Assumptions epoch_stable.
Print Assumptions epoch_clamped.
