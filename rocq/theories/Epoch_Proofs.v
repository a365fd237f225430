(** Lemmas on SOURCE_DATE_EPOCH. *)
From Coq Require Import Ascii String List Bool Arith NArith ZArith Lia.
From Verif Require Import Str_Model Str_Proofs Epoch_Model Epoch_Spec.
Import ListNotations.
Open Scope list_scope.

Section tree_induction.
  Variable P : tree -> Prop.
  Hypothesis H : forall fs ds, (forall n s, In (n, s) ds -> P s) -> P (Dir fs ds).
  Fixpoint tree_nested (t : tree) : P t :=
    match t with
    | Dir fs ds => H fs ds (fun n s I => proj1 (Forall_forall (fun e => P (snd e)) ds) ((fix go (l : list (str * tree)) : Forall (fun e => P (snd e)) l :=
        match l with
        | [] => Forall_nil _
        | (k, x) :: l => Forall_cons (k, x) (tree_nested x) (go l)
        end) ds) (n, s) I)
    end.
End tree_induction.

(** ** The youngest file *)
Lemma times_sub (l : list (str * tree)) m : In m ((fix go (l : list (str * tree)) : list Z := match l with [] => [] | (_, s) :: l => times s ++ go l end) l) <-> exists n s, In (n, s) l /\ In m (times s).
Proof.
  induction l as [|[k x] l IH]; [split; [intros []|intros (n & s & [] & _)]|]. rewrite in_app_iff, IH. split.
  - intros [I|(n & s & I & J)]; [exists k, x; split; [left; reflexivity|exact I]|exists n, s; split; [right; exact I|exact J]].
  - intros (n & s & [E|I] & J); [injection E as <- <-; left; exact J|right; exists n, s; auto].
Qed.
Lemma ignored_iff n : ignored n = false <-> (forall r, n <> "."%char :: r) /\ n <> s_ "singletask.lock".
Proof.
  unfold ignored. rewrite orb_false_iff, seqb_neq. split.
  - intros [A B]. split; [|exact B]. intros r ->. discriminate A.
  - intros [A B]. split; [|exact B]. destruct n as [|c r]; [reflexivity|]. destruct (aeqb c "."%char) eqn:E; [|reflexivity]. apply aeqb_eq in E. subst c. exfalso. exact (A r eq_refl).
Qed.
Lemma counts_one n : counts [n] <-> ignored n = false.
Proof.
  rewrite ignored_iff. split.
  - intros (q & k & E & A). destruct q as [|x q]; [injection E as <-; exact A|]. destruct q; discriminate E.
  - intro A. exists [], n. auto.
Qed.
Lemma counts_cons n p : p <> [] -> counts (n :: p) <-> counts p.
Proof.
  intro NE. split; intros (q & k & E & A).
  - destruct q as [|x q]; [injection E as _ E; exfalso; exact (NE E)|]. injection E as _ E. exists q, k. auto.
  - exists (n :: q), k. split; [rewrite E; reflexivity|exact A].
Qed.
Lemma file_nonempty t p m : file_at t p m -> p <> [].
Proof. destruct 1; discriminate. Qed.
Lemma times_iff t : forall m, In m (times t) <-> exists p, file_at t p m /\ counts p.
Proof.
  induction t as [fs ds IH] using tree_nested. intro m. cbn [times]. rewrite in_app_iff, times_sub. split.
  - intros [I|(n & s & I & J)].
    + apply in_map_iff in I. destruct I as ([n k] & <- & I). apply filter_In in I. destruct I as [I F]. cbn [fst snd] in *. exists [n]. split; [constructor; exact I|]. apply counts_one. apply negb_true_iff. exact F.
    + apply (IH n s I) in J. destruct J as (p & F & C). exists (n :: p). split; [econstructor; [exact I|exact F]|]. apply counts_cons; [exact (file_nonempty _ _ _ F)|exact C].
  - intros (p & F & C). inversion F as [fs' ds' n k I|fs' ds' n s q k I F']; subst.
    + left. apply in_map_iff. exists (n, m). split; [reflexivity|]. apply filter_In. split; [exact I|]. cbn [fst]. apply negb_true_iff. apply counts_one. exact C.
    + right. exists n, s. split; [exact I|]. apply (IH n s I). exists q. split; [exact F'|]. exact (proj1 (counts_cons n q (file_nonempty _ _ _ F')) C).
Qed.
Lemma newer_max l : Forall (fun m => 0 <= m)%Z l -> forall a, (0 <= a)%Z -> exists v, fold_left newer l (Some a) = Some v /\ (v = a \/ In v l) /\ (a <= v)%Z /\ forall m, In m l -> (m <= v)%Z.
Proof.
  induction 1 as [|m l P F IH]; intros a A; [exists a; split; [reflexivity|]; split; [left; reflexivity|]; split; [lia|intros m []]|].
  assert (E : fold_left newer (m :: l) (Some a) = fold_left newer l (Some (Z.max a m))).
  { cbn [fold_left]. f_equal. unfold newer. destruct (Z.eqb a 0) eqn:Z0; cbn [orb]; [apply Z.eqb_eq in Z0; rewrite Z.max_r by lia; reflexivity|]. destruct (Z.ltb a m) eqn:L; [apply Z.ltb_lt in L; rewrite Z.max_r by lia; reflexivity|apply Z.ltb_ge in L; rewrite Z.max_l by lia; reflexivity]. }
  rewrite E. destruct (IH (Z.max a m)) as (v & E' & W & L & M); [lia|]. exists v. split; [exact E'|]. split; [destruct W as [W|W]; [destruct (Z.max_spec a m) as [[_ X]|[_ X]]; rewrite X in W; [right; left; symmetry; exact W|left; exact W]|right; right; exact W]|]. split; [lia|]. intros k [<-|I]; [lia|exact (M k I)].
Qed.
Lemma newer_spec l : Forall (fun m => 0 <= m)%Z l -> match fold_left newer l None with Some v => In v l /\ forall m, In m l -> (m <= v)%Z | None => l = [] end.
Proof.
  destruct 1 as [|m l P F]; [reflexivity|]. cbn [fold_left newer]. destruct (newer_max l F m P) as (v & -> & W & L & M). split; [destruct W as [-> |W]; [left; reflexivity|right; exact W]|]. intros k [<-|I]; [exact L|exact (M k I)].
Qed.
Lemma times_positive t : from_1970 t -> Forall (fun m => 0 <= m)%Z (times t).
Proof. intro F. apply Forall_forall. intros m I. apply times_iff in I. destruct I as (p & A & _). exact (F p m A). Qed.
Lemma youngest_times t : from_1970 t -> match fold_left newer (times t) None with Some v => youngest t v | None => forall p m, file_at t p m -> ~ counts p end.
Proof.
  intro F. pose proof (newer_spec (times t) (times_positive t F)) as S. destruct (fold_left newer (times t) None) as [v|].
  - destruct S as [I M]. split; [apply times_iff; exact I|]. intros p m A C. apply M. apply times_iff. exists p. auto.
  - intros p m A C. assert (I : In m (times t)) by (apply times_iff; exists p; auto). rewrite S in I. destruct I.
Qed.
Lemma youngest_unique t v v' : youngest t v -> youngest t v' -> v = v'.
Proof. intros [(p & A & C) M] [(p' & A' & C') M']. specialize (M p' v' A' C'). specialize (M' p v A C). lia. Qed.
(** ** Directories *)
Lemma find_name (ds : list (str * tree)) n s : NoDup (map fst ds) -> In (n, s) ds -> find (fun e => seqb (fst e) n) ds = Some (n, s).
Proof.
  induction ds as [|[k x] ds IH]; intros ND I; [destruct I|]. cbn [find fst]. inversion ND as [|? ? N ND']; subst. destruct I as [E|I].
  - injection E as -> ->. rewrite seqb_refl. reflexivity.
  - destruct (seqb k n) eqn:E; [|exact (IH ND' I)]. apply seqb_eq in E. subst k. exfalso. apply N. apply in_map_iff. exists (n, s). auto.
Qed.
Lemma find_in (ds : list (str * tree)) n k s : find (fun e => seqb (fst e) n) ds = Some (k, s) -> In (n, s) ds.
Proof. intro E. apply find_some in E. destruct E as [I E]. cbn [fst] in E. apply seqb_eq in E. subst k. exact I. Qed.
Lemma sub_dir p : forall t, sane t -> (is_dir t p = true <-> dir_at t p).
Proof.
  unfold is_dir. induction p as [|n p IH]; intros t S; [split; [intros _; constructor|reflexivity]|]. destruct S as [fs ds ND SS]. cbn [sub]. split.
  - destruct (find (fun e => seqb (fst e) n) ds) as [[k s]|] eqn:F; [|discriminate]. intro H. apply find_in in F. apply dir_below with s; [exact F|]. apply (IH s (SS n s F)). exact H.
  - intro D. inversion D as [|fs' ds' n' s p' I D']; subst. rewrite (find_name ds n s ND I). apply (IH s (SS n s I)). exact D'.
Qed.
Lemma sub_file p : forall t s q m, sane t -> sub t p = Some s -> q <> [] -> (file_at t (p ++ q) m <-> file_at s q m).
Proof.
  induction p as [|n p IH]; intros t s q m S E NE; [injection E as <-; reflexivity|]. destruct S as [fs ds ND SS]. cbn [sub] in E. destruct (find (fun e => seqb (fst e) n) ds) as [[k x]|] eqn:F; [|discriminate E]. apply find_in in F. rewrite <- (IH x s q m (SS n x F) E NE). cbn [app]. split.
  - intro A. assert (G : exists x', In (n, x') ds /\ file_at x' (p ++ q) m).
    { inversion A; subst; [|eexists; split; eassumption]. exfalso. match goal with X : [] = p ++ q |- _ => symmetry in X; apply app_eq_nil in X; exact (NE (proj2 X)) end. }
    destruct G as (x' & I & A'). assert (X : x' = x) by (pose proof (find_name ds n x' ND I) as F1; pose proof (find_name ds n x ND F) as F2; congruence). subst x'. exact A'.
  - intro A. econstructor; [exact F|exact A].
Qed.
(** ** The repository *)
Lemma excluded_iff n : excluded n = true <-> In n [s_ "build"; s_ "image"; s_ "license-destdir"; s_ "patches"; s_ "pseudo"; s_ "recipe-sysroot"; s_ "recipe-sysroot-native"; s_ "sysroot-destdir"; s_ "temp"].
Proof. unfold excluded. apply mem_str_In. Qed.
Lemma walk_found t : forall p, walk_git t = Some p -> dir_at t p /\ exists q, p = q ++ [s_ ".git"] /\ Forall (fun n => excluded n = false) q.
Proof.
  induction t as [fs ds IH] using tree_nested. intros p E. cbn [walk_git] in E. destruct (existsb (fun e => seqb (fst e) (s_ ".git")) ds) eqn:G.
  - injection E as <-. apply existsb_exists in G. destruct G as ([n s] & I & G). cbn [fst] in G. apply seqb_eq in G. subst n. split; [apply dir_below with s; [exact I|constructor]|]. exists []. split; [reflexivity|constructor].
  - clear G. assert (X : exists n s q, In (n, s) ds /\ excluded n = false /\ walk_git s = Some q /\ p = n :: q).
    { clear IH. induction ds as [|[n s] ds IHd]; [discriminate E|]. destruct (excluded n) eqn:EX.
      - destruct (IHd E) as (n' & s' & q & I & A & B & C). exists n', s', q. split; [right; exact I|auto].
      - destruct (walk_git s) as [q|] eqn:W; [injection E as <-; exists n, s, q; split; [left; reflexivity|auto]|]. destruct (IHd E) as (n' & s' & q & I & A & B & C). exists n', s', q. split; [right; exact I|auto]. }
    destruct X as (n & s & q & I & EX & W & ->). destruct (IH n s I q W) as (D & r & -> & F). split; [apply dir_below with s; assumption|]. exists (n :: r). split; [reflexivity|constructor; assumption].
Qed.
Lemma walk_none t : walk_git t = None -> forall q, dir_at t (q ++ [s_ ".git"]) -> ~ Forall (fun n => excluded n = false) q.
Proof.
  induction t as [fs ds IH] using tree_nested. intros E q D F. cbn [walk_git] in E. destruct (existsb (fun e => seqb (fst e) (s_ ".git")) ds) eqn:G; [discriminate E|]. destruct q as [|n q].
  - inversion D as [|fs' ds' n' s p' I D']; subst. assert (X : existsb (fun e => seqb (fst e) (s_ ".git")) ds = true) by (apply existsb_exists; exists (s_ ".git", s); split; [exact I|apply seqb_refl]). rewrite X in G. discriminate G.
  - inversion D as [|fs' ds' n' s p' I D']; subst. inversion F as [|? ? EX F']; subst.
    assert (W : walk_git s = None).
    { clear IH G. induction ds as [|[k x] ds IHd]; [destruct I|]. destruct I as [Q|I].
      - injection Q as -> ->. rewrite EX in E. destruct (walk_git s); [discriminate E|reflexivity].
      - apply IHd; [|apply dir_below with s; assumption|exact I]. destruct (excluded k); [exact E|]. destruct (walk_git x); [discriminate E|exact E]. }
    exact (IH n s I W q D' F').
Qed.
(** ** Numbers *)
Lemma rstrip_plain s : Forall (fun c => is_space c = false) s -> strip s = s.
Proof.
  intro F. unfold strip. assert (L : lstrip s = s) by (destruct F as [|c s C F]; [reflexivity|]; cbn; rewrite C; reflexivity). rewrite L. clear L. unfold rstrip.
  assert (R : lstrip (rev s) = rev s) by (apply Forall_rev in F; destruct F as [|c r C F]; [reflexivity|]; cbn; rewrite C; reflexivity).
  rewrite R. apply rev_involutive.
Qed.
Lemma dec_digits n : Forall (fun c => is_digit c = true) (dec n).
Proof. destruct (dec_spec n) as (_ & F & _). exact F. Qed.
Lemma dec_head n : exists c r, dec n = c :: r.
Proof. destruct (dec_spec n) as (N & _). destruct (dec n) as [|c r]; [exfalso; apply N; reflexivity|exists c, r; reflexivity]. Qed.
Lemma all_digits s : Forall (fun c => is_digit c = true) s -> forallb is_digit s = true.
Proof. intro F. apply forallb_forall. apply Forall_forall. exact F. Qed.
Lemma digits_plain s : Forall (fun c => is_digit c = true) s -> Forall (fun c => is_space c = false) s.
Proof. apply Forall_impl. intros c D. apply digit_not_space. exact D. Qed.
Lemma int_str z : py_int (py_str z) = Some z.
Proof.
  assert (POS : forall n, match dec n with [] => None | _ => if forallb is_digit (dec n) then Some (Z.of_N (dec_val (dec n))) else None end = Some (Z.of_N n)).
  { intro n. destruct (dec_head n) as (c & r & E). rewrite (all_digits _ (dec_digits n)). destruct (dec_spec n) as (_ & _ & V & _). rewrite V. rewrite E. reflexivity. }
  assert (P : forall n, py_int (dec n) = Some (Z.of_N n)).
  { intro n. unfold py_int. rewrite (rstrip_plain _ (digits_plain _ (dec_digits n))). pose proof (POS n) as Q. destruct (dec_head n) as (c & r & E). pose proof (dec_digits n) as D. rewrite E in *. inversion D as [|? ? DC _]; subst. destruct (aeqb c "-"%char) eqn:M; [apply aeqb_eq in M; subst c; discriminate DC|]. destruct (aeqb c "+"%char) eqn:PL; [apply aeqb_eq in PL; subst c; discriminate DC|]. exact Q. }
  destruct z as [|p|p]; cbn [py_str]; [exact (P 0%N)|rewrite P; cbn; reflexivity|].
  unfold py_int. rewrite rstrip_plain by (constructor; [reflexivity|apply digits_plain, dec_digits]). change (aeqb "-"%char "-"%char) with true. cbn match. rewrite POS. reflexivity.
Qed.
Lemma str_head z : exists c r, py_str z = c :: r.
Proof. destruct z; cbn [py_str]; [apply dec_head|apply dec_head|eexists; eexists; reflexivity]. Qed.
Lemma put_same fs n v : put fs n v n = v.
Proof. unfold put. rewrite seqb_refl. reflexivity. Qed.
Lemma put_other fs n v k : k <> n -> put fs n v k = fs k.
Proof. intro N. unfold put. rewrite (proj2 (seqb_neq k n) N). reflexivity. Qed.
Lemma tmp_other file : file <> file ++ s_ ".new".
Proof. intro E. apply (f_equal (@length ascii)) in E. rewrite app_length in E. cbn in E. lia. Qed.
Lemma from_git_none w : ~ git_uri w -> from_git w = None.
Proof.
  intro N. unfold from_git. assert (A : contains_sub (s_ "git://") (w_uri w) = false) by (apply not_true_iff_false; intro X; apply contains_sub_iff in X; apply N; left; exact X). assert (B : contains_sub (s_ "gitsm://") (w_uri w) = false) by (apply not_true_iff_false; intro X; apply contains_sub_iff in X; apply N; right; exact X). rewrite A, B. reflexivity.
Qed.
Lemma from_git_uri w : git_uri w -> from_git w = match find_git w with Some p => w_git w p | None => None end.
Proof. intros [U|U]; apply contains_sub_iff in U; unfold from_git; rewrite U; cbn [negb andb]; rewrite ?andb_false_r; reflexivity. Qed.
Lemma find_usual w p : sane (w_tree w) -> usual_git w p -> find_git w = Some p.
Proof.
  intros S [[-> D]|(N & -> & D)]; unfold find_git.
  - rewrite (proj2 (sub_dir _ _ S) D). reflexivity.
  - assert (F : is_dir (w_tree w) [s_ "git"; s_ ".git"] = false) by (apply not_true_iff_false; intro X; apply (proj1 (sub_dir _ _ S)) in X; exact (N X)). rewrite F, (proj2 (sub_dir _ _ S) D). reflexivity.
Qed.
