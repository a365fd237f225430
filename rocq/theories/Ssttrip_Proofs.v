(** Archives of shared state: lemmas. *)
From Coq Require Import Ascii String List Bool Arith Lia.
From Verif Require Import Str_Model Str_Proofs Ssttrip_Model Ssttrip_Spec.
Import ListNotations.
Open Scope list_scope.

(** ** Paths *)
Lemma strip_iff : forall p q r, strip p q = Some r <-> q = p ++ r.
Proof.
  induction p as [|x p IH]; intros q r; cbn [strip app]; [split; congruence|]. destruct q as [|y q]; [split; discriminate|]. destruct (seqb x y) eqn:E.
  - apply seqb_eq in E. subst y. rewrite IH. split; [congruence|intro H; injection H; auto].
  - split; [discriminate|]. intro H. injection H as -> _. rewrite seqb_refl in E. discriminate E.
Qed.
Lemma strip_app : forall p r, strip p (p ++ r) = Some r.
Proof. intros. apply strip_iff. reflexivity. Qed.
Lemma strip_none : forall p q, strip p q = None <-> ~ exists r, q = p ++ r.
Proof.
  intros p q. split.
  - intros H [r E]. rewrite E, strip_app in H. discriminate H.
  - intro H. destruct (strip p q) as [r|] eqn:E; [|reflexivity]. exfalso. apply H. exists r. apply strip_iff, E.
Qed.
Lemma apart_sym : forall a b, apart a b -> apart b a.
Proof. intros a b [A B]. split; assumption. Qed.
Lemma apart_both : forall a b r s, apart a b -> a ++ r = b ++ s -> False.
Proof. intros a b r s [A B] E. apply app_eq_app in E. destruct E as (m & [[E _]|[E _]]); [apply A|apply B]; exists m; exact E. Qed.
Lemma apart_strip : forall a b r, apart a b -> strip b (a ++ r) = None.
Proof. intros a b r P. apply strip_none. intros [s E]. exact (apart_both _ _ _ _ P E). Qed.
Lemma apart_app : forall a b r, apart a b -> apart (a ++ r) b.
Proof. intros a b r P. split; intros [s E]; [exact (apart_both _ _ _ _ P E)|]. rewrite <- app_assoc in E. destruct P as [_ P]. apply P. exists (r ++ s). exact E. Qed.
Lemma apart_names : forall p (x y : str), x <> y -> apart (p ++ [x]) (p ++ [y]).
Proof. intros p x y N. split; intros [r E]; rewrite <- app_assoc in E; apply app_inv_head in E; cbn in E; injection E as E; congruence. Qed.

(** ** Trees *)
Lemma sub_In : forall p t r n, In (r, n) (sub p t) <-> In (p ++ r, n) t.
Proof.
  intros p t r n. unfold sub. rewrite in_flat_map. split.
  - intros ([q m] & I & H). cbn [fst snd] in H. destruct (strip p q) as [s|] eqn:E; [|destruct H]. destruct H as [H|[]]. injection H as -> ->. apply strip_iff in E. subst q. exact I.
  - intro I. exists (p ++ r, n). split; [exact I|]. cbn [fst snd]. rewrite strip_app. left. reflexivity.
Qed.
Lemma sub_same : forall a t b t', sub a t = sub b t' -> same_below a t b t'.
Proof. intros a t b t' E r n. rewrite <- !sub_In, E. reflexivity. Qed.
Lemma has_iff : forall p t, has p t = true <-> present p t.
Proof.
  intros p t. unfold has, present. rewrite existsb_exists. split.
  - intros ([[|x r] n] & I & H); [|discriminate H]. apply sub_In in I. rewrite app_nil_r in I. exists n. exact I.
  - intros [n I]. exists ([], n). split; [|reflexivity]. apply sub_In. rewrite app_nil_r. exact I.
Qed.
Lemma has_sub : forall p t q t', sub p t = sub q t' -> has p t = has q t'.
Proof. intros. unfold has. rewrite H. reflexivity. Qed.
Lemma sub_app : forall p a b, sub p (a ++ b) = sub p a ++ sub p b.
Proof. intros. unfold sub. apply flat_map_app. Qed.
Lemma sub_deep : forall p q t, sub (p ++ q) t = sub q (sub p t).
Proof.
  intros p q. induction t as [|[x n] t IH]; [reflexivity|]. unfold sub in *. cbn [flat_map fst snd]. rewrite IH, flat_map_app. f_equal.
  destruct (strip p x) as [r|] eqn:E.
  - apply strip_iff in E. subst x. cbn [flat_map fst snd]. rewrite app_nil_r. destruct (strip q r) as [s|] eqn:F.
    + apply strip_iff in F. subst r. rewrite app_assoc, strip_app. reflexivity.
    + replace (strip (p ++ q) (p ++ r)) with (@None path); [reflexivity|]. symmetry. apply strip_none. intros [s G]. rewrite <- app_assoc in G. apply app_inv_head in G. rewrite G, strip_app in F. discriminate F.
  - replace (strip (p ++ q) x) with (@None path); [reflexivity|]. symmetry. apply strip_none. intros [s G]. rewrite G, <- app_assoc, strip_app in E. discriminate E.
Qed.
Lemma sub_remove_same : forall p t, sub p (remove p t) = [].
Proof. intros p. induction t as [|[x n] t IH]; [reflexivity|]. unfold remove, sub in *. cbn [filter fst]. destruct (strip p x) eqn:E; [exact IH|]. cbn [flat_map fst snd]. rewrite E. exact IH. Qed.
Lemma sub_remove_other : forall p c t, apart p c -> sub c (remove p t) = sub c t.
Proof.
  intros p c t A. induction t as [|[x n] t IH]; [reflexivity|]. unfold remove, sub in *. cbn [filter flat_map fst snd]. destruct (strip p x) as [r|] eqn:E.
  - apply strip_iff in E. subst x. rewrite (apart_strip p c r A). exact IH.
  - cbn [flat_map fst snd]. rewrite IH. reflexivity.
Qed.
Definition moved (a b : path) (t : tree) : tree := map (fun e => match strip a (fst e) with Some r => (b ++ r, snd e) | None => e end) (remove b t).
Lemma sub_moved : forall a b t, apart a b -> sub b (moved a b t) = sub a t.
Proof.
  intros a b t A. unfold moved. induction t as [|[x n] t IH]; [reflexivity|]. unfold remove, sub in *. cbn [filter fst]. destruct (strip b x) as [r|] eqn:E.
  - apply strip_iff in E. subst x. cbn [flat_map fst snd]. rewrite (apart_strip b a r (apart_sym _ _ A)). exact IH.
  - cbn [map flat_map fst snd]. destruct (strip a x) as [r|] eqn:F; cbn [flat_map fst snd].
    + rewrite strip_app, IH. reflexivity.
    + rewrite E. exact IH.
Qed.
Lemma sub_moved_other : forall a b c t, apart a c -> apart b c -> sub c (moved a b t) = sub c t.
Proof.
  intros a b c t A B. unfold moved. induction t as [|[x n] t IH]; [reflexivity|]. unfold remove, sub in *. cbn [filter fst]. destruct (strip b x) as [r|] eqn:E.
  - apply strip_iff in E. subst x. cbn [flat_map fst snd]. rewrite (apart_strip b c r B). exact IH.
  - cbn [map flat_map fst snd]. destruct (strip a x) as [r|] eqn:F; cbn [flat_map fst snd].
    + apply strip_iff in F. subst x. rewrite (apart_strip b c r B), (apart_strip a c r A). exact IH.
    + rewrite IH. reflexivity.
Qed.
Lemma rename_ok : forall a b t, has a t = true -> sub b t = [] -> rename a b t = Some (moved a b t).
Proof. intros a b t H E. unfold rename. rewrite H, E. reflexivity. Qed.

(** ** Packing *)
Lemma well_tail : forall place d dirs, well_placed place (d :: dirs) -> well_placed place dirs.
Proof.
  intros place d dirs (N & A & P). split; [inversion N; assumption|]. split; [intros x I; apply A; right; exact I|].
  intros a x b y c E. apply (P (d :: a) x b y c). rewrite E. reflexivity.
Qed.
Lemma well_head : forall place d dirs x, well_placed place (d :: dirs) -> In x dirs -> apart (snd d) (snd x) /\ fst x <> fst d.
Proof.
  intros place d dirs x (N & A & P) I. split.
  - apply in_split in I. destruct I as (b & c & ->). apply (P [] d b x c). reflexivity.
  - intro E. cbn [map] in N. inversion N as [|? ? NI _]; subst. apply NI. rewrite <- E. apply in_map, I.
Qed.
Lemma pack_spec : forall build dirs t, well_placed build dirs -> (forall d, In d dirs -> has (snd d) t = true) -> (forall d, In d dirs -> sub (build ++ [fst d]) t = []) ->
  exists t', pack build dirs t = Some t' /\ (forall d, In d dirs -> sub (build ++ [fst d]) t' = sub (snd d) t) /\
  (forall n, ~ In n (map fst dirs) -> sub (build ++ [n]) t' = sub (build ++ [n]) t) /\
  (forall c, apart c build -> (forall d, In d dirs -> apart (snd d) c) -> sub c t' = sub c t).
Proof.
  intros build dirs. induction dirs as [|[base src] dirs IH]; intros t W H B; [exists t; split; [reflexivity|]; split; [intros d []|]; split; reflexivity|].
  cbn [pack]. pose proof (H (base, src) (or_introl eq_refl)) as H0. pose proof (B (base, src) (or_introl eq_refl)) as B0. cbn [fst snd] in H0, B0. rewrite H0. rewrite (rename_ok _ _ _ H0 B0).
  assert (AS : apart src build) by (apply (proj1 (proj2 W) (base, src)); left; reflexivity).
  assert (AB : apart src (build ++ [base])) by (apply apart_sym, apart_app, apart_sym, AS).
  destruct (IH (moved src (build ++ [base]) t)) as (t' & E & P & Q & R).
  - exact (well_tail _ _ _ W).
  - intros d I. destruct (well_head _ _ _ _ W I) as [AD ND]. cbn [fst snd] in *. rewrite <- (H d (or_intror I)). apply has_sub. apply sub_moved_other; [exact AD|]. apply apart_app, apart_sym. apply (proj1 (proj2 W) d). right. exact I.
  - intros d I. destruct (well_head _ _ _ _ W I) as [AD ND]. cbn [fst snd] in *. rewrite sub_moved_other; [apply B; right; exact I|apply apart_sym, apart_app, apart_sym, AS|apply apart_names; congruence].
  - exists t'. split; [exact E|]. split; [|split].
    + intros d [<-|I].
      * cbn [fst snd]. rewrite Q; [apply sub_moved, AB|]. destruct W as [N _]. cbn [map fst] in N. inversion N. assumption.
      * rewrite (P d I). destruct (well_head _ _ _ _ W I) as [AD ND]. cbn [fst snd] in *. apply sub_moved_other; [exact AD|]. apply apart_app, apart_sym. apply (proj1 (proj2 W) d). right. exact I.
    + intros n NI. cbn [map fst] in NI. rewrite Q by (intro I; apply NI; right; exact I). apply sub_moved_other; [apply apart_sym, apart_app, apart_sym, AS|]. apply apart_names. intro EE. apply NI. left. exact EE.
    + intros c AC D. rewrite R; [|exact AC|intros d I; apply D; right; exact I]. apply sub_moved_other; [apply (D (base, src)); left; reflexivity|]. apply apart_app, apart_sym, AC.
Qed.
Lemma install_spec : forall inst dirs t, well_placed inst dirs -> (forall d, In d dirs -> has (inst ++ [fst d]) t = true) ->
  exists t', installpkgdir inst dirs t = Some t' /\ (forall d, In d dirs -> sub (snd d) t' = sub (inst ++ [fst d]) t) /\
  (forall c, apart c inst -> (forall d, In d dirs -> apart (snd d) c) -> sub c t' = sub c t).
Proof.
  intros inst dirs. induction dirs as [|[base src] dirs IH]; intros t W H; [exists t; split; [reflexivity|]; split; [intros d []|reflexivity]|].
  cbn [installpkgdir]. assert (AS : apart src inst) by (apply (proj1 (proj2 W) (base, src)); left; reflexivity).
  assert (AB : apart src (inst ++ [base])) by (apply apart_sym, apart_app, apart_sym, AS).
  assert (HB : has (inst ++ [base]) (remove src t) = true) by (rewrite (has_sub _ _ _ _ (sub_remove_other src (inst ++ [base]) t AB)); exact (H (base, src) (or_introl eq_refl))).
  rewrite (rename_ok _ _ _ HB (sub_remove_same src t)).
  destruct (IH (moved (inst ++ [base]) src (remove src t))) as (t' & E & P & R).
  - exact (well_tail _ _ _ W).
  - intros d I. destruct (well_head _ _ _ _ W I) as [AD ND]. cbn [fst snd] in *. rewrite <- (H d (or_intror I)). apply has_sub.
    assert (AD2 : apart src (inst ++ [fst d])) by (apply apart_sym, apart_app, apart_sym, AS). rewrite sub_moved_other; [|apply apart_names; congruence|exact AD2]. apply sub_remove_other, AD2.
  - exists t'. split; [exact E|]. split.
    + intros d [<-|I].
      * cbn [fst snd]. rewrite R; [|exact AS|intros d I; apply apart_sym; exact (proj1 (well_head _ _ _ _ W I))]. rewrite sub_moved by (apply apart_sym, AB). apply sub_remove_other, AB.
      * rewrite (P d I). destruct (well_head _ _ _ _ W I) as [AD ND]. cbn [fst snd] in *. assert (AD2 : apart src (inst ++ [fst d])) by (apply apart_sym, apart_app, apart_sym, AS).
        rewrite sub_moved_other; [|apply apart_names; congruence|exact AD2]. apply sub_remove_other, AD2.
    + intros c AC D. assert (SC : apart src c) by (apply (D (base, src)); left; reflexivity). rewrite R; [|exact AC|intros d I; apply D; right; exact I].
      rewrite sub_moved_other; [|apply apart_app, apart_sym, AC|exact SC]. apply sub_remove_other, SC.
Qed.
Lemma start_spec : forall build t, (forall n, sub (build ++ [n]) (remove build t ++ [(build, NDir)]) = []) /\ (forall c, apart build c -> sub c (remove build t ++ [(build, NDir)]) = sub c t).
Proof.
  intros build t. split.
  - intro n. rewrite sub_deep, sub_app, sub_remove_same. unfold sub. cbn [flat_map fst snd app]. rewrite <- (app_nil_r build) at 2. rewrite strip_app. reflexivity.
  - intros c A. rewrite sub_app, sub_remove_other by exact A. unfold sub at 2. cbn [flat_map fst snd]. pose proof (apart_strip build c [] A) as E. rewrite app_nil_r in E. rewrite E. rewrite !app_nil_r. reflexivity.
Qed.
Lemma shown_hidden : forall n, shown n -> hidden n = false.
Proof. intros n S. unfold hidden. destruct (startswith (s_ ".") n) eqn:E; [|reflexivity]. apply startswith_iff in E. destruct E as [t E]. exfalso. exact (S t E). Qed.
Lemma archive_spec : forall build t n, shown n -> has (build ++ [n]) t = true -> exists a, archive build t = Some a /\ forall m, shown m -> sub [m] a = sub (build ++ [m]) t.
Proof.
  intros build t n S H. unfold archive.
  assert (P : forall m, shown m -> sub [m] (expanded (inside build t)) = sub (build ++ [m]) t).
  { intros m M. rewrite sub_deep. unfold expanded, inside. clear - M. induction (sub build t) as [|[[|x r] v] l IH]; [reflexivity| |].
    - cbn [filter fst]. rewrite IH. reflexivity.
    - cbn [filter fst]. destruct (hidden x) eqn:E; cbn [negb].
      + rewrite IH. unfold sub. cbn [flat_map fst snd strip]. destruct (seqb m x) eqn:F; [|reflexivity]. apply seqb_eq in F. subst x. rewrite (shown_hidden m M) in E. discriminate E.
      + unfold sub in *. cbn [flat_map fst snd]. rewrite IH. reflexivity. }
  exists (expanded (inside build t)). split; [|exact P]. destruct (inside build t) as [|e l] eqn:EA; [reflexivity|]. destruct (expanded (e :: l)) as [|e' l'] eqn:ES; [|reflexivity].
  exfalso. pose proof (P n S) as Q. cbn in Q. rewrite (has_sub (build ++ [n]) t [] []) in H by (symmetry; exact Q). discriminate H.
Qed.
Lemma unpack_spec : forall inst a t, (forall n, sub (inst ++ [n]) (remove inst t ++ (inst, NDir) :: map (fun e => (inst ++ fst e, snd e)) a) = sub [n] a) /\
  (forall c, apart inst c -> sub c (remove inst t ++ (inst, NDir) :: map (fun e => (inst ++ fst e, snd e)) a) = sub c t).
Proof.
  intros inst a t. set (m := map (fun e => (inst ++ fst e, snd e)) a).
  assert (E : remove inst t ++ (inst, NDir) :: m = (remove inst t ++ [(inst, NDir)]) ++ m) by (rewrite <- app_assoc; reflexivity). rewrite E. destruct (start_spec inst t) as [S1 S2]. split.
  - intro n. rewrite sub_app. unfold tree, path in *. rewrite S1. cbn [app]. rewrite sub_deep. f_equal. unfold m. clear. induction a as [|[r v] a IH]; [reflexivity|]. unfold sub in *. cbn [map flat_map fst snd]. rewrite strip_app, IH. reflexivity.
  - intros c A. rewrite sub_app. unfold tree, path in *. rewrite (S2 c A). rewrite <- (app_nil_r (sub c t)) at 2. f_equal. unfold m. clear - A. induction a as [|[r v] a IH]; [reflexivity|]. unfold sub in *. cbn [map flat_map fst snd]. rewrite (apart_strip inst c r A). exact IH.
Qed.

(** ** Files *)
Lemma put_In : forall n c f m x, In (m, x) (put n c f) -> (m = n /\ x = c) \/ (m <> n /\ In (m, x) f) \/ (~ NoDup (map fst f)).
Proof.
  induction f as [|[k y] f IH]; intros m x I; cbn [put] in I; [destruct I as [I|[]]; injection I as <- <-; auto|]. destruct (seqb k n) eqn:E.
  - apply seqb_eq in E. subst k. destruct I as [I|I]; [injection I as <- <-; auto|]. destruct (str_eq_dec m n) as [->|N]; [|right; left; split; [exact N|right; exact I]]. right. right. intro D. cbn [map fst] in D. inversion D as [|? ? NI _]; subst. apply NI. apply in_map_iff. exists (n, x). auto.
  - destruct I as [I|I]; [injection I as <- <-; right; left; split; [intros ->; rewrite seqb_refl in E; discriminate E|left; reflexivity]|].
    destruct (IH m x I) as [H|[[N H]|H]]; [left; exact H|right; left; split; [exact N|right; exact H]|]. right. right. intro D. apply H. cbn [map fst] in D. inversion D. assumption.
Qed.
Lemma put_there : forall n c f, In (n, c) (put n c f).
Proof. induction f as [|[k y] f IH]; cbn [put]; [left; reflexivity|]. destruct (seqb k n); [left; reflexivity|right; exact IH]. Qed.
Lemma put_keeps : forall n c f m x, m <> n -> In (m, x) f -> In (m, x) (put n c f).
Proof.
  induction f as [|[k y] f IH]; intros m x N I; [destruct I|]. cbn [put]. destruct (seqb k n) eqn:E.
  - destruct I as [I|I]; [injection I as -> _; apply seqb_eq in E; congruence|right; exact I].
  - destruct I as [I|I]; [left; exact I|right; apply IH; assumption].
Qed.
Lemma put_names : forall n c f m, In m (map fst (put n c f)) <-> m = n \/ In m (map fst f).
Proof.
  induction f as [|[k y] f IH]; intro m; cbn [put map fst In]; [intuition|]. destruct (seqb k n) eqn:E; cbn [map fst In].
  - apply seqb_eq in E. subst k. intuition.
  - rewrite IH. intuition.
Qed.
Lemma put_nodup : forall n c f, NoDup (map fst f) -> NoDup (map fst (put n c f)).
Proof.
  induction f as [|[k y] f IH]; intro N; cbn [put]; [repeat constructor; intros []|]. cbn [map fst] in N. inversion N as [|? ? NK NB]; subst. destruct (seqb k n) eqn:E.
  - apply seqb_eq in E. subst k. cbn [map fst]. constructor; assumption.
  - cbn [map fst]. constructor; [|apply IH, NB]. intro I. apply put_names in I. destruct I as [->|I]; [rewrite seqb_refl in E; discriminate E|exact (NK I)].
Qed.
Lemma over_nodup : forall a f, NoDup (map fst f) -> NoDup (map fst (over a f)).
Proof. induction a as [|[n c] a IH]; intros f N; [exact N|]. unfold over. cbn [fold_left fst snd]. apply (IH (put n c f)), put_nodup, N. Qed.
Lemma over_In : forall a f, NoDup (map fst a) -> NoDup (map fst f) -> forall n c, In (n, c) (over a f) <-> In (n, c) a \/ (~ In n (map fst a) /\ In (n, c) f).
Proof.
  induction a as [|[m x] a IH]; intros f NA NF n c; [unfold over; cbn; intuition|]. cbn [map fst] in NA. inversion NA as [|? ? NM NA']; subst.
  unfold over. cbn [fold_left fst snd]. change (fold_left (fun f e => put (fst e) (snd e) f) a (put m x f)) with (over a (put m x f)). rewrite (IH (put m x f) NA' (put_nodup m x f NF)). cbn [map fst In]. split.
  - intros [I|[NI I]]; [left; right; exact I|]. destruct (put_In _ _ _ _ _ I) as [[-> ->]|[[N I']|D]]; [left; left; reflexivity| |contradiction]. right. split; [intros [E|E]; [congruence|exact (NI E)]|exact I'].
  - intros [[I|I]|[NI I]].
    + injection I as <- <-. right. split; [exact NM|apply put_there].
    + left. exact I.
    + right. split; [intro J; apply NI; right; exact J|]. apply put_keeps; [intros ->; apply NI; left; reflexivity|exact I].
Qed.
Lemma in_names : forall (f : files) n c, In (n, c) f -> In n (map fst f).
Proof. intros f n c I. apply in_map_iff. exists (n, c). auto. Qed.
Lemma same_content : forall (f : files) n c d, NoDup (map fst f) -> In (n, c) f -> In (n, d) f -> c = d.
Proof.
  induction f as [|[k y] f IH]; intros n c d N I J; [destruct I|]. cbn [map fst] in N. inversion N as [|? ? NK NB]; subst. destruct I as [I|I], J as [J|J].
  - congruence.
  - injection I as -> ->. exfalso. apply NK. exact (in_names _ _ _ J).
  - injection J as -> ->. exfalso. apply NK. exact (in_names _ _ _ I).
  - exact (IH n c d NB I J).
Qed.
