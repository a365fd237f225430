(** Lemmas on the installer. *)
From Coq Require Import Ascii String List Bool Arith Lia.
From Verif Require Import Str_Model Str_Proofs Install_Model Install_Spec.
Import ListNotations.
Open Scope list_scope.

Lemma after_prefix_iff p s v : after_prefix p s = Some v <-> s = p ++ v.
Proof.
  unfold after_prefix. destruct (startswith p s) eqn:E.
  - apply startswith_iff in E. destruct E as [r ->]. rewrite skipn_app, skipn_all, Nat.sub_diag. cbn [app skipn]. split; [intro H; injection H as ->; reflexivity|intro H; apply app_inv_head in H; subst; reflexivity].
  - split; [discriminate|]. intros ->. rewrite startswith_app in E. discriminate E.
Qed.
Lemma after_prefix_none p s : after_prefix p s = None <-> ~ begins p s.
Proof.
  unfold begins. destruct (after_prefix p s) as [v|] eqn:E.
  - apply after_prefix_iff in E. split; [discriminate|]. intro N. exfalso. apply N. exists v. exact E.
  - split; [|reflexivity]. intros _ [v V]. apply (proj2 (after_prefix_iff p s v)) in V. rewrite V in E. discriminate E.
Qed.
Lemma startswith_begins p s : startswith p s = true <-> begins p s.
Proof. rewrite startswith_iff. reflexivity. Qed.
Lemma startswith_not p s : startswith p s = false <-> ~ begins p s.
Proof. rewrite <- startswith_begins. destruct (startswith p s); split; intro H; congruence. Qed.

(** ** The configuration *)
Lemma fold_setting {A B : Type} (step : A -> str -> A) (f : A -> B) p (g : str -> B) c0 :
  (forall c w, (exists v, w = p ++ v /\ f (step c w) = g v) \/ (~ begins p w /\ f (step c w) = f c)) ->
  forall ws, (exists a v b, ws = a ++ (p ++ v) :: b /\ (forall w, In w b -> ~ begins p w) /\ f (fold_left step ws c0) = g v) \/ ((forall w, In w ws -> ~ begins p w) /\ f (fold_left step ws c0) = f c0).
Proof.
  intros H ws. induction ws as [|w ws IH] using rev_ind; [right; split; [intros w []|reflexivity]|].
  destruct (H (fold_left step ws c0) w) as [(v & -> & E)|[N E]].
  - left. exists ws, v, []. split; [reflexivity|]. split; [intros w []|rewrite fold_left_app; exact E].
  - change (f (step (fold_left step ws c0) w) = f (fold_left step ws c0)) in E. assert (E2 : f (fold_left step (ws ++ [w]) c0) = f (fold_left step ws c0)) by (rewrite fold_left_app; exact E). destruct IH as [(a & v & b & -> & NB & F)|[NB F]].
    + left. exists a, v, (b ++ [w]). split; [rewrite <- app_assoc; reflexivity|]. split; [|rewrite E2; exact F]. intros x I. rewrite in_app_iff in I. destruct I as [I|[<-|[]]]; [exact (NB x I)|exact N].
    + right. split; [|rewrite E2; exact F]. intros x I. rewrite in_app_iff in I. destruct I as [I|[<-|[]]]; [exact (NB x I)|exact N].
Qed.
Inductive kind (m : machine) (c : config) (x : str) : config -> Prop :=
| k_un : x = s_ "installer.unattended" -> kind m c x (mkConfig true (c_abort c) (c_timeout c) (c_image c) (c_target c) (c_overwrite c))
| k_image v : x = s_ "installer.image.uri=" ++ v -> kind m c x (mkConfig true (c_abort c) (c_timeout c) v (c_target c) (c_overwrite c))
| k_target v : x = s_ "installer.target.dev=" ++ v -> kind m c x (mkConfig true (c_abort c) (c_timeout c) (c_image c) (pick_target m v) (c_overwrite c))
| k_over v : x = s_ "installer.target.overwrite" ++ v -> kind m c x (mkConfig true (c_abort c) (c_timeout c) (c_image c) (c_target c) (s_ "OVERWRITE"))
| k_abort : x = s_ "installer.unattended.abort.enable" -> kind m c x (mkConfig (c_unattended c) (s_ "true") (c_timeout c) (c_image c) (c_target c) (c_overwrite c))
| k_time v : x = s_ "installer.unattended.abort.timeout=" ++ v -> kind m c x (mkConfig (c_unattended c) (c_abort c) v (c_image c) (c_target c) (c_overwrite c))
| k_other : x <> s_ "installer.unattended" -> x <> s_ "installer.unattended.abort.enable" -> ~ begins (s_ "installer.image.uri=") x -> ~ begins (s_ "installer.target.dev=") x -> ~ begins (s_ "installer.target.overwrite") x -> kind m c x c.
Lemma word_kind m c x : kind m c x (cmdline_word m c x).
Proof.
  unfold cmdline_word. destruct (seqb x (s_ "installer.unattended")) eqn:E1; [apply seqb_eq in E1; apply k_un; exact E1|].
  destruct (after_prefix (s_ "installer.image.uri=") x) as [v|] eqn:E2; [apply after_prefix_iff in E2; apply k_image; exact E2|].
  destruct (after_prefix (s_ "installer.target.dev=") x) as [v|] eqn:E3; [apply after_prefix_iff in E3; apply k_target; exact E3|].
  destruct (after_prefix (s_ "installer.target.overwrite") x) as [v|] eqn:E4; [apply after_prefix_iff in E4; exact (k_over m c x v E4)|].
  destruct (seqb x (s_ "installer.unattended.abort.enable")) eqn:E5; [apply seqb_eq in E5; apply k_abort; exact E5|].
  destruct (after_prefix (s_ "installer.unattended.abort.timeout=") x) as [v|] eqn:E6; [apply after_prefix_iff in E6; apply k_time; exact E6|].
  apply after_prefix_none in E2, E3, E4. apply seqb_neq in E1, E5. apply k_other; assumption.
Qed.
Ltac apart := let u := fresh in let U := fresh in intros [u U]; subst; cbn in U; discriminate U.
Lemma image_step m c w : (exists v, w = s_ "installer.image.uri=" ++ v /\ c_image (cmdline_word m c w) = v) \/ (~ begins (s_ "installer.image.uri=") w /\ c_image (cmdline_word m c w) = c_image c).
Proof. destruct (word_kind m c w) as [E|v E|v E|v E|E|v E|N1 N2 N3 N4 N5]; cbn [c_image]; [| left; exists v; auto | | | | |]; right; (split; [first [assumption|apart]|reflexivity]). Qed.
Lemma target_step m c w : (exists v, w = s_ "installer.target.dev=" ++ v /\ c_target (cmdline_word m c w) = pick_target m v) \/ (~ begins (s_ "installer.target.dev=") w /\ c_target (cmdline_word m c w) = c_target c).
Proof. destruct (word_kind m c w) as [E|v E|v E|v E|E|v E|N1 N2 N3 N4 N5]; cbn [c_target]; [| | left; exists v; auto | | | |]; right; (split; [first [assumption|apart]|reflexivity]). Qed.
Lemma over_step m c w : (exists v, w = s_ "installer.target.overwrite" ++ v /\ c_overwrite (cmdline_word m c w) = s_ "OVERWRITE") \/ (~ begins (s_ "installer.target.overwrite") w /\ c_overwrite (cmdline_word m c w) = c_overwrite c).
Proof. destruct (word_kind m c w) as [E|v E|v E|v E|E|v E|N1 N2 N3 N4 N5]; cbn [c_overwrite]; [| | | left; exists v; auto | | |]; right; (split; [first [assumption|apart]|reflexivity]). Qed.
Definition un_word (w : str) : Prop := w = s_ "installer.unattended" \/ begins (s_ "installer.image.uri=") w \/ begins (s_ "installer.target.dev=") w \/ begins (s_ "installer.target.overwrite") w.
Lemma unattended_fold m ws : forall c, c_unattended (fold_left (cmdline_word m) ws c) = true <-> c_unattended c = true \/ exists w, In w ws /\ un_word w.
Proof.
  induction ws as [|w ws IH]; intro c; [cbn; split; [auto|intros [H|(w & [] & _)]; exact H]|]. cbn [fold_left]. rewrite IH.
  assert (S : c_unattended (cmdline_word m c w) = true <-> c_unattended c = true \/ un_word w).
  { destruct (word_kind m c w) as [E|v E|v E|v E|E|v E|N1 N2 N3 N4 N5]; cbn [c_unattended].
    - split; [intros _; right; left; exact E|reflexivity].
    - split; [intros _; right; right; left; exists v; exact E|reflexivity].
    - split; [intros _; right; right; right; left; exists v; exact E|reflexivity].
    - split; [intros _; right; right; right; right; exists v; exact E|reflexivity].
    - split; [auto|]. intros [H|U]; [exact H|]. exfalso. unfold un_word in U. destruct U as [U|[[u U]|[[u U]|[u U]]]]; rewrite E in U; cbn in U; discriminate U.
    - split; [auto|]. intros [H|U]; [exact H|]. exfalso. unfold un_word in U. destruct U as [U|[[u U]|[[u U]|[u U]]]]; rewrite E in U; cbn in U; discriminate U.
    - split; [auto|]. intros [H|U]; [exact H|]. exfalso. unfold un_word in U. tauto. }
  rewrite S. split; [intros [[H|H]|(x & I & H)]; [auto|right; exists w; split; [left; reflexivity|exact H]|right; exists x; split; [right; exact I|exact H]]|]. intros [H|(x & [<-|I] & H)]; [auto|auto|right; exists x; auto].
Qed.
Lemma abort_fold m ws : forall c, c_abort (fold_left (cmdline_word m) ws c) = s_ "true" <-> c_abort c = s_ "true" \/ In (s_ "installer.unattended.abort.enable") ws.
Proof.
  induction ws as [|w ws IH]; intro c; [cbn; tauto|]. cbn [fold_left]. rewrite IH. cbn [In].
  assert (S : c_abort (cmdline_word m c w) = s_ "true" <-> c_abort c = s_ "true" \/ w = s_ "installer.unattended.abort.enable").
  { destruct (word_kind m c w) as [E|v E|v E|v E|E|v E|N1 N2 N3 N4 N5]; cbn [c_abort].
    5: { split; [auto|reflexivity]. } 6: tauto.
    all: split; [auto|]; intros [H|U]; [exact H|]; exfalso; rewrite E in U; cbn in U; discriminate U. }
  rewrite S. tauto.
Qed.
Lemma skip_blanks_spec s : exists a, s = a ++ skip_blanks s /\ Forall is_blank a /\ (forall c r, skip_blanks s = c :: r -> ~ is_blank c).
Proof.
  induction s as [|c s IH]; [exists []; split; [reflexivity|]; split; [constructor|discriminate]|]. cbn [skip_blanks]. destruct (blank c) eqn:B.
  - destruct IH as (a & E & F & N). exists (c :: a). split; [cbn; rewrite <- E; reflexivity|]. split; [|exact N]. constructor; [|exact F]. unfold blank in B. apply orb_prop in B. destruct B as [B|B]; apply aeqb_eq in B; [left|right]; exact B.
  - exists []. split; [reflexivity|]. split; [constructor|]. intros x r E. injection E as <- _. intros [->| ->]; discriminate B.
Qed.
Lemma read_word_spec s : stripped s (read_word s).
Proof.
  unfold read_word. destruct (skip_blanks_spec s) as (a & E & F & N). set (t := skip_blanks s) in *. destruct (skip_blanks_spec (rev t)) as (b & E' & F' & N'). set (u := skip_blanks (rev t)) in *.
  assert (T : t = rev u ++ rev b) by (rewrite <- rev_app_distr, <- E', rev_involutive; reflexivity).
  exists a, (rev b). split; [rewrite <- T; exact E|]. split; [exact F|]. split; [apply Forall_rev, F'|]. split.
  - intros c r X. apply (N c (r ++ rev b)). rewrite T, X. reflexivity.
  - intros r c X. apply (N' c (rev r)). rewrite <- (rev_involutive u), X, rev_app_distr. reflexivity.
Qed.
Lemma lstrip_unique a : forall v v', Forall is_blank a -> (forall c r, v' = c :: r -> ~ is_blank c) -> a ++ v = v' -> a = [] \/ False.
Proof. destruct a as [|c a]; intros v v' F N E; [left; reflexivity|]. exfalso. inversion F as [|? ? B _]; subst. exact (N c (a ++ v) eq_refl B). Qed.
Lemma strip_front a : forall a' v v', Forall is_blank a -> Forall is_blank a' -> (forall c r, v = c :: r -> ~ is_blank c) -> (forall c r, v' = c :: r -> ~ is_blank c) -> a ++ v = a' ++ v' -> a = a' /\ v = v'.
Proof.
  induction a as [|c a IH]; intros a' v v' F F' N N' E.
  - destruct a' as [|c' a']; [split; [reflexivity|exact E]|]. exfalso. cbn in E. inversion F' as [|? ? B _]; subst. exact (N c' (a' ++ v') eq_refl B).
  - inversion F as [|? ? B F1]; subst. destruct a' as [|c' a']; [exfalso; cbn in E; exact (N' c (a ++ v) (eq_sym E) B)|]. cbn in E. injection E as <- E. inversion F' as [|? ? _ F2]; subst. destruct (IH a' v v' F1 F2 N N' E) as [-> ->]. auto.
Qed.
Lemma stripped_unique s v v' : stripped s v -> stripped s v' -> v = v'.
Proof.
  intros (a & b & E & FA & FB & NF & NB) (a' & b' & E' & FA' & FB' & NF' & NB').
  destruct v as [|c v].
  - destruct v' as [|c' v']; [reflexivity|]. exfalso. assert (AB : Forall is_blank s) by (rewrite E; apply Forall_app; split; assumption). rewrite E' in AB. apply Forall_app in AB. destruct AB as [_ AB]. apply Forall_app in AB. destruct AB as [AB _]. inversion AB as [|? ? B _]; subst. exact (NF' c' v' eq_refl B).
  - destruct v' as [|c' v'].
    + exfalso. assert (AB : Forall is_blank s) by (rewrite E'; apply Forall_app; split; assumption). rewrite E in AB. apply Forall_app in AB. destruct AB as [_ AB]. apply Forall_app in AB. destruct AB as [AB _]. inversion AB as [|? ? B _]; subst. exact (NF c v eq_refl B).
    + assert (Q : a ++ (c :: v) ++ b = a' ++ (c' :: v') ++ b') by congruence.
      destruct (strip_front a a' ((c :: v) ++ b) ((c' :: v') ++ b') FA FA') as [_ R]; [intros x r X; injection X as <- _; exact (NF c v eq_refl)|intros x r X; injection X as <- _; exact (NF' c' v' eq_refl)|exact Q|].
      assert (R' : rev b ++ rev (c :: v) = rev b' ++ rev (c' :: v')) by (rewrite <- !rev_app_distr, R; reflexivity).
      destruct (strip_front (rev b) (rev b') (rev (c :: v)) (rev (c' :: v'))) as [_ Z]; [apply Forall_rev, FB|apply Forall_rev, FB'| | |exact R'|].
      * intros x r X. apply (NB (rev r) x). rewrite <- (rev_involutive (c :: v)), X. reflexivity.
      * intros x r X. apply (NB' (rev r) x). rewrite <- (rev_involutive (c' :: v')), X. reflexivity.
      * rewrite <- (rev_involutive (c :: v)), Z, rev_involutive. reflexivity.
Qed.
Lemma pick_selected m v : selected m v (pick_target m v).
Proof.
  unfold selected, pick_target. fold (devices_of v). cbn zeta.
  assert (U : forall x, m_block m x && negb (seqb x (boot_device m)) = true <-> usable m x).
  { intro x. unfold usable, boots_from. rewrite andb_true_iff, negb_true_iff, seqb_neq. reflexivity. }
  induction (devices_of v) as [|x l IH]; [right; split; [intros x []|reflexivity]|]. cbn [find]. destruct (m_block m x && negb (seqb x (boot_device m))) eqn:E.
  - left. exists [], l. split; [reflexivity|]. split; [apply U; exact E|intros y []].
  - assert (NU : ~ usable m x) by (intro H; apply U in H; rewrite H in E; discriminate E). destruct IH as [(a & b & Q & A & B)|[A B]].
    + left. exists (x :: a), b. split; [cbn [app]; f_equal; exact Q|]. split; [exact A|]. intros y [<-|I]; [exact NU|exact (B y I)].
    + right. split; [intros y [<-|I]; [exact NU|exact (A y I)]|exact B].
Qed.

(** ** Devices *)
Lemma before_digits_app a b : before_digits (a ++ b) = if existsb is_digit a then before_digits a else a ++ before_digits b.
Proof. induction a as [|c a IH]; [reflexivity|]. cbn [app before_digits existsb]. destruct (is_digit c) eqn:D; [reflexivity|]. cbn [orb]. rewrite IH. destruct (existsb is_digit a); reflexivity. Qed.
Lemma before_digits_prefix s : begins (before_digits s) s.
Proof. induction s as [|c s [v IH]]; [exists []; reflexivity|]. cbn [before_digits]. destruct (is_digit c); [exists (c :: s); reflexivity|]. exists v. cbn. rewrite <- IH. reflexivity. Qed.
Lemma begins_trans a b c : begins a b -> begins b c -> begins a c.
Proof. intros [v ->] [w ->]. exists (v ++ w). rewrite app_assoc. reflexivity. Qed.
Lemma digits_none n : Forall (fun c => is_digit c = true) n -> before_digits n = [].
Proof. destruct 1 as [|c n D _]; [reflexivity|]. cbn. rewrite D. reflexivity. Qed.
Lemma part_digits disk part : disk_name disk -> on_disk disk part -> begins (before_digits part) disk /\ before_digits part <> [].
Proof.
  intros [_ (c & r & -> & ND)] O. assert (NE : forall x, before_digits ((c :: r) ++ x) <> []) by (intro x; cbn; rewrite ND; discriminate).
  assert (G : forall x, existsb is_digit (c :: r) = true -> begins (before_digits ((c :: r) ++ x)) (c :: r)) by (intros x H; rewrite before_digits_app, H; apply before_digits_prefix).
  destruct O as [->|(n & [_ DN] & [[(r' & e & E & DE) ->]|[NE' ->]])].
  - split; [apply before_digits_prefix|]. rewrite <- (app_nil_r (c :: r)). apply NE.
  - split; [|apply NE]. apply G. rewrite E, existsb_app. cbn. rewrite DE. rewrite orb_true_r. reflexivity.
  - split; [|apply NE]. destruct (existsb is_digit (c :: r)) eqn:D; [apply G; reflexivity|]. rewrite before_digits_app, D, (digits_none n DN), app_nil_r. exists []. rewrite app_nil_r. reflexivity.
Qed.
Lemma digit_not_p n : Forall (fun c => is_digit c = true) n -> before_p n = None.
Proof. induction 1 as [|c n D F IH]; [reflexivity|]. cbn [before_p]. rewrite IH. destruct (aeqb c "p"%char) eqn:P; [apply aeqb_eq in P; subst c; discriminate D|reflexivity]. Qed.
Lemma before_p_part d n : digits n -> before_p (d ++ s_ "p" ++ n) = Some d.
Proof.
  intros [NE F]. induction d as [|c d IH].
  - change ([] ++ s_ "p" ++ n) with ("p"%char :: n). cbn [before_p]. rewrite (digit_not_p n F). destruct n as [|e n]; [exfalso; apply NE; reflexivity|]. inversion F as [|? ? D _]; subst. rewrite D. reflexivity.
  - cbn [app before_p]. cbn [app] in IH. rewrite IH. reflexivity.
Qed.
(** digits in front of nothing else *)
Lemma begins_plain p disk n : forallb (fun c => negb (is_digit c)) p = true -> Forall (fun c => is_digit c = true) n -> begins p (disk ++ n) -> begins p disk.
Proof.
  revert disk. induction p as [|c p IH]; intros disk NP F [v E]; [exists disk; reflexivity|]. cbn in NP. apply andb_prop in NP. destruct NP as [NC NP]. apply negb_true_iff in NC. destruct disk as [|x disk].
  - cbn in E. subst n. inversion F as [|? ? D _]; subst. congruence.
  - cbn in E. injection E as -> E. destruct (IH disk NP F (ex_intro _ v E)) as [w ->]. exists w. reflexivity.
Qed.
Lemma base_part disk part : disk_name disk -> partition_of disk part -> begins (base_no_part part) disk /\ base_no_part part <> [].
Proof.
  intros DN PO. unfold base_no_part. destruct (startswith (s_ "mmcblk") part || startswith (s_ "nvme") part) eqn:S; [|apply part_digits; [exact DN|right; exact PO]].
  destruct PO as (n & D & [[ED ->]|[NE ->]]).
  - rewrite (before_p_part disk n D). split; [exists []; rewrite app_nil_r; reflexivity|]. destruct ED as (r & c & -> & _). destruct r; discriminate.
  - exfalso. apply NE. destruct DN as [DN _]. apply DN. destruct D as [_ D]. apply orb_prop in S. destruct S as [S|S]; apply startswith_begins in S; apply begins_plain in S; [left; exact S|reflexivity|exact D|right; exact S|reflexivity|exact D].
Qed.
Lemma taken_iff s n : existsb (fun ex => startswith ex n) (exclude_list s) = true <-> taken s n.
Proof.
  unfold exclude_list, taken. destruct (seqb (s_fstype s) (s_ "nfs")).
  - cbn [existsb]. rewrite orb_false_r. apply startswith_begins.
  - assert (UE : forall x, existsb (fun ex => startswith ex n) (unless_empty x) = true <-> x <> [] /\ begins x n).
    { intros [|c x]; [cbn; split; [discriminate|intros [H _]; exfalso; apply H; reflexivity]|]. cbn [unless_empty existsb]. rewrite orb_false_r, startswith_begins. split; [intro H; split; [discriminate|exact H]|intros [_ H]; exact H]. }
    cbn [existsb]. rewrite orb_true_iff, startswith_begins, existsb_app, orb_true_iff, UE.
    assert (FM : existsb (fun ex => startswith ex n) (flat_map (fun x => x :: unless_empty (before_digits x)) (s_slaves s)) = true <-> exists x, In x (s_slaves s) /\ (begins x n \/ (before_digits x <> [] /\ begins (before_digits x) n))).
    { induction (s_slaves s) as [|x l IH]; [cbn; split; [discriminate|intros (x & [] & _)]|]. cbn [flat_map app existsb]. rewrite orb_true_iff, startswith_begins, existsb_app, orb_true_iff, UE, IH. split.
      - intros [H|[H|(y & I & H)]]; [exists x; split; [left; reflexivity|left; exact H]|exists x; split; [left; reflexivity|right; exact H]|exists y; split; [right; exact I|exact H]].
      - intros (y & [<-|I] & H); [destruct H as [H|H]; auto|right; right; exists y; auto]. }
    rewrite FM. reflexivity.
Qed.
Lemma candidate_iff s b : In b (candidates s) <-> In b (s_block s) /\ (begins (s_ "mmcblk") (b_name b) -> exists c, b_name b = s_ "mmcblk" ++ [c] /\ is_digit c = true).
Proof.
  unfold candidates. rewrite in_app_iff, !filter_In. split.
  - intros [[I H]|[I H]]; (split; [exact I|]).
    + apply negb_true_iff, startswith_not in H. intro B. exfalso. exact (H B).
    + intros _. destruct (after_prefix (s_ "mmcblk") (b_name b)) as [v|] eqn:A; [|discriminate H]. apply after_prefix_iff in A. destruct v as [|c [|e v]]; try discriminate H. exists c. auto.
  - intros [I H]. destruct (startswith (s_ "mmcblk") (b_name b)) eqn:S.
    + right. split; [exact I|]. apply startswith_begins in S. destruct (H S) as (c & E & D). rewrite (proj2 (after_prefix_iff (s_ "mmcblk") (b_name b) [c]) E). exact D.
    + left. split; [exact I|]. reflexivity.
Qed.
Lemma kind_iff n : bad_kind n = false <-> forall p, In p [s_ "dm-"; s_ "loop"; s_ "mtd"; s_ "sr"; s_ "ram"; s_ "zram"] -> ~ begins p n.
Proof.
  unfold bad_kind. rewrite <- not_true_iff_false, existsb_exists. split.
  - intros H p I B. apply H. exists p. split; [exact I|apply startswith_begins; exact B].
  - intros H (p & I & S). exact (H p I (proj1 (startswith_begins p n) S)).
Qed.
Lemma md_array_iff h : md_array h = true <-> exists c r, h = s_ "md" ++ c :: r /\ is_digit c = true.
Proof.
  unfold md_array. destruct (after_prefix (s_ "md") h) as [v|] eqn:A.
  - apply after_prefix_iff in A. subst h. split.
    + destruct v as [|c r]; [discriminate|]. intro D. exists c, r. auto.
    + intros (c & r & E & D). apply app_inv_head in E. subst v. exact D.
  - apply after_prefix_none in A. split; [discriminate|]. intros (c & r & -> & _). exfalso. apply A. eexists. reflexivity.
Qed.
Lemma member_iff b : raid_member b = false <-> forall l h, b_holders b = Some l -> In h l -> b_md b = false -> ~ exists c r, h = s_ "md" ++ c :: r /\ is_digit c = true.
Proof.
  unfold raid_member. destruct (b_holders b) as [l|]; [|split; [discriminate|reflexivity]]. rewrite <- not_true_iff_false, andb_true_iff, negb_true_iff, existsb_exists. split.
  - intros H l' h E I M X. injection E as <-. apply H. split; [exact M|]. exists h. split; [exact I|apply md_array_iff; exact X].
  - intros H (M & h & I & X). apply (H l h eq_refl I M). apply md_array_iff. exact X.
Qed.
Lemma array_iff b : bad_array b = false <-> (begins (s_ "md") (b_name b) -> exists t, b_state b = Some t /\ In (filter (fun c => negb (aeqb c nl || aeqb c " "%char)) t) [s_ "active"; s_ "clean"]).
Proof.
  unfold bad_array. rewrite <- startswith_begins. destruct (startswith (s_ "md") (b_name b)); cbn [andb]; [|split; [discriminate|reflexivity]]. destruct (b_state b) as [t|].
  - cbn zeta. rewrite negb_false_iff, orb_true_iff, !seqb_eq. split; [intros H _; exists t; split; [reflexivity|]; cbn; intuition|]. intro H. destruct (H eq_refl) as (t' & E & I). injection E as <-. cbn in I. intuition.
  - split; [discriminate|]. intro H. destruct (H eq_refl) as (t & E & _). discriminate E.
Qed.
Lemma discover_iff s dev : In dev (discover s) <-> exists b, In b (s_block s) /\ dev = s_ "/dev/" ++ b_name b /\ plain_disk b /\ ~ taken s (b_name b).
Proof.
  unfold discover. rewrite in_map_iff. split.
  - intros (b & <- & I). apply filter_In in I. destruct I as [I H]. apply andb_prop in H. destruct H as [H H4]. apply andb_prop in H. destruct H as [H H3]. apply andb_prop in H. destruct H as [H1 H2]. apply negb_true_iff in H1, H2, H3, H4. apply candidate_iff in I. destruct I as [I J].
    exists b. split; [exact I|]. split; [reflexivity|]. split; [split; [exact J|]; split; [apply kind_iff; exact H3|]; split; [apply member_iff; exact H1|apply array_iff; exact H2]|]. intro T. apply taken_iff in T. rewrite T in H4. discriminate H4.
  - intros (b & I & -> & (P1 & P2 & P3 & P4) & NT). exists b. split; [reflexivity|]. apply filter_In. split; [apply candidate_iff; auto|]. apply kind_iff in P2. apply member_iff in P3. apply array_iff in P4. rewrite P2, P3, P4. cbn [negb andb]. apply negb_true_iff. apply not_true_iff_false. intro T. apply NT. apply taken_iff. exact T.
Qed.

(** ** Settings *)
Lemma given_unique line p v v' : given line p v -> given line p v' -> v = v'.
Proof.
  intros (a & b & E & N) (a' & b' & E' & N'). rewrite E in E'. clear E. revert a' E'. induction a as [|x a IH]; intros a' E'.
  - destruct a' as [|y a']; cbn in E'.
    + injection E' as Q _. apply app_inv_head in Q. exact Q.
    + exfalso. injection E' as _ Q. apply (N (p ++ v')); [rewrite Q; apply in_or_app; right; left; reflexivity|exists v'; reflexivity].
  - destruct a' as [|y a']; cbn in E'.
    + exfalso. injection E' as _ Q. apply (N' (p ++ v)); [rewrite <- Q; apply in_or_app; right; left; reflexivity|exists v; reflexivity].
    + injection E' as _ Q. exact (IH a' Q).
Qed.
Lemma given_not line p v : given line p v -> not_given line p -> False.
Proof. intros (a & b & E & _) N. apply (N (p ++ v)); [rewrite E; apply in_or_app; right; left; reflexivity|exists v; reflexivity]. Qed.
Lemma auto_unique m i v v' : auto_line m i v -> auto_line m i v' -> v = v'.
Proof. unfold auto_line. destruct (m_auto m); [apply stripped_unique|congruence]. Qed.
Lemma setting_unique m p i v v' : setting m p i v -> setting m p i v' -> v = v'.
Proof. intros [G|[N A]] [G'|[N' A']]; [exact (given_unique _ _ _ _ G G')|exfalso; exact (given_not _ _ _ G N')|exfalso; exact (given_not _ _ _ G' N)|exact (auto_unique _ _ _ _ A A')]. Qed.
Lemma selected_unique m v d d' : selected m v d -> selected m v d' -> d = d'.
Proof.
  intros [(a & b & E & U & N)|[N ->]] [(a' & b' & E' & U' & N')|[N' ->]]; [|exfalso; apply (N' d); [rewrite E; apply in_or_app; right; left; reflexivity|exact U]|exfalso; apply (N d'); [rewrite E'; apply in_or_app; right; left; reflexivity|exact U']|reflexivity].
  rewrite E in E'. clear E. revert a' N' E'. induction a as [|x a IH]; intros a' N' E'; destruct a' as [|y a']; cbn in E'; injection E' as Q R; [exact Q|exfalso; apply (N' y); [left; reflexivity|rewrite <- Q; exact U]|exfalso; apply (N x); [left; reflexivity|rewrite Q; exact U']|].
  apply (IH (fun z I => N z (or_intror I)) a' (fun z I => N' z (or_intror I)) R).
Qed.
Lemma target_unique m d d' : target_setting m d -> target_setting m d' -> d = d'.
Proof. intros [(v & G & S)|[N A]] [(v' & G' & S')|[N' A']]; [rewrite (given_unique _ _ _ _ G' G) in S'; exact (selected_unique _ _ _ _ S S')|exfalso; exact (given_not _ _ _ G N')|exfalso; exact (given_not _ _ _ G' N)|exact (auto_unique _ _ _ _ A A')]. Qed.
Lemma over_unique m d d' : overwrite_setting m d -> overwrite_setting m d' -> d = d'.
Proof. intros [[[v G] E]|[N A]] [[[v' G'] E']|[N' A']]; [congruence|exfalso; exact (given_not _ _ _ G N')|exfalso; exact (given_not _ _ _ G' N)|exact (auto_unique _ _ _ _ A A')]. Qed.

Lemma auto_line_image m : auto_line m 0 (c_image (auto_install m)).
Proof. unfold auto_line, auto_install. destruct (m_auto m); [apply read_word_spec|reflexivity]. Qed.
Lemma auto_line_target m : auto_line m 1 (c_target (auto_install m)).
Proof. unfold auto_line, auto_install. destruct (m_auto m); [apply read_word_spec|reflexivity]. Qed.
Lemma auto_line_over m : auto_line m 2 (c_overwrite (auto_install m)).
Proof. unfold auto_line, auto_install. destruct (m_auto m); [apply read_word_spec|reflexivity]. Qed.
Lemma gather_image m : setting m (s_ "installer.image.uri=") 0 (c_image (gather m)).
Proof.
  destruct (fold_setting (cmdline_word m) c_image (s_ "installer.image.uri=") (fun v => v) (auto_install m) (image_step m) (split_ws (m_cmdline m))) as [(a & v & b & E & N & F)|[N F]].
  - left. exists a, b. split; [|exact N]. rewrite E. f_equal. f_equal. f_equal. symmetry. exact F.
  - right. split; [exact N|]. unfold gather. rewrite F. apply auto_line_image.
Qed.
Lemma gather_target m : target_setting m (c_target (gather m)).
Proof.
  destruct (fold_setting (cmdline_word m) c_target (s_ "installer.target.dev=") (pick_target m) (auto_install m) (target_step m) (split_ws (m_cmdline m))) as [(a & v & b & E & N & F)|[N F]].
  - left. exists v. split; [exists a, b; split; [exact E|exact N]|]. unfold gather. rewrite F. apply pick_selected.
  - right. split; [exact N|]. unfold gather. rewrite F. apply auto_line_target.
Qed.
Lemma gather_over m : overwrite_setting m (c_overwrite (gather m)).
Proof.
  destruct (fold_setting (cmdline_word m) c_overwrite (s_ "installer.target.overwrite") (fun _ => s_ "OVERWRITE") (auto_install m) (over_step m) (split_ws (m_cmdline m))) as [(a & v & b & E & N & F)|[N F]].
  - left. split; [exists v, a, b; split; [exact E|exact N]|]. exact F.
  - right. split; [exact N|]. unfold gather. rewrite F. apply auto_line_over.
Qed.
Lemma gather_unattended m : c_unattended (gather m) = true <-> asked_unattended m.
Proof.
  unfold gather, asked_unattended. rewrite unattended_fold. unfold auto_install. destruct (m_auto m) as [t|]; cbn [c_unattended default_config].
  - split; [intros _; left; discriminate|intros _; left; reflexivity].
  - split; [intros [H|H]; [discriminate H|right; exact H]|intros [H|H]; [exfalso; apply H; reflexivity|right; exact H]].
Qed.
Lemma gather_abort m : c_abort (gather m) = s_ "true" <-> may_stop m.
Proof.
  unfold gather, may_stop. rewrite abort_fold. unfold auto_install, auto_line. destruct (m_auto m) as [t|]; cbn zeta; cbn [c_abort default_config].
  - split; [intros [H|H]; [right; split; [discriminate|rewrite <- H; apply read_word_spec]|left; exact H]|intros [H|[_ H]]; [right; exact H|left; exact (stripped_unique _ _ _ (read_word_spec _) H)]].
  - split; [intros [H|H]; [discriminate H|left; exact H]|intros [H|[H _]]; [right; exact H|exfalso; apply H; reflexivity]].
Qed.
Definition ready (m : machine) (c : config) : Prop :=
  c_image c <> [] /\ c_target c <> [] /\ (c_overwrite c = s_ "OVERWRITE" \/ c_overwrite c = s_ "ABORT") /\ (forall d, split_ws (c_target c) = [d] -> m_block m d = true) /\ (m_file m (c_image c) = true \/ m_file m (m_data m ++ s_ "/" ++ c_image c) = true).
Definition final (m : machine) (c : config) : config :=
  if m_file m (c_image c) then c else mkConfig true (c_abort c) (c_timeout c) (m_data m ++ s_ "/" ++ c_image c) (c_target c) (c_overwrite c).
Lemma handle_spec m : (c_unattended (gather m) = false /\ handle_config m = Some (gather m)) \/ (c_unattended (gather m) = true /\ ready m (gather m) /\ handle_config m = Some (final m (gather m))) \/ (c_unattended (gather m) = true /\ ~ ready m (gather m) /\ handle_config m = None).
Proof.
  unfold handle_config, ready, final. cbn zeta. destruct (gather m) as [un ab tm im ta ov]. cbn [c_unattended c_abort c_timeout c_image c_target c_overwrite]. destruct un; [|left; auto]. right. cbn [negb].
  destruct im as [|ic im]; [right; split; [reflexivity|]; split; [intros (H & _); apply H; reflexivity|destruct ta; destruct ov; reflexivity]|].
  destruct ta as [|tc ta]; [right; split; [reflexivity|]; split; [intros (_ & H & _); apply H; reflexivity|reflexivity]|].
  destruct (seqb ov (s_ "OVERWRITE") || seqb ov (s_ "ABORT")) eqn:O.
  - assert (O' : ov = s_ "OVERWRITE" \/ ov = s_ "ABORT") by (apply orb_prop in O; destruct O as [O|O]; apply seqb_eq in O; auto).
    destruct ov as [|oc ov]; [discriminate O|]. cbn [negb]. destruct (not_a_device m (tc :: ta)) eqn:D.
    + right. split; [reflexivity|]. split; [|reflexivity]. intros (_ & _ & _ & H & _). unfold not_a_device in D. destruct (split_ws (tc :: ta)) as [|d [|? ?]] eqn:W; try discriminate D. rewrite (H d eq_refl) in D. discriminate D.
    + assert (D' : forall d, split_ws (tc :: ta) = [d] -> m_block m d = true) by (intros d W; unfold not_a_device in D; rewrite W in D; apply negb_false_iff in D; exact D).
      destruct (m_file m (ic :: im)) eqn:F.
      * left. split; [reflexivity|]. split; [|reflexivity]. split; [discriminate|]. split; [discriminate|]. auto.
      * destruct (m_file m (m_data m ++ s_ "/" ++ ic :: im)) eqn:F'.
        -- left. split; [reflexivity|]. split; [|reflexivity]. split; [discriminate|]. split; [discriminate|]. auto.
        -- right. split; [reflexivity|]. split; [|reflexivity]. intros (_ & _ & _ & _ & [H|H]); congruence.
  - right. split; [reflexivity|]. split; [intros (_ & _ & [H|H] & _); subst ov; rewrite ?seqb_refl, ?orb_true_r in O; discriminate O|]. destruct ov; reflexivity.
Qed.
Lemma final_fields m c : c_target (final m c) = c_target c /\ c_overwrite (final m c) = c_overwrite c /\ c_abort (final m c) = c_abort c /\ (c_unattended c = true -> c_unattended (final m c) = true).
Proof. unfold final. destruct (m_file m (c_image c)); cbn; auto. Qed.
Lemma final_file m c : ready m c -> m_file m (c_image (final m c)) = true.
Proof. intros (_ & _ & _ & _ & F). unfold final. destruct (m_file m (c_image c)) eqn:E; [exact E|]. cbn [c_image]. destruct F as [F|F]; [congruence|exact F]. Qed.
Lemma stays_iff m a : stays_unattended a (gather m) = true <-> unattended m a.
Proof.
  unfold stays_unattended, unattended. rewrite andb_true_iff, gather_unattended, negb_true_iff, <- gather_abort, <- not_true_iff_false, andb_true_iff, seqb_eq. reflexivity.
Qed.
(** ** The block map *)
Lemma before_wic_none s : before_wic s = None -> forall a b, s <> a ++ s_ ".wic" ++ b.
Proof.
  induction s as [|c s IH]; intros N a b E; [destruct a; discriminate E|]. cbn [before_wic] in N. destruct (before_wic s) as [x|] eqn:B; [discriminate N|]. destruct a as [|c' a].
  - rewrite E in N. change ([] ++ s_ ".wic" ++ b) with (s_ ".wic" ++ b) in N. rewrite startswith_app in N. discriminate N.
  - cbn [app] in E. injection E as _ E. exact (IH eq_refl a b E).
Qed.
Lemma before_wic_some s : forall x, before_wic s = Some x -> exists ext, s = x ++ s_ ".wic" ++ ext /\ forall a b, s_ ".wic" ++ ext = a ++ s_ ".wic" ++ b -> a = [].
Proof.
  induction s as [|c s IH]; intros x E; [discriminate E|]. cbn [before_wic] in E. destruct (before_wic s) as [y|] eqn:B.
  - injection E as <-. destruct (IH y eq_refl) as (ext & -> & N). exists ext. split; [reflexivity|exact N].
  - destruct (startswith (s_ ".wic") (c :: s)) eqn:S; [|discriminate E]. injection E as <-. apply startswith_iff in S. destruct S as [ext S]. exists ext. split; [exact S|]. intros a b Q. destruct a as [|c' a]; [reflexivity|]. exfalso. rewrite Q in S. cbn [app] in S. injection S as _ S. exact (before_wic_none s B a b S).
Qed.
Lemma last_wic_unique x x' ext ext' : x ++ s_ ".wic" ++ ext = x' ++ s_ ".wic" ++ ext' -> (forall a b, s_ ".wic" ++ ext = a ++ s_ ".wic" ++ b -> a = []) -> (forall a b, s_ ".wic" ++ ext' = a ++ s_ ".wic" ++ b -> a = []) -> x = x'.
Proof.
  revert x'. induction x as [|c x IH]; intros x' E N N'.
  - symmetry. exact (N x' ext' E).
  - destruct x' as [|c' x']; [exact (N' (c :: x) ext (eq_sym E))|]. cbn [app] in E. injection E as <- E. f_equal. exact (IH x' E N N').
Qed.
(** ** The run *)
Lemma attended_spec m devices a c image dev : attended m devices a c = inl (image, dev) -> m_file m image = true /\ In dev devices /\ a_confirm a = true.
Proof.
  unfold attended. match goal with |- context[match ?x with inl _ => _ | inr _ => _ end] => destruct x as [i|r] end; [|discriminate].
  destruct (m_file m (m_data m ++ s_ "/" ++ i)) eqn:F; cbn [negb]; [|discriminate].
  assert (T : forall d, match devices with [] => inr (1, [Message]) | [d] => inl d | l => match filter (m_block m) l with [] => inr (1, [Message]) | l => match a_device a with Some i => match nth_error l i with Some x => inl x | None => inr (2, []) end | None => inr (2, []) end end end = inl d -> In d devices).
  { intro d. destruct devices as [|x [|y l]]; [discriminate|intro H; injection H as ->; left; reflexivity|]. destruct (filter (m_block m) (x :: y :: l)) as [|z fl] eqn:FL; [discriminate|]. destruct (a_device a) as [k|]; [|discriminate]. destruct (nth_error (z :: fl) k) as [w|] eqn:NE; [|discriminate]. intro H. injection H as ->. apply nth_error_In in NE. rewrite <- FL in NE. apply filter_In in NE. exact (proj1 NE). }
  cbn zeta. match goal with |- context[match ?x with inl _ => _ | inr _ => _ end] => destruct x as [d|r] eqn:Q end; [|discriminate]. destruct (a_confirm a); [|discriminate]. intro H. injection H as <- <-. split; [exact F|]. split; [exact (T d eq_refl)|reflexivity].
Qed.
Lemma attended_messages m devices a c st e x : attended m devices a c = inr (st, e) -> In x e -> x = Message.
Proof.
  unfold attended. intros H I.
  assert (G : e = [] \/ e = [Message]).
  { revert H. match goal with |- context[match ?x with inl _ => _ | inr _ => _ end] => destruct x as [i|[r re]] eqn:Q end.
    - destruct (m_file m (m_data m ++ s_ "/" ++ i)); cbn [negb]; [|intro H; injection H as _ <-; auto].
      cbn zeta. destruct devices as [|d [|d' l]]; [intro H; injection H as _ <-; auto|destruct (a_confirm a); [discriminate|intro H; injection H as _ <-; auto]|].
      destruct (filter (m_block m) (d :: d' :: l)) as [|z fl]; [intro H; injection H as _ <-; auto|]. destruct (a_device a) as [k|]; [|intro H; injection H as _ <-; auto]. destruct (nth_error (z :: fl) k); [|intro H; injection H as _ <-; auto]. destruct (a_confirm a); [discriminate|intro H; injection H as _ <-; auto].
    - intro H. injection H as <- <-. revert Q. destruct ((match c_image c with [] => true | _ => false end) || negb (m_file m (m_data m ++ s_ "/" ++ c_image c))); [|discriminate]. destruct (m_entries m) as [|y l]; [intro Q; injection Q as _ <-; auto|]. destruct (a_image a) as [k|]; [|intro Q; injection Q as _ <-; auto]. destruct (nth_error (y :: l) k); [discriminate|intro Q; injection Q as _ <-; auto]. }
  destruct G as [->| ->]; [destruct I|destruct I as [<-|[]]; reflexivity].
Qed.
Definition plan (m : machine) (devices : list str) (a : answers) (c : config) : (str * str) + nat * list effect :=
  if stays_unattended a c then inl (c_image c, c_target c) else attended m devices a c.
Definition allowed (m : machine) (a : answers) (un : bool) (c : config) (dev : str) : Prop := m_empty m dev = true \/ (if un then c_overwrite c = s_ "OVERWRITE" else a_overwrite a = true).
Lemma policy_spec m a un c dev : (allowed m a un c dev /\ policy m a un c dev = 0) \/ (~ allowed m a un c dev /\ policy m a un c dev = if un then 1 else 2).
Proof.
  unfold allowed, policy. destruct (m_empty m dev); [left; auto|]. destruct un; cbn [negb].
  - destruct (seqb (c_overwrite c) (s_ "OVERWRITE")) eqn:O; [apply seqb_eq in O; left; auto|]. right. split; [|reflexivity]. intros [H|H]; [discriminate H|]. rewrite H in O. discriminate O.
  - destruct (a_overwrite a); [left; auto|]. right. split; [|reflexivity]. intros [H|H]; discriminate H.
Qed.
Definition no_pipe (t : tools) : bool := t_version t && negb (t_fifo t).
Lemma flow_cases m devices a t c :
  (exists r e, plan m devices a c = inr (r, e) /\ (forall x, In x e -> x = Message) /\ flow_run m devices a t c = (match r with 2 => 0 | _ => 1 end, e)) \/
  (exists image dev, plan m devices a c = inl (image, dev) /\
    ((~ allowed m a (stays_unattended a c) c dev /\ flow_run m devices a t c = (if stays_unattended a c then 1 else 0, [])) \/
     (allowed m a (stays_unattended a c) c dev /\
      ((t_free t = false /\ flow_run m devices a t c = (0, [Message; Success])) \/
       (t_free t = true /\ no_pipe t = true /\ flow_run m devices a t c = (1, if stays_unattended a c then [] else [Failure])) \/
       (t_free t = true /\ no_pipe t = false /\ t_copy t = false /\ flow_run m devices a t c = (1, Copy (negb (m_file m (bmap_of image))) image dev :: if stays_unattended a c then [] else [Failure])) \/
       (t_free t = true /\ no_pipe t = false /\ t_copy t = true /\ flow_run m devices a t c = (0, [Copy (negb (m_file m (bmap_of image))) image dev; Success])))))).
Proof.
  unfold flow_run. cbn zeta. fold (plan m devices a c). destruct (plan m devices a c) as [[image dev]|[r e]] eqn:P.
  - right. exists image, dev. split; [reflexivity|]. destruct (policy_spec m a (stays_unattended a c) c dev) as [[A ->]|[A ->]].
    + right. split; [exact A|]. unfold install. fold (no_pipe t). destruct (t_free t); [|left; auto]. right. destruct (no_pipe t); [left; auto|]. right. destruct (t_copy t); [right|left]; auto.
    + left. split; [exact A|]. destruct (stays_unattended a c); reflexivity.
  - left. exists r, e. split; [reflexivity|]. split; [|destruct r as [|[|[|r]]]; reflexivity]. intros x I. unfold plan in P. destruct (stays_unattended a c); [discriminate P|]. exact (attended_messages _ _ _ _ _ _ _ P I).
Qed.
