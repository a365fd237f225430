(** Lemmas on the pipes of workers. *)
From Coq Require Import Ascii String List Bool Arith NArith Lia.
From Verif Require Import Str_Model Str_Proofs Wpipe_Model Wpipe_Spec.
Import ListNotations.
Open Scope list_scope.

(** ** Places of a pattern *)
Definition occ (pat s : str) (j : nat) : Prop := exists a b, s = a ++ pat ++ b /\ length a = j.
Lemma occ_0 pat s : occ pat s 0 <-> startswith pat s = true.
Proof. rewrite startswith_iff. split; [intros (a & b & -> & L); destruct a; [exists b; reflexivity|discriminate L]|intros [t ->]; exists [], t; split; reflexivity]. Qed.
Lemma occ_S pat c s j : occ pat (c :: s) (S j) <-> occ pat s j.
Proof.
  split.
  - intros (a & b & E & L). destruct a as [|d a]; [discriminate L|]. cbn [app length] in E, L. injection E as _ E. exists a, b. split; [exact E|lia].
  - intros (a & b & -> & L). exists (c :: a), b. split; [reflexivity|]. cbn [length]. lia.
Qed.
Lemma findk_some pat : forall s j, findk pat s = Some j -> occ pat s j /\ forall i, i < j -> ~ occ pat s i.
Proof.
  induction s as [|c s IH]; intros j H.
  - cbn [findk] in H. destruct (startswith pat []) eqn:E; [|discriminate H]. injection H as <-. split; [apply occ_0, E|]. intros i L. lia.
  - cbn [findk] in H. destruct (startswith pat (c :: s)) eqn:E.
    + injection H as <-. split; [apply occ_0, E|]. intros i L. lia.
    + destruct (findk pat s) as [k|]; [|discriminate H]. injection H as <-. destruct (IH k eq_refl) as [A B]. split; [apply occ_S, A|]. intros [|i] L O; [apply occ_0 in O; congruence|]. apply (proj1 (occ_S _ _ _ _)) in O. apply (B i); [lia|exact O].
Qed.
Lemma findk_none pat : forall s, findk pat s = None -> forall i, ~ occ pat s i.
Proof.
  induction s as [|c s IH]; intros H i O.
  - cbn [findk] in H. destruct (startswith pat []) eqn:E; [discriminate H|]. destruct O as (a & b & Z & _). destruct a; [|discriminate Z]. cbn [app] in Z. assert (startswith pat [] = true) by (apply startswith_iff; exists b; exact Z). congruence.
  - cbn [findk] in H. destruct (startswith pat (c :: s)) eqn:E; [discriminate H|]. destruct (findk pat s) as [k|] eqn:F; [discriminate H|]. destruct i as [|i]; [apply occ_0 in O; congruence|]. apply (proj1 (occ_S _ _ _ _)) in O. exact (IH eq_refl i O).
Qed.
Lemma occ_skip pat : forall k s i, k <= length s -> (occ pat (skipn k s) i <-> occ pat s (k + i)).
Proof.
  induction k as [|k IH]; intros s i L; [reflexivity|]. destruct s as [|c s]; [cbn in L; lia|]. cbn [skipn plus]. rewrite occ_S. apply IH. cbn in L. lia.
Qed.
Lemma occ_len pat s j : occ pat s j -> j + length pat <= length s.
Proof. intros (a & b & -> & <-). rewrite !app_length. lia. Qed.
Lemma find_some pat s k j : k <= length s -> find pat s k = Some j -> occ pat s j /\ k <= j /\ forall i, k <= i < j -> ~ occ pat s i.
Proof.
  intros L H. unfold find in H. destruct (findk pat (skipn k s)) as [i|] eqn:F; [|discriminate H]. injection H as <-. destruct (findk_some _ _ _ F) as [A B]. apply occ_skip in A; [|exact L]. split; [exact A|]. split; [lia|]. intros x X O. apply (B (x - k)); [lia|]. apply occ_skip; [exact L|]. replace (k + (x - k)) with x by lia. exact O.
Qed.
Lemma find_none pat s k : k <= length s -> find pat s k = None -> forall i, k <= i -> ~ occ pat s i.
Proof.
  intros L H i I O. unfold find in H. destruct (findk pat (skipn k s)) as [x|] eqn:F; [discriminate H|]. apply (findk_none _ _ F (i - k)). apply occ_skip; [exact L|]. replace (k + (i - k)) with i by lia. exact O.
Qed.
Lemma find_is pat s k j : k <= length s -> occ pat s j -> k <= j -> (forall i, k <= i < j -> ~ occ pat s i) -> find pat s k = Some j.
Proof.
  intros L O K M. destruct (find pat s k) as [x|] eqn:F.
  - destruct (find_some _ _ _ _ L F) as (A & B & C). f_equal. destruct (Nat.lt_total x j) as [X|[X|X]]; [exfalso; exact (M x (conj B X) A)|exact X|exfalso; exact (C j (conj K X) O)].
  - exfalso. exact (find_none _ _ _ L F j K O).
Qed.
(** a pattern whose first character is not in the rest does not overlap itself *)
Lemma occ_apart c p a b j : ~ In c p -> occ (c :: p) (a ++ (c :: p) ++ b) j -> j < length a -> j + length (c :: p) <= length a.
Proof.
  intros N (x & y & E & <-) L. destruct (le_lt_dec (length x + length (c :: p)) (length a)) as [G|G]; [exact G|]. exfalso. apply N.
  assert (Z1 : nth_error (a ++ (c :: p) ++ b) (length a) = Some c) by (rewrite nth_error_app2 by lia; rewrite Nat.sub_diag; reflexivity).
  rewrite E in Z1. rewrite nth_error_app2 in Z1 by lia. rewrite nth_error_app1 in Z1 by lia. destruct (length a - length x) as [|k] eqn:K; [lia|]. cbn [nth_error] in Z1. exact (nth_error_In _ _ Z1).
Qed.
(** an occurrence before position |a| lies in a *)
Lemma occ_within c p a b j : ~ In c p -> occ (c :: p) (a ++ (c :: p) ++ b) j -> j < length a -> occ (c :: p) a j.
Proof.
  intros N O L. pose proof (occ_apart c p a b j N O L) as B. destruct O as (x & y & E & <-).
  exists x, (skipn (length x + length (c :: p)) a). split; [|reflexivity].
  assert (E2 : firstn (length x + length (c :: p)) (a ++ (c :: p) ++ b) = x ++ c :: p).
  { rewrite E. rewrite app_assoc. rewrite <- app_length. rewrite firstn_app, firstn_all, Nat.sub_diag. cbn [firstn]. apply app_nil_r. }
  rewrite firstn_app in E2. replace (length x + length (c :: p) - length a) with 0 in E2 by lia. cbn [firstn] in E2. rewrite app_nil_r in E2. rewrite app_assoc, <- E2. symmetry. apply firstn_skipn.
Qed.
Lemma occ_prefix pat u r j : occ pat u j -> occ pat (u ++ r) j.
Proof. intros (a & b & -> & L). exists a, (b ++ r). split; [rewrite <- !app_assoc; reflexivity|exact L]. Qed.
Lemma occ_contains pat s j : contains_sub pat s = false -> ~ occ pat s j.
Proof. intros H (a & b & E & _). assert (contains_sub pat s = true) by (apply contains_sub_iff; exists a, b; exact E). congruence. Qed.
(** no occurrence starts in a text without the first character *)
Lemma occ_head c p a b j : ~ In c a -> occ (c :: p) (a ++ b) j -> length a <= j.
Proof.
  intros N (x & y & E & <-). destruct (le_lt_dec (length a) (length x)) as [G|G]; [exact G|]. exfalso. apply N.
  assert (Z : nth_error (a ++ b) (length x) = Some c) by (rewrite E, nth_error_app2 by lia; rewrite Nat.sub_diag; reflexivity). rewrite nth_error_app1 in Z by exact G. exact (nth_error_In _ _ Z).
Qed.
Lemma slice_app (a b c : str) : slice (a ++ b ++ c) (length a) (length a + length b) = b.
Proof. unfold slice. rewrite skipn_app, Nat.sub_diag, skipn_all. cbn [app skipn]. replace (length a + length b - length a) with (length b) by lia. rewrite firstn_app, Nat.sub_diag, firstn_all. cbn [firstn]. apply app_nil_r. Qed.
Lemma skipn_after (a b : str) k : k = length a -> skipn k (a ++ b) = b.
Proof. intros ->. rewrite skipn_app, Nat.sub_diag, skipn_all. reflexivity. Qed.

(** ** A closing tag behind an opening one *)
(** the first place of the closing tag *)
Lemma first_close c1 p1 d o a b : (* c1::p1 the closing tag *) ~ In c1 p1 -> (forall i, i < length o -> ~ occ (c1 :: p1) (o ++ d) i) -> d = a ++ (c1 :: p1) ++ b -> contains_sub (c1 :: p1) a = false ->
  find (c1 :: p1) (o ++ d) 0 = Some (length o + length a).
Proof.
  intros N O -> C. apply find_is; [lia| |lia|].
  - exists (o ++ a), b. split; [rewrite <- app_assoc; reflexivity|apply app_length].
  - intros i L X. destruct (le_lt_dec (length o) i) as [G|G]; [|exact (O i G X)]. assert (Y : occ (c1 :: p1) (a ++ (c1 :: p1) ++ b) (i - length o)).
    { rewrite <- (skipn_after o (a ++ (c1 :: p1) ++ b) _ eq_refl). apply occ_skip; [rewrite app_length; lia|]. replace (length o + (i - length o)) with i by lia. exact X. }
    apply (occ_contains _ _ (i - length o) C). apply (occ_within c1 p1 a b); [exact N|exact Y|lia].
Qed.
Lemma no_lt_tail : forall t : str, forallb (fun c => negb (aeqb c "<"%char)) t = true -> ~ In "<"%char t.
Proof. intros t H I. rewrite forallb_forall in H. specialize (H _ I). discriminate H. Qed.
Lemma close_in_open o t s i : o = "<"%char :: t -> ~ In "<"%char t -> forall p1 d, s = o ++ d -> i < length o -> (exists x, hd_error t = Some x /\ hd_error p1 <> Some x) -> p1 <> [] -> ~ occ ("<"%char :: p1) s i.
Proof.
  intros -> NT p1 d -> L (x & X1 & X2) NP O. destruct i as [|i].
  - apply occ_0 in O. apply startswith_iff in O. destruct O as [u U]. injection U as U. destruct t as [|y t]; [discriminate X1|]. destruct p1 as [|z p1]; [contradiction|]. cbn [app] in U. injection U as U _. cbn in X1, X2. congruence.
  - cbn [app] in O. apply (proj1 (occ_S _ _ _ _)) in O. apply occ_head in O; [|exact NT]. cbn [length] in L. lia.
Qed.

(** ** Lists *)
Lemma In_skipn {A} (x : A) : forall k l, In x (skipn k l) -> In x l.
Proof. induction k as [|k IH]; intros [|y l] I; [exact I|exact I|destruct I|right; exact (IH l I)]. Qed.
Lemma In_firstn {A} (x : A) : forall k l, In x (firstn k l) -> In x l.
Proof. induction k as [|k IH]; intros [|y l] I; try (destruct I; fail); cbn [firstn] in I. destruct I as [->|I]; [left; reflexivity|right; exact (IH l I)]. Qed.
Lemma Forall2_firstn {A B} (R : A -> B -> Prop) : forall k l m, Forall2 R l m -> Forall2 R (firstn k l) (firstn k m).
Proof. induction k as [|k IH]; intros l m F; [constructor|]. destruct F; [constructor|]. cbn [firstn]. constructor; [assumption|]. apply IH. assumption. Qed.
Lemma Forall2_skipn {A B} (R : A -> B -> Prop) : forall k l m, Forall2 R l m -> Forall2 R (skipn k l) (skipn k m).
Proof. induction k as [|k IH]; intros l m F; [exact F|]. destruct F; [constructor|]. cbn [skipn]. apply IH. assumption. Qed.
Lemma Forall2_nth {A B} (R : A -> B -> Prop) l m : Forall2 R l m -> forall k y, nth_error m k = Some y -> exists x, nth_error l k = Some x /\ R x y.
Proof. intro F. induction F as [|x y l m H F IH]; intros [|k] z E; try discriminate E; cbn [nth_error] in E |- *; [injection E as <-; exists x; split; [reflexivity|exact H]|exact (IH k z E)]. Qed.
Lemma skipn_plus {A} : forall k j (l : list A), skipn j (skipn k l) = skipn (k + j) l.
Proof. induction k as [|k IH]; intros j l; [reflexivity|]. destruct l as [|x l]; [destruct j; reflexivity|]. cbn [skipn plus]. apply IH. Qed.
Lemma Forall2_len {A B} (R : A -> B -> Prop) l m : Forall2 R l m -> length l = length m.
Proof. induction 1; cbn [length]; congruence. Qed.
Lemma firstn_plus {A} : forall k j (l : list A), firstn (k + j) l = firstn k l ++ firstn j (skipn k l).
Proof. induction k as [|k IH]; intros j l; [reflexivity|]. destruct l as [|x l]; [cbn [plus skipn firstn app]; destruct j; reflexivity|]. cbn [plus firstn skipn app]. f_equal. apply IH. Qed.
Lemma nth_error_skip {A} : forall k j (l : list A), nth_error (skipn k l) j = nth_error l (k + j).
Proof. induction k as [|k IH]; intros j l; [reflexivity|]. destruct l as [|x l]; [destruct j; reflexivity|]. cbn [skipn plus nth_error]. apply IH. Qed.

(** ** The server *)
Lemma slice_prefix (u r : str) a b : b <= length u -> slice (u ++ r) a b = slice u a b.
Proof.
  intro L. unfold slice. destruct (le_lt_dec a (length u)) as [G|G].
  - rewrite skipn_app. replace (a - length u) with 0 by lia. cbn [skipn]. rewrite firstn_app, skipn_length. replace (b - a - (length u - a)) with 0 by lia. cbn [firstn]. apply app_nil_r.
  - replace (b - a) with 0 by lia. reflexivity.
Qed.
Lemma ev_close_tail : ~ In "<"%char (s_ "/event>"). Proof. apply no_lt_tail. reflexivity. Qed.
Lemma ex_close_tail : ~ In "<"%char (s_ "/exitcode>"). Proof. apply no_lt_tail. reflexivity. Qed.
Lemma ev_open_tail : ~ In "<"%char (s_ "event>"). Proof. apply no_lt_tail. reflexivity. Qed.
Lemma ex_open_tail : ~ In "<"%char (s_ "exitcode>"). Proof. apply no_lt_tail. reflexivity. Qed.
Lemma ev_after d j : occ ev_close (ev_open ++ d) j -> 7 <= j.
Proof. intro O. destruct (le_lt_dec 7 j) as [G|G]; [exact G|]. exfalso. revert O. change ev_close with ("<"%char :: s_ "/event>"). apply (close_in_open ev_open (s_ "event>") _ j eq_refl ev_open_tail _ d eq_refl); [exact G|exists "e"%char; split; [reflexivity|discriminate]|discriminate]. Qed.
Lemma ex_after d j : occ ex_close (ex_open ++ d) j -> 10 <= j.
Proof. intro O. destruct (le_lt_dec 10 j) as [G|G]; [exact G|]. exfalso. revert O. change ex_close with ("<"%char :: s_ "/exitcode>"). apply (close_in_open ex_open (s_ "exitcode>") _ j eq_refl ex_open_tail _ d eq_refl); [exact G|exists "e"%char; split; [reflexivity|discriminate]|discriminate]. Qed.
(** a closing tag before the last one is in the data *)
Lemma in_payload o t p b j : t = "<"%char :: tl t -> ~ In "<"%char (tl t) -> occ t (o ++ p ++ t ++ b) j -> length o <= j < length o + length p -> exists q x, p = q ++ t ++ x /\ j = length o + length q.
Proof.
  intros T N O [L1 L2]. rewrite app_assoc in O. rewrite T in O at 1 2. apply occ_within in O; [|exact N|rewrite app_length; lia]. rewrite <- T in O. destruct O as (a & x & E & <-).
  assert (A : a = o ++ skipn (length o) a).
  { rewrite <- (firstn_skipn (length o) a) at 1. f_equal. assert (F : firstn (length o) (o ++ p) = firstn (length o) (a ++ t ++ x)) by (rewrite E; reflexivity). rewrite !firstn_app in F. replace (length o - length a) with 0 in F by lia. rewrite Nat.sub_diag in F. cbn [firstn] in F. rewrite !app_nil_r, firstn_all in F. symmetry. exact F. }
  exists (skipn (length o) a), x. rewrite A in E. rewrite <- app_assoc in E. apply app_inv_head in E. split; [exact E|]. rewrite A at 1. rewrite app_length. reflexivity.
Qed.
Section Server.
Variables E T : Type.
Variable loads : str -> loaded E.
Variable loads_exit : str -> option (T * nat).
Notation carries := (carries loads loads_exit).
Lemma len_ev (p x : str) : length (ev_open ++ p ++ ev_close ++ x) = 15 + length p + length x.
Proof. rewrite !app_length. change (length ev_open) with 7. change (length ev_close) with 8. lia. Qed.
Lemma len_ex (p x : str) : length (ex_open ++ p ++ ex_close ++ x) = 21 + length p + length x.
Proof. rewrite !app_length. change (length ex_open) with 10. change (length ex_close) with 11. lia. Qed.
Lemma event_full p e rest : loads p = Loaded e -> (forall q r, p = q ++ ev_close ++ r -> loads q = Truncated) ->
  forall fuel k, k <= 7 + length p -> 7 + length p - k <= fuel -> event_scan E loads fuel (ev_open ++ p ++ ev_close ++ rest) (find ev_close (ev_open ++ p ++ ev_close ++ rest) k) = Got e (7 + length p).
Proof.
  intros LP TR. set (s := ev_open ++ p ++ ev_close ++ rest). assert (LS : length s = 7 + length p + 8 + length rest) by (unfold s; rewrite !app_length; cbn; lia).
  assert (O : occ ev_close s (7 + length p)) by (exists (ev_open ++ p), rest; split; [unfold s; rewrite <- app_assoc; reflexivity|rewrite app_length; reflexivity]).
  induction fuel as [|fuel IH]; intros k K F; destruct (find ev_close s k) as [j|] eqn:FD; try (exfalso; refine (find_none ev_close s k _ FD _ _ O); lia).
  all: destruct (find_some ev_close s k j ltac:(lia) FD) as (OJ & KJ & MJ); assert (JL : j <= 7 + length p) by (destruct (le_lt_dec j (7 + length p)) as [G|G]; [exact G|exfalso; exact (MJ _ (conj K G) O)]).
  all: destruct (Nat.eq_dec j (7 + length p)) as [->|NE].
  1, 3: cbn [event_scan]; assert (SL : slice s 7 (7 + length p) = p) by (unfold s; change 7 with (length ev_open) at 1 2; rewrite slice_app; reflexivity); rewrite SL, LP; reflexivity.
  - lia.
  - assert (J7 : 7 <= j) by (apply (ev_after (p ++ ev_close ++ rest)); exact OJ).
    destruct (in_payload ev_open ev_close p rest j eq_refl ev_close_tail OJ) as (q & x & P & J); [change (length ev_open) with 7; lia|].
    cbn [event_scan]. assert (SL : slice s 7 j = q) by (unfold s; rewrite P, <- app_assoc, J; change 7 with (length ev_open) at 1; apply slice_app). rewrite SL, (TR q x P). apply IH; lia.
Qed.
Lemma event_partial p u r : (forall q x, p = q ++ ev_close ++ x -> loads q = Truncated) -> u ++ r = ev_open ++ p ++ ev_close -> r <> [] ->
  forall fuel k, k <= length u -> event_scan E loads fuel u (find ev_close u k) = Wait.
Proof.
  intros TR UE NR. assert (LU : length u < 15 + length p) by (assert (Z : length (u ++ r) = length (ev_open ++ p ++ ev_close)) by (rewrite UE; reflexivity); rewrite !app_length in Z; change (length ev_open) with 7 in Z; change (length ev_close) with 8 in Z; destruct r; [contradiction|cbn [length] in Z; lia]).
  induction fuel as [|fuel IH]; intros k K; destruct (find ev_close u k) as [j|] eqn:FD; try reflexivity.
  all: destruct (find_some _ _ _ _ K FD) as (OJ & KJ & _); pose proof (occ_len _ _ _ OJ) as JL; change (length ev_close) with 8 in JL.
  all: pose proof (occ_prefix _ _ r _ OJ) as OW; rewrite UE in OW; assert (J7 : 7 <= j) by (apply (ev_after (p ++ ev_close)); exact OW).
  all: destruct (in_payload ev_open ev_close p [] j eq_refl ev_close_tail) as (q & x & P & J); [rewrite app_nil_r; exact OW|change (length ev_open) with 7; lia|].
  all: assert (SL : slice u 7 j = q) by (rewrite <- (slice_prefix u r) by lia; rewrite UE, P, <- app_assoc, J; change 7 with (length ev_open) at 1; apply slice_app).
  all: cbn [event_scan]; rewrite SL, (TR q x P).
  1: reflexivity.
  apply IH. lia.
Qed.
Definition stuck (q : str) : Prop := q = [] \/ exists m s r, carries m s /\ s = q ++ r /\ r <> [].
Lemma carries_ne m s : carries m s -> s <> [].
Proof. destruct m as [e|t n]; intros (p & -> & _); discriminate. Qed.
Lemma not_exit_open d : startswith ex_open (ev_open ++ d) = false. Proof. reflexivity. Qed.
Lemma not_event_open d : startswith ev_open (ex_open ++ d) = false. Proof. reflexivity. Qed.
Lemma prefix_start o u r d : u ++ r = o ++ d -> forall o', startswith o' u = true -> startswith o' (o ++ d) = true.
Proof. intros H o' S. apply startswith_iff in S. destruct S as [t ->]. rewrite <- H, <- app_assoc. apply startswith_app. Qed.
Definition starts_event (m : list (message E T)) : Prop := match m with Event _ :: _ => True | _ => False end.
Definition starts_exit (m : list (message E T)) : Prop := match m with Exit _ _ :: _ => True | _ => False end.
Definition some_of {A} (l : list A) : bool := match l with [] => false | _ => true end.
Lemma event_loop_spec q : stuck q -> forall ms ss, Forall2 carries ms ss -> forall fuel out found, length (concat ss ++ q) <= fuel ->
  exists m1 m2 s2, ms = m1 ++ m2 /\ Forall2 carries m2 s2 /\ ~ starts_event m2 /\ (starts_event ms -> m1 <> []) /\
    event_loop E T loads fuel (concat ss ++ q) out found = Some (concat s2 ++ q, out ++ m1, found || some_of m1).
Proof.
  intros Q ms ss F. induction F as [|m s ms ss M F IH]; intros fuel out found L.
  - exists [], [], []. split; [reflexivity|]. split; [constructor|]. split; [intros []|]. split; [intros []|]. rewrite app_nil_r, orb_false_r. cbn [concat app]. destruct fuel as [|fuel]; [reflexivity|]. cbn [event_loop]. destruct (startswith ev_open q) eqn:S; [|reflexivity].
    destruct Q as [->|(m & s & r & M & EQ & NR)]; [discriminate S|]. destruct m as [e|t n]; destruct M as (p & -> & LP & TR).
    + rewrite (event_partial p q r TR (eq_sym EQ) NR) by lia. reflexivity.
    + exfalso. pose proof (prefix_start ex_open q r _ (eq_sym EQ) _ S) as Z. rewrite not_event_open in Z. discriminate Z.
  - destruct m as [e|t n].
    + destruct M as (p & -> & LP & TR). cbn [concat] in L |- *. rewrite <- !app_assoc in L |- *. change (s_ "<event>") with ev_open in *. change (s_ "</event>") with ev_close in *.
      destruct fuel as [|fuel]; [exfalso; rewrite app_length in L; change (length ev_open) with 7 in L; lia|]. cbn [event_loop]. rewrite startswith_app. pose proof (event_full p e (concat ss ++ q) LP TR (length (ev_open ++ p ++ ev_close ++ concat ss ++ q)) 0 ltac:(lia)) as EF. rewrite EF by (rewrite len_ev; lia). clear EF.
      assert (SK : skipn (7 + length p + 8) (ev_open ++ p ++ ev_close ++ concat ss ++ q) = concat ss ++ q) by (rewrite !app_assoc; rewrite <- (app_assoc _ (concat ss)); apply skipn_after; rewrite !app_length; reflexivity). rewrite SK.
      destruct (IH fuel (out ++ [Event e]) true) as (m1 & m2 & s2 & -> & F2 & N2 & _ & EL); [pose proof (len_ev p (concat ss ++ q)); lia|].
      exists (Event e :: m1), m2, s2. split; [reflexivity|]. split; [exact F2|]. split; [exact N2|]. split; [discriminate|]. rewrite EL. cbn [some_of]. rewrite orb_true_r, <- app_assoc. reflexivity.
    + exists [], (Exit t n :: ms), (s :: ss). split; [reflexivity|]. split; [constructor; assumption|]. split; [intros []|]. split; [intros []|]. rewrite app_nil_r, orb_false_r. destruct M as (p & -> & LP & TR). destruct fuel as [|fuel]; [reflexivity|]. cbn [event_loop concat]. rewrite <- !app_assoc. change (s_ "<exitcode>") with ex_open. rewrite not_event_open. reflexivity.
Qed.
Lemma exit_loop_spec q : stuck q -> forall ms ss, Forall2 carries ms ss -> forall fuel out found, length (concat ss ++ q) <= fuel ->
  exists m1 m2 s2, ms = m1 ++ m2 /\ Forall2 carries m2 s2 /\ (starts_exit ms -> m1 <> []) /\
    exit_loop E T loads_exit fuel (concat ss ++ q) out found = Some (concat s2 ++ q, out ++ m1, found || some_of m1).
Proof.
  intros Q ms ss F. induction F as [|m s ms ss M F IH]; intros fuel out found L.
  - exists [], [], []. split; [reflexivity|]. split; [constructor|]. split; [intros []|]. rewrite app_nil_r, orb_false_r. cbn [concat app]. destruct fuel as [|fuel]; [reflexivity|]. cbn [exit_loop]. destruct (find ex_close q 0) as [j|] eqn:FD; [|reflexivity]. destruct (startswith ex_open q) eqn:S; [|reflexivity].
    exfalso. destruct Q as [->|(m & s & r & M & EQ & NR)]; [discriminate S|]. destruct m as [e|t n]; destruct M as (p & -> & LP & TR).
    + pose proof (prefix_start ev_open q r _ (eq_sym EQ) _ S) as Z. rewrite not_exit_open in Z. discriminate Z.
    + destruct (find_some ex_close q 0 j ltac:(lia) FD) as (OJ & _). pose proof (occ_len _ _ _ OJ) as JL. change (length ex_close) with 11 in JL. pose proof (occ_prefix _ _ r _ OJ) as OW. rewrite <- EQ in OW. assert (J10 : 10 <= j) by (apply (ex_after (p ++ ex_close)); exact OW).
      assert (LU : length q < 21 + length p) by (assert (Z : length (q ++ r) = length (ex_open ++ p ++ ex_close)) by (rewrite <- EQ; reflexivity); rewrite !app_length in Z; change (length ex_open) with 10 in Z; change (length ex_close) with 11 in Z; destruct r; [contradiction|cbn [length] in Z; lia]).
      destruct (in_payload ex_open ex_close p [] j eq_refl ex_close_tail) as (x & y & P & J); [rewrite app_nil_r; exact OW|change (length ex_open) with 10; lia|].
      assert (contains_sub ex_close p = true) by (apply contains_sub_iff; exists x, y; exact P). change (s_ "</exitcode>") with ex_close in TR. congruence.
  - destruct m as [e|t n].
    + exists [], (Event e :: ms), (s :: ss). split; [reflexivity|]. split; [constructor; assumption|]. split; [intros []|]. rewrite app_nil_r, orb_false_r. destruct M as (p & -> & LP & TR). destruct fuel as [|fuel]; [reflexivity|]. cbn [exit_loop concat]. rewrite <- !app_assoc. change (s_ "<event>") with ev_open. rewrite not_exit_open. destruct (find ex_close _ 0); reflexivity.
    + destruct M as (p & -> & LP & TR). cbn [concat] in L |- *. rewrite <- !app_assoc in L |- *. change (s_ "<exitcode>") with ex_open in *. change (s_ "</exitcode>") with ex_close in *.
      destruct fuel as [|fuel]; [exfalso; rewrite app_length in L; change (length ex_open) with 10 in L; lia|]. cbn [exit_loop]. rewrite startswith_app.
      assert (FD : find ex_close (ex_open ++ p ++ ex_close ++ concat ss ++ q) 0 = Some (length ex_open + length p)).
      { change ex_close with ("<"%char :: s_ "/exitcode>"). refine (first_close _ _ _ _ p (concat ss ++ q) ex_close_tail _ eq_refl TR). intros i I O. apply ex_after in O. change (length ex_open) with 10 in I. lia. }
      rewrite FD. change 10 with (length ex_open) at 1. rewrite slice_app, LP.
      assert (SK : skipn (length ex_open + length p + 11) (ex_open ++ p ++ ex_close ++ concat ss ++ q) = concat ss ++ q) by (rewrite !app_assoc; rewrite <- (app_assoc _ (concat ss)); apply skipn_after; rewrite !app_length; reflexivity). rewrite SK.
      destruct (IH fuel (out ++ [Exit t n]) true) as (m1 & m2 & s2 & -> & F2 & _ & EL); [pose proof (len_ex p (concat ss ++ q)); lia|].
      exists (Exit t n :: m1), m2, s2. split; [reflexivity|]. split; [exact F2|]. split; [discriminate|]. rewrite EL. cbn [some_of]. rewrite orb_true_r, <- app_assoc. reflexivity.
Qed.
Lemma passes_spec q : stuck q -> forall fuel ms ss, Forall2 carries ms ss -> forall out, length ms < fuel -> passes E T loads loads_exit fuel (concat ss ++ q) out = Some (q, out ++ ms).
Proof.
  intro Q. induction fuel as [|fuel IH]; intros ms ss F out L; [lia|]. unfold passes; fold (passes E T loads loads_exit). destruct (concat ss ++ q) as [|c z] eqn:Z.
  - destruct q; [|destruct (concat ss); discriminate Z]. destruct F as [|m s ms ss M F]; [rewrite app_nil_r; reflexivity|]. exfalso. cbn [concat] in Z. rewrite app_nil_r in Z. apply app_eq_nil in Z. exact (carries_ne _ _ M (proj1 Z)).
  - rewrite <- Z. destruct (event_loop_spec q Q ms ss F (length (concat ss ++ q)) out false (Nat.le_refl _)) as (m1 & m2 & s2 & -> & F2 & N2 & S2 & ->).
    destruct (exit_loop_spec q Q m2 s2 F2 (length (concat s2 ++ q)) (out ++ m1) (false || some_of m1) (Nat.le_refl _)) as (m3 & m4 & s4 & -> & F4 & S4 & ->).
    destruct (false || some_of m1 || some_of m3) eqn:B.
    + rewrite (IH m4 s4 F4); [rewrite <- !app_assoc; reflexivity|]. rewrite !app_length in L. destruct m1; [destruct m3; [discriminate B|]|]; cbn [length] in L; lia.
    + apply orb_false_iff in B. destruct B as [B1 B3]. destruct m1; [|discriminate B1]. destruct m3; [|discriminate B3]. cbn [app] in *. destruct m4 as [|[e|t n] m4].
      * inversion F4; subst. cbn [concat app]. rewrite !app_nil_r. reflexivity.
      * exfalso. apply N2. exact I.
      * exfalso. apply (S4 I). reflexivity.
Qed.
(** how much of a stream has come in *)
Lemma decompose : forall (ss : list str) u r, (forall s, In s ss -> s <> []) -> u ++ r = concat ss ->
  exists k q, u = concat (firstn k ss) ++ q /\ k <= length ss /\ ((q = [] /\ k = length ss) \/ exists s x, nth_error ss k = Some s /\ s = q ++ x /\ x <> []).
Proof.
  induction ss as [|s ss IH]; intros u r NE H.
  - cbn [concat] in H. apply app_eq_nil in H. destruct H as [-> _]. exists 0, []. split; [reflexivity|]. split; [lia|]. left. split; reflexivity.
  - cbn [concat] in H. destruct (le_lt_dec (length s) (length u)) as [L|L].
    + assert (A : u = s ++ skipn (length s) u).
      { rewrite <- (firstn_skipn (length s) u) at 1. f_equal. assert (F : firstn (length s) (u ++ r) = firstn (length s) (s ++ concat ss)) by (rewrite H; reflexivity). rewrite !firstn_app in F. replace (length s - length u) with 0 in F by lia. rewrite Nat.sub_diag in F. cbn [firstn] in F. rewrite !app_nil_r, firstn_all in F. exact F. }
      rewrite A, <- app_assoc in H. apply app_inv_head in H. destruct (IH _ _ (fun x I => NE x (or_intror I)) H) as (k & q & U & K & C). exists (S k), q. cbn [firstn concat length nth_error]. split; [rewrite A, U, app_assoc; reflexivity|]. split; [lia|]. destruct C as [[C1 C2]|C]; [left; split; [exact C1|lia]|right; exact C].
    + exists 0, u. split; [reflexivity|]. split; [lia|]. right. exists s, (skipn (length u) s). split; [reflexivity|]. split; [|intro Z; assert (length (skipn (length u) s) = 0) by (rewrite Z; reflexivity); rewrite skipn_length in *; lia].
      rewrite <- (firstn_skipn (length u) s) at 1. f_equal. assert (F : firstn (length u) (u ++ r) = firstn (length u) (s ++ concat ss)) by (rewrite H; reflexivity). rewrite !firstn_app in F. replace (length u - length s) with 0 in F by lia. rewrite Nat.sub_diag in F. cbn [firstn] in F. rewrite !app_nil_r, firstn_all in F. symmetry. exact F.
Qed.
Lemma server_run_spec ms ss : Forall2 carries ms ss -> forall chunks rest, concat chunks ++ rest = concat ss ->
  exists k q, server_run E T loads loads_exit chunks = Some (q, firstn k ms) /\ concat chunks = concat (firstn k ss) ++ q /\ k <= length ss /\
    ((q = [] /\ k = length ss) \/ exists s x, nth_error ss k = Some s /\ s = q ++ x /\ x <> []).
Proof.
  intros F chunks. assert (NE : forall s, In s ss -> s <> []).
  { intros s I. clear - F I. induction F as [|m s' ms ss M F IH]; [destruct I|]. destruct I as [<-|I]; [exact (carries_ne _ _ M)|exact (IH I)]. }
  induction chunks as [|c chunks IH] using rev_ind; intros rest H.
  - destruct (decompose ss [] rest NE H) as (k & q & U & K & C). symmetry in U. apply app_eq_nil in U. destruct U as [U ->]. exists k, []. split; [|split; [rewrite U; reflexivity|split; assumption]]. unfold server_run. cbn [fold_left]. f_equal. f_equal. destruct k as [|k]; [reflexivity|]. destruct F as [|m s ms ss M F]; [reflexivity|]. exfalso. cbn [firstn concat] in U. apply app_eq_nil in U. exact (carries_ne _ _ M (proj1 U)).
  - rewrite concat_app in H |- *. cbn [concat] in H |- *. rewrite app_nil_r in H |- *. rewrite <- app_assoc in H. destruct (IH _ H) as (k & q & R & U & K & C). assert (SA : server_run E T loads loads_exit (chunks ++ [c]) = server_read E T loads loads_exit (server_run E T loads loads_exit chunks) c) by (unfold server_run; rewrite fold_left_app; reflexivity). rewrite SA, R. clear SA. cbn [server_read]. rewrite U in H |- *.
    assert (H2 : (q ++ c) ++ rest = concat (skipn k ss)).
    { rewrite <- (firstn_skipn k ss) in H at 2. rewrite concat_app, <- !app_assoc in H. apply app_inv_head in H. rewrite <- app_assoc. exact H. }
    destruct (decompose (skipn k ss) _ _ (fun s I => NE s (In_skipn s k ss I)) H2) as (j & q' & U' & J & C').
    assert (F2 : Forall2 carries (firstn j (skipn k ms)) (firstn j (skipn k ss))) by (apply Forall2_firstn, Forall2_skipn, F).
    assert (ST : stuck q').
    { destruct C' as [[-> _]|(s & x & N & EQ & NX)]; [left; reflexivity|]. right. destruct (Forall2_nth _ _ _ (Forall2_skipn _ _ _ _ F) _ _ N) as (m & _ & M). exists m, s, x. split; [exact M|]. split; assumption. }
    exists (k + j), q'. rewrite U'. rewrite (passes_spec q' ST _ _ _ F2).
    + split; [f_equal; f_equal; symmetry; apply firstn_plus|]. split; [rewrite <- app_assoc; rewrite firstn_plus, concat_app, <- app_assoc; rewrite <- U'; reflexivity|]. rewrite skipn_length in *. split; [lia|]. destruct C' as [[C1 C2]|(s & x & N & EQ)]; [left; split; [exact C1|lia]|right]. exists s, x. split; [|exact EQ]. rewrite <- N. symmetry. apply nth_error_skip.
    + rewrite (Forall2_len _ _ _ F2). enough (G : length (firstn j (skipn k ss)) <= length (concat (firstn j (skipn k ss)))) by (rewrite app_length; lia). assert (NE2 : forall s, In s (firstn j (skipn k ss)) -> s <> []) by (intros s I; apply NE; apply (In_skipn s k); apply (In_firstn s j); exact I). revert NE2. generalize (firstn j (skipn k ss)). clear. induction l as [|s l IH]; intro NE; [apply le_n|]. cbn [concat length]. rewrite app_length. specialize (IH (fun x I => NE x (or_intror I))). assert (s <> []) by (apply NE; left; reflexivity). destruct s; [contradiction|cbn [length]; lia].
Qed.
End Server.

(** ** The worker *)
Lemma occ_apart_gen c p a b j : ~ In c p -> occ (c :: p) (a ++ c :: b) j -> j < length a -> j + length (c :: p) <= length a.
Proof.
  intros N (x & y & E & <-) L. destruct (le_lt_dec (length x + length (c :: p)) (length a)) as [G|G]; [exact G|]. exfalso. apply N.
  assert (Z1 : nth_error (a ++ c :: b) (length a) = Some c) by (rewrite nth_error_app2 by lia; rewrite Nat.sub_diag; reflexivity).
  rewrite E in Z1. rewrite nth_error_app2 in Z1 by lia. rewrite nth_error_app1 in Z1 by lia. destruct (length a - length x) as [|k] eqn:K; [lia|]. cbn [nth_error] in Z1. exact (nth_error_In _ _ Z1).
Qed.
Lemma occ_cut pat a b j : occ pat (a ++ b) j -> j + length pat <= length a -> occ pat a j.
Proof.
  intros (x & y & E & <-) L. exists x, (skipn (length x + length pat) a). split; [|reflexivity].
  assert (E2 : firstn (length x + length pat) (a ++ b) = x ++ pat).
  { rewrite E. rewrite app_assoc. rewrite <- app_length. rewrite firstn_app, firstn_all, Nat.sub_diag. cbn [firstn]. apply app_nil_r. }
  rewrite firstn_app in E2. replace (length x + length pat - length a) with 0 in E2 by lia. cbn [firstn] in E2. rewrite app_nil_r in E2. rewrite app_assoc, <- E2. symmetry. apply firstn_skipn.
Qed.
Lemma count_none pat : forall s, (forall j, ~ occ pat s j) -> count_aux pat 0 s = 0.
Proof.
  induction s as [|c s IH]; intro N; [reflexivity|]. cbn [count_aux]. destruct (startswith pat (c :: s)) eqn:SW; [exfalso; apply (N 0), occ_0, SW|]. apply IH. intros j O. apply (N (S j)). apply occ_S. exact O.
Qed.
Lemma count_one p : contains_sub ev_open p = false -> count ev_open (ev_open ++ p ++ ev_close) = 1.
Proof.
  intro C. change (count ev_open (ev_open ++ p ++ ev_close)) with (S (count_aux ev_open 0 (p ++ ev_close))). f_equal. apply count_none. intros j O.
  destruct (le_lt_dec (length p) j) as [G|G].
  - assert (Y : occ ev_open ev_close (j - length p)).
    { rewrite <- (skipn_after p ev_close _ eq_refl). apply occ_skip; [rewrite app_length; lia|]. replace (length p + (j - length p)) with j by lia. exact O. }
    revert Y. generalize (j - length p). intros k (x & y & E & _). assert (Z : contains_sub ev_open ev_close = true) by (apply contains_sub_iff; exists x, y; exact E). discriminate Z.
  - apply (occ_contains _ _ j C). apply (occ_cut _ _ ev_close _ O). change ev_open with ("<"%char :: s_ "event>") in O |- *. change ev_close with ("<"%char :: s_ "/event>") in O. exact (occ_apart_gen _ _ _ _ _ ev_open_tail O G).
Qed.
Definition cut (q : str) : Prop := q = [] \/ exists s r, plain_event s /\ s = q ++ r /\ r <> [].
Lemma plain_ne s : plain_event s -> s <> [].
Proof. intros (p & -> & _). discriminate. Qed.
Lemma relay_spec q : cut q -> forall ms, Forall plain_event ms -> forall fuel out, length (concat ms ++ q) <= fuel -> relay fuel (concat ms ++ q) out = Some (q, out ++ ms).
Proof.
  intros Q ms F. induction F as [|s ms M F IH]; intros fuel out L.
  - cbn [concat app] in L |- *. rewrite app_nil_r. destruct fuel as [|fuel]; [reflexivity|]. cbn [relay]. destruct (find ev_close q 0) as [j|] eqn:FD; [|reflexivity]. exfalso.
    destruct Q as [->|(s & r & M & EQ & NR)]; [discriminate FD|]. destruct M as (p & -> & C1 & C2). destruct (find_some ev_close q 0 j ltac:(lia) FD) as (OJ & _). pose proof (occ_len _ _ _ OJ) as JL. change (length ev_close) with 8 in JL. pose proof (occ_prefix _ _ r _ OJ) as OW. rewrite <- EQ in OW. assert (J7 : 7 <= j) by (apply (ev_after (p ++ ev_close)); exact OW).
    assert (LU : length q < 15 + length p) by (assert (Z : length (q ++ r) = length (ev_open ++ p ++ ev_close)) by (rewrite <- EQ; reflexivity); rewrite !app_length in Z; change (length ev_open) with 7 in Z; change (length ev_close) with 8 in Z; destruct r; [contradiction|cbn [length] in Z; lia]).
    destruct (in_payload ev_open ev_close p [] j eq_refl ev_close_tail) as (x & y & P & J); [rewrite app_nil_r; exact OW|change (length ev_open) with 7; lia|].
    assert (contains_sub ev_close p = true) by (apply contains_sub_iff; exists x, y; exact P). change (s_ "</event>") with ev_close in C2. congruence.
  - destruct M as (p & -> & C1 & C2). change (s_ "<event>") with ev_open in *. change (s_ "</event>") with ev_close in *. cbn [concat] in L |- *. rewrite <- !app_assoc in L |- *.
    pose proof (len_ev p (concat ms ++ q)) as LL. destruct fuel as [|fuel]; [exfalso; lia|]. cbn [relay].
    assert (FD : find ev_close (ev_open ++ p ++ ev_close ++ concat ms ++ q) 0 = Some (length ev_open + length p)).
    { change ev_close with ("<"%char :: s_ "/event>"). refine (first_close _ _ _ _ p (concat ms ++ q) ev_close_tail _ eq_refl C2). intros i I O. apply ev_after in O. change (length ev_open) with 7 in I. lia. }
    rewrite FD.
    assert (FN : firstn (length ev_open + length p + 8) (ev_open ++ p ++ ev_close ++ concat ms ++ q) = ev_open ++ p ++ ev_close).
    { replace (ev_open ++ p ++ ev_close ++ concat ms ++ q) with ((ev_open ++ p ++ ev_close) ++ (concat ms ++ q)) by (rewrite <- !app_assoc; reflexivity). replace (length ev_open + length p + 8) with (length (ev_open ++ p ++ ev_close)) by (rewrite !app_length; change (length ev_close) with 8; lia). rewrite firstn_app, Nat.sub_diag, firstn_all. cbn [firstn]. apply app_nil_r. }
    assert (SK : skipn (length ev_open + length p + 8) (ev_open ++ p ++ ev_close ++ concat ms ++ q) = concat ms ++ q).
    { replace (ev_open ++ p ++ ev_close ++ concat ms ++ q) with ((ev_open ++ p ++ ev_close) ++ (concat ms ++ q)) by (rewrite <- !app_assoc; reflexivity). apply skipn_after. rewrite !app_length. change (length ev_close) with 8. lia. }
    cbv zeta. rewrite FN, SK, startswith_app, (count_one p C1). cbn [Nat.eqb andb]. rewrite IH by lia. rewrite <- app_assoc. reflexivity.
Qed.
Lemma cut_of ms k (q : str) : Forall plain_event ms -> ((q = [] /\ k = length ms) \/ exists s x, nth_error ms k = Some s /\ s = q ++ x /\ x <> []) -> cut q.
Proof. intros F [[-> _]|(s & x & N & EQ & NX)]; [left; reflexivity|]. right. exists s, x. split; [|split; assumption]. rewrite Forall_forall in F. exact (F s (nth_error_In _ _ N)). Qed.
Lemma Forall_skipn {A} (P : A -> Prop) k l : Forall P l -> Forall P (skipn k l).
Proof. rewrite !Forall_forall. intros F x I. exact (F x (In_skipn x k l I)). Qed.
Lemma Forall_firstn {A} (P : A -> Prop) k l : Forall P l -> Forall P (firstn k l).
Proof. rewrite !Forall_forall. intros F x I. exact (F x (In_firstn x k l I)). Qed.
Section Worker.
Variable limit : nat.
Variable T : Type.
Hypothesis some_bytes : 0 < limit.
Lemma about_app pid (a b : list (nat * sent T)) : about pid (a ++ b) = about pid a ++ about pid b.
Proof. unfold about. rewrite filter_app, map_app. reflexivity. Qed.
Lemma about_own pid (l : list str) : about pid (map (fun m => (pid, @Passed T m)) l) = map Passed l.
Proof. unfold about. induction l as [|m l IH]; [reflexivity|]. cbn [map filter fst]. rewrite Nat.eqb_refl. cbn [map snd]. f_equal. exact IH. Qed.
Lemma about_other pid p (l : list str) : p <> pid -> about pid (map (fun m => (p, @Passed T m)) l) = [].
Proof. intro N. unfold about. induction l as [|m l IH]; [reflexivity|]. cbn [map filter fst]. rewrite (proj2 (Nat.eqb_neq p pid) N). exact IH. Qed.
(** where a child is in its messages *)
Definition at_place (ms : list str) (k : nat) (c : child T) (rest : str) : Prop := k <= length ms /\ c_queue c ++ c_pipe c ++ rest = concat (skipn k ms).
Lemma child_read_spec pid ms k c rest out : Forall plain_event ms -> at_place ms k c rest ->
  exists k' c', child_read limit T pid c out = Some (c', out ++ map (fun m => (pid, Passed m)) (firstn k' (skipn k ms))) /\ k + k' <= length ms /\ at_place ms (k + k') c' rest /\
    c_task c' = c_task c /\ c_pipe c' = skipn limit (c_pipe c) /\ concat (firstn k' (skipn k ms)) ++ c_queue c' ++ c_pipe c' = c_queue c ++ c_pipe c /\
    ((c_queue c' = [] /\ k + k' = length ms) \/ exists s x, nth_error ms (k + k') = Some s /\ s = c_queue c' ++ x /\ x <> []).
Proof.
  intros F [K A]. assert (A2 : (c_queue c ++ firstn limit (c_pipe c)) ++ (skipn limit (c_pipe c) ++ rest) = concat (skipn k ms)).
  { rewrite <- A, <- app_assoc. f_equal. rewrite app_assoc. f_equal. apply firstn_skipn. }
  assert (NE : forall s, In s (skipn k ms) -> s <> []).
  { intros s I. apply plain_ne. rewrite Forall_forall in F. exact (F s (In_skipn s k ms I)). }
  destruct (decompose (skipn k ms) _ _ NE A2) as (j & q & U & J & C). rewrite skipn_length in J.
  exists j, (mkChild (c_task c) (skipn limit (c_pipe c)) q). unfold child_read. rewrite U.
  rewrite (relay_spec q (cut_of _ _ _ (Forall_skipn _ _ _ F) C) _ (Forall_firstn _ _ _ (Forall_skipn _ _ _ F)) _ [] (Nat.le_refl _)). cbn [app c_queue c_pipe c_task].
  split; [reflexivity|]. split; [lia|]. split; [|split; [reflexivity|split; [reflexivity|split]]].
  - split; [lia|]. cbn [c_queue c_pipe]. rewrite U in A2. rewrite <- (firstn_skipn j (skipn k ms)) in A2 at 2. rewrite concat_app, <- !app_assoc in A2. apply app_inv_head in A2. rewrite A2. f_equal. clear. revert ms. induction k as [|k IH]; intros ms; [reflexivity|]. destruct ms as [|m ms]; [destruct j; reflexivity|]. cbn [skipn plus]. apply IH.
  - rewrite app_assoc, <- U, <- app_assoc. f_equal. apply firstn_skipn.
  - rewrite skipn_length in C. destruct C as [[C1 C2]|(s & x & N & C)]; [left; split; [exact C1|lia]|right; exists s, x; split; [|exact C]]. rewrite <- N. symmetry. apply nth_error_skip.
Qed.
Lemma child_close_spec pid ms rest : Forall plain_event ms -> forall fuel k c out, length (c_pipe c) <= fuel -> at_place ms k c rest ->
  exists k' q, child_close limit T fuel pid c out = Some (out ++ map (fun m => (pid, Passed m)) (firstn k' (skipn k ms))) /\ k + k' <= length ms /\
    concat (firstn k' (skipn k ms)) ++ q = c_queue c ++ c_pipe c /\ ((q = [] /\ k + k' = length ms) \/ exists s x, nth_error ms (k + k') = Some s /\ s = q ++ x /\ x <> []).
Proof.
  intro F. induction fuel as [|fuel IH]; intros k c out L A; destruct (child_read_spec pid ms k c rest out F A) as (k1 & c1 & R & K1 & A1 & _ & P1 & U1 & C1); cbn [child_close]; rewrite R.
  - destruct (c_pipe c) as [|b pipe] eqn:P; [|exfalso; cbn in L; lia]. exists k1, (c_queue c1). split; [reflexivity|]. split; [exact K1|]. split; [|exact C1]. rewrite <- U1, P1. destruct limit; cbn [skipn]; rewrite app_nil_r; reflexivity.
  - destruct (c_pipe c) as [|b pipe] eqn:P.
    + exists k1, (c_queue c1). split; [reflexivity|]. split; [exact K1|]. split; [|exact C1]. rewrite <- U1, P1. destruct limit; cbn [skipn]; rewrite app_nil_r; reflexivity.
    + destruct (IH (k + k1) c1 (out ++ map (fun m => (pid, Passed m)) (firstn k1 (skipn k ms)))) as (k2 & q & R2 & K2 & U2 & C2); [rewrite P1, skipn_length; cbn [length] in L |- *; lia|exact A1|].
      exists (k1 + k2), q. rewrite R2. split; [rewrite firstn_plus, map_app, <- app_assoc; do 3 f_equal; rewrite <- skipn_plus; reflexivity|]. split; [lia|]. rewrite Nat.add_assoc. split; [|exact C2]. rewrite firstn_plus, concat_app, <- app_assoc. rewrite <- skipn_plus in U2. rewrite U2. exact U1.
Qed.
Lemma lived_snoc pid acts a s : lived (T:=T) pid (acts ++ [a]) s ->
  (lived pid acts s /\ (match a with Start p _ | Write p _ | Read p | Reap p _ => p end) <> pid) \/
  (exists t, a = Start pid t /\ lived pid acts None /\ s = Some (t, None)) \/
  (exists t b, a = Write pid b /\ lived pid acts (Some (t, None)) /\ s = Some (t, None)) \/
  (exists t, a = Read pid /\ lived pid acts (Some (t, None)) /\ s = Some (t, None)) \/
  (exists t n, a = Reap pid n /\ lived pid acts (Some (t, None)) /\ s = Some (t, Some n)).
Proof.
  intro L. inversion L as [H|l a' s' L' N H|l t L' H|l t b L' H|l t L' H|l t n L' H]; [destruct acts; discriminate H| | | | |];
  apply app_inj_tail in H; destruct H as [H1 H2]; subst; [left; split; assumption|right; left; exists t|right; right; left; exists t, b|right; right; right; left; exists t|right; right; right; right; exists t, n]; (split; [reflexivity|split; [assumption|reflexivity]]).
Qed.
Lemma wrote_snoc pid acts (a : action T) : wrote pid (acts ++ [a]) = wrote pid acts ++ match a with Write p b => if Nat.eqb p pid then b else [] | _ => [] end.
Proof. unfold wrote. rewrite map_app, concat_app. cbn [map concat]. rewrite app_nil_r. reflexivity. Qed.
(** the invariant of one process *)
Definition inv (ms : list str) (pid : nat) (acts : list (action T)) (w : worker T) (s : option (T * option nat)) : Prop :=
  match s with
  | None => w_children w pid = None /\ about pid (w_out w) = [] /\ wrote pid acts = []
  | Some (t, None) => exists k c, w_children w pid = Some c /\ c_task c = t /\ k <= length ms /\ about pid (w_out w) = map Passed (firstn k ms) /\ wrote pid acts = concat (firstn k ms) ++ c_queue c ++ c_pipe c
  | Some (t, Some n) => exists k q, w_children w pid = None /\ k <= length ms /\ about pid (w_out w) = map Passed (firstn k ms) ++ [Status t n] /\ wrote pid acts = concat (firstn k ms) ++ q /\
      ((q = [] /\ k = length ms) \/ exists s x, nth_error ms k = Some s /\ s = q ++ x /\ x <> [])
  end.
Lemma worker_snoc acts a : worker_run limit T (acts ++ [a]) = worker_step limit T (worker_run limit T acts) a.
Proof. unfold worker_run. rewrite fold_left_app. reflexivity. Qed.
Lemma place_of ms acts pid rest k c : k <= length ms -> wrote pid acts ++ rest = concat ms -> wrote (T:=T) pid acts = concat (firstn k ms) ++ c_queue c ++ c_pipe c -> at_place ms k c rest.
Proof.
  intros K W U. split; [exact K|]. rewrite U in W. rewrite <- (firstn_skipn k ms) in W at 2. rewrite concat_app, <- !app_assoc in W. apply app_inv_head in W. exact W.
Qed.
(** processes an action is not about keep what they have *)
Lemma inv_other ms pid acts a w w' s : (match a with Start p _ | Write p _ | Read p | Reap p _ => p end) <> pid -> w_children w' pid = w_children w pid -> about pid (w_out w') = about pid (w_out w) -> inv ms pid acts w s -> inv ms pid (acts ++ [a]) w' s.
Proof.
  intros N C A. assert (W : wrote pid (acts ++ [a]) = wrote pid acts).
  { rewrite wrote_snoc. destruct a as [p t|p b|p|p n]; try apply app_nil_r. rewrite (proj2 (Nat.eqb_neq p pid) N). apply app_nil_r. }
  destruct s as [[t [n|]]|]; unfold inv; rewrite W, C, A; exact (fun H => H).
Qed.
Lemma set_own m pid (c : option (child T)) : set_child T m pid c pid = c.
Proof. unfold set_child. rewrite Nat.eqb_refl. reflexivity. Qed.
Lemma set_other m pid p (c : option (child T)) : p <> pid -> set_child T m p c pid = m pid.
Proof. intro N. unfold set_child. rewrite (proj2 (Nat.eqb_neq pid p)); [reflexivity|]. congruence. Qed.
Lemma worker_spec (msgs : nat -> list str) : (forall pid, Forall plain_event (msgs pid)) -> forall acts,
  (forall pid, exists s, lived pid acts s) -> (forall pid, exists rest, wrote (T:=T) pid acts ++ rest = concat (msgs pid)) ->
  exists w, worker_run limit T acts = Some w /\ forall pid s, lived pid acts s -> inv (msgs pid) pid acts w s.
Proof.
  intro PL. induction acts as [|a acts IH] using rev_ind; intros LV WR.
  - exists (mkWorker (fun _ => None) []). split; [reflexivity|]. intros pid s L. inversion L as [H|l a s' L' N H|l t L' H|l t b L' H|l t L' H|l t n L' H]; try (destruct l; discriminate H). split; [reflexivity|]. split; reflexivity.
  - destruct IH as (w & R & I).
    { intro pid. destruct (LV pid) as [s L]. apply lived_snoc in L. destruct L as [[L _]|[(t & _ & L & _)|[(t & b & _ & L & _)|[(t & _ & L & _)|(t & n & _ & L & _)]]]]; eexists; exact L. }
    { intro pid. destruct (WR pid) as [rest W]. rewrite wrote_snoc, <- app_assoc in W. eexists. exact W. }
    rewrite worker_snoc, R. destruct (LV (match a with Start p _ | Write p _ | Read p | Reap p _ => p end)) as [s0 L0]. apply lived_snoc in L0.
    assert (OTHER : forall w' pid s, (match a with Start p _ | Write p _ | Read p | Reap p _ => p end) <> pid -> w_children w' pid = w_children w pid -> about pid (w_out w') = about pid (w_out w) -> lived pid (acts ++ [a]) s -> inv (msgs pid) pid (acts ++ [a]) w' s).
    { intros w' pid s N C A LP. apply lived_snoc in LP. destruct LP as [[LP _]|[(t' & E & _)|[(t' & b & E & _)|[(t' & E & _)|(t' & n & E & _)]]]]; try (exfalso; subst a; congruence). apply (inv_other _ _ _ _ w); [exact N|exact C|exact A|exact (I _ _ LP)]. }
    destruct a as [p t|p b|p|p n]; (destruct L0 as [[_ N]|[(t0 & E & L & _)|[(t0 & b0 & E & L & _)|[(t0 & E & L & _)|(t0 & n0 & E & L & _)]]]]; try discriminate E; [exfalso; apply N; reflexivity|]); cbn [worker_step].
    + eexists. split; [reflexivity|]. intros pid s LP. destruct (Nat.eq_dec p pid) as [->|N]; [|apply OTHER; [exact N|cbn [w_children]; apply set_other; exact N|reflexivity|exact LP]].
      apply lived_snoc in LP. destruct LP as [[_ N]|[(t' & E' & L' & ->)|[(t' & b & E' & _)|[(t' & E' & _)|(t' & n & E' & _)]]]]; try discriminate E'; [exfalso; apply N; reflexivity|]. injection E' as <-. destruct (I pid None L') as (_ & A & W). exists 0. eexists. cbn [w_children w_out]. rewrite set_own. split; [reflexivity|]. split; [reflexivity|]. split; [lia|]. split; [exact A|]. rewrite wrote_snoc, W. reflexivity.
    + destruct (I p _ L) as (k & c & C & _). rewrite C. eexists. split; [reflexivity|]. intros pid s LP. destruct (Nat.eq_dec p pid) as [->|N]; [|apply OTHER; [exact N|cbn [w_children]; apply set_other; exact N|reflexivity|exact LP]].
      apply lived_snoc in LP. destruct LP as [[_ N]|[(t' & E' & _)|[(t' & b' & E' & L' & ->)|[(t' & E' & _)|(t' & n & E' & _)]]]]; try discriminate E'; [exfalso; apply N; reflexivity|]. destruct (I pid _ L') as (k' & c' & C' & TK & K & A & W). rewrite C in C'. injection C' as <-. exists k'. eexists. cbn [w_children w_out]. rewrite set_own. split; [reflexivity|]. cbn [c_task c_pipe c_queue]. split; [exact TK|]. split; [exact K|]. split; [exact A|]. rewrite wrote_snoc, Nat.eqb_refl, W, <- !app_assoc. reflexivity.
    + destruct (I p _ L) as (k & c & C & TK & K & A & W). rewrite C. destruct (WR p) as [rest WP]. rewrite wrote_snoc, app_nil_r in WP. destruct (child_read_spec p (msgs p) k c rest (w_out w) (PL p) (place_of _ _ _ _ _ _ K WP W)) as (k1 & c1 & CR & K1 & _ & T1 & P1 & U1 & _). rewrite CR. eexists. split; [reflexivity|]. intros pid s LP. destruct (Nat.eq_dec p pid) as [->|N].
      * apply lived_snoc in LP. destruct LP as [[_ N]|[(t' & E' & _)|[(t' & b' & E' & _)|[(t' & E' & L' & ->)|(t' & n & E' & _)]]]]; try discriminate E'; [exfalso; apply N; reflexivity|]. destruct (I pid _ L') as (k' & c' & C' & TK' & _). rewrite C in C'. injection C' as <-. exists (k + k1), c1. cbn [w_children w_out]. rewrite set_own. split; [reflexivity|]. split; [rewrite T1; exact TK'|]. split; [exact K1|]. split; [rewrite about_app, about_own, A, <- map_app, <- firstn_plus; reflexivity|]. rewrite wrote_snoc, app_nil_r, W, firstn_plus, concat_app, <- !app_assoc. f_equal. symmetry. exact U1.
      * apply OTHER; [exact N|cbn [w_children]; apply set_other; exact N| |exact LP]. cbn [w_out]. rewrite about_app, (about_other _ _ _ N). apply app_nil_r.
    + destruct (I p _ L) as (k & c & C & TK & K & A & W). rewrite C. destruct (WR p) as [rest WP]. rewrite wrote_snoc, app_nil_r in WP. destruct (child_close_spec p (msgs p) rest (PL p) (length (c_pipe c)) k c (w_out w) (Nat.le_refl _) (place_of _ _ _ _ _ _ K WP W)) as (k1 & q & CR & K1 & U1 & C1). rewrite CR. eexists. split; [reflexivity|]. intros pid s LP. destruct (Nat.eq_dec p pid) as [->|N].
      * apply lived_snoc in LP. destruct LP as [[_ N]|[(t' & E' & _)|[(t' & b' & E' & _)|[(t' & E' & _)|(t' & n' & E' & L' & ->)]]]]; try discriminate E'; [exfalso; apply N; reflexivity|]. injection E' as <-. destruct (I pid _ L') as (k' & c' & C' & TK' & _). rewrite C in C'. injection C' as <-. exists (k + k1), q. cbn [w_children w_out]. rewrite set_own. split; [reflexivity|]. split; [exact K1|]. split; [|split; [|exact C1]].
        -- rewrite !about_app, about_own, A, <- map_app, <- firstn_plus. f_equal. unfold about. cbn [filter fst]. rewrite Nat.eqb_refl. cbn [map snd]. rewrite TK'. reflexivity.
        -- rewrite wrote_snoc, app_nil_r, W, firstn_plus, concat_app, <- !app_assoc. f_equal. symmetry. exact U1.
      * apply OTHER; [exact N|cbn [w_children]; apply set_other; exact N| |exact LP]. cbn [w_out]. rewrite !about_app, (about_other _ _ _ N), app_nil_r. unfold about at 2. cbn [filter fst]. rewrite (proj2 (Nat.eqb_neq p pid) N). apply app_nil_r.
Qed.
End Worker.

(** ** The thread that writes *)
Lemma flush_spec acts : f_written (flush_run acts) ++ f_int (flush_run acts) ++ concat (f_queue (flush_run acts)) = concat (puts acts).
Proof.
  induction acts as [|a acts IH] using rev_ind; [reflexivity|]. unfold flush_run, puts in *. rewrite fold_left_app, flat_map_app, concat_app. cbn [fold_left flat_map]. rewrite <- IH. set (f := fold_left flush_step acts (mkFlushing [] [] [])). destruct a as [m| |n]; cbn [flush_step app concat].
  - cbn [f_queue f_int f_written]. rewrite concat_app. cbn [concat]. rewrite app_nil_r, <- !app_assoc. reflexivity.
  - rewrite app_nil_r. destruct (f_queue f) as [|m q] eqn:Q; [rewrite Q; reflexivity|]. cbn [f_queue f_int f_written concat]. rewrite <- !app_assoc. reflexivity.
  - cbn [f_queue f_int f_written]. rewrite app_nil_r, <- app_assoc. f_equal. rewrite app_assoc. f_equal. apply firstn_skipn.
Qed.

(** ** Commands *)
Lemma from_to n : (n < 2 ^ 32)%N -> from_bytes (to_bytes n) = n.
Proof.
  intro L. unfold to_bytes, from_bytes. cbn [fold_left]. assert (M : forall x, (x mod 256 < 256)%N) by (intro x; apply N.mod_lt; discriminate). rewrite !N_ascii_embedding by apply M.
  change (2 ^ 32)%N with 4294967296%N in L.
  pose proof (N.div_mod n 256 ltac:(discriminate)) as D1. pose proof (N.div_mod (n / 256) 256 ltac:(discriminate)) as D2. pose proof (N.div_mod (n / 256 / 256) 256 ltac:(discriminate)) as D3. rewrite !N.div_div in * by discriminate. change (256 * 256)%N with 65536%N in *. change (65536 * 256)%N with 16777216%N in *.
  assert (B : (n / 16777216 < 256)%N) by (apply N.div_lt_upper_bound; [discriminate|exact L]). rewrite (N.mod_small (n / 16777216) 256 B). rewrite N.mul_0_l, N.add_0_l.
  rewrite D1 at 5. rewrite D2 at 2. rewrite D3 at 2. lia.
Qed.
Definition fine (n : str) : bool := forallb (fun c => negb (aeqb c "<"%char) && negb (aeqb c ">"%char) && negb (aeqb c "/"%char) && negb (aeqb c "128"%char)) n && (4 <=? length n).
Lemma items_fine n : In n items -> fine n = true.
Proof. intro I. assert (G : forallb fine items = true) by (vm_compute; reflexivity). rewrite forallb_forall in G. exact (G n I). Qed.
Lemma fine_no n : fine n = true -> ~ In "<"%char n /\ ~ In ">"%char n /\ ~ In "/"%char n /\ ~ In "128"%char n /\ 4 <= length n.
Proof.
  intro F. unfold fine in F. apply andb_prop in F. destruct F as [F L]. apply Nat.leb_le in L. rewrite forallb_forall in F. repeat split; try exact L; intro I; specialize (F _ I); discriminate F.
Qed.
Definition opening (n : str) : str := s_ "<" ++ n ++ s_ ">".
Definition closing (n : str) : str := s_ "</" ++ n ++ s_ ">".
Definition enc (c : str * str) : str := send_pickled_data (fst c) (snd c).
Lemma enc_is c : enc c = opening (fst c) ++ to_bytes (N.of_nat (length (snd c))) ++ snd c ++ closing (fst c).
Proof. unfold enc, send_pickled_data, opening, closing. rewrite <- !app_assoc. reflexivity. Qed.
Lemma len_opening n : length (opening n) = 2 + length n. Proof. unfold opening. rewrite !app_length. cbn. lia. Qed.
Lemma len_closing n : length (closing n) = 3 + length n. Proof. unfold closing. rewrite !app_length. cbn. lia. Qed.
Lemma len_enc c : length (enc c) = 9 + 2 * length (fst c) + length (snd c).
Proof. rewrite enc_is, !app_length, len_opening, len_closing. cbn [to_bytes length]. lia. Qed.
Lemma enc_ne c : enc c <> []. Proof. rewrite enc_is. discriminate. Qed.
Lemma occ_tail pat a b j : occ pat (a ++ b) j -> length a <= j -> occ pat b (j - length a).
Proof.
  intros O L. rewrite <- (skipn_after a b _ eq_refl). apply occ_skip; [rewrite app_length; lia|]. replace (length a + (j - length a)) with j by lia. exact O.
Qed.
Lemma close_place n (b4 d rest : str) j : fine n = true -> length b4 = 4 -> (exists r, d = "128"%char :: r) -> contains_sub (closing n) d = false ->
  occ (closing n) (opening n ++ b4 ++ d ++ closing n ++ rest) j -> length (opening n) + 4 + length d <= j.
Proof.
  intros FN B4 (r & D) C O. destruct (fine_no n FN) as (N1 & N2 & N3 & N4 & LN).
  assert (TL : ~ In "<"%char (s_ "/" ++ n ++ s_ ">")) by (rewrite !in_app_iff; intros [I|[I|I]]; [destruct I as [I|[]]; discriminate I|exact (N1 I)|destruct I as [I|[]]; discriminate I]).
  assert (CL : closing n = "<"%char :: (s_ "/" ++ n ++ s_ ">")) by reflexivity.
  destruct (le_lt_dec (length (opening n)) j) as [G|G].
  2:{ exfalso. revert O. rewrite CL at 1. apply (close_in_open (opening n) (n ++ s_ ">") _ j eq_refl) with (d := b4 ++ d ++ closing n ++ rest); [rewrite in_app_iff; intros [I|[I|[]]]; [exact (N1 I)|discriminate I]|reflexivity|exact G| |discriminate].
      destruct n as [|x n]; [cbn in LN; lia|]. exists x. split; [reflexivity|]. intro Z. apply N3. left. injection Z as ->. reflexivity. }
  apply occ_tail in O; [|exact G]. destruct (le_lt_dec (4 + length d) (j - length (opening n))) as [H|H]; [lia|]. exfalso. rewrite app_assoc in O. rewrite CL in O at 1 2.
  assert (H2 : j - length (opening n) < length (b4 ++ d)) by (rewrite app_length; lia).
  apply (occ_within _ _ _ _ _ TL) in O; [|exact H2]. rewrite <- CL in O. pose proof (occ_len _ _ _ O) as OL. rewrite app_length, len_closing in OL.
  destruct (le_lt_dec 4 (j - length (opening n))) as [K|K].
  - apply occ_tail in O; [|lia]. exact (occ_contains _ _ _ C O).
  - destruct O as (x & y & E & LX). assert (Z : nth_error (b4 ++ d) 4 = Some "128"%char) by (rewrite nth_error_app2 by lia; rewrite B4, D; reflexivity). rewrite E in Z. rewrite nth_error_app2 in Z by lia. rewrite nth_error_app1 in Z by (rewrite len_closing; lia). apply nth_error_In in Z. unfold closing in Z. rewrite !in_app_iff in Z. destruct Z as [I|[I|I]]; [destruct I as [I|[I|[]]]; discriminate I|exact (N4 I)|destruct I as [I|[]]; discriminate I].
Qed.
Lemma handle_full c rest : command c -> handle_item (fst c) (enc c ++ rest) = Some (snd c, rest).
Proof.
  destruct c as [n d]. intros (I & DD & C & L). cbn [fst snd] in *. pose proof (items_fine n I) as FN. unfold handle_item. change (s_ "</" ++ n ++ s_ ">") with (closing n) in *. change (s_ "<" ++ n ++ s_ ">") with (opening n). rewrite (len_opening n).
  set (b4 := to_bytes (N.of_nat (length d))). assert (B4 : length b4 = 4) by reflexivity.
  assert (Q : enc (n, d) ++ rest = opening n ++ b4 ++ d ++ closing n ++ rest) by (rewrite enc_is; cbn [fst snd]; rewrite <- !app_assoc; reflexivity).
  pose proof (len_enc (n, d)) as LE. cbn [fst snd] in LE. assert (LQ : length (enc (n, d) ++ rest) = 9 + 2 * length n + length d + length rest) by (rewrite app_length, LE; reflexivity).
  assert (F : find (closing n) (enc (n, d) ++ rest) 0 = Some (length (opening n) + 4 + length d)).
  { apply find_is; [lia| |lia|].
    - exists (opening n ++ b4 ++ d), rest. split; [rewrite Q, <- !app_assoc; reflexivity|rewrite !app_length; lia].
    - intros i IL O. rewrite Q in O. apply (close_place n b4 d rest i FN B4 DD C) in O. lia. }
  rewrite F. rewrite LQ. assert (SL : slice (enc (n, d) ++ rest) (2 + length n) (2 + length n + 4) = b4) by (rewrite Q, <- len_opening, <- B4; apply slice_app). rewrite SL. unfold b4 at 1. rewrite (from_to _ L).
  assert (SW : startswith (opening n) (enc (n, d) ++ rest) = true) by (rewrite Q; apply startswith_app). rewrite SW. cbn [negb].
  replace (9 + 2 * length n + length d + length rest <? 2 + length n + 4) with false by (symmetry; apply Nat.ltb_ge; lia).
  replace (N.of_nat (9 + 2 * length n + length d + length rest) <? N.of_nat ((2 + length n) * 2 + 1) + N.of_nat (length d))%N with false by (symmetry; apply N.ltb_ge; lia).
  f_equal. f_equal.
  - rewrite Q. replace (opening n ++ b4 ++ d ++ closing n ++ rest) with ((opening n ++ b4) ++ d ++ closing n ++ rest) by (rewrite <- app_assoc; reflexivity). replace (2 + length n + 4) with (length (opening n ++ b4)) by (rewrite app_length, len_opening, B4; reflexivity). replace (length (opening n) + 4 + length d) with (length (opening n ++ b4) + length d) by (rewrite app_length, B4; reflexivity). apply slice_app.
  - apply skipn_after. rewrite LE, len_opening. lia.
Qed.
Lemma handle_partial c u r : command c -> u ++ r = enc c -> r <> [] -> handle_item (fst c) u = None.
Proof.
  destruct c as [n d]. intros (I & DD & C & L) U R. cbn [fst snd] in *. pose proof (items_fine n I) as FN. unfold handle_item. change (s_ "</" ++ n ++ s_ ">") with (closing n) in *.
  destruct (find (closing n) u 0) as [j|] eqn:F.
  - exfalso. destruct (find_some (closing n) u 0 j ltac:(lia) F) as (O & _). pose proof (occ_len _ _ _ O) as OL. apply (occ_prefix _ _ r) in O. rewrite U, enc_is in O. cbn [fst snd] in O. rewrite <- (app_nil_r (closing n)) in O at 2. apply (close_place n (to_bytes (N.of_nat (length d))) d [] j FN eq_refl DD C) in O. rewrite len_opening in O. rewrite len_closing in OL. pose proof (len_enc (n, d)) as LE. rewrite <- U, app_length in LE. cbn [fst snd] in LE. destruct r; [contradiction|]. cbn [length] in LE. lia.
  - repeat match goal with |- context [if ?b then _ else _] => destruct b end; reflexivity.
Qed.
Lemma sep_inj (sep : ascii) : forall a b x y, ~ In sep a -> ~ In sep b -> a ++ sep :: x = b ++ sep :: y -> a = b.
Proof.
  induction a as [|c a IH]; intros [|d b] x y NA NB E; cbn [app] in E.
  - reflexivity.
  - injection E as E _. exfalso. apply NB. left. congruence.
  - injection E as E _. exfalso. apply NA. left. congruence.
  - injection E as -> E. f_equal. apply (IH b x y); [intro I; apply NA; right; exact I|intro I; apply NB; right; exact I|exact E].
Qed.
Lemma handle_other c item u r rest : In (fst c) items -> In item items -> item <> fst c -> u ++ r = enc c ++ rest -> handle_item item u = None.
Proof.
  intros I1 I2 N U. unfold handle_item. change (s_ "<" ++ item ++ s_ ">") with (opening item). destruct (startswith (opening item) u) eqn:S1; [|reflexivity]. exfalso. apply startswith_iff in S1. destruct S1 as [z ->]. rewrite enc_is in U. unfold opening in U. rewrite <- !app_assoc in U. cbn [app s_ list_ascii_of_string] in U. injection U as U. apply N.
  destruct (fine_no _ (items_fine _ I1)) as (_ & A & _). destruct (fine_no _ (items_fine _ I2)) as (_ & B & _). exact (sep_inj ">"%char _ _ _ _ B A U).
Qed.
Section Commands.
Variable cs : list (str * str).
Hypothesis all_commands : Forall command cs.
Definition is_quit (c : str * str) : bool := seqb (fst c) (s_ "quit").
Definition good (st : serving) (k : nat) (seen : str) : Prop :=
  k <= length cs /\ v_handled st = firstn k cs /\ seen = concat (map enc (firstn k cs)) ++ v_queue st /\ v_quit st = existsb is_quit (firstn k cs).
Definition ready (st : serving) (k : nat) (l : list str) : Prop := v_quit st = false /\ exists c x, nth_error cs k = Some c /\ v_queue st = enc c ++ x /\ In (fst c) l.
Lemma firstn_S {A} : forall k (l : list A) x, nth_error l k = Some x -> firstn (S k) l = firstn k l ++ [x].
Proof. induction k as [|k IH]; intros [|y l] x E; try discriminate E; [injection E as ->; reflexivity|]. cbn [nth_error] in E. change (firstn (S (S k)) (y :: l)) with (y :: firstn (S k) l). rewrite (IH l x E). reflexivity. Qed.
Lemma nth_error_split_at {A} : forall k (l : list A) x, nth_error l k = Some x -> skipn k l = x :: skipn (S k) l.
Proof. induction k as [|k IH]; intros [|y l] x E; try discriminate E; [injection E as ->; reflexivity|]. cbn [nth_error] in E. cbn [skipn]. exact (IH l x E). Qed.
Lemma serve_item_spec st k seen rest item : good st k seen -> seen ++ rest = concat (map enc cs) -> In item items ->
  exists k', k <= k' /\ good (serve_item st item) k' seen /\ (ready st k [item] -> k < k') /\ (k' = k -> serve_item st item = st).
Proof.
  intros (K & H & SN & Q) W I. unfold serve_item. destruct (v_quit st) eqn:VQ.
  - exists k. split; [lia|]. split; [split; [exact K|split; [exact H|split; [exact SN|congruence]]]|]. split; [intros [Z _]; congruence|reflexivity].
  - assert (W2 : v_queue st ++ rest = concat (map enc (skipn k cs))).
    { rewrite SN in W. rewrite <- (firstn_skipn k cs) in W at 2. rewrite map_app, concat_app, <- app_assoc in W. apply app_inv_head in W. exact W. }
    destruct (nth_error cs k) as [c|] eqn:NC.
    + pose proof (nth_error_split_at _ _ _ NC) as SK. rewrite SK in W2. cbn [map concat] in W2.
      assert (CC : command c) by (rewrite Forall_forall in all_commands; exact (all_commands c (nth_error_In _ _ NC))).
      destruct (str_eq_dec item (fst c)) as [->|NI].
      * destruct (le_lt_dec (length (enc c)) (length (v_queue st))) as [LE|LE].
        -- assert (A : v_queue st = enc c ++ skipn (length (enc c)) (v_queue st)).
           { rewrite <- (firstn_skipn (length (enc c)) (v_queue st)) at 1. f_equal. assert (F : firstn (length (enc c)) (v_queue st ++ rest) = firstn (length (enc c)) (enc c ++ concat (map enc (skipn (S k) cs)))) by (rewrite W2; reflexivity). rewrite !firstn_app in F. replace (length (enc c) - length (v_queue st)) with 0 in F by lia. rewrite Nat.sub_diag in F. cbn [firstn] in F. rewrite !app_nil_r, firstn_all in F. exact F. }
           assert (HF : handle_item (fst c) (v_queue st) = Some (snd c, skipn (length (enc c)) (v_queue st))) by (exact (eq_trans (f_equal (handle_item (fst c)) A) (handle_full c _ CC))). rewrite HF. exists (S k). split; [lia|]. split; [|split; [lia|lia]]. rewrite (surjective_pairing c) in NC |- *. cbn [fst snd]. pose proof (firstn_S _ _ _ NC) as FS. split; [apply nth_error_Some; congruence|]. cbn [v_handled v_queue v_quit]. rewrite FS. split; [rewrite H; reflexivity|]. split.
           ++ rewrite map_app, concat_app. cbn [map concat]. rewrite app_nil_r, <- app_assoc, SN. f_equal. exact A.
           ++ rewrite existsb_app, <- Q. cbn [existsb orb]. rewrite orb_false_r. reflexivity.
        -- rewrite (handle_partial c (v_queue st) (skipn (length (v_queue st)) (enc c)) CC).
           ++ exists k. split; [lia|]. split; [split; [exact K|split; [exact H|split; [exact SN|congruence]]]|]. split; [|reflexivity]. intros (_ & c' & x & NC' & QX & _). rewrite NC in NC'. injection NC' as <-. rewrite QX, app_length in LE. lia.
           ++ rewrite <- (firstn_skipn (length (v_queue st)) (enc c)) at 2. f_equal. assert (F : firstn (length (v_queue st)) (v_queue st ++ rest) = firstn (length (v_queue st)) (enc c ++ concat (map enc (skipn (S k) cs)))) by (rewrite W2; reflexivity). rewrite !firstn_app in F. replace (length (v_queue st) - length (enc c)) with 0 in F by lia. rewrite Nat.sub_diag in F. cbn [firstn] in F. rewrite !app_nil_r, firstn_all in F. exact F.
           ++ intro Z. assert (LZ : length (skipn (length (v_queue st)) (enc c)) = 0) by (rewrite Z; reflexivity). rewrite skipn_length in LZ. lia.
      * rewrite (handle_other c item _ _ _ (proj1 CC) I NI W2). exists k. split; [lia|]. split; [split; [exact K|split; [exact H|split; [exact SN|congruence]]]|]. split; [|reflexivity]. intros (_ & c' & x & NC' & _ & IN). rewrite NC in NC'. injection NC' as <-. destruct IN as [IN|[]]. congruence.
    + assert (KL : length cs <= k) by (apply nth_error_None; exact NC). rewrite skipn_all2 in W2 by exact KL. cbn [map concat] in W2. apply app_eq_nil in W2. destruct W2 as [W2 _]. rewrite W2. exists k. split; [lia|].
      assert (HN : handle_item item [] = None) by (unfold handle_item; reflexivity). rewrite HN. split; [split; [exact K|split; [exact H|split; [exact SN|congruence]]]|]. split; [|reflexivity]. intros (_ & c' & x & NC' & _). congruence.
Qed.
Lemma serve_items_spec rest seen : seen ++ rest = concat (map enc cs) -> forall l st k, (forall x, In x l -> In x items) -> good st k seen ->
  exists k', k <= k' /\ good (fold_left serve_item l st) k' seen /\ (ready st k l -> k < k').
Proof.
  intro W. induction l as [|item l IH]; intros st k IL G.
  - exists k. split; [lia|]. split; [exact G|]. intros (_ & c & x & _ & _ & []).
  - destruct (serve_item_spec st k seen rest item G W (IL item (or_introl eq_refl))) as (k1 & K1 & G1 & R1 & S1). cbn [fold_left]. destruct (IH (serve_item st item) k1 (fun x X => IL x (or_intror X)) G1) as (k2 & K2 & G2 & R2). exists k2. split; [lia|]. split; [exact G2|].
    intros (VQ & c & x & NC & QX & IN). destruct (Nat.eq_dec k1 k) as [E|NE]; [|lia]. rewrite (S1 E) in R2, G2. subst k1. apply R2. split; [exact VQ|]. exists c, x. split; [exact NC|]. split; [exact QX|]. destruct IN as [IN|IN]; [|exact IN]. exfalso. enough (k < k) by lia. apply R1. split; [exact VQ|]. exists c, x. split; [exact NC|]. split; [exact QX|]. left. exact IN.
Qed.
Lemma turn_spec st k seen chunk rest : good st k seen -> (seen ++ chunk) ++ rest = concat (map enc cs) ->
  exists k', k <= k' /\ good (serve_turn st chunk) k' (seen ++ chunk) /\ ((v_quit st = false /\ exists c x, nth_error cs k = Some c /\ v_queue st ++ chunk = enc c ++ x) -> k < k').
Proof.
  intros (K & H & SN & Q) W. unfold serve_turn. destruct (serve_items_spec rest (seen ++ chunk) W items (mkServing (v_queue st ++ chunk) (v_handled st) (v_quit st)) k (fun x X => X)) as (k' & K' & G' & R'); [split; [exact K|split; [exact H|split; [|exact Q]]]; cbn [v_queue]; rewrite SN, <- app_assoc; reflexivity|].
  exists k'. split; [exact K'|]. split; [exact G'|]. intros (VQ & c & x & NC & QX). apply R'. split; [exact VQ|]. exists c, x. split; [exact NC|]. split; [exact QX|]. rewrite Forall_forall in all_commands. exact (proj1 (all_commands c (nth_error_In _ _ NC))).
Qed.
Lemma serve_snoc chunks c : serve_run (chunks ++ [c]) = serve_turn (serve_run chunks) c.
Proof. unfold serve_run. rewrite fold_left_app. reflexivity. Qed.
Lemma serve_spec : forall chunks rest, concat chunks ++ rest = concat (map enc cs) -> exists k, good (serve_run chunks) k (concat chunks).
Proof.
  induction chunks as [|c chunks IH] using rev_ind; intros rest W.
  - exists 0. split; [lia|]. split; [reflexivity|]. split; reflexivity.
  - rewrite concat_app in W |- *. cbn [concat] in W |- *. rewrite app_nil_r in W |- *. pose proof W as W1. rewrite <- app_assoc in W1. destruct (IH _ W1) as (k & G). destruct (turn_spec _ _ _ _ _ G W) as (k' & _ & G' & _). exists k'. rewrite serve_snoc. exact G'.
Qed.
Lemma quit_last k : (forall c, In c (removelast cs) -> fst c <> s_ "quit") -> k < length cs -> existsb is_quit (firstn k cs) = false.
Proof.
  intros NQ L. destruct (existsb is_quit (firstn k cs)) eqn:E; [|reflexivity]. exfalso. apply existsb_exists in E. destruct E as (c & I & Z). apply seqb_eq in Z. refine (NQ c _ Z).
  assert (F : firstn k cs = firstn k (removelast cs)). { rewrite removelast_firstn_len, firstn_firstn. f_equal. lia. } rewrite F in I. exact (In_firstn _ _ _ I).
Qed.
Lemma serve_all chunks : concat chunks = concat (map enc cs) -> (forall c, In c (removelast cs) -> fst c <> s_ "quit") ->
  forall i, exists k, Nat.min i (length cs) <= k /\ good (serve_run (chunks ++ repeat [] i)) k (concat chunks).
Proof.
  intros W NQ. induction i as [|i (k & KI & G)].
  - destruct (serve_spec chunks []) as (k & G); [rewrite app_nil_r; exact W|]. exists k. split; [cbn; lia|]. cbn [repeat]. rewrite app_nil_r. exact G.
  - replace (repeat [] (S i)) with (repeat (@nil ascii) i ++ [[]]) by (clear; induction i as [|i IH]; [reflexivity|]; cbn [repeat app] in IH |- *; rewrite IH; reflexivity). rewrite app_assoc, serve_snoc.
    destruct (turn_spec _ _ _ [] [] G) as (k' & K' & G' & R'); [rewrite !app_nil_r; exact W|]. rewrite app_nil_r in G'. exists k'. split; [|exact G'].
    destruct (le_lt_dec (length cs) k) as [LE|LT]; [lia|]. enough (k < k') by lia. apply R'. destruct G as (K & H & SN & Q). split; [rewrite Q; apply quit_last; assumption|].
    destruct (nth_error cs k) as [c|] eqn:NC; [|apply nth_error_None in NC; lia]. exists c, (concat (map enc (skipn (S k) cs))). split; [reflexivity|]. rewrite app_nil_r. rewrite W in SN. rewrite <- (firstn_skipn k cs) in SN at 1. rewrite map_app, concat_app in SN. apply app_inv_head in SN. rewrite <- SN, (nth_error_split_at _ _ _ NC). reflexivity.
Qed.
End Commands.
(** behind quit nothing is handled *)
Definition quit_end (st : serving) : Prop := (v_quit st = false -> forall c, In c (v_handled st) -> fst c <> s_ "quit") /\ forall c, In c (removelast (v_handled st)) -> fst c <> s_ "quit".
Lemma quit_item st item : quit_end st -> quit_end (serve_item st item).
Proof.
  intros [A B]. unfold serve_item. destruct (v_quit st) eqn:Q; [split; [intro Z; congruence|exact B]|]. destruct (handle_item item (v_queue st)) as [[d q]|]; [|split; [intros _; exact (A eq_refl)|exact B]]. split; cbn [v_quit v_handled].
  - intros N c I. apply in_app_iff in I. destruct I as [I|[<-|[]]]; [exact (A eq_refl c I)|]. cbn [fst]. apply seqb_neq. exact N.
  - intros c I. rewrite removelast_last in I. exact (A eq_refl c I).
Qed.
Lemma quit_run chunks : quit_end (serve_run chunks).
Proof.
  induction chunks as [|c chunks IH] using rev_ind; [split; [intros _ c []|intros c []]|]. rewrite serve_snoc. unfold serve_turn. assert (G : quit_end (mkServing (v_queue (serve_run chunks) ++ c) (v_handled (serve_run chunks)) (v_quit (serve_run chunks)))) by exact IH. revert G. generalize (mkServing (v_queue (serve_run chunks) ++ c) (v_handled (serve_run chunks)) (v_quit (serve_run chunks))). generalize items. clear. induction l as [|i l IH]; intros st G; [exact G|]. cbn [fold_left]. apply IH. apply quit_item. exact G.
Qed.
