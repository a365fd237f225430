(** Lemmas about layers. *)
From Coq Require Import Ascii String List Bool Arith ZArith Lia Permutation Relations Wellfounded.
From Verif Require Import Str_Model Str_Proofs Vercmp_Model Posix_Model Imgtypes_Model Layers_Model Layers_Spec.
Import ListNotations.
Open Scope list_scope.

Lemma get_put {A} k k' (v : A) l : get k (put k' v l) = if seqb k k' then Some v else get k l.
Proof.
  induction l as [|[x w] r IH]; cbn.
  - destruct (seqb k k'); reflexivity.
  - destruct (seqb k' x) eqn:E; cbn.
    + apply seqb_eq in E. subst x. destruct (seqb k k'); reflexivity.
    + destruct (seqb k x) eqn:E2; [|exact IH]. apply seqb_eq in E2. subst x. destruct (seqb k k') eqn:E3; [|reflexivity]. apply seqb_eq in E3. subst. now rewrite seqb_refl in E.
Qed.
Lemma get_put_same {A} k (v : A) l : get k (put k v l) = Some v.
Proof. now rewrite get_put, seqb_refl. Qed.
Lemma get_put_other {A} k k' (v : A) l : k <> k' -> get k (put k' v l) = get k l.
Proof. intros N. rewrite get_put. destruct (seqb k k') eqn:E; [apply seqb_eq in E; contradiction|reflexivity]. Qed.

Section Layers.
  Variable conf : str -> vars.
  Variable layers : list str.
  Notation builds_on := (builds_on conf layers).
  Notation priority := (priority conf layers).
  Notation fine := (fine conf layers).

  Lemma lowest_unique a b : lowest conf layers a -> lowest conf layers b -> a = b.
  Proof.
    intros [[-> A]|[(c & I & E) A]] [[-> B]|[(c' & I' & E') B]]; auto.
    - rewrite (A _ I') in E'. discriminate.
    - rewrite (B _ I) in E. discriminate.
    - specialize (A _ _ I' E'). specialize (B _ _ I E). lia.
  Qed.
  Lemma priority_unique c z : priority c z -> forall z', priority c z' -> z = z'.
  Proof.
    induction 1 as [c z E|c p least m E D IH L LM PM M]; intros z' P'; inversion P' as [? ? E'|? p' least' m' E' D' L' LM' PM' M']; subst.
    - congruence.
    - congruence.
    - congruence.
    - pose proof (lowest_unique _ _ L L') as <-. f_equal. assert (Q : forall d, builds_on c d -> p d = p' d) by (intros d B; apply IH; auto).
      apply Z.le_antisymm.
      + destruct M as [->|(d & B & ->)]; [exact LM'|]. rewrite (Q d B). apply PM', B.
      + destruct M' as [->|(d & B & ->)]; [exact LM|]. rewrite <- (Q d B). apply PM, B.
  Qed.

  Lemma versions_ok d ops : (forall cond, In cond ops -> fulfils conf d cond) -> check_versions conf d ops = Some true.
  Proof.
    induction ops as [|[op ver] r IH]; intros H; [reflexivity|]. cbn. destruct (H (op, ver)) as (v & E & C); [now left|]. cbn in C. rewrite E, C, IH; [reflexivity|]. intros x I. apply H. now right.
  Qed.
  Lemma versions_true d ops : check_versions conf d ops = Some true -> forall cond, In cond ops -> fulfils conf d cond.
  Proof.
    induction ops as [|[op ver] r IH]; cbn; intros H cond I; [contradiction|]. destruct (v_version (conf d)) as [lv|] eqn:V; [destruct (vercmp_string_op lv ver op) as [[]|] eqn:C|]; cbn in H; try discriminate;
      destruct (check_versions conf d r) as [b|]; cbn in H; try discriminate.
    destruct I as [<-|I]; [exists lv; auto|]. apply IH; auto.
  Qed.
  Lemma depends_ok ds : (forall d ops, In (d, ops) ds -> In d layers /\ forall cond, In cond ops -> fulfils conf d cond) -> check_depends conf layers ds = Some true.
  Proof.
    induction ds as [|[d ops] r IH]; intros H; [reflexivity|]. cbn. destruct (H d ops (or_introl eq_refl)) as [I F]. rewrite (proj2 (mem_str_In d layers) I), (versions_ok d ops F), IH; [reflexivity|]. intros d' o' I'. apply H. now right.
  Qed.
  Lemma depends_true ds : check_depends conf layers ds = Some true -> forall d ops, In (d, ops) ds -> In d layers /\ forall cond, In cond ops -> fulfils conf d cond.
  Proof.
    induction ds as [|[d ops] r IH]; cbn; intros H d' o' I; [contradiction|]. destruct (mem_str d layers) eqn:M; [|destruct (check_depends conf layers r) as [[]|]; discriminate].
    destruct (check_versions conf d ops) as [[]|] eqn:C; [|destruct (check_depends conf layers r) as [[]|]; discriminate|discriminate].
    destruct (check_depends conf layers r) as [b|]; [|discriminate]. cbn in H. injection H as ->. destruct I as [[= <- <-]|I]; [|apply IH; auto]. split; [now apply mem_str_In|]. now apply versions_true.
  Qed.
  Lemma recommended_ok rs : (forall d op ver ops v, In (d, (op, ver) :: ops) rs -> v_version (conf d) = Some v -> vercmp_string_op v ver op <> None) ->
    exists l, recommended conf layers rs = Some l /\ forall d, In d l <-> exists ops, In (d, ops) rs /\ In d layers /\ match ops with [] => True | cond :: _ => fulfils conf d cond end.
  Proof.
    induction rs as [|[d ops] r IH]; intros H; cbn [recommended].
    - exists []. split; [reflexivity|]. intros x. split; [contradiction|intros (o & [] & _)].
    - destruct IH as (l & E & L); [intros; eapply H; [right|]; eauto|]. rewrite E.
      set (ok := if mem_str d layers then _ else _).
      assert (Q : exists b, ok = Some b /\ (b = true <-> In d layers /\ match ops with [] => True | cond :: _ => fulfils conf d cond end)).
      { unfold ok. destruct (mem_str d layers) eqn:M.
        - apply mem_str_In in M. destruct ops as [|[op ver] o']; [exists true; tauto|]. destruct (v_version (conf d)) as [v|] eqn:V.
          + destruct (vercmp_string_op v ver op) as [b|] eqn:C; [|exfalso; exact (H d op ver o' v (or_introl eq_refl) V C)]. exists b. split; [reflexivity|]. split.
            * intros ->. split; [exact M|]. exists v. auto.
            * intros (_ & v' & V' & C'). cbn in C'. rewrite V in V'. injection V' as <-. rewrite C in C'. congruence.
          + exists false. split; [reflexivity|]. split; [discriminate|]. intros (_ & v' & V' & _). congruence.
        - exists false. split; [reflexivity|]. split; [discriminate|]. intros [I _]. apply mem_str_In in I. congruence. }
      destruct Q as (b & -> & B). eexists. split; [reflexivity|]. intros x. destruct b.
      + cbn. rewrite L. split.
        * intros [<-|(o & I & Y)]; [exists ops; split; [now left|now apply B]|exists o; split; [now right|exact Y]].
        * intros (o & [[= <- <-]|I] & Y); [now left|right; exists o; auto].
      + rewrite L. split.
        * intros (o & I & Y). exists o. split; [now right|exact Y].
        * intros (o & [[= <- <-]|I] & Y); [|exists o; auto]. exfalso. assert (false = true) by (now apply B). discriminate.
  Qed.

  Definition init_pri (c : str) : option Z := match v_priority (conf c) with Num z => Some z | _ => None end.
  Definition good_deps (l : list str) (deps : list (str * list str)) : Prop := forall c, In c l -> exists ds, get c deps = Some ds /\ forall d, In d ds <-> builds_on c d.
  Definition state_ok (doing : list str) (k : known) : Prop :=
    k_errors k = false /\ lowest conf doing (k_min k) /\ (forall c, In c doing -> get c (k_pri k) = Some (init_pri c)) /\ good_deps doing (k_deps k).
  Lemma read_ok cs : forall doing k, state_ok doing k -> (forall c, In c (doing ++ cs) -> fine c /\ readable conf c /\ v_priority (conf c) <> Num 0) ->
    exists k', read_layers conf layers k cs = Some k' /\ state_ok (doing ++ cs) k'.
  Proof.
    induction cs as [|c r IH]; intros doing k S F; [rewrite app_nil_r; cbn; eauto|]. cbn [read_layers].
    assert (X : exists k', read_layer conf layers k c = Some k' /\ state_ok (doing ++ [c]) k').
    { destruct (F c) as ((NB & DO & _) & RD & NZ); [apply in_or_app; right; now left|]. destruct S as (SE & SL & SP & SD). unfold read_layer. rewrite (depends_ok _ DO). destruct (recommended_ok _ RD) as (recs & -> & RI).
      assert (LOW : forall mn, lowest conf (doing ++ [c]) mn -> forall last,
        state_ok (doing ++ [c]) (mkKnown (k_errors k || negb true) mn last (put c (init_pri c) (k_pri k)) (put c (map fst (v_depends (conf c)) ++ recs) (k_deps k)))).
      { intros mn LW last. split; [cbn; now rewrite SE|]. split; [exact LW|]. split; cbn.
        - intros x I. rewrite get_put. destruct (seqb x c) eqn:E; [apply seqb_eq in E; now subst|]. apply SP. apply in_app_or in I. destruct I as [I|[<-|[]]]; [exact I|]. now rewrite seqb_refl in E.
        - intros x I. rewrite get_put. destruct (seqb x c) eqn:E.
          + apply seqb_eq in E. subst x. eexists. split; [reflexivity|]. intros d. rewrite in_app_iff, in_map_iff, RI. unfold Layers_Spec.builds_on. split.
            * intros [([d' o] & <- & I')|Y]; [left; exists o; exact I'|now right].
            * intros [[o I']|Y]; [left; exists (d, o); auto|now right].
          + apply SD. apply in_app_or in I. destruct I as [I|[<-|[]]]; [exact I|]. now rewrite seqb_refl in E. }
      destruct (v_priority (conf c)) as [|z|] eqn:VP; [| |contradiction].
      - eexists. split; [reflexivity|]. assert (IP : init_pri c = None) by (unfold init_pri; now rewrite VP). rewrite <- IP. apply LOW. destruct SL as [[-> A]|[(c' & I & E) A]].
        + left. split; [reflexivity|]. intros x I. apply in_app_or in I. destruct I as [I|[<-|[]]]; auto.
        + right. split; [exists c'; split; [apply in_or_app; now left|exact E]|]. intros x y I' Y. apply in_app_or in I'. destruct I' as [I'|[<-|[]]]; [eauto|congruence].
      - eexists. split; [reflexivity|]. assert (IP : init_pri c = Some z) by (unfold init_pri; now rewrite VP). rewrite <- IP at 2. apply LOW. right. destruct SL as [[E0 A]|[(c' & I & E) A]].
        + rewrite E0. cbn. split; [exists c; split; [apply in_or_app; right; now left|exact VP]|]. intros x y I Y. apply in_app_or in I. destruct I as [I|[<-|[]]]; [rewrite (A _ I) in Y; discriminate|]. rewrite VP in Y. injection Y as <-. lia.
        + assert (N0 : k_min k <> 0%Z) by (intros K; rewrite K in E; destruct (F c') as (_ & _ & Q); [apply in_or_app; now left|contradiction]).
          apply Z.eqb_neq in N0. rewrite N0. cbn. destruct (Z.ltb_spec z (k_min k)) as [LT|GE].
          * split; [exists c; split; [apply in_or_app; right; now left|exact VP]|]. intros x y I' Y. apply in_app_or in I'. destruct I' as [I'|[<-|[]]]; [specialize (A _ _ I' Y); lia|]. rewrite VP in Y. injection Y as <-. lia.
          * split; [exists c'; split; [apply in_or_app; now left|exact E]|]. intros x y I' Y. apply in_app_or in I'. destruct I' as [I'|[<-|[]]]; [eauto|]. rewrite VP in Y. injection Y as <-. lia. }
    destruct X as (k1 & E & S1). rewrite E. replace (doing ++ c :: r) with ((doing ++ [c]) ++ r) in * by now rewrite <- app_assoc. apply IH; auto.
  Qed.

  (** the priorities *)
  Definition below_ (d c : str) : Prop := v_priority (conf c) = NoPri /\ builds_on c d.
  Lemma priority_acc c z : priority c z -> Acc below_ c.
  Proof.
    induction 1 as [c z E|c p least m E D IH L LM PM M]; constructor; intros d [N B].
    - congruence.
    - apply IH, B.
  Qed.
  Lemma acc_irrefl c : Acc below_ c -> ~ clos_trans _ below_ c c.
  Proof.
    intros A. apply Acc_clos_trans in A. induction A as [c _ IH]. intros T. exact (IH c T T).
  Qed.
  Variable deps : list (str * list str).
  Variable mn : Z.
  Hypothesis deps_ok : good_deps layers deps.
  Hypothesis mn_ok : lowest conf layers mn.
  Hypothesis nonzero : forall c, In c layers -> v_priority (conf c) <> Num 0 /\ v_priority (conf c) <> BadPri.
  Hypothesis inside_ : forall c d, In c layers -> builds_on c d -> In d layers.
  Definition pri_ok (pri : list (str * option Z)) : Prop :=
    forall c, In c layers -> exists o, get c pri = Some o /\ match o with Some z => priority c z | None => v_priority (conf c) = NoPri end.
  Definition keeps (pri pri' : list (str * option Z)) : Prop := forall c z, get c pri = Some (Some z) -> get c pri' = Some (Some z).
  Definition go (f : nat) := fix go (ds : list str) (pri : list (str * option Z)) (m : Z) : option (list (str * option Z) * Z) :=
    match ds with
    | [] => Some (pri, m)
    | d :: r =>
        match calc deps mn f pri d with
        | None => None
        | Some pri => match get d pri with Some (Some z) => go r pri (if Z.ltb m z then z else m) | _ => None end
        end
    end.
  Lemma go_cons f d r pri m : go f (d :: r) pri m = match calc deps mn f pri d with None => None | Some pri => match get d pri with Some (Some z) => go f r pri (if Z.ltb m z then z else m) | _ => None end end.
  Proof. reflexivity. Qed.
  Lemma calc_S f pri c : calc deps mn (S f) pri c =
    match get c pri with
    | None => None
    | Some (Some (Zpos _ | Zneg _)) => Some pri
    | Some _ => match get c deps with None => None | Some ds => match go f ds pri mn with None => None | Some (pri, m) => Some (put c (Some (m + 1)%Z) pri) end end
    end.
  Proof. reflexivity. Qed.
  Lemma calc_ok c : Acc below_ c -> forall stack fuel pri, NoDup stack -> (forall s, In s stack -> In s layers /\ clos_trans _ below_ c s) -> In c layers ->
    length layers < length stack + fuel -> pri_ok pri ->
    exists pri', calc deps mn fuel pri c = Some pri' /\ pri_ok pri' /\ keeps pri pri' /\ exists z, get c pri' = Some (Some z) /\ priority c z.
  Proof.
    intros A0. induction A0 as [c A IH]. intros stack fuel pri ND ST IL FU PO.
    assert (NS : ~ In c stack) by (intros I; apply ST in I; destruct I as [_ I]; exact (acc_irrefl c (Acc_intro c A) I)).
    assert (LE : length (c :: stack) <= length layers) by (apply NoDup_incl_length; [now constructor|intros x [<-|I]; [exact IL|apply ST, I]]). cbn in LE.
    destruct fuel as [|f]; [lia|]. rewrite calc_S. destruct (PO c IL) as (o & G & P). rewrite G.
    assert (D : (exists z, o = Some z /\ z <> 0%Z) \/ ((o = None \/ o = Some 0%Z) /\ v_priority (conf c) = NoPri)).
    { destruct o as [z|]; [|right; auto]. destruct (Z.eq_dec z 0) as [->|N]; [|left; eauto]. right. split; [now right|]. inversion P as [? ? E|]; subst; [exfalso; exact (proj1 (nonzero c IL) E)|assumption]. }
    destruct D as [(z & -> & NZ)|[O0 NP]].
    - destruct z as [|q|q]; [contradiction| |]; exists pri; (split; [reflexivity|split; [exact PO|split; [intros x y; auto|eauto]]]).
    - destruct (deps_ok c IL) as (ds & -> & DS).
      assert (X : forall ds', incl ds' ds -> forall pri m, pri_ok pri -> exists pri' m', go f ds' pri m = Some (pri', m') /\ pri_ok pri' /\ keeps pri pri' /\ (m <= m')%Z /\
        (forall d, In d ds' -> exists z, get d pri' = Some (Some z) /\ priority d z /\ (z <= m')%Z) /\ (m' = m \/ exists d, In d ds' /\ priority d m')).
      { induction ds' as [|d r IHr]; intros IN pri0 m P0.
        - exists pri0, m. cbn. split; [reflexivity|]. split; [exact P0|]. split; [intros x y; auto|]. split; [lia|]. split; [contradiction|now left].
        - rewrite go_cons. assert (B : builds_on c d) by (apply DS, IN; now left).
          destruct (IH d (conj NP B) (c :: stack) f pri0) as (p1 & -> & P1 & K1 & z & G1 & Z1); [now constructor| |exact (inside_ c d IL B)|cbn; lia|exact P0|].
          { intros s [<-|I]; [split; [exact IL|apply t_step; split; auto]|]. destruct (ST s I) as [S1 S2]. split; [exact S1|]. apply t_trans with c; [apply t_step; split; auto|exact S2]. }
          rewrite G1. set (m1 := if Z.ltb m z then z else m). destruct (IHr (fun x I => IN x (or_intror I)) p1 m1 P1) as (p2 & m2 & -> & P2 & K2 & LM & AL & EX).
          assert (B1 : (m <= m1 /\ z <= m1)%Z) by (unfold m1; destruct (Z.ltb_spec m z); lia).
          exists p2, m2. split; [reflexivity|]. split; [exact P2|]. split; [intros x y Q; apply K2, K1, Q|]. split; [lia|]. split.
          + intros d' [<-|I]; [exists z; split; [apply K2, G1|split; [exact Z1|lia]]|apply AL, I].
          + destruct EX as [->|(d' & I & Q)]; [|right; exists d'; split; [now right|exact Q]]. unfold m1. destruct (Z.ltb_spec m z); [right; exists d; split; [now left|exact Z1]|now left]. }
      destruct (X ds (incl_refl ds) pri mn PO) as (p' & m & -> & P' & K' & LM & AL & EX).
      assert (PC : priority c (m + 1)%Z).
      { apply derived with (p := fun d => match get d p' with Some (Some z) => z | _ => 0%Z end) (least := mn); auto.
        - intros d B. apply DS in B. destruct (AL d B) as (z & -> & Z1 & _). exact Z1.
        - intros d B. apply DS in B. destruct (AL d B) as (z & -> & _ & Z1). exact Z1.
        - destruct EX as [->|(d & I & Q)]; [now left|]. right. exists d. split; [now apply DS|]. destruct (AL d I) as (z & -> & Z1 & _). exact (priority_unique _ _ Q _ Z1). }
      eexists. split; [destruct O0 as [-> | ->]; reflexivity|]. split; [|split].
      + intros x I. rewrite get_put. destruct (seqb x c) eqn:E; [apply seqb_eq in E; subst x; eexists; split; [reflexivity|exact PC]|apply P', I].
      + intros x y Q. rewrite get_put. destruct (seqb x c) eqn:E; [|apply K', Q]. apply seqb_eq in E. subst x. f_equal. f_equal. destruct (P' c IL) as (o' & G' & Q'). rewrite (K' _ _ Q) in G'. injection G' as <-. cbn in Q'. exact (priority_unique _ _ PC _ Q').
      + exists (m + 1)%Z. rewrite get_put_same. auto.
  Qed.
End Layers.

Lemma compile_ok conf layers deps mn : good_deps conf layers layers deps -> lowest conf layers mn ->
  (forall c, In c layers -> v_priority (conf c) <> Num 0 /\ v_priority (conf c) <> BadPri) -> (forall c d, In c layers -> builds_on conf layers c d -> In d layers) ->
  (forall c, In c layers -> exists z, priority conf layers c z) ->
  forall cs pri, incl cs layers -> pri_ok conf layers pri -> (forall c, In c cs -> v_pattern (conf c) = EmptyPattern \/ exists p, v_pattern (conf c) = Pattern p) ->
  exists es, compile conf layers deps mn false pri cs = Some (false, es) /\ map e_layer es = cs /\
    forall e, In e es -> priority conf layers (e_layer e) (e_pri e) /\ (v_pattern (conf (e_layer e)) = Pattern (e_pattern e) \/ (v_pattern (conf (e_layer e)) = EmptyPattern /\ e_pattern e = [])).
Proof.
  intros GD LW NZ IN EX. induction cs as [|c r IH]; intros pri IC PO PT; cbn [compile].
  - exists []. split; [reflexivity|]. split; [reflexivity|]. intros e [].
  - destruct (EX c (IC c (or_introl eq_refl))) as [z0 P0].
    destruct (calc_ok conf layers deps mn GD LW NZ IN c (priority_acc conf layers c z0 P0) [] (S (length layers)) pri (NoDup_nil _)) as (pri' & -> & PO' & _ & z & G & PZ);
      [intros s []|apply IC; now left|cbn; lia|exact PO|].
    cbv zeta. rewrite G. destruct (IH pri') as (es & E & L & A); [intros x I; apply IC; now right|exact PO'|intros x I; apply PT; now right|].
    destruct (PT c (or_introl eq_refl)) as [V|[p V]]; rewrite V, E; eexists; (split; [reflexivity|]); (split; [cbn; now f_equal|]); intros e I; cbn in I; (destruct I as [<-|I]; [|apply A, I]); cbn; (split; [exact PZ|]).
    + now right.
    + now left.
Qed.

Lemma err_read conf layers cs : forall k k', read_layers conf layers k cs = Some k' ->
  (k_errors k = true \/ exists c, In c cs /\ (v_priority (conf c) = BadPri \/ check_depends conf layers (v_depends (conf c)) <> Some true)) -> k_errors k' = true.
Proof.
  induction cs as [|c r IH]; cbn [read_layers]; intros k k' E H.
  - injection E as <-. destruct H as [H|(c & [] & _)]. exact H.
  - destruct (read_layer conf layers k c) as [k1|] eqn:R; [|discriminate]. apply (IH k1 k' E).
    assert (X : (k_errors k = true \/ v_priority (conf c) = BadPri \/ check_depends conf layers (v_depends (conf c)) <> Some true) -> k_errors k1 = true).
    { intros Y. unfold read_layer in R. destruct (v_priority (conf c)) as [|z|]; [| |destruct (k_last k); [|discriminate]];
        destruct (check_depends conf layers (v_depends (conf c))) as [b|]; try discriminate; destruct (recommended conf layers (v_recommends (conf c))); try discriminate;
        injection R as <-; cbn; try reflexivity; destruct Y as [->|[Y|Y]]; try discriminate; try reflexivity; destruct b; try congruence; now rewrite orb_true_r. }
    destruct H as [H|(c' & [<-|I] & H)]; [left; apply X; now left|left; apply X; now right|right; exists c'; auto].
Qed.
Lemma err_compile conf layers deps mn cs : (forall c, In c cs -> v_pattern (conf c) <> EmptyPattern) ->
  forall err pri err' es, compile conf layers deps mn err pri cs = Some (err', es) ->
  (err = true \/ exists c, In c cs /\ (v_pattern (conf c) = NoPattern \/ v_pattern (conf c) = BadPattern)) -> err' = true.
Proof.
  induction cs as [|c r IH]; cbn [compile]; intros NE err pri err' es E H.
  - injection E as <- <-. destruct H as [H|(c & [] & _)]. exact H.
  - destruct (calc deps mn (S (length layers)) pri c) as [p1|]; [|discriminate]. cbv zeta in E. specialize (IH (fun x I => NE x (or_intror I))).
    destruct (v_pattern (conf c)) as [| | |p] eqn:V; [| exfalso; exact (NE c (or_introl eq_refl) V)| |].
    + destruct (compile conf layers deps mn true p1 r) as [[e2 es2]|] eqn:C; [|discriminate]. injection E as <- <-. eapply IH; eauto.
    + destruct (compile conf layers deps mn true p1 r) as [[e2 es2]|] eqn:C; [|discriminate]. injection E as <- <-. eapply IH; eauto.
    + destruct (compile conf layers deps mn err p1 r) as [[e2 es2]|] eqn:C; [|discriminate]. injection E as <- <-. eapply IH; eauto.
      destruct H as [H|(c' & [<-|I] & H)]; [now left|rewrite V in H; destruct H; discriminate|right; exists c'; auto].
Qed.

(** ** Directories *)
Lemma unescape_escape d : unescape (escape d) = d.
Proof.
  unfold escape. induction d as [|c d IH]; [reflexivity|]. cbn [flat_map]. destruct (special c) eqn:S.
  - change (c :: unescape (flat_map (fun c => if special c then ["\"%char; c] else [c]) d) = c :: d). now rewrite IH.
  - cbn [app]. assert (N : aeqb c "\" = false) by (destruct (aeqb c "\") eqn:E; [apply aeqb_eq in E; subst; discriminate|reflexivity]).
    destruct (flat_map (fun c => if special c then ["\"%char; c] else [c]) d) as [|x r] eqn:F; [cbn; f_equal; destruct d as [|y d]; [reflexivity|cbn in F; destruct (special y); discriminate]|].
    cbn [unescape]. rewrite N. f_equal. exact IH.
Qed.
Lemma escape_app a b : escape (a ++ b) = escape a ++ escape b.
Proof. unfold escape. apply flat_map_app. Qed.
Lemma match_dir d f : re_match (dir_pattern d) f = true <-> inside f d.
Proof. unfold re_match, dir_pattern. cbn [aeqb Ascii.eqb Bool.eqb]. rewrite unescape_escape. apply startswith_iff. Qed.
Lemma leb_longer a b : b <> [] -> str_leb (a ++ b) a = false.
Proof. intros N. induction a as [|c a IH]; cbn; [destruct b; [contradiction|reflexivity]|]. now rewrite aeqb_refl. Qed.
Lemma pattern_longer d e f : inside f d -> inside f e -> length d < length e -> str_leb (dir_pattern e) (dir_pattern d) = false.
Proof.
  intros [r ->] [q E] L. assert (X : exists t, e = d ++ t /\ t <> []).
  { exists (skipn (length d) e). assert (Y : firstn (length d) e = d).
    { apply (f_equal (firstn (length d))) in E. rewrite firstn_app, Nat.sub_diag, firstn_O, app_nil_r, firstn_all in E. rewrite firstn_app in E. replace (length d - length e) with 0 in E by lia. rewrite firstn_O, app_nil_r in E. now symmetry. }
    split; [rewrite <- Y at 1; now rewrite firstn_skipn|]. intros K. apply (f_equal (@length _)) in K. rewrite skipn_length in K. cbn in K. lia. }
  destruct X as (t & -> & N). unfold dir_pattern. rewrite escape_app. rewrite app_comm_cons. apply leb_longer. destruct t as [|c t]; [contradiction|]. unfold escape. cbn [flat_map]. destruct (special c); discriminate.
Qed.
From Verif Require Import Sigtask_Proofs.
From Coq Require Import Sorting.Sorted.
Definition desc (x y : entry) : Prop := str_leb (e_pattern y) (e_pattern x) = true.
Lemma insert_desc_perm x l : Permutation (insert_desc x l) (x :: l).
Proof. induction l as [|y r IH]; cbn; [auto|]. destruct (str_leb (e_pattern y) (e_pattern x)); [auto|]. rewrite IH. apply perm_swap. Qed.
Lemma sort_desc_perm l : Permutation (sort_desc l) l.
Proof. induction l as [|x r IH]; cbn; [auto|]. rewrite insert_desc_perm. now constructor. Qed.
Lemma insert_desc_sorted x l : StronglySorted desc l -> StronglySorted desc (insert_desc x l).
Proof.
  induction 1 as [|y r S IH F]; cbn; [repeat constructor|]. destruct (str_leb (e_pattern y) (e_pattern x)) eqn:E.
  - constructor; [now constructor|]. constructor; [exact E|]. rewrite Forall_forall in *. intros z I. unfold desc. apply str_leb_trans with (e_pattern y); [exact (F z I)|exact E].
  - constructor; [exact IH|]. rewrite Forall_forall in *. intros z I. apply (Permutation_in _ (insert_desc_perm x r)) in I. destruct I as [<-|I]; [unfold desc; now apply str_leb_total|exact (F z I)].
Qed.
Lemma sort_desc_sorted l : StronglySorted desc (sort_desc l).
Proof. induction l as [|x r IH]; cbn; [constructor|now apply insert_desc_sorted]. Qed.

(** ** Files *)
Lemma insert_pri_perm es x l : Permutation (insert_pri es x l) (x :: l).
Proof. induction l as [|y r IH]; cbn; [auto|]. destruct (Z.leb _ _); [auto|]. rewrite IH. apply perm_swap. Qed.
Lemma sort_pri_perm es l : Permutation (sort_pri es l) l.
Proof. induction l as [|x r IH]; cbn; [auto|]. rewrite insert_pri_perm. now constructor. Qed.
Definition asc (es : list entry) (x y : str) : Prop := (fst (file_priority es x) <= fst (file_priority es y))%Z.
Lemma sort_pri_sorted es l : StronglySorted (asc es) (sort_pri es l).
Proof.
  induction l as [|x r0 IH0]; cbn; [constructor|]. fold (sort_pri es r0). induction IH0 as [|y r S IH F]; cbn; [repeat constructor|]. destruct (Z.leb_spec (fst (file_priority es x)) (fst (file_priority es y))) as [E|E].
  - constructor; [now constructor|]. constructor; [exact E|]. rewrite Forall_forall in *. intros z I. specialize (F z I). unfold asc in *. lia.
  - constructor; [exact IH|]. rewrite Forall_forall in *. intros z I. apply (Permutation_in _ (insert_pri_perm es x r)) in I. destruct I as [<-|I]; [unfold asc; lia|exact (F z I)].
Qed.
Lemma add_new_In x l : forall acc, In x (fold_left add_new l acc) <-> In x acc \/ In x l.
Proof.
  induction l as [|g r IH]; intros acc; cbn; [tauto|]. rewrite IH. unfold add_new. destruct (mem_str g acc) eqn:M; [apply mem_str_In in M; intuition (subst; auto)|]. rewrite in_app_iff. cbn. tauto.
Qed.
Lemma add_new_nodup l : forall acc, NoDup acc -> NoDup (fold_left add_new l acc).
Proof.
  induction l as [|g r IH]; intros acc N; cbn; [exact N|]. apply IH. unfold add_new. destruct (mem_str g acc) eqn:M; [exact N|].
  apply (Permutation_NoDup (l := g :: acc)); [apply Permutation_cons_append|]. constructor; [|exact N]. intros I. apply mem_str_In in I. congruence.
Qed.
