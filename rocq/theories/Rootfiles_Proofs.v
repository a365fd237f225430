(** Lemmas for the claims on files of root file systems. *)
From Coq Require Import Ascii String List Bool Arith Lia.
From Verif Require Import Str_Model Str_Proofs Rootfiles_Model Rootfiles_Spec.
Import ListNotations.
Open Scope list_scope.

(** ** os-release *)
Lemma no_nl : forall l, one_line l -> no_char nl l.
Proof. intros l H. apply no_char_In. exact H. Qed.
Lemma split_text : forall lines, (forall l, In l lines -> one_line l) -> split_on nl (text_of lines) = lines ++ [[]].
Proof.
  induction lines as [|l lines IH]; intro H; [reflexivity|]. cbn [text_of flat_map]. rewrite <- app_assoc. cbn [app]. rewrite split_on_cons by (apply no_nl, H; left; reflexivity).
  change (l :: split_on nl (text_of lines) = l :: lines ++ [[]]). rewrite IH by (intros x I; apply H; right; exact I). reflexivity.
Qed.
Lemma del_cons : forall key x l, l <> [] -> del_lines key (x :: l) = if startswith key x then del_lines key l else x ++ nl :: del_lines key l.
Proof. intros key x [|y l] N; [congruence|]. reflexivity. Qed.
Lemma del_text : forall key lines, key <> [] -> del_lines key (lines ++ [[]]) = text_of (filter (fun l => negb (startswith key l)) lines).
Proof.
  intros key lines K. induction lines as [|l lines IH]; [destruct key; [congruence|reflexivity]|]. cbn [app]. rewrite del_cons by (destruct lines; discriminate). rewrite IH. cbn [filter].
  destruct (startswith key l); cbn [negb]; [reflexivity|]. cbn [text_of flat_map]. rewrite <- app_assoc. reflexivity.
Qed.
Lemma text_app : forall a b, text_of (a ++ b) = text_of a ++ text_of b.
Proof. intros. unfold text_of. apply flat_map_app. Qed.
Definition keyless (key : str) : list str -> list str := filter (fun l => negb (startswith key l)).
Definition put_line (key value : str) (lines : list str) : list str := match value with [] => lines | _ => keyless key lines ++ line_of key value end.
Lemma set_line_text : forall key value lines, key <> [] -> (forall l, In l lines -> one_line l) -> set_line key value (text_of lines) = text_of (put_line key value lines).
Proof.
  intros key value lines K H. unfold set_line, put_line. destruct value as [|c v]; [reflexivity|]. unfold sed_delete. rewrite split_text, del_text by assumption. rewrite text_app. f_equal.
  cbn [line_of text_of flat_map]. rewrite app_nil_r, <- !app_assoc. reflexivity.
Qed.
Lemma put_line_one : forall key value lines, one_line key -> one_line value -> (forall l, In l lines -> one_line l) -> forall l, In l (put_line key value lines) -> one_line l.
Proof.
  intros key value lines K V H l. unfold put_line. destruct value as [|c v]; [apply H|]. intro I. apply in_app_or in I. destruct I as [I|[<-|[]]].
  - apply filter_In in I. apply H, I.
  - intro I. apply in_app_or in I. destruct I as [I|I]; [exact (K I)|]. apply in_app_or in I. destruct I as [[I|[]]|I]; [discriminate I|]. apply in_app_or in I. destruct I as [I|[I|[]]]; [exact (V I)|discriminate I].
Qed.
Definition put_all (id desc ver : str) (lines : list str) : list str := put_line variant_version ver (put_line variant desc (put_line build_id id lines)).
Lemma key_lines : one_line build_id /\ one_line variant /\ one_line variant_version.
Proof. repeat split; intro I; cbn in I; intuition discriminate. Qed.
Lemma update_text : forall id desc ver lines, one_line id -> one_line desc -> one_line ver -> (forall l, In l lines -> one_line l) ->
  update_etc_os_release id desc ver (text_of lines) = text_of (put_all id desc ver lines).
Proof.
  intros id desc ver lines I D V H. destruct key_lines as (K1 & K2 & K3). unfold update_etc_os_release, put_all.
  assert (H1 : forall l, In l (put_line build_id id lines) -> one_line l) by (apply put_line_one; assumption).
  assert (H2 : forall l, In l (put_line variant desc (put_line build_id id lines)) -> one_line l) by (apply put_line_one; assumption).
  rewrite set_line_text by (try assumption; discriminate). rewrite set_line_text by (try assumption; discriminate). rewrite set_line_text by (try assumption; discriminate). reflexivity.
Qed.
Lemma put_all_one : forall id desc ver lines, one_line id -> one_line desc -> one_line ver -> (forall l, In l lines -> one_line l) -> forall l, In l (put_all id desc ver lines) -> one_line l.
Proof. intros id desc ver lines I D V H. destruct key_lines as (K1 & K2 & K3). unfold put_all. repeat apply put_line_one; assumption. Qed.
Lemma keyless_app : forall k a b, keyless k (a ++ b) = keyless k a ++ keyless k b.
Proof. intros. unfold keyless. apply filter_app. Qed.
Lemma keyless_comm : forall k k' l, keyless k (keyless k' l) = keyless k' (keyless k l).
Proof.
  intros k k' l. unfold keyless. induction l as [|x l IH]; [reflexivity|]. cbn. destruct (startswith k' x) eqn:A, (startswith k x) eqn:B; cbn; rewrite ?A, ?B; cbn; rewrite IH; reflexivity.
Qed.
Lemma keyless_idem : forall k l, keyless k (keyless k l) = keyless k l.
Proof. intros k l. unfold keyless. induction l as [|x l IH]; [reflexivity|]. cbn. destruct (startswith k x) eqn:A; cbn; rewrite ?A; cbn; rewrite IH; reflexivity. Qed.
Lemma keyless_own : forall k v, keyless k (line_of k v) = [].
Proof. intros k [|c v]; [reflexivity|]. cbn [line_of]. unfold keyless. cbn [filter]. rewrite startswith_app. reflexivity. Qed.
Lemma keyless_other : forall k k' v, (forall w, startswith k (k' ++ w) = false) -> keyless k (line_of k' v) = line_of k' v.
Proof. intros k k' [|c v] H; [reflexivity|]. cbn [line_of]. unfold keyless. cbn [filter]. rewrite H. reflexivity. Qed.
Definition keep (k v : str) (l : list str) : list str := match v with [] => l | _ => keyless k l end.
Lemma put_line_keep : forall k v l, put_line k v l = keep k v l ++ line_of k v.
Proof. intros k [|c v] l; [cbn; rewrite app_nil_r|]; reflexivity. Qed.
Lemma keep_app : forall k v a b, keep k v (a ++ b) = keep k v a ++ keep k v b.
Proof. intros k [|c v] a b; [reflexivity|apply keyless_app]. Qed.
Lemma keep_other : forall k v k' v', (forall w, startswith k (k' ++ w) = false) -> keep k v (line_of k' v') = line_of k' v'.
Proof. intros k [|c v] k' v' H; [reflexivity|apply keyless_other, H]. Qed.
Lemma put_all_flat : forall id desc ver l, put_all id desc ver l =
  keep variant_version ver (keep variant desc (keep build_id id l)) ++ line_of build_id id ++ line_of variant desc ++ line_of variant_version ver.
Proof.
  intros id desc ver l. unfold put_all. rewrite !put_line_keep, !keep_app. rewrite (keep_other variant desc build_id id) by reflexivity. rewrite (keep_other variant_version ver build_id id), (keep_other variant_version ver variant desc) by reflexivity.
  rewrite <- !app_assoc. reflexivity.
Qed.
Lemma keep_comm : forall k v k' v' l, keep k v (keep k' v' l) = keep k' v' (keep k v l).
Proof. intros k [|c v] k' [|c' v'] l; try reflexivity. apply keyless_comm. Qed.
Lemma keep_twice : forall k v v' l, (v <> [] -> v' <> []) -> keep k v' (keep k v l) = keep k v' l.
Proof. intros k [|c v] [|c' v'] l H; try reflexivity; [exfalso; apply H; congruence|apply keyless_idem]. Qed.
Lemma keep_own : forall k v v', (v <> [] -> v' <> []) -> keep k v' (line_of k v) = [].
Proof. intros k [|c v] [|c' v'] H; try reflexivity; [exfalso; apply H; congruence|apply keyless_own]. Qed.
Lemma keep_nil : forall k v, keep k v [] = [].
Proof. intros k [|c v]; reflexivity. Qed.
Lemma put_all_twice : forall id desc ver id' desc' ver' l, (id <> [] -> id' <> []) -> (desc <> [] -> desc' <> []) -> (ver <> [] -> ver' <> []) ->
  put_all id' desc' ver' (put_all id desc ver l) = put_all id' desc' ver' l.
Proof.
  intros id desc ver id' desc' ver' l I D V. rewrite !put_all_flat, !keep_app. f_equal.
  rewrite (keep_own build_id id id' I), !keep_nil.
  rewrite (keep_other build_id id' variant desc), (keep_other build_id id' variant_version ver) by reflexivity.
  rewrite (keep_own variant desc desc' D), (keep_other variant desc' variant_version ver), keep_nil by reflexivity. rewrite (keep_own variant_version ver ver' V), !app_nil_r.
  rewrite (keep_comm build_id id' variant_version ver), (keep_comm build_id id' variant desc), (keep_twice build_id id id' l I).
  rewrite (keep_comm variant desc' variant_version ver), (keep_twice variant desc desc' _ D). apply keep_twice, V.
Qed.
Lemma keep_without : forall k v lines, without (fun l => v <> [] /\ has_key k l) lines (keep k v lines).
Proof.
  intros k [|c v] lines; cbn [keep].
  - induction lines as [|x l IH]; [constructor|]. apply w_keep; [intros [N _]; congruence|exact IH].
  - induction lines as [|x l IH]; [constructor|]. unfold keyless. cbn [filter]. destruct (startswith k x) eqn:E; cbn [negb].
    + apply w_drop; [|exact IH]. split; [discriminate|]. apply startswith_iff, E.
    + apply w_keep; [|exact IH]. intros [_ H]. apply startswith_iff in H. congruence.
Qed.
Lemma without_trans : forall p q a b c, without p a b -> without q b c -> without (fun x => p x \/ q x) a c.
Proof.
  intros p q a b c A. revert c. induction A as [|x l out D A IH|x l out N A IH]; intros c B.
  - inversion B. constructor.
  - apply w_drop; auto.
  - inversion B; subst; [apply w_drop; auto|apply w_keep; [intros [P|Q]; auto|auto]].
Qed.
Lemma without_ext : forall (p q : str -> Prop) a b, (forall x, p x <-> q x) -> without p a b -> without q a b.
Proof. intros p q a b E W. induction W; [constructor|apply w_drop; [apply E|]; assumption|apply w_keep; [rewrite <- E|]; assumption]. Qed.

(** ** Additional files *)
Lemma write_same : forall p v f, write p v f p = v.
Proof. intros. unfold write. rewrite seqb_refl. reflexivity. Qed.
Lemma write_other : forall p v f q, q <> p -> write p v f q = f q.
Proof. intros p v f q N. unfold write. destruct (seqb q p) eqn:E; [apply seqb_eq in E; congruence|reflexivity]. Qed.
Lemma add_fresh : forall root l f, NoDup (map (fun e => place root (snd e)) l) -> (forall s d, In (s, d) l -> s <> [] /\ f s <> None /\ f (place root d) = None) ->
  snd (rootfs_add_files root l f) = true /\ (forall s d, In (s, d) l -> fst (rootfs_add_files root l f) (place root d) = f s) /\
  forall p, ~ In p (map (fun e => place root (snd e)) l) -> fst (rootfs_add_files root l f) p = f p.
Proof.
  induction l as [|[s d] l IH]; intros f N H; [split; [reflexivity|]; split; [intros ? ? []|reflexivity]|].
  inversion_clear N as [|? ? NI N']. destruct (H s d (or_introl eq_refl)) as (SN & SE & T). cbn [rootfs_add_files]. fold (place root d). rewrite T. destruct s as [|c s]; [congruence|].
  destruct (f (c :: s)) as [v|] eqn:SV; [|congruence]. cbn [snd] in NI.
  assert (G : forall s' d', In (s', d') l -> s' <> [] /\ write (place root d) (Some v) f s' <> None /\ write (place root d) (Some v) f (place root d') = None).
  { intros s' d' I. destruct (H s' d' (or_intror I)) as (A & B & C). split; [exact A|]. split.
    - unfold write. destruct (seqb s' (place root d)); [discriminate|exact B].
    - rewrite write_other; [exact C|]. intro E. apply NI. rewrite <- E. apply in_map_iff. exists (s', d'). auto. }
  destruct (IH _ N' G) as (O & P & Q). split; [exact O|]. split.
  - intros s' d' [E|I].
    + injection E as <- <-. rewrite Q by exact NI. rewrite write_same, SV. reflexivity.
    + rewrite (P s' d' I). apply write_other. intro E. destruct (H s' d' (or_intror I)) as (_ & B & _). rewrite E in B. congruence.
  - intros p NP. cbn [map snd] in NP. rewrite Q by (intro I; apply NP; right; exact I). apply write_other. intros ->. apply NP. left. reflexivity.
Qed.
Lemma add_again : forall root l f g, (forall s d, In (s, d) l -> s <> [] /\ f s <> None /\ f (place root d) = None /\ f d = None /\ forall s' d', In (s', d') l -> d <> place root d') ->
  (forall p, ~ In p (map (fun e => place root (snd e)) l) -> g p = f p) ->
  forall m, NoDup (map (fun e => place root (snd e)) m) -> (forall e, In e m -> In e l) ->
  snd (rootfs_add_files root m g) = true /\ (forall s d, In (s, d) m -> fst (rootfs_add_files root m g) (place root d) = f s) /\
  forall p, (~ In p (map (fun e => place root (snd e)) m) -> fst (rootfs_add_files root m g) p = g p).
Proof.
  intros root l f g H. revert g. intros g G m. revert g G. induction m as [|[s d] m IH]; intros g G N M; [split; [reflexivity|split; [intros ? ? []|intros; reflexivity]]|].
  cbn [map snd] in N. inversion N as [|? ? NI NM]; subst.
  destruct (H s d (M _ (or_introl eq_refl))) as (SN & SE & T & HD & DD). cbn [rootfs_add_files]. fold (place root d).
  set (g' := match g (place root d) with Some _ => write d None g | None => g end).
  assert (GG : forall p, ~ In p (map (fun e => place root (snd e)) l) -> g' p = f p).
  { intros p NP. unfold g'. destruct (g (place root d)); [|apply G, NP]. unfold write. destruct (seqb p d) eqn:E; [apply seqb_eq in E; subst p; symmetry; exact HD|apply G, NP]. }
  assert (ND : ~ In d (map (fun e => place root (snd e)) l)). { intro I. apply in_map_iff in I. destruct I as ([s' d'] & E & I). apply (DD s' d' I). symmetry. exact E. }
  assert (GD : forall p, g' p = g p). { intro p. unfold g'. destruct (g (place root d)); [|reflexivity]. unfold write. destruct (seqb p d) eqn:E; [|reflexivity]. apply seqb_eq in E. subst p. rewrite (G d ND). symmetry. exact HD. }
  assert (SP : ~ In s (map (fun e => place root (snd e)) l)). { intro I. apply in_map_iff in I. destruct I as ([s' d'] & E & I). cbn in E. destruct (H s' d' I) as (_ & _ & T' & _). rewrite E in T'. congruence. }
  destruct s as [|c s]; [congruence|]. destruct (g' (c :: s)) as [v|] eqn:SV; [|rewrite (GG _ SP) in SV; congruence].
  assert (G2 : forall p, ~ In p (map (fun e => place root (snd e)) l) -> write (place root d) (Some v) g' p = f p).
  { intros p NP. rewrite write_other; [apply GG, NP|]. intros ->. apply NP. apply in_map_iff. exists (c :: s, d). split; [reflexivity|apply M; left; reflexivity]. }
  destruct (IH _ G2 NM (fun e I => M e (or_intror I))) as (O & C & Q). split; [exact O|]. split.
  { intros s' d' [E|I]; [injection E as <- <-|exact (C s' d' I)]. rewrite (Q _ NI), write_same. rewrite <- SV. apply GG, SP. }
  intros p NP. cbn [map snd] in NP. rewrite Q by (intro I; apply NP; right; exact I). rewrite write_other by (intros ->; apply NP; left; reflexivity). apply GD.
Qed.

(** ** Package lists *)
Lemma after_slash_none : forall n acc, ~ In "/"%char n -> after_slash n acc = acc ++ n.
Proof.
  induction n as [|c n IH]; intros acc H; [cbn; rewrite app_nil_r; reflexivity|]. cbn. destruct (aeqb c "/") eqn:E; [apply aeqb_eq in E; subst c; exfalso; apply H; left; reflexivity|].
  rewrite IH by (intro I; apply H; right; exact I). rewrite <- app_assoc. reflexivity.
Qed.
Lemma after_slash_dir : forall d n acc, ~ In "/"%char n -> after_slash (d ++ "/"%char :: n) acc = n.
Proof. induction d as [|c d IH]; intros n acc H; cbn; [apply (after_slash_none n [] H)|]. destruct (aeqb c "/"); apply IH, H. Qed.
Lemma last_dot_none : forall e, ~ In "."%char e -> last_dot e = None.
Proof. induction e as [|c e IH]; intro H; [reflexivity|]. cbn. rewrite IH by (intro I; apply H; right; exact I). destruct (aeqb c ".") eqn:E; [apply aeqb_eq in E; subst c; exfalso; apply H; left; reflexivity|reflexivity]. Qed.
Lemma last_dot_app : forall a e, ~ In "."%char e -> last_dot (a ++ "."%char :: e) = Some ("."%char :: e).
Proof. induction a as [|c a IH]; intros e H; cbn; [rewrite (last_dot_none e H); reflexivity|]. rewrite (IH e H). reflexivity. Qed.
Lemma last_dot_shape : forall n e, last_dot n = Some e -> exists a b, n = a ++ e /\ e = "."%char :: b.
Proof.
  induction n as [|c n IH]; intros e H; [discriminate H|]. cbn in H. destruct (last_dot n) as [e'|] eqn:L.
  - injection H as <-. destruct (IH e' eq_refl) as (a & b & -> & ->). exists (c :: a), b. auto.
  - destruct (aeqb c ".") eqn:E; [|discriminate H]. injection H as <-. apply aeqb_eq in E. subst c. exists [], n. auto.
Qed.
Lemma drop_lead_app : forall n e, (exists c, In c n /\ c <> "."%char) -> exists m, drop_lead (n ++ e) = m ++ e.
Proof.
  induction n as [|c n IH]; intros e (x & I & N); [destruct I|]. cbn. destruct (aeqb c ".") eqn:E.
  - apply aeqb_eq in E. subst c. apply IH. exists x. split; [|exact N]. destruct I as [<-|I]; [congruence|exact I].
  - exists (c :: n). reflexivity.
Qed.
Lemma copy_lists_spec : forall work ls dir, (forall l, In l ls -> work l <> None) -> exists out, copy_lists work ls dir = Some out /\
  (forall a l b, ls = a ++ l :: b -> (forall x, In x b -> base x <> base l) -> out (base l) = work l) /\ forall n, (forall l, In l ls -> base l <> n) -> out n = dir n.
Proof.
  induction ls as [|l ls IH]; intros dir H.
  - exists dir. split; [reflexivity|]. split; [intros [|] ? ? E; discriminate E|reflexivity].
  - cbn [copy_lists]. destruct (work l) as [v|] eqn:W; [|exfalso; apply (H l (or_introl eq_refl) W)]. destruct (IH (write (base l) (Some v) dir) (fun x I => H x (or_intror I))) as (out & E & A & B).
    exists out. split; [exact E|]. split.
    + intros [|x a] y b EQ NB; injection EQ as <- EQ.
      * subst b. rewrite B by exact NB. rewrite write_same. symmetry. exact W.
      * apply (A a y b EQ NB).
    + intros n N. rewrite B by (intros x I; apply N; right; exact I). apply write_other. intros ->. apply (N l (or_introl eq_refl) eq_refl).
Qed.
Lemma drop_lead_end : forall n, exists a, n = a ++ drop_lead n.
Proof. induction n as [|c n [a IH]]; [exists []; reflexivity|]. cbn [drop_lead]. destruct (aeqb c "."); [exists (c :: a); cbn [app]; rewrite <- IH; reflexivity|exists []; reflexivity]. Qed.
Lemma after_slash_end : forall p acc, exists a, acc ++ p = a ++ after_slash p acc.
Proof.
  induction p as [|c p IH]; intro acc; cbn [after_slash]; [exists []; rewrite app_nil_r; reflexivity|]. destruct (aeqb c "/").
  - destruct (IH []) as [a E]. exists (acc ++ c :: a). cbn [app] in E. rewrite <- app_assoc. cbn [app]. rewrite <- E. reflexivity.
  - destruct (IH (acc ++ [c])) as [a E]. exists a. rewrite <- E, <- app_assoc. reflexivity.
Qed.
