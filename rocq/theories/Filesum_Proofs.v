From Coq Require Import String Ascii List Bool Arith Lia Permutation.
From Verif Require Import Str_Model Str_Proofs Posix_Model Posix_Proofs Sigtask_Model Sigtask_Proofs Pcache_Model Pcache_Spec Pcache_Proofs Filesum_Model Filesum_Spec.
Import ListNotations.
Open Scope list_scope.

Section Sums.
Variable md5 : str -> str.
Notation get_checksum := (get_checksum md5).

(** *** The cache *)
Definition entry_ok (past : list node) (e : str * (nat * str)) : Prop := exists w c, In w past /\ stat_file w (fst e) = Some (fst (snd e), c) /\ snd (snd e) = md5 c.
Definition dict_ok past (d : dict (nat * str)) : Prop := Forall (entry_ok past) d.
Definition times_ok r (d : dict nat) : Prop := forall f t, get f d = Some t -> exists c, stat_file r f = Some (t, c).
Definition proc_ok past r (p : proc) : Prop := dict_ok past (data p) /\ dict_ok past (extras p) /\ times_ok r (times p).
Definition part_ok past (v : part) : Prop := match v with Whole d => dict_ok past d | _ => True end.
Definition inv past (s : sys) : Prop :=
  (forall w, In w past -> honest_times (root s) w) /\ In (root s) past /\ (forall d, main s = Some d -> dict_ok past d) /\ Forall (part_ok past) (parts s) /\ Forall (proc_ok past (root s)) (procs s).

Lemma put_ok past (k : str) (v : nat * str) (d : dict (nat * str)) : entry_ok past (k, v) -> dict_ok past d -> dict_ok past (put k v d).
Proof.
  intros E. induction d as [|[x u] d IH]; intros H; cbn; [constructor; auto|]. apply Forall_cons_iff in H. destruct H as [H1 H2].
  destruct (seqb x k) eqn:S; constructor; auto; [|now apply IH]. apply seqb_eq in S. now subst.
Qed.
Lemma merge_ok past s : forall d, dict_ok past s -> dict_ok past d -> dict_ok past (merge_data s d).
Proof.
  unfold merge_data. induction s as [|[k v] s IH]; intros d HS HD; cbn; auto. apply Forall_cons_iff in HS. destruct HS as [H1 H2]. apply IH; auto. now apply put_ok.
Qed.
Lemma save_merge_ok past : forall ps d d', Forall (part_ok past) ps -> dict_ok past d -> save_merge ps d = Some d' -> dict_ok past d'.
Proof.
  induction ps as [|v ps IH]; intros d d' F D E; cbn in E; [now injection E as <-|]. apply Forall_cons_iff in F. destruct F as [F1 F2]. destruct v; try discriminate.
  - eapply IH; [exact F2| |exact E]. now apply merge_ok.
  - eapply IH; eauto.
Qed.
Lemma dict_ok_more past w d : dict_ok past d -> dict_ok (w :: past) d.
Proof. apply Forall_impl. intros e (w0 & c & I & H). exists w0, c. split; [now right|auto]. Qed.
Lemma times_put r f t c d : stat_file r f = Some (t, c) -> times_ok r d -> times_ok r (put f t d).
Proof. intros S H g t' G. rewrite get_put in G. destruct (seqb f g) eqn:E; [|now apply H]. apply seqb_eq in E. subst g. injection G as <-. eauto. Qed.

(** What a process needs so that its answers are right *)
Definition sane r (p : proc) : Prop := (forall f m h c, get f (data p) = Some (m, h) -> stat_file r f = Some (m, c) -> h = md5 c) /\ times_ok r (times p).
Lemma ok_sane past r p : (forall w, In w past -> honest_times r w) -> proc_ok past r p -> sane r p.
Proof.
  intros H (D & _ & T). split; auto. intros f m h c G S. apply get_In in G. unfold dict_ok in D. rewrite Forall_forall in D. destruct (D _ G) as (w & c0 & I & S0 & E0). cbn [fst snd] in *. subst h.
  f_equal. symmetry. now apply (H w I f m c c0).
Qed.
Definition right (r : node) (f : str) : option str := option_map (fun q => md5 (snd q)) (stat_file r (normpath f)).
Lemma get_checksum_ok r f p : sane r p -> fst (get_checksum r f p) = right r f /\ sane r (snd (get_checksum r f p)) /\ data (snd (get_checksum r f p)) = data p.
Proof.
  intros [D T]. unfold Filesum_Model.get_checksum, right. cbv zeta. set (g := normpath f).
  assert (C : match stat_file r g with
    | Some (t, _) => exists p', cached_mtime r g p = (Some t, p') /\ data p' = data p /\ times_ok r (times p')
    | None => cached_mtime r g p = (None, p) end).
  { unfold cached_mtime. destruct (get g (times p)) as [t|] eqn:G.
    - destruct (T g t G) as [c ->]. eauto.
    - destruct (stat_file r g) as [[t c]|] eqn:S; auto. eexists. split; [reflexivity|]. cbn. split; auto. now apply times_put with (c := c). }
  destruct (stat_file r g) as [[t c]|] eqn:S.
  - destruct C as (p' & -> & DP & TP). cbn [option_map snd]. rewrite DP. 
    assert (Again : forall x : option str * proc, x = (Some (md5 c), {| data := data p; extras := put g (t, md5 c) (extras p'); times := times p' |}) -> fst x = Some (md5 c) /\ sane r (snd x) /\ data (snd x) = data p).
    { intros x ->. cbn. split; auto. split; auto. split; auto. }
    destruct (get g (data p)) as [[m h]|] eqn:G; [|now apply Again]. destruct (Nat.eqb t m) eqn:E; [|now apply Again].
    apply Nat.eqb_eq in E. subst m. cbn [fst snd]. rewrite (D g t h c G S). split; auto. split; auto. split; [rewrite DP; auto|auto].
  - rewrite C. cbn. split; auto. split; auto. split; auto.
Qed.
Lemma get_checksum_inv past r f p : In r past -> proc_ok past r p -> proc_ok past r (snd (get_checksum r f p)).
Proof.
  intros I (D & X & T). unfold Filesum_Model.get_checksum, cached_mtime. cbv zeta. set (g := normpath f).
  destruct (get g (times p)) as [t|] eqn:G.
  - destruct (T g t G) as [c S]. rewrite S. assert (X' : dict_ok past (put g (t, md5 c) (extras p))) by (apply put_ok; auto; exists r, c; auto).
    destruct (get g (data p)) as [[m h]|]; [destruct (Nat.eqb t m)|]; repeat split; auto.
  - destruct (stat_file r g) as [[t c]|] eqn:S; cbn [data extras times].
    + assert (X' : dict_ok past (put g (t, md5 c) (extras p))) by (apply put_ok; auto; exists r, c; auto). assert (T' : times_ok r (put g t (times p))) by now apply times_put with (c := c).
      destruct (get g (data p)) as [[m h]|]; [destruct (Nat.eqb t m)|]; repeat split; auto.
    + repeat split; auto.
Qed.
Lemma reach_inv past s : reach md5 past s -> inv past s.
Proof.
  induction 1 as [r|past r m ps pr R IH|past r m ps a p b R IH|past r m ps a p b R IH|past r m ps a p b f R IH|past r m ps a p b v R IH V|past r m ps a p b order d m' ps' R IH PE SM IM IP|past r m ps pr r' R IH HO];
    unfold inv in *; cbn [root main parts procs] in *; try (destruct IH as (A & B & C & D & E)).
  - split; [|split; [now left|split; [discriminate|split; constructor]]]. intros w [<-|[]] f t c c' S S'. rewrite S in S'. now injection S'.
  - repeat split; auto. constructor; auto. unfold init_cache. split; [|split; [constructor|intros f t G; discriminate G]]. cbn [data]. destruct m; [now apply C|constructor].
  - repeat split; auto. constructor; auto. apply Forall_app in E. destruct E as [_ E]. now apply Forall_cons_iff in E.
  - repeat split; auto. apply Forall_app in E. destruct E as [E1 E2]. apply Forall_cons_iff in E2. apply Forall_app. tauto.
  - repeat split; auto. apply Forall_app in E. destruct E as [E1 E2]. apply Forall_cons_iff in E2. destruct E2 as [E2 E3]. apply Forall_app. split; auto. constructor; auto. now apply get_checksum_inv.
  - repeat split; auto. constructor; auto. apply Forall_app in E. destruct E as [E1 E2]. apply Forall_cons_iff in E2. destruct E2 as [(_ & E2 & _) E3]. destruct V as [<-|[<-|[<-|[]]]]; cbn; auto.
  - apply Forall_app in E. destruct E as [E1 E2]. apply Forall_cons_iff in E2. destruct E2 as [(E2 & E2' & E2'') E3].
    assert (DD : dict_ok past d) by (eapply save_merge_ok; [|exact E2|exact SM]; rewrite Forall_forall in *; intros v I; apply D; eapply Permutation_in; eauto).
    split; auto. split; auto. split; [|split].
    + intros d' X. destruct IM as [E'|[E'|[E'|[]]]]; subst m'; [now apply C|discriminate|injection X as <-; auto].
    + rewrite Forall_forall in *. intros v I. apply D, IP, I.
    + apply Forall_app. split; auto. constructor; auto. split; [|split]; auto.
  - split; [|split; [now left|split; [|split]]].
    + intros w [<-|I]; [intros f t c c' S S'; rewrite S in S'; now injection S'|now apply HO].
    + intros d Hd. apply dict_ok_more, C, Hd.
    + eapply Forall_impl; [|exact D]. intros [d| |]; cbn; auto. apply dict_ok_more.
    + rewrite Forall_forall in *. intros p I. apply in_map_iff in I. destruct I as (p0 & <- & I). destruct (E p0 I) as (X & Y & _). split; [now apply dict_ok_more|split; [now apply dict_ok_more|intros f t G; discriminate G]].
Qed.
Lemma reach_sane past s p : reach md5 past s -> In p (procs s) -> sane (root s) p.
Proof. intros R I. apply reach_inv in R. destruct R as (A & _ & _ & _ & E). rewrite Forall_forall in E. eapply ok_sane; eauto. Qed.

(** *** Lists of files *)
Hypothesis md5_some : forall c, md5 c <> [].
Definition sum_of r (f : str) : list (str * str) := match right r f with Some h => [(f, h)] | None => [] end.
Lemma sum_files_ok r : forall fs p, sane r p -> fst (sum_files md5 r fs p) = flat_map (sum_of r) fs /\ sane r (snd (sum_files md5 r fs p)).
Proof.
  induction fs as [|f fs IH]; intros p S; cbn [sum_files flat_map]; auto. destruct (get_checksum_ok r f p S) as (E & S' & _). destruct (get_checksum r f p) as [h p1]. cbn [fst snd] in *.
  destruct (IH p1 S') as (E2 & S2). destruct (sum_files md5 r fs p1) as [l p2]. cbn [fst snd] in *. split; auto. subst l h. f_equal. unfold sum_of, right.
  destruct (stat_file r (normpath f)) as [[t c]|]; cbn [option_map snd]; auto. destruct (md5 c) eqn:M; auto. now apply md5_some in M.
Qed.

(** *** Paths *)
Lemma path_ptail cs : path_of cs = ptail cs. Proof. reflexivity. Qed.
Lemma name_comp c : file_name c -> comp c.
Proof. intros (A & B & _ & _). split; auto. now apply no_char_In. Qed.
Lemma split_path cs : Forall comp cs -> cs <> [] -> split_on slash (ptail cs) = [] :: cs.
Proof.
  intros F N. rewrite ptail_join by auto. change (slash :: join [slash] cs) with ([] ++ slash :: join [slash] cs). rewrite split_on_cons by constructor. f_equal.
  apply split_on_join; auto. eapply Forall_impl; [|exact F]. intros c [_ X]. exact X.
Qed.
Lemma initial_one cs : Forall comp cs -> cs <> [] -> initial_slashes (ptail cs) = 1.
Proof.
  intros F N. destruct cs as [|c cs]; [congruence|]. apply Forall_cons_iff in F. destruct F as [[NE NC] _]. destruct c as [|x c]; [congruence|]. cbn. inversion NC as [|? ? X _]; subst.
  unfold is_slash. rewrite X. destruct (c ++ _); reflexivity.
Qed.
Definition kept (c : str) : bool := negb (seqb c dot).
Lemma norm_path_gen cs : Forall (fun c => comp c /\ c <> dotdot) cs -> forall acc, fold_left (norm_step 1) cs acc = rev (filter kept cs) ++ acc.
Proof.
  induction cs as [|c cs IH]; intros F acc; auto. apply Forall_cons_iff in F. destruct F as [[[NE NC] ND] F]. cbn [fold_left]. rewrite IH by auto. unfold norm_step at 1. cbn [filter]. unfold kept at 2.
  assert (E0 : seqb c [] = false) by now apply seqb_neq. rewrite E0. cbn [orb]. destruct (seqb c dot); cbn [negb]; auto.
  assert (E1 : seqb c dotdot = false) by now apply seqb_neq. rewrite E1. cbn [negb orb rev]. now rewrite <- app_assoc.
Qed.
Lemma norm_path cs : Forall (fun c => comp c /\ c <> dotdot) cs -> cs <> [] -> norm_comps (ptail cs) = filter kept cs.
Proof.
  intros F N. assert (FC : Forall comp cs) by (eapply Forall_impl; [|exact F]; intros c []; auto). unfold norm_comps. rewrite initial_one, split_path by auto. cbn [fold_left]. rewrite norm_path_gen by auto.
  rewrite app_nil_r. apply rev_involutive.
Qed.
Lemma kept_all cs : Forall file_name cs -> filter kept cs = cs.
Proof.
  induction cs as [|c cs IH]; intros F; auto. apply Forall_cons_iff in F. destruct F as [(_ & _ & D & _) F]. cbn [filter]. unfold kept at 1. assert (E : seqb c dot = false) by now apply seqb_neq. rewrite E. cbn [negb]. f_equal. auto.
Qed.
Lemma names_good cs : Forall file_name cs -> Forall (fun c => comp c /\ c <> dotdot) cs.
Proof. apply Forall_impl. intros c H. split; [now apply name_comp|]. apply H. Qed.
Lemma norm_clean cs : Forall file_name cs -> cs <> [] -> norm_comps (path_of cs) = cs.
Proof. intros F N. rewrite path_ptail, norm_path by (auto using names_good). now apply kept_all. Qed.
Lemma dot_good : comp dot /\ dot <> dotdot.
Proof. split; [split; [discriminate|repeat constructor]|discriminate]. Qed.
Lemma norm_dotted cs rel : Forall file_name cs -> Forall file_name rel -> cs <> [] -> norm_comps (path_of (cs ++ dot :: rel)) = cs ++ rel.
Proof.
  intros F G N. rewrite path_ptail, norm_path.
  - rewrite filter_app. cbn [filter]. change (kept dot) with false. cbv iota. now rewrite !kept_all by auto.
  - apply Forall_app. split; [now apply names_good|constructor; [apply dot_good|now apply names_good]].
  - destruct cs; [congruence|discriminate].
Qed.
Lemma initial_norm p : initial_slashes p = 1 -> norm_comps p <> [] -> normpath p = path_of (norm_comps p).
Proof. intros E N. unfold normpath. rewrite E. cbn [repeat app]. rewrite path_ptail, ptail_join by auto. reflexivity. Qed.
Lemma normpath_dotted cs rel : Forall file_name cs -> Forall file_name rel -> cs <> [] -> normpath (path_of (cs ++ dot :: rel)) = path_of (cs ++ rel).
Proof.
  intros F G N. rewrite initial_norm; rewrite ?norm_dotted; auto.
  - rewrite path_ptail. apply initial_one; [|destruct cs; [congruence|discriminate]]. apply Forall_app. split; [eapply Forall_impl; [|exact F]; apply name_comp|].
    constructor; [apply dot_good|eapply Forall_impl; [|exact G]; apply name_comp].
  - destruct cs; [congruence|discriminate].
Qed.
Lemma normpath_clean cs : Forall file_name cs -> cs <> [] -> normpath (path_of cs) = path_of cs.
Proof.
  intros F N. rewrite initial_norm; rewrite ?norm_clean; auto. rewrite path_ptail. apply initial_one; auto. eapply Forall_impl; [|exact F]. apply name_comp.
Qed.
Lemma path_last cs : Forall file_name cs -> cs <> [] -> exists h x, path_of cs = h ++ [x] /\ is_slash x = false.
Proof.
  intros F N. destruct cs as [|c cs _] using rev_ind; [congruence|]. apply Forall_app in F. destruct F as [_ F]. apply Forall_cons_iff in F. destruct F as [F _].
  destruct (comp_last c (name_comp c F)) as (h & x & -> & X). exists (path_of cs ++ slash :: h), x. split; auto. rewrite path_ptail, ptail_app. cbn [ptail flat_map]. rewrite app_nil_r, <- app_assoc. reflexivity.
Qed.
Lemma pjoin_path cs c : Forall file_name cs -> cs <> [] -> no_char slash c -> pjoin (path_of cs) c = path_of cs ++ slash :: c.
Proof.
  intros F N NC. destruct (path_last cs F N) as (h & x & -> & X). apply pjoin_plain; auto. now apply no_char_isabs.
Qed.
Lemma join_rel : forall rel cs, Forall file_name cs -> cs <> [] -> Forall file_name rel -> fold_left pjoin rel (path_of cs) = path_of (cs ++ rel).
Proof.
  induction rel as [|c rel IH]; intros cs F N G; [now rewrite app_nil_r|]. apply Forall_cons_iff in G. destruct G as [G1 G2]. cbn [fold_left].
  rewrite pjoin_path by (auto; apply name_comp, G1). replace (path_of cs ++ slash :: c) with (path_of (cs ++ [c])) by (rewrite !path_ptail, ptail_app; cbn; now rewrite app_nil_r).
  rewrite IH; auto; [now rewrite <- app_assoc|apply Forall_app; split; auto|destruct cs; discriminate].
Qed.
Lemma rstrip_path cs : Forall file_name cs -> cs <> [] -> rstrip_slashes (path_of cs) = path_of cs.
Proof.
  intros F N. destruct (path_last cs F N) as (h & x & -> & X). unfold rstrip_slashes. rewrite rev_app_distr. cbn [rev app drop_slashes]. rewrite X. cbn [rev]. now rewrite rev_involutive.
Qed.
(** *** Replacing *)
Lemma replace_skip old new : forall p s, replace_go old new (length p) (p ++ s) = replace_go old new 0 s.
Proof. induction p as [|c p IH]; intros s; auto. cbn. apply IH. Qed.
Lemma replace_none old new : forall s, (forall a b, s <> a ++ old ++ b) -> replace_go old new 0 s = s.
Proof.
  induction s as [|c s IH]; intros H; auto. cbn [replace_go]. destruct (startswith old (c :: s)) eqn:E.
  - apply startswith_iff in E. destruct E as [r E]. exfalso. apply (H [] r). exact E.
  - f_equal. apply IH. intros a b X. apply (H (c :: a) b). cbn. now rewrite X.
Qed.
Lemma replace_first old new s : old <> [] -> (forall a b, s <> a ++ old ++ b) -> replace old new (old ++ s) = new ++ s.
Proof.
  intros N H. unfold replace. destruct old as [|c old]; [congruence|]. cbn [app replace_go]. change (c :: old ++ s) with ((c :: old) ++ s). rewrite startswith_app. f_equal.
  replace (length (c :: old) - 1) with (length old) by (cbn; lia). rewrite replace_skip. now apply replace_none.
Qed.
Lemma once_tail q rel : once q rel -> q <> [] -> forall a b, path_of rel <> a ++ q ++ b.
Proof.
  intros O N a b E. specialize (O (q ++ a) b). rewrite E, <- app_assoc in O. specialize (O eq_refl). destruct q; [congruence|discriminate].
Qed.
Lemma full_name cs rel : Forall file_name cs -> cs <> [] -> Forall file_name rel -> once (path_of cs) rel ->
  replace (path_of cs) (pjoin (path_of cs) dot) (fold_left pjoin rel (path_of cs)) = path_of cs ++ s_ "/." ++ path_of rel.
Proof.
  intros F N G O. assert (NE : path_of cs <> []) by (destruct cs; [congruence|discriminate]). rewrite join_rel, pjoin_path by (auto; repeat constructor). rewrite path_ptail, ptail_app, <- !path_ptail.
  rewrite replace_first; auto; [now rewrite <- app_assoc|now apply once_tail].
Qed.
Lemma dotted_text cs rel : path_of cs ++ s_ "/." ++ path_of rel = path_of (cs ++ dot :: rel).
Proof. rewrite !path_ptail, ptail_app. reflexivity. Qed.

(** *** Trees *)
Lemma child_In l c m : NoDup (map fst l) -> (child c l = Some m <-> In (c, m) l).
Proof.
  induction l as [|[x n] l IH]; intros ND; cbn; [split; [discriminate|intros []]|]. inversion ND as [|? ? N1 N2]; subst. destruct (seqb x c) eqn:E.
  - apply seqb_eq in E. subst x. split; [intros [= ->]; now left|]. intros [[= ->]|I]; auto. exfalso. apply N1. apply (in_map fst) in I. exact I.
  - rewrite IH by auto. split; [now right|]. intros [[= -> ->]|I]; auto. now rewrite seqb_refl in E.
Qed.
Lemma sound_leads n cs m : sound_tree n -> leads n cs m -> sound_tree m /\ Forall file_name cs.
Proof.
  intros S L. induction L as [n|l c m cs n I L IH]; [split; auto|]. inversion S as [| | |l' ND H]; subst. destruct (H c m I) as [A B]. destruct (IH B) as [C D]. split; auto.
Qed.
Lemma find_leads : forall cs n m, sound_tree n -> (find n cs = Some m <-> leads n cs m).
Proof.
  induction cs as [|c cs IH]; intros n m S; cbn.
  - split; [intros [= ->]; constructor|intros L; inversion L; now subst].
  - split.
    + intros H. destruct n as [|l| |]; try discriminate. inversion S as [| | |l' ND HS]; subst. destruct (child c l) as [k|] eqn:E; [|discriminate]. apply child_In in E; auto.
      apply leads_down with k; auto. apply IH; auto. now apply (HS c).
    + intros L. inversion L as [|l c' k cs' n' I L']; subst. inversion S as [| | |l' ND HS]; subst. apply (child_In l c k ND) in I as I'. rewrite I'. apply IH; auto. now apply (HS c).
Qed.
Lemma find_app : forall a n b, find n (a ++ b) = match find n a with Some m => find m b | None => None end.
Proof. induction a as [|c a IH]; intros n b; auto. cbn. destruct n as [|l| |]; auto. destruct (child c l); auto. Qed.

Fixpoint node_rec' (Q : node -> Prop) (HF : forall t c, Q (File t c)) (HL : Q DirLink) (HB : Q Broken) (HD : forall l, Forall (fun p => Q (snd p)) l -> Q (Dir l)) (n : node) {struct n} : Q n :=
  match n with
  | File t c => HF t c
  | DirLink => HL
  | Broken => HB
  | Dir l => HD l ((fix go l : Forall (fun p => Q (snd p)) l := match l with [] => Forall_nil _ | p :: r => Forall_cons p (node_rec' Q HF HL HB HD (snd p)) (go r) end) l)
  end.

Variable excluded : list str.
Notation walk := (walk excluded).
Lemma walk_spec n : forall here p, In p (walk n here) <-> exists rel m, p = here ++ rel /\ leads n rel m /\ rel <> [] /\ is_dir m = false /\ forall d, In d (removelast rel) -> ~ In d excluded.
Proof.
  induction n as [t c| | |l IH] using node_rec'; intros here p.
  1-3: split; [intros []|]; intros (rel & m & _ & L & N & _); inversion L; subst; congruence.
  cbn [Filesum_Model.walk]. rewrite in_app_iff, in_map_iff, in_flat_map. split.
  - intros [((c, m) & <- & I)|((c, m) & I & H)].
    + apply filter_In in I. destruct I as [I D]. apply negb_true_iff in D. exists [c], m. split; auto. split; [apply leads_down with m; [auto|constructor]|]. split; [discriminate|]. split; auto.
    + cbn [fst snd] in H. destruct (mem_str c excluded) eqn:E; [destruct H|]. rewrite Forall_forall in IH. apply (IH _ I) in H. cbn [snd] in H. destruct H as (rel & k & -> & L & N & D & X).
      exists (c :: rel), k. rewrite <- app_assoc. split; auto. split; [apply leads_down with m; auto|]. split; [discriminate|]. split; auto. intros d Hd. destruct rel as [|r0 rel]; [congruence|].
      change (removelast (c :: r0 :: rel)) with (c :: removelast (r0 :: rel)) in Hd. destruct Hd as [<-|Hd]; [now apply mem_str_false|auto].
  - intros (rel & k & -> & L & N & D & X). inversion L as [|l' c m cs n' I L']; subst; [congruence|]. destruct cs as [|c1 cs].
    + left. inversion L'; subst. exists (c, k). split; auto. apply filter_In. split; auto. cbn. now rewrite D.
    + right. exists (c, m). split; auto. cbn [fst snd]. assert (E : mem_str c excluded = false) by (apply mem_str_false, X; now left). rewrite E. rewrite Forall_forall in IH. apply (IH _ I). exists (c1 :: cs), k.
      rewrite <- app_assoc. split; auto. split; auto. split; [discriminate|]. split; auto. intros d Hd. apply X. change (removelast (c :: c1 :: cs)) with (c :: removelast (c1 :: cs)). now right.
Qed.

(** *** One path *)
Lemma stat_clean r cs : Forall file_name cs -> cs <> [] -> stat_file r (path_of cs) = match find r cs with Some (File t c) => Some (t, c) | _ => None end.
Proof. intros F N. unfold stat_file, at_path. now rewrite norm_clean. Qed.
Notation covers := (covers md5 excluded).
Lemma dir_sums r q cs l p : sound_tree r -> sane r p -> clean_name q cs -> leads r cs (Dir l) -> (forall rel m, leads (Dir l) rel m -> once q rel) ->
  exists sums p', checksum_dir md5 excluded r q p = Some (sums, p') /\ sane r p' /\ forall f h, In (f, h) sums <-> exists rel c, counts excluded (Dir l) rel c /\ f = q ++ s_ "/." ++ path_of rel /\ h = md5 c.
Proof.
  intros SR SP (-> & N & F) L O. unfold checksum_dir. assert (NS : seqb (path_of cs) [slash] = false).
  { apply seqb_neq. destruct cs as [|c cs]; [congruence|]. apply Forall_cons_iff in F. destruct F as [(F & _) _]. destruct c; [congruence|]. discriminate. }
  rewrite NS. cbv zeta. rewrite rstrip_path by auto. assert (A : at_path r (path_of cs) = Some (Dir l)) by (unfold at_path; rewrite norm_clean by auto; now apply find_leads). rewrite A.
  destruct (sum_files_ok r (map (fun rel => replace (path_of cs) (pjoin (path_of cs) dot) (fold_left pjoin rel (path_of cs))) (walk (Dir l) [])) p SP) as (E & S').
  destruct (sum_files md5 r _ p) as [sums p']. cbn [fst snd] in *. exists sums, p'. split; auto. split; auto. subst sums. intros f h. rewrite in_flat_map.
  assert (SD : sound_tree (Dir l)) by (eapply sound_leads; eauto).
  split.
  - intros (g & I & H). apply in_map_iff in I. destruct I as (rel & <- & I). apply walk_spec in I. destruct I as (rel' & m & -> & LM & NR & D & X). cbn [app] in *.
    assert (FR : Forall file_name rel') by (eapply sound_leads; eauto). rewrite full_name, dotted_text in H by eauto. unfold sum_of, right in H. rewrite normpath_dotted, stat_clean, find_app in H; auto; [|apply Forall_app; auto|destruct cs; [congruence|discriminate]].
    apply find_leads in L; auto. rewrite L in H. apply find_leads in LM as FM; auto. rewrite FM in H. destruct m as [t c|? | |]; try destruct H; try contradiction. injection H as <- <-. exists rel', c. split; [|split; [now rewrite dotted_text|reflexivity]].
    split; [eauto|]. auto.
  - intros (rel & c & ((t & LM) & NR & X) & -> & ->). assert (FR : Forall file_name rel) by (eapply sound_leads; eauto).
    exists (path_of cs ++ s_ "/." ++ path_of rel). split.
    + apply in_map_iff. exists rel. split; [apply full_name; eauto|]. apply walk_spec. exists rel, (File t c). auto.
    + unfold sum_of, right. rewrite dotted_text, normpath_dotted, stat_clean, find_app; auto; [|apply Forall_app; auto|destruct cs; [congruence|discriminate]].
      apply find_leads in L; auto. rewrite L. apply find_leads in LM; auto. rewrite LM. now left.
Qed.
Lemma path_sums r q cs p : sound_tree r -> sane r p -> clean_name q cs -> (forall l rel m, leads r cs (Dir l) -> leads (Dir l) rel m -> once q rel) ->
  exists sums p', checksum_path md5 excluded r q p = Some (sums, p') /\ sane r p' /\ forall f h, In (f, h) sums <-> covers r q f h.
Proof.
  intros SR SP CN O. assert (A : at_path r q = find r cs) by (destruct CN as (-> & N & F); unfold at_path; now rewrite norm_clean). unfold checksum_path. rewrite A.
  assert (UN : forall qs, clean_name q qs -> qs = cs). { intros qs (E & N & F). destruct CN as (E' & N' & F'). rewrite <- (norm_clean qs), <- (norm_clean cs) by auto. congruence. }
  assert (NO : forall n, find r cs = n -> (forall t c, n <> Some (File t c)) -> (forall l, n <> Some (Dir l)) -> forall f h, ~ covers r q f h).
  { intros n E X Y f h (qs & k & CQ & L & H). rewrite (UN qs CQ) in L. apply find_leads in L; auto. rewrite L in E. subst n. destruct H as [(t & c & -> & _)|(l & rel & c & -> & _)]; [now apply (X t c)|now apply (Y l)]. }
  assert (ONE : forall n, find r cs = n -> (forall l, n <> Some (Dir l)) -> exists sums p', Some (sum_files md5 r [q] p) = Some (sums, p') /\ sane r p' /\ forall f h, In (f, h) sums <-> covers r q f h).
  { intros n E ND. destruct (sum_files_ok r [q] p SP) as (E1 & S1). destruct (sum_files md5 r [q] p) as [sums p']. cbn [fst snd] in *. exists sums, p'. split; auto. split; auto. subst sums. cbn [flat_map]. rewrite app_nil_r.
    destruct CN as (EQ & N & F). unfold sum_of, right. rewrite EQ, normpath_clean, stat_clean by auto. rewrite E. destruct n as [[t c|l| |]|]; cbn [option_map snd].
    - intros f h. split.
      + intros [[= <- <-]|[]]. exists cs, (File t c). split; [split; auto|]. split; [now apply find_leads|]. left. exists t, c. auto.
      + intros (qs & k & CQ & L & H). rewrite EQ in UN. rewrite (UN qs CQ) in L. apply find_leads in L; auto. rewrite L in E. injection E as ->. destruct H as [(t' & c' & [= <- <-] & -> & ->)|(l & rel & c' & [=] & _)]. now left.
    - now destruct (ND l).
    - rewrite <- EQ. intros f h. split; [intros []|]. intros X. exfalso. eapply (NO _ E); [| |exact X]; discriminate.
    - rewrite <- EQ. intros f h. split; [intros []|]. intros X. exfalso. eapply (NO _ E); [| |exact X]; discriminate.
    - rewrite <- EQ. intros f h. split; [intros []|]. intros X. exfalso. eapply (NO _ E); [| |exact X]; discriminate. }
  destruct (find r cs) as [[t c|l| |]|] eqn:E; try (apply (ONE _ eq_refl); discriminate).
  - assert (L : leads r cs (Dir l)) by now apply find_leads. destruct (dir_sums r q cs l p SR SP CN L) as (sums & p' & -> & S' & H); [eauto|]. exists sums, p'. split; auto. split; auto. intros f h. rewrite H. split.
    + intros (rel & c & C & -> & ->). exists cs, (Dir l). split; auto. split; auto. right. exists l, rel, c. auto.
    + intros (qs & k & CQ & L' & HH). rewrite (UN qs CQ) in L'. apply find_leads in L'; auto. rewrite L' in E. injection E as ->. destruct HH as [(t' & c' & [=] & _)|(l' & rel & c' & [= <-] & C & -> & ->)]. exists rel, c'. auto.
  - exists [], p. split; auto. split; auto. intros f h. split; [intros []|]. intros X. exfalso. eapply (NO _ eq_refl); [| |exact X]; discriminate.
Qed.
Lemma paths_sums r : sound_tree r -> forall qs p, sane r p -> (forall q, In q qs -> exists cs, clean_name q cs /\ forall l rel m, leads r cs (Dir l) -> leads (Dir l) rel m -> once q rel) ->
  exists sums p', checksum_paths md5 excluded r qs p = Some (sums, p') /\ sane r p' /\ forall f h, In (f, h) sums <-> exists q, In q qs /\ covers r q f h.
Proof.
  intros SR. induction qs as [|q qs IH]; intros p SP H; cbn [checksum_paths].
  - exists [], p. split; auto. split; auto. intros f h. split; [intros []|intros (q & [] & _)].
  - destruct (H q (or_introl eq_refl)) as (cs & CN & O). destruct (path_sums r q cs p SR SP CN O) as (s1 & p1 & -> & S1 & H1). destruct (IH p1 S1) as (s2 & p2 & -> & S2 & H2); [intros; apply H; now right|].
    exists (s1 ++ s2), p2. split; auto. split; auto. intros f h. rewrite in_app_iff, H1, H2. split.
    + intros [X|(q' & I & X)]; [exists q|exists q']; split; auto; [now left|now right].
    + intros (q' & [<-|I] & X); [now left|right; eauto].
Qed.

(** *** A list *)
Lemma strip_listed f b : list_name f -> strip (listed (f, b)) = listed (f, b).
Proof. intros L. apply (list_text_strip [(f, b)]). constructor; auto. Qed.
Lemma listed_nonempty q : nonempty (listed q) = true.
Proof. destruct q as [f b]. unfold listed. cbn [fst snd]. destruct f, b; reflexivity. Qed.
Lemma items_text l : Forall (fun p => list_name (fst p)) l -> items (list_text l) = map listed l.
Proof.
  intros F. unfold items. destruct l as [|q l]; [reflexivity|]. set (l' := q :: l) in *. unfold list_text. rewrite split_marks_join; auto; [|discriminate|now left].
  assert (FL : forall r, filter nonempty (map listed r) = map listed r). { induction r as [|x r IH]; auto. cbn [map filter]. rewrite listed_nonempty. now rewrite IH. }
  rewrite FL. assert (ST : map strip (map listed l') = map listed l').
  { rewrite map_map. apply map_ext_in. intros [f b] I. rewrite Forall_forall in F. apply strip_listed. now apply (F (f, b)). }
  rewrite ST. apply FL.
Qed.
Variable glob : str -> list str.
Definition targets (q : str * bool) : list str := if snd q then (if existsb (aeqb star) (fst q) then glob (fst q) else [fst q]) else [].
Lemma wanted_listed q : no_colon (fst q) -> wanted glob (listed q) = Some (targets q).
Proof.
  destruct q as [f b]. cbn [fst]. intros N. assert (S : split_on colon (listed (f, b)) = [f; if b then s_ "True" else s_ "False"]).
  { assert (X : forall m : str, no_char colon m -> split_on colon (f ++ colon :: m) = [f; m]) by (intros m M; rewrite split_on_cons by (now apply no_colon_char); f_equal; now apply split_on_single).
    unfold listed. cbn [fst snd]. destruct b; [apply (X (s_ "True"))|apply (X (s_ "False"))]; apply no_char_In; cbn; intuition discriminate. }
  unfold wanted, targets. rewrite S. cbn [fst snd]. now destruct b.
Qed.
Lemma list_sums r l p : sound_tree r -> sane r p -> Forall (fun q => list_name (fst q) /\ no_colon (fst q)) l ->
  (forall q, In q (flat_map targets l) -> exists cs, clean_name q cs /\ forall l rel m, leads r cs (Dir l) -> leads (Dir l) rel m -> once q rel) ->
  exists sums p', get_checksums md5 glob excluded r (list_text l) p = Some (by_checksum sums, p') /\ forall f h, In (f, h) sums <-> exists q, In q (flat_map targets l) /\ covers r q f h.
Proof.
  intros SR SP F H. unfold get_checksums. rewrite items_text by (eapply Forall_impl; [|exact F]; intros q []; auto).
  rewrite map_map, (all_some_map _ targets); [|intros q I; apply wanted_listed; rewrite Forall_forall in F; now apply F]. rewrite <- flat_map_concat_map.
  destruct (paths_sums r SR (flat_map targets l) p SP H) as (sums & p' & -> & _ & X). exists sums, p'. auto.
Qed.
Lemma wants_targets e q : wants glob e q <-> In q (targets e).
Proof.
  unfold wants, targets. destruct e as [f b]. cbn [fst snd]. destruct b; [|split; [intros [[=] _]|intros []]].
  assert (X : existsb (aeqb star) f = true <-> In star f) by (rewrite existsb_exists; split; [intros (c & I & E); apply aeqb_eq in E; now subst c|intros I; exists star; split; auto; now apply aeqb_eq]).
  destruct (existsb (aeqb star) f) eqn:E.
  - split; [intros [_ [[N _]|[_ I]]]; [exfalso; apply N, X, eq_refl|exact I]|]. intros I. split; auto. right. split; auto. now apply X.
  - assert (N : ~ In star f) by (intros I; apply X in I; discriminate). split; [intros [_ [[_ ->]|[I _]]]; [now left|now apply N in I]|]. intros [<-|[]]. auto.
Qed.
End Sums.

(** *** Reading in another order *)
Lemma perm_filter {A} (f : A -> bool) l l' : Permutation l l' -> Permutation (filter f l) (filter f l').
Proof.
  induction 1 as [|x l l' P IH|x y l|l l' l'' P IH P' IH']; cbn; auto.
  - destruct (f x); auto.
  - destruct (f x), (f y); auto. constructor.
  - eapply Permutation_trans; eauto.
Qed.
Lemma perm_pointwise {A B} (f g : A -> list B) l : (forall x, In x l -> Permutation (f x) (g x)) -> Permutation (flat_map f l) (flat_map g l).
Proof. induction l as [|x l IH]; intros H; cbn; auto. apply Permutation_app; [apply H; now left|apply IH; intros; apply H; now right]. Qed.
Lemma shuffled_is_dir a b : shuffled a b -> is_dir a = is_dir b.
Proof. intros H. inversion H; subst; auto. Qed.
Lemma walk_shuffled excluded a : forall b here, shuffled a b -> Permutation (walk excluded a here) (walk excluded b here).
Proof.
  induction a as [t c| | |l IH] using node_rec'; intros b here H; try (inversion H; subst; apply Permutation_refl).
  inversion H as [n N E1 E2|l0 l' l'' F P E1 E2]; subst; [now destruct (N l)|]. apply Permutation_trans with (walk excluded (Dir l') here).
  - cbn [walk]. clear - IH F. induction F as [|[c m] [c' m'] l l' [E1 E2] F IHF]; cbn [filter map flat_map]; auto. cbn [fst snd] in *. subst c'. apply Forall_cons_iff in IH. destruct IH as [IH1 IH2]. cbn [snd] in IH1. specialize (IHF IH2).
    rewrite <- (shuffled_is_dir _ _ E2). assert (X : Permutation (if mem_str c excluded then [] else walk excluded m (here ++ [c])) (if mem_str c excluded then [] else walk excluded m' (here ++ [c]))) by (destruct (mem_str c excluded); auto).
    destruct (is_dir m); cbn [negb map app].
    + rewrite (Permutation_app_comm (if mem_str c excluded then [] else walk excluded m (here ++ [c]))), (Permutation_app_comm (if mem_str c excluded then [] else walk excluded m' (here ++ [c]))), !app_assoc. apply Permutation_app; auto.
    + constructor. rewrite (Permutation_app_comm (if mem_str c excluded then [] else walk excluded m (here ++ [c]))), (Permutation_app_comm (if mem_str c excluded then [] else walk excluded m' (here ++ [c]))), !app_assoc. apply Permutation_app; auto.
  - cbn [walk]. apply Permutation_app; [apply Permutation_map, perm_filter, P|]. now apply Permutation_flat_map.
Qed.
Lemma child_forall2 c l l' : Forall2 (fun a b => fst a = fst b /\ shuffled (snd a) (snd b)) l l' ->
  match child c l, child c l' with Some n, Some m => shuffled n m | None, None => True | _, _ => False end.
Proof. induction 1 as [|[x n] [x' n'] l l' [E1 E2] F IH]; cbn; auto. cbn [fst snd] in *. subst x'. destruct (seqb x c); auto. Qed.
Lemma child_perm c l l' : NoDup (map fst l) -> Permutation l l' -> child c l = child c l'.
Proof.
  intros ND P. assert (ND' : NoDup (map fst l')) by (eapply Permutation_NoDup; [apply Permutation_map, P|auto]). destruct (child c l) as [n|] eqn:E.
  - symmetry. apply child_In; auto. apply child_In in E; auto. eapply Permutation_in; eauto.
  - destruct (child c l') as [n|] eqn:E'; auto. exfalso. apply child_In in E'; auto. apply Permutation_sym in P. eapply Permutation_in in E'; [|exact P]. apply child_In in E'; auto. congruence.
Qed.
Lemma forall2_names l l' : Forall2 (fun a b : str * node => fst a = fst b /\ shuffled (snd a) (snd b)) l l' -> map fst l = map fst l'.
Proof. induction 1 as [|a b l l' [E _] F IH]; cbn; congruence. Qed.
Lemma find_shuffled : forall cs a b, sound_tree a -> shuffled a b ->
  match find a cs, find b cs with Some n, Some m => shuffled n m /\ sound_tree n | None, None => True | _, _ => False end.
Proof.
  induction cs as [|c cs IH]; intros a b S H; cbn; auto. inversion H as [n N E1 E2|l l' l'' F P E1 E2]; subst.
  - destruct b as [|l| |]; auto. now destruct (N l).
  - inversion S as [| | |l0 ND HS]; subst. rewrite <- (child_perm c l' l''); auto; [|rewrite <- (forall2_names _ _ F); auto].
    pose proof (child_forall2 c l l' F) as X. destruct (child c l) as [n|] eqn:E, (child c l') as [m|]; try contradiction; auto. apply IH; auto. apply child_In in E; auto. now apply (HS c).
Qed.
Lemma stat_shuffled a b f : sound_tree a -> shuffled a b -> stat_file a f = stat_file b f.
Proof.
  intros S H. unfold stat_file, at_path. pose proof (find_shuffled (norm_comps f) a b S H) as X. destruct (find a (norm_comps f)) as [n|], (find b (norm_comps f)) as [m|]; try contradiction; auto.
  destruct X as [X _]. inversion X; subst; auto.
Qed.
Section Order.
Variable md5 : str -> str.
Hypothesis md5_some : forall c, md5 c <> [].
Variable excluded : list str.
Definition dir_paths (r : node) (q : str) : list str :=
  map (fun rel => replace (rstrip_slashes q) (pjoin (rstrip_slashes q) dot) (fold_left pjoin rel (rstrip_slashes q)))
      (walk excluded (match at_path r (rstrip_slashes q) with Some n => n | None => Broken end) []).
Definition path_result (r : node) (q : str) : option (list (str * str)) :=
  match at_path r q with
  | Some DirLink => Some []
  | Some (Dir _) => if seqb q [slash] then None else Some (flat_map (sum_of md5 r) (dir_paths r q))
  | _ => Some (flat_map (sum_of md5 r) [q])
  end.
Lemma path_result_ok r q p : sane md5 r p -> match path_result r q with
  | None => checksum_path md5 excluded r q p = None
  | Some l => exists p', checksum_path md5 excluded r q p = Some (l, p') /\ sane md5 r p' end.
Proof.
  intros S. assert (X : forall fs, exists p', Some (sum_files md5 r fs p) = Some (flat_map (sum_of md5 r) fs, p') /\ sane md5 r p').
  { intros fs. destruct (sum_files_ok md5 md5_some r fs p S) as [E S']. destruct (sum_files md5 r fs p) as [l p']. cbn [fst snd] in *. subst l. eauto. }
  unfold path_result, checksum_path. destruct (at_path r q) as [[t c|l| |]|]; try apply X; [|eauto]. unfold checksum_dir. destruct (seqb q [slash]); [reflexivity|]. apply (X (dir_paths r q)).
Qed.
Definition result (r : node) (q : str) : list (str * str) := match path_result r q with Some l => l | None => [] end.
Lemma paths_result_ok r : forall qs p, sane md5 r p ->
  (exists q, In q qs /\ path_result r q = None) /\ checksum_paths md5 excluded r qs p = None \/
  (forall q, In q qs -> path_result r q <> None) /\ exists p', checksum_paths md5 excluded r qs p = Some (flat_map (result r) qs, p').
Proof.
  induction qs as [|q qs IH]; intros p S; cbn [checksum_paths flat_map]; [right; split; [intros q []|eauto]|]. pose proof (path_result_ok r q p S) as X. destruct (path_result r q) as [l|] eqn:E.
  - destruct X as (p1 & -> & S1). destruct (IH p1 S1) as [[(q' & I & N) ->]|[H (p2 & ->)]]; [left; split; auto; exists q'; split; auto; now right|]. right. split; [intros q' [<-|I]; [congruence|auto]|]. exists p2. unfold result at 2. now rewrite E.
  - rewrite X. left. split; auto. exists q. split; auto. now left.
Qed.
Lemma result_shuffled a b q : sound_tree a -> shuffled a b -> (path_result a q = None <-> path_result b q = None) /\ Permutation (result a q) (result b q).
Proof.
  intros S H. assert (SE : forall f, sum_of md5 a f = sum_of md5 b f) by (intros f; unfold sum_of, right; now rewrite (stat_shuffled a b _ S H)).
  assert (SF : forall fs, flat_map (sum_of md5 a) fs = flat_map (sum_of md5 b) fs) by (intros fs; now apply flat_map_ext).
  assert (D : Permutation (dir_paths a q) (dir_paths b q)).
  { unfold dir_paths. apply Permutation_map. unfold at_path. pose proof (find_shuffled (norm_comps (rstrip_slashes q)) a b S H) as X. destruct (find a _) as [n|], (find b _) as [m|]; try contradiction; auto. apply walk_shuffled, X. }
  unfold result, path_result, at_path. pose proof (find_shuffled (norm_comps q) a b S H) as X. destruct (find a (norm_comps q)) as [n|], (find b (norm_comps q)) as [m|]; try contradiction.
  - destruct X as [X _]. inversion X as [n' N E1 E2|l l' l'' F P E1 E2]; subst.
    + destruct m as [t c|l| |]; [|now destruct (N l)| |]; rewrite ?SF; split; tauto || apply Permutation_refl.
    + destruct (seqb q [slash]); split; try tauto; try apply Permutation_refl; [split; discriminate|]. rewrite SF. apply Permutation_flat_map, D.
  - rewrite SF. split; [tauto|apply Permutation_refl].
Qed.
Lemma wanted_perm glob glob' : (forall q, Permutation (glob q) (glob' q)) -> forall l fs, all_some (map (wanted glob) l) = Some fs ->
  exists fs', all_some (map (wanted glob') l) = Some fs' /\ Permutation (concat fs) (concat fs').
Proof.
  intros G. induction l as [|x l IH]; intros fs H; cbn [map all_some] in *; [injection H as <-; exists []; auto|]. destruct (wanted glob x) as [w|] eqn:W; [|discriminate].
  destruct (all_some (map (wanted glob) l)) as [fs0|]; [|discriminate]. injection H as <-. destruct (IH fs0 eq_refl) as (fs' & -> & P).
  assert (X : exists w', wanted glob' x = Some w' /\ Permutation w w').
  { unfold wanted in *. destruct (split_on colon x) as [|f [|e r]]; try discriminate. destruct (seqb e (s_ "False")); [injection W as <-; eauto|]. injection W as <-. eexists. split; [reflexivity|]. destruct (existsb (aeqb star) f); auto. }
  destruct X as (w' & -> & PW). exists (w' :: fs'). split; auto. cbn [concat]. now apply Permutation_app.
Qed.
Lemma sums_shuffled glob glob' a b fl p p1 p' l : sound_tree a -> shuffled a b -> (forall q, Permutation (glob q) (glob' q)) -> sane md5 a p -> sane md5 b p1 ->
  get_checksums md5 glob excluded a fl p = Some (l, p') -> exists l' p1', get_checksums md5 glob' excluded b fl p1 = Some (l', p1') /\ Permutation l l'.
Proof.
  intros S H G SA SB E. unfold get_checksums in *. destruct (all_some (map (wanted glob) (items fl))) as [fs|] eqn:W; [|discriminate]. destruct (wanted_perm glob glob' G _ _ W) as (fs' & -> & P).
  destruct (paths_result_ok a (concat fs) p SA) as [[_ X]|[N (q1 & X)]]; rewrite X in E; [discriminate|]. injection E as <- _.
  destruct (paths_result_ok b (concat fs') p1 SB) as [[(q & I & Y) _]|[_ (q2 & ->)]].
  - exfalso. apply (N q); [eapply Permutation_in; [apply Permutation_sym, P|exact I]|]. now apply (result_shuffled a b q S H).
  - eexists. eexists. split; [reflexivity|]. unfold by_checksum. rewrite !sort_le_perm. eapply Permutation_trans; [apply Permutation_flat_map, P|]. apply perm_pointwise. intros q _. now apply result_shuffled.
Qed.
End Order.
