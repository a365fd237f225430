(** Lemmas on environments. *)
From Coq Require Import Ascii String List Bool Arith Lia.
From Verif Require Import Str_Model Str_Proofs Environ_Model Environ_Spec.
Import ListNotations.
Open Scope list_scope.

(** ** Dictionaries *)
Lemma look_app a b k : look (a ++ b) k = match look a k with Some v => Some v | None => look b k end.
Proof. unfold look. induction a as [|[j w] a IH]; [reflexivity|]. cbn [app find fst]. destruct (seqb j k); [reflexivity|exact IH]. Qed.
Lemma look_cons j w e k : look ((j, w) :: e) k = if seqb j k then Some w else look e k.
Proof. unfold look. cbn [find fst]. destruct (seqb j k); reflexivity. Qed.
Lemma look_filter (P : str -> bool) e k : look (filter (fun x => P (fst x)) e) k = if P k then look e k else None.
Proof.
  induction e as [|[j w] e IH]; [destruct (P k); reflexivity|]. cbn [filter fst]. destruct (P j) eqn:E.
  - rewrite !look_cons, IH. destruct (seqb j k) eqn:S; [apply seqb_eq in S; subst j; rewrite E; reflexivity|reflexivity].
  - rewrite IH, look_cons. destruct (seqb j k) eqn:S; [apply seqb_eq in S; subst j; rewrite E; reflexivity|reflexivity].
Qed.
Lemma look_del e k j : look (del e k) j = if seqb j k then None else look e j.
Proof. unfold del. rewrite (look_filter (fun x => negb (seqb x k))). destruct (seqb j k); reflexivity. Qed.
Lemma look_set e k v j : look (set e k v) j = if seqb j k then Some v else look e j.
Proof.
  unfold set. rewrite look_app, look_del, look_cons. change (look [] j) with (@None str). rewrite (seqb_sym k j). destruct (seqb j k) eqn:E; [reflexivity|]. destruct (look e j); reflexivity.
Qed.
Lemma look_in e k v : look e k = Some v -> In (k, v) e.
Proof. unfold look. destruct (find _ e) as [[j w]|] eqn:F; [|discriminate]. cbn. intro E. injection E as <-. apply find_some in F. destruct F as [I F]. cbn in F. apply seqb_eq in F. subst j. exact I. Qed.
Lemma in_look e k v : proper e -> In (k, v) e -> look e k = Some v.
Proof.
  unfold proper. induction e as [|[j w] e IH]; intros P I; [destruct I|]. cbn [map fst] in P. inversion P as [|? ? N P']; subst. rewrite look_cons.
  destruct I as [E|I]; [injection E as -> ->; rewrite seqb_refl; reflexivity|]. destruct (seqb j k) eqn:S; [|exact (IH P' I)]. apply seqb_eq in S. subst j. exfalso. apply N. change k with (fst (k, v)). apply in_map. exact I.
Qed.
Lemma holds_look e k v : proper e -> holds e k v <-> look e k = Some v.
Proof. intro P. split; [apply in_look; exact P|apply look_in]. Qed.
Lemma look_none e k : look e k = None <-> unset e k.
Proof.
  unfold unset, holds. split.
  - intros L v I. unfold look in L. destruct (find (fun x => seqb (fst x) k) e) eqn:F; [discriminate L|]. apply (find_none _ _ F) in I. cbn in I. rewrite seqb_refl in I. discriminate I.
  - intro H. destruct (look e k) as [v|] eqn:L; [|reflexivity]. exfalso. exact (H v (look_in e k v L)).
Qed.
Lemma proper_filter (P : str * str -> bool) e : proper e -> proper (filter P e).
Proof.
  unfold proper. induction e as [|x e IH]; intro H; [exact H|]. cbn [map] in H. inversion H as [|? ? N H']; subst. cbn [filter]. destruct (P x); [|exact (IH H')]. cbn [map]. constructor; [|exact (IH H')].
  intro I. apply N. apply in_map_iff in I. destruct I as (y & E & I). rewrite <- E. apply in_map. apply filter_In in I. apply I.
Qed.
Lemma proper_set e k v : proper e -> proper (set e k v).
Proof.
  intro P. unfold proper, set. rewrite map_app. cbn [map fst]. assert (Q := proper_filter (fun x => negb (seqb (fst x) k)) e P). fold (del e k) in Q. unfold proper in Q.
  assert (N : ~ In k (map fst (del e k))). { intro I. apply in_map_iff in I. destruct I as ([j w] & E & I). cbn in E. subst j. unfold del in I. apply filter_In in I. destruct I as [_ I]. cbn in I. rewrite seqb_refl in I. discriminate I. }
  induction (map fst (del e k)) as [|x l IH]; [constructor; [intros []|constructor]|]. cbn [app]. inversion Q as [|? ? Nx Q']; subst. constructor; [|apply IH; [exact Q'|intro I; apply N; right; exact I]].
  rewrite in_app_iff. intros [I|[<-|[]]]; [exact (Nx I)|apply N; left; reflexivity].
Qed.
Lemma proper_sets l : forall e, proper e -> proper (fold_left (fun e x => set e (fst x) (snd x)) l e).
Proof. induction l as [|x l IH]; intros e P; [exact P|]. cbn [fold_left]. apply IH, proper_set, P. Qed.
Lemma look_sets l : proper l -> forall e k, look (fold_left (fun e x => set e (fst x) (snd x)) l e) k = match look l k with Some v => Some v | None => look e k end.
Proof.
  unfold proper. induction l as [|[j w] l IH]; intros P e k; [reflexivity|]. cbn [map fst] in P. inversion P as [|? ? N P']; subst. cbn [fold_left fst snd]. rewrite (IH P'), look_set, look_cons.
  destruct (seqb k j) eqn:E.
  - apply seqb_eq in E. subst j. rewrite seqb_refl. destruct (look l k) as [v|] eqn:L; [|reflexivity]. exfalso. apply N. apply look_in in L. change k with (fst (k, v)). apply in_map. exact L.
  - rewrite (seqb_sym j k), E. reflexivity.
Qed.
Lemma has_iff e k : has e k = true <-> ~ unset e k.
Proof. unfold has. rewrite <- look_none. destruct (look e k); split; intro H; [discriminate|reflexivity|discriminate H|exfalso; apply H; reflexivity]. Qed.
Lemma keys_iff e k : In k (keys e) <-> ~ unset e k.
Proof.
  unfold keys. split.
  - intros I U. apply in_map_iff in I. destruct I as ([j v] & E & I). cbn in E. subst j. exact (U v I).
  - intro U. rewrite <- look_none in U. destruct (look e k) as [v|] eqn:L; [|exfalso; apply U; reflexivity]. apply look_in in L. change k with (fst (k, v)). apply in_map. exact L.
Qed.
(** ** What passes *)
Lemma approved_iff e k : proper e -> In k (approved_variables e) <-> passes e k.
Proof.
  intro P. unfold approved_variables, passes. destruct (has e (s_ "BB_PRESERVE_ENV")) eqn:H.
  - rewrite keys_iff. apply has_iff in H. split; [intro K; left; auto|intros [[_ K]|[K _]]; [exact K|exfalso; exact (H K)]].
  - assert (U : unset e (s_ "BB_PRESERVE_ENV")) by (rewrite <- look_none; unfold has in H; destruct (look e _); [discriminate H|reflexivity]).
    cbn zeta. set (base := match look e (s_ "BB_ENV_PASSTHROUGH") with Some v => _ | None => _ end).
    assert (B : In k base <-> (exists v, holds e (s_ "BB_ENV_PASSTHROUGH") v /\ (In k (split_ws v) \/ k = s_ "BB_ENV_PASSTHROUGH")) \/ unset e (s_ "BB_ENV_PASSTHROUGH") /\ In k usual_names).
    { unfold base. destruct (look e (s_ "BB_ENV_PASSTHROUGH")) as [v|] eqn:L.
      - rewrite in_app_iff. split.
        + intros [I|[I|[]]]; left; exists v; (split; [apply look_in; exact L|]); [left; exact I|right; symmetry; exact I].
        + intros [(w & I & J)|[N _]]; [|apply look_none in N; rewrite N in L; discriminate L]. apply (holds_look _ _ _ P) in I. rewrite I in L. injection L as ->. destruct J as [J|J]; [left; exact J|right; left; symmetry; exact J].
      - split; [intro I; right; split; [apply look_none; exact L|exact I]|]. intros [(w & I & _)|[_ I]]; [apply (holds_look _ _ _ P) in I; rewrite I in L; discriminate L|exact I]. }
    destruct (look e (s_ "BB_ENV_PASSTHROUGH_ADDITIONS")) as [v|] eqn:L.
    + assert (A : In k (if mem_str (s_ "BB_ENV_PASSTHROUGH_ADDITIONS") (base ++ split_ws v) then base ++ split_ws v else (base ++ split_ws v) ++ [s_ "BB_ENV_PASSTHROUGH_ADDITIONS"]) <-> In k base \/ In k (split_ws v) \/ k = s_ "BB_ENV_PASSTHROUGH_ADDITIONS").
      { destruct (mem_str _ (base ++ split_ws v)) eqn:M.
        - apply mem_str_In in M. rewrite in_app_iff in *. split; [tauto|]. intros [I|[I|I]]; [auto|auto|]. subst k. exact M.
        - rewrite !in_app_iff. cbn [In]. intuition. }
      rewrite A, B. split.
      * intros [[I|I]|I]; right; (split; [exact U|]); [left; exact I|right; left; exact I|right; right; exists v; split; [apply look_in; exact L|exact I]].
      * intros [[N _]|[_ [I|[I|(w & I & J)]]]]; [exfalso; exact (N U)|auto|auto|]. right. apply (holds_look _ _ _ P) in I. rewrite I in L. injection L as ->. exact J.
    + rewrite B. split.
      * intros [I|I]; right; (split; [exact U|]); auto.
      * intros [[N _]|[_ [I|[I|(w & I & J)]]]]; [exfalso; exact (N U)|auto|auto|]. apply (holds_look _ _ _ P) in I. rewrite I in L. discriminate L.
Qed.
Lemma proper_clean e : proper e -> proper (fst (clean_environment e)).
Proof. intro P. unfold clean_environment, filter_environment. destruct (has e _); [exact P|]. cbn [fst]. apply proper_set, proper_filter, P. Qed.
Lemma proper_sends e : proper e -> proper (sends e).
Proof. intro P. unfold sends. pose proof (proper_clean e P) as Q. destruct (clean_environment e) as [l r]. cbn [fst] in Q. unfold restore. apply proper_sets, Q. Qed.
Lemma look_clean e k : proper e -> unset e (s_ "BB_PRESERVE_ENV") -> look (fst (clean_environment e)) k = if seqb k (s_ "LC_ALL") then Some (s_ "en_US.UTF-8") else if mem_str k (approved_variables e) then look e k else None.
Proof.
  intros P U. unfold clean_environment. apply look_none in U. unfold has. rewrite U. cbn [filter_environment fst]. rewrite look_set. destruct (seqb k _); [reflexivity|]. apply (look_filter (fun x => mem_str x (approved_variables e))).
Qed.
Lemma look_sends e k : proper e -> k <> s_ "LC_ALL" -> look (sends e) k = look e k.
Proof.
  intros P N. unfold sends, clean_environment. destruct (has e (s_ "BB_PRESERVE_ENV")) eqn:H; [reflexivity|]. cbn [filter_environment]. unfold restore.
  rewrite look_sets by (apply proper_filter, P). rewrite look_set, (proj2 (seqb_neq _ _) N), (look_filter (fun x => negb (mem_str x (approved_variables e)))), (look_filter (fun x => mem_str x (approved_variables e))).
  destruct (mem_str k _); cbn [negb]; [reflexivity|]. destruct (look e k); reflexivity.
Qed.
(** The cleaned environment lets the same variables pass. *)
Lemma passes_clean e k : proper e -> passes (fst (clean_environment e)) k <-> passes e k.
Proof.
  intro P. destruct (has e (s_ "BB_PRESERVE_ENV")) eqn:H; [unfold clean_environment; rewrite H; reflexivity|].
  assert (U : unset e (s_ "BB_PRESERVE_ENV")) by (rewrite <- look_none; unfold has in H; destruct (look e _); [discriminate H|reflexivity]).
  set (c := fst (clean_environment e)). assert (PC : proper c) by (apply proper_clean, P).
  assert (K : forall n, n = s_ "BB_PRESERVE_ENV" \/ n = s_ "BB_ENV_PASSTHROUGH" \/ n = s_ "BB_ENV_PASSTHROUGH_ADDITIONS" -> look c n = look e n).
  { intros n N. unfold c. rewrite (look_clean e n P U). destruct (seqb n (s_ "LC_ALL")) eqn:E; [apply seqb_eq in E; subst n; destruct N as [N|[N|N]]; discriminate N|]. destruct (mem_str n (approved_variables e)) eqn:M; [reflexivity|].
    destruct (look e n) as [v|] eqn:L; [|reflexivity]. exfalso. apply mem_str_false in M. apply M. apply (approved_iff e n P). right. split; [exact U|]. apply look_in in L. destruct N as [->|[->| ->]].
    - exfalso. exact (U v L). - left. exists v. auto. - right. right. exists v. auto. }
  assert (H1 : forall n v, n = s_ "BB_PRESERVE_ENV" \/ n = s_ "BB_ENV_PASSTHROUGH" \/ n = s_ "BB_ENV_PASSTHROUGH_ADDITIONS" -> holds c n v <-> holds e n v) by (intros n v N; rewrite !holds_look by assumption; rewrite (K n N); reflexivity).
  assert (H2 : forall n, n = s_ "BB_PRESERVE_ENV" \/ n = s_ "BB_ENV_PASSTHROUGH" \/ n = s_ "BB_ENV_PASSTHROUGH_ADDITIONS" -> unset c n <-> unset e n) by (intros n N; rewrite <- !look_none, (K n N); reflexivity).
  assert (U' : unset c (s_ "BB_PRESERVE_ENV")) by (apply H2; auto).
  unfold passes. rewrite (H2 (s_ "BB_ENV_PASSTHROUGH")) by auto.
  split; (intros [[N _]|[_ [(v & I & J)|[I|(v & I & J)]]]]; [exfalso; auto|right; split; [assumption|left; exists v; split; [apply H1; auto|exact J]]|right; split; [assumption|auto]|right; split; [assumption|right; right; exists v; split; [apply H1; auto|exact J]]]).
Qed.

(** ** The server *)
Lemma inherit_in env perm k v ex : In (k, (v, ex)) (inherit env perm) <-> In (k, v) env /\ In k perm /\ ex = mem_str k preserved_envvars_exported.
Proof.
  unfold inherit. rewrite in_map_iff. split.
  - intros ([j w] & E & I). cbn in E. injection E as <- <- <-. apply filter_In in I. destruct I as [I M]. cbn in M. apply mem_str_In in M. auto.
  - intros (I & M & ->). exists (k, v). split; [reflexivity|]. apply filter_In. split; [exact I|apply mem_str_In; exact M].
Qed.
Lemma same_iff a b : same a b = true <-> a = b.
Proof. destruct a, b; cbn; [rewrite seqb_eq|..]; (split; [intro H; first [discriminate H|subst; reflexivity]|intro H; first [discriminate H|injection H as ->; reflexivity|reflexivity]]). Qed.
Definition process (first : environ) : environ := fst (clean_environment first).
Lemma reflects_inherit first client : proper first -> proper client -> reflects (inherit client (approved_variables (process first))) first client.
Proof.
  intros P C k v ex. rewrite inherit_in, (approved_iff _ k (proper_clean first P)), (passes_clean first k P). unfold holds. split.
  - intros (A & B & ->). split; [exact A|]. split; [exact B|]. rewrite mem_str_In. reflexivity.
  - intros (A & B & E). split; [exact A|]. split; [exact B|]. destruct ex, (mem_str k preserved_envvars_exported) eqn:M; [reflexivity| |exfalso|reflexivity].
    + apply mem_str_false in M. exfalso. apply M. apply E. reflexivity.
    + apply mem_str_In in M. apply E in M. discriminate M.
Qed.
Definition good (first : environ) (sv : server) : Prop :=
  sv_environ sv = process first /\ proper (sv_env sv) /\ reflects (fst (sv_main sv)) first (sv_env sv) /\ Forall (fun b => reflects (fst b) first (sv_env sv)) (sv_mcs sv).
Lemma reflects_same first base a b : proper first -> proper a -> proper b -> (forall k, passes first k -> look a k = look b k) -> reflects base first a -> reflects base first b.
Proof.
  intros P PA PB H R k v ex. rewrite (R k v ex). rewrite !holds_look by assumption. split; intros (A & B & C); (split; [|auto]); [rewrite <- (H k B); exact A|rewrite (H k B); exact A].
Qed.
Lemma good_update first sv o c : proper first -> proper c -> good first sv -> good first (update_config sv o c) /\ sv_env (update_config sv o c) = c /\ snd (sv_main (update_config sv o c)) = c.
Proof.
  intros P PC (E & PE & M & MC). unfold update_config. cbn zeta. destruct (negb o && _) eqn:Q.
  - apply andb_prop in Q. destruct Q as [_ Q]. cbn [sv_environ sv_env sv_main sv_mcs snd]. split; [|auto]. unfold good. cbn [sv_environ sv_env sv_main sv_mcs fst].
    assert (H : forall k, passes first k -> look (sv_env sv) k = look c k). { intros k K. apply same_iff. apply (proj1 (forallb_forall _ _) Q). rewrite E. apply approved_iff; [apply proper_clean, P|]. apply passes_clean; assumption. }
    split; [exact E|]. split; [exact PC|]. split; [exact (reflects_same first _ _ _ P PE PC H M)|]. eapply Forall_impl; [|exact MC]. intros b B. exact (reflects_same first _ _ _ P PE PC H B).
  - unfold parse_config. cbn zeta. cbn [sv_environ sv_env sv_main sv_mcs snd fst]. split; [|auto]. unfold good. cbn [sv_environ sv_env sv_main sv_mcs fst snd]. rewrite E.
    pose proof (reflects_inherit first c P PC) as R. split; [reflexivity|]. split; [exact PC|]. split; [exact R|]. apply Forall_forall. intros b I. apply in_map_iff in I. destruct I as (x & <- & _). exact R.
Qed.
Lemma good_served first mcs clients : proper first -> Forall (fun c => proper (fst c)) clients -> good first (served first mcs clients).
Proof.
  intros P F. unfold served. assert (G : good first (start_server first mcs)).
  { unfold start_server, good. cbn zeta. cbn [sv_environ sv_env sv_main sv_mcs fst]. pose proof (reflects_inherit first [] P (NoDup_nil _)) as R. split; [reflexivity|]. split; [constructor|]. split; [exact R|]. apply Forall_forall. intros b I. apply repeat_spec in I. subst b. exact R. }
  revert G. generalize (start_server first mcs). induction clients as [|[c o] l IH]; intros sv G; [exact G|]. inversion F as [|? ? Pc F']; subst. cbn [fold_left]. apply (IH F'). unfold connect. apply good_update; [exact P|apply proper_sends; exact Pc|exact G].
Qed.

(** ** Tasks *)
Lemma exported_in d k v : In (k, v) (exported_vars d) <-> exists x, In (k, x) d /\ ~ internal k /\ d_export x = true /\ d_unexport x = false /\ d_fails x = false /\ d_value x = Some v.
Proof.
  unfold exported_vars. rewrite in_flat_map. split.
  - intros ([j x] & I & J). cbn [fst snd] in J. destruct (negb (startswith _ j) && d_export x && negb (d_unexport x) && negb (d_fails x)) eqn:Q; [|destruct J]. destruct (d_value x) as [w|] eqn:V; [|destruct J]. destruct J as [J|[]]. injection J as -> ->.
    apply andb_prop in Q. destruct Q as [Q Q4]. apply andb_prop in Q. destruct Q as [Q Q3]. apply andb_prop in Q. destruct Q as [Q1 Q2]. apply negb_true_iff in Q1, Q3, Q4. exists x. repeat (split; [assumption||idtac|]); try assumption.
    intros [r E]. rewrite E, startswith_app in Q1. discriminate Q1.
  - intros (x & I & N & A & B & C & V). exists (k, x). split; [exact I|]. cbn [fst snd]. rewrite A, B, C, V. assert (S : startswith (s_ "__") k = false) by (apply not_true_iff_false; intro S; apply startswith_iff in S; exact (N S)). rewrite S. left. reflexivity.
Qed.
Lemma exported_proper d : NoDup (map fst d) -> proper (exported_vars d).
Proof.
  unfold proper. induction d as [|[k x] d IH]; intro N; [constructor|]. cbn [map fst] in N. inversion N as [|? ? NI N']; subst. specialize (IH N').
  assert (Q : exported_vars ((k, x) :: d) = exported_vars [(k, x)] ++ exported_vars d) by (unfold exported_vars; cbn [flat_map]; rewrite app_nil_r; reflexivity). rewrite Q, map_app.
  assert (S : map fst (exported_vars [(k, x)]) = [] \/ map fst (exported_vars [(k, x)]) = [k]). { unfold exported_vars. cbn [flat_map fst snd]. destruct (_ && _); [|left; reflexivity]. destruct (d_value x); [right|left]; reflexivity. }
  destruct S as [->| ->]; [exact IH|]. cbn [app]. constructor; [|exact IH]. intro I. apply NI. apply in_map_iff in I. destruct I as ([j w] & E & I). cbn in E. subst j. apply exported_in in I. destruct I as (y & I & _). change k with (fst (k, y)). apply in_map. exact I.
Qed.
Lemma dlook_in d k x : NoDup (map fst d) -> dlook d k = Some x <-> In (k, x) d.
Proof.
  unfold dlook. induction d as [|[j y] d IH]; intro N; [split; [discriminate|intros []]|]. cbn [map fst] in N. inversion N as [|? ? NI N']; subst. cbn [find fst]. destruct (seqb j k) eqn:E.
  - apply seqb_eq in E. subst j. cbn. split; [intro H; injection H as ->; left; reflexivity|]. intros [H|I]; [injection H as ->; reflexivity|]. exfalso. apply NI. change k with (fst (k, x)). apply in_map. exact I.
  - rewrite (IH N'). split; [intro I; right; exact I|]. intros [H|I]; [injection H as -> _; rewrite seqb_refl in E; discriminate E|exact I].
Qed.
Lemma add_exports_spec d fake l : forall e e', add_exports d fake l e = Some e' -> (proper e -> proper e') /\
  (forall k, In k l -> exists r, value_now d fake k = Some r) /\
  forall k, look e' k = if mem_str k l then match value_now d fake k with Some (Some v) => Some v | _ => look e k end else look e k.
Proof.
  induction l as [|j l IH]; intros e e' H; [injection H as <-; split; [auto|split; [intros k []|reflexivity]]|]. cbn [add_exports] in H. destruct (value_now d fake j) as [[v|]|] eqn:V; [| |discriminate H].
  - destruct (IH _ _ H) as (A & B & C). split; [intro P; apply A, proper_set, P|]. split; [intros k [<-|I]; [eexists; exact V|exact (B k I)]|]. intro k. rewrite (C k), look_set. cbn [mem_str existsb]. fold (mem_str k l). destruct (seqb k j) eqn:E.
    + apply seqb_eq in E. subst j. cbn [orb]. rewrite V. destruct (mem_str k l); reflexivity.
    + reflexivity.
  - destruct (IH _ _ H) as (A & B & C). split; [exact A|]. split; [intros k [<-|I]; [eexists; exact V|exact (B k I)]|]. intro k. rewrite (C k). cbn [mem_str existsb]. fold (mem_str k l). destruct (seqb k j) eqn:E; [|reflexivity].
    apply seqb_eq in E. subst j. cbn [orb]. rewrite V. destruct (mem_str k l); reflexivity.
Qed.
Lemma add_exports_none d fake l : forall e, add_exports d fake l e = None <-> exists k, In k l /\ value_now d fake k = None.
Proof.
  induction l as [|j l IH]; intro e; [split; [discriminate|intros (k & [] & _)]|]. cbn [add_exports]. destruct (value_now d fake j) as [[v|]|] eqn:V.
  - rewrite IH. split; intros (k & I & N); [exists k; split; [right; exact I|exact N]|]. destruct I as [<-|I]; [rewrite V in N; discriminate N|exists k; auto].
  - rewrite IH. split; intros (k & I & N); [exists k; split; [right; exact I|exact N]|]. destruct I as [<-|I]; [rewrite V in N; discriminate N|exists k; auto].
  - split; [intros _; exists j; split; [left; reflexivity|exact V]|reflexivity].
Qed.
Lemma set_fakes vars : NoDup (map fst vars) -> forall e b, (forall k, In k (map fst vars) -> ~ In k (map fst b)) ->
  exists b', snd (fold_left set_fake vars (e, b)) = b ++ b' /\ map fst b' = map fst vars /\ (forall k o, In (k, o) b' -> o = look e k) /\
  forall k, ~ In k (map fst vars) -> look (fst (fold_left set_fake vars (e, b))) k = look e k.
Proof.
  induction vars as [|[j w] vars IH]; intros N e b D; [exists []; rewrite app_nil_r; cbn; split; [reflexivity|split; [reflexivity|split; [intros k o []|reflexivity]]]|].
  cbn [map fst] in N, D. inversion N as [|? ? NI N']; subst. cbn [fold_left set_fake fst snd].
  assert (F : filter (fun y : str * option str => negb (seqb (fst y) j)) b = b). { assert (NJ : ~ In j (map fst b)) by (apply D; left; reflexivity). clear - NJ. induction b as [|[k o] b IH]; [reflexivity|]. cbn [filter fst]. rewrite (proj2 (seqb_neq k j)) by (intro E; apply NJ; left; exact E). cbn [negb]. rewrite IH; [reflexivity|]. intro I. apply NJ. right. exact I. }
  rewrite F. destruct (IH N' (set e j w) (b ++ [(j, look e j)])) as (b' & E & M & V & L).
  - intros k I J. rewrite map_app, in_app_iff in J. cbn in J. destruct J as [J|[J|[]]]; [exact (D k (or_intror I) J)|]. subst k. exact (NI I).
  - exists ((j, look e j) :: b'). split; [rewrite E, <- app_assoc; reflexivity|]. split; [cbn; rewrite M; reflexivity|]. split.
    + intros k o [Q|I]; [injection Q as <- <-; reflexivity|]. rewrite (V k o I), look_set. destruct (seqb k j) eqn:S; [|reflexivity]. apply seqb_eq in S. subst k. exfalso. apply NI. rewrite <- M. change j with (fst (j, o)). apply in_map. exact I.
    + intros k K. cbn in K. rewrite (L k) by tauto. rewrite look_set, (proj2 (seqb_neq k j)) by (intro S; apply K; left; symmetry; exact S). reflexivity.
Qed.
Lemma put_backs b : NoDup (map fst b) -> forall e k, look (fold_left put_back b e) k = match find (fun x => seqb (fst x) k) b with Some x => snd x | None => look e k end.
Proof.
  induction b as [|[j o] b IH]; intros N e k; [reflexivity|]. cbn [map fst] in N. inversion N as [|? ? NI N']; subst. cbn [fold_left]. rewrite (IH N'). cbn [find fst]. destruct (seqb j k) eqn:E.
  - apply seqb_eq in E. subst j. destruct (find (fun x => seqb (fst x) k) b) as [[i w]|] eqn:F.
    + exfalso. apply find_some in F. destruct F as [I F]. cbn in F. apply seqb_eq in F. subst i. apply NI. change k with (fst (k, w)). apply in_map. exact I.
    + unfold put_back. cbn [fst snd]. destruct o as [v|]; [rewrite look_set, seqb_refl; reflexivity|rewrite look_del, seqb_refl; reflexivity].
  - destruct (find _ b); [reflexivity|]. unfold put_back. cbn [fst snd]. destruct o as [v|]; [rewrite look_set|rewrite look_del]; rewrite (seqb_sym k j), E; reflexivity.
Qed.
