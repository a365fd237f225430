(** C18: permissions of the hash equivalence server. *)
From Coq Require Import Ascii String List Bool Arith Lia.
From Verif Require Import Str_Model Str_Proofs Hashperm_Model Hashperm_Spec Hashperm_Proofs.
Import ListNotations.
Open Scope list_scope.

(** C18: in every state a server can reach, a database command is executed exactly
    if the server has it and the anonymous permissions, or the permissions of the
    user the connection is logged in as, cover what it needs *)
Theorem perm_executed_iff_covered : forall an ro us s0 es c k,
  start an ro us = Some s0 ->
  let s := snd (run s0 es) in
  (exists b, snd (handle s c (Data k)) = Executed b) <->
  (ro = false \/ in_readonly k = true) /\
  ((forall p, In p (needs (kind_of k)) -> In p an) \/
   exists u, session s c = Some u /\ covers (perms u) (needs (kind_of k))).
Proof.
  intros an ro us s0 es c k S s. apply start_spec in S. destruct S as (SA & SR & _ & AA & _).
  destruct (run_const es s0) as [RA RR]. fold s in RA, RR.
  assert (R : required k = needs (kind_of k)) by (destruct k; reflexivity).
  cbn [handle]. rewrite RR, SR. destruct (ro && negb (in_readonly k)) eqn:O.
  - apply andb_true_iff in O. destruct O as [-> O]. apply negb_true_iff in O. split.
    + intros (b & H). discriminate.
    + intros [[H|H] _]; congruence.
  - assert (O' : ro = false \/ in_readonly k = true).
    { destruct ro; auto. right. cbn in O. apply negb_false_iff in O. auto. }
    destruct (user_has_permissions s (session s c) (required k) true) eqn:P.
    + apply has_anon in P; [|rewrite RA, SA; auto]. rewrite R, RA, SA in P. split; auto. intros _. cbn. eauto.
    + split; [intros (b & H); discriminate|]. intros [_ H]. exfalso.
      assert (Q : user_has_permissions s (session s c) (required k) true = true).
      { apply has_anon; [rewrite RA, SA; auto|]. rewrite R, RA, SA. auto. }
      congruence.
Qed.

(** ... and a report is stored exactly if reporting is allowed as well *)
Theorem perm_report_stored_iff : forall an ro us s0 es c,
  start an ro us = Some s0 ->
  let s := snd (run s0 es) in
  let ok ps := (forall p, In p ps -> In p an) \/ exists u, session s c = Some u /\ covers (perms u) ps in
  snd (handle s c (Data CReport)) = Executed true <-> ro = false /\ ok [s_ "@read"] /\ ok [s_ "@report"].
Proof.
  intros an ro us s0 es c S s ok. apply start_spec in S. destruct S as (SA & SR & _ & AA & _).
  destruct (run_const es s0) as [RA RR]. fold s in RA, RR.
  assert (HA : forall ps, user_has_permissions s (session s c) ps true = true <-> ok ps).
  { intros ps. rewrite has_anon by (rewrite RA, SA; auto). rewrite RA, SA. reflexivity. }
  cbn [handle]. rewrite RR, SR. cbn [in_readonly negb]. rewrite andb_false_r.
  rewrite <- (HA [s_ "@read"]), <- (HA [s_ "@report"]). change [s_ "@read"] with (required CReport).
  change [s_ "@report"] with [REPORT_PERM].
  destruct (user_has_permissions s (session s c) (required CReport) true); cbn [snd].
  - destruct (user_has_permissions s (session s c) [REPORT_PERM] true), ro; cbn; split; auto; intuition discriminate.
  - split; [discriminate|]. intuition discriminate.
Qed.

(** The user of a connection is the one of its last login: an accepted "auth" with
    the token stored for that user, or an accepted "become" of an administrator;
    the permissions are those stored at that time *)
Theorem perm_session_from_login : forall an ro us s0 es c u,
  start an ro us = Some s0 -> session (snd (run s0 es)) c = Some u ->
  exists es1 r es2, es = es1 ++ (c, r) :: es2 /\
    let s1 := snd (run s0 es1) in
    snd (handle s1 c r) = Done /\ In u (users s1) /\
    (r = Auth (name u) (token u) \/
     (r = BecomeUser (name u) /\ exists y, session s1 c = Some y /\ administrator y)).
Proof.
  intros an ro us s0 es c u S H. apply start_spec in S. destruct S as (_ & _ & _ & _ & N).
  destruct (run_session es s0 c u (N c) H) as (es1 & r & es2 & -> & D & L & R). exists es1, r, es2.
  split; auto. split; auto. split; auto. apply lookup_in in L. tauto.
Qed.

(** C18, second half: a connection whose user is no administrator never changes the
    permissions of anyone, creates no user, and touches the token or the existence
    of no other user *)
Theorem perm_no_escalation : forall s c r,
  (forall u, session s c = Some u -> ~ administrator u) ->
  let us' := users (fst (handle s c r)) in
  (forall x', In x' us' -> exists x, In x (users s) /\ name x = name x' /\ perms x = perms x' /\
     (token x = token x' \/ exists u, session s c = Some u /\ name u = name x)) /\
  (forall x, In x (users s) -> In x us' \/ exists u, session s c = Some u /\ name u = name x).
Proof. exact handle_users. Qed.

(** Over whole histories: if no registered user is an administrator, then whatever
    requests arrive on whatever connections, no user and no session ever holds other
    permissions than the registered ones *)
Theorem perm_no_escalation_history : forall an ro us s0 es,
  start an ro us = Some s0 -> (forall x, In x us -> ~ administrator x) ->
  let s := snd (run s0 es) in
  (forall x, In x (users s) -> exists x0, In x0 us /\ name x0 = name x /\ perms x0 = perms x) /\
  (forall c x, session s c = Some x -> exists x0, In x0 us /\ name x0 = name x /\ perms x0 = perms x).
Proof.
  intros an ro us s0 es S NA s. apply start_spec in S. destruct S as (_ & _ & U & _ & N).
  apply (within_run us es s0 NA). split.
  - rewrite U. intros x I. exists x. auto.
  - intros c x E. rewrite N in E. discriminate.
Qed.

Definition alice := mkUser (s_ "alice") [s_ "@read"; s_ "@report"] (s_ "ta").
Definition root := mkUser (s_ "root") [s_ "@all"] (s_ "tr").
Definition bob := mkUser (s_ "bob") [s_ "@db-admin"] (s_ "tb").

Example perm_case : exists s0, start [s_ "@read"] false [alice; root; bob] = Some s0 /\
  map snd (fst (run s0 [(1, Data CGet); (1, Data CRemove); (1, Auth (s_ "alice") (s_ "bad")); (1, Data CEquiv);
     (1, Auth (s_ "alice") (s_ "ta")); (1, Data CEquiv); (1, SetPerms (s_ "alice") [s_ "@all"]); (1, RefreshToken None (s_ "x"));
     (1, RefreshToken (Some (s_ "bob")) (s_ "y")); (2, Auth (s_ "alice") (s_ "ta")); (3, Auth (s_ "root") (s_ "tr"));
     (3, BecomeUser (s_ "alice")); (3, Data CRemove)])) =
  [Executed false; Denied; Error; Denied; Done; Executed true; Denied; Done; Denied; Error; Done; Done; Denied].
Proof. eexists. split; [reflexivity|]. vm_compute. auto. Qed.
Example perm_no_admin_case : (forall x, In x [alice; bob] -> ~ administrator x) /\
  start [s_ "@read"; s_ "@none"] true [alice; bob] <> None /\ start [s_ "@all"] true [alice] = None.
Proof.
  split; [|split; [discriminate|reflexivity]]. intros x [<-|[<-|[]]] [H|H]; cbn in H; intuition discriminate.
Qed.

(** The permissions of a logged in user are the ones read at login: withdrawing
    them, or deleting the user, does not stop connections that are already logged
    in (651, 776) *)
Theorem perm_revocation_ignored_refuted : exists an us s0 es c,
  start an false us = Some s0 /\
  let s := snd (run s0 es) in
  lookup (users s) (s_ "bob") = None /\ ~ In (s_ "@db-admin") an /\
  map snd (fst (run s0 es)) = [Done; Done; Done; Done] /\
  session s c = Some bob /\ snd (handle s c (Data CRemove)) = Executed false.
Proof.
  exists [s_ "@read"], [root; bob]. eexists.
  exists [(1, Auth (s_ "bob") (s_ "tb")); (2, Auth (s_ "root") (s_ "tr")); (2, SetPerms (s_ "bob") [s_ "@none"]);
          (2, DeleteUser (Some (s_ "bob")))], 1.
  split; [reflexivity|]. vm_compute. repeat split; auto. intros [H|[]]. discriminate.
Qed.

Print Assumptions perm_executed_iff_covered.
Print Assumptions perm_session_from_login.
Print Assumptions perm_no_escalation_history.

(** C18: user names stay unique in every history, and no request to create a user
    touches a user that exists. *)
Lemma update_names : forall us n f, (forall u, name (f u) = name u) -> map name (update us n f) = map name us.
Proof.
  intros us n f H. unfold update. rewrite map_map. apply map_ext. intros u. destruct (seqb (name u) n); auto.
Qed.
Lemma delete_nodup : forall us n, NoDup (map name us) -> NoDup (map name (delete us n)).
Proof.
  induction us as [|u us IH]; intros n N; auto. inversion N; subst. cbn [delete filter].
  destruct (seqb (name u) n); cbn [negb]; [apply IH; auto|]. cbn [map]. constructor; [|apply IH; auto].
  intros I. apply H1. apply in_map_iff in I. destruct I as (x & E & I). apply filter_In in I. rewrite <- E. apply in_map. tauto.
Qed.
Lemma lookup_none_in : forall us n, lookup us n = None -> ~ In n (map name us).
Proof.
  intros us n L I. apply in_map_iff in I. destruct I as (x & E & I). unfold lookup in L.
  apply (find_none _ _ L) in I. rewrite E, seqb_refl in I. discriminate.
Qed.
Lemma NoDup_snoc : forall (l : list str) x, NoDup l -> ~ In x l -> NoDup (l ++ [x]).
Proof.
  induction l as [|y l IH]; intros x N I; cbn [app]; [constructor; auto|]. inversion N; subst. constructor.
  - intros J. apply in_app_or in J. destruct J as [J|[<-|[]]]; auto. apply I. left. auto.
  - apply IH; auto. intros J. apply I. right. auto.
Qed.
Lemma handle_nodup : forall s c r, NoDup (map name (users s)) -> NoDup (map name (users (fst (handle s c r)))).
Proof.
  intros s c r N. destruct r; cbn [handle]; unfold as_self_or_admin, as_admin;
  repeat match goal with
  | |- context [if ?b then _ else _] => destruct b eqn:?
  | |- context [match ?x with _ => _ end] => destruct x eqn:?
  end; cbn [fst users with_users login]; auto;
  try (rewrite update_names by (intros; reflexivity); auto); try (apply delete_nodup; auto).
  rewrite map_app. cbn [map name]. apply NoDup_snoc; auto. apply lookup_none_in. auto.
Qed.
Theorem perm_user_names_unique : forall an ro us s0 es,
  start an ro us = Some s0 -> NoDup (map name us) -> NoDup (map name (users (snd (run s0 es)))).
Proof.
  intros an ro us s0 es S N. apply start_spec in S. destruct S as (_ & _ & <- & _). revert s0 N.
  induction es as [|[c r] es IH]; intros s0 N; auto. rewrite run_cons_snd. apply IH, handle_nodup; auto.
Qed.

(** C18: what creating a user does: it succeeds exactly for an administrator on a
    server that is not read-only, with known permissions and an unused name; then
    there is one more user, with these permissions and this token; all others are as
    before.  Otherwise nothing changes. *)
Theorem perm_new_user_exact : forall s c n ps fresh,
  let s' := fst (handle s c (NewUser n ps fresh)) in
  (snd (handle s c (NewUser n ps fresh)) = Done <->
     read_only s = false /\ (exists u, session s c = Some u /\ administrator u) /\
     (forall x, In x (users s) -> name x <> n) /\
     (forall p, In p ps -> In p (map s_ ["@none"; "@read"; "@report"; "@db-admin"; "@user-admin"; "@all"]%string))) /\
  (snd (handle s c (NewUser n ps fresh)) = Done ->
     exists x, users s' = users s ++ [x] /\ name x = n /\ token x = fresh /\
       (forall p, In p (perms x) <-> In p ps /\ p <> s_ "@none")) /\
  (snd (handle s c (NewUser n ps fresh)) <> Done -> s' = s).
Proof.
  intros s c n ps fresh. cbn [handle].
  assert (AD := has_admin s (session s c)).
  assert (LK : lookup (users s) n = None <-> (forall x, In x (users s) -> name x <> n)).
  { split.
    - intros L x I E. subst. apply lookup_none_in in L. apply L. now apply in_map.
    - intros H. destruct (lookup (users s) n) as [x|] eqn:L; auto. apply lookup_in in L. destruct L as [I E]. exfalso. eapply H; eauto. }
  assert (PF : forall p, In p (filter (fun p => negb (seqb p NONE_PERM)) ps) <-> In p ps /\ p <> NONE_PERM).
  { intros p. rewrite filter_In, negb_true_iff. destruct (seqb p NONE_PERM) eqn:E.
    - apply seqb_eq in E. subst. split; [intros [_ ?]; discriminate|intros [_ ?]; congruence].
    - split; intros [I _]; split; auto. intros ->. rewrite seqb_refl in E. discriminate. }
  assert (PA : get_perm_arg ps = None \/ get_perm_arg ps = Some (filter (fun p => negb (seqb p NONE_PERM)) ps)).
  { unfold get_perm_arg. destruct (forallb _ _); auto. }
  assert (PK : get_perm_arg ps <> None <->
    (forall p, In p ps -> In p (map s_ ["@none"; "@read"; "@report"; "@db-admin"; "@user-admin"; "@all"]%string))).
  { unfold get_perm_arg. destruct (forallb _ _) eqn:FB.
    - split; [|discriminate]. intros _ p I. rewrite forallb_forall in FB. destruct (seqb p NONE_PERM) eqn:E.
      + apply seqb_eq in E. subst. left. reflexivity.
      + right. assert (M := FB p). rewrite PF in M. rewrite mem_str_In in M. apply M. split; auto.
        intros ->. rewrite seqb_refl in E. discriminate.
    - split; [congruence|]. intros H. exfalso. apply Bool.not_true_iff_false in FB. apply FB. apply forallb_forall.
      intros p I. apply PF in I. destruct I as [I N]. apply H in I. destruct I as [I|I]; [exfalso; apply N; symmetry; exact I|].
      apply mem_str_In. exact I. }
  destruct (read_only s) eqn:RO.
  { split; [split; [discriminate|intros [? _]; discriminate]|]. split; [discriminate|reflexivity]. }
  unfold as_admin. destruct (user_has_permissions s (session s c) [USER_ADMIN_PERM] false) eqn:UH.
  2:{ split; [|split; [discriminate|reflexivity]]. split; [discriminate|]. intros (_ & A & _). apply AD in A. congruence. }
  destruct PA as [PA|PA]; rewrite PA.
  { split; [|split; [discriminate|reflexivity]]. split; [discriminate|]. intros (_ & _ & _ & P). apply PK in P. congruence. }
  destruct (lookup (users s) n) as [x|] eqn:L.
  { split; [|split; [discriminate|reflexivity]]. split; [discriminate|]. intros (_ & _ & P & _). apply LK in P. discriminate. }
  cbn [fst snd]. split; [|split].
  - split; auto. intros _. repeat apply conj; auto.
    + apply AD; auto.
    + apply LK; auto.
    + apply PK. rewrite PA. discriminate.
  - intros _. eexists. split; [reflexivity|]. cbn [name token perms]. auto.
  - congruence.
Qed.
Print Assumptions perm_user_names_unique.
Print Assumptions perm_new_user_exact.
