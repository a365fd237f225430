(** C102: which targets are built in which configuration, and with which task. *)
From Coq Require Import String Ascii List Bool Arith Lia.
From Verif Require Import Str_Model Str_Proofs Targets_Model Targets_Spec Targets_Proofs.
Import ListNotations.
Open Scope list_scope.

Lemma one_conf_good mcs l : Forall (one_conf mcs) l -> Forall (fun r => (forall c, r_conf r = Some c -> ~ In colon c) /\ In (conf_of r) mcs) l /\ Forall (fun r => forall c, r_conf r = Some c -> plain c) l.
Proof.
  intros H. rewrite !Forall_forall in *. split; intros r R; specialize (H r R); unfold one_conf, conf_of in *; destruct (r_conf r) as [c|].
  - destruct H as [[NC _] I]. split; auto. intros d [= <-]. auto.
  - split; auto. discriminate.
  - destruct H as [P _]. intros d [= <-]. auto.
  - discriminate.
Qed.

(** Requests that name one configuration each: every one is built there, with the task it names or else the task of the
    command, and nothing else is built. *)
Theorem targets_as_asked : forall mcs world universe task l, Forall good l -> Forall (one_conf mcs) l ->
  targets mcs world universe task (map text l) = Some (map (meaning (do_prefix task)) l).
Proof.
  intros mcs world universe task l G O. destruct (one_conf_good mcs l O) as [A B]. unfold targets. rewrite check_same by auto. unfold full_list.
  rewrite <- (app_nil_r (map text l)), expand_plain by auto. cbn [expand app orb seqb negb]. rewrite andb_false_r, app_nil_r. now apply parse_all_good.
Qed.

(** A configuration that does not exist stops the build. *)
Theorem unknown_conf_stops : forall mcs world universe task l r c, Forall good l -> (forall r' c', In r' l -> r_conf r' = Some c' -> plain c') ->
  In r l -> r_conf r = Some c -> ~ In c mcs -> targets mcs world universe task (map text l) = None.
Proof.
  intros mcs world universe task l r c G P I E N. unfold targets. rewrite check_same by auto. unfold full_list.
  assert (P' : Forall (fun r => forall c, r_conf r = Some c -> plain c) l) by (apply Forall_forall; intros q Q d; now apply P).
  rewrite <- (app_nil_r (map text l)), expand_plain by auto. cbn [expand app orb seqb negb]. rewrite andb_false_r, app_nil_r.
  apply in_split in I. destruct I as (a & b & ->). rewrite map_app, parse_all_app. cbn [map parse_all].
  rewrite parse_target_unknown; [now destruct (parse_all _ _ _)| | |].
  - rewrite Forall_forall in G. apply G. apply in_or_app. right. now left.
  - intros d D. apply (P r d); auto. apply in_or_app. right. now left.
  - unfold conf_of. now rewrite E.
Qed.

(** One request for all configurations, and no request for a named configuration after it: it is built in every named
    configuration with its task.  In the default configuration it is built only if all other requests name a
    configuration, and then with the task of the command. *)
Theorem wildcard_exact_partial : forall mcs world universe task a r b,
  Forall good (a ++ r :: b) -> Forall (one_conf mcs) a -> every_conf r -> Forall (fun q => r_conf q = None) b -> In [] mcs -> Forall plain mcs ->
  targets mcs world universe task (map text (a ++ r :: b)) =
  Some (map (meaning (do_prefix task)) a ++
        map (fun mc => (mc, r_name r, task_of (do_prefix task) r)) (filter (fun mc => match mc with [] => false | _ => true end) mcs) ++
        map (meaning (do_prefix task)) b ++
        (if existsb bare (a ++ b) then [] else [([], r_name r, do_prefix task)])).
Proof.
  intros mcs world universe task a r b G A W B D PM. destruct (one_conf_good mcs a A) as [A1 A2]. unfold targets. rewrite check_same by auto. unfold full_list.
  assert (Ga : Forall good a) by (apply Forall_app in G; tauto). assert (Gr : good r) by (apply Forall_app in G; destruct G as [_ G]; now inversion G). assert (Gb : Forall good b) by (apply Forall_app in G; destruct G as [_ G]; now inversion G).
  rewrite map_app. rewrite expand_plain by auto. cbn [map expand app orb]. unfold every_conf in W. change (s_ "*") with [star] in W.
  rewrite (names_conf_some r _ W), (text_split r [star] W) by (intros [H|[]]; discriminate). cbn [nth]. rewrite seqb_refl, (rest_split r Gr). cbn [nth].
  assert (M : mem_str [] mcs = true) by now apply mem_str_In. rewrite M, expand_bare by auto.
  assert (NE : seqb (r_name r) [] = false) by (destruct Gr as (_ & NE & _); destruct (r_name r); [congruence|reflexivity]). rewrite NE. cbn [negb]. rewrite andb_true_r.
  rewrite !parse_all_app. rewrite parse_all_good by auto.
  set (named := filter (fun mc => match mc with [] => false | _ => true end) mcs).
  assert (X : parse_all mcs (do_prefix task) (map (fun mc => replace_char star mc (text r)) named) = Some (map (fun mc => (mc, r_name r, task_of (do_prefix task) r)) named)).
  { rewrite (map_ext_in _ (fun mc => text (within mc r))) by (intros mc _; now apply replace_text). rewrite <- map_map. rewrite parse_all_good.
    - rewrite map_map. f_equal.
    - apply Forall_forall. intros q Q. apply in_map_iff in Q. destruct Q as (mc & <- & _). exact Gr.
    - apply Forall_forall. intros q Q. apply in_map_iff in Q. destruct Q as (mc & <- & MC). unfold named in MC. apply filter_In in MC. destruct MC as [MC _]. split; [|exact MC]. cbn. intros c [= <-]. rewrite Forall_forall in PM. now apply (PM mc). }
  rewrite X. rewrite parse_all_good.
  2: auto.
  2:{ apply Forall_forall. intros q Q. rewrite Forall_forall in B. specialize (B q Q). unfold conf_of. rewrite B. split; [discriminate|exact D]. }
  rewrite existsb_app. destruct (existsb bare a || existsb bare b); cbn [negb].
  - cbn [parse_all]. now rewrite !app_nil_r, <- app_assoc.
  - assert (Y : parse_all mcs (do_prefix task) [r_name r] = Some [([], r_name r, do_prefix task)]).
    { assert (Z := parse_target_good mcs task (Build_request None (r_name r) None)). unfold text, meaning, conf_of, task_of in Z. cbn [r_conf r_name r_task app] in Z. rewrite app_nil_r in Z.
      cbn [parse_all]. rewrite Z; auto; [|discriminate]. destruct Gr as (g1 & g2 & g3 & _). split; [exact g1|]. split; [exact g2|]. split; [exact g3|]. discriminate. }
    rewrite Y. now rewrite <- !app_assoc.
Qed.

(** ** Examples *)
Definition req (c : option string) (n : string) (t : option string) : request :=
  Build_request (option_map s_ c) (s_ n) (option_map s_ t).
Definition confs : list str := [[]; s_ "qemuarm"; s_ "qemuamd64"].
Definition nothing (mc : str) : list str := [].
Definition plainb (s : str) : bool := forallb (fun c => negb (aeqb c colon) && negb (aeqb c star)) s.
Lemma plainb_plain s : plainb s = true -> plain s.
Proof.
  unfold plainb. rewrite forallb_forall. intros H. split; intros I; specialize (H _ I); discriminate H.
Qed.
Definition goodb (r : request) : bool :=
  plainb (r_name r) && negb (mem_str (r_name r) [[]; s_ "world"; s_ "universe"; s_ "multiconfig"]) &&
  match r_task r with None => true | Some t => plainb t && negb (startswith (s_ "do_") t) end.
Lemma goodb_good r : goodb r = true -> good r.
Proof.
  unfold goodb. rewrite !andb_true_iff, negb_true_iff, mem_str_false. intros [[P N] T]. split; [now apply plainb_plain|].
  split; [intros E; apply N; rewrite E; now left|]. split; [intros I; apply N; now right|]. intros t E. rewrite E in T. apply andb_true_iff in T. destruct T as [A B].
  split; [now apply plainb_plain|]. intros u ->. rewrite startswith_app in B. discriminate.
Qed.
Definition one_confb (mcs : list str) (r : request) : bool := match r_conf r with None => mem_str [] mcs | Some c => plainb c && mem_str c mcs end.
Lemma one_confb_ok mcs r : one_confb mcs r = true -> one_conf mcs r.
Proof. unfold one_confb, one_conf. destruct (r_conf r); [rewrite andb_true_iff, mem_str_In; intros [A B]; split; auto; now apply plainb_plain|apply mem_str_In]. Qed.
Lemma all_by {A} (f : A -> bool) (P : A -> Prop) l : (forall a, f a = true -> P a) -> forallb f l = true -> Forall P l.
Proof. intros H F. rewrite forallb_forall in F. apply Forall_forall. auto. Qed.
Definition asked : list request := [req (Some "qemuarm") "image" None; req None "hello" (Some "fetch"); req (Some "") "tool" (Some "clean")]%string.
Example asked_met : Forall good asked /\ Forall (one_conf confs) asked /\ map text asked = [s_ "mc:qemuarm:image"; s_ "hello:do_fetch"; s_ "mc::tool:do_clean"].
Proof.
  split; [|split; [|reflexivity]].
  - apply (all_by goodb good); [exact goodb_good|reflexivity].
  - apply (all_by (one_confb confs) (one_conf confs)); [apply one_confb_ok|reflexivity].
Qed.
Example asked_built : targets confs nothing nothing (s_ "build") (map text asked) = Some
  [(s_ "qemuarm", s_ "image", s_ "do_build"); ([], s_ "hello", s_ "do_fetch"); ([], s_ "tool", s_ "do_clean")].
Proof. vm_compute. reflexivity. Qed.
Example wildcard_met : Forall good [req (Some "qemuarm") "image" None; req (Some "*") "tool" None]%string /\ Forall (one_conf confs) [req (Some "qemuarm") "image" None]%string /\ every_conf (req (Some "*") "tool" None)%string /\ Forall plain confs /\
  targets confs nothing nothing (s_ "do_build") [s_ "mc:qemuarm:image"; s_ "mc:*:tool"] = Some
  [(s_ "qemuarm", s_ "image", s_ "do_build"); (s_ "qemuarm", s_ "tool", s_ "do_build"); (s_ "qemuamd64", s_ "tool", s_ "do_build"); ([], s_ "tool", s_ "do_build")].
Proof.
  split; [|split; [|split; [reflexivity|split; [|vm_compute; reflexivity]]]].
  - apply (all_by goodb good); [exact goodb_good|reflexivity].
  - apply (all_by (one_confb confs) (one_conf confs)); [apply one_confb_ok|reflexivity].
  - apply (all_by plainb plain); [apply plainb_plain|reflexivity].
Qed.

(** ** What does not hold *)
(** A request for all configurations with a task: in the default configuration the task is forgotten, and the task of
    the command runs instead (build instead of clean). *)
Theorem wildcard_task_refuted : exists mcs task r l, good r /\ every_conf r /\ In [] mcs /\ Forall plain mcs /\
  targets mcs nothing nothing task [text r] = Some l /\ ~ In ([], r_name r, task_of (do_prefix task) r) l /\ In ([], r_name r, do_prefix task) l.
Proof.
  exists confs, (s_ "build"), (req (Some "*") "tool" (Some "clean"))%string. eexists.
  split; [now apply goodb_good|].
  split; [reflexivity|]. split; [now left|]. split; [apply wildcard_met|]. split; [vm_compute; reflexivity|]. split; [cbn; intuition discriminate|cbn; auto].
Qed.
(** With a further target that names no configuration, the default configuration is left out. *)
Theorem wildcard_default_refuted : exists mcs task r q l, good r /\ good q /\ every_conf r /\ r_conf q = None /\ In [] mcs /\ Forall plain mcs /\
  targets mcs nothing nothing task [text r; text q] = Some l /\ forall t, ~ In ([], r_name r, t) l.
Proof.
  exists confs, (s_ "build"), (req (Some "*") "tool" None)%string, (req None "hello" None)%string. eexists.
  split; [now apply goodb_good|]. split; [now apply goodb_good|].
  split; [reflexivity|]. split; [reflexivity|]. split; [now left|]. split; [apply wildcard_met|]. split; [vm_compute; reflexivity|]. cbn. intuition discriminate.
Qed.
(** A target for one configuration after a target for all is refused, before it, it is not. *)
Theorem wildcard_order_matters_refuted : exists mcs task r q, good r /\ good q /\ every_conf r /\ one_conf mcs q /\
  targets mcs nothing nothing task [text r; text q] = None /\ targets mcs nothing nothing task [text q; text r] <> None.
Proof.
  exists confs, (s_ "build"), (req (Some "*") "tool" None)%string, (req (Some "qemuarm") "hello" None)%string.
  split; [now apply goodb_good|]. split; [now apply goodb_good|].
  split; [reflexivity|]. split; [split; [split; cbn; intuition discriminate|cbn; auto]|]. split; [vm_compute; reflexivity|vm_compute; discriminate].
Qed.

(** World stands for all targets of all configurations *)
Theorem world_everywhere : forall mcs world universe task a b,
  Forall good (a ++ b) -> Forall (one_conf mcs) (a ++ b) -> Forall plain mcs -> In [] mcs ->
  (forall mc t, In mc mcs -> In t (world mc) -> plain t /\ t <> [] /\ ~ In t [s_ "world"; s_ "universe"; s_ "multiconfig"]) ->
  targets mcs world universe task (map text a ++ s_ "world" :: map text b) =
  Some (map (meaning (do_prefix task)) (a ++ b) ++ flat_map (fun mc => map (fun t => (mc, t, do_prefix task)) (world mc)) mcs).
Proof.
  intros mcs world universe task a b G O PM D W.
  set (as_req := fun mc t => Build_request (match mc with [] => None | _ => Some mc end) t None).
  assert (T : forall mc t, in_conf mc t = text (as_req mc t)).
  { intros mc t. unfold in_conf, text, as_req. cbn [r_conf r_name r_task]. destruct mc; rewrite app_nil_r; [reflexivity|]. now rewrite <- !app_assoc. }
  set (ws := flat_map (fun mc => map (as_req mc) (world mc)) mcs).
  assert (TW : flat_map (fun mc => map (in_conf mc) (world mc)) mcs = map text ws).
  { unfold ws. clear -T. induction mcs as [|mc mcs IH]; auto. cbn [flat_map]. rewrite map_app, IH, map_map. f_equal. apply map_ext. intros t. apply T. }
  assert (WI : forall q, In q ws -> exists mc t, In mc mcs /\ In t (world mc) /\ q = as_req mc t).
  { intros q Q. unfold ws in Q. apply in_flat_map in Q. destruct Q as (mc & MC & Q). apply in_map_iff in Q. destruct Q as (t & <- & Tt). eauto. }
  assert (GW : Forall good ws).
  { apply Forall_forall. intros q Q. destruct (WI q Q) as (mc & t & MC & Tt & ->). destruct (W mc t MC Tt) as (X & Y & Z). split; [exact X|]. split; [exact Y|]. split; [exact Z|]. discriminate. }
  assert (OW : Forall (one_conf mcs) ws).
  { apply Forall_forall. intros q Q. destruct (WI q Q) as (mc & t & MC & Tt & ->). unfold one_conf, as_req. cbn [r_conf]. rewrite Forall_forall in PM. specialize (PM mc MC). destruct mc; auto. }
  assert (CP : check_packages mcs world universe (map text a ++ s_ "world" :: map text b) = map text ((a ++ b) ++ ws)).
  { unfold check_packages.
    assert (NW : forall w r, In w [s_ "world"; s_ "universe"] -> good r -> text r <> w).
    { intros w r Iw Gr. apply not_word; auto.
      - destruct Iw as [<-|[<-|[]]]; cbn; intuition discriminate.
      - intros E. destruct Gr as (_ & _ & N & _). apply N. rewrite E. destruct Iw as [<-|[<-|[]]]; cbn; auto.
      - intros u E. destruct Iw as [<-|[<-|[]]]; discriminate. }
    rewrite respell_same.
    2:{ apply Forall_app in G. destruct G as [Ga Gb]. apply Forall_app. split; [|constructor; [reflexivity|]]; apply Forall_forall; intros k K; apply in_map_iff in K; destruct K as (r & <- & R); apply not_respelled; rewrite Forall_forall in *; auto. }
    assert (RM : remove_word (s_ "world") (map text a ++ s_ "world" :: map text b) = map text (a ++ b)).
    { apply Forall_app in G. destruct G as [Ga _]. rewrite map_app. clear -Ga NW. induction Ga as [|r a Gr Ga IH]; cbn [map app remove_word]; [reflexivity|].
      destruct (seqb (text r) (s_ "world")) eqn:E; [apply seqb_eq in E; exfalso; apply (NW (s_ "world") r); cbn; auto|]. now rewrite IH. }
    unfold unfold_word at 2. assert (M : mem_str (s_ "world") (map text a ++ s_ "world" :: map text b) = true) by (apply mem_str_In; apply in_or_app; right; now left).
    rewrite M, RM, TW, <- map_app. unfold unfold_word. assert (U : mem_str (s_ "universe") (map text ((a ++ b) ++ ws)) = false).
    { apply mem_str_false. intros I. apply in_map_iff in I. destruct I as (r & E & R). revert E. apply NW; [cbn; auto|]. assert (GG : Forall good ((a ++ b) ++ ws)) by (apply Forall_app; auto). rewrite Forall_forall in GG. auto. }
    now rewrite U. }
  assert (X := targets_as_asked mcs world universe task ((a ++ b) ++ ws)). unfold targets in *. rewrite CP. rewrite check_same in X by (apply Forall_app; auto).
  rewrite X by (apply Forall_app; auto). rewrite map_app. f_equal. f_equal. unfold ws. clear. induction mcs as [|mc mcs IH]; auto. cbn [flat_map]. rewrite map_app, IH, map_map. f_equal. apply map_ext. intros t. unfold meaning, conf_of, as_req, task_of. cbn. now destruct mc.
Qed.
Definition some_world (mc : str) : list str := if seqb mc (s_ "qemuarm") then [s_ "hello"; s_ "image"] else match mc with [] => [s_ "hello"] | _ => [] end.
Example world_met : (forall mc t, In mc confs -> In t (some_world mc) -> plain t /\ t <> [] /\ ~ In t [s_ "world"; s_ "universe"; s_ "multiconfig"]) /\
  targets confs some_world nothing (s_ "build") [s_ "tool"; s_ "world"] = Some [([], s_ "tool", s_ "do_build"); ([], s_ "hello", s_ "do_build"); (s_ "qemuarm", s_ "hello", s_ "do_build"); (s_ "qemuarm", s_ "image", s_ "do_build")].
Proof.
  split; [|vm_compute; reflexivity]. intros mc t M I. assert (E : t = s_ "hello" \/ t = s_ "image").
  { destruct M as [<-|[<-|[<-|[]]]]; cbn in I; intuition. }
  destruct E as [-> | ->]; (split; [split; cbn; intuition discriminate|split; [discriminate|cbn; intuition discriminate]]).
Qed.

(** Only the prefix "mc:" selects a configuration: a target that starts otherwise is built in the default one. *)
Theorem other_prefix_default : forall mcs world universe task k, (forall u, k <> s_ "mc:" ++ u) -> (forall u, k <> s_ "multiconfig:" ++ u) ->
  k <> s_ "world" -> k <> s_ "universe" -> In [] mcs ->
  exists name t, targets mcs world universe task [k] = Some [([], name, t)].
Proof.
  intros mcs world universe task k M1 M2 W U D.
  assert (S1 : startswith (s_ "mc:") k = false). { destruct (startswith (s_ "mc:") k) eqn:E; auto. apply startswith_iff in E. destruct E as (u & E). now destruct (M1 u). }
  assert (S2 : startswith (s_ "multiconfig:") k = false). { destruct (startswith (s_ "multiconfig:") k) eqn:E; auto. apply startswith_iff in E. destruct E as (u & E). now destruct (M2 u). }
  assert (C : check_packages mcs world universe [k] = [k]).
  { unfold check_packages, respell. cbn [fold_left]. rewrite S2. unfold unfold_word at 2.
    assert (X : mem_str (s_ "world") [k] = false) by (apply mem_str_false; intros [E|[]]; auto). rewrite X. unfold unfold_word.
    assert (Y : mem_str (s_ "universe") [k] = false) by (apply mem_str_false; intros [E|[]]; auto). now rewrite Y. }
  assert (N : names_conf k = false) by (unfold names_conf; now rewrite S1). unfold targets, full_list. rewrite C. cbn [expand]. rewrite N. cbn [negb andb app parse_all].
  unfold parse_target. rewrite N. assert (X : mem_str [] mcs = true) by now apply mem_str_In. rewrite X.
  destruct (cut_sub (s_ ":do_") k) as [[a b]|]; eauto.
Qed.
Example other_prefix_met : targets confs nothing nothing (s_ "build") [s_ "mcu:qemuarm:tool"] = Some [([], s_ "mcu:qemuarm:tool", s_ "do_build")].
Proof. vm_compute. reflexivity. Qed.

Print Assumptions targets_as_asked.
Print Assumptions unknown_conf_stops.
Print Assumptions wildcard_exact_partial.
Print Assumptions wildcard_task_refuted.
Print Assumptions wildcard_default_refuted.
Print Assumptions wildcard_order_matters_refuted.
Print Assumptions world_everywhere.
Print Assumptions other_prefix_default.
