(** C72, C73: the environment a package is built in, and the mounts of its build. *)
From Coq Require Import String Ascii List Bool Arith.
From Verif Require Import Str_Model Str_Proofs Sbuild_Model Sbuild_Spec Sbuild_Proofs.
Import ListNotations.
Open Scope list_scope.

(** * C72 *)
(** A variable gets into the build exactly when it is passed through by name, or else is in the environment of the task, is
    none of the three own variables, and did not start with this value before *)
Theorem build_environment_partial : forall ref e names getvar tail k v, proper_env ref -> proper_env e ->
  (forall k v, In k (split_ws names) -> getvar k = Some v -> var_name k /\ ~ In "'"%char v /\ ~ In "^"%char v) ->
  Forall plain_line tail -> var_name k ->
  given (config ref e names getvar tail) k v <->
  (In k (split_ws names) /\ getvar k = Some v) \/
  (~ (In k (split_ws names) /\ getvar k <> None) /\ In (k, v) e /\ ~ own_var k /\ ~ exists w, In (k, w) ref /\ looks_like_start v w).
Proof.
  intros ref e names getvar tail k v R E P T K. unfold config. rewrite given_ops; [|now apply config_ok|exact K].
  change (fun x : str * str => Export (fst x) (snd x)) with exp.
  rewrite last_app. rewrite (last_app (map Filter filters)). rewrite (last_app (map exp (pt_additions names getvar))).
  assert (NT : forall k w, ~ In (Export k w) (map Echo tail)) by (intros a w I; apply in_map_iff in I; destruct I as (x & X & _); discriminate).
  assert (NF : forall k w, ~ In (Export k w) (map Filter filters)) by (intros a w I; apply in_map_iff in I; destruct I as (x & X & _); discriminate).
  assert (TL := last_no_export (map Echo tail) k v NT). assert (FL := last_no_export (map Filter filters) k v NF).
  rewrite !last_functional.
  2: { intros a b c I J. apply exports_in in I, J; try assumption. exact (nodup_fun e a b c (proj1 E) (proj1 I) (proj1 J)). }
  2: { intros a b c I J. apply pt_in in I, J. destruct I as [_ I], J as [_ J]. congruence. }
  rewrite pt_in, (exports_in ref e k v R E). split.
  - intros [[H|[_ H]]|[N H]].
    + destruct H as [H|[_ H]]; [now destruct TL|now left].
    + now destruct FL.
    + right. split; [|exact H]. intros [I G]. destruct (getvar k) as [w|] eqn:EG; [|congruence]. apply (N w).
      rewrite !in_app_iff. right. left. apply in_exp. apply pt_in. now split.
  - intros [H|[N H]].
    + left. left. right. split; [apply NT|exact H].
    + right. split; [|exact H]. intros w I. rewrite !in_app_iff in I. destruct I as [I|[I|I]]; [now apply NF in I| |now apply NT in I].
      apply in_exp, pt_in in I. destruct I as [I G]. apply N. split; [exact I|congruence].
Qed.
(** What has the value it had before stays out *)
Theorem unchanged_not_exported : forall ref e k v, proper_env ref -> proper_env e -> In (k, v) ref -> ~ In (k, v) (exports ref e).
Proof.
  intros ref e k v R E I H. apply exports_in in H; [|assumption..]. destruct H as (_ & _ & N). apply N. exists v. split; [exact I|].
  apply rmatch_spec, rmatch_refl.
Qed.
(** What was not set before gets in *)
Theorem new_exported : forall ref e k v, proper_env ref -> proper_env e -> In (k, v) e -> ~ own_var k -> ~ In k (map fst ref) ->
  In (k, v) (exports ref e).
Proof.
  intros ref e k v R E I O N. apply exports_in; [assumption..|]. split; [exact I|]. split; [exact O|].
  intros (w & J & _). apply N. apply in_map_iff. exists (k, w). now split.
Qed.
(** What has another value, which the old one does not start with, gets in *)
Theorem changed_exported_partial : forall ref e k v w, proper_env ref -> proper_env e -> In (k, v) e -> ~ own_var k -> In (k, w) ref ->
  ~ In "."%char v -> (forall t, w <> v ++ t) -> In (k, v) (exports ref e).
Proof.
  intros ref e k v w R E I O J D S. apply exports_in; [assumption..|]. split; [exact I|]. split; [exact O|].
  intros (w' & J' & L). rewrite (nodup_fun ref k w' w (proj1 R) J' J) in L. destruct L as (w1 & w2 & -> & F).
  apply (S w2). f_equal. clear - F D. induction F as [|a b v w1 H F IH]; [reflexivity|]. destruct H as [-> | ->].
  - exfalso. apply D. now left.
  - f_equal. apply IH. intros I. apply D. now right.
Qed.
Definition pe (l : list (string * string)) : env := map (fun x => (s_ (fst x), s_ (snd x))) l.
Lemma proper_dec : forall e, NoDup (map fst e) ->
  forallb (fun kv => match fst kv with [] => false | _ => true end && forallb letter (fst kv) &&
    forallb (fun c => negb (existsb (aeqb c) (nl :: s_ "'*[\^$"))) (snd kv) && negb (blank (last (snd kv) "x"%char))) e = true -> proper_env e.
Proof.
  intros e N H. split; [exact N|]. intros k v I. rewrite forallb_forall in H. specialize (H _ I). cbn [fst snd] in H.
  rewrite !andb_true_iff in H. destruct H as [[[A B] C] D]. split; [split|split].
  - now destruct k.
  - now apply Forall_forall, forallb_forall.
  - intros c X Y. rewrite forallb_forall in C. specialize (C c Y). apply negb_true_iff in C.
    assert (Z : existsb (aeqb c) (nl :: s_ "'*[\^$") = true) by (apply existsb_exists; exists c; split; [exact X|apply aeqb_refl]). congruence.
  - intros a c ->. rewrite last_last in D. unfold blank in D. apply negb_true_iff, orb_false_iff in D. now rewrite !aeqb_neq in D.
Qed.
Ltac proper := apply proper_dec; [vm_compute; repeat (constructor; [cbn; intuition discriminate|]); constructor|reflexivity].
Ltac vname := split; [discriminate|]; repeat (constructor; [reflexivity|]); constructor.

(** FULL STATEMENT REFUTED: a variable with a new value is exported.  The lines of the environment are used as patterns for the
    start of a line, so a value that was cut short, such as a PATH with the last directory taken off, counts as unchanged. *)
Theorem changed_exported_refuted : exists ref e k v w, proper_env ref /\ proper_env e /\ In (k, v) e /\ In (k, w) ref /\ v <> w /\
  ~ own_var k /\ exports ref e = [].
Proof.
  exists (pe [("PARALLEL_MAKE", "-j 16")]%string), (pe [("PARALLEL_MAKE", "-j 1")]%string), (s_ "PARALLEL_MAKE"), (s_ "-j 1"), (s_ "-j 16").
  split; [proper|]. split; [proper|]. split; [now left|]. split; [now left|]. split; [discriminate|].
  split; [intros [H|[H|H]]; discriminate|reflexivity].
Qed.
(** FULL STATEMENT REFUTED: only variables of the task are exported.  A value of several lines is read line by line, and a line
    in it that holds an equals sign becomes a variable of the build. *)
Theorem only_variables_exported_refuted : exists e, exports [] e = pe [("NOTE", "first"); ("CC", "evil")]%string /\ map fst e = [s_ "NOTE"].
Proof. exists [(s_ "NOTE", s_ "first" ++ nl :: s_ "CC=evil")]. split; reflexivity. Qed.
(** FULL STATEMENT REFUTED: values are passed on unchanged; blanks at the end are lost *)
Theorem value_kept_refuted : exists e, exports [] e <> e /\ exports [] e = pe [("FLAGS", "-O2")]%string /\ e = pe [("FLAGS", "-O2 ")]%string.
Proof. exists (pe [("FLAGS", "-O2 ")]%string). split; [discriminate|]. split; reflexivity. Qed.
(** Whatever the order of exports and filters: each variable has the value it was given last, and exactly the variables asked
    for pass the filter *)
Theorem last_export_wins : forall os k v,
  Forall (fun o => match o with Export k v => var_name k /\ ~ In "'"%char v /\ ~ In "^"%char v | Filter f => var_name f | Echo l => plain_line l end) os ->
  var_name k ->
  given (do_ops os) k v <-> exists a b, os = a ++ Export k v :: b /\ forall w, ~ In (Export k w) b.
Proof. intros os k v O K. now apply given_ops. Qed.
Theorem filter_exact : forall os f,
  Forall (fun o => match o with Export k v => var_name k /\ ~ In "'"%char v /\ ~ In "^"%char v | Filter f => var_name f | Echo l => plain_line l end) os ->
  passes (do_ops os) f <-> In (Filter f) os.
Proof. intros os f O. now apply passes_ops. Qed.
(** Nine variables pass the filter of a build, and no other *)
Theorem build_filter : forall ref e names getvar tail f, proper_env ref -> proper_env e ->
  (forall k v, In k (split_ws names) -> getvar k = Some v -> var_name k /\ ~ In "'"%char v /\ ~ In "^"%char v) ->
  Forall plain_line tail ->
  passes (config ref e names getvar tail) f <->
  In f (map s_ ["PATH"; "http_proxy"; "HTTP_PROXY"; "https_proxy"; "HTTPS_PROXY"; "ftp_proxy"; "FTP_PROXY"; "no_proxy"; "NO_PROXY"]%string).
Proof.
  intros ref e names getvar tail f R E P T. unfold config. rewrite passes_ops by now apply config_ok.
  change (map s_ _) with filters. rewrite !in_app_iff. split.
  - intros [I|[I|[I|I]]]; apply in_map_iff in I; destruct I as (x & X & I); try discriminate. injection X as <-. exact I.
  - intros I. right. left. now apply in_map.
Qed.
(** The other lines stay, in their order, and the last ones are the last lines of the file *)
Theorem tail_kept : forall ref e names getvar tail, exists ls, config ref e names getvar tail = ls ++ tail.
Proof.
  assert (A : forall tail ls, fold_left do_op (map Echo tail) ls = ls ++ tail).
  { induction tail as [|x tail IH]; intros ls; cbn [map fold_left do_op]; [now rewrite app_nil_r|]. rewrite IH, <- app_assoc. reflexivity. }
  intros. unfold config, do_ops. rewrite !app_assoc, fold_left_app, A. eexists. reflexivity.
Qed.
Definition ref0 : env := pe [("PATH", "/usr/bin:/bin"); ("LANG", "C.UTF-8"); ("HOME", "/root")]%string.
Definition env0 : env := pe [("PATH", "/opt/bin:/usr/bin:/bin"); ("LANG", "C.UTF-8"); ("HOME", "/home/b"); ("CCACHE_DIR", "/ccache")]%string.
Definition getvar0 (k : str) : option str := if seqb k (s_ "CCACHE_DIR") then Some (s_ "/other") else if seqb k (s_ "EXTRA") then Some (s_ "1") else None.
Example build_example :
  proper_env ref0 /\ proper_env env0 /\ plain_line (s_ "$apt_keep_downloaded_packages = 1;") /\
  exports ref0 env0 = pe [("PATH", "/opt/bin:/usr/bin:/bin"); ("CCACHE_DIR", "/ccache")]%string /\
  firstn 5 (config ref0 env0 (s_ "CCACHE_DIR EXTRA UNSET") getvar0 [s_ "$apt_keep_downloaded_packages = 1;"]) =
    map s_ ["$build_environment = {"; "'EXTRA' => '1',"; "'CCACHE_DIR' => '/other',"; "'PATH' => '/opt/bin:/usr/bin:/bin',"; "};"]%string.
Proof.
  split; [proper|]. split; [proper|]. split; [|split; vm_compute; reflexivity].
  repeat split; try (intros t; discriminate). vm_compute. intuition discriminate.
Qed.

(** * C73 *)
(** Mounts are added to what is there: each of them is in the table afterwards, and no line is doubled *)
Theorem mounts_inserted : forall mps fstab, exists new, insert_mounts mps fstab = fstab ++ new /\ NoDup new /\
  (forall mp, In mp mps -> In (mount_line mp) (fstab ++ new)) /\
  (forall l, In l new -> ~ In l fstab /\ exists mp, In mp mps /\ l = mount_line mp).
Proof.
  intros mps fs. destruct (insert_spec mps fs) as (new & E & N & S). exists new. split; [exact E|]. split; [exact N|]. split.
  - intros mp I. rewrite in_app_iff. destruct (mem_str (mount_line mp) fs) eqn:M; [left; now apply mem_str_In|].
    right. apply S. split; [now exists mp|now apply mem_str_false].
  - intros l I. apply S in I. tauto.
Qed.
(** Adding them again changes nothing *)
Theorem mounts_inserted_once : forall mps fstab, insert_mounts mps (insert_mounts mps fstab) = insert_mounts mps fstab.
Proof.
  intros mps fs. destruct (insert_spec mps (insert_mounts mps fs)) as (new & E & _ & S). rewrite E.
  destruct new as [|l new]; [apply app_nil_r|]. exfalso. destruct (proj1 (S l) (or_introl eq_refl)) as [(mp & I & ->) N]. apply N.
  destruct (mounts_inserted mps fs) as (n & -> & _ & A & _). now apply A.
Qed.
(** A mount with a colon names the directory outside before it and the one inside after it *)
Theorem mount_line_exact : forall a b, ~ In ":"%char a -> mount_line (a ++ s_ ":" ++ b) = a ++ s_ " " ++ b ++ s_ " none rw,bind,private 0 0".
Proof.
  intros a b N. unfold mount_line. change (a ++ s_ ":" ++ b) with (a ++ ":"%char :: b).
  rewrite cut_at_some by now apply no_char_of. reflexivity.
Qed.
Theorem mount_line_same : forall a, ~ In ":"%char a -> mount_line a = a ++ s_ " " ++ a ++ s_ " none rw,bind,private 0 0".
Proof. intros a N. unfold mount_line. rewrite cut_at_none by now apply no_char_of. reflexivity. Qed.
(** Removal takes exactly the lines in which a mount's line is found, and so all the mounts *)
Theorem mounts_removed : forall mps fstab l, In l (remove_mounts mps fstab) <->
  In l fstab /\ forall mp a b, In mp mps -> l = a ++ b -> ~ looks_like_start (mount_line mp) b.
Proof.
  intros mps fs l. rewrite remove_in. split; intros [I H]; split; try exact I.
  - intros mp a b J E L. specialize (H mp J). assert (X : rcontains (mount_line mp) l = true) by (apply rcontains_spec; now exists a, b). congruence.
  - intros mp J. destruct (rcontains (mount_line mp) l) eqn:E; [|reflexivity]. apply rcontains_spec in E.
    destruct E as (a & b & E & L). now destruct (H mp a b J E).
Qed.
Theorem mounts_gone : forall mps fstab mp, In mp mps -> ~ In (mount_line mp) (remove_mounts mps fstab).
Proof.
  intros mps fs mp I J. apply remove_in in J. destruct J as [_ J]. specialize (J mp I). now rewrite rcontains_refl in J.
Qed.
(** Removal undoes insertion, unless a line that was there before holds one of the mounts *)
Theorem remove_undoes_insert_partial : forall mps fstab,
  (forall l mp a b, In l fstab -> In mp mps -> l = a ++ b -> ~ looks_like_start (mount_line mp) b) ->
  remove_mounts mps (insert_mounts mps fstab) = fstab.
Proof.
  intros mps fs H. destruct (insert_spec mps fs) as (new & -> & _ & S). rewrite remove_app.
  rewrite (remove_same mps fs).
  2: { intros l mp I J. destruct (rcontains (mount_line mp) l) eqn:E; [|reflexivity]. apply rcontains_spec in E.
       destruct E as (a & b & E & L). now destruct (H l mp a b I J E). }
  destruct (remove_mounts mps new) as [|l r] eqn:R; [apply app_nil_r|]. exfalso.
  assert (I : In l (remove_mounts mps new)) by (rewrite R; now left). apply remove_in in I. destruct I as [I F].
  apply S in I. destruct I as [(mp & I & ->) _]. specialize (F mp I). now rewrite rcontains_refl in F.
Qed.
(** FULL STATEMENT REFUTED: removing the mounts brings the table back.  A line that was in it before, for the same mount, is
    removed too. *)
Theorem remove_undoes_insert_refuted : exists mps fstab, NoDup fstab /\ remove_mounts mps (insert_mounts mps fstab) <> fstab.
Proof.
  exists [s_ "/cache:/cache"], [s_ "/cache /cache none rw,bind,private 0 0"]. split; [repeat constructor; intros []|]. vm_compute. discriminate.
Qed.
(** FULL STATEMENT REFUTED: only the lines of the mounts themselves are removed.  The line is looked for anywhere in a line,
    so the mount of a directory also takes away that of a longer path which ends the same way. *)
Theorem only_own_mounts_removed_refuted : exists mp l, l <> mount_line mp /\ remove_mounts [mp] [l] = [].
Proof. exists (s_ "/cache:/cache"), (s_ "/home/cache /cache none rw,bind,private 0 0"). split; [discriminate|reflexivity]. Qed.
Example mounts_example :
  insert_mounts (map s_ ["/srv/ccache:/ccache"; "/opt"; "/opt:/opt"]%string) (map s_ ["/proc /proc none rw,bind 0 0"]%string) =
    map s_ ["/proc /proc none rw,bind 0 0"; "/srv/ccache /ccache none rw,bind,private 0 0"; "/opt /opt none rw,bind,private 0 0"]%string /\
  remove_mounts (map s_ ["/srv/ccache:/ccache"; "/opt"; "/opt:/opt"]%string)
    (insert_mounts (map s_ ["/srv/ccache:/ccache"; "/opt"; "/opt:/opt"]%string) (map s_ ["/proc /proc none rw,bind 0 0"]%string)) =
    map s_ ["/proc /proc none rw,bind 0 0"]%string.
Proof. split; vm_compute; reflexivity. Qed.

Print Assumptions build_environment_partial.
Print Assumptions filter_exact.
Print Assumptions mounts_inserted.
Print Assumptions remove_undoes_insert_partial.

(** ** Further cases that meet the hypotheses *)
Lemma letters k : k <> [] /\ forallb letter k = true -> var_name k.
Proof. intros [N H]. split; auto. apply Forall_forall. now rewrite forallb_forall in H. Qed.
Example environment_met : forall k v, In k (split_ws (s_ "CCACHE_DIR EXTRA UNSET")) -> getvar0 k = Some v -> var_name k /\ ~ In "'"%char v /\ ~ In "^"%char v.
Proof.
  intros k v I E. assert (K : In k [s_ "CCACHE_DIR"; s_ "EXTRA"; s_ "UNSET"]) by exact I. split.
  - destruct K as [<-|[<-|[<-|[]]]]; apply letters; (split; [discriminate|reflexivity]).
  - destruct K as [<-|[<-|[<-|[]]]]; vm_compute in E; [injection E as <-|injection E as <-|discriminate E]; split; intros J; vm_compute in J; intuition discriminate.
Qed.
Example operations_met : Forall (fun o => match o with Export k v => var_name k /\ ~ In "'"%char v /\ ~ In "^"%char v | Filter f => var_name f | Echo l => plain_line l end)
  [Export (s_ "A") (s_ "1"); Filter (s_ "PATH"); Export (s_ "A") (s_ "2")].
Proof.
  constructor; [|constructor; [|constructor; [|constructor]]].
  - split; [apply letters; split; [discriminate|reflexivity]|]. split; intros [E|[]]; discriminate E.
  - apply letters. split; [discriminate|reflexivity].
  - split; [apply letters; split; [discriminate|reflexivity]|]. split; intros [E|[]]; discriminate E.
Qed.

