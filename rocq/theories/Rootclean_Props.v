(** C45: what is removed as root, and where templates are written. *)
From Coq Require Import Ascii String List Bool Arith Lia.
From Verif Require Import Str_Model Str_Proofs Posix_Model Posix_Proofs Changelog_Proofs Rootclean_Model Rootclean_Spec Rootclean_Proofs.
Import ListNotations.
Open Scope list_scope.

(** Entries inside TMPDIR are accepted, whatever way they are written, and exactly
    those directories are removed, TMPDIR itself excepted, unless a mount is in the way. *)
Theorem removed_exactly_partial tmpdir mounts entries : rooted tmpdir -> place tmpdir <> [] ->
  Forall (fun e => rooted e /\ one_word e /\ inside tmpdir e) entries ->
  exists dirs, check_entries tmpdir entries = Some dirs /\
    match root_cleandirs tmpdir mounts (dirlist dirs) with
    | Some removed => Forall (strictly_inside tmpdir) removed /\
        forall p, In p (map place removed) <-> In p (map place entries) /\ p <> place tmpdir
    | None => exists i m, In i dirs /\ In m mounts /\ mounted i m = true
    end.
Proof.
  intros RT NT F. unfold check_entries. rewrite map_map.
  assert (S : forallb (startswith (normpath tmpdir)) (map normpath entries) = true).
  { apply forallb_forall. intros x X. apply in_map_iff in X. destruct X as (e & <- & I). rewrite Forall_forall in F. destruct (F e I) as (RE & _ & (rest & E)). now apply (cut_inside tmpdir e rest). }
  rewrite S. eexists. split; [reflexivity|]. change (fun x => skipn (length (normpath tmpdir)) (normpath x)) with (cut tmpdir). unfold root_cleandirs.
  rewrite shell_words_dirlist.
  2:{ apply Forall_forall. intros x X. apply in_map_iff in X. destruct X as (e & <- & I). rewrite Forall_forall in F. destruct (F e I) as (RE & W & (rest & E)). now apply (cut_word tmpdir e rest). }
  match goal with |- context [existsb _ ?l] => set (ws := l) end.
  assert (WS : forall i, In i ws <-> exists e rest, In e entries /\ rest <> [] /\ place e = place tmpdir ++ rest /\ i = cut tmpdir e).
  { intros i. unfold ws. rewrite filter_In, in_map_iff. rewrite Forall_forall in F. split.
    - intros [(e & <- & I) N]. destruct (F e I) as (RE & _ & (rest & E)). exists e, rest. split; auto. split; auto. intros ->. destruct (cut_inside tmpdir e [] RT RE NT E) as (_ & C & _). rewrite C in N. discriminate.
    - intros (e & rest & I & N & E & ->). split; [eauto|]. destruct (F e I) as (RE & _ & _). destruct (cut_inside tmpdir e rest RT RE NT E) as (_ & C & _). rewrite C. destruct rest; [congruence|reflexivity]. }
  match goal with |- context [existsb ?f ws] => destruct (existsb f ws) eqn:M end.
  - apply existsb_exists in M. destruct M as (i & I & M). apply existsb_exists in M. destruct M as (m & IM & M). exists i, m. split; auto. unfold ws in I. apply filter_In in I. apply I.
  - split.
    + apply Forall_forall. intros p P. apply in_map_iff in P. destruct P as (i & <- & I). apply WS in I. destruct I as (e & rest & I & N & E & ->). exists rest. split; auto. rewrite Forall_forall in F. destruct (F e I) as (RE & _ & _). destruct (cut_inside tmpdir e rest RT RE NT E) as (_ & _ & C). now rewrite C.
    + intros p. rewrite map_map, !in_map_iff. split.
      * intros (i & <- & I). apply WS in I. destruct I as (e & rest & I & N & E & ->). rewrite Forall_forall in F. destruct (F e I) as (RE & _ & _). destruct (cut_inside tmpdir e rest RT RE NT E) as (_ & _ & C). rewrite C.
        split; [eauto|]. rewrite E. intros X. rewrite <- (app_nil_r (place tmpdir)) in X at 2. apply app_inv_head in X. auto.
      * intros [(e & <- & I) N]. pose proof F as F0. rewrite Forall_forall in F0. destruct (F0 e I) as (RE & _ & (rest & E)). exists (cut tmpdir e). split; [now apply (cut_inside tmpdir e rest)|]. apply WS. exists e, rest. split; auto. split; [|auto]. intros ->. rewrite app_nil_r in E. auto.
Qed.
(** When nothing is removed: some mount point is, or is below, an entry read from the root instead of from TMPDIR. *)
Theorem refused_exactly tmpdir mounts entries dirs : rooted tmpdir -> place tmpdir <> [] ->
  Forall (fun e => rooted e /\ one_word e /\ inside tmpdir e) entries -> check_entries tmpdir entries = Some dirs ->
  (root_cleandirs tmpdir mounts (dirlist dirs) = None <->
   exists e rest m, In e entries /\ place e = place tmpdir ++ rest /\ rest <> [] /\ In m mounts /\
     (m = s_ "/" ++ join (s_ "/") rest \/ exists below, m = s_ "/" ++ join (s_ "/") rest ++ s_ "/" ++ below)).
Proof.
  intros RT NT F C. rewrite Forall_forall in F. unfold check_entries in C. destruct (forallb _ _); [|discriminate]. rewrite map_map in C.
  change (fun x => skipn (length (normpath tmpdir)) (normpath x)) with (cut tmpdir) in C. apply some_inj in C. subst dirs. unfold root_cleandirs. rewrite shell_words_dirlist.
  2:{ apply Forall_forall. intros x X. apply in_map_iff in X. destruct X as (e & <- & I). destruct (F e I) as (RE & W & (rest & E)). now apply (cut_word tmpdir e rest). }
  assert (M : forall i m, mounted i m = true <-> m = i \/ exists below, m = i ++ s_ "/" ++ below).
  { intros i m. unfold mounted. rewrite andb_true_iff, startswith_iff. split.
    - intros [(u & ->) S]. rewrite skipn_app, skipn_all, Nat.sub_diag in S. cbn [skipn app] in S. destruct u as [|c u]; [left; apply app_nil_r|]. right. exists u. unfold is_slash in S. apply aeqb_eq in S. now subst c.
    - intros [->|(below & ->)]; (split; [eexists; first [reflexivity|symmetry; apply app_nil_r]|]); rewrite ?skipn_app, skipn_all, ?Nat.sub_diag; reflexivity. }
  match goal with |- (if ?b then _ else _) = None <-> _ => destruct b eqn:X end.
  - split; [intros _|auto]. apply existsb_exists in X. destruct X as (i & I & X). apply existsb_exists in X. destruct X as (m & IM & X). apply filter_In in I. destruct I as [I N]. apply in_map_iff in I. destruct I as (e & <- & I).
    destruct (F e I) as (RE & _ & (rest & E)). exists e, rest, m. destruct (cut_inside tmpdir e rest RT RE NT E) as (_ & Ce & _). rewrite Ce in *. destruct rest as [|r rest]; [discriminate|]. do 2 (split; auto). split; [discriminate|]. split; auto. apply M in X. cbn [app] in X. exact X.
  - split; [discriminate|]. intros (e & rest & m & I & E & N & IM & B). exfalso. destruct (F e I) as (RE & _ & _). destruct (cut_inside tmpdir e rest RT RE NT E) as (_ & Ce & _).
    assert (existsb (fun i => existsb (mounted i) mounts) (filter (fun d => match d with [] => false | _ => true end) (map (cut tmpdir) entries)) = true) as Y; [|exact (eq_true_false_abs _ Y X)].
    apply existsb_exists. exists (cut tmpdir e). split; [apply filter_In; split; [apply in_map; auto|rewrite Ce; now destruct rest]|]. apply existsb_exists. exists m. split; auto. apply M. rewrite Ce. destruct rest; [congruence|]. exact B.
Qed.
Print Assumptions refused_exactly.
(** An accepted entry is inside TMPDIR or inside a neighbour whose name begins with TMPDIR's name. *)
Theorem accepted_where tmpdir entries dirs : rooted tmpdir -> place tmpdir <> [] -> check_entries tmpdir entries = Some dirs ->
  forall e, In e entries -> inside tmpdir e \/
    exists parent name more rest, more <> [] /\ place tmpdir = parent ++ [name] /\ place e = parent ++ (name ++ more) :: rest.
Proof.
  intros RT NT C e I. unfold check_entries in C. destruct (forallb (startswith (normpath tmpdir)) (map normpath entries)) eqn:S; [|discriminate].
  rewrite forallb_forall in S. specialize (S (normpath e) (in_map _ _ _ I)). assert (RE := normpath_rooted_of_prefix tmpdir e RT NT S).
  apply startswith_iff in S. destruct S as [u S]. rewrite !normpath_rooted in S by auto. cbn [app] in S. apply (f_equal (@tl _)) in S. cbn [tl] in S.
  destruct (prefix_places (place tmpdir) (place e) u) as [H|H]; auto; apply place_names; [apply RT|apply RE].
Qed.
(** The other direction of the check: an entry that is not inside is refused, unless it is in such a neighbour. *)
Corollary outside_refused tmpdir entries e : rooted tmpdir -> place tmpdir <> [] -> In e entries -> ~ inside tmpdir e ->
  (forall parent name more rest, place tmpdir = parent ++ [name] -> place e = parent ++ (name ++ more) :: rest -> more = []) ->
  check_entries tmpdir entries = None.
Proof.
  intros RT NT I NI H. destruct (check_entries tmpdir entries) as [dirs|] eqn:C; auto. exfalso.
  destruct (accepted_where tmpdir entries dirs RT NT C e I) as [X|(p & n & m & r & M & A & B)]; [auto|]. apply M. eapply H; eauto.
Qed.

Example removed_case : clean_as_root (s_ "/build/tmp/") [s_ "/proc"; s_ "/"] [s_ "/build/tmp/work/../a"; s_ "/build//tmp"; s_ "/build/x/../tmp/b/"] = Some [s_ "/build/tmp//a"; s_ "/build/tmp//b"].
Proof. vm_compute. reflexivity. Qed.
Example removed_case_hyps : rooted (s_ "/build/tmp/") /\ place (s_ "/build/tmp/") = [s_ "build"; s_ "tmp"] /\ rooted (s_ "/build/x/../tmp/b/") /\ one_word (s_ "/build/x/../tmp/b/") /\ inside (s_ "/build/tmp/") (s_ "/build/x/../tmp/b/").
Proof.
  assert (RT : forall a, isabs a && negb (initial_slashes a =? 2) = true -> rooted a) by (intros a H; apply andb_true_iff in H; destruct H as [A B]; split; auto; apply negb_true_iff, Nat.eqb_neq in B; auto).
  split; [now apply RT|]. split; [reflexivity|]. split; [now apply RT|]. split; [repeat constructor|]. exists [s_ "b"]. reflexivity.
Qed.
Example refused_case : clean_as_root (s_ "/build/tmp") [] [s_ "/build/tmp/../etc"] = None.
Proof. reflexivity. Qed.

(** ** What does not hold *)
(** Only directories inside TMPDIR are removed: the check compares texts, not directories. *)
Theorem removed_inside_refuted : exists tmpdir entries removed, rooted tmpdir /\ Forall (fun e => rooted e /\ one_word e) entries /\
  clean_as_root tmpdir [] entries = Some removed /\ exists p, In p removed /\ ~ inside tmpdir p.
Proof.
  exists (s_ "/build/tmp"), [s_ "/build/tmp-keep/data"], [s_ "/build/tmp-keep/data"]. split; [split; [reflexivity|discriminate]|]. split; [repeat constructor; discriminate|]. split; [reflexivity|].
  exists (s_ "/build/tmp-keep/data"). split; [now left|]. intros [rest E]. vm_compute in E. discriminate.
Qed.
(** An entry that expands to a text with a blank is split after the check. *)
Theorem blank_entry_refuted : exists tmpdir e removed, rooted tmpdir /\ rooted e /\ inside tmpdir e /\
  clean_as_root tmpdir [] [e] = Some removed /\ exists p, In p removed /\ ~ inside tmpdir p.
Proof.
  exists (s_ "/build/tmp"), (s_ "/build/tmp/a -keep"), [s_ "/build/tmp/a"; s_ "/build/tmp-keep"]. split; [split; [reflexivity|discriminate]|]. split; [split; [reflexivity|discriminate]|]. split; [exists [s_ "a -keep"]; reflexivity|]. split; [reflexivity|].
  exists (s_ "/build/tmp-keep"). split; [right; now left|]. intros [rest E]. vm_compute in E. discriminate.
Qed.
(** A directory with a mount in it is not removed: the mounts are compared with the entry without TMPDIR. *)
Theorem mounted_kept_refuted : exists tmpdir mounts e m, rooted tmpdir /\ inside tmpdir e /\ In m mounts /\ strictly_inside e m /\
  clean_as_root tmpdir mounts [e] = Some [e].
Proof.
  exists (s_ "/build/tmp"), [s_ "/build/tmp/work/rootfs/dev"], (s_ "/build/tmp/work/rootfs"), (s_ "/build/tmp/work/rootfs/dev"). split; [split; [reflexivity|discriminate]|]. split; [exists [s_ "work"; s_ "rootfs"]; reflexivity|]. split; [now left|]. split; [exists [s_ "dev"]; split; [discriminate|reflexivity]|reflexivity].
Qed.
(** And unrelated mounts stop the removal. *)
Theorem unrelated_mount_refuted : exists tmpdir mounts e, rooted tmpdir /\ inside tmpdir e /\ (forall m, In m mounts -> ~ inside tmpdir m) /\ check_entries tmpdir [e] <> None /\ clean_as_root tmpdir mounts [e] = None.
Proof.
  exists (s_ "/build/tmp"), [s_ "/home"], (s_ "/build/tmp/home"). split; [split; [reflexivity|discriminate]|]. split; [exists [s_ "home"]; reflexivity|]. split; [|split; [discriminate|reflexivity]].
  intros m [<-|[]] [rest E]. vm_compute in E. discriminate.
Qed.

(** ** Templates *)
(** A template inside WORKDIR is accepted, and its result is in the same directory. *)
Theorem template_contained_partial workdir file mid name : rooted workdir -> place workdir <> [] -> (isabs file = true -> rooted file) ->
  place (target workdir file) = place workdir ++ mid ++ [name] ->
  exists input output l, template_paths workdir file = Some (input, output) /\
    place input = place workdir ++ mid ++ [name] /\ place output = place workdir ++ mid ++ [l] /\ output_name name l.
Proof.
  intros R N RF E. unfold template_paths. rewrite (template_input workdir file R N RF), E. set (f := slash :: join [slash] (place workdir ++ mid ++ [name])).
  assert (NM : names (place workdir ++ mid ++ [name])).
  { rewrite <- E. apply place_names. unfold target. destruct (isabs file) eqn:A; auto. destruct R as [A' _]. destruct workdir; [discriminate|exact A']. }
  assert (S : startswith (normpath workdir) f = true).
  { apply startswith_iff. exists (slash :: join [slash] (mid ++ [name])). unfold f. rewrite join_app; [|auto|destruct mid; discriminate]. now rewrite normpath_rooted. }
  rewrite S. exists f. destruct (template_output f (place workdir ++ mid) name) as (l & P & O); [now rewrite <- app_assoc| |unfold f; now rewrite <- app_assoc|].
  { destruct (place workdir); [congruence|discriminate]. }
  eexists. exists l. split; [reflexivity|]. split; [now apply place_abs|]. rewrite <- app_assoc in P. auto.
Qed.
Example template_case : template_paths (s_ "/w/x") (s_ "debian/../files/a.conf.tmpl") = Some (s_ "/w/x/files/a.conf.tmpl", s_ "/w/x/files/a.conf").
Proof. vm_compute. reflexivity. Qed.
(** Templates outside of WORKDIR are refused. *)
Theorem template_inside_refuted : exists workdir file i o, rooted workdir /\ template_paths workdir file = Some (i, o) /\ ~ inside workdir o.
Proof.
  exists (s_ "/w/1.0"), (s_ "../1.0-r1/a"), (s_ "/w/1.0-r1/a"), (s_ "/w/1.0-r1/a.out"). split; [split; [reflexivity|discriminate]|]. split; [reflexivity|]. intros [rest E]. vm_compute in E. discriminate.
Qed.
(** The result never replaces its template: it does for a file called ".tmpl", which is emptied before it is read. *)
Theorem template_overwrites_refuted : exists workdir file i, template_paths workdir file = Some (i, i).
Proof. exists (s_ "/w"), (s_ ".tmpl"), (s_ "/w/.tmpl"). reflexivity. Qed.
(** Two templates have different results. *)
Theorem template_collision_refuted : exists workdir f g i j o, i <> j /\ template_paths workdir f = Some (i, o) /\ template_paths workdir g = Some (j, o).
Proof. exists (s_ "/w"), (s_ "a"), (s_ "a.out.tmpl"), (s_ "/w/a"), (s_ "/w/a.out.tmpl"), (s_ "/w/a.out"). split; [discriminate|]. split; reflexivity. Qed.

Print Assumptions removed_exactly_partial.
Print Assumptions accepted_where.
Print Assumptions outside_refused.
Print Assumptions removed_inside_refuted.
Print Assumptions blank_entry_refuted.
Print Assumptions mounted_kept_refuted.
Print Assumptions template_contained_partial.
Print Assumptions template_inside_refuted.
