(** Theorems on the script of a task. *)
From Coq Require Import Ascii String List Bool Arith Lia.
From Verif Require Import Str_Model Str_Proofs Emit_Model Emit_Spec Emit_Proofs.
Import ListNotations.
Open Scope list_scope.

(** ** C161: values reach the shell *)
(** Between the quotation marks of the script, a shell reads the value, with spaces for line
    ends, exactly if the value is tame. *)
Theorem script_value : forall v rest, quoted (quote v ++ mark :: rest) = Some (one_line v, rest) <-> tame v.
Proof.
  intros v rest. split; [|apply quoted_tame]. intro H. apply quoted_length in H. destruct H as [_ H]. apply H. unfold one_line. apply map_length.
Qed.
(** The first part of the script sets the exported variables, removes the unexported ones, and
    does nothing else; PWD stays as it is. *)
Theorem script_environment : forall d f cwd, usual d -> exists vars rest, script d f cwd = Some (vars ++ [nl] ++ rest) /\
  forall e, exists e', runs vars e = Some e' /\
    (forall n, left_out n -> e' n = e n) /\ (forall n, ~ left_out n -> n <> s_ "PWD" -> e' n = says d n e) /\
    ((forall v, In (s_ "PWD", v) d -> v_unexport v = false) -> e' (s_ "PWD") = e (s_ "PWD")).
Proof.
  intros d f cwd U. destruct (emit_func_all d f (proj1 U)) as (l & E & _). exists (emit_variables (without_pwd d)). eexists. unfold script. rewrite E. split; [rewrite <- !app_assoc; reflexivity|].
  intro e. destruct (variables_run d U e) as (e' & R & S). exists e'. split; [exact R|]. split; [intros n L; apply S, L|]. split.
  - intros n L P. rewrite (proj2 (S n) L), !says_get. cbn zeta. rewrite without_get, (proj2 (seqb_neq _ _) P). reflexivity.
  - intro P. destruct (S (s_ "PWD")) as [_ S2]. rewrite S2.
    + rewrite says_get. cbn zeta. rewrite without_get, seqb_refl. cbn [unexported v_func v_unexport v_export]. destruct (v_func _); [reflexivity|].
      destruct (v_unexport (get d (s_ "PWD"))) eqn:V; [|reflexivity]. exfalso. rewrite (P (get d (s_ "PWD"))) in V; [discriminate V|]. apply get_some. intro Z. rewrite Z in V. discriminate V.
    + intros [(r & Z)|(c & I & J)]; [discriminate Z|]. cbn in I, J. repeat (destruct I as [<-|I]; [intuition discriminate|]). destruct I.
Qed.
(** ** C162: functions of the script *)
(** The script defines the function and every shell function it uses, directly or not, each of
    the latter once, and calls the function in the end. *)
Theorem script_functions : forall d f cwd, NoDup (map fst d) -> (forall n, n = f \/ used d f n -> writable d n) ->
  exists vars defs l, script d f cwd = Some (vars ++ [nl] ++ concat (map snd defs) ++ (match cwd with Some p => s_ "cd '" ++ p ++ s_ "'" ++ [nl] | None => [] end) ++ f ++ [nl]) /\
    map fst defs = f :: l /\ NoDup l /\ (forall n, In n l <-> used d f n) /\ (forall n t, In (n, t) defs -> defines d n t) /\
    (usual d -> forall e, exists e', runs vars e = Some e').
Proof.
  intros d f cwd ND W. destruct (emit_func_all d f ND) as (l & E & NL & U). exists (emit_variables (without_pwd d)), (map (fun n => (n, emit_line (without_pwd d) n)) (f :: l)), l. unfold script. rewrite E.
  split; [rewrite map_map; cbn [map concat snd]; rewrite <- !app_assoc; reflexivity|]. split; [rewrite map_map; apply map_id|]. split; [exact NL|]. split; [exact U|]. split.
  - intros n t I. apply in_map_iff in I. destruct I as (m & X & I). injection X as <- <-. apply line_defines; [exact ND|]. apply W. destruct I as [<-|I]; [left; reflexivity|right; apply U; exact I].
  - intros US e. destruct (variables_run d US e) as (e' & R & _). exists e'. exact R.
Qed.

(** A task with two functions that call each other, variables of all kinds *)
Definition plain (v : str) (ex : bool) : var := mkVar (Some v) None false false ex false [] [].
Definition func (v : str) (deps : list str) : var := mkVar (Some v) None true false false false (s_ "line: 1, file: x.bb") deps.
Definition demo : data :=
  [(s_ "do_build", func (s_ "  helper" ++ [nl]) [s_ "helper"; s_ "echo"]); (s_ "helper", func (s_ "  other x") [s_ "other"]); (s_ "other", func (s_ "  helper") [s_ "helper"; s_ "pyfunc"]);
   (s_ "unused", func (s_ "  :") []); (s_ "pyfunc", mkVar (Some (s_ "pass")) None true true false false [] [s_ "unused"]);
   (s_ "CC", plain (s_ "gcc -D""A=$B"" a\b") true); (s_ "B", plain (s_ "x`y`\") false); (s_ "PWD", plain (s_ "/x") true); (s_ "TWO", plain (s_ "a" ++ [nl] ++ s_ "b") true);
   (s_ "GONE", mkVar None None false false false true [] []); (s_ "A-B", plain (s_ "q") true)].
Lemma tame_lit v : forallb (fun c => negb (aeqb c "`"%char)) v = true -> (forall a b, v = a ++ "\"%char :: b -> exists c r, b = c :: r /\ ~ In c (s_ "\""$")) -> tame v.
Proof. intros A B. split; [|exact B]. intro I. apply (proj1 (forallb_forall _ _) A) in I. discriminate I. Qed.
Example demo_usual : usual demo.
Proof.
  split; [repeat constructor; cbn; intuition discriminate|]. intros n v I F X. cbn in I.
  repeat (destruct I as [I|I]; [injection I as <- <-; try discriminate F; try (destruct X as [X|X]; discriminate X);
    (split; [reflexivity|]; split; [first [left; reflexivity|right; right; exists "-"%char; cbn; auto 10]|]; split; [intros r Z; discriminate Z|]; intros t Z; first [discriminate Z|injection Z as <-; apply (proj1 (script_value _ [])); vm_compute; reflexivity])|]).
  destruct I.
Qed.
Definition demo_env : env := fun n => if seqb n (s_ "PWD") then Some (s_ "/here") else if seqb n (s_ "GONE") then Some (s_ "1") else None.
Example demo_runs : option_map (fun e => (e (s_ "CC"), e (s_ "B"), e (s_ "PWD"), e (s_ "TWO"), e (s_ "GONE"))) (runs (emit_variables (without_pwd demo)) demo_env)
  = Some (Some (s_ "gcc -D""A=$B"" a\b"), None, Some (s_ "/here"), Some (s_ "a b"), None).
Proof. vm_compute. reflexivity. Qed.
Example demo_writable : forall n, n = s_ "do_build" \/ used demo (s_ "do_build") n -> writable demo n.
Proof.
  assert (ND : NoDup (map fst demo)) by apply demo_usual.
  assert (W : forall n, In n [s_ "do_build"; s_ "helper"; s_ "other"] -> writable demo n).
  { intros n I. cbn in I. destruct I as [<-|[<-|[<-|[]]]].
    - eexists. eexists. split; [left; reflexivity|]. repeat (split; [reflexivity|]). split; [cbn; intuition (subst; discriminate)|intros r Z; discriminate Z].
    - eexists. eexists. split; [right; left; reflexivity|]. repeat (split; [reflexivity|]). split; [cbn; intuition (subst; discriminate)|intros r Z; discriminate Z].
    - eexists. eexists. split; [right; right; left; reflexivity|]. repeat (split; [reflexivity|]). split; [cbn; intuition (subst; discriminate)|intros r Z; discriminate Z]. }
  intros n [->|U]; apply W; [left; reflexivity|].
  assert (D : forall g v, In g [s_ "do_build"; s_ "helper"; s_ "other"] -> In (g, v) demo -> forall m, In m (v_deps v) -> shell_function demo m -> In m [s_ "do_build"; s_ "helper"; s_ "other"]).
  { intros g v G I m J K. apply (is_shell_iff demo m ND) in K. pose proof (get_in demo g v ND I) as E. rewrite <- E in J. cbn in G. destruct G as [<-|[<-|[<-|[]]]]; vm_compute in J; repeat (destruct J as [<-|J]; [first [discriminate K|cbn; auto 10]|]); destruct J. }
  induction U as [v m I J K|g v m U IHU I J K]; [apply (D (s_ "do_build") v (or_introl eq_refl) I m J K)|apply (D g v IHU I m J K)].
Qed.
Example demo_script : script demo (s_ "do_build") (Some (s_ "/b")) =
  Some (concat (map (fun l => l ++ [nl])
    [s_ "export CC=""gcc -D\""A=\$B\"" a\b"""; s_ "unset GONE"; s_ "export TWO=""a \"; s_ "b"""; [];
     s_ "# line: 1, file: x.bb"; s_ "do_build() {"; s_ "  helper"; s_ "}"; []; s_ "# line: 1, file: x.bb"; s_ "helper() {"; s_ "  other x"; s_ "}"; [];
     s_ "# line: 1, file: x.bb"; s_ "other() {"; s_ "  helper"; s_ "}"; []; s_ "cd '/b'"; s_ "do_build"])).
Proof. vm_compute. reflexivity. Qed.

(** Refuted: an exported value arrives as it is.  A line end becomes a space. *)
Theorem script_newline_refuted : exists d v e', In (s_ "A", plain v true) d /\ runs (emit_variables d) (fun _ => None) = Some e' /\ e' (s_ "A") = Some (s_ "a b") /\ v <> s_ "a b".
Proof. exists [(s_ "A", plain (s_ "a" ++ [nl] ++ s_ "b") true)]. eexists. eexists. split; [left; reflexivity|]. split; [vm_compute; reflexivity|]. split; [reflexivity|discriminate]. Qed.
(** Refuted: an exported value without a line end arrives as it is.  Of two backslashes one is
    left. *)
Theorem script_backslash_refuted : exists d v e', In (s_ "A", plain v true) d /\ v = s_ "a\\b" /\ runs (emit_variables d) (fun _ => None) = Some e' /\ e' (s_ "A") = Some (s_ "a\b").
Proof. exists [(s_ "A", plain (s_ "a\\b") true)]. eexists. eexists. split; [left; reflexivity|]. split; [reflexivity|]. split; [vm_compute; reflexivity|reflexivity]. Qed.
(** Refuted: a value does not change others.  A backslash at the end takes away the closing
    quotation mark: the text of the next variable is executed. *)
Theorem script_end_refuted : exists d, (forall n v, In (n, v) d -> v_export v = true /\ sh_name n = true) /\
  emit_variables d = s_ "export A=""a\""" ++ [nl] ++ s_ "export B=""; rm x ;""" ++ [nl] /\
  (forall r, quoted (skipn 10 (emit_variables d)) = Some r -> snd r = s_ "; rm x ;""" ++ [nl]) /\ forall e, runs (emit_variables d) e = None.
Proof.
  exists [(s_ "A", plain (s_ "a\") true); (s_ "B", plain (s_ "; rm x ;") true)]. split; [intros n v I; cbn in I; destruct I as [I|[I|[]]]; injection I as <- <-; auto|]. split; [vm_compute; reflexivity|]. split; [|intro e; vm_compute; reflexivity].
  intros r E. vm_compute in E. injection E as <-. reflexivity.
Qed.
(** Refuted: values are not executed.  A backquote is written as it is. *)
Theorem script_backquote_refuted : exists d, In (s_ "A", plain (s_ "`rm x`") true) d /\ emit_variables d = s_ "export A=""`rm x`""" ++ [nl] /\ forall e, runs (emit_variables d) e = None.
Proof. exists [(s_ "A", plain (s_ "`rm x`") true)]. split; [left; reflexivity|]. split; [vm_compute; reflexivity|intro e; vm_compute; reflexivity]. Qed.
(** Refuted: a variable that cannot be expanded is only a comment in the script.  The message
    of ExpansionError has two lines (bitbake/lib/bb/data_smart.py 195-197); the second one is
    executed. *)
Theorem script_failure_refuted : exists exc d, exc = s_ "ExpansionError: Failure expanding variable A, expression was ${@x} which triggered exception NameError: name 'x' is not defined" ++ [nl] ++ s_ "The variable dependency chain for the failure is: A -> B" /\
  In (s_ "A", mkVar None (Some exc) false false true false [] []) d /\ (exists a b, emit_variables d = a ++ [nl] ++ s_ "The variable dependency chain for the failure is: A -> B" ++ b) /\ forall e, runs (emit_variables d) e = None.
Proof.
  eexists. eexists [(s_ "A", _)]. split; [reflexivity|]. split; [left; reflexivity|]. split; [|intro e; vm_compute; reflexivity].
  exists (s_ "# expansion of A threw ExpansionError: Failure expanding variable A, expression was ${@x} which triggered exception NameError: name 'x' is not defined"), [nl]. vm_compute. reflexivity.
Qed.
(** Refuted: every exported name is left out or accepted by a shell.  That of a variable with
    an override is written, and the shell stops there. *)
Theorem script_override_refuted : exists d, In (s_ "A:arm", plain (s_ "1") true) d /\ ~ left_out (s_ "A:arm") /\ emit_variables d = s_ "export A:arm=""1""" ++ [nl] /\ forall e, runs (emit_variables d) e = None.
Proof.
  exists [(s_ "A:arm", plain (s_ "1") true)]. split; [left; reflexivity|]. split; [|split; [vm_compute; reflexivity|intro e; vm_compute; reflexivity]].
  intros [(r & Z)|(c & I & J)]; [discriminate Z|]. cbn in I, J. repeat (destruct I as [<-|I]; [intuition discriminate|]). destruct I.
Qed.
(** Refuted: every function that is used is defined.  One with a dash in its name is left out,
    without a message. *)
Theorem script_dash_refuted : exists d t, used d (s_ "do_build") (s_ "get-it") /\ script d (s_ "do_build") None = Some t /\ contains_sub (s_ "get-it() {") t = false /\ contains_sub (s_ "get-it x") t = true.
Proof.
  exists [(s_ "do_build", func (s_ "  get-it x") [s_ "get-it"]); (s_ "get-it", func (s_ "  :") [])]. eexists. split.
  - eapply used_direct; [left; reflexivity|left; reflexivity|]. eexists. split; [right; left; reflexivity|split; reflexivity].
  - split; [vm_compute; reflexivity|]. split; vm_compute; reflexivity.
Qed.
Print Assumptions script_value.
Print Assumptions script_environment.
Print Assumptions script_functions.
