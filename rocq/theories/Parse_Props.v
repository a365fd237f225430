(** C77: lines of configuration files and recipes; C78: assignments and
    directives; C79: the operators; C80: inclusion. *)
From Coq Require Import Ascii String List Bool Arith Lia.
From Verif Require Import Str_Model Str_Proofs Posix_Model Search_Model Data_Model Data_Spec Data_Proofs Data_Props Parse_Model Parse_Spec Parse_Proofs.
Import ListNotations.
Open Scope list_scope.

(** ** C77 *)
(** Blank lines and comments do not matter, and a statement may be broken
    anywhere: both kinds of files yield exactly the texts of their statements. *)
Theorem conf_layout : forall l, Forall proper l -> conf_lines (concat (map item_lines l)) = Some (concat (map item_texts l)).
Proof. apply (items_lines (conf_go None) eq_refl conf_item). Qed.
Theorem bb_layout : forall l, Forall proper l -> bb_lines (concat (map item_lines l)) = Some (concat (map item_texts l)).
Proof. apply (items_lines (bb_go []) eq_refl bb_item). Qed.
(** So two files with the same statements have the same meaning, whatever their layout. *)
Theorem layout_irrelevant : forall l l', Forall proper l -> Forall proper l' ->
  concat (map item_texts l) = concat (map item_texts l') ->
  statements (concat (map item_lines l)) = statements (concat (map item_lines l')).
Proof. intros l l' F F' E. unfold statements. now rewrite !conf_layout, E. Qed.
(** A file accepted as configuration and as recipe has the same lines in both,
    unless a line ends in two backslashes. *)
Theorem handlers_agree : forall ls a b, ~ double_backslash ls -> conf_lines ls = Some a -> bb_lines ls = Some b -> a = b.
Proof. intros ls a b D. apply agree_go. exact D. Qed.
(** With two backslashes they differ. *)
Theorem handlers_agree_refuted : let ls := [s_ "A\\"; s_ ""; s_ "B"] in
  conf_lines ls = Some [s_ "AB"] /\ bb_lines ls = Some [s_ "A\"; s_ "B"].
Proof. split; reflexivity. Qed.
(** A comment between the lines of a statement is an error in a recipe; in a
    configuration file it becomes part of the value. *)
Theorem comment_inside_refuted :
  let ls := [s_ "A = ""a \"; s_ "# b \"; s_ "c"""] in
  conf_lines ls = Some [s_ "A = ""a # b c"""] /\ bb_lines ls = None.
Proof. split; reflexivity. Qed.
(** A comment whose last line ends in a backslash must go on: at the end of the file it is an error in both. *)
Theorem unfinished_comment_refused : forall l more, Forall proper l -> more <> [] -> Forall (fun p => spaces (snd p)) more ->
  let ls := concat (map item_lines l) ++ map (fun p => "#"%char :: fst p ++ "\"%char :: snd p) more in
  conf_lines ls = None /\ bb_lines ls = None.
Proof.
  intros l more F N M ls. unfold ls, conf_lines, bb_lines. clear ls. induction F as [|i l P F IH].
  - cbn [map concat app]. destruct more as [|[p v] more]; [contradiction|]. inversion M as [|? ? M1 M2]; subst. cbn [fst snd] in *. cbn [map fst snd].
    assert (A : forall more acc, Forall (fun p : str * str => spaces (snd p)) more -> head_is hash acc = true -> conf_go (Some (acc ++ ["\"%char])) (map comment_more more) = None).
    { clear. induction more as [|[p v] more IH]; intros acc M H.
      - cbn [map conf_go]. rewrite head_app by (destruct acc; discriminate). now rewrite H.
      - inversion M as [|? ? M1 M2]; subst. cbn [map conf_go]. rewrite comment_more_rstrip by auto. cbn [fst snd app head_is]. change (aeqb "#"%char hash) with true. cbn [negb]. rewrite andb_false_r.
        rewrite removelast_snoc, match_nonnil by (destruct acc; discriminate). change (acc ++ "#"%char :: p ++ ["\"%char]) with (acc ++ ("#"%char :: p) ++ ["\"%char]).
        rewrite (app_assoc acc _ ["\"%char]), continued_snoc. apply IH; auto. rewrite head_app; [auto|destruct acc; discriminate]. }
    assert (B : forall more r res, Forall (fun p : str * str => spaces (snd p)) more -> head_is hash r = true -> bb_go (r :: res) (map comment_more more) = None).
    { clear. induction more as [|[p v] more IH]; intros r res M H; [reflexivity|].
      inversion M as [|? ? M1 M2]; subst. cbn [map bb_go]. rewrite comment_more_rstrip by auto. destruct r as [|x r]; [discriminate|]. rewrite H. cbn [fst snd app head_is]. change (aeqb "#"%char hash) with true. cbn [negb andb orb].
      change ("#"%char :: p ++ ["\"%char]) with (("#"%char :: p) ++ ["\"%char]). rewrite continued_snoc. apply IH; auto. }
    split.
    + cbn [conf_go]. change ("#"%char :: p ++ "\"%char :: v) with (comment_more (p, v)). rewrite comment_more_rstrip by auto. cbn [fst snd]. rewrite match_nonnil by discriminate. rewrite continued_snoc. now apply A.
    + cbn [bb_go]. change ("#"%char :: p ++ "\"%char :: v) with (comment_more (p, v)). rewrite comment_more_rstrip by auto. cbn [fst snd]. rewrite continued_snoc, removelast_snoc. now apply B.
  - cbn [map concat]. rewrite <- app_assoc, conf_item, bb_item by auto. destruct IH as [-> ->]. clear. split; (induction (item_texts i) as [|t ts IH]; [reflexivity|cbn [fold_right]; now rewrite IH]).
Qed.
Example unfinished_comment_case : conf_lines [s_ "A = ""1"""; s_ "# b \"] = None /\ bb_lines [s_ "A = ""1"""; s_ "# b \"] = None /\ conf_lines [s_ "A = ""1"""; s_ "# b "] <> None.
Proof. split; [reflexivity|]. split; [reflexivity|discriminate]. Qed.
(** C77, refuted: a statement whose last line ends in a backslash at the end of the file is an error in a recipe; in
    a configuration file the backslash is dropped. *)
Theorem unfinished_statement_refuted : conf_lines [s_ "A = ""1"" \"] = Some [s_ "A = ""1"" "] /\ bb_lines [s_ "A = ""1"" \"] = None.
Proof. split; reflexivity. Qed.
Definition demo_items : list item :=
  [Comment [(s_ " head", s_ " ")] (s_ " tail"); Blank (s_ "  "); Stmt [(s_ "A = ""x", []); (s_ " y", s_ "  ")] (s_ "z""") (s_ " "); Comment [] []; Stmt [] (s_ "B = ""1""") []].
Example demo_items_proper : Forall proper demo_items.
Proof.
  assert (EN : forall c s, ends c s -> exists r, rev s = c :: r) by (intros c s [t ->]; rewrite rev_app_distr; now exists (rev t)).
  repeat constructor;
    first [ now intros c H; apply EN in H; destruct H as [r H]; vm_compute in H; injection H as <- _
          | intros H; apply EN in H; destruct H as [r H]; vm_compute in H; discriminate
          | intros [t H]; vm_compute in H; discriminate
          | intros H; vm_compute in H; discriminate ].
Qed.
Example demo_items_lines : concat (map item_lines demo_items) =
  [s_ "# head\ "; s_ "# tail"; s_ "  "; s_ "A = ""x\"; s_ " y\  "; s_ "z"" "; s_ "#"; s_ "B = ""1"""] /\
  conf_lines (concat (map item_lines demo_items)) = Some [s_ "A = ""x yz"""; s_ "B = ""1"""].
Proof. split; reflexivity. Qed.

(** ** C78 *)
(** What is read as an assignment is written as one. *)
Theorem reading_sound : forall s g, match_config s = Some g -> written g s.
Proof. exact match_config_sound. Qed.
(** Whatever is written as an assignment is accepted. *)
Theorem writing_accepted : forall s g, written g s -> exists g', match_config s = Some g'.
Proof. intros s g W. destruct (match_config s) as [g'|] eqn:E; eauto. exfalso. exact (match_config_some g s W E). Qed.
(** It is read as it was meant, if the name does not end in an operator character. *)
Theorem reading_exact : forall s g, written g s -> tidy_name g -> match_config s = Some g.
Proof. intros. now apply match_config_exact. Qed.
Theorem reading_unique : forall s g g', written g s -> written g' s -> tidy_name g -> tidy_name g' -> g = g'.
Proof. intros s g g' W W' T T'. apply match_config_exact in W, W'; auto. congruence. Qed.
(** Other lines are accepted exactly if they are one of the directives. *)
Theorem directives_exact : forall s st, (forall g, ~ written g s) -> (forall c, ends c s -> is_space c = false) ->
  (feeder s = Some st <-> directive st s).
Proof. exact feeder_directive. Qed.
Theorem assignment_first : forall s g, match_config s = Some g -> feeder s = Some (Assign g).
Proof. intros s g E. unfold feeder. now rewrite E. Qed.
Definition demo_assignment : assignment := {| a_exp := true; a_var := s_ "do_x"; a_flag := Some (s_ "deps"); a_op := OPrepend; a_value := s_ "a 'b' = c" |}.
Example demo_written : written demo_assignment (s_ "export do_x[deps]=+ ""a 'b' = c""") /\ tidy_name demo_assignment.
Proof.
  split.
  - apply reading_sound. vm_compute. reflexivity.
  - split; [|auto]. intros c [t H]. apply (f_equal (@rev ascii)) in H. rewrite rev_app_distr in H. vm_compute in H. injection H as <- _. cbn. intuition discriminate.
Qed.
Example demo_directives :
  feeder (s_ "require conf/a.conf b.conf") = Some (Include true (s_ "conf/a.conf b.conf")) /\
  feeder (s_ "export  PATH") = Some (Export (s_ "PATH")) /\ feeder (s_ "unset A[ab]") = Some (UnsetFlag (s_ "A") (s_ "ab")) /\
  feeder (s_ "include = ""x""") = Some (Assign {| a_exp := false; a_var := s_ "include"; a_flag := None; a_op := OSet; a_value := s_ "x" |}).
Proof. repeat split; vm_compute; reflexivity. Qed.
(** A flag of one character can be set, but not unset. *)
Theorem short_flag_unset_refuted :
  feeder (s_ "A[x] = ""1""") = Some (Assign {| a_exp := false; a_var := s_ "A"; a_flag := Some (s_ "x"); a_op := OSet; a_value := s_ "1" |}) /\
  feeder (s_ "unset A[x]") = None.
Proof. split; vm_compute; reflexivity. Qed.
(** A name with an override can be assigned, but neither exported nor unset. *)
Theorem override_unset_refuted :
  feeder (s_ "A:x = ""1""") = Some (Assign {| a_exp := false; a_var := s_ "A:x"; a_flag := None; a_op := OSet; a_value := s_ "1" |}) /\
  feeder (s_ "unset A:x") = None /\ feeder (s_ "export A:x") = None.
Proof. repeat split; vm_compute; reflexivity. Qed.
(** An unescaped quote inside the text is an error, two of them are not. *)
Theorem inner_quotes_refuted :
  feeder (s_ "A = ""x""y""") = None /\
  feeder (s_ "A = ""x""y""z""") = Some (Assign {| a_exp := false; a_var := s_ "A"; a_flag := None; a_op := OSet; a_value := s_ "x""y""z" |}).
Proof. split; vm_compute; reflexivity. Qed.
(** Without the condition on names the reading is not the obvious one. *)
Theorem untidy_names_refuted :
  match_config (s_ "export += ""x""") = Some {| a_exp := true; a_var := s_ "+"; a_flag := None; a_op := OSet; a_value := s_ "x" |} /\
  match_config (s_ "A.+=""x""") = Some {| a_exp := false; a_var := s_ "A."; a_flag := None; a_op := OAppend; a_value := s_ "x" |} /\
  match_config (s_ "A:=+""x""") = Some {| a_exp := false; a_var := s_ "A:"; a_flag := None; a_op := OPrepend; a_value := s_ "x" |}.
Proof. repeat split; vm_compute; reflexivity. Qed.

(** ** C79 *)
(** Any file of assignments is evaluated without error, and is equivalent to the
    file that uses = and ??= only, with the text computed by hand. *)
Theorem operators_refine : forall depth rounds incl l, Forall good_line l -> exists st,
  eval_all depth rounds incl (map (fun g => Assign (line_assignment g)) l) empty = Ok st /\
  forall ov, same_values st (parse ov (rewritten [] l)).
Proof.
  intros depth rounds incl l F. destruct (file_refines depth rounds incl l F) as (st & E & Q & _). exists st. split; auto. intros ov. rewrite (parse_ov ov []). now apply eqv_values.
Qed.
(** The text of a variable is what its lines compute, in order, with the
    operations around it (no override applies). *)
Theorem operators_exact : forall depth rounds incl l st ov a d r,
  Forall good_line l -> eval_all depth rounds incl (map (fun g => Assign (line_assignment g)) l) empty = Ok st ->
  single_overrides ov (rewritten [] l) a -> (forall o, In o ov -> ~ variant (rewritten [] l) a o) ->
  get_raw d r st ov a = Ok (around (prepends ov (rewritten [] l) a) (appends ov (rewritten [] l) a) (assigned_text (outcome a l))).
Proof.
  intros depth rounds incl l st ov a d r F E S N. destruct (operators_refine depth rounds incl l F) as (st' & E' & V). rewrite E in E'. injection E' as <-.
  destruct (V ov d r ov a) as [-> _]. rewrite no_override_plain by auto using rewritten_wf. unfold text. f_equal. f_equal. unfold assigned, assigned_text.
  destruct (rewritten_outcome l a) as [-> ->]. reflexivity.
Qed.
(** Lines for other variables do not matter. *)
Theorem other_lines_irrelevant : forall l l' n,
  filter (fun g => match g with Plain _ m _ _ => seqb m n | _ => false end) l = filter (fun g => match g with Plain _ m _ _ => seqb m n | _ => false end) l' ->
  outcome n l = outcome n l'.
Proof.
  assert (A : forall n l s, fold_left (fun s g => match g with Plain _ m o x => if seqb m n then operate o x s else s | _ => s end) l s =
     fold_left (fun s g => match g with Plain _ m o x => operate o x s | _ => s end) (filter (fun g => match g with Plain _ m _ _ => seqb m n | _ => false end) l) s).
  { intros n l. induction l as [|g l IH]; intros s; auto. cbn [fold_left filter]. rewrite IH. destruct g as [e m o x| |]; auto. destruct (seqb m n); reflexivity. }
  intros l l' n E. unfold outcome. now rewrite !A, E.
Qed.
(** Flags: the same operators, exports included. *)
Theorem flags_exact : forall depth rounds incl l st n f,
  Forall good_line l -> eval_all depth rounds incl (map (fun g => Assign (line_assignment g)) l) empty = Ok st ->
  f <> s_ "_content" -> f <> s_ "_defaultval" -> get_flag st n f = flag_outcome n f l.
Proof.
  intros depth rounds incl l st n f F E A B. destruct (file_refines depth rounds incl l F) as (st' & E' & _ & Fl). rewrite E in E'. injection E' as <-. apply Fl. now split.
Qed.
(** := is = with the text expanded at this point. *)
Theorem immediate_is_now : forall depth rounds st g st', a_op g = OImmediate -> a_exp g = false -> eval_assignment depth rounds st g = Ok st' ->
  exists v, expand_in depth rounds st (Some (a_var g ++ s_ "[:=]")) (a_value g) = Ok v /\
    eval_assignment depth rounds st {| a_exp := false; a_var := a_var g; a_flag := a_flag g; a_op := OSet; a_value := v |} = Ok st'.
Proof.
  intros depth rounds st g st' O E H. unfold eval_assignment in H. rewrite E in H. unfold new_value in H. rewrite O in H.
  destruct (expand_in depth rounds st (Some (a_var g ++ s_ "[:=]")) (a_value g)) as [v| |]; try discriminate. cbn [bind] in H. exists v. split; auto.
Qed.
(** ... so a later change of the variables used in it has no effect: the stored text is the expanded one. *)
Theorem immediate_keeps : forall depth rounds st g st' v, a_op g = OImmediate -> a_exp g = false -> a_flag g = None -> plain (a_var g) ->
  eval_assignment depth rounds st g = Ok st' -> expand_in depth rounds st (Some (a_var g ++ s_ "[:=]")) (a_value g) = Ok v ->
  get_content st' (a_var g) = Some v /\ forall n, n <> a_var g -> get_content st' n = get_content st n.
Proof.
  intros depth rounds st g st' v O E F P H X. unfold eval_assignment in H. rewrite E in H. unfold new_value in H. rewrite O, X, F in H. cbn [bind] in H. injection H as <-.
  change (set_var true [] st (a_var g) v) with (parse_line [] st (Set_ (a_var g) v)). rewrite parse_line_set by auto. rewrite !get_content_entry, entry_change, seqb_refl. split; [reflexivity|].
  intros n N. rewrite !get_content_entry, entry_change. apply seqb_neq in N. now rewrite N.
Qed.
(** unset forgets the variable: value, default, operations and flags. *)
Theorem unset_forgets : forall depth rounds incl st v st' d r ov, eval_statement depth rounds incl st (Unset v) = Ok st' ->
  ~ In ":"%char v -> get_raw d r st' ov v = Ok None /\ forall f, get_flag st' v f = None.
Proof.
  intros depth rounds incl st v st' d r ov H NC. injection H as <-. assert (G : get (s_over (del_var st v)) v = None).
  { unfold del_var. cbn [s_over]. assert (E : override_cuts v = []) by (unfold override_cuts; rewrite split_on_single; [reflexivity|now apply no_char_In]). unfold unregister. rewrite E. cbn [fold_left]. now rewrite get_del, seqb_refl. }
  split.
  - unfold get_raw. rewrite before_none by now rewrite G. rewrite add_ops_entry, own_entry. unfold entry_of. rewrite find_del_var, seqb_refl. reflexivity.
  - intros f. unfold get_flag. rewrite find_del_var, seqb_refl. repeat match goal with |- context [if ?b then _ else _] => destruct b end; reflexivity.
Qed.
(** A weak default of a flag replaces what was assigned. *)
Theorem flag_weak_default_refuted :
  let l := [Flag false (s_ "A") (s_ "doc") OSet (s_ "one"); Flag false (s_ "A") (s_ "doc") OLazy (s_ "two")] in
  Forall good_line l /\ flag_outcome (s_ "A") (s_ "doc") l = Some (s_ "two") /\
  exists st, eval_all 5 5 no_include (map (fun g => Assign (line_assignment g)) l) empty = Ok st /\ get_flag st (s_ "A") (s_ "doc") = Some (s_ "two").
Proof.
  split; [|split; [reflexivity|eexists; split; reflexivity]].
  assert (P : plain (s_ "A")) by (apply plain_dec; reflexivity). repeat (constructor; [cbn [good_line]; intuition discriminate|]). constructor.
Qed.
(** += on a variable that has only a weak default drops the default. *)
Theorem append_drops_default_refuted : outcome (s_ "A") [Plain false (s_ "A") OLazy (s_ "a"); Plain false (s_ "A") OAppend (s_ "b")] = (Some (s_ " b"), Some (s_ "a")) /\
  exists st, eval_all 5 5 no_include (map (fun g => Assign (line_assignment g)) [Plain false (s_ "A") OLazy (s_ "a"); Plain false (s_ "A") OAppend (s_ "b")]) empty = Ok st /\
    get_var 5 5 st [] (s_ "A") = Ok (Some (s_ " b")).
Proof. split; [reflexivity|]. eexists. split; [vm_compute; reflexivity|]. vm_compute. reflexivity. Qed.
Definition demo_lines : list line :=
  [Plain false (s_ "A") OLazy (s_ "w"); Plain true (s_ "A") OQues (s_ "a"); Plain false (s_ "A") OQues (s_ "no"); Plain false (s_ "A") OAppend (s_ "b"); Plain false (s_ "B") OPredot (s_ "x");
   Operation KAppend (s_ "A") None OAppend (s_ "c"); Plain false (s_ "A") OPrepend (s_ "z"); Plain false (s_ "A") OPostdot (s_ "!"); Flag false (s_ "A") (s_ "doc") OAppend (s_ "text")].
Example demo_lines_good : Forall good_line demo_lines.
Proof.
  assert (PA : plain (s_ "A")) by (apply plain_dec; reflexivity). assert (PB : plain (s_ "B")) by (apply plain_dec; reflexivity).
  unfold demo_lines. repeat (constructor; [cbn [good_line]; unfold lower_case; intuition discriminate|]). constructor.
Qed.
Example demo_lines_values : outcome (s_ "A") demo_lines = (Some (s_ "z a b!"), Some (s_ "w")) /\
  flag_outcome (s_ "A") (s_ "export") demo_lines = Some (s_ "1") /\ flag_outcome (s_ "A") (s_ "doc") demo_lines = Some (s_ " text") /\
  exists st, eval_all 5 5 no_include (map (fun g => Assign (line_assignment g)) demo_lines) empty = Ok st /\ get_var 5 5 st [] (s_ "A") = Ok (Some (s_ "z a b! c")).
Proof. repeat (split; [reflexivity|]). eexists. split; [vm_compute; reflexivity|]. vm_compute. reflexivity. Qed.
Example demo_immediate : exists st, eval_all 5 5 no_include (map Assign
  [{| a_exp := false; a_var := s_ "B"; a_flag := None; a_op := OSet; a_value := s_ "1" |}; {| a_exp := false; a_var := s_ "A"; a_flag := None; a_op := OImmediate; a_value := s_ "${B} ${C}" |};
   {| a_exp := false; a_var := s_ "B"; a_flag := None; a_op := OSet; a_value := s_ "2" |}]) empty = Ok st /\ get_content st (s_ "A") = Some (s_ "1 ${C}").
Proof. eexists. split; [vm_compute; reflexivity|]. vm_compute. reflexivity. Qed.

(** ** C80 *)
Definition free_of_inclusion (l : list item) : Prop := forall t f a, In t (concat (map item_texts l)) -> feeder t <> Some (Include f a).
Lemma feed_free l ss : feed l = Some ss -> (forall t f a, In t l -> feeder t <> Some (Include f a)) -> forall f a, ~ In (Include f a) ss.
Proof.
  revert ss. induction l as [|t l IH]; intros ss H F f a I; cbn in H.
  - injection H as <-. contradiction.
  - destruct (feeder t) as [s|] eqn:E; [|discriminate]. destruct (feed l) as [r|] eqn:E'; [|discriminate]. injection H as <-. destruct I as [->|I].
    + exact (F t f a (or_introl eq_refl) E).
    + apply (IH r eq_refl) with (f := f) (a := a); auto. intros t' f' a' I'. apply F. now right.
Qed.
Lemma eval_free d r incl incl' ss : (forall f a, ~ In (Include f a) ss) -> forall st, eval_all d r incl ss st = eval_all d r incl' ss st.
Proof.
  induction ss as [|s ss IH]; intros F st; auto. cbn [eval_all].
  assert (E : eval_statement d r incl st s = eval_statement d r incl' st s) by (destruct s; auto; exfalso; exact (F _ _ (or_introl eq_refl))).
  rewrite E. destruct (eval_statement d r incl' st s); cbn [bind]; auto. apply IH. intros f' a' I. exact (F f' a' (or_intror I)).
Qed.
Definition include_line (f : str) : item := Stmt [] (s_ "include " ++ f) [].
Lemma include_line_proper f : f <> [] -> Forall (fun c => is_space c = false) f -> ~ ends "\"%char f -> proper (include_line f).
Proof.
  intros N F B. cbn [proper include_line]. split; [constructor|]. split; [intros [t H]; discriminate|]. split; [constructor|].
  assert (X : forall c, ends c (s_ "include " ++ f) -> ends c f).
  { intros c [t H]. destruct (rev f) as [|x r] eqn:R.
    - apply (f_equal (@rev ascii)) in R. rewrite rev_involutive in R. contradiction.
    - apply (f_equal (@rev ascii)) in R. rewrite rev_involutive in R. cbn [rev] in R. subst f. rewrite app_assoc in H. apply app_inj_tail in H. destruct H as [_ ->]. now exists (rev r). }
  split; [|split; [|]].
  - intros c E. apply X in E. destruct E as [t ->]. apply Forall_app in F. destruct F as [_ F]. now inversion F.
  - discriminate.
  - intros E. apply X in E. contradiction.
Qed.
Lemma expand_in_plain d r st s w : contains_sub (s_ "${") s = false -> expand_in d r st None s = Ok w -> w = s.
Proof.
  unfold expand_in. intros N. destruct (need_overrides d r st) as [[ov|]| |]; cbn [bind]; try discriminate. destruct r; cbn [expand]; rewrite N; congruence.
Qed.
Lemma include_feeder f : isabs f = true -> Forall (fun c => is_space c = false) f -> feeder (s_ "include " ++ f) = Some (Include false f).
Proof.
  intros A F. destruct f as [|c f]; [discriminate|]. cbn in A. apply aeqb_eq in A. subst c. reflexivity.
Qed.
(** Including a file by its absolute name is the same as writing its lines there
    (the files have no further inclusions). *)
Theorem include_inserts : forall depth rounds fs n P Q F pre inc post st st',
  Forall proper pre -> Forall proper inc -> Forall proper post ->
  free_of_inclusion pre -> free_of_inclusion inc -> free_of_inclusion post ->
  fs P = Some (concat (map item_lines (pre ++ [include_line F] ++ post))) -> fs F = Some (concat (map item_lines inc)) ->
  fs Q = Some (concat (map item_lines (pre ++ inc ++ post))) ->
  isabs F = true -> F <> P -> Forall (fun c => is_space c = false) F -> contains_sub (s_ "${") F = false -> ~ ends "\"%char F ->
  endswith (s_ ".conf") Q = true ->
  handle depth rounds fs (S (S n)) P st = Ok st' -> handle depth rounds fs (S n) Q st = Ok st'.
Proof.
  intros depth rounds fs n P Q F pre inc post st st' Ppre Pinc Ppost Fpre Finc Fpost EP EF EQ AF NF SF DF BF XQ H.
  assert (NN : F <> []) by (intros ->; discriminate). assert (PI : proper (include_line F)) by now apply include_line_proper.
  cbn [handle] in H |- *. destruct (endswith (s_ ".conf") P); [|discriminate]. rewrite XQ. cbn [negb] in *. rewrite EP in H. rewrite EQ.
  rewrite statements_items in H by (apply Forall_app; split; auto; constructor; auto). rewrite statements_items by (apply Forall_app; split; auto; apply Forall_app; auto).
  rewrite !map_app, !concat_app, !feed_app in *. cbn [map concat item_texts include_line app] in H.
  change (feed [s_ "include " ++ F]) with (match feeder (s_ "include " ++ F), Some [] with Some s, Some r => Some (s :: r) | _, _ => None end) in H.
  rewrite include_feeder in H by auto. destruct (feed (concat (map item_texts pre))) as [sp|] eqn:Sp; [|discriminate]. destruct (feed (concat (map item_texts post))) as [so|] eqn:So; [|discriminate].
  cbn [app] in H. rewrite eval_all_app in H. pose proof (feed_free _ _ Sp Fpre) as Np. pose proof (feed_free _ _ So Fpost) as No.
  rewrite (eval_free _ _ _ no_include sp Np) in H. destruct (eval_all depth rounds no_include sp st) as [s1| |] eqn:E1; try discriminate. cbn [bind eval_all eval_statement] in H.
  destruct (expand_in depth rounds s1 None F) as [w| |] eqn:X1; try discriminate. apply expand_in_plain in X1 as Q1; auto. subst w. cbn [bind] in H. rewrite ?X1 in H. cbn [bind] in H.
  rewrite split_ws_single in H by (split; auto). cbn [include_all] in H. unfold include_single in H. assert (NP : seqb P F = false) by (apply seqb_neq; congruence). rewrite NP, AF in H. cbn [bind] in H.
  unfold exists_file in H. rewrite EF in H. cbn [handle] in H. rewrite ?EF in H. destruct (endswith (s_ ".conf") F); cbn [negb] in H; [|discriminate].
  rewrite statements_items in H by auto. destruct (feed (concat (map item_texts inc))) as [si|] eqn:Si; [|discriminate]. pose proof (feed_free _ _ Si Finc) as Ni.
  rewrite (eval_free _ _ _ no_include si Ni) in H. rewrite eval_all_app, (eval_free _ _ _ no_include sp Np), E1. cbn [bind]. rewrite eval_all_app, (eval_free _ _ _ no_include si Ni).
  destruct (eval_all depth rounds no_include si s1) as [s2| |]; try discriminate. cbn [bind] in H |- *.
  rewrite (eval_free _ _ _ no_include so No). rewrite (eval_free _ _ _ no_include so No) in H. exact H.
Qed.
Definition inclusion (force : bool) (f : str) : item := Stmt [] ((if force then s_ "require " else s_ "include ") ++ f) [].
(** the name of a file as it can be written in an inclusion: absolute, no blanks,
    no references *)
Definition written (f : str) : Prop :=
  isabs f = true /\ Forall (fun c => is_space c = false) f /\ contains_sub (s_ "${") f = false /\ ~ ends "\"%char f.
(** [inlined fs P l r]: [r] is what remains of the lines [l] of the file [P] after
    writing the included files in place of the inclusions, all the way down.
    Missing files are left out if they need not exist, and so is the file itself. *)
Inductive inlined (fs : str -> option (list str)) : str -> list item -> list item -> Prop :=
| inl_nil P : inlined fs P [] []
| inl_line P i l r : free_of_inclusion [i] -> inlined fs P l r -> inlined fs P (i :: l) (i :: r)
| inl_file P force F inc r1 l r : written F -> F <> P -> fs F = Some (concat (map item_lines inc)) -> Forall proper inc ->
    inlined fs F inc r1 -> inlined fs P l r -> inlined fs P (inclusion force F :: l) (r1 ++ r)
| inl_missing P F l r : written F -> F <> P -> fs F = None -> inlined fs P l r -> inlined fs P (inclusion false F :: l) r
| inl_self P force l r : written P -> inlined fs P l r -> inlined fs P (inclusion force P :: l) r.
Lemma inclusion_feeder (force : bool) (f : str) : isabs f = true -> feeder ((if force then s_ "require " else s_ "include ") ++ f) = Some (Include force f).
Proof. intros A. destruct f as [|c f]; [discriminate|]. cbn in A. apply aeqb_eq in A. subst c. now destruct force. Qed.
Lemma feed_inclusion force f l : isabs f = true ->
  feed (concat (map item_texts (inclusion force f :: l))) = match feed (concat (map item_texts l)) with Some ss => Some (Include force f :: ss) | None => None end.
Proof. intros A. cbn [map concat item_texts inclusion app feed]. now rewrite inclusion_feeder. Qed.
Lemma eval_inclusion d r incl force f ss st st' : written f -> eval_all d r incl (Include force f :: ss) st = Ok st' ->
  exists s1, incl force [f] st = Ok s1 /\ eval_all d r incl ss s1 = Ok st'.
Proof.
  intros (A & S & D & B) H. cbn [eval_all eval_statement] in H. destruct (expand_in d r st None f) as [w| |] eqn:X; try discriminate. apply expand_in_plain in X as Q; auto. subst w.
  cbn [bind] in H. rewrite X in H. cbn [bind] in H. rewrite split_ws_single in H by (split; auto; intros ->; discriminate). destruct (incl force [f] st) as [s1| |]; try discriminate. eauto.
Qed.
Lemma inlined_eval depth rounds fs P l r : inlined fs P l r -> Forall proper l -> forall n st st' ss,
  feed (concat (map item_texts l)) = Some ss -> eval_all depth rounds (include_all depth rounds fs (handle depth rounds fs n) P) ss st = Ok st' ->
  Forall proper r /\ exists rs, feed (concat (map item_texts r)) = Some rs /\ (forall f a, ~ In (Include f a) rs) /\ eval_all depth rounds no_include rs st = Ok st'.
Proof.
  induction 1 as [P|P i l r Fi _ IH|P force F inc r1 l r W NF EF PF _ IHF _ IH|P F l r W NF EF _ IH|P force l r W _ IH]; intros Pl n st st' ss FD EV.
  - split; [constructor|]. exists []. cbn in *. injection FD as <-. split; auto.
  - pose proof (Forall_inv Pl) as Pi. pose proof (Forall_inv_tail Pl) as Pl'. change (i :: l) with ([i] ++ l) in FD. rewrite map_app, concat_app, feed_app in FD.
    destruct (feed (concat (map item_texts [i]))) as [si|] eqn:Si; [|discriminate]. destruct (feed (concat (map item_texts l))) as [sl|] eqn:Sl; [|discriminate]. injection FD as <-.
    pose proof (feed_free _ _ Si Fi) as Ni. rewrite eval_all_app, (eval_free _ _ _ no_include si Ni) in EV. destruct (eval_all depth rounds no_include si st) as [s1| |] eqn:E1; try discriminate. cbn [bind] in EV.
    destruct (IH Pl' n s1 st' sl eq_refl EV) as (Pr & rs & Fr & Nr & Er). split; [now constructor|]. exists (si ++ rs).
    change (i :: r) with ([i] ++ r). rewrite map_app, concat_app, feed_app, Si, Fr. split; [auto|]. split.
    + intros f a I. apply in_app_or in I. destruct I as [I|I]; [exact (Ni f a I)|exact (Nr f a I)].
    + rewrite eval_all_app, E1. exact Er.
  - pose proof (Forall_inv_tail Pl) as Pl'. rewrite feed_inclusion in FD by apply W. destruct (feed (concat (map item_texts l))) as [sl|] eqn:Sl; [|discriminate]. injection FD as <-.
    apply eval_inclusion in EV; auto. destruct EV as (s1 & E1 & EV). cbn [include_all] in E1. unfold include_single in E1. assert (NP : seqb P F = false) by (apply seqb_neq; congruence).
    rewrite NP, (proj1 W) in E1. cbn [bind] in E1. unfold exists_file in E1. rewrite EF in E1. destruct (handle depth rounds fs n F st) as [s2| |] eqn:HF; try discriminate. cbn [bind] in E1. injection E1 as ->.
    destruct n as [|n]; [discriminate|]. cbn [handle] in HF. destruct (endswith (s_ ".conf") F); cbn [negb] in HF; [|discriminate]. rewrite EF in HF. rewrite statements_items in HF by auto.
    destruct (feed (concat (map item_texts inc))) as [si|] eqn:Si; [|discriminate].
    destruct (IHF PF n st s1 si eq_refl HF) as (P1 & rs1 & F1 & N1 & E1). destruct (IH Pl' (S n) s1 st' sl eq_refl EV) as (P2 & rs2 & F2 & N2 & E2).
    split; [now apply Forall_app|]. exists (rs1 ++ rs2). rewrite map_app, concat_app, feed_app, F1, F2. split; [auto|]. split.
    + intros f a I. apply in_app_or in I. destruct I as [I|I]; [exact (N1 f a I)|exact (N2 f a I)].
    + rewrite eval_all_app, E1. exact E2.
  - pose proof (Forall_inv_tail Pl) as Pl'. rewrite feed_inclusion in FD by apply W. destruct (feed (concat (map item_texts l))) as [sl|] eqn:Sl; [|discriminate]. injection FD as <-.
    apply eval_inclusion in EV; auto. destruct EV as (s1 & E1 & EV). cbn [include_all] in E1. unfold include_single in E1. assert (NP : seqb P F = false) by (apply seqb_neq; congruence).
    rewrite NP, (proj1 W) in E1. cbn [bind] in E1. unfold exists_file in E1. rewrite EF in E1. cbn [bind] in E1. injection E1 as <-. exact (IH Pl' n st st' sl eq_refl EV).
  - pose proof (Forall_inv_tail Pl) as Pl'. rewrite feed_inclusion in FD by apply W. destruct (feed (concat (map item_texts l))) as [sl|] eqn:Sl; [|discriminate]. injection FD as <-.
    apply eval_inclusion in EV; auto. destruct EV as (s1 & E1 & EV). cbn [include_all] in E1. unfold include_single in E1. rewrite seqb_refl in E1. cbn [bind] in E1. injection E1 as <-. exact (IH Pl' n st st' sl eq_refl EV).
Qed.
(** Reading a file whose inclusions, at any depth, name files absolutely gives what
    reading a single file with the lines of all of them in their places gives. *)
Theorem inclusions_insert : forall depth rounds fs n P Q l r st st',
  Forall proper l -> inlined fs P l r ->
  fs P = Some (concat (map item_lines l)) -> fs Q = Some (concat (map item_lines r)) -> endswith (s_ ".conf") Q = true ->
  handle depth rounds fs n P st = Ok st' -> handle depth rounds fs 1 Q st = Ok st'.
Proof.
  intros depth rounds fs n P Q l r st st' Pl I EP EQ XQ H. destruct n as [|n]; [discriminate|]. cbn [handle] in H |- *. destruct (endswith (s_ ".conf") P); cbn [negb] in H; [|discriminate].
  rewrite EP in H. rewrite XQ, EQ. cbn [negb]. rewrite statements_items in H by auto. destruct (feed (concat (map item_texts l))) as [ss|] eqn:Sl; [|discriminate].
  destruct (inlined_eval depth rounds fs P l r I Pl n st st' ss Sl H) as (Pr & rs & Fr & Nr & Er). rewrite statements_items, Fr by auto. rewrite (eval_free _ _ _ no_include rs Nr). exact Er.
Qed.
(** A missing file is an error with require and nothing with include. *)
Theorem missing_file : forall depth rounds fs h parent F st, fs F = None -> isabs F = true -> F <> parent ->
  include_single depth rounds fs h parent false F st = Ok st /\ include_single depth rounds fs h parent true F st = Err.
Proof.
  intros depth rounds fs h parent F st N A NP. unfold include_single, exists_file. assert (E : seqb parent F = false) by (apply seqb_neq; congruence). rewrite E, A. cbn [bind]. now rewrite N.
Qed.
(** A relative name is looked up next to the including file first, then along BBPATH. *)
Theorem relative_order : forall depth rounds fs h parent force F st bbpath,
  get_in depth rounds st (s_ "BBPATH") = Ok (Some bbpath) -> isabs F = false -> F <> parent ->
  fs (pjoin (dirname parent) F) <> None -> ~ In ":"%char (dirname parent) ->
  include_single depth rounds fs h parent force F st = h (pjoin (dirname parent) F) st.
Proof.
  intros depth rounds fs h parent force F st bbpath G A NP X NC. unfold include_single. assert (E : seqb parent F = false) by (apply seqb_neq; congruence). rewrite E, A, G. cbn [bind].
  unfold which. change (s_ ":" ++ bbpath) with (":"%char :: bbpath). change Search_Model.colon with ":"%char. rewrite split_on_cons by now apply no_char_In. cbn [which_loop].
  assert (Y : exists_file fs (pjoin (dirname parent) F) = true) by (unfold exists_file; destruct (fs (pjoin (dirname parent) F)); congruence). rewrite !Y. cbn [fst]. now rewrite Y.
Qed.
Definition ring (f : str) : option (list str) :=
  if seqb f (s_ "/a.conf") then Some [s_ "include /b.conf"] else if seqb f (s_ "/b.conf") then Some [s_ "include /a.conf"] else None.
(** Files that include each other are read for ever. *)
Theorem mutual_inclusion_refuted : forall fuel, handle 5 5 ring fuel (s_ "/a.conf") empty = Loops /\ handle 5 5 ring fuel (s_ "/b.conf") empty = Loops.
Proof.
  induction fuel as [|n [A B]]; [split; reflexivity|]. split; cbn [handle].
  - change (ring (s_ "/a.conf")) with (Some [s_ "include /b.conf"]). change (endswith (s_ ".conf") (s_ "/a.conf")) with true. cbn [negb].
    change (statements [s_ "include /b.conf"]) with (Some [Include false (s_ "/b.conf")]). cbn [eval_all eval_statement]. change (expand_in 5 5 empty None (s_ "/b.conf")) with (Ok (s_ "/b.conf")).
    cbn [bind]. change (expand_in 5 5 empty None (s_ "/b.conf")) with (Ok (s_ "/b.conf")). cbn [bind]. change (split_ws (s_ "/b.conf")) with [s_ "/b.conf"]. cbn [include_all]. unfold include_single.
    change (seqb (s_ "/a.conf") (s_ "/b.conf")) with false. change (isabs (s_ "/b.conf")) with true. cbn [bind]. change (exists_file ring (s_ "/b.conf")) with true. rewrite B. reflexivity.
  - change (ring (s_ "/b.conf")) with (Some [s_ "include /a.conf"]). change (endswith (s_ ".conf") (s_ "/b.conf")) with true. cbn [negb].
    change (statements [s_ "include /a.conf"]) with (Some [Include false (s_ "/a.conf")]). cbn [eval_all eval_statement]. change (expand_in 5 5 empty None (s_ "/a.conf")) with (Ok (s_ "/a.conf")).
    cbn [bind]. change (expand_in 5 5 empty None (s_ "/a.conf")) with (Ok (s_ "/a.conf")). cbn [bind]. change (split_ws (s_ "/a.conf")) with [s_ "/a.conf"]. cbn [include_all]. unfold include_single.
    change (seqb (s_ "/b.conf") (s_ "/a.conf")) with false. change (isabs (s_ "/a.conf")) with true. cbn [bind]. change (exists_file ring (s_ "/a.conf")) with true. rewrite A. reflexivity.
Qed.
Definition selfish (name : str) (f : str) : option (list str) := if seqb f (s_ "/a.conf") then Some [s_ "include " ++ name] else None.
(** The guard against a file including itself compares the name as written: an
    absolute name is skipped, a relative one is not. *)
Theorem self_inclusion_refuted :
  handle 5 5 (selfish (s_ "/a.conf")) 2 (s_ "/a.conf") empty = Ok empty /\
  forall fuel, handle 5 5 (selfish (s_ "a.conf")) fuel (s_ "/a.conf") empty = Loops.
Proof.
  split; [vm_compute; reflexivity|]. induction fuel as [|n A]; [reflexivity|]. cbn [handle].
  change (selfish (s_ "a.conf") (s_ "/a.conf")) with (Some [s_ "include a.conf"]). change (endswith (s_ ".conf") (s_ "/a.conf")) with true. cbn [negb].
  change (statements [s_ "include a.conf"]) with (Some [Include false (s_ "a.conf")]). cbn [eval_all eval_statement]. change (expand_in 5 5 empty None (s_ "a.conf")) with (Ok (s_ "a.conf")).
  cbn [bind]. change (expand_in 5 5 empty None (s_ "a.conf")) with (Ok (s_ "a.conf")). cbn [bind]. change (split_ws (s_ "a.conf")) with [s_ "a.conf"]. cbn [include_all]. unfold include_single.
  change (seqb (s_ "/a.conf") (s_ "a.conf")) with false. change (isabs (s_ "a.conf")) with false. change (get_in 5 5 empty (s_ "BBPATH")) with (@Ok (option str) None). cbn [bind].
  match goal with |- context [fst ?w] => change (fst w) with (Some (s_ "/a.conf")) end. cbn [bind]. change (exists_file (selfish (s_ "a.conf")) (s_ "/a.conf")) with true. cbn iota. rewrite A. reflexivity.
Qed.
Definition tree (f : str) : option (list str) :=
  if seqb f (s_ "/p.conf") then Some [s_ "A = ""1"""; s_ "include /f.conf"; s_ "A += ""3"""]
  else if seqb f (s_ "/f.conf") then Some [s_ "A += ""2"""]
  else if seqb f (s_ "/q.conf") then Some [s_ "A = ""1"""; s_ "A += ""2"""; s_ "A += ""3"""] else None.
Example tree_handled : handle 5 5 tree 3 (s_ "/p.conf") empty = handle 5 5 tree 2 (s_ "/q.conf") empty /\
  exists st, handle 5 5 tree 3 (s_ "/p.conf") empty = Ok st /\ get_content st (s_ "A") = Some (s_ "1 2 3").
Proof. split; [vm_compute; reflexivity|]. eexists. split; [vm_compute; reflexivity|]. vm_compute. reflexivity. Qed.

Print Assumptions conf_layout. Print Assumptions bb_layout. Print Assumptions layout_irrelevant. Print Assumptions unfinished_comment_refused.
Print Assumptions unfinished_statement_refuted.
Print Assumptions handlers_agree.
Print Assumptions handlers_agree_refuted. Print Assumptions comment_inside_refuted.
Print Assumptions reading_sound. Print Assumptions writing_accepted. Print Assumptions reading_exact. Print Assumptions reading_unique.
Print Assumptions directives_exact. Print Assumptions assignment_first. Print Assumptions short_flag_unset_refuted. Print Assumptions override_unset_refuted.
Print Assumptions inner_quotes_refuted. Print Assumptions untidy_names_refuted.
Print Assumptions operators_refine. Print Assumptions operators_exact. Print Assumptions other_lines_irrelevant. Print Assumptions flags_exact.
Print Assumptions immediate_is_now. Print Assumptions immediate_keeps. Print Assumptions unset_forgets. Print Assumptions flag_weak_default_refuted. Print Assumptions append_drops_default_refuted.
Print Assumptions include_inserts. Print Assumptions missing_file. Print Assumptions relative_order. Print Assumptions mutual_inclusion_refuted. Print Assumptions self_inclusion_refuted.

(** ** Further cases that meet the hypotheses *)
Lemma no_double ls : forallb (fun l => negb (endswith ["\"%char; "\"%char] (rstrip l))) ls = true -> ~ double_backslash ls.
Proof. intros H (l & t & I & E). rewrite forallb_forall in H. apply H in I. rewrite E in I. apply negb_true_iff in I. assert (X : endswith ["\"%char; "\"%char] (t ++ ["\"%char; "\"%char]) = true) by (apply endswith_iff; eauto). congruence. Qed.
Example handlers_met : exists a, ~ double_backslash (concat (map item_lines demo_items)) /\ conf_lines (concat (map item_lines demo_items)) = Some a /\ bb_lines (concat (map item_lines demo_items)) = Some a.
Proof. eexists. split; [apply no_double; vm_compute; reflexivity|]. split; vm_compute; reflexivity. Qed.


Lemma line_proper t : hd_error t <> Some "#"%char -> t <> [] -> is_space (last t " "%char) = false -> last t " "%char <> "\"%char -> proper (Stmt [] t []).
Proof.
  intros H N L B. assert (E : forall c, ends c t -> c = last t " "%char) by (intros c [r ->]; now rewrite last_last).
  cbn. split; [constructor|]. split; [intros [r ->]; now apply H|]. split; [constructor|]. split; [intros c C; now rewrite (E c C)|]. split; [intros K; injection K as ->; congruence|]. intros C. apply B. symmetry. now apply E.
Qed.
Definition stmt1 (t : string) : list item := [Stmt [] (s_ t) []].
Lemma stmt1_free t : (match feeder (s_ t) with Some (Include _ _) => False | _ => True end) -> free_of_inclusion (stmt1 t).
Proof. intros H x f a [<-|[]] E. cbn [map concat fst app] in E. now rewrite E in H. Qed.
Example include_met : forall st', handle 5 5 tree 3 (s_ "/p.conf") empty = Ok st' -> handle 5 5 tree 2 (s_ "/q.conf") empty = Ok st'.
Proof.
  intros st'. apply (include_inserts 5 5 tree 1 (s_ "/p.conf") (s_ "/q.conf") (s_ "/f.conf") (stmt1 "A = ""1""") (stmt1 "A += ""2""") (stmt1 "A += ""3""")); try reflexivity.
  1-3: constructor; [apply line_proper; try discriminate; reflexivity|constructor].
  1-3: apply stmt1_free; vm_compute; exact I.
  - discriminate.
  - repeat constructor.
  - intros [t E]. assert (X : last (s_ "/f.conf") " "%char = "\"%char) by (rewrite E; apply last_last). discriminate X.
Qed.

Definition nest (f : str) : option (list str) :=
  if seqb f (s_ "/p.conf") then Some [s_ "A = ""1"""; s_ "require /f.conf"; s_ "include /none.conf"; s_ "A += ""4"""]
  else if seqb f (s_ "/f.conf") then Some [s_ "A += ""2"""; s_ "include /g.conf"; s_ "include /f.conf"]
  else if seqb f (s_ "/g.conf") then Some [s_ "A += ""3"""]
  else if seqb f (s_ "/q.conf") then Some [s_ "A = ""1"""; s_ "A += ""2"""; s_ "A += ""3"""; s_ "A += ""4"""] else None.
Lemma written_name (f : str) : isabs f = true -> forallb (fun c => negb (is_space c)) f = true -> contains_sub (s_ "${") f = false -> last f " "%char <> "\"%char -> written f.
Proof.
  intros A S D B. split; [auto|]. split; [apply Forall_forall; intros c I; rewrite forallb_forall in S; apply S in I; now apply negb_true_iff in I|]. split; [auto|].
  intros [t ->]. rewrite last_last in B. now apply B.
Qed.
Example inclusions_met : Forall proper (stmt1 "A = ""1""" ++ [inclusion true (s_ "/f.conf"); inclusion false (s_ "/none.conf")] ++ stmt1 "A += ""4""") /\
  inlined nest (s_ "/p.conf") (stmt1 "A = ""1""" ++ [inclusion true (s_ "/f.conf"); inclusion false (s_ "/none.conf")] ++ stmt1 "A += ""4""")
    (stmt1 "A = ""1""" ++ (stmt1 "A += ""2""" ++ stmt1 "A += ""3""") ++ stmt1 "A += ""4""") /\
  exists st, handle 5 5 nest 3 (s_ "/p.conf") empty = Ok st /\ get_content st (s_ "A") = Some (s_ "1 2 3 4").
Proof.
  split; [|split].
  - repeat (constructor; [apply line_proper; try discriminate; reflexivity|]). constructor.
  - apply inl_line; [apply stmt1_free; vm_compute; exact I|].
    apply (inl_file nest (s_ "/p.conf") true (s_ "/f.conf") (stmt1 "A += ""2""" ++ [inclusion false (s_ "/g.conf"); inclusion false (s_ "/f.conf")]) (stmt1 "A += ""2""" ++ stmt1 "A += ""3""")).
    + apply written_name; try reflexivity. discriminate.
    + discriminate.
    + reflexivity.
    + repeat (constructor; [apply line_proper; try discriminate; reflexivity|]). constructor.
    + apply inl_line; [apply stmt1_free; vm_compute; exact I|]. apply (inl_file nest (s_ "/f.conf") false (s_ "/g.conf") (stmt1 "A += ""3""") (stmt1 "A += ""3""") _ []).
      * apply written_name; try reflexivity. discriminate.
      * discriminate.
      * reflexivity.
      * constructor; [apply line_proper; try discriminate; reflexivity|constructor].
      * apply inl_line; [apply stmt1_free; vm_compute; exact I|constructor].
      * apply inl_self; [apply written_name; try reflexivity; discriminate|constructor].
    + apply inl_missing.
      * apply written_name; try reflexivity. discriminate.
      * discriminate.
      * reflexivity.
      * apply inl_line; [apply stmt1_free; vm_compute; exact I|constructor].
  - eexists. split; [vm_compute; reflexivity|vm_compute; reflexivity].
Qed.
Print Assumptions inclusions_insert.
