(** Theorems C88-C90. *)
From Coq Require Import String Ascii List Bool Arith Lia.
From Verif Require Import Str_Model Str_Proofs Data_Model Parse_Model Parse_Spec Parse_Proofs Tasks_Model Bbfile_Model Bbfile_Spec Bbfile_Proofs.
Import ListNotations.
Open Scope list_scope.

(** ** C88: the functions of a file *)
(** A line starts a function if and only if it has the form of a header; the name and the words python and fakeroot
    are read from it. *)
Theorem heading_exact : forall s name py fr, func_start s = Some (name, py, fr) <-> heading s name py fr.
Proof. apply func_start_iff. Qed.
Theorem def_heading_exact : forall s name, def_start s = Some name <-> def_heading s name.
Proof. apply def_start_iff. Qed.
(** So the reading of a line is unique. *)
Theorem heading_unique : forall s n py fr n' py' fr', heading s n py fr -> heading s n' py' fr' -> n = n' /\ py = py' /\ fr = fr'.
Proof. intros s n py fr n' py' fr' H H'. apply heading_read in H, H'. rewrite H in H'. now injection H' as -> -> ->. Qed.
(** A file that consists of blank lines, comments, statements, functions and defs gives exactly these, in order: the
    body of a function is the lines between its header and the brace, the body of a def its first line and the
    blank, indented and comment lines behind it. *)
Theorem file_exact : forall l, Forall good_part l -> separated l -> read (concat (map part_lines l)) = Some (nodes 0 l, false).
Proof. intros l F S. now apply parts_read. Qed.
(** This holds in any file: whatever is read as a function or def is at one place of the file, with all lines
    of its body and no other. *)
Theorem function_place : forall ls r e name body py fr line, read ls = Some (r, e) -> In (Func name body py fr line) r ->
  exists h t n close, head_at ls h t /\ heading t name py fr /\ line = h + n + 2 /\
    body = upto_line (S h) n ls ++ [[]] /\ length (upto_line (S h) n ls) = n /\
    nth_error ls (S h + n) = Some close /\ rstrip close = s_ "}" /\ ~ In (s_ "}") (upto_line (S h) n ls).
Proof.
  intros ls r e name body py fr line R I. apply read_located in R. rewrite Forall_forall in R. destruct (R _ I) as (h & t & n & close & A & B & C & D). exists h, t, n, close.
  split; [exact A|]. split; [exact B|]. split; [lia|exact D].
Qed.
Theorem def_place : forall ls r e name body line, read ls = Some (r, e) -> In (PyDef name body line) r ->
  exists h t n, head_at ls h t /\ def_heading t name /\ line = h + n + 2 /\
    body = t :: upto_line (S h) n ls /\ length (upto_line (S h) n ls) = n /\
    (forall i l, h < i -> i <= h + n -> nth_error ls i = Some l -> belongs l) /\ (forall l, nth_error ls (S h + n) = Some l -> ~ belongs l).
Proof.
  intros ls r e name body line R I. apply read_located in R. rewrite Forall_forall in R. destruct (R _ I) as (h & t & n & A & B & C & D & L & F & E). exists h, t, n.
  split; [exact A|]. split; [exact B|]. split; [lia|]. split; [exact D|]. split; [exact L|]. split.
  - intros i l L1 L2 N. apply inside_def_iff. rewrite Forall_forall in F. apply F. apply (nth_error_In _ (i - S h)). rewrite upto_line_nth by lia. replace (S h + (i - S h)) with i by lia. now rewrite N.
  - intros l N. rewrite N in E. rewrite <- inside_def_iff. congruence.
Qed.
(** A function that is never closed is an error; if nothing follows its header, only if no statement of the file
    reads another recipe or class. *)
Theorem unclosed_refused : forall l more final w name py fr lines reads, let p := Fn more final w name py fr lines [] in
  Forall good_part (l ++ [p]) -> separated (l ++ [p]) ->
  (forall s, In (Text s) (nodes 0 l) -> reads s = false) \/ lines <> [] ->
  accept reads (removelast (concat (map part_lines (l ++ [p])))) = None.
Proof.
  intros l more final w name py fr lines reads p F S H. unfold accept. pose proof (unclosed_read l more final w name py fr lines F S) as U. fold p in U. rewrite U. clear U. destruct lines as [|x lines]; [|reflexivity].
  destruct H as [H|H]; [|contradiction]. destruct (existsb _ (nodes 0 l)) eqn:E; [|reflexivity]. apply existsb_exists in E. destruct E as (nd & I & R). destruct nd as [| |s]; try discriminate. now rewrite (H s I) in R.
Qed.
(** C88, refuted: a file that ends in the header of a function and inherits a class is accepted; the function is
    dropped without a message. *)
Theorem unclosed_accepted_refuted : exists reads ls, accept reads ls = Some [Text (s_ "inherit base")] /\ accept (fun _ => false) ls = None /\
  In (s_ "do_install() {") ls.
Proof.
  exists (fun _ => true), [s_ "inherit base"; s_ "do_install() {"]. split; [reflexivity|]. split; [reflexivity|]. right. now left.
Qed.
(** C88, refuted: a line of a function that is only a brace ends it, also within a nested block or a here-document. *)
Theorem inner_brace_refuted : read [s_ "do_x() {"; s_ "f() {"; s_ "  echo"; s_ "}"; s_ "A = ""1"""; s_ "}"] =
  Some ([Func (s_ "do_x") [s_ "f() {"; s_ "  echo"; []] false false 4; Text (s_ "A = ""1"""); Text (s_ "}")], false).
Proof. vm_compute. reflexivity. Qed.
(** C88, refuted: "fakeroot ()" defines a function without a name, "fakeroot()" one called fakeroot. *)
Theorem fakeroot_name_refuted : heading (s_ "fakeroot () {") (s_ "__anonymous") false true /\ heading (s_ "fakeroot() {") (s_ "fakeroot") false false.
Proof. split; apply func_start_iff; reflexivity. Qed.
Definition demo_parts : list part :=
  [Layout (Comment [] (s_ " head")); Layout (Stmt [] (s_ "inherit base") []);
   Fn [] (s_ "fakeroot python do_x () {") [] (s_ "do_x") true true [s_ "    a = 1  "; []; s_ "    b = 2"] (s_ " ");
   Df [(s_ "def f(a, ", s_ " ")] (s_ "b):") [] (s_ "f") [s_ "    return 1"; []; s_ "# c"];
   Layout (Stmt [] (s_ "A = ""1""") (s_ " "));
   Fn [] (s_ "python() {") [] (s_ "__anonymous") true false [] []].
Ltac char_end := let c := fresh in let H := fresh in
  assert (EN : forall c s, ends c s -> exists r, rev s = c :: r) by (intros c s [t ->]; rewrite rev_app_distr; now exists (rev t));
  first [ now intros c H; apply EN in H; destruct H as [r H]; vm_compute in H; injection H as <- _
        | intros H; apply EN in H; destruct H as [r H]; vm_compute in H; discriminate ].
Ltac stmt_proper := split; [repeat constructor; first [discriminate|intros [t X]; vm_compute in X; discriminate]|]; split; [intros [t X]; vm_compute in X; discriminate|];
  split; [repeat constructor|]; split; [char_end|]; split; [discriminate|char_end].
Ltac not_start := intros [(n & py & fr & X) | (n & X)]; [apply func_start_iff in X|apply def_start_iff in X]; vm_compute in X; discriminate.
Ltac no_brace := intros l v I W E; cbn in I; repeat (destruct I as [<-|I]; [discriminate E|]); contradiction.
Example demo_parts_good : Forall good_part demo_parts /\ separated demo_parts.
Proof.
  split.
  - constructor; [split; [constructor|char_end]|]. constructor; [split; [stmt_proper|not_start]|].
    constructor; [split; [stmt_proper|]; split; [apply func_start_iff; reflexivity|]; split; [no_brace|repeat constructor]|].
    constructor; [split; [stmt_proper|]; split; [apply def_start_iff; reflexivity|]; apply Forall_forall; intros l I; cbn in I; repeat (destruct I as [<-|I]; [apply inside_def_iff; reflexivity|]); contradiction|].
    constructor; [split; [stmt_proper|not_start]|].
    constructor; [split; [stmt_proper|]; split; [apply func_start_iff; reflexivity|]; split; [no_brace|repeat constructor]|]. constructor.
  - cbn [separated demo_parts]. split; [|exact I]. cbn. rewrite <- inside_def_iff. discriminate.
Qed.
Example demo_parts_read : read (concat (map part_lines demo_parts)) =
  Some ([Text (s_ "inherit base"); Func (s_ "do_x") [s_ "    a = 1"; []; s_ "    b = 2"; []] true true 7;
         PyDef (s_ "f") [s_ "def f(a, b):"; s_ "    return 1"; []; s_ "# c"] 13; Text (s_ "A = ""1"""); Func (s_ "__anonymous") [[]] true false 15], false).
Proof. vm_compute. reflexivity. Qed.
Definition open_part : part := Fn [] (s_ "do_y() {") [] (s_ "do_y") false false [s_ "  echo"] [].
Example unclosed_met : accept (fun _ => true) (removelast (concat (map part_lines ([Layout (Blank [])] ++ [open_part])))) = None.
Proof.
  apply (unclosed_refused [Layout (Blank [])] [] (s_ "do_y() {") [] (s_ "do_y") false false [s_ "  echo"] (fun _ => true)).
  - constructor; [constructor|]. constructor; [split; [stmt_proper|]; split; [apply func_start_iff; reflexivity|]; split; [no_brace|repeat constructor]|]. constructor.
  - cbn. auto.
  - right. discriminate.
Qed.

(** ** C89: the other statements *)
Definition command_word : list (str * (str -> directive)) :=
  [(s_ "EXPORT_FUNCTIONS", Exports); (s_ "deltask", DelTask); (s_ "addhandler", AddHandler); (s_ "inherit", Inherit); (s_ "inherit_defer", InheritDefer)].
(** A line of a command, blanks and a text is this command with this text. *)
Theorem command_exact : forall k c w t, In (k, c) command_word -> spaces w -> w <> [] -> t <> [] ->
  match t with x :: _ => is_space x = false | [] => True end -> direct (k ++ w ++ t) = Some (c t).
Proof.
  intros k c w t I W N T H.
  assert (A : forall k, argument k (k ++ w ++ t) = Some t).
  { intros k'. unfold argument. rewrite strip_prefix_app. destruct w as [|x w]; [contradiction|]. inversion W as [|? ? W1 W2]; subst. cbn [app]. rewrite W1, lstrip_app by auto. destruct t; [contradiction|reflexivity]. }
  assert (B : forall k', (forall r, k ++ w ++ t <> k' ++ r) -> argument k' (k ++ w ++ t) = None).
  { intros k' D. unfold argument. now rewrite (proj2 (strip_prefix_none k' (k ++ w ++ t)) D). }
  destruct w as [|x w]; [contradiction|]. inversion W as [|? ? W1 W2]; subst.
  cbn [In command_word] in I. unfold direct.
  assert (M : In k [s_ "EXPORT_FUNCTIONS"; s_ "deltask"; s_ "addhandler"; s_ "inherit"; s_ "inherit_defer"] -> match_addtask (k ++ (x :: w) ++ t) = None).
  { intros K. unfold match_addtask. cbn [In] in K. repeat (destruct K as [<-|K]; [reflexivity|]). contradiction. }
  repeat (destruct I as [I|I]; [injection I as <- <-|]); [..|contradiction].
  - now rewrite A.
  - rewrite (B (s_ "EXPORT_FUNCTIONS")), M by (discriminate || (cbn; tauto)). now rewrite A.
  - rewrite (B (s_ "EXPORT_FUNCTIONS")), M, (B (s_ "deltask")) by (discriminate || (cbn; tauto)). now rewrite A.
  - rewrite (B (s_ "EXPORT_FUNCTIONS")), M, (B (s_ "deltask")), (B (s_ "addhandler")) by (discriminate || (cbn; tauto)). now rewrite A.
  - rewrite (B (s_ "EXPORT_FUNCTIONS")), M, (B (s_ "deltask")), (B (s_ "addhandler")) by (discriminate || (cbn; tauto)).
    change (argument (s_ "inherit") (s_ "inherit_defer" ++ (x :: w) ++ t)) with (@None str). now rewrite A.
Qed.
(** An addtask line is one, and every line that starts with none of the commands is read like a line of a
    configuration file (C78). *)
Theorem addtask_direct : forall s f b a, match_addtask s = Some (f, b, a) -> refused s = false -> direct s = Some (AddTask f b a).
Proof.
  intros s f b a H R. unfold direct. assert (E : argument (s_ "EXPORT_FUNCTIONS") s = None).
  { unfold argument. destruct (strip_prefix (s_ "EXPORT_FUNCTIONS") s) eqn:P; [|reflexivity]. apply strip_prefix_iff in P. subst s. discriminate H. }
  now rewrite E, H, R.
Qed.
Theorem configuration_line : forall s, (forall k c r, In k (s_ "addtask" :: map fst command_word) -> s = k ++ c :: r -> is_space c = false) -> direct s = option_map Conf (feeder s).
Proof.
  intros s H.
  assert (A : forall k, In k (s_ "addtask" :: map fst command_word) -> argument k s = None).
  { intros k I. unfold argument. destruct (strip_prefix k s) as [[|c r]|] eqn:P; auto. apply strip_prefix_iff in P. now rewrite (H k c r I P). }
  assert (M : match_addtask s = None).
  { unfold match_addtask. destruct (startswith (s_ "addtask") s) eqn:P; auto. apply startswith_iff in P. destruct P as [r ->]. change (skipn 7 (s_ "addtask" ++ r)) with r.
    destruct r as [|c r]; [reflexivity|]. assert (C : is_space c = false) by (apply (H (s_ "addtask") c r); [now left|reflexivity]). cbn [lstrip]. rewrite C. now rewrite Nat.eqb_refl. }
  unfold direct. rewrite M, !A by (cbn; tauto). reflexivity.
Qed.
Example command_case : direct (s_ "inherit  base dpkg") = Some (Inherit (s_ "base dpkg")) /\ direct (s_ "inherit_defer ${X}") = Some (InheritDefer (s_ "${X}")) /\
  direct (s_ "addtask x after do_y") = Some (AddTask (s_ "x") None (Some (s_ "do_y"))) /\
  direct (s_ "inherits = ""x""") = Some (Conf (Assign {| a_exp := false; a_var := s_ "inherits"; a_flag := None; a_op := OSet; a_value := s_ "x" |})).
Proof. repeat split; vm_compute; reflexivity. Qed.
Example command_met : direct (s_ "deltask" ++ s_ "  " ++ s_ "do_a do_b") = Some (DelTask (s_ "do_a do_b")).
Proof. apply command_exact; [cbn; tauto|repeat constructor|discriminate|discriminate|reflexivity]. Qed.
Example configuration_met : direct (s_ "A = ""1""") = option_map Conf (feeder (s_ "A = ""1""")).
Proof. apply configuration_line. intros k c r I E. cbn in I. repeat (destruct I as [<-|I]; [discriminate E|]). contradiction. Qed.
(** C89, refuted: a variable called inherit cannot be assigned: the line is taken for the command. *)
Theorem inherit_variable_refuted : direct (s_ "inherit = ""x""") = Some (Inherit (s_ "= ""x""")).
Proof. vm_compute. reflexivity. Qed.

(** ** C90: the lines of functions in messages *)
(** The code compiled for a python function has each line of the body under the number it has in the file, and the
    definition itself where the header ends. *)
Theorem python_function_lines : forall ls r e name body py fr line n, read ls = Some (r, e) -> no_newline ls -> In (Func name body py fr line) r -> one_line n ->
  let text := padded (func_pad body line) (py_text n body) in
  exists h t, head_at ls h t /\ heading t name py fr /\ line_of text h (s_ "def " ++ n ++ s_ "(d):") /\
    forall i, h < i -> i < line - 1 -> exists l, nth_error ls i = Some l /\ line_of text i (rstrip l).
Proof.
  intros ls r e name body py fr line n R NL I ON text. destruct (function_place ls r e name body py fr line R I) as (h & t & m & close & HD & HE & L & B & LB & NC & _).
  exists h, t. split; [exact HD|]. split; [exact HE|].
  assert (P : func_pad body line = h). { unfold func_pad, func_lineno. rewrite B, app_length, LB. cbn. lia. }
  assert (T : split_on newline text = repeat [] h ++ (s_ "def " ++ n ++ s_ "(d):") :: body).
  { unfold text. rewrite P. replace (py_text n body) with (unlines ((s_ "def " ++ n ++ s_ "(d):") :: body)).
    - apply padded_lines; [discriminate|]. constructor.
      + intros X. rewrite !in_app_iff in X. destruct X as [X|[X|X]]; [|contradiction|]; cbn in X; repeat (destruct X as [X|X]; [discriminate X|]); contradiction.
      + rewrite B. apply Forall_app. split; [now apply upto_one_line|]. constructor; [intros []|constructor].
    - unfold py_text, py_header. rewrite unlines_cons by (rewrite B; destruct (upto_line (S h) m ls); discriminate). now rewrite <- !app_assoc. }
  unfold line_of. change (ascii_of_nat 10) with newline. rewrite T. split.
  - rewrite <- (Nat.add_0_r h) at 2. now rewrite nth_after.
  - intros i L1 L2. destruct (nth_error ls i) as [l|] eqn:N; [|apply nth_error_None in N; assert (nth_error ls (S h + m) <> None) by congruence; apply nth_error_Some in H; lia].
    exists l. split; [reflexivity|]. replace i with (h + S (i - S h)) at 1 by lia. rewrite nth_after. cbn [nth_error]. rewrite B, nth_error_app1 by lia. rewrite upto_line_nth by lia.
    replace (S h + (i - S h)) with i by lia. now rewrite N.
Qed.
Theorem def_lines : forall ls r e name body line, read ls = Some (r, e) -> no_newline ls -> In (PyDef name body line) r ->
  let text := padded (def_pad body line) (unlines body) in
  exists h t, head_at ls h t /\ def_heading t name /\ line_of text h t /\
    forall i, h < i -> i < line - 1 -> exists l, nth_error ls i = Some l /\ line_of text i (rstrip l).
Proof.
  intros ls r e name body line R NL I text. destruct (def_place ls r e name body line R I) as (h & t & m & HD & HE & L & B & LB & _).
  exists h, t. split; [exact HD|]. split; [exact HE|].
  assert (P : def_pad body line = h). { unfold def_pad. rewrite B. cbn [length]. rewrite LB. lia. }
  assert (T : split_on newline text = repeat [] h ++ body).
  { unfold text. rewrite P. apply padded_lines; [rewrite B; discriminate|]. rewrite B. constructor; [now apply (header_line ls h)|now apply upto_one_line]. }
  unfold line_of. change (ascii_of_nat 10) with newline. rewrite T, B. split.
  - assert (Z := nth_after h (t :: upto_line (S h) m ls) 0). rewrite Nat.add_0_r in Z. exact Z.
  - intros i L1 L2. assert (N : nth_error (upto_line (S h) m ls) (i - S h) <> None) by (apply nth_error_Some; lia).
    assert (U := upto_line_nth (S h) m ls (i - S h) ltac:(lia)). replace (S h + (i - S h)) with i in U by lia. destruct (nth_error ls i) as [l|] eqn:NI; [|cbn in U; congruence].
    exists l. split; [reflexivity|]. replace i with (h + S (i - S h)) at 1 by lia. rewrite nth_after. exact U.
Qed.
(** The code in effect for a text is the one compiled with its own file and line, unless the same text was compiled
    before for another place. *)
Theorem compiled_in_place : forall l i t f p, nth_error l i = Some (t, f, p) ->
  (forall j f' p', j < i -> nth_error l j = Some (t, f', p') -> (f', p') = (f, p)) -> nth_error (compile_all [] l) i = Some (f, p).
Proof. intros l i t f p N H. apply (compile_all_nth l [] i t f p N); auto. intros f' p' []. Qed.
(** C90, refuted: two defs with the same text in two files: messages name the file and line of the first for both. *)
Theorem same_text_refuted : forall t, compile_all [] [(t, s_ "a.bbclass", 10); (t, s_ "b.bbclass", 20)] = [(s_ "a.bbclass", 10); (s_ "a.bbclass", 10)].
Proof. intros t. cbn. now rewrite seqb_refl. Qed.
(** Shell: in a script that contains the function, a line of its body that is not blank is traced back to its line in
    the recipe.  What is missing for all functions: the text must not be changed by the expansion of variables, by
    appends and so on. *)
Theorem shell_lines_partial : forall ls r e name body fr line file before after, read ls = Some (r, e) -> no_newline ls -> In (Func name body false fr line) r ->
  file <> [] -> (forall c, ends c file -> is_space c = false) -> (forall l x, In l body -> l <> s_ "# line: " ++ x) ->
  let script := before ++ emitted name file (func_lineno body line) (unlines body) ++ after in
  exists h t, head_at ls h t /\ heading t name false fr /\
    forall i l, h < i -> i < line - 1 -> nth_error ls i = Some l -> rstrip l <> [] ->
      let frame := length before + 2 + (i - h) in nth_error script (frame - 1) = Some (rstrip l) /\ place script frame = Some (file, S i).
Proof.
  intros ls r e name body fr line file before after R NL I FN FT NM script. destruct (function_place ls r e name body false fr line R I) as (h & t & m & close & HD & HE & L & B & LB & NC & _).
  exists h, t. split; [exact HD|]. split; [exact HE|]. intros i l L1 L2 NI NE.
  assert (LN : func_lineno body line = S h). { unfold func_lineno. rewrite B, app_length, LB. cbn. lia. }
  assert (OL : Forall one_line body). { rewrite B. apply Forall_app. split; [now apply upto_one_line|]. constructor; [intros []|constructor]. }
  assert (NB : nth_error body (i - S h) = Some (rstrip l)).
  { rewrite B, nth_error_app1 by lia. rewrite upto_line_nth by lia. replace (S h + (i - S h)) with i by lia. now rewrite NI. }
  pose proof (script_line body (i - S h) (rstrip l) OL NB NE) as SL. set (lines := split_on newline (rstrip_nl (unlines body))) in *.
  set (b := length before). assert (SC : forall d, nth_error script (b + d) = nth_error (emitted name file (func_lineno body line) (unlines body) ++ after) d).
  { intros d. unfold script, b. rewrite nth_error_app2 by lia. f_equal. lia. }
  assert (IN : i - S h < length lines) by (apply nth_error_Some; congruence).
  assert (EL : forall j, j < length lines -> nth_error script (b + (2 + j)) = nth_error lines j).
  { intros j J. rewrite SC. unfold emitted. fold lines. cbn [app nth_error Nat.add]. rewrite <- app_assoc, nth_error_app1 by auto. reflexivity. }
  intros frame. assert (FR : frame = S (b + (2 + (i - S h)))) by (unfold frame; lia). rewrite FR, Nat.sub_succ, Nat.sub_0_r. split; [now rewrite EL|]. unfold place. rewrite Nat.sub_succ, Nat.sub_0_r.
  rewrite (search_back_at script b (mark (S h) file) (S h) file).
  - f_equal. f_equal. lia.
  - rewrite <- (Nat.add_0_r b), SC. unfold emitted. cbn. now rewrite LN.
  - rewrite rstrip_mark by auto. now apply mark_of_mark.
  - intros k x K1 K2 NK. replace k with (b + (k - b)) in NK by lia. destruct (k - b) as [|[|j]] eqn:KB; [lia| |].
    + rewrite SC in NK. unfold emitted in NK. cbn in NK. injection NK as <-.
      apply (header_no_mark t name false fr HE).
    + change (b + S (S j)) with (b + (2 + j)) in NK. rewrite EL in NK by lia.
      apply (script_lines_in body (i - S h) (rstrip l) j x OL NB NE) in NK.
      assert (RX : rstrip x = x). { rewrite B in NK. apply in_app_or in NK. destruct NK as [NK|[<-|[]]]; [|reflexivity]. unfold upto_line in NK. apply in_map_iff in NK. destruct NK as (y & <- & _). apply rstrip_again. }
      rewrite RX. unfold mark_of. destruct (strip_prefix (s_ "# line: ") x) as [y|] eqn:PX; [|reflexivity]. apply strip_prefix_iff in PX. now destruct (NM x y NK).
Qed.
(** C90, refuted: a comment of that form in a function, such as one pasted from a script, moves the place shown. *)
Definition pasted : list str := [s_ "do_x() {"; s_ "# line: 7, file: /b.bb"; s_ "  false"; s_ "}"].
Theorem pasted_mark_refuted : read pasted = Some ([Func (s_ "do_x") [s_ "# line: 7, file: /b.bb"; s_ "  false"; []] false false 4], false) /\
  place (emitted (s_ "do_x") (s_ "/a.bb") (func_lineno [s_ "# line: 7, file: /b.bb"; s_ "  false"; []] 4) (unlines [s_ "# line: 7, file: /b.bb"; s_ "  false"; []])) 4 = Some (s_ "/b.bb", 7).
Proof. split; vm_compute; reflexivity. Qed.

(** Files that meet the hypotheses *)
Definition demo_file : list str := concat (map part_lines demo_parts).
Lemma one_line_dec (s : str) : forallb (fun c => negb (aeqb c newline)) s = true -> one_line s.
Proof. intros H I. induction s as [|c s IH]; [contradiction|]. cbn in H. apply andb_true_iff in H. destruct H as [H1 H2]. destruct I as [->|I]; [discriminate H1|now apply IH]. Qed.
Example demo_file_lines : no_newline demo_file.
Proof. apply Forall_forall. intros l I. cbn in I. repeat (destruct I as [<-|I]; [apply one_line_dec; reflexivity|]). contradiction. Qed.
Example python_lines_met : let text := padded (func_pad [s_ "    a = 1"; []; s_ "    b = 2"; []] 7) (py_text (s_ "do_x") [s_ "    a = 1"; []; s_ "    b = 2"; []]) in
  exists h t, head_at demo_file h t /\ heading t (s_ "do_x") true true /\ line_of text h (s_ "def do_x(d):") /\
    forall i, h < i -> i < 6 -> exists l, nth_error demo_file i = Some l /\ line_of text i (rstrip l).
Proof. apply (python_function_lines _ _ _ (s_ "do_x") _ true true 7 (s_ "do_x") demo_parts_read demo_file_lines); [right; now left|apply one_line_dec; reflexivity]. Qed.
Example def_lines_met : let text := padded (def_pad [s_ "def f(a, b):"; s_ "    return 1"; []; s_ "# c"] 13) (unlines [s_ "def f(a, b):"; s_ "    return 1"; []; s_ "# c"]) in
  exists h t, head_at demo_file h t /\ def_heading t (s_ "f") /\ line_of text h t /\ forall i, h < i -> i < 12 -> exists l, nth_error demo_file i = Some l /\ line_of text i (rstrip l).
Proof. apply (def_lines _ _ _ (s_ "f") _ 13 demo_parts_read demo_file_lines). right; right; now left. Qed.
Definition shell_file : list str := [s_ "# x"; s_ "do_y() {"; s_ "  echo a  "; []; s_ "  false"; s_ "}"].
Example shell_file_read : read shell_file = Some ([Func (s_ "do_y") [s_ "  echo a"; []; s_ "  false"; []] false false 6], false).
Proof. vm_compute. reflexivity. Qed.
Example shell_lines_met : let script := [s_ "#!/bin/sh"; s_ "A=1"] ++ emitted (s_ "do_y") (s_ "/r/x.bb") (func_lineno [s_ "  echo a"; []; s_ "  false"; []] 6) (unlines [s_ "  echo a"; []; s_ "  false"; []]) ++ [s_ "do_y"] in
  exists h t, head_at shell_file h t /\ heading t (s_ "do_y") false false /\ forall i l, h < i -> i < 5 -> nth_error shell_file i = Some l -> rstrip l <> [] ->
    let frame := 2 + 2 + (i - h) in nth_error script (frame - 1) = Some (rstrip l) /\ place script frame = Some (s_ "/r/x.bb", S i).
Proof.
  apply (shell_lines_partial _ _ _ (s_ "do_y") _ false 6 (s_ "/r/x.bb") [s_ "#!/bin/sh"; s_ "A=1"] [s_ "do_y"] shell_file_read).
  - apply Forall_forall. intros l I. cbn in I. repeat (destruct I as [<-|I]; [apply one_line_dec; reflexivity|]). contradiction.
  - now left.
  - discriminate.
  - intros c [u E]. change (s_ "/r/x.bb") with (s_ "/r/x.b" ++ ["b"%char]) in E. apply app_inj_tail in E. destruct E as [_ <-]. reflexivity.
  - intros l x I. cbn in I. repeat (destruct I as [<-|I]; [discriminate|]). contradiction.
Qed.
Example shell_place_case : place ([s_ "#!/bin/sh"; s_ "A=1"] ++ emitted (s_ "do_y") (s_ "/r/x.bb") (func_lineno [s_ "  echo a"; []; s_ "  false"; []] 6) (unlines [s_ "  echo a"; []; s_ "  false"; []]) ++ [s_ "do_y"]) 7 = Some (s_ "/r/x.bb", 5).
Proof. vm_compute. reflexivity. Qed.

Print Assumptions heading_exact.
Print Assumptions def_heading_exact.
Print Assumptions heading_unique.
Print Assumptions file_exact.
Print Assumptions function_place.
Print Assumptions def_place.
Print Assumptions unclosed_refused.
Print Assumptions unclosed_accepted_refuted.
Print Assumptions inner_brace_refuted.
Print Assumptions fakeroot_name_refuted.
Print Assumptions command_exact.
Print Assumptions addtask_direct.
Print Assumptions configuration_line.
Print Assumptions inherit_variable_refuted.
Print Assumptions python_function_lines.
Print Assumptions def_lines.
Print Assumptions compiled_in_place.
Print Assumptions same_text_refuted.
Print Assumptions shell_lines_partial.
Print Assumptions pasted_mark_refuted.
