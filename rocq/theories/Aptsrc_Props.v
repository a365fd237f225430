(** C46: apt source lists. *)
From Coq Require Import Ascii String List Bool Arith Lia.
From Verif Require Import Str_Model Str_Proofs Aptsrc_Model Aptsrc_Spec Aptsrc_Proofs.
Import ListNotations.
Open Scope list_scope.

(** Whatever is recognised as a source is printed with the same words, in any line. *)
Theorem same_words line t o u s c : parse_line line = Source t o u s c -> split_ws (join (s_ " ") [t; o; u; s; c]) = split_ws line.
Proof. intros P. rewrite words_five. symmetry. now apply parse_words. Qed.
(** The fields of a line with up to two options. *)
Theorem fields_read b0 ty g1 o text u g2 suite g3 ct : blanks b0 -> ty = s_ "deb" \/ ty = s_ "deb-src" -> gap g1 -> written_options o text ->
  plain u -> gap g2 -> plain suite -> hd_error suite <> Some "/"%char -> gap g3 -> ct <> [] -> starts_space ct = false ->
  parse_line (b0 ++ ty ++ g1 ++ text ++ u ++ g2 ++ suite ++ g3 ++ ct) = Source ty o u suite (join (s_ " ") (split_ws ct)).
Proof.
  intros B0 TY G1 WO U G2 SU NS G3 NC SC. assert (WT : word ty) by (destruct TY as [-> | ->]; (split; [discriminate|repeat constructor])).
  unfold parse_line. rewrite (strip_line b0 ty _ B0 WT (g1 ++ text ++ u ++ g2 ++ suite ++ g3) ct) by (auto; now rewrite <- !app_assoc).
  destruct (rstrip_text ct NC SC) as (z & NR & ER & BZ & WS & _). pose proof (rstrip_starts ct NC SC) as SR. rewrite <- WS. set (c := rstrip ct) in *. rewrite <- !app_assoc.
  assert (Z : match ty ++ g1 ++ text ++ u ++ g2 ++ suite ++ g3 ++ c with [] => true | _ => startswith (s_ "#") (ty ++ g1 ++ text ++ u ++ g2 ++ suite ++ g3 ++ c) end = false) by (destruct TY as [-> | ->]; reflexivity).
  rewrite Z. clear Z.
  assert (ST : starts_space (text ++ u ++ g2 ++ suite ++ g3 ++ c) = false) by (destruct WO; [cbn [app]; apply starts_word, U|reflexivity|reflexivity]).
  rewrite (split1_text ty g1) by auto. assert (Z : negb (seqb ty (s_ "deb") || seqb ty (s_ "deb-src")) = false) by (destruct TY as [-> | ->]; reflexivity). rewrite Z. clear Z.
  rewrite (options_is o text u g2 suite (g3 ++ c) WO U G2 SU) by now apply starts_space_gap.
  destruct (written_strip o text WO) as (g & BG & ET & EN & SO & _).
  assert (K : match (match o with [] => None | _ :: _ => Some (u ++ g2 ++ suite ++ g3 ++ c) end) with
              | Some rest => (strip (firstn (length (text ++ u ++ g2 ++ suite ++ g3 ++ c) - length rest) (text ++ u ++ g2 ++ suite ++ g3 ++ c)), rest)
              | None => ([], text ++ u ++ g2 ++ suite ++ g3 ++ c) end = (o, u ++ g2 ++ suite ++ g3 ++ c)).
  { destruct o as [|x o]; [now rewrite (EN eq_refl)|]. rewrite app_length. replace (length text + length (u ++ g2 ++ suite ++ g3 ++ c) - length (u ++ g2 ++ suite ++ g3 ++ c)) with (length text) by lia. rewrite firstn_app, firstn_all, Nat.sub_diag, firstn_O, app_nil_r, ET, SO. reflexivity. }
  match goal with |- (let (_, _) := ?X in _) = _ => replace X with (o, u ++ g2 ++ suite ++ g3 ++ c) by (symmetry; exact K) end.
  rewrite (split1_text u g2) by (first [apply U | apply starts_word, SU | assumption]).
  assert (SL : startswith (s_ "/") (suite ++ g3 ++ c) = false). { destruct suite as [|x suite]; [destruct SU as [[X _] _]; congruence|]. destruct (startswith (s_ "/") ((x :: suite) ++ g3 ++ c)) eqn:E; [|reflexivity]. apply startswith_iff in E. destruct E as [r E]. cbn [app] in E. exfalso. apply NS. cbn. f_equal. change (s_ "/" ++ r) with ("/"%char :: r) in E. congruence. }
  rewrite SL. rewrite (split1_text suite g3) by (first [apply SU | assumption]). reflexivity.
Qed.
(** The same for repositories without suite whose path starts with a slash. *)
Theorem flat_fields_read b0 ty g1 u g2 path ct : blanks b0 -> ty = s_ "deb" \/ ty = s_ "deb-src" -> gap g1 ->
  plain u -> gap g2 -> plain path -> hd_error path = Some "/"%char -> ct = [] \/ starts_space ct = true ->
  parse_line (b0 ++ ty ++ g1 ++ u ++ g2 ++ path ++ ct) = Source ty [] u [] (join (s_ " ") (split_ws (path ++ ct))).
Proof.
  intros B0 TY G1 U G2 PA HS CT.
  assert (WT : word ty) by (destruct TY as [-> | ->]; (split; [discriminate|repeat constructor])).
  assert (SC : starts_space (path ++ ct) = false) by apply starts_word, PA. assert (NC : path ++ ct <> []) by (destruct PA as [[X _] _]; destruct path; [congruence|discriminate]).
  unfold parse_line. rewrite (strip_line b0 ty _ B0 WT (g1 ++ u ++ g2) (path ++ ct)) by (auto; now rewrite <- !app_assoc).
  destruct (rstrip_text (path ++ ct) NC SC) as (z & NR & ER & BZ & WS & _). pose proof (rstrip_starts (path ++ ct) NC SC) as SR. rewrite <- WS. set (c := rstrip (path ++ ct)) in *. rewrite <- !app_assoc.
  assert (Z : match ty ++ g1 ++ u ++ g2 ++ c with [] => true | _ => startswith (s_ "#") (ty ++ g1 ++ u ++ g2 ++ c) end = false) by (destruct TY as [-> | ->]; reflexivity). rewrite Z. clear Z.
  rewrite (split1_text ty g1) by (auto; apply starts_word, U). assert (Z : negb (seqb ty (s_ "deb") || seqb ty (s_ "deb-src")) = false) by (destruct TY as [-> | ->]; reflexivity). rewrite Z. clear Z.
  assert (OR : options_rest (u ++ g2 ++ c) = None). { destruct U as (UW & U1 & _). destruct u as [|y u]; [destruct UW; congruence|]. cbn [app options_rest]. destruct (aeqb y "[") eqn:E; auto. apply aeqb_eq in E. exfalso. apply U1. left. auto. }
  rewrite OR. rewrite (split1_text u g2) by (auto; apply U).
  assert (SL : startswith (s_ "/") c = true). { destruct path as [|y path]; [discriminate|]. cbn in HS. injection HS as ->. destruct c as [|y c]; [congruence|]. cbn [app] in ER. injection ER as <- _. reflexivity. }
  now rewrite SL.
Qed.
(** The first mirror that matches is applied, to the URL, and no other. *)
Theorem first_mirror snapshot mirrors t o u s c :
  (get_mirror snapshot mirrors t o u s c = Source t o u s c /\ Forall (fun m => m u = None) mirrors) \/
  exists before m after u', mirrors = before ++ m :: after /\ Forall (fun m => m u = None) before /\ m u = Some u' /\
    get_mirror snapshot mirrors t o u s c = Source t (if snapshot then s_ "[check-valid-until=no]" else o) u' s c.
Proof.
  induction mirrors as [|m mirrors IH]; [left; split; [reflexivity|constructor]|]. cbn [get_mirror]. destruct (m u) as [u'|] eqn:M.
  - right. exists [], m, mirrors, u'. repeat split; auto.
  - destruct IH as [[-> F]|(b & m' & a & u' & -> & F & M' & ->)]; [left; split; auto|]. right. exists (m :: b), m', a, u'. repeat split; auto.
Qed.
(** Other lines are kept, and the lines of a file are treated one by one. *)
Theorem lines_apart snapshot mirrors files out : aggregate snapshot mirrors files = Some out ->
  exists outs, length outs = length files /\ out = concat (map (fun o => concat o ++ [nl]) outs) /\
    Forall2 (fun f o => Forall2 (fun line piece => write_line snapshot mirrors line = Some piece) f o) files outs.
Proof.
  revert out. induction files as [|f files IH]; intros out A; cbn [aggregate] in A; [injection A as <-; exists []; repeat constructor|].
  destruct (write_lines snapshot mirrors f) as [a|] eqn:W; [|discriminate]. destruct (aggregate snapshot mirrors files) as [b|]; [|discriminate]. injection A as <-. destruct (IH b eq_refl) as (outs & L & -> & F).
  assert (G : forall f a, write_lines snapshot mirrors f = Some a -> exists o, a = concat o /\ Forall2 (fun line piece => write_line snapshot mirrors line = Some piece) f o).
  { clear. induction f as [|l f IH]; intros a W; cbn [write_lines] in W; [injection W as <-; exists []; repeat constructor|]. destruct (write_line snapshot mirrors l) as [x|] eqn:X; [|discriminate]. destruct (write_lines snapshot mirrors f) as [y|]; [|discriminate]. injection W as <-. destruct (IH y eq_refl) as (o & -> & F). exists (x :: o). split; [reflexivity|constructor; auto]. }
  destruct (G f a W) as (o & -> & FO). exists (o :: outs). split; [cbn; now rewrite L|]. split; [cbn [map concat]; rewrite <- app_assoc; reflexivity|constructor; auto].
Qed.
(** A source is written with its own words when no mirror matches, and else with the mirror's URL in the place of its own;
    options go only when snapshots are used *)
Theorem source_written snapshot mirrors line t o u s c : parse_line line = Source t o u s c ->
  exists out, write_line snapshot mirrors line = Some (out ++ [nl]) /\
    ((Forall (fun m => m u = None) mirrors /\ split_ws out = split_ws line) \/
     exists before m after u', mirrors = before ++ m :: after /\ Forall (fun m => m u = None) before /\ m u = Some u' /\
       split_ws out = split_ws t ++ (if snapshot then [s_ "[check-valid-until=no]"] else split_ws o) ++ split_ws u' ++ split_ws s ++ split_ws c).
Proof.
  intros P. unfold write_line. rewrite P. destruct (first_mirror snapshot mirrors t o u s c) as [[-> F]|(b & m & a & u' & E & F & M & ->)].
  - eexists. split; [reflexivity|]. left. split; auto. now apply same_words.
  - eexists. split; [reflexivity|]. right. exists b, m, a, u'. split; auto. split; auto. split; auto. rewrite words_five. destruct snapshot; reflexivity.
Qed.
Print Assumptions source_written.
Theorem other_lines_kept snapshot mirrors line : parse_line line = NotASource -> write_line snapshot mirrors line = Some (line ++ [nl]).
Proof. intros P. unfold write_line. now rewrite P. Qed.
Theorem comments_and_blanks b rest : blanks b -> parse_line (b ++ s_ "#" ++ rest) = NotASource /\ parse_line b = NotASource.
Proof.
  intros B. assert (L : forall t, lstrip (b ++ t) = lstrip t) by (intros t; induction B as [|c x C X IH]; auto; cbn [app lstrip]; now rewrite C). split.
  - unfold parse_line, strip. rewrite L. change (lstrip (s_ "#" ++ rest)) with ("#"%char :: rest). destruct (rstrip_text ("#"%char :: rest)) as (z & NE & E & _); [discriminate|reflexivity|].
    destruct (rstrip ("#"%char :: rest)) as [|c r]; [congruence|]. cbn [app] in E. injection E as <- _. reflexivity.
  - unfold parse_line, strip. rewrite <- (app_nil_r b), L. reflexivity.
Qed.

Definition deb1 : str := s_ "deb [arch=amd64  trusted=yes] http://deb.debian.org/debian  bookworm main contrib" ++ [nl].
Example fields_case : parse_line deb1 = Source (s_ "deb") (s_ "[arch=amd64  trusted=yes]") (s_ "http://deb.debian.org/debian") (s_ "bookworm") (s_ "main contrib").
Proof. vm_compute. reflexivity. Qed.
Example options_case : written_options (s_ "[arch=amd64  trusted=yes]") (s_ "[arch=amd64  trusted=yes] ").
Proof.
  assert (SE : forall k v : string, word (s_ k ++ "="%char :: s_ v) -> ~ In "]"%char (s_ k ++ "="%char :: s_ v) -> s_ k <> [] -> s_ v <> [] -> setting (s_ k ++ "="%char :: s_ v)) by (intros k v W N K V; split; [auto|split; [auto|eauto 8]]).
  apply (two_options [] (s_ "arch=amd64") (s_ "  ") (s_ "trusted=yes") [] (s_ " ")); try (constructor; fail); try (split; [discriminate|repeat constructor]).
  - apply (SE "arch" "amd64")%string; [split; [discriminate|repeat constructor]|cbn; intuition discriminate|discriminate|discriminate].
  - apply (SE "trusted" "yes")%string; [split; [discriminate|repeat constructor]|cbn; intuition discriminate|discriminate|discriminate].
Qed.
Definition to_mirror : mirror := fun u => if startswith (s_ "http://deb.debian.org/debian") u then Some (s_ "http://m" ++ skipn 28 u) else None.
Example mirror_case : write_line false [to_mirror] deb1 = Some (s_ "deb [arch=amd64  trusted=yes] http://m bookworm main contrib" ++ [nl]).
Proof. vm_compute. reflexivity. Qed.

(** ** What does not hold *)
(** Every valid line is understood: with three options the URL is not found, so no mirror is used. *)
Theorem three_options_refuted : exists line u s, split_ws line = [s_ "deb"; s_ "[arch=amd64"; s_ "lang=en"; s_ "trusted=yes]"; u; s; s_ "main"] /\
  to_mirror u <> None /\ write_line false [to_mirror] line = Some (s_ "deb  [arch=amd64 lang=en trusted=yes] http://deb.debian.org/debian bookworm main" ++ [nl]).
Proof.
  exists (s_ "deb [arch=amd64 lang=en trusted=yes] http://deb.debian.org/debian bookworm main"), (s_ "http://deb.debian.org/debian"), (s_ "bookworm"). split; [vm_compute; reflexivity|]. split; [vm_compute; discriminate|vm_compute; reflexivity].
Qed.
(** A flat repository given by a relative path, which has no components, is an exception. *)
Theorem flat_relative_refuted : parse_line (s_ "deb http://host/debs ./") = Failed /\ parse_line (s_ "deb http://host/debs /") = Source (s_ "deb") [] (s_ "http://host/debs") [] (s_ "/").
Proof. split; vm_compute; reflexivity. Qed.
(** Options survive: with snapshots they are replaced. *)
Theorem snapshot_drops_options_refuted : exists mirrors, write_line true mirrors (s_ "deb [signed-by=/k.gpg] http://a b c") = Some (s_ "deb [check-valid-until=no] http://s b c" ++ [nl]).
Proof. exists [fun _ => Some (s_ "http://s")]. vm_compute. reflexivity. Qed.
(** One bad line makes the whole list fail. *)
Theorem bad_line_fails snapshot mirrors before line after more : parse_line line = Failed -> aggregate snapshot mirrors ((before ++ line :: after) :: more) = None.
Proof.
  intros P. cbn [aggregate]. assert (W : write_lines snapshot mirrors (before ++ line :: after) = None). { induction before as [|l before IH]; cbn [app write_lines]; [unfold write_line; now rewrite P|]. rewrite IH. now destruct (write_line _ _ l). }
  now rewrite W.
Qed.

Print Assumptions same_words.
Print Assumptions fields_read.
Print Assumptions flat_fields_read.
Print Assumptions first_mirror.
Print Assumptions lines_apart.
Print Assumptions comments_and_blanks.
Print Assumptions three_options_refuted.

(** ** Further cases that meet the hypotheses *)
Lemma plain_word w : forallb (fun c => negb (is_space c) && negb (aeqb c "["%char) && negb (aeqb c "]"%char)) w && negb (seqb w []) = true -> plain w.
Proof.
  intros H. apply andb_true_iff in H. destruct H as [H N]. rewrite forallb_forall in H. apply negb_true_iff in N. unfold plain, word.
  assert (X : forall c, In c w -> is_space c = false /\ c <> "["%char /\ c <> "]"%char).
  { intros c I. specialize (H c I). apply andb_true_iff in H. destruct H as [H C]. apply andb_true_iff in H. destruct H as [A B]. rewrite negb_true_iff in A, B, C. split; auto. split; intros ->; discriminate. }
  split; [split|split].
  - intros ->. discriminate.
  - apply Forall_forall. intros c I. now apply X.
  - intros I. now apply X in I.
  - intros I. now apply X in I.
Qed.
Example fields_read_met : parse_line (s_ " " ++ s_ "deb-src" ++ s_ "  " ++ s_ "[arch=amd64  trusted=yes] " ++ s_ "http://d/debian" ++ s_ " " ++ s_ "bookworm" ++ s_ " " ++ s_ "main  contrib ") =
  Source (s_ "deb-src") (s_ "[arch=amd64  trusted=yes]") (s_ "http://d/debian") (s_ "bookworm") (s_ "main contrib").
Proof.
  apply (fields_read (s_ " ") (s_ "deb-src") (s_ "  ") _ _ (s_ "http://d/debian") (s_ " ") (s_ "bookworm") (s_ " ") (s_ "main  contrib ")).
  - repeat constructor.
  - now right.
  - split; [discriminate|repeat constructor].
  - exact options_case.
  - apply plain_word. reflexivity.
  - split; [discriminate|repeat constructor].
  - apply plain_word. reflexivity.
  - discriminate.
  - split; [discriminate|repeat constructor].
  - discriminate.
  - reflexivity.
Qed.
Example flat_fields_read_met : parse_line (s_ "" ++ s_ "deb" ++ s_ " " ++ s_ "http://d" ++ s_ " " ++ s_ "/x/" ++ s_ " ") = Source (s_ "deb") [] (s_ "http://d") [] (s_ "/x/").
Proof.
  apply (flat_fields_read [] (s_ "deb") (s_ " ") (s_ "http://d") (s_ " ") (s_ "/x/") (s_ " ")).
  - constructor.
  - now left.
  - split; [discriminate|repeat constructor].
  - apply plain_word. reflexivity.
  - split; [discriminate|repeat constructor].
  - apply plain_word. reflexivity.
  - reflexivity.
  - now right.
Qed.
Example comments_met : parse_line (s_ "  " ++ s_ "#" ++ s_ "deb http://d x y") = NotASource.
Proof. refine (proj1 (comments_and_blanks (s_ "  ") (s_ "deb http://d x y") _)). repeat constructor. Qed.

