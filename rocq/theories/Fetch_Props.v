(** C74 to C76: downloads and their checksums, sources in order, and the list of mirrors. *)
From Coq Require Import String Ascii List Bool Arith Lia Permutation.
From Verif Require Import Str_Model Str_Proofs Fetch_Model Fetch_Spec Fetch_Proofs.
Import ListNotations.
Open Scope list_scope.

(** A checksum is never the empty text *)
Definition proper_sum (H : cid -> str -> str) : Prop := forall i c, H i c <> [].

(** * C74: what is downloaded has the stated checksums *)
(** Whatever the servers send, a download of one address that ends well leaves a file with every stated checksum *)
Theorem fetched_is_verified : forall H cf pre up mirrors s s', proper_sum H -> honest H s ->
  download_one H cf pre up mirrors s = (s', inl tt) -> exists c m, content s' = Some (c, m) /\ good H cf c.
Proof.
  intros H cf pre up mirrors s s' P HO E. assert (D := download_spec H P cf pre up mirrors s HO). rewrite E in D.
  destruct D as (c & m & r & t & C & _ & _ & G & _). now exists c, m.
Qed.
(** Stamps stay honest over every history of downloads, with recipes that change, and of changes from outside *)
Theorem stamps_stay_honest : forall H s s', proper_sum H -> honest H s -> history H s s' -> honest H s'.
Proof.
  intros H s s' P HO HI. induction HI as [s|s s1 s2 HI IH C]; [exact HO|]. specialize (IH HO). clear HI HO.
  destruct C as [cf pre up mirrors s1|s1 c m T|s1|s1|s1 s2 F S L].
  - assert (D := download_spec H P cf pre up mirrors s1 IH). destruct (download_one H cf pre up mirrors s1) as [s2 [u|e]]; cbn in D |- *.
    + now apply (full_honest H cf).
    + exact D.
  - intros c' m' l t C' S' LT. exfalso. cbn in C', S'. injection C' as <- <-. specialize (T l t S'). lia.
  - intros c' m' l t C'. discriminate.
  - intros c' m' l t _ S'. discriminate.
  - intros c' m' l t C' S' LT. unfold content in C'. rewrite F in C'. rewrite S in S'. destruct (file s1) as [[c m|n]|] eqn:FF; [| |discriminate].
    + apply (IH c' m' l t); [unfold content; now rewrite FF|exact S'|exact LT].
    + exfalso. specialize (L n eq_refl c' m' l t C' S'). lia.
Qed.
(** So after any history that starts with an empty directory *)
Theorem fetched_is_verified_always : forall H cf pre up mirrors mirror_files s s', proper_sum H ->
  history H {| file := None; stamp := None; bad := []; lm := mirror_files |} s ->
  download_one H cf pre up mirrors s = (s', inl tt) -> exists c m, content s' = Some (c, m) /\ good H cf c.
Proof.
  intros H cf pre up mirrors mf s s' P HI E. apply (fetched_is_verified H cf pre up mirrors s s' P); [|exact E].
  apply (stamps_stay_honest H _ s P) in HI; [exact HI|]. intros c m l t C. discriminate.
Qed.
(** All addresses of a recipe: when the whole download ends well, each file is verified, unless its address met a disk error *)
Theorem all_verified_partial : forall H js missing l, proper_sum H -> Forall (fun js => honest H (snd js)) js ->
  download_all H missing js = (l, None) -> missing = false /\
  Forall2 (fun js s' => (exists c m, content s' = Some (c, m) /\ good H (j_cfg (fst js)) c) \/
     snd (download_one H (j_cfg (fst js)) (j_pre (fst js)) (j_up (fst js)) (j_mirrors (fst js)) (snd js)) = inr EIO) js l.
Proof.
  intros H js. induction js as [|[j s] js IH]; intros missing l P F E; cbn [download_all] in E.
  - destruct missing; [discriminate|]. injection E as <-. split; [reflexivity|constructor].
  - inversion F as [|? ? HO F']; subst. cbn [snd] in HO.
    assert (D := download_spec H P (j_cfg j) (j_pre j) (j_up j) (j_mirrors j) s HO).
    destruct (download_one H (j_cfg j) (j_pre j) (j_up j) (j_mirrors j) s) as [s1 [u|e]] eqn:DE.
    + destruct (download_all H missing js) as [l1 x] eqn:A. injection E as <- ->. destruct (IH missing l1 P F' A) as [M R].
      split; [exact M|]. constructor; [|exact R]. left. cbn. destruct D as (c & m & r & t & C & _ & _ & G & _). now exists c, m.
    + destruct e; try discriminate.
      * destruct (download_all H true js) as [l1 x] eqn:A. injection E as <- ->. destruct (IH true l1 P F' A) as [M _]. discriminate.
      * destruct (download_all H missing js) as [l1 x] eqn:A. injection E as <- ->. destruct (IH missing l1 P F' A) as [M R].
        split; [exact M|]. constructor; [|exact R]. right. cbn [fst snd]. now rewrite DE.
Qed.
(** When checksums are required, an address without any is never downloaded with success *)
Theorem missing_checksum_refused : forall H cf pre up mirrors s, proper_sum H -> honest H s ->
  strict cf = Some (s_ "1") -> nothing_stated cf -> snd (download_one H cf pre up mirrors s) <> inl tt.
Proof.
  intros H cf pre up mirrors s P HO S N E. assert (D := download_spec H P cf pre up mirrors s HO).
  destruct (download_one H cf pre up mirrors s) as [s' [u|e]]; cbn in E; [|discriminate].
  destruct D as (c & m & r & t & _ & _ & _ & _ & X). tauto.
Qed.
(** A checksum function for examples: the text itself, marked *)
Definition H0 (i : cid) (c : str) : str := s_ "#" ++ c.
Lemma H0_proper : proper_sum H0. Proof. intros i c. discriminate. Qed.
Definition cf0 (want : string) : cfg :=
  {| expected := fun i => match i with SHA256 => Some (s_ want) | _ => None end; strict := None; no_network := false; premirror_only := false; trusted := true; clock := 100; movable := true |}.
Definition empty0 : st := {| file := None; stamp := None; bad := []; lm := fun n => if n =? 0 then Some (s_ "old", 7) else None |}.
(** FULL STATEMENT REFUTED: a file that does not have the stated checksum is not accepted.  When it is put in place of an
    earlier one with a time before that of the stamp, as a copy that keeps times does, the recorded checksums are believed. *)
Theorem verified_without_honesty_refuted : exists s s' c m, proper_sum H0 /\
  download_one H0 (cf0 "#good") [] Fails [] s = (s', inl tt) /\ content s' = Some (c, m) /\ ~ good H0 (cf0 "#good") c.
Proof.
  exists {| file := Some (Real (s_ "evil") 5); stamp := Some ((fun i => Some (s_ "#good")), 9); bad := []; lm := fun _ => None |}.
  exists (fst (download_one H0 (cf0 "#good") [] Fails []
    {| file := Some (Real (s_ "evil") 5); stamp := Some ((fun i => Some (s_ "#good")), 9); bad := []; lm := fun _ => None |})), (s_ "evil"), 5.
  split; [exact H0_proper|]. split; [vm_compute; reflexivity|]. split; [reflexivity|].
  intros G. specialize (G SHA256 (s_ "#good") eq_refl). cbn in G. specialize (G ltac:(discriminate)). discriminate.
Qed.
(** FULL STATEMENT REFUTED: a download that ends well leaves every file in place.  An error of the disk in the middle of it,
    such as a full one, ends the work on that address without a word. *)
Theorem all_verified_refuted : exists js l, Forall (fun js => honest H0 (snd js)) js /\ download_all H0 false js = (l, None) /\ map content l = [None].
Proof.
  exists [({| j_cfg := cf0 "#good"; j_pre := []; j_up := DiskError; j_mirrors := [] |}, empty0)], [empty0].
  split; [|split; vm_compute; reflexivity]. constructor; [|constructor]. intros c m l t C. discriminate.
Qed.
Definition s1 : st := Eval vm_compute in fst (download_one H0 (cf0 "#good") [Server (Got (s_ "evil") 3)] (Got (s_ "good") 4) [] empty0).
Definition s2 : st := Eval vm_compute in fst (download_one H0 (cf0 "#new") [] (Got (s_ "new") 8) [] s1).
Example fetch_example :
  honest H0 empty0 /\
  (* a bad premirror is passed over, and the stamp is written *)
  download_one H0 (cf0 "#good") [Server (Got (s_ "evil") 3)] (Got (s_ "good") 4) [] empty0 = (s1, inl tt) /\
  content s1 = Some (s_ "good", 4) /\ map fst (bad s1) = [Real (s_ "evil") 3] /\
  (* the recipe changes: the old file is moved away *)
  download_one H0 (cf0 "#new") [] (Got (s_ "new") 8) [] s1 = (s2, inl tt) /\
  content s2 = Some (s_ "new", 8) /\ length (bad s2) = 2 /\
  (* nothing fits *)
  snd (download_one H0 (cf0 "#other") [LocalFile 0] (Got (s_ "evil") 1) [Server Fails; Server (Got (s_ "bad") 1)] s2) = inr (EMismatch (s_ "#bad")).
Proof.
  split; [intros c m l t C; discriminate|]. repeat apply conj; vm_compute; reflexivity.
Qed.

(** * C75: the order of the sources *)
(** A file that is there with the stated checksums is kept, and no source can change that *)
Theorem present_file_kept : forall H cf c m pre up mirrors s, proper_sum H -> honest H s ->
  ~ (nothing_stated cf /\ strict cf = Some (s_ "1")) -> content s = Some (c, m) -> good H cf c ->
  exists s', download_one H cf pre up mirrors s = (s', inl tt) /\ content s' = Some (c, m) /\ file s' = file s /\ lm s' = lm s.
Proof.
  intros H cf c m pre up mirrors s P HO N C G. destruct (there H P cf N c m pre up mirrors s HO C G) as (s' & E & A & B & D).
  exists s'. split; [exact E|]. split; [now rewrite A|]. now split.
Qed.
(** A first premirror with the right file is used, whatever the other sources have *)
Theorem premirror_first : forall H cf c m pre up mirrors s, proper_sum H ->
  ~ (nothing_stated cf /\ strict cf = Some (s_ "1")) -> content s = None -> no_network cf = false -> c <> [] -> good H cf c ->
  exists s', download_one H cf (Server (Got c m) :: pre) up mirrors s = (s', inl tt) /\ content s' = Some (c, m).
Proof. intros H cf c m pre up mirrors s P N. intros. now apply first_premirror. Qed.
(** No premirror can keep a download from upstream from succeeding, when it sends the right file *)
Theorem upstream_suffices : forall H cf pre c m mirrors s, proper_sum H -> honest H s ->
  ~ (nothing_stated cf /\ strict cf = Some (s_ "1")) -> no_network cf = false -> premirror_only cf = false -> trusted cf = true ->
  c <> [] -> good H cf c -> ~ In (Server DiskError) pre ->
  exists s', download_one H cf pre (Got c m) mirrors s = (s', inl tt).
Proof. intros H cf pre c m mirrors s P HO N. intros. now apply live. Qed.
(** Without the network, no file is downloaded *)
Theorem no_network_no_download : forall H cf pre up mirrors s s' r c m, no_network cf = true ->
  download_one H cf pre up mirrors s = (s', r) -> file s' = Some (Real c m) -> file s = Some (Real c m).
Proof.
  intros H cf pre up mirrors s s' r c m N E F. apply (keeps_download H cf pre up mirrors N s c m). now rewrite E.
Qed.
(** With premirrors only, it does not matter what upstream sends *)
Theorem premirror_only_no_upstream : forall H cf pre up up' mirrors s, premirror_only cf = true ->
  download_one H cf pre up mirrors s = download_one H cf pre up' mirrors s.
Proof. intros H cf pre up up' mirrors s PO. unfold download_one, wget. rewrite PO, orb_true_r. reflexivity. Qed.
(** An address outside the allowed networks is not contacted *)
Theorem untrusted_not_contacted : forall H cf pre up up' mirrors s, trusted cf = false ->
  download_one H cf pre up mirrors s = download_one H cf pre up' mirrors s.
Proof. intros H cf pre up up' mirrors s T. unfold download_one. rewrite T. reflexivity. Qed.
(** FULL STATEMENT REFUTED: one source with the right file is enough.  Of several premirrors the first that sends anything is
    the only one used, so a bad one hides a good one; the same holds for the mirrors. *)
Theorem any_good_source_refuted : exists cf pre mirrors s, honest H0 s /\ no_network cf = false /\ trusted cf = true /\
  In (Server (Got (s_ "good") 1)) pre /\ In (Server (Got (s_ "good") 1)) mirrors /\ good H0 cf (s_ "good") /\
  snd (download_one H0 cf pre Fails mirrors s) <> inl tt.
Proof.
  exists (cf0 "#good"), [Server (Got (s_ "evil") 1); Server (Got (s_ "good") 1)], [Server (Got (s_ "evil") 1); Server (Got (s_ "good") 1)], empty0.
  split; [intros c m l t C; discriminate|]. split; [reflexivity|]. split; [reflexivity|]. split; [right; now left|]. split; [right; now left|].
  split; [|discriminate]. intros i x E N. destruct i; try discriminate. injection E as <-. reflexivity.
Qed.
(** FULL STATEMENT REFUTED: a local mirror is only read.  When a file in it does not have the stated checksum, as after an
    update of the recipe, the file of the mirror itself is renamed, and other recipes no longer find it. *)
Theorem local_mirror_untouched_refuted : exists cf up s s', honest H0 s /\ lm s 0 <> None /\
  download_one H0 cf [LocalFile 0] up [] s = (s', inl tt) /\ lm s' 0 = None.
Proof.
  exists (cf0 "#good"), (Got (s_ "good") 1), empty0, (fst (download_one H0 (cf0 "#good") [LocalFile 0] (Got (s_ "good") 1) [] empty0)).
  split; [intros c m l t C; discriminate|]. split; [discriminate|]. split; vm_compute; reflexivity.
Qed.

(** * C76: the list of mirrors *)
(** Each address is listed once, is allowed, is not the original, and follows from it by lines of which each is used once *)
Theorem mirrors_listed : forall line line_eqb repl trust ok orig lines tarballs,
  (forall x y : line, line_eqb x y = true <-> x = y) ->
  NoDup (build_mirroruris line line_eqb repl trust ok orig lines tarballs) /\
  forall w, In w (build_mirroruris line line_eqb repl trust ok orig lines tarballs) ->
    trust w = true /\ ok w = true /\ w <> orig /\ w <> [] /\ follows repl tarballs orig lines w.
Proof.
  intros line line_eqb repl trust ok orig lines tarballs EQ. unfold build_mirroruris.
  destruct (adduri_sound line line_eqb EQ repl trust ok orig (length lines) tarballs orig lines [] (NoDup_nil _)) as (new & E & N & F).
  rewrite E. cbn [app] in *. split; [exact N|exact F].
Qed.
(** Every allowed address that one line gives is listed *)
Theorem direct_mirrors_listed : forall line line_eqb repl trust ok orig lines tarballs x tb v,
  In (x : line) lines -> In tb tarballs -> repl orig x tb = Some v -> v <> [] -> v <> orig -> trust v = true -> ok v = true ->
  In v (build_mirroruris line line_eqb repl trust ok orig lines tarballs).
Proof.
  intros line line_eqb repl trust ok orig lines tarballs x tb v IX IT E N1 N2 T O. unfold build_mirroruris.
  destruct lines as [|y lines]; [destruct IX|]. cbn [length]. now apply (adduri_direct line line_eqb repl trust ok orig _ tarballs orig _ [] x tb v).
Qed.
(** The search ends: more steps than there are lines find nothing more *)
Theorem mirror_search_ends : forall line line_eqb repl trust ok orig lines tarballs fuel,
  (forall x y : line, line_eqb x y = true <-> x = y) -> length lines <= fuel ->
  adduri line line_eqb repl trust ok orig fuel tarballs orig lines [] = build_mirroruris line line_eqb repl trust ok orig lines tarballs.
Proof. intros line line_eqb repl trust ok orig lines tarballs fuel EQ L. unfold build_mirroruris. apply adduri_fuel; [exact EQ|exact L|reflexivity]. Qed.
(** A host is trusted exactly when one of the patterns allows it; the port does not matter *)
Theorem trusted_exact : forall hosts host port, hosts <> [] -> host <> [] -> ~ In ":"%char host -> (port = [] \/ exists p, port = s_ ":" ++ p) ->
  trusted_network false (Some hosts) (host ++ port) = true <-> exists h, In h (split_on " "%char hosts) /\ allowed h host.
Proof.
  intros hosts host port NH NN NC.
  intros PT. unfold trusted_network. destruct hosts as [|a hosts]; [congruence|]. set (hs := a :: hosts) in *.
  destruct (host ++ port) as [|b net] eqn:HP; [apply app_eq_nil in HP; tauto|]. rewrite <- HP. clear b net HP.
  assert (CUT : fst (cut_at ":"%char (host ++ port)) = host).
  { destruct PT as [->|[p ->]].
    - rewrite app_nil_r, cut_at_none by now apply no_char_In. reflexivity.
    - change (host ++ s_ ":" ++ p) with (host ++ ":"%char :: p). rewrite cut_at_some by now apply no_char_In. reflexivity. }
  rewrite CUT. rewrite existsb_exists. split.
  - intros (h & I & T). exists h. split; [exact I|]. cbv zeta in T. apply orb_true_iff in T. destruct T as [T|T].
    + apply andb_true_iff in T. destruct T as [T1 T2]. right. apply startswith_iff in T1. destruct T1 as [d D].
      exists d. split; [exact D|]. rewrite D in T2. cbn [s_ list_ascii_of_string app skipn] in T2. apply endswith_iff in T2.
      destruct T2 as [t T2]. destruct t as [|x t].
      * left. cbn in T2. now injection T2.
      * right. cbn in T2. injection T2 as _ T2. exists t. exact T2.
    + left. now apply seqb_eq.
  - intros (h & I & A). exists h. split; [exact I|]. cbv zeta. apply orb_true_iff. destruct A as [A|(d & D & B)].
    + right. now apply seqb_eq.
    + left. apply andb_true_iff. rewrite D. split; [apply startswith_app|]. cbn [s_ list_ascii_of_string app skipn].
      apply endswith_iff. destruct B as [->|[sub ->]]; [now exists []|]. now exists ("."%char :: sub).
Qed.
Definition repl0 (u : str) (x : str * str) (_ : nat) : option str := if startswith (fst x) u then Some (snd x ++ skipn (length (fst x)) u) else None.
Definition pair_eqb (a b : str * str) : bool := seqb (fst a) (fst b) && seqb (snd a) (snd b).
Example mirrors_example :
  (forall x y, pair_eqb x y = true <-> x = y) /\
  build_mirroruris _ pair_eqb repl0 (fun _ => true) (fun _ => true) (s_ "http://a/f")
    [(s_ "http://a", s_ "http://b"); (s_ "http://b", s_ "http://a"); (s_ "http://b", s_ "http://c")] [0] = map s_ ["http://b/f"; "http://c/f"]%string.
Proof.
  split; [|vm_compute; reflexivity]. intros [a b] [c d]. unfold pair_eqb. cbn. rewrite andb_true_iff, !seqb_eq. split; [intros [-> ->]; reflexivity|].
  intros E. injection E as -> ->. now split.
Qed.
Example trusted_example :
  trusted_network false (Some (s_ "*.debian.org ilbers.de")) (s_ "deb.Debian.org:443") = true /\
  trusted_network false (Some (s_ "*.debian.org ilbers.de")) (s_ "notdebian.org") = false /\
  trusted_network false (Some (s_ "*.debian.org ilbers.de")) (s_ "www.ilbers.de") = false.
Proof. repeat split; vm_compute; reflexivity. Qed.

Print Assumptions fetched_is_verified_always.
Print Assumptions all_verified_partial.
Print Assumptions upstream_suffices.
Print Assumptions no_network_no_download.
Print Assumptions mirrors_listed.
Print Assumptions trusted_exact.

(** ** Further cases that meet the hypotheses *)
Definition nothing0 : cfg := {| expected := fun _ => None; strict := Some (s_ "1"); no_network := false; premirror_only := false; trusted := true; clock := 100; movable := true |}.
Example history_met : history H0 empty0 s1 /\ honest H0 s1.
Proof.
  assert (X : history H0 empty0 s1). { eapply h_step; [apply h_start|]. apply (fetched H0 (cf0 "#good") [Server (Got (s_ "evil") 3)] (Got (s_ "good") 4) [] empty0). }
  split; auto. eapply stamps_stay_honest; [exact H0_proper| |exact X]. apply fetch_example.
Qed.
Example missing_checksum_met : nothing_stated nothing0 /\ snd (download_one H0 nothing0 [] (Got (s_ "good") 4) [] empty0) <> inl tt.
Proof. assert (N : nothing_stated nothing0) by discriminate. split; auto. apply missing_checksum_refused; auto; [exact H0_proper|apply fetch_example]. Qed.
Lemma good0 : good H0 (cf0 "#good") (s_ "good").
Proof. intros [] x E _; try discriminate E. injection E as <-. reflexivity. Qed.
Lemma stated0 : ~ (nothing_stated (cf0 "#good") /\ strict (cf0 "#good") = Some (s_ "1")).
Proof. intros [_ E]. discriminate E. Qed.
Example present_file_met : exists s', download_one H0 (cf0 "#good") [] Fails [] s1 = (s', inl tt) /\ content s' = Some (s_ "good", 4).
Proof.
  destruct (present_file_kept H0 (cf0 "#good") (s_ "good") 4 [] Fails [] s1 H0_proper (proj2 history_met) stated0 eq_refl good0) as (s' & A & B & _). eauto.
Qed.
Example premirror_met : exists s', download_one H0 (cf0 "#good") [Server (Got (s_ "good") 4)] Fails [] empty0 = (s', inl tt) /\ content s' = Some (s_ "good", 4).
Proof. apply (premirror_first H0 (cf0 "#good") (s_ "good") 4 [] Fails [] empty0 H0_proper stated0); auto; [discriminate|exact good0]. Qed.
Example upstream_met : exists s', download_one H0 (cf0 "#good") [Server (Got (s_ "evil") 3)] (Got (s_ "good") 4) [] empty0 = (s', inl tt).
Proof. apply (upstream_suffices H0 (cf0 "#good") _ (s_ "good") 4 [] empty0 H0_proper); auto; [apply fetch_example|exact stated0|discriminate|exact good0|intros [E|[]]; discriminate E]. Qed.

