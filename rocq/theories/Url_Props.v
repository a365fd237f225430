(** C41: fetch URLs. *)
From Coq Require Import Ascii String List Bool NArith Lia.
From Verif Require Import Str_Model Str_Proofs Data_Model Data_Proofs Sstname_Model Url_Model Url_Spec Url_Proofs.
Import ListNotations.
Open Scope list_scope.

(** *** Reading: every part of a URL goes where it belongs. *)
Theorem parts_do_not_leak w : good_url w ->
  decodeurl (text w) = Decoded
    {| u_type := w_scheme w; u_host := w_host w; u_path := unquote (w_path w);
       u_user := match w_user w with None => [] | Some (u, _) => u end;
       u_pswd := match w_user w with Some (_, Some p) => p | _ => [] end;
       u_parm := w_parms w |}.
Proof. exact (read_url w). Qed.
Example parts_do_not_leak_example :
  let w := {| w_scheme := s_ "git"; w_user := Some (s_ "me@work", Some (s_ "p:w@x")); w_host := s_ "h:22"; w_path := s_ "/a%20b/c@d"; w_parms := [(s_ "branch", s_ "a=b"); (s_ "name", [])] |} in
  good_url w /\ text w = s_ "git://me@work:p:w@x@h:22/a%20b/c@d;branch=a=b;name=" /\
  decodeurl (text w) = Decoded {| u_type := s_ "git"; u_host := s_ "h:22"; u_path := s_ "/a b/c@d"; u_user := s_ "me@work"; u_pswd := s_ "p:w@x"; u_parm := [(s_ "branch", s_ "a=b"); (s_ "name", [])] |}.
Proof.
  cbn zeta. split; [|split; vm_compute; reflexivity].
  repeat split; try discriminate; cbn; try (intros ? ?; cbn in *; intuition (subst; discriminate)); try (intros F; discriminate F); eauto.
  - repeat constructor; cbn; intuition discriminate.
  - repeat constructor; intros ? ?; cbn in *; intuition (subst; discriminate).
Qed.
Print Assumptions parts_do_not_leak.

(** *** Round trip.  What decoding yields can be encoded, and decoding that gives
    the same parts, with repeated slashes in the path merged. *)
Theorem decode_encode_decode s u : decodeurl s = Decoded u -> u_type u <> [] ->
  (u_type u = s_ "file" -> u_user u = []) -> ~ In "@"%char (u_host u) ->
  exists s', encodeurl u = Some s' /\
    decodeurl s' = Decoded {| u_type := u_type u; u_host := u_host u; u_path := squeeze (u_path u); u_user := u_user u; u_pswd := u_pswd u; u_parm := u_parm u |}.
Proof.
  intros D T F H. eexists. split; [now apply encode_text|]. destruct (decoded_good s u D) as (G1 & G2 & G3 & G4 & G5 & G6 & G7 & G8 & G9 & G10).
  rewrite read_url.
  - unfold components, written_of. cbn [w_scheme w_host w_path w_user w_parms]. rewrite unquote_quote. f_equal. destruct (seqb (u_type u) (s_ "file")) eqn:E.
    + apply seqb_eq in E. rewrite (F E), (G3 (F E)). rewrite G7 by (unfold is_file; rewrite E; reflexivity). reflexivity.
    + destruct (u_user u) as [|x us] eqn:U; [now rewrite G3|]. destruct (u_pswd u); reflexivity.
  - unfold good_url, written_of. cbn [w_scheme w_host w_path w_user w_parms].
    assert (Q : lacks (s_ ";@") (quote (squeeze (u_path u)))) by apply quote_lacks.
    assert (NE : squeeze (u_path u) <> []) by (destruct (u_path u) as [|c p]; [congruence|]; destruct (squeeze_head c p) as (t & ->); discriminate).
    assert (HH : lacks (s_ "/;@") (if seqb (u_type u) (s_ "file") then [] else u_host u)).
    { destruct (seqb (u_type u) (s_ "file")); [intros c _ []|]. intros c C. cbn in C. destruct C as [<-|[<-|[<-|[]]]]; auto; apply G5; cbn; tauto. }
    split; [exact G1|]. split.
    { destruct (seqb (u_type u) (s_ "file")); auto. destruct (u_user u) as [|x us]; auto. split; [discriminate|]. split; auto. destruct (u_pswd u); auto. }
    split; [exact HH|]. split; [intros c C; apply Q; cbn in *; tauto|]. split; [|split; [|split; auto]].
    + intros FI. split; [destruct (seqb (u_type u) (s_ "file")); auto|]. split; [now apply quote_nonempty|]. intros c C; apply Q; cbn in *; tauto.
    + intros NF. destruct (G8 NF) as (p & EP). rewrite EP. destruct (squeeze_head "/"%char p) as (t & ->). rewrite quote_slash. eauto.
Qed.
Example decode_encode_decode_example :
  exists u, decodeurl (s_ "https://u:p@example.org//a//b%3bc;x=1;x=2") = Decoded u /\ u_type u <> [] /\ ~ In "@"%char (u_host u) /\
    encodeurl u = Some (s_ "https://u:p@example.org/a/b%3Bc;x=2").
Proof. eexists. split; [vm_compute; reflexivity|]. split; [discriminate|]. split; [|vm_compute; reflexivity]. cbn. intuition discriminate. Qed.
Print Assumptions decode_encode_decode.
(** Encoding is stable: a second round changes nothing. *)
Theorem encode_stable s u s' : decodeurl s = Decoded u -> u_type u <> [] ->
  (u_type u = s_ "file" -> u_user u = []) -> ~ In "@"%char (u_host u) -> encodeurl u = Some s' ->
  exists u', decodeurl s' = Decoded u' /\ encodeurl u' = Some s'.
Proof.
  intros D T F H E. destruct (decode_encode_decode s u D T F H) as (s'' & E' & D'). rewrite E in E'. injection E' as <-. eexists. split; [exact D'|].
  rewrite encode_text by auto. rewrite encode_text in E by auto. injection E as <-. f_equal. f_equal. unfold written_of. cbn [u_type u_user u_pswd u_host u_path u_parm]. f_equal. f_equal.
  apply squeeze_one. apply squeeze_no_double.
Qed.
(** The loop that merges slashes always ends, and leaves no two in a row. *)
Theorem slashes_merged p : exists q, collapse (length p) p = Some q /\ q = squeeze p /\ forall a b, q <> a ++ s_ "//" ++ b.
Proof.
  exists (squeeze p). split; [now apply collapse_squeeze|]. split; auto. intros a b E. assert (C : contains_sub (s_ "//") (squeeze p) = true) by (apply contains_sub_iff; eauto).
  now rewrite squeeze_no_double in C.
Qed.

(** *** The path that is returned is the decoded one, which is only one text *)
Lemma hex_val_is c n : hex_val c = Some n <-> exists k, hex_is c k /\ n = N.of_nat k.
Proof.
  split.
  - destruct c as [[] [] [] [] [] [] [] []]; vm_compute; try discriminate; intros E; injection E as <-;
    first [exists 0; split; [solve [left; reflexivity|right; reflexivity]|reflexivity]|exists 1; split; [solve [left; reflexivity|right; reflexivity]|reflexivity]
          |exists 2; split; [solve [left; reflexivity|right; reflexivity]|reflexivity]|exists 3; split; [solve [left; reflexivity|right; reflexivity]|reflexivity]
          |exists 4; split; [solve [left; reflexivity|right; reflexivity]|reflexivity]|exists 5; split; [solve [left; reflexivity|right; reflexivity]|reflexivity]
          |exists 6; split; [solve [left; reflexivity|right; reflexivity]|reflexivity]|exists 7; split; [solve [left; reflexivity|right; reflexivity]|reflexivity]
          |exists 8; split; [solve [left; reflexivity|right; reflexivity]|reflexivity]|exists 9; split; [solve [left; reflexivity|right; reflexivity]|reflexivity]
          |exists 10; split; [solve [left; reflexivity|right; reflexivity]|reflexivity]|exists 11; split; [solve [left; reflexivity|right; reflexivity]|reflexivity]
          |exists 12; split; [solve [left; reflexivity|right; reflexivity]|reflexivity]|exists 13; split; [solve [left; reflexivity|right; reflexivity]|reflexivity]
          |exists 14; split; [solve [left; reflexivity|right; reflexivity]|reflexivity]|exists 15; split; [solve [left; reflexivity|right; reflexivity]|reflexivity]].
  - intros (k & [H|H] & ->); do 16 (destruct k as [|k]; [injection H as <-; reflexivity|]); destruct k; discriminate.
Qed.
Lemma hex_is_fun c n m : hex_is c n -> hex_is c m -> n = m.
Proof.
  intros A B. assert (X : hex_val c = Some (N.of_nat n)) by (apply hex_val_is; eauto). assert (Y : hex_val c = Some (N.of_nat m)) by (apply hex_val_is; eauto).
  rewrite X in Y. injection Y as Y. now apply Nnat.Nat2N.inj.
Qed.
Theorem path_decoded : forall s, percent_decoded s (unquote s).
Proof.
  intros s. remember (length s) as k eqn:K. assert (L : length s <= k) by now rewrite K. clear K. revert s L. induction k as [|k IH]; intros [|c [|a [|b s]]] L; cbn [length] in L; try (exfalso; lia); try (cbn [unquote]; solve [constructor]).
  - cbn [unquote]. apply pd_keep; [|constructor]. intros (a & b & s' & x & y & _ & E & _). discriminate.
  - cbn [unquote]. apply pd_keep; [intros (x & y & s' & m & n & _ & E & _); discriminate|]. apply pd_keep; [intros (x & y & s' & m & n & _ & E & _); discriminate|constructor].
  - change (unquote (c :: a :: b :: s)) with (if aeqb c "%"%char then match hex_val a, hex_val b with Some x, Some y => ascii_of_N (x * 16 + y) :: unquote s | _, _ => c :: unquote (a :: b :: s) end else c :: unquote (a :: b :: s)).
    assert (I1 : percent_decoded (a :: b :: s) (unquote (a :: b :: s))) by (apply IH; cbn [length]; lia). assert (I2 : percent_decoded s (unquote s)) by (apply IH; lia).
    destruct (aeqb c "%"%char) eqn:C.
    + apply aeqb_eq in C. subst c. destruct (hex_val a) as [x|] eqn:A; [destruct (hex_val b) as [y|] eqn:B|].
      * apply hex_val_is in A, B. destruct A as (x' & A & ->), B as (y' & B & ->).
        replace (ascii_of_N (N.of_nat x' * 16 + N.of_nat y')) with (ascii_of_nat (16 * x' + y')) by (unfold ascii_of_nat; f_equal; lia). now apply pd_hex.
      * apply pd_keep; auto. intros (a' & b' & s' & x' & y' & _ & E & _ & Y). injection E as <- <- <-. assert (hex_val b = Some (N.of_nat y')) by (apply hex_val_is; eauto). congruence.
      * apply pd_keep; auto. intros (a' & b' & s' & x' & y' & _ & E & X & _). injection E as <- <- <-. assert (hex_val a = Some (N.of_nat x')) by (apply hex_val_is; eauto). congruence.
    + apply pd_keep; auto. intros (a' & b' & s' & x' & y' & E & _). apply aeqb_neq in C. congruence.
Qed.
Theorem percent_decoded_unique : forall s t, percent_decoded s t -> forall t', percent_decoded s t' -> t = t'.
Proof.
  intros s t D. induction D as [|a b x y s t A B D IH|c s t N D IH]; intros t' D'; inversion D' as [|a' b' x' y' s' u A' B' D'' E|c' s' u N' D'' E]; subst; auto.
  - rewrite (hex_is_fun _ _ _ A A'), (hex_is_fun _ _ _ B B'). f_equal. now apply IH.
  - exfalso. apply N'. exists a, b, s, x, y. auto.
  - exfalso. apply N. exists a', b', s', x', y'. auto.
  - f_equal. now apply IH.
Qed.
Print Assumptions path_decoded.
Print Assumptions percent_decoded_unique.

(** *** Refuted: a user is kept for every scheme. *)
Theorem file_user_lost_refuted : exists u s' u', decodeurl (s_ "file://me@x/y") = Decoded u /\ u_user u = s_ "me" /\
  encodeurl u = Some s' /\ decodeurl s' = Decoded u' /\ u_user u' = [].
Proof. do 3 eexists. split; [vm_compute; reflexivity|]. split; [reflexivity|]. split; [vm_compute; reflexivity|]. split; [vm_compute; reflexivity|reflexivity]. Qed.
(** *** Refuted: the host stays the host.  With nothing after the "@", it is read
    as part of the host, and as the user after encoding. *)
Theorem host_becomes_user_refuted : exists u s' u', decodeurl (s_ "git://me@") = Decoded u /\ u_host u = s_ "me@" /\ u_user u = [] /\
  encodeurl u = Some s' /\ decodeurl s' = Decoded u' /\ u_host u' = [] /\ u_user u' = s_ "me".
Proof. do 3 eexists. split; [vm_compute; reflexivity|]. do 2 (split; [reflexivity|]). do 2 (split; [vm_compute; reflexivity|]). split; reflexivity. Qed.
(** *** Refuted: decoding either succeeds or reports a malformed URL.  An empty user name with a
    password leaves a variable unset. *)
Theorem empty_user_crashes_refuted : decodeurl (s_ "git://:pw@host/x") = Unbound.
Proof. vm_compute. reflexivity. Qed.
(** *** Refuted: every decoded URL can be encoded. *)
Theorem empty_scheme_refuted : exists u, decodeurl (s_ "://host/x") = Decoded u /\ encodeurl u = None.
Proof. eexists. split; vm_compute; reflexivity. Qed.
