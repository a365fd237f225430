(** Lemmas for C41. *)
From Coq Require Import Ascii String List Bool Arith NArith Lia.
From Verif Require Import Str_Model Str_Proofs Data_Model Data_Proofs Sstname_Model Sstname_Proofs Url_Model Url_Spec.
Import ListNotations.
Open Scope list_scope.

Lemma lacks_app cs a b : lacks cs (a ++ b) <-> lacks cs a /\ lacks cs b.
Proof. unfold lacks. split; [intros H; split; intros c I J; apply (H c I); apply in_or_app; auto|]. intros [A B] c I J. apply in_app_or in J. destruct J; [apply (A c)|apply (B c)]; auto. Qed.
Lemma lacks_sub cs ds s : incl ds cs -> lacks cs s -> lacks ds s.
Proof. intros I L c J. apply L. auto. Qed.
Lemma lacks_char c cs s : In c cs -> lacks cs s -> no_char c s.
Proof. intros I L. apply no_char_In. now apply L. Qed.

(** ** quote and unquote *)
Lemma hex_pair c : hex_val (hex_digit (N_of_ascii c / 16)) = Some (N_of_ascii c / 16)%N /\ hex_val (hex_digit (N_of_ascii c mod 16)) = Some (N_of_ascii c mod 16)%N.
Proof. destruct c as [[] [] [] [] [] [] [] []]; vm_compute; auto. Qed.
Lemma safe_not_percent c : safe_char c = true -> aeqb c "%"%char = false.
Proof. intros S. apply aeqb_neq. intros ->. discriminate S. Qed.
Lemma unquote_plain c t : aeqb c "%"%char = false -> unquote (c :: t) = c :: unquote t.
Proof. intros E. destruct t as [|a [|b t]]; cbn [unquote]; auto. now rewrite E. Qed.
Lemma unquote_quote s : unquote (quote s) = s.
Proof.
  induction s as [|c s IH]; auto. change (quote (c :: s)) with ((if safe_char c then [c] else ["%"%char; hex_digit (N_of_ascii c / 16); hex_digit (N_of_ascii c mod 16)]) ++ quote s).
  destruct (safe_char c) eqn:S; cbn [app].
  - rewrite unquote_plain by now apply safe_not_percent. now rewrite IH.
  - cbn [unquote]. rewrite aeqb_refl. destruct (hex_pair c) as [-> ->]. rewrite IH. f_equal.
    rewrite N.mul_comm, <- N.div_mod by discriminate. apply ascii_N_embedding.
Qed.
Lemma hex_digit_chars c d : d = hex_digit (N_of_ascii c / 16) \/ d = hex_digit (N_of_ascii c mod 16) -> safe_char d = true.
Proof. intros H. assert (A : safe_char (hex_digit (N_of_ascii c / 16)) = true /\ safe_char (hex_digit (N_of_ascii c mod 16)) = true) by (destruct c as [[] [] [] [] [] [] [] []]; vm_compute; auto). destruct A, H; subst; auto. Qed.
Lemma quote_chars s d : In d (quote s) -> d = "%"%char \/ safe_char d = true.
Proof.
  unfold quote. rewrite in_flat_map. intros (c & _ & I). destruct (safe_char c) eqn:S; cbn [In] in I.
  - destruct I as [<-|[]]. auto.
  - destruct I as [<-|[<-|[<-|[]]]]; auto; right; eapply hex_digit_chars; eauto.
Qed.
Lemma quote_lacks s : lacks (s_ ";@") (quote s).
Proof. intros c I J. apply quote_chars in J. cbn in I. destruct I as [<-|[<-|[]]], J; discriminate. Qed.
Lemma quote_slash s : quote ("/"%char :: s) = "/"%char :: quote s.
Proof. reflexivity. Qed.
Lemma quote_nonempty s : s <> [] -> quote s <> [].
Proof. destruct s as [|c s]; [congruence|]. intros _. change (quote (c :: s)) with ((if safe_char c then [c] else ["%"%char; hex_digit (N_of_ascii c / 16); hex_digit (N_of_ascii c mod 16)]) ++ quote s). destruct (safe_char c); discriminate. Qed.

(** ** Reading *)
Lemma no_user_group a t : ~ In "@"%char a -> match t with [] => True | c :: _ => c = "/"%char \/ c = ";"%char end -> user_group (a ++ t) = None.
Proof.
  intros A T. induction a as [|c a IH]; cbn [app user_group].
  - destruct t as [|c t]; auto. cbn [user_group]. destruct T as [-> | ->]; reflexivity.
  - destruct (aeqb c "/"%char || aeqb c ";"%char); auto. rewrite IH by (intros I; apply A; now right).
    assert (E : aeqb c "@"%char = false) by (apply aeqb_neq; intros ->; apply A; now left). now rewrite E.
Qed.
Lemma user_group_found u l : lacks (s_ "/;") u -> user_group l = None -> loc_start l = true -> user_group (u ++ "@"%char :: l) = Some (u, l).
Proof.
  intros U G L. induction u as [|c u IH]; cbn [app user_group].
  - cbn. now rewrite G, L.
  - assert (E : aeqb c "/"%char = false /\ aeqb c ";"%char = false).
    { split; apply aeqb_neq; intros ->; [apply (U "/"%char)|apply (U ";"%char)]; cbn; tauto. }
    destruct E as [-> ->]. cbn [orb]. rewrite IH; auto. intros d D I. apply (U d D). now right.
Qed.
Lemma one_line_id s : ~ In nl s -> one_line s = s.
Proof.
  intros N. unfold one_line. rewrite <- (app_nil_r s) at 1. rewrite span_all; auto. intros c I. apply negb_true_iff, aeqb_neq. intros ->. auto.
Qed.
Definition kv_text (kv : str * str) : str := fst kv ++ s_ "=" ++ snd kv.
Definition parm_text (l : list (str * str)) : str := flat_map (fun kv => s_ ";" ++ kv_text kv) l.
Lemma parm_text_join kv l : parm_text (kv :: l) = ";"%char :: join (s_ ";") (map kv_text (kv :: l)).
Proof.
  revert kv. induction l as [|kv' l IH]; intros kv.
  - cbn. now rewrite app_nil_r.
  - change (parm_text (kv :: kv' :: l)) with (";"%char :: kv_text kv ++ parm_text (kv' :: l)). rewrite IH. reflexivity.
Qed.
Lemma set_fresh {A} (m : list (str * A)) k v : ~ In k (map fst m) -> set m k v = m ++ [(k, v)].
Proof.
  induction m as [|[a w] m IH]; intros N; auto. cbn [set]. destruct (seqb k a) eqn:E; [apply seqb_eq in E; subst; exfalso; apply N; now left|].
  cbn [app]. f_equal. apply IH. intros I. apply N. now right.
Qed.
Lemma params_read l : forall m, Forall (fun kv => ~ In "="%char (fst kv)) l -> NoDup (map fst m ++ map fst l) -> params (map kv_text l) m = Some (m ++ l).
Proof.
  induction l as [|[k v] l IH]; intros m F N; [now rewrite app_nil_r|]. inversion F; subst. cbn [map fst] in *. cbn [params].
  assert (C : cut_at "="%char (kv_text (k, v)) = (k, Some v)) by (apply cut_at_some; now apply no_char_In).
  destruct (kv_text (k, v)) as [|c t] eqn:E; [destruct k; discriminate E|]. rewrite C, set_fresh.
  - rewrite IH; auto; [now rewrite <- app_assoc|]. rewrite map_app. cbn [map fst]. now rewrite <- app_assoc.
  - apply NoDup_remove_2 in N. intros I. apply N. apply in_or_app. now left.
Qed.
Lemma parms_read l : NoDup (map fst l) -> Forall (fun kv => lacks (nl :: s_ ";=") (fst kv) /\ lacks (nl :: s_ ";") (snd kv)) l ->
  params (split_on ";"%char (match parm_text l with _ :: s4 => one_line s4 | [] => [] end)) [] = Some l.
Proof.
  intros N F. destruct l as [|kv l]; [reflexivity|]. rewrite parm_text_join.
  assert (L : Forall (fun t => no_char ";"%char t /\ ~ In nl t) (map kv_text (kv :: l))).
  { apply Forall_map. eapply Forall_impl; [|exact F]. intros [k v] [A B]. cbn [fst snd] in *. unfold kv_text. cbn [fst snd].
    split; [apply no_char_In|]; rewrite !in_app_iff; intros [I|[I|I]].
    - apply (A ";"%char); cbn; tauto.
    - cbn in I. intuition discriminate.
    - apply (B ";"%char); cbn; tauto.
    - apply (A nl); cbn; tauto.
    - cbn in I. intuition discriminate.
    - apply (B nl); cbn; tauto. }
  rewrite one_line_id.
  - rewrite split_on_join; [|discriminate|].
    + apply (params_read (kv :: l) []); auto. eapply Forall_impl; [|exact F]. intros [k v] [A _]. apply A. cbn. tauto.
    + eapply Forall_impl; [|exact L]. intros t [? ?]. auto.
  - clear -L. set (ts := map kv_text (kv :: l)) in *. clearbody ts. induction L as [|t ts [_ Nt] L IH]; auto. destruct ts as [|t' ts]; auto.
    rewrite join_cons by discriminate. rewrite !in_app_iff. intros [I|[I|I]]; auto. cbn in I. intuition discriminate.
Qed.
Lemma parm_text_head l : match parm_text l with [] => True | c :: _ => c = ";"%char end.
Proof. destruct l as [|kv l]; cbn; auto. Qed.
Definition components (w : written) : url :=
  {| u_type := w_scheme w; u_host := w_host w; u_path := unquote (w_path w);
     u_user := match w_user w with None => [] | Some (u, _) => u end;
     u_pswd := match w_user w with Some (_, Some p) => p | _ => [] end;
     u_parm := w_parms w |}.
Lemma read_url w : good_url w -> decodeurl (text w) = Decoded (components w).
Proof.
  intros (T & U & H & P & FF & NF & ND & PP). unfold decodeurl, text.
  set (ut := match w_user w with None => [] | Some (u, None) => u ++ s_ "@" | Some (u, Some p) => u ++ s_ ":" ++ p ++ s_ "@" end).
  change (flat_map (fun kv => s_ ";" ++ fst kv ++ s_ "=" ++ snd kv) (w_parms w)) with (parm_text (w_parms w)).
  assert (C : cut_at ":"%char (w_scheme w ++ s_ "://" ++ ut ++ w_host w ++ w_path w ++ parm_text (w_parms w)) =
              (w_scheme w, Some ("/"%char :: "/"%char :: ut ++ w_host w ++ w_path w ++ parm_text (w_parms w)))).
  { apply cut_at_some. apply no_char_In. apply T. cbn. tauto. }
  rewrite C. clear C T.
  assert (PN : exists c p, w_host w ++ w_path w = c :: p /\ c <> ";"%char).
  { destruct (list_eq_dec ascii_dec (lower (w_scheme w)) (s_ "file")) as [E|NE].
    - destruct (FF E) as (HN & PN & _). rewrite HN. destruct (w_path w) as [|c p] eqn:W; [congruence|]. exists c, p. split; auto. intros ->. apply (P ";"%char); cbn; tauto.
    - destruct (NF NE) as (p & ->). destruct (w_host w) as [|c h] eqn:W; [exists "/"%char, p; split; [auto|discriminate]|]. exists c, (h ++ "/"%char :: p). split; auto.
      intros ->. apply (H ";"%char); cbn; tauto. }
  assert (G : user_group (w_host w ++ w_path w ++ parm_text (w_parms w)) = None).
  { destruct (list_eq_dec ascii_dec (lower (w_scheme w)) (s_ "file")) as [E|NE].
    - destruct (FF E) as (HN & _ & PA). rewrite HN. cbn [app]. apply no_user_group; [apply PA; cbn; tauto|]. pose proof (parm_text_head (w_parms w)) as X. destruct (parm_text (w_parms w)); auto.
    - destruct (NF NE) as (p & ->). apply no_user_group; [apply H; cbn; tauto|]. cbn [app]. auto. }
  assert (LS : loc_start (w_host w ++ w_path w ++ parm_text (w_parms w)) = true).
  { rewrite app_assoc. destruct PN as (c & p & -> & NC). cbn [app loc_start]. now apply negb_true_iff, aeqb_neq. }
  assert (SU : split_user (ut ++ w_host w ++ w_path w ++ parm_text (w_parms w)) =
               (match w_user w with None => [] | Some (u, None) => u | Some (u, Some p) => u ++ s_ ":" ++ p end, w_host w ++ w_path w ++ parm_text (w_parms w))).
  { unfold split_user, ut. destruct (w_user w) as [[u [p|]]|].
    - destruct U as (NU & LU & LP).
      replace ((u ++ s_ ":" ++ p ++ s_ "@") ++ w_host w ++ w_path w ++ parm_text (w_parms w)) with ((u ++ s_ ":" ++ p) ++ "@"%char :: w_host w ++ w_path w ++ parm_text (w_parms w)) by (rewrite <- !app_assoc; reflexivity).
      rewrite user_group_found; auto; [destruct u; [congruence|reflexivity]|]. apply lacks_app. split; [eapply lacks_sub; [|exact LU]; intros x; cbn; tauto|].
      apply lacks_app. split; [intros x I J; cbn in I, J; intuition (subst; discriminate)|]. eapply lacks_sub; [|exact LP]. intros x. cbn. tauto.
    - destruct U as (NU & LU & _). rewrite <- app_assoc. change (s_ "@" ++ ?x) with ("@"%char :: x). rewrite user_group_found; auto; [destruct u; [congruence|reflexivity]|].
      eapply lacks_sub; [|exact LU]; intros x; cbn; tauto.
    - cbn [app]. now rewrite G. }
  rewrite SU. clear SU G LS.
  assert (SL : span (fun c => negb (aeqb c ";"%char)) (w_host w ++ w_path w ++ parm_text (w_parms w)) = (w_host w ++ w_path w, parm_text (w_parms w))).
  { rewrite app_assoc. apply span_all.
    - intros c I. apply negb_true_iff, aeqb_neq. intros ->. apply in_app_or in I. destruct I as [I|I]; revert I; [apply H|apply P]; cbn; tauto.
    - pose proof (parm_text_head (w_parms w)) as X. destruct (parm_text (w_parms w)); auto. subst. reflexivity. }
  rewrite SL. clear SL.
  assert (NE : w_host w ++ w_path w <> []) by (destruct PN as (c & p & -> & _); discriminate).
  destruct (w_host w ++ w_path w) as [|lc ls] eqn:LE; [congruence|]. clear NE. rewrite <- LE. clear lc ls LE PN.
  assert (HP : (if seqb (lower (w_scheme w)) (s_ "file") then ([], w_host w ++ w_path w)
     else let (h, p) := span (fun c => negb (aeqb c "/"%char)) (w_host w ++ w_path w) in (h, match p with [] => s_ "/" | _ => p end)) = (w_host w, w_path w)).
  { destruct (seqb (lower (w_scheme w)) (s_ "file")) eqn:E.
    - apply seqb_eq in E. destruct (FF E) as (-> & _). reflexivity.
    - apply seqb_neq in E. destruct (NF E) as (p & ->). rewrite span_all; auto. intros c I. apply negb_true_iff, aeqb_neq. intros ->. revert I. apply H. cbn. tauto. }
  lazymatch goal with |- context [if seqb (lower (w_scheme w)) (s_ "file") then ?a else ?b] =>
    replace (if seqb (lower (w_scheme w)) (s_ "file") then a else b) with (w_host w, w_path w) by (symmetry; exact HP) end. clear HP. cbv iota beta.
  assert (UP : user_pswd match w_user w with None => [] | Some (u, None) => u | Some (u, Some p) => u ++ s_ ":" ++ p end = Some (u_user (components w), u_pswd (components w))).
  { unfold components. cbn [u_user u_pswd]. unfold user_pswd. destruct (w_user w) as [[u [p|]]|]; auto.
    - destruct U as (NU & LU & LP). change (s_ ":" ++ p) with (":"%char :: p). rewrite cut_at_some by (apply no_char_In, LU; cbn; tauto).
      rewrite one_line_id by (apply LP; cbn; tauto). destruct u as [|c u]; [congruence|]. reflexivity.
    - destruct U as (NU & LU & _). rewrite cut_at_none by (apply no_char_In, LU; cbn; tauto). destruct u as [|c u]; [congruence|]. reflexivity. }
  lazymatch goal with |- context [user_pswd ?x] => replace (user_pswd x) with (Some (u_user (components w), u_pswd (components w))) by (symmetry; exact UP) end. cbv iota beta.
  lazymatch goal with |- context [params ?x []] => replace (params x []) with (Some (w_parms w)) by (symmetry; apply parms_read; auto) end. reflexivity.
Qed.

(** ** collapse *)
Lemma squeeze_cons c d s : squeeze (c :: d :: s) = if aeqb c "/"%char && aeqb d "/"%char then squeeze (d :: s) else c :: squeeze (d :: s).
Proof. reflexivity. Qed.
Lemma squeeze_one s : contains_sub (s_ "//") s = false -> squeeze s = s.
Proof.
  induction s as [|c s IH]; auto. cbn [contains_sub]. intros E. apply orb_false_iff in E. destruct E as [E1 E2]. destruct s as [|d s]; auto. rewrite squeeze_cons.
  assert (X : aeqb c "/"%char && aeqb d "/"%char = false).
  { destruct (aeqb c "/"%char) eqn:C, (aeqb d "/"%char) eqn:D; auto. apply aeqb_eq in C, D. subst. discriminate E1. }
  rewrite X. f_equal. now apply IH.
Qed.
Definition rep (s : str) : str := replace_str (s_ "//") (s_ "/") s.
Lemma rep_two s : rep ("/"%char :: "/"%char :: s) = "/"%char :: rep s.
Proof. reflexivity. Qed.
Lemma rep_other c s : (c <> "/"%char \/ match s with d :: _ => d <> "/"%char | [] => True end) -> rep (c :: s) = c :: rep s.
Proof.
  intros H. unfold rep, replace_str. change (s_ "//") with ["/"%char; "/"%char]. cbn [replace_aux]. assert (E : startswith ["/"%char; "/"%char] (c :: s) = false); [|now rewrite E].
  cbn [startswith]. destruct H as [H|H]; [assert (X : aeqb "/"%char c = false) by (apply aeqb_neq; congruence); now rewrite X|].
  destruct s as [|d s]; [apply andb_false_r|]. assert (X : aeqb "/"%char d = false) by (apply aeqb_neq; congruence). rewrite X. apply andb_false_r.
Qed.
Lemma squeeze_slash s : squeeze ("/"%char :: s) = match s with d :: _ => if aeqb d "/"%char then squeeze s else "/"%char :: squeeze s | [] => ["/"%char] end.
Proof. destruct s as [|d s]; auto. Qed.
Lemma squeeze_rep : forall n s, length s <= n -> squeeze (rep s) = squeeze s /\ (hd_error (rep s) = hd_error s).
Proof.
  induction n as [|n IH]; intros s L; [destruct s; [auto|cbn in L; lia]|]. destruct s as [|c s]; auto.
  destruct (ascii_dec c "/"%char) as [->|NC].
  - destruct s as [|d s]; [auto|]. destruct (ascii_dec d "/"%char) as [->|ND].
    + rewrite rep_two. split; auto. cbn [length] in L. destruct (IH s ltac:(lia)) as [I H]. rewrite (squeeze_cons "/" "/" s). cbn [andb aeqb]. change (aeqb "/" "/" && aeqb "/" "/")%char with true. cbv iota.
      rewrite !squeeze_slash, I. destruct (rep s) as [|x t], s as [|y s']; cbn [hd_error] in H; try discriminate; auto. injection H as ->. reflexivity.
    + rewrite rep_other by auto. split; auto. cbn [length] in L. destruct (IH (d :: s)) as [I H]; [cbn; lia|]. rewrite !squeeze_slash, I.
      destruct (rep (d :: s)) as [|x t]; [discriminate|]. injection H as ->. reflexivity.
  - rewrite rep_other by auto. split; auto. cbn [length] in L. destruct (IH s) as [I H]; [lia|].
    assert (E : aeqb c "/"%char = false) by now apply aeqb_neq. assert (S : forall t, squeeze (c :: t) = c :: squeeze t) by (intros [|x t]; [auto|]; rewrite squeeze_cons, E; reflexivity).
    now rewrite !S, I.
Qed.
Lemma rep_length : forall n s, length s <= n -> length (rep s) <= length s /\ (contains_sub (s_ "//") s = true -> length (rep s) < length s).
Proof.
  induction n as [|n IH]; intros s L; [destruct s; [cbn; split; [lia|discriminate]|cbn in L; lia]|]. destruct s as [|c s]; [cbn; split; [lia|discriminate]|].
  destruct (list_eq_dec ascii_dec (firstn 2 (c :: s)) ["/"%char; "/"%char]) as [E|NE].
  - destruct s as [|d s]; [discriminate|]. injection E as -> ->. rewrite rep_two. cbn [length] in *. destruct (IH s ltac:(lia)). split; lia.
  - rewrite rep_other.
    + cbn [length] in *. destruct (IH s ltac:(lia)) as [A B]. split; [lia|]. cbn [contains_sub]. intros C. apply orb_true_iff in C. destruct C as [C|C]; [|specialize (B C); lia].
      exfalso. apply NE. apply startswith_iff in C. destruct C as (t & C). rewrite C. reflexivity.
    + destruct (ascii_dec c "/"%char) as [->|]; auto. right. destruct s as [|d s]; auto. intros ->. apply NE. reflexivity.
Qed.
Lemma collapse_squeeze : forall fuel s, length s <= fuel -> collapse fuel s = Some (squeeze s).
Proof.
  induction fuel as [|f IH]; intros s L.
  - destruct s; [reflexivity|cbn in L; lia].
  - cbn [collapse]. destruct (contains_sub (s_ "//") s) eqn:C.
    + fold (rep s). destruct (rep_length (length s) s (le_n _)) as [_ B]. specialize (B C). rewrite IH by lia. f_equal. eapply squeeze_rep; eauto.
    + f_equal. symmetry. now apply squeeze_one.
Qed.
Lemma squeeze_no_double s : contains_sub (s_ "//") (squeeze s) = false.
Proof.
  induction s as [|c s IH]; auto. destruct s as [|d s]; [cbn; now rewrite andb_false_r|]. rewrite squeeze_cons.
  destruct (aeqb c "/"%char) eqn:C, (aeqb d "/"%char) eqn:D; cbn [andb]; auto; cbn [contains_sub]; rewrite IH, orb_false_r.
  - assert (H : exists t, squeeze (d :: s) = d :: t).
    { clear -D. destruct s as [|e s]; [cbn; eauto|]. rewrite squeeze_cons, D. cbn. eauto. }
    destruct H as (t & ->). change (s_ "//") with ["/"%char; "/"%char]; cbn [startswith]. apply aeqb_neq in D. assert (X : aeqb "/"%char d = false) by (apply aeqb_neq; congruence). rewrite X. apply andb_false_r.
  - change (s_ "//") with ["/"%char; "/"%char]; cbn [startswith]. apply aeqb_neq in C. assert (X : aeqb "/"%char c = false) by (apply aeqb_neq; congruence). now rewrite X.
  - change (s_ "//") with ["/"%char; "/"%char]; cbn [startswith]. apply aeqb_neq in C. assert (X : aeqb "/"%char c = false) by (apply aeqb_neq; congruence). now rewrite X.
Qed.
Lemma squeeze_head c s : exists t, squeeze (c :: s) = c :: t.
Proof.
  revert c. induction s as [|d s IH]; intros c; [cbn; eauto|]. rewrite squeeze_cons. destruct (aeqb c "/"%char) eqn:C, (aeqb d "/"%char) eqn:D; cbn [andb]; eauto.
  apply aeqb_eq in C, D. subst. apply IH.
Qed.

(** ** What decodeurl returns *)
Lemma unquote_nonempty s : s <> [] -> unquote s <> [].
Proof. destruct s as [|c [|a [|b s]]]; cbn [unquote]; try congruence; intros _; destruct (aeqb c "%"%char); try discriminate. destruct (hex_val a), (hex_val b); discriminate. Qed.
Lemma unquote_slash s : unquote ("/"%char :: s) = "/"%char :: unquote s.
Proof. now apply unquote_plain. Qed.
Lemma user_group_spec s : forall u l, user_group s = Some (u, l) -> s = u ++ "@"%char :: l /\ lacks (s_ "/;") u /\ loc_start l = true.
Proof.
  induction s as [|c s IH]; intros u l; cbn [user_group]; [discriminate|]. destruct (aeqb c "/"%char || aeqb c ";"%char) eqn:E; [discriminate|].
  apply orb_false_iff in E. destruct E as [E1 E2]. apply aeqb_neq in E1, E2. destruct (user_group s) as [[u' l']|].
  - intros X. injection X as <- <-. destruct (IH _ _ eq_refl) as (-> & L & S). split; auto. split; auto. intros d D [<-|I]; [cbn in D; intuition congruence|]. now apply (L d D).
  - destruct (aeqb c "@"%char && loc_start s) eqn:A; [|discriminate]. intros X. injection X as <- <-. apply andb_true_iff in A. destruct A as [A S]. apply aeqb_eq in A. subst c.
    split; auto. split; auto. intros d _ [].
Qed.
Lemma span_spec p s : forall a b, span p s = (a, b) -> s = a ++ b /\ (forall c, In c a -> p c = true) /\ match b with [] => True | c :: _ => p c = false end.
Proof.
  induction s as [|c s IH]; intros a b; cbn [span]; [intros X; injection X as <- <-; repeat split; auto; intros c []|].
  destruct (p c) eqn:E.
  - destruct (span p s) as [a' b'] eqn:Q. intros X. injection X as <- <-. destruct (IH _ _ eq_refl) as (-> & A & B). repeat split; auto. intros d [<-|I]; auto.
  - intros X. injection X as <- <-. repeat split; auto. all: intros d [].
Qed.
Lemma one_line_spec s : ~ In nl (one_line s) /\ exists t, s = one_line s ++ t.
Proof.
  unfold one_line. destruct (span _ s) as [a b] eqn:E. apply span_spec in E. destruct E as (-> & A & _). cbn [fst]. split; eauto. intros I. apply A in I. apply negb_true_iff, aeqb_neq in I. congruence.
Qed.
Lemma params_spec l : forall m r, params l m = Some r -> NoDup (map fst m) -> (forall kv, In kv m -> lacks (nl :: s_ ";=") (fst kv) /\ lacks (nl :: s_ ";") (snd kv)) ->
  (forall s, In s l -> lacks (nl :: s_ ";") s) -> NoDup (map fst r) /\ Forall (fun kv => lacks (nl :: s_ ";=") (fst kv) /\ lacks (nl :: s_ ";") (snd kv)) r.
Proof.
  induction l as [|s l IH]; intros m r; cbn [params].
  - intros X. injection X as <-. intros N M _. split; auto. apply Forall_forall. auto.
  - destruct s as [|c s]; [intros X N M L; apply (IH m r X N M); intros; apply L; now right|].
    destruct (cut_at "="%char (c :: s)) as [k [v|]] eqn:C; [|discriminate]. apply cut_at_spec in C. destruct C as [NK E]. apply no_char_In in NK.
    intros X N M L. apply (IH _ _ X).
    + now apply set_nodup.
    + assert (LS := L _ (or_introl eq_refl)). rewrite E in LS. clear -M LS NK. induction m as [|[a w] m IH]; cbn [set].
      * intros kv [<-|[]]. cbn [fst snd]. apply lacks_app in LS. destruct LS as [LK LV]. split.
        -- intros d [<-|D]; [apply LK; cbn; tauto|]. cbn in D. destruct D as [<-|[<-|[]]]; [apply LK; cbn; tauto|auto].
        -- intros d D I. apply (LV d D). now right.
      * destruct (seqb k a) eqn:Q.
        -- apply seqb_eq in Q. subst a. intros kv [<-|I]; [|apply M; now right]. cbn [fst snd]. split; [apply (M (k, w)); now left|]. apply lacks_app in LS. intros d D I. apply (proj2 LS d D). now right.
        -- intros kv [<-|I]; [apply M; now left|]. apply IH; auto. intros x J. apply M. now right.
    + intros t I. apply L. now right.
Qed.
Definition good_decoded (u : url) : Prop :=
  lacks (s_ ":") (u_type u) /\ lacks (s_ "/;:") (u_user u) /\ (u_user u = [] -> u_pswd u = []) /\ lacks (nl :: s_ "/;") (u_pswd u) /\
  lacks (s_ "/;") (u_host u) /\ u_path u <> [] /\ (is_file (u_type u) -> u_host u = []) /\ (~ is_file (u_type u) -> exists p, u_path u = "/"%char :: p) /\
  NoDup (map fst (u_parm u)) /\ Forall (fun kv => lacks (nl :: s_ ";=") (fst kv) /\ lacks (nl :: s_ ";") (snd kv)) (u_parm u).
Lemma decoded_good s u : decodeurl s = Decoded u -> good_decoded u.
Proof.
  unfold decodeurl. destruct (cut_at ":"%char s) as [t [r|]] eqn:C; [|discriminate]. apply cut_at_spec in C. destruct C as [NT _]. apply no_char_In in NT.
  destruct r as [|x [|y s1]]; try discriminate.
  { destruct x as [[] [] [] [] [] [] [] []]; discriminate. }
  assert (X : x = "/"%char /\ y = "/"%char \/ (match x :: y :: s1 with "/"%char :: "/"%char :: _ => true | _ => false end) = false).
  { destruct (ascii_dec x "/"%char) as [->|NX]; [destruct (ascii_dec y "/"%char) as [->|NY]; [now left|]|]; right.
    - destruct y as [[] [] [] [] [] [] [] []]; try reflexivity. congruence.
    - destruct x as [[] [] [] [] [] [] [] []]; try reflexivity. congruence. }
  destruct X as [[-> ->]|X].
  2:{ intros D. exfalso. revert D X. generalize s1. intros s2.
      destruct x as [[] [] [] [] [] [] [] []]; try discriminate; destruct y as [[] [] [] [] [] [] [] []]; discriminate. }
  destruct (split_user s1) as [user s2] eqn:SU.
  assert (LU : lacks (s_ "/;") user).
  { unfold split_user in SU. destruct (user_group s1) as [[[|c u'] l]|] eqn:G; injection SU as <- <-; [intros d _ []|apply user_group_spec in G; apply G|intros d _ []]. }
  destruct (span (fun c => negb (aeqb c ";"%char)) s2) as [loc s3] eqn:SL. apply span_spec in SL. destruct SL as (_ & LL & _).
  destruct loc as [|lc ls]; [discriminate|]. set (loc := lc :: ls) in *.
  assert (LN : ~ In ";"%char loc) by (intros I; specialize (LL _ I); cbn in LL; discriminate LL).
  lazymatch goal with |- context [if seqb (lower t) (s_ "file") then ?a else ?b] => destruct (if seqb (lower t) (s_ "file") then a else b) as [host path] eqn:HP end.
  destruct (user_pswd user) as [[u' p']|] eqn:UP; [|discriminate].
  destruct (params _ []) as [m|] eqn:PM; [|discriminate]. intros D. injection D as <-.
  assert (HPX : lacks (s_ "/;") host /\ path <> [] /\ (is_file t -> host = []) /\ (~ is_file t -> exists p, path = "/"%char :: p)).
  { unfold is_file. destruct (seqb (lower t) (s_ "file")) eqn:E.
    - apply seqb_eq in E. injection HP as <- <-. repeat split; auto; [intros d _ []|discriminate|]. intros N. congruence.
    - apply seqb_neq in E. destruct (span _ loc) as [h p] eqn:SH. apply span_spec in SH. destruct SH as (EL & A & B). injection HP as <- <-. split; [|split; [|split]].
      + intros d D I. cbn in D. destruct D as [<-|[<-|[]]]; [specialize (A _ I); cbn in A; discriminate A|]. apply LN. rewrite EL. apply in_or_app. now left.
      + destruct p; discriminate.
      + intros F. congruence.
      + intros _. destruct p as [|c p]; [exists []; auto|]. apply negb_false_iff, aeqb_eq in B. subst c. eauto. }
  destruct HPX as (HP1 & HP2 & HP3 & HP4).
  assert (UPX : lacks (s_ "/;:") u' /\ (u' = [] -> p' = []) /\ lacks (nl :: s_ "/;") p').
  { unfold user_pswd in UP. destruct user as [|c us]; [injection UP as <- <-; repeat split; auto; intros d _ []|]. set (user := c :: us) in *.
    destruct (cut_at ":"%char user) as [a [b|]] eqn:CU; apply cut_at_spec in CU; destruct CU as [NA EU]; apply no_char_In in NA.
    - destruct a as [|a0 a]; [discriminate|]. injection UP as <- <-. rewrite EU in LU. apply lacks_app in LU. destruct LU as [LA LB]. split; [|split; [discriminate|]].
      + intros d D. cbn in D. destruct D as [<-|[<-|[<-|[]]]]; auto; apply LA; cbn; tauto.
      + destruct (one_line_spec b) as [NB (tl & EB)]. intros d [<-|D]; auto. intros I. apply (LB d D). right. rewrite EB. apply in_or_app. now left.
    - destruct a as [|a0 a]; [discriminate|]. injection UP as <- <-. rewrite EU in LU. split; [|split; [discriminate|intros d _ []]].
      intros d D. cbn in D. destruct D as [<-|[<-|[<-|[]]]]; auto; apply LU; cbn; tauto. }
  destruct UPX as (UP1 & UP2 & UP3).
  assert (PX : NoDup (map fst m) /\ Forall (fun kv => lacks (nl :: s_ ";=") (fst kv) /\ lacks (nl :: s_ ";") (snd kv)) m).
  { apply (params_spec _ _ _ PM); [constructor|intros kv []|]. intros x I.
    set (pt := match s3 with [] => [] | _ :: s4 => one_line s4 end) in *. assert (NP : ~ In nl pt) by (unfold pt; destruct s3; [intros []|apply one_line_spec]).
    clearbody pt. destruct (split_on_spec ";"%char pt) as (F & _ & J). rewrite Forall_forall in F. specialize (F x I). apply no_char_In in F.
    assert (IN : forall d, In d x -> In d pt).
    { rewrite <- J. clear -I. intros d D. induction (split_on ";"%char pt) as [|w ws IH]; [contradiction|]. destruct I as [->|I].
      - destruct ws; [auto|]. rewrite join_cons by discriminate. apply in_or_app. now left.
      - destruct ws as [|w' ws]; [contradiction|]. rewrite join_cons by discriminate. apply in_or_app. right. apply in_or_app. right. now apply IH. }
    intros d [<-|D] Ix; [apply NP; auto|]. cbn in D. destruct D as [<-|[]]. auto. }
  destruct PX as [PX1 PX2].
  unfold good_decoded. cbn [u_type u_user u_pswd u_host u_path u_parm]. split; [intros d D; cbn in D; destruct D as [<-|[]]; auto|].
  repeat (split; auto).
  - now apply unquote_nonempty.
  - intros NF. destruct (HP4 NF) as (p & ->). rewrite unquote_slash. eauto.
Qed.

(** ** Encoding *)
Definition written_of (u : url) (path : str) : written :=
  {| w_scheme := u_type u;
     w_user := if seqb (u_type u) (s_ "file") then None else match u_user u with [] => None | x => Some (x, match u_pswd u with [] => None | p => Some p end) end;
     w_host := if seqb (u_type u) (s_ "file") then [] else u_host u;
     w_path := quote path; w_parms := u_parm u |}.
Lemma encode_text u : u_type u <> [] -> encodeurl u = Some (text (written_of u (squeeze (u_path u)))).
Proof.
  intros T. unfold encodeurl. rewrite collapse_squeeze by auto. destruct (u_type u) as [|c t] eqn:E; [congruence|]. rewrite <- E. clear T. unfold text, written_of. cbn [w_scheme w_user w_host w_path w_parms].
  do 3 f_equal. destruct (seqb (u_type u) (s_ "file")); cbn [negb andb app]; [reflexivity|].
  destruct (u_user u) as [|x us]; [reflexivity|]. cbn [seqb negb]. destruct (u_pswd u) as [|y ps]; cbn [app]; repeat (rewrite <- app_assoc; cbn [app]); reflexivity.
Qed.
