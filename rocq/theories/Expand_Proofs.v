(** Lemmas on the expansion of the last partition. *)
From Coq Require Import Ascii String List Bool Arith NArith Lia.
From Verif Require Import Str_Model Str_Proofs Install_Spec Expand_Model Expand_Spec.
Import ListNotations.
Open Scope list_scope.

(** ** The disk *)
Lemma drop_digits_app n r : Forall (fun c => is_digit c = true) n -> drop_digits (n ++ r) = drop_digits r.
Proof. induction 1 as [|c n D F IH]; [reflexivity|]. cbn. rewrite D. exact IH. Qed.
Lemma boot_partition disk part : partition_of disk part -> ends_in_digit disk \/ ~ ends_in_p disk -> boot_device (s_ "/dev/" ++ part) = s_ "/dev/" ++ disk.
Proof.
  intros (n & [NE D] & P) K. unfold boot_device. destruct P as [[ED ->]|[ND ->]].
  - rewrite !rev_app_distr, <- app_assoc, <- app_assoc. rewrite drop_digits_app by (apply Forall_rev; exact D). change (rev (s_ "p")) with ["p"%char]. cbn [app drop_digits]. change (is_digit "p"%char) with false. cbn match. change (aeqb "p"%char "p"%char) with true. cbn match. rewrite <- rev_app_distr, rev_involutive. reflexivity.
  - rewrite app_assoc, rev_app_distr. rewrite drop_digits_app by (apply Forall_rev; exact D).
    destruct K as [K|K]; [exfalso; exact (ND K)|].
    destruct disk as [|d0 dr] using rev_ind; [reflexivity|]. clear IHdr. rewrite app_assoc, rev_app_distr. cbn [rev app drop_digits].
    destruct (is_digit d0) eqn:E; [exfalso; apply ND; exists dr, d0; auto|]. destruct (aeqb d0 "p"%char) eqn:E'; [exfalso; apply K; apply aeqb_eq in E'; subst d0; exists dr; reflexivity|]. rewrite rev_involutive. reflexivity.
Qed.
Lemma base_plain x : plain_name x -> base_name (s_ "/dev/" ++ x) = x.
Proof.
  intro P. unfold base_name. change (s_ "/dev/" ++ x) with ([] ++ "/"%char :: (s_ "dev" ++ "/"%char :: x)). rewrite split_on_cons by constructor. rewrite split_on_cons by (repeat constructor). rewrite split_on_single; [reflexivity|]. apply no_char_In. exact P.
Qed.
Lemma descend_below y k x w : below y k x w -> forall n, k <= n -> descend n y x = Some w.
Proof.
  induction 1 as [x E|k x z l w E B IH]; intros n L.
  - destruct n; cbn [descend]; rewrite E; reflexivity.
  - destruct n as [|n]; [lia|]. cbn [descend]. rewrite E. apply IH. lia.
Qed.
Lemma root_part_device y n part : (forall x, y_source y = s_ "/dev/" ++ x -> plain_name x) -> root_part y n part -> root_device n y = s_ "/dev/" ++ part.
Proof.
  intros PN R. unfold root_device. destruct R as [x E S|x z l k w E S B L].
  - rewrite E, (base_plain x (PN x E)). destruct S as [-> | ->]; reflexivity.
  - rewrite E, (base_plain x (PN x E)), S, (descend_below y k z w B n L). reflexivity.
Qed.
Lemma part_longer disk part : partition_of disk part -> part <> disk.
Proof.
  intros (n & [NE _] & P) E. assert (L : length part = length disk) by (rewrite E; reflexivity). destruct n; [apply NE; reflexivity|]. destruct P as [[_ ->]|[_ ->]]; rewrite !app_length in L; cbn in L; lia.
Qed.

(** ** The table *)
Definition nocomma (s : str) : Prop := ~ In ","%char s.
Lemma nocomma_app a b : nocomma (a ++ b) <-> nocomma a /\ nocomma b.
Proof. unfold nocomma. rewrite in_app_iff. tauto. Qed.
Lemma past_comma_app v r : nocomma v -> past_comma (v ++ s_ ", " ++ r) = Some r.
Proof. induction v as [|c v IH]; intro N; [reflexivity|]. cbn [app past_comma]. destruct (aeqb c ","%char) eqn:E; [exfalso; apply N; left; apply aeqb_eq in E; exact E|]. apply IH. intro I. apply N. right. exact I. Qed.
Lemma cut_none ok s : sizeless s -> cut_size ok s = None.
Proof.
  induction s as [|c s IH]; intro N; [reflexivity|]. cbn [cut_size]. rewrite IH by (intros a b E; apply (N (c :: a) b); rewrite E; reflexivity). unfold past_size. destruct (startswith (s_ ", size=") (c :: s)) eqn:S; [|reflexivity]. apply startswith_iff in S. destruct S as [r S]. exfalso. exact (N [] r S).
Qed.
Lemma cut_app ok h t : nocomma h -> cut_size ok (h ++ t) = option_map (app h) (cut_size ok t).
Proof.
  induction h as [|c h IH]; intro N; [cbn [app]; destruct (cut_size ok t); reflexivity|]. cbn [app cut_size]. rewrite IH by (intro I; apply N; right; exact I). destruct (cut_size ok t) as [x|]; cbn [option_map]; [reflexivity|].
  unfold past_size. destruct (startswith (s_ ", size=") (c :: h ++ t)) eqn:S; [|reflexivity]. apply startswith_iff in S. destruct S as [r S]. injection S as E _. exfalso. apply N. left. exact E.
Qed.
Lemma cut_here ok v rest : nocomma v -> sizeless (s_ ", " ++ rest) -> cut_size ok (s_ ", size=" ++ v ++ s_ ", " ++ rest) = if ok rest then Some (s_ ", " ++ rest) else None.
Proof.
  intros N C.
  assert (T : cut_size ok (s_ " size=" ++ v ++ s_ ", " ++ rest) = None).
  { rewrite app_assoc, cut_app, (cut_none _ _ C); [reflexivity|]. apply nocomma_app. split; [|exact N]. intro I. cbn in I. repeat (destruct I as [I|I]; [discriminate I|]). destruct I. }
  change (s_ ", size=" ++ v ++ s_ ", " ++ rest) with (","%char :: (s_ " size=" ++ v ++ s_ ", " ++ rest)). cbn [cut_size]. rewrite T. unfold past_size.
  change (","%char :: (s_ " size=" ++ v ++ s_ ", " ++ rest)) with (s_ ", size=" ++ (v ++ s_ ", " ++ rest)). rewrite startswith_app. change (skipn 7 (s_ ", size=" ++ (v ++ s_ ", " ++ rest))) with (v ++ s_ ", " ++ rest). rewrite (past_comma_app v rest N). reflexivity.
Qed.
Lemma padded_nocomma n : nocomma (padded n).
Proof.
  unfold padded. apply nocomma_app. split.
  - intro I. apply repeat_spec in I. discriminate I.
  - intro I. destruct (dec_spec n) as (_ & F & _). rewrite Forall_forall in F. apply F in I. discriminate I.
Qed.
Definition head (e : entry) : str := s_ ": start=" ++ padded (e_start e).
Lemma head_nocomma e : nocomma (head e).
Proof. apply nocomma_app. split; [|apply padded_nocomma]. intro I. cbn in I. repeat (destruct I as [I|I]; [discriminate I|]). destruct I. Qed.
Lemma line_head e : line e = e_dev e ++ s_ " " ++ head e ++ match e_size e with Some n => s_ ", size=" ++ padded n | None => [] end ++ s_ ", " ++ fields e.
Proof. unfold line, head. rewrite <- (app_assoc (s_ ": start=")). reflexivity. Qed.
Lemma cut_rest ok e : sizeless (s_ ", " ++ fields e) ->
  cut_size ok (head e ++ match e_size e with Some n => s_ ", size=" ++ padded n | None => [] end ++ s_ ", " ++ fields e) =
  match e_size e with Some _ => if ok (fields e) then Some (head e ++ s_ ", " ++ fields e) else None | None => None end.
Proof.
  intro C. rewrite (cut_app ok (head e) _ (head_nocomma e)). destruct (e_size e) as [n|].
  - rewrite <- app_assoc. rewrite (cut_here ok (padded n) (fields e) (padded_nocomma n) C). destruct (ok (fields e)); reflexivity.
  - rewrite app_nil_l. rewrite (cut_none _ _ C). reflexivity.
Qed.
Lemma fields_ext e c : nocomma (s_ "type=" ++ [c]) -> fields e = s_ "type=" ++ [c] <-> e_type e = [c] /\ e_more e = [].
Proof.
  intro N. unfold fields. destruct (e_more e) as [|x l].
  - cbn [join]. split; [intro H; apply app_inv_head in H; auto|intros [-> _]; reflexivity].
  - split; [|intros [_ H]; discriminate H]. intro H. exfalso. rewrite join_cons in H by discriminate. apply N. rewrite <- H. apply in_or_app. right. left. reflexivity.
Qed.
Lemma extended_fields e : (seqb (fields e) (s_ "type=f") || seqb (fields e) (s_ "type=5") = true) <-> extended e.
Proof.
  assert (NF : nocomma (s_ "type=" ++ ["f"%char])) by (intro I; cbn in I; repeat (destruct I as [I|I]; [discriminate I|]); destruct I).
  assert (N5 : nocomma (s_ "type=" ++ ["5"%char])) by (intro I; cbn in I; repeat (destruct I as [I|I]; [discriminate I|]); destruct I).
  rewrite orb_true_iff, !seqb_eq. change (s_ "type=f") with (s_ "type=" ++ ["f"%char]). change (s_ "type=5") with (s_ "type=" ++ ["5"%char]). rewrite (fields_ext e _ NF), (fields_ext e _ N5). unfold extended. change (s_ "5") with ["5"%char]. change (s_ "f") with ["f"%char]. tauto.
Qed.
Lemma dev_nocomma e : proper e -> nocomma (e_dev e ++ s_ " ").
Proof. intros (_ & N & _). apply nocomma_app. split; [exact N|]. intros [I|[]]. discriminate I. Qed.
Lemma extended_opened e : proper e -> exists e', opened e e' /\ extended_line (line e) = line e'.
Proof.
  intro P. assert (Q := P). destruct Q as (SZ & _ & _ & C & _). unfold extended_line. rewrite line_head. rewrite app_assoc, (cut_app _ _ _ (dev_nocomma e P)), (cut_rest _ e C). destruct (e_size e) as [n|] eqn:E; [|exfalso; apply SZ; reflexivity].
  destruct (seqb (fields e) (s_ "type=f") || seqb (fields e) (s_ "type=5")) eqn:K; cbn [option_map].
  - apply extended_fields in K. exists (open_end e). split; [constructor; exact K|]. rewrite line_head. rewrite <- app_assoc. cbn [e_dev e_size open_end]. rewrite app_nil_l. reflexivity.
  - exists e. split; [constructor; intro X; apply extended_fields in X; congruence|]. rewrite line_head, E, <- app_assoc. reflexivity.
Qed.
Lemma last_line_self e e' : proper e -> opened e e' -> last_line (e_dev e) (line e') = line (open_end e).
Proof.
  intros P O. assert (Q := P). destruct Q as (SZ & _ & _ & C & _). assert (D : e_dev e' = e_dev e /\ fields e' = fields e /\ head e' = head e /\ (e_size e' = e_size e \/ e_size e' = None)) by (destruct O; repeat split; auto). destruct D as (D & F & HH & S).
  assert (C' : sizeless (s_ ", " ++ fields e')) by (rewrite F; exact C).
  unfold last_line. rewrite (line_head e'), D. rewrite app_assoc, startswith_app. rewrite <- app_assoc.
  assert (SK : forall r, skipn (length (e_dev e) + 1) (e_dev e ++ s_ " " ++ r) = r) by (intro r; rewrite app_assoc, skipn_app; replace (length (e_dev e) + 1 - length (e_dev e ++ s_ " ")) with 0 by (rewrite app_length; cbn; lia); replace (length (e_dev e) + 1) with (length (e_dev e ++ s_ " ")) by (rewrite app_length; cbn; lia); rewrite skipn_all; reflexivity).
  rewrite SK, (cut_rest _ e' C'). rewrite (line_head (open_end e)). cbn [e_size open_end]. rewrite app_nil_l. change (head (open_end e)) with (head e). change (fields (open_end e)) with (fields e). change (e_dev (open_end e)) with (e_dev e). rewrite F, HH. destruct (e_size e') as [n|]; reflexivity.
Qed.
Lemma dev_first e r : proper e -> cut_at " "%char (e_dev e ++ s_ " " ++ r) = (e_dev e, Some r).
Proof. intros (_ & _ & N & _). apply (cut_at_some " "%char (e_dev e) r). apply no_char_In. exact N. Qed.
Lemma last_line_other e t t' : proper e -> proper t -> e_dev t <> e_dev e -> e_dev t' = e_dev t -> last_line (e_dev e) (line t') = line t'.
Proof.
  intros P P' N D. unfold last_line. destruct (startswith (e_dev e ++ s_ " ") (line t')) eqn:S; [|reflexivity]. exfalso. apply startswith_iff in S. destruct S as [r S]. rewrite <- app_assoc in S. rewrite line_head, D in S. apply (f_equal (cut_at " "%char)) in S. rewrite (dev_first e r P), (dev_first t _ P') in S. injection S as S _. exact (N S).
Qed.
Lemma header_line dev h : sizeless h -> last_line dev (extended_line h) = h.
Proof.
  intro N. unfold extended_line. rewrite (cut_none _ h N). unfold last_line. destruct (startswith (dev ++ s_ " ") h) eqn:S; [|reflexivity]. rewrite cut_none; [reflexivity|]. apply startswith_iff in S. destruct S as [r S].
  assert (SK : skipn (length dev + 1) h = r) by (rewrite S, skipn_app; replace (length dev + 1 - length (dev ++ s_ " ")) with 0 by (rewrite app_length; cbn; lia); replace (length dev + 1) with (length (dev ++ s_ " ")) by (rewrite app_length; cbn; lia); rewrite skipn_all; reflexivity).
  rewrite SK. intros a b E. apply (N ((dev ++ s_ " ") ++ a) b). rewrite S, E, <- !app_assoc. reflexivity.
Qed.
Lemma last_part_line H ts e : proper e -> last_part (H ++ map line (ts ++ [e])) = e_dev e.
Proof. intro P. unfold last_part. rewrite map_app, app_assoc. cbn [map]. rewrite last_last, line_head, (dev_first e _ P). reflexivity. Qed.
Lemma filter_lines ts : Forall proper ts -> filter (fun l => negb (contains_sub (s_ "last-lba") l)) (map line ts) = map line ts.
Proof.
  induction 1 as [|e ts (_ & _ & _ & _ & N) F IH]; [reflexivity|]. cbn [map filter]. destruct (contains_sub (s_ "last-lba") (line e)) eqn:C; [apply contains_sub_iff in C; exfalso; exact (N C)|]. cbn [negb]. rewrite IH. reflexivity.
Qed.
(** ** The disk's end *)
Lemma ends_exists disk_end start ts : (start < disk_end)%N -> (forall t, In t ts -> (e_start t <= disk_end)%N) -> exists stop, ends_at disk_end ts start stop.
Proof.
  intros L. induction ts as [|t ts IH]; intro B.
  - exists disk_end. split; [exact L|]. split; [lia|]. split; [left; reflexivity|]. intros e [].
  - destruct IH as (stop & A & B' & C & D); [intros x I; apply B; right; exact I|]. pose proof (B t (or_introl eq_refl)) as BT. destruct (N.ltb start (e_start t) && N.ltb (e_start t) stop) eqn:E.
    + apply andb_prop in E. destruct E as [E1 E2]. apply N.ltb_lt in E1, E2. exists (e_start t). split; [exact E1|]. split; [exact BT|]. split; [right; exists t; split; [left; reflexivity|reflexivity]|]. intros e [<-|I] G; [lia|]. specialize (D e I G). lia.
    + exists stop. split; [exact A|]. split; [exact B'|]. split; [destruct C as [C|(e & I & C)]; [left; exact C|right; exists e; split; [right; exact I|exact C]]|]. intros e [<-|I] G; [|exact (D e I G)]. apply andb_false_iff in E. rewrite !N.ltb_ge in E. lia.
Qed.
