(** Lemmas on the script of a task. *)
From Coq Require Import Ascii String List Bool Arith Lia.
From Verif Require Import Str_Model Str_Proofs Imgtypes_Model Imgtypes_Proofs Sigbase_Proofs Graph_Proofs Emit_Model Emit_Spec.
Import ListNotations.
Open Scope list_scope.

(** ** Quoting *)
Definition qc (c : ascii) : str :=
  if aeqb c mark then s_ "\""" else if aeqb c nl then s_ " \" ++ [nl] else if aeqb c "$"%char then s_ "\$" else [c].
Lemma quote_cons c v : quote (c :: v) = qc c ++ quote v.
Proof.
  unfold quote, replace_char, qc, mark. cbn [flat_map]. destruct (aeqb c """") eqn:A.
  - cbn. reflexivity.
  - cbn [app flat_map]. destruct (aeqb c nl) eqn:B; [cbn; reflexivity|]. cbn [app flat_map]. destruct (aeqb c "$") eqn:C; reflexivity.
Qed.
Lemma qc_mark : qc mark = ["\"%char; mark]. Proof. reflexivity. Qed.
Lemma qc_nl : qc nl = [" "%char; "\"%char; nl]. Proof. reflexivity. Qed.
Lemma qc_dollar : qc "$"%char = ["\"%char; "$"%char]. Proof. reflexivity. Qed.
Lemma qc_other c : c <> mark -> c <> nl -> c <> "$"%char -> qc c = [c].
Proof. intros A B C. unfold qc. apply aeqb_neq in A, B, C. rewrite A, B, C. reflexivity. Qed.
Lemma quoted_escaped e r : In e (s_ "\""$`") -> quoted ("\"%char :: e :: r) = option_map (fun p => (e :: fst p, snd p)) (quoted r).
Proof. intro I. cbn in I. repeat (destruct I as [<-|I]; [reflexivity|]). destruct I. Qed.
Lemma quoted_nl r : quoted ("\"%char :: nl :: r) = quoted r. Proof. reflexivity. Qed.
Lemma quoted_plain c r : c <> mark -> c <> "$"%char -> c <> "`"%char -> c <> "\"%char -> quoted (c :: r) = option_map (fun p => (c :: fst p, snd p)) (quoted r).
Proof. intros A B C D. cbn [quoted]. apply aeqb_neq in A, B, C, D. rewrite A, B, C, D. reflexivity. Qed.
Lemma quoted_backslash e r : e <> nl -> ~ In e (s_ "\""$`") -> quoted ("\"%char :: e :: r) = option_map (fun p => ("\"%char :: fst p, snd p)) (quoted (e :: r)).
Proof.
  intros A B. cbn [quoted]. change (aeqb "\" mark) with false. change (aeqb "\" "$" || aeqb "\" "`") with false. change (aeqb "\" "\") with true. cbn iota.
  rewrite (proj2 (aeqb_neq e nl) A). assert (H : existsb (aeqb e) (s_ "\""$`") = false).
  { apply not_true_iff_false. intro H. apply existsb_exists in H. destruct H as (x & I & E). apply aeqb_eq in E. subst x. exact (B I). }
  rewrite H. reflexivity.
Qed.
Lemma quoted_shorter s : forall u r, quoted s = Some (u, r) -> length r < length s.
Proof.
  induction s as [s IH] using (well_founded_induction (well_founded_ltof _ (@length ascii))). unfold ltof in IH. intros u r H.
  destruct s as [|c s]; [discriminate H|]. cbn [quoted] in H. destruct (aeqb c mark); [injection H as <- <-; cbn; lia|]. destruct (_ || _); [discriminate H|].
  assert (G : forall t x, length t < S (length s) -> option_map (fun p => (x :: fst p, snd p)) (quoted t) = Some (u, r) -> length r < length (c :: s)).
  { intros t x L E. destruct (quoted t) as [[u' r']|] eqn:Q; [|discriminate E]. cbn in E. injection E as <- <-. apply IH in Q; [cbn; lia|cbn; lia]. }
  destruct (aeqb c "\").
  - destruct s as [|e s]; [discriminate H|]. destruct (aeqb e nl); [apply IH in H; cbn in *; lia|]. destruct (existsb _ _); eapply G; try exact H; cbn; lia.
  - eapply G; [|exact H]. lia.
Qed.
Lemma tame_tail c v : tame (c :: v) -> tame v.
Proof. intros [A B]. split; [intro I; apply A; right; exact I|]. intros a b E. apply (B (c :: a) b). rewrite E. reflexivity. Qed.
Lemma special_in c : In c (s_ "\""$`") <-> In c (s_ "\""$") \/ c = "`"%char.
Proof. cbn. intuition (subst; auto). Qed.
Lemma quoted_tame v rest : tame v -> quoted (quote v ++ mark :: rest) = Some (one_line v, rest).
Proof.
  induction v as [|c v IH]; intro T; [reflexivity|]. specialize (IH (tame_tail _ _ T)). rewrite quote_cons, <- app_assoc.
  destruct (ascii_dec c mark) as [->|A]; [rewrite qc_mark; cbn [app]; rewrite quoted_escaped by (cbn; auto); rewrite IH; reflexivity|].
  destruct (ascii_dec c nl) as [->|B]; [rewrite qc_nl; cbn [app]; rewrite quoted_plain by discriminate; rewrite quoted_nl, IH; reflexivity|].
  destruct (ascii_dec c "$") as [->|D]; [rewrite qc_dollar; cbn [app]; rewrite quoted_escaped by (cbn; auto); rewrite IH; reflexivity|].
  rewrite (qc_other c A B D). cbn [app].
  assert (O : one_line (c :: v) = c :: one_line v) by (unfold one_line; cbn [map]; rewrite (proj2 (aeqb_neq c nl) B); reflexivity). rewrite O.
  destruct (ascii_dec c "`") as [->|E]; [exfalso; apply (proj1 T); left; reflexivity|].
  destruct (ascii_dec c "\") as [->|F]; [|rewrite quoted_plain by assumption; rewrite IH; reflexivity].
  destruct (proj2 T [] v eq_refl) as (c2 & r & -> & N). rewrite quote_cons, <- app_assoc in IH |- *.
  assert (N2 : ~ In c2 (s_ "\""$`")). { rewrite special_in. intros [I|I]; [exact (N I)|]. apply (proj1 T). subst c2. right; left; reflexivity. }
  destruct (ascii_dec c2 nl) as [->|B2].
  - rewrite qc_nl in *. cbn [app] in *. rewrite quoted_backslash by (first [discriminate|cbn; intuition discriminate]). rewrite IH. reflexivity.
  - rewrite qc_other in * by (first [assumption|intros ->; apply N2; cbn; auto]). cbn [app] in *. rewrite quoted_backslash by assumption. rewrite IH. reflexivity.
Qed.
Lemma quoted_length v : forall rest u, quoted (quote v ++ mark :: rest) = Some (u, rest) -> length u <= length v /\ (length u = length v -> tame v).
Proof.
  induction v as [v IH] using (well_founded_induction (well_founded_ltof _ (@length ascii))). unfold ltof in IH. intros rest u H.
  assert (ST : forall x t, length t < length v -> option_map (fun p => (x :: fst p, snd p)) (quoted (quote t ++ mark :: rest)) = Some (u, rest) -> length u <= S (length t) /\ (length u = S (length t) -> tame t)).
  { intros x t L E. destruct (quoted (quote t ++ mark :: rest)) as [[u' r']|] eqn:Q; [|discriminate E]. cbn in E. injection E as <- ->. destruct (IH t L _ _ Q) as [P1 P2]. cbn [length]. split; [lia|]. intro K. apply P2. lia. }
  destruct v as [|c v]. { cbn in H. injection H as <-. split; [cbn; lia|]. intros _. split; [intros []|]. intros [|a0 a] b E; discriminate E. }
  assert (TC : c <> "`"%char -> c <> "\"%char -> tame v -> tame (c :: v)).
  { intros A B [T1 T2]. split; [intros [E|I]; [exact (A E)|exact (T1 I)]|]. intros [|a0 a] b E; [injection E as -> _; exfalso; apply B; reflexivity|]. injection E as -> E. exact (T2 a b E). }
  rewrite quote_cons, <- app_assoc in H. cbn [length] in *.
  destruct (ascii_dec c mark) as [->|A]. { rewrite qc_mark in H. cbn [app] in H. rewrite quoted_escaped in H by (cbn; auto). apply ST in H; [|lia]. destruct H as [P1 P2]. split; [lia|]. intro K. apply TC; [discriminate|discriminate|auto]. }
  destruct (ascii_dec c nl) as [->|B]. { rewrite qc_nl in H. cbn [app] in H. rewrite quoted_plain in H by discriminate. rewrite quoted_nl in H. apply ST in H; [|lia]. destruct H as [P1 P2]. split; [lia|]. intro K. apply TC; [discriminate|discriminate|auto]. }
  destruct (ascii_dec c "$") as [->|D]. { rewrite qc_dollar in H. cbn [app] in H. rewrite quoted_escaped in H by (cbn; auto). apply ST in H; [|lia]. destruct H as [P1 P2]. split; [lia|]. intro K. apply TC; [discriminate|discriminate|auto]. }
  rewrite (qc_other c A B D) in H. cbn [app] in H.
  destruct (ascii_dec c "`") as [->|E]; [discriminate H|].
  destruct (ascii_dec c "\") as [->|F]; [|rewrite quoted_plain in H by assumption; apply ST in H; [|lia]; destruct H as [P1 P2]; split; [lia|]; intro K; apply TC; auto].
  destruct v as [|c2 w].
  { cbn [app] in H. change (quote [] ++ mark :: rest) with (mark :: rest) in H. rewrite quoted_escaped in H by (cbn; auto). destruct (quoted rest) as [[u' r']|] eqn:Q; [|discriminate H]. cbn in H. injection H as <- ->. apply quoted_shorter in Q. lia. }
  destruct (ascii_dec c2 "\") as [->|G].
  { rewrite quote_cons, <- app_assoc in H. rewrite (qc_other "\") in H by discriminate. cbn [app] in H. rewrite quoted_escaped in H by (cbn; auto). apply ST in H; [|cbn; lia]. cbn [length]. destruct H as [P1 _]. split; lia. }
  destruct (ascii_dec c2 mark) as [->|G1].
  { rewrite quote_cons, <- app_assoc, qc_mark in H. cbn [app] in H. rewrite quoted_escaped in H by (cbn; auto). cbn in H. injection H as _ H. apply (f_equal (@length ascii)) in H. rewrite app_length in H. cbn in H. lia. }
  destruct (ascii_dec c2 "$") as [->|G2].
  { rewrite quote_cons, <- app_assoc, qc_dollar in H. cbn [app] in H. rewrite quoted_escaped in H by (cbn; auto). discriminate H. }
  destruct (ascii_dec c2 "`") as [->|G3].
  { rewrite quote_cons, <- app_assoc in H. rewrite (qc_other "`") in H by discriminate. cbn [app] in H. rewrite quoted_escaped in H by (cbn; auto). apply ST in H; [|cbn; lia]. cbn [length]. destruct H as [P1 _]. split; lia. }
  assert (G4 : c2 <> """"%char) by exact G1. assert (N2 : ~ In c2 (s_ "\""$`")) by (cbn; intuition congruence).
  assert (H' : option_map (fun p => ("\"%char :: fst p, snd p)) (quoted (quote (c2 :: w) ++ mark :: rest)) = Some (u, rest)).
  { rewrite <- H. rewrite quote_cons, <- app_assoc. destruct (ascii_dec c2 nl) as [->|B2].
    - rewrite qc_nl. cbn [app]. symmetry. apply quoted_backslash; [discriminate|cbn; intuition discriminate].
    - rewrite qc_other by assumption. cbn [app]. symmetry. apply quoted_backslash; assumption. }
  apply ST in H'; [|cbn; lia]. cbn [length] in *. destruct H' as [P1 P2]. split; [lia|]. intro K. assert (T : tame (c2 :: w)) by (apply P2; lia). split.
  - intros [E1|I]; [discriminate E1|exact (proj1 T I)].
  - intros [|a0 a] b E1.
    + injection E1 as <-. exists c2, w. split; [reflexivity|]. cbn. intuition congruence.
    + injection E1 as _ Z2. exact (proj2 T a b Z2).
Qed.

(** ** The shell *)
Lemma till_app stop a b : ~ In stop a -> till stop (a ++ stop :: b) = (a, stop :: b).
Proof.
  induction a as [|c a IH]; intro N; cbn [app till]; [rewrite aeqb_refl; reflexivity|].
  rewrite (proj2 (aeqb_neq c stop)) by (intro E; apply N; left; exact E). rewrite IH by (intro I; apply N; right; exact I). reflexivity.
Qed.
Lemma sh_name_chars n : sh_name n = true -> forall c, In c n -> name_char c = true.
Proof.
  destruct n as [|x n]; [discriminate|]. cbn [sh_name]. intros H c I. apply andb_prop in H. destruct H as [A B]. destruct I as [<-|I]; [|exact (proj1 (forallb_forall _ _) B c I)].
  unfold name_char. apply orb_prop in A. destruct A as [A|A]; rewrite A; [reflexivity|apply orb_true_r].
Qed.
Lemma shell_nil fuel e : shell (S fuel) [] e = Some e. Proof. reflexivity. Qed.
Lemma shell_export fuel n v rest e : sh_name n = true -> tame v ->
  shell (S fuel) (s_ "export " ++ n ++ s_ "=""" ++ quote v ++ s_ """" ++ [nl] ++ rest) e = shell fuel rest (put e n (Some (one_line v))).
Proof.
  intros N T. assert (NE : ~ In "="%char n) by (intro I; apply (sh_name_chars n N) in I; discriminate I).
  change (s_ "export " ++ n ++ s_ "=""" ++ quote v ++ s_ """" ++ [nl] ++ rest) with ("e"%char :: s_ "xport " ++ n ++ "="%char :: mark :: quote v ++ mark :: nl :: rest).
  cbn [shell]. change (aeqb "e" nl) with false. change (aeqb "e" "#") with false. cbn iota.
  change ("e"%char :: s_ "xport " ++ n ++ "="%char :: mark :: quote v ++ mark :: nl :: rest) with (s_ "export " ++ n ++ "="%char :: mark :: quote v ++ mark :: nl :: rest).
  rewrite startswith_app. change (skipn 7 (s_ "export " ++ n ++ "="%char :: mark :: quote v ++ mark :: nl :: rest)) with (n ++ "="%char :: mark :: quote v ++ mark :: nl :: rest).
  rewrite (till_app _ n _ NE), N. rewrite aeqb_refl, (quoted_tame v _ T), aeqb_refl. reflexivity.
Qed.
Lemma shell_unset fuel n rest e : sh_name n = true -> shell (S (S fuel)) (s_ "unset " ++ n ++ [nl] ++ rest) e = shell fuel rest (put e n None).
Proof.
  intro N. assert (NE : ~ In nl n) by (intro I; apply (sh_name_chars n N) in I; discriminate I).
  change (s_ "unset " ++ n ++ [nl] ++ rest) with ("u"%char :: s_ "nset " ++ n ++ nl :: rest). set (F := S fuel). cbn [shell]. change (aeqb "u" nl) with false. change (aeqb "u" "#") with false. cbn iota.
  change (startswith (s_ "export ") ("u"%char :: s_ "nset " ++ n ++ nl :: rest)) with false. cbn iota.
  change ("u"%char :: s_ "nset " ++ n ++ nl :: rest) with (s_ "unset " ++ n ++ nl :: rest). rewrite startswith_app.
  change (skipn 6 (s_ "unset " ++ n ++ nl :: rest)) with (n ++ nl :: rest). rewrite (till_app _ n _ NE), N. reflexivity.
Qed.
(** What the line of a name does. *)
Definition does (d : data) (n : str) (e : env) : option str :=
  let v := get d n in if odd_name n then e n else if v_unexport v then None else if v_export v then match v_value v with Some t => Some (one_line t) | None => e n end else e n.
Definition fine (d : data) (n : str) : Prop :=
  v_func (get d n) = false /\ (v_export (get d n) = true \/ v_unexport (get d n) = true -> v_fails (get d n) = None /\ (odd_name n = false -> sh_name n = true) /\ startswith (s_ "BASH_FUNC_") n = false /\ forall t, v_value (get d n) = Some t -> tame t).
Lemma line_cases d m : fine d m ->
  (fst (emit_var d m) = [] /\ forall e, does d m e = e m) \/
  (fst (emit_var d m) = s_ "unset " ++ m ++ [nl] /\ sh_name m = true /\ forall e, does d m e = None) \/
  (exists t, fst (emit_var d m) = s_ "export " ++ m ++ s_ "=""" ++ quote t ++ s_ """" ++ [nl] /\ sh_name m = true /\ tame t /\ forall e, does d m e = Some (one_line t)).
Proof.
  intros [NF G]. unfold emit_var, does. rewrite NF, andb_false_r. cbn iota zeta. rewrite andb_true_r.
  destruct (v_export (get d m)) eqn:EX; destruct (v_unexport (get d m)) eqn:UN; cbn [negb andb].
  4: left; split; [reflexivity|intro e; destruct (odd_name m); reflexivity].
  all: destruct (G ltac:(auto)) as (FA & SN & BF & TM); rewrite FA; destruct (odd_name m) eqn:OD; [left; split; reflexivity|].
  1,3: right; left; cbn [fst]; auto.
  rewrite BF. destruct (v_value (get d m)) as [t|] eqn:VA; [|left; split; reflexivity]. right. right. exists t. cbn [fst]. auto.
Qed.
Lemma shell_names d L : NoDup L -> (forall n, In n L -> fine d n) -> forall fuel e, length (concat (map (fun n => fst (emit_var d n)) L)) < fuel ->
  exists e', shell fuel (concat (map (fun n => fst (emit_var d n)) L)) e = Some e' /\ forall n, (In n L -> e' n = does d n e) /\ (~ In n L -> e' n = e n).
Proof.
  induction L as [|m L IH]; intros ND H fuel e F.
  { destruct fuel; [lia|]. exists e. split; [reflexivity|]. intro n. split; [intros []|reflexivity]. }
  assert (ND2 := ND). inversion ND2 as [|? ? NI ND']; subst. clear ND2. cbn [map concat] in *.
  assert (ST : forall e1 fuel1, length (concat (map (fun n => fst (emit_var d n)) L)) < fuel1 -> (forall n, n <> m -> e1 n = e n) -> e1 m = does d m e ->
    exists e', shell fuel1 (concat (map (fun n => fst (emit_var d n)) L)) e1 = Some e' /\ forall n, (In n (m :: L) -> e' n = does d n e) /\ (~ In n (m :: L) -> e' n = e n)).
  { intros e1 f1 F1 O M. destruct (IH ND' (fun n I => H n (or_intror I)) f1 e1 F1) as (e' & R & S). exists e'. split; [exact R|]. intro n. destruct (S n) as [S1 S2]. split.
    - intros [<-|I]; [rewrite S2 by exact NI; exact M|]. rewrite (S1 I). assert (D : n <> m) by (intro Z; subst; exact (NI I)). unfold does. rewrite (O n D). reflexivity.
    - intro N. rewrite S2 by (intro I; apply N; right; exact I). apply O. intro Z. apply N. left. symmetry. exact Z. }
  assert (SK : fst (emit_var d m) = [] -> does d m e = e m -> exists e', shell fuel (fst (emit_var d m) ++ concat (map (fun n => fst (emit_var d n)) L)) e = Some e' /\ forall n, (In n (m :: L) -> e' n = does d n e) /\ (~ In n (m :: L) -> e' n = e n)).
  { intros Z D. rewrite Z. apply ST; [rewrite Z in F; exact F|reflexivity|symmetry; exact D]. }
  destruct (line_cases d m (H m (or_introl eq_refl))) as [(Z & D)|[(Z & N & D)|(t & Z & N & T & D)]].
  - apply SK; [exact Z|apply D].
  - rewrite Z, <- !app_assoc in *. destruct fuel as [|[|fuel]]; [exfalso; rewrite !app_length in F; cbn in F; lia|exfalso; rewrite !app_length in F; cbn in F; lia|].
    rewrite (shell_unset fuel m _ e N). apply ST; [rewrite !app_length in F; cbn in F; lia|intros n D'; unfold put; rewrite (proj2 (seqb_neq _ _) D'); reflexivity|unfold put; rewrite seqb_refl; symmetry; apply D].
  - rewrite Z, <- !app_assoc in *. destruct fuel as [|fuel]; [exfalso; lia|].
    rewrite (shell_export fuel m t _ e N T). apply ST; [rewrite !app_length in F; cbn in F; lia|intros n D'; unfold put; rewrite (proj2 (seqb_neq _ _) D'); reflexivity|unfold put; rewrite seqb_refl; symmetry; apply D].
Qed.

(** ** Functions *)
Lemma filter_fewer {A} (P Q : A -> bool) l : (forall x, Q x = true -> P x = true) -> length (filter Q l) <= length (filter P l).
Proof. intro H. induction l as [|x l IH]; [reflexivity|]. cbn [filter]. destruct (Q x) eqn:E; [rewrite (H x E); cbn; lia|]. destruct (P x); cbn; lia. Qed.
Lemma filter_less {A} (P Q : A -> bool) l x : (forall x, Q x = true -> P x = true) -> In x l -> P x = true -> Q x = false -> length (filter Q l) < length (filter P l).
Proof.
  intros H I A1 B. induction l as [|y l IH]; [destruct I|]. cbn [filter]. destruct I as [->|I].
  - rewrite A1, B. cbn. pose proof (filter_fewer P Q l H). lia.
  - specialize (IH I). destruct (Q y) eqn:E; [rewrite (H y E); cbn; lia|]. destruct (P y); cbn; lia.
Qed.
Lemma get_in d n v : NoDup (map fst d) -> In (n, v) d -> get d n = v.
Proof.
  unfold get. induction d as [|[k w] d IH]; intros ND I; [destruct I|]. cbn [map fst] in ND. inversion ND as [|? ? NI ND']; subst. cbn [find fst].
  destruct I as [E|I]; [injection E as -> ->; rewrite seqb_refl; reflexivity|]. destruct (seqb k n) eqn:E; [|exact (IH ND' I)].
  apply seqb_eq in E. subst k. exfalso. apply NI. change n with (fst (n, v)). apply in_map. exact I.
Qed.
Lemma get_some d n : get d n <> unset_var -> In (n, get d n) d.
Proof.
  unfold get. destruct (find (fun e => seqb (fst e) n) d) as [[k w]|] eqn:E; [|intro H; exfalso; apply H; reflexivity]. intros _. apply find_some in E. destruct E as [I E]. cbn in E. apply seqb_eq in E. subst k. exact I.
Qed.
Lemma is_shell_iff d n : NoDup (map fst d) -> is_shell d n = true <-> shell_function d n.
Proof.
  intro ND. unfold is_shell, shell_function. split.
  - intro H. apply andb_prop in H. destruct H as [A B]. exists (get d n). split; [apply get_some; intro Z; rewrite Z in A; discriminate A|]. split; [exact A|apply negb_true_iff; exact B].
  - intros (v & I & A & B). rewrite (get_in d n v ND I), A, B. reflexivity.
Qed.
Section Closure.
Variables (d : data) (f : str).
Hypothesis ND : NoDup (map fst d).
Hypothesis Ff : In f (map fst d).
Lemma used_step g n : g = f \/ used d f g -> In n (v_deps (get d g)) -> is_shell d n = true -> used d f n.
Proof.
  intros G I S. apply (is_shell_iff d n ND) in S. assert (IN : In (g, get d g) d) by (apply get_some; intro Z; rewrite Z in I; destruct I).
  destruct G as [->|G]; [exact (used_direct d f _ n IN I S)|exact (used_more d f g _ n G IN I S)].
Qed.
Definition left_to (seen : list str) : nat := length (filter (fun n => is_shell d n && negb (mem_str n seen)) (map fst d)).
Definition ok (newdeps seen out : list str) : Prop :=
  (forall n, In n newdeps -> exists g, (g = f \/ used d f g) /\ In n (v_deps (get d g))) /\
  (forall n, In n out <-> In n seen /\ is_shell d n = true) /\ NoDup out /\ (forall n, In n newdeps -> ~ In n seen) /\
  (forall g n, g = f \/ In g out -> In n (v_deps (get d g)) -> In n newdeps \/ In n seen) /\ (forall n, In n out -> used d f n).
Lemma closed_end k seen out : ok [] seen out -> exists l, emit_deps k d [] seen out = Some l /\ NoDup l /\ forall n, In n l <-> used d f n.
Proof.
  intros (O1 & O2 & O3 & O4 & O5 & O6). exists out. split; [destruct k; reflexivity|]. split; [exact O3|]. intro n. split; [exact (O6 n)|]. intro U.
  assert (G : forall g m, g = f \/ In g out -> In m (v_deps (get d g)) -> is_shell d m = true -> In m out) by (intros g m A B C; destruct (O5 g m A B) as [[]|D]; apply O2; auto).
  induction U as [v m I J K|g v m U IHU I J K].
  - apply (G f m (or_introl eq_refl)); [rewrite (get_in d f v ND I); exact J|apply is_shell_iff; assumption].
  - apply (G g m (or_intror IHU)); [rewrite (get_in d g v ND I); exact J|apply is_shell_iff; assumption].
Qed.
Lemma closure fuel : forall newdeps seen out, ok newdeps seen out -> left_to seen < fuel ->
  exists l, emit_deps fuel d newdeps seen out = Some l /\ NoDup l /\ forall n, In n l <-> used d f n.
Proof.
  induction fuel as [|fuel IH]; intros newdeps seen out (O1 & O2 & O3 & O4 & O5 & O6) L; [lia|].
  destruct newdeps as [|x0 nd]; [apply closed_end; unfold ok; auto 10|].
  set (newdeps := x0 :: nd) in *. set (deps := sorted_set newdeps). set (funcs := filter (is_shell d) deps).
  set (nd' := filter (fun n => negb (mem_str n (seen ++ deps))) (sorted_set (flat_map (fun n => v_deps (get d n)) funcs))).
  assert (E : emit_deps (S fuel) d newdeps seen out = emit_deps fuel d nd' (seen ++ deps) (out ++ funcs)) by reflexivity. rewrite E. clear E.
  assert (ID : forall n, In n deps <-> In n newdeps) by (intro n; apply sorted_set_in).
  assert (IF : forall n, In n funcs <-> In n newdeps /\ is_shell d n = true) by (intro n; unfold funcs; rewrite filter_In, ID; reflexivity).
  assert (UF : forall n, In n funcs -> used d f n). { intros n I. apply IF in I. destruct I as [I S]. destruct (O1 n I) as (g & G & J). exact (used_step g n G J S). }
  assert (OK : ok nd' (seen ++ deps) (out ++ funcs)).
  { unfold ok. split; [|split; [|split; [|split; [|split]]]].
    - intros n I. unfold nd' in I. apply filter_In in I. destruct I as [I _]. apply (proj1 (sorted_set_in _ _)) in I. apply in_flat_map in I. destruct I as (g & I & J). exists g. split; [right; apply UF; exact I|exact J].
    - intro n. rewrite !in_app_iff, O2, IF, ID. tauto.
    - apply NoDup_app_intro.
      + exact O3. + apply NoDup_filter, sorted_set_nodup. + intros n I J. apply O2 in I. apply IF in J. exact (O4 n (proj1 J) (proj1 I)).
    - intros n I. unfold nd' in I. apply filter_In in I. destruct I as [_ I]. apply negb_true_iff in I. apply mem_str_false in I. exact I.
    - intros g n G I. destruct (mem_str n (seen ++ deps)) eqn:M; [right; apply mem_str_In; exact M|]. left. unfold nd'. apply filter_In. split; [|rewrite M; reflexivity].
      apply (proj2 (sorted_set_in _ _)), in_flat_map. exists g. split; [|exact I]. rewrite in_app_iff in G. destruct G as [G|[G|G]]; [| |exact G].
      + exfalso. apply mem_str_false in M. destruct (O5 g n (or_introl G) I) as [J|J]; apply M, in_or_app; [right; apply ID; exact J|left; exact J].
      + exfalso. apply mem_str_false in M. destruct (O5 g n (or_intror G) I) as [J|J]; apply M, in_or_app; [right; apply ID; exact J|left; exact J].
    - intros n I. apply in_app_or in I. destruct I as [I|I]; [exact (O6 n I)|exact (UF n I)]. }
  destruct funcs as [|h t] eqn:FE; [apply closed_end; exact OK|].
  apply IH; [exact OK|]. apply Nat.lt_le_trans with (left_to seen); [|lia].
  assert (IH' : In h newdeps /\ is_shell d h = true) by (apply IF; left; reflexivity). destruct IH' as [A B].
  unfold left_to. apply (filter_less _ _ _ h).
  - intros n H. apply andb_prop in H. destruct H as [H1 H2]. rewrite H1. cbn [andb]. apply negb_true_iff in H2. apply mem_str_false in H2. apply negb_true_iff, mem_str_false. intro I. apply H2, in_or_app. left. exact I.
  - apply (is_shell_iff d h ND) in B. destruct B as (v & I & _). change h with (fst (h, v)). apply in_map. exact I.
  - rewrite B. cbn [andb]. apply negb_true_iff, mem_str_false. exact (O4 h A).
  - rewrite B. cbn [andb]. apply negb_false_iff, mem_str_In, in_or_app. right. apply ID. exact A.
Qed.
End Closure.

(** ** The script *)
Definition unexported (v : var) : var := mkVar (v_value v) (v_fails v) (v_func v) (v_python v) false (v_unexport v) (v_where v) (v_deps v).
Lemma without_names d : map fst (without_pwd d) = map fst d.
Proof. unfold without_pwd. rewrite map_map. apply map_ext. intros [k v]. cbn [fst snd]. destruct (seqb k _); reflexivity. Qed.
Lemma without_get d n : get (without_pwd d) n = if seqb n (s_ "PWD") then unexported (get d n) else get d n.
Proof.
  unfold get. induction d as [|[k v] d IH]; [cbn; destruct (seqb n _); reflexivity|]. change (without_pwd ((k, v) :: d)) with ((if seqb k (s_ "PWD") then (k, unexported v) else (k, v)) :: without_pwd d).
  destruct (seqb k n) eqn:E.
  - apply seqb_eq in E. subst k. destruct (seqb n (s_ "PWD")) eqn:P; cbn [find fst]; rewrite seqb_refl; reflexivity.
  - destruct (seqb k (s_ "PWD")); cbn [find fst]; rewrite E; exact IH.
Qed.
Lemma without_in d n v : In (n, v) (without_pwd d) -> exists w, In (n, w) d /\ (v = w \/ n = s_ "PWD" /\ v = unexported w).
Proof.
  intro I. apply in_map_iff in I. destruct I as ([k w] & E & I). cbn [fst snd] in E. destruct (seqb k (s_ "PWD")) eqn:P.
  - apply seqb_eq in P. injection E as <- <-. exists w. split; [exact I|right; split; [exact P|reflexivity]].
  - injection E as <- <-. exists w. auto.
Qed.
Lemma odd_iff n : odd_name n = true <-> exists c, In c n /\ In c (s_ "-.{}+").
Proof.
  unfold odd_name. rewrite existsb_exists. split; intros (c & I & J); exists c; (split; [exact I|]).
  - apply existsb_exists in J. destruct J as (x & J & E). apply aeqb_eq in E. subst x. exact J.
  - apply existsb_exists. exists c. split; [exact J|apply aeqb_refl].
Qed.
Lemma sh_name_plain n : sh_name n = true -> odd_name n = false.
Proof.
  intro H. apply not_true_iff_false. intro O. apply odd_iff in O. destruct O as (c & I & J). apply (sh_name_chars n H) in I. cbn in J. repeat (destruct J as [<-|J]; [discriminate I|]). destruct J.
Qed.
Definition listed (d : data) : list str := sorted_set (filter (fun n => negb (startswith (s_ "__") n) && negb (v_func (get d n))) (map fst d)).
Lemma listed_fine d n : usual d -> In n (listed (without_pwd d)) -> fine (without_pwd d) n.
Proof.
  intros [ND U] I. unfold listed in I. apply (proj1 (sorted_set_in _ _)) in I. apply filter_In in I. destruct I as [I H]. apply andb_prop in H. destruct H as [H1 H2]. apply negb_true_iff in H1, H2.
  split; [exact H2|]. intro X. rewrite without_names in I. apply in_map_iff in I. destruct I as ([k v] & E & I). cbn in E. subst k. pose proof (get_in d n v ND I) as GI.
  rewrite without_get in *. assert (EQ : v_func v = false /\ (v_export v = true \/ v_unexport v = true)).
  { destruct (seqb n (s_ "PWD")); rewrite GI in *; cbn in H2, X; [destruct X as [X|X]; [discriminate X|]|]; tauto. }
  destruct EQ as [EF EX]. destruct (U n v I EF EX) as (A & B & C & D).
  assert (VV : forall w, w = v \/ w = unexported v -> v_fails w = v_fails v /\ v_value w = v_value v) by (intros w [->| ->]; auto).
  destruct (VV (if seqb n (s_ "PWD") then unexported (get d n) else get d n)) as [V1 V2]; [rewrite GI; destruct (seqb _ _); auto|]. rewrite V1, V2.
  split; [exact A|]. split; [|split; [apply not_true_iff_false; intro S; apply startswith_iff in S; destruct S as [r E]; exact (C r E)|exact D]].
  intro O. destruct B as [B|[(r & E)|O2]]; [exact B| |].
  - exfalso. rewrite E, startswith_app in H1. discriminate H1.
  - apply odd_iff in O2. rewrite O2 in O. discriminate O.
Qed.
Lemma says_get d n e : says d n e = let v := get d n in if v_func v then e n else if v_unexport v then None else if v_export v then match v_value v with Some t => Some (one_line t) | None => e n end else e n.
Proof. unfold says, get. destruct (find _ d) as [[k v]|]; reflexivity. Qed.
Lemma get_absent d n : ~ In n (map fst d) -> get d n = unset_var.
Proof.
  unfold get. destruct (find (fun e => seqb (fst e) n) d) as [[k w]|] eqn:E; [|reflexivity]. intro H. exfalso. apply H. apply find_some in E. destruct E as [I E]. cbn in E. apply seqb_eq in E. subst k. change n with (fst (n, w)). apply in_map. exact I.
Qed.
Lemma variables_run d : usual d -> forall e, exists e', runs (emit_variables (without_pwd d)) e = Some e' /\
  forall n, (left_out n -> e' n = e n) /\ (~ left_out n -> e' n = says (without_pwd d) n e).
Proof.
  intros U e. destruct (shell_names (without_pwd d) (listed (without_pwd d)) (sorted_set_nodup _) (fun n I => listed_fine d n U I) (S (length (emit_variables (without_pwd d)))) e (Nat.lt_succ_diag_r _)) as (e' & R & S).
  exists e'. split; [exact R|]. intro n. destruct (S n) as [S1 S2]. destruct (in_dec str_eq_dec n (listed (without_pwd d))) as [I|I].
  - rewrite (S1 I). pose proof (listed_fine d n U I) as [NF _]. unfold listed in I. apply (proj1 (sorted_set_in _ _)) in I. apply filter_In in I. destruct I as [_ H]. apply andb_prop in H. destruct H as [H1 _]. apply negb_true_iff in H1.
    unfold does. cbn zeta. split.
    + intros [(r & E)|O]; [exfalso; rewrite E, startswith_app in H1; discriminate H1|]. apply odd_iff in O. rewrite O. reflexivity.
    + intro O. assert (OD : odd_name n = false) by (apply not_true_iff_false; intro Z; apply O; right; apply odd_iff; exact Z). rewrite OD, says_get. cbn zeta. rewrite NF. reflexivity.
  - rewrite (S2 I). split; [reflexivity|]. intro O. rewrite says_get. cbn zeta. destruct (in_dec str_eq_dec n (map fst (without_pwd d))) as [J|J]; [|rewrite (get_absent _ _ J); reflexivity].
    destruct (v_func (get (without_pwd d) n)) eqn:F; [reflexivity|]. exfalso. apply I. unfold listed. apply (proj2 (sorted_set_in _ _)), filter_In. split; [exact J|]. rewrite F, andb_true_r. apply negb_true_iff, not_true_iff_false. intro Z. apply startswith_iff in Z. apply O. left. exact Z.
Qed.
Lemma lstrip_nl_spec s : exists k, s = repeat nl k ++ lstrip_nl s /\ (lstrip_nl s = [] \/ exists c b, lstrip_nl s = c :: b /\ c <> nl).
Proof.
  induction s as [|c s IH]; [exists 0; auto|]. cbn [lstrip_nl]. destruct (aeqb c nl) eqn:E.
  - apply aeqb_eq in E. subst c. destruct IH as (k & A & B). exists (S k). split; [cbn [repeat app]; f_equal; exact A|exact B].
  - exists 0. split; [reflexivity|right; exists c, s; split; [reflexivity|apply aeqb_neq; exact E]].
Qed.
Lemma rev_repeat {A} (x : A) k : rev (repeat x k) = repeat x k.
Proof. induction k as [|k IH]; [reflexivity|]. cbn [repeat rev]. rewrite IH. clear IH. induction k as [|k IH]; [reflexivity|]. cbn [repeat app]. rewrite IH. reflexivity. Qed.
Lemma rstrip_nl_spec s : exists k, s = rstrip_nl s ++ repeat nl k /\ (rstrip_nl s = [] \/ exists b c, rstrip_nl s = b ++ [c] /\ c <> nl).
Proof.
  unfold rstrip_nl. destruct (lstrip_nl_spec (rev s)) as (k & A & B). exists k. split.
  - rewrite <- (rev_involutive s), A at 1. rewrite rev_app_distr, rev_repeat. reflexivity.
  - destruct B as [->|(c & b & -> & N)]; [left; reflexivity|right]. exists (rev b), c. split; [reflexivity|exact N].
Qed.
Lemma line_defines d n : NoDup (map fst d) -> writable d n -> defines d n (emit_line (without_pwd d) n).
Proof.
  intros ND (v & t & I & F & P & UE & FA & VA & O & B). destruct (rstrip_nl_spec t) as (k & E & T). exists v, t, (rstrip_nl t), k. split; [exact I|]. split; [exact VA|]. split; [exact E|]. split; [exact T|].
  assert (G : forall w, w = v \/ w = unexported v -> v_func w = true /\ v_python w = false /\ v_unexport w = false /\ v_fails w = None /\ v_value w = Some t /\ v_where w = v_where v) by (intros w [->| ->]; cbn; auto 10).
  destruct (G (get (without_pwd d) n)) as (G1 & G2 & G3 & G4 & G5 & G6); [rewrite without_get, (get_in d n v ND I); destruct (seqb _ _); auto|].
  unfold emit_line, emit_var. rewrite G1, G2, G3, G4, G5, G6. cbn [andb negb]. rewrite andb_false_r. 
  assert (Q1 : odd_name n = false) by (apply not_true_iff_false; intro Z; apply odd_iff in Z; destruct Z as (c & J & K); exact (O c J K)).
  assert (Q2 : startswith (s_ "BASH_FUNC_") n = false) by (apply not_true_iff_false; intro Z; apply startswith_iff in Z; destruct Z as [r Z]; exact (B r Z)). rewrite Q1, Q2.
  rewrite <- !app_assoc. reflexivity.
Qed.
Lemma without_shell d n : shell_function (without_pwd d) n <-> shell_function d n.
Proof.
  split; intros (v & I & F & P).
  - apply without_in in I. destruct I as (w & I & [->|[_ ->]]); exists w; auto.
  - assert (I' := in_map (fun e => if seqb (fst e) (s_ "PWD") then (fst e, unexported (snd e)) else e) _ _ I). cbn [fst snd] in I'. destruct (seqb n (s_ "PWD")); [exists (unexported v)|exists v]; auto.
Qed.
Lemma without_used d f n : used (without_pwd d) f n <-> used d f n.
Proof.
  assert (A : forall g v, In (g, v) (without_pwd d) -> exists w, In (g, w) d /\ v_deps w = v_deps v) by (intros g v I; apply without_in in I; destruct I as (w & I & [->|[_ ->]]); exists w; auto).
  assert (B : forall g v, In (g, v) d -> exists w, In (g, w) (without_pwd d) /\ v_deps w = v_deps v).
  { intros g v I. assert (I' := in_map (fun e => if seqb (fst e) (s_ "PWD") then (fst e, unexported (snd e)) else e) _ _ I). cbn [fst snd] in I'. destruct (seqb g (s_ "PWD")); [exists (unexported v)|exists v]; auto. }
  split; intro U; induction U as [v m I J K|g v m U IHU I J K].
  - destruct (A _ _ I) as (w & I' & E). rewrite <- E in J. apply (used_direct _ _ w); auto. apply without_shell; exact K.
  - destruct (A _ _ I) as (w & I' & E). rewrite <- E in J. apply (used_more _ _ g w); auto. apply without_shell; exact K.
  - destruct (B _ _ I) as (w & I' & E). rewrite <- E in J. apply (used_direct _ _ w); auto. apply without_shell; exact K.
  - destruct (B _ _ I) as (w & I' & E). rewrite <- E in J. apply (used_more _ _ g w); auto. apply without_shell; exact K.
Qed.
Lemma emit_func_all d f : NoDup (map fst d) -> exists l, emit_func (without_pwd d) f = Some (emit_variables (without_pwd d) ++ [nl] ++ emit_line (without_pwd d) f ++ concat (map (emit_line (without_pwd d)) l)) /\ NoDup l /\ forall n, In n l <-> used d f n.
Proof.
  intro ND. assert (ND' : NoDup (map fst (without_pwd d))) by (rewrite without_names; exact ND).
  destruct (closure (without_pwd d) f ND' (2 + length (without_pwd d)) (v_deps (get (without_pwd d) f)) [] []) as (l & E & NL & U).
  - unfold ok. split; [intros n I; exists f; auto|]. split; [intro n; split; [intros []|intros [[] _]]|]. split; [constructor|]. split; [intros n _ []|]. split; [intros g n [->|[]] I; left; exact I|intros n []].
  - unfold left_to. assert (L : forall (P : str -> bool) l, length (filter P l) <= length l) by (intros P l; induction l as [|x l IH]; cbn; [lia|destruct (P x); cbn; lia]). specialize (L (fun n => is_shell (without_pwd d) n && negb (mem_str n [])) (map fst (without_pwd d))). rewrite map_length in L. lia.
  - exists l. unfold emit_func. rewrite E. split; [reflexivity|]. split; [exact NL|]. intro n. rewrite U. apply without_used.
Qed.
