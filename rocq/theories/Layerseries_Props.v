(** Layers, their files and series: the theorems. *)
From Coq Require Import Ascii String List Bool.
From Verif Require Import Str_Model Str_Proofs Words_Spec Words_Proofs Layerseries_Model Layerseries_Spec Layerseries_Proofs.
Import ListNotations.
Open Scope list_scope.

(** BBFILES gets exactly the patterns of the entries whose layer is there, and of those with an exclamation mark whose layer is not *)
Theorem dynamic_selected cols entries bbfiles :
  (forall e, has_word entries e -> well_formed e) ->
  exists out, dynamic cols (split_ws entries) bbfiles false = Files out /\
    forall w, has_word out w <-> has_word bbfiles w \/ (w <> [] /\ exists e, has_word entries e /\ selects cols e w).
Proof.
  intro W. assert (F : Forall well_formed (split_ws entries)) by (apply Forall_forall; intros e E; apply W; now apply has_word_iff). eexists. split; [apply dynamic_files; exact F|]. intro w. rewrite <- !has_word_iff. setoid_rewrite <- has_word_iff.
  pose proof (split_ws_words entries) as WS. revert bbfiles. clear W. induction (split_ws entries) as [|e es IH]; intro b; cbn [map concat].
  - rewrite app_nil_r. split; [now left|]. intros [H|(_ & e & [] & _)]. exact H.
  - inversion F as [|? ? WE F']; subst. inversion WS as [|? ? WO WS']; subst. specialize (IH F' WS'). rewrite app_assoc, IH. pose proof (chosen_iff cols e) as CI. destruct (chosen cols e) as [f|] eqn:C.
    + assert (S : selects cols e f) by (apply CI; auto). assert (SF : split_ws f = match f with [] => [] | _ => [f] end).
      { destruct f as [|c f]; [reflexivity|]. apply split_ws_single. split; [discriminate|]. destruct WO as [_ WO]. destruct S as (l & _ & [(-> & _)|(-> & _)]); repeat (apply Forall_app in WO; destruct WO as [_ WO]); exact WO. }
      change (b ++ s_ " " ++ f) with (b ++ " "%char :: f). rewrite split_ws_app by reflexivity. rewrite in_app_iff, SF. split.
      * intros [[H|H]|(N & y & Y & SY)]; [now left| |right; split; [exact N|]; exists y; split; [now right|exact SY]].
        destruct f as [|c f]; [destruct H|]. destruct H as [<-|[]]. right. split; [discriminate|]. exists e. split; [now left|exact S].
      * intros [H|(N & y & [<-|Y] & SY)]; [left; now left| |right; split; [exact N|]; exists y; auto]. left. right. apply CI in SY; [|exact WE]. injection SY as <-. destruct f; [contradiction|now left].
    + rewrite app_nil_r. split.
      * intros [H|(N & y & Y & SY)]; [now left|right; split; [exact N|]; exists y; split; [now right|exact SY]].
      * intros [H|(N & y & [<-|Y] & SY)]; [now left| |right; split; [exact N|]; exists y; auto]. apply CI in SY; [discriminate|exact WE].
Qed.
Example dynamic_selected_met :
  dynamic [s_ "core"; s_ "isar"] (split_ws (s_ "isar:/a/*.bb !isar:/b/*.bb !other:/c/*.bb other:/d/*.bb")) (s_ "/x/*.bb") false = Files (s_ "/x/*.bb /a/*.bb /c/*.bb").
Proof. reflexivity. Qed.
Example dynamic_selected_hyp e : has_word (s_ "isar:/a/*.bb !other:/c") e -> well_formed e.
Proof.
  intro W. apply has_word_iff in W. cbn in W. destruct W as [<-|[<-|[]]].
  - exists "i"%char, (s_ "sar"), (s_ "/a/*.bb"). split; [reflexivity|]. split; [discriminate|]. cbn. intuition discriminate.
  - exists "!"%char, (s_ "other"), (s_ "/c"). split; [reflexivity|]. split; [discriminate|]. cbn. intuition discriminate.
Qed.
(** It is an error exactly if an entry has no colon *)
Theorem dynamic_refused cols entries bbfiles :
  (forall e r, has_word entries e -> e <> ":"%char :: r) ->
  (dynamic cols (split_ws entries) bbfiles false = Fatal <-> exists e, has_word entries e /\ ~ In ":"%char e).
Proof.
  intro N. rewrite dynamic_fatal; [|intros e E r; apply N; now apply has_word_iff]. setoid_rewrite <- has_word_iff. split; [intros [H|H]; [discriminate|exact H]|now right].
Qed.
Example dynamic_refused_met : dynamic [s_ "isar"] (split_ws (s_ "isar:/a /b")) [] false = Fatal.
Proof. reflexivity. Qed.
(** Refuted: that every wrong entry gets this message; an entry without the name of a layer is an exception *)
Theorem dynamic_colon_refuted : dynamic [s_ "isar"] (split_ws (s_ ":/a/*.bb")) [] false = IndexError.
Proof. reflexivity. Qed.

(** Layers are accepted exactly if no collection is there twice, and every layer that says with which series it works names one of
    the core *)
Theorem layers_accepted d layers out :
  let r := read_layers d layers in
  dynamic (collections (r_data r)) (split_ws (getvar (r_data r) (s_ "BBFILES_DYNAMIC"))) (getvar (r_data r) (s_ "BBFILES")) false = Files out ->
  (layers_read d layers = Some out <-> NoDup (collections (r_data r)) /\ forall c, In c (collections (r_data r)) -> fits (r_series r) (r_compat r c)).
Proof.
  intros r H. unfold layers_read. fold r. rewrite H, <- accepted_iff. destruct (accepted _ _ _ _); split; congruence.
Qed.
(** What a layer says about a collection is what is checked *)
Theorem layer_says d before layer c y v :
  let d1 := layer (r_data (read_layers d before)) in
  In c (collections d1) -> d1 (s_ "LAYERSERIES_COMPAT_" ++ c) = Some (y :: v) -> r_compat (read_layers d (before ++ [layer])) c = split_ws (y :: v).
Proof.
  intros d1 I E. unfold read_layers. rewrite fold_left_app. cbn [fold_left]. unfold read_layer at 1. rewrite series_compat. apply takes_say; [exact I|exact E].
Qed.
(** A layer that says nothing changes nothing *)
Theorem layer_says_nothing d before layer c :
  let d1 := layer (r_data (read_layers d before)) in
  d1 (s_ "LAYERSERIES_COMPAT_" ++ c) = None -> r_compat (read_layers d (before ++ [layer])) c = r_compat (read_layers d before) c.
Proof.
  intros d1 E. unfold read_layers. rewrite fold_left_app. cbn [fold_left]. unfold read_layer at 1. rewrite series_compat. rewrite takes_quiet; [reflexivity|]. left. exact E.
Qed.
(** A layer cannot copy from layers before: it does not see what they said *)
Theorem compat_not_seen d before c :
  before <> [] -> let seen := r_data (read_layers d before) in
  In c (collections seen) -> seen (s_ "LAYERSERIES_COMPAT_" ++ c) = None \/ seen (s_ "LAYERSERIES_COMPAT_" ++ c) = Some [].
Proof.
  intros N seen. destruct (exists_last N) as (before' & layer & E). subst before seen. unfold read_layers. rewrite fold_left_app. cbn [fold_left]. set (r := fold_left read_layer before' _). clearbody r. intro I.
  unfold read_layer in *. cbv zeta in *. set (r1 := Reading _ _ _) in *. change (hidden (r_data (take_series (fold_left take_compat (collections (r_data r1)) r1))) c). unfold hidden. rewrite series_other by apply compat_not_core. apply takes_hide. right.
  unfold collections, getvar in I. rewrite series_other in I by discriminate. rewrite takes_other in I by apply not_compat. exact I.
Qed.
(** The first layer that names the series of the core decides *)
Theorem series_first d a b : r_series (read_layers d a) <> [] -> r_series (read_layers d (a ++ b)) = r_series (read_layers d a).
Proof.
  unfold read_layers. rewrite fold_left_app. set (r := fold_left read_layer a _). clearbody r. revert r. induction b as [|l b IH]; intros r N; [reflexivity|]. cbn [fold_left]. assert (E : r_series (read_layer r l) = r_series r).
  { unfold read_layer, take_series. rewrite takes_series. cbn [r_series]. destruct (r_series r); [contradiction|]. rewrite takes_series. reflexivity. }
  rewrite IH; [exact E|congruence].
Qed.
Definition sets (l : list (str * str)) : conf := fun d => fold_left (fun d kv => setvar d (fst kv) (snd kv)) l d.
Definition adds (c : string) : conf := fun d => setvar d (s_ "BBFILE_COLLECTIONS") (getvar d (s_ "BBFILE_COLLECTIONS") ++ s_ " " ++ s_ c).
Definition core : conf := fun d => sets [(s_ "LAYERSERIES_CORENAMES", s_ "v1 v2"); (s_ "LAYERSERIES_COMPAT_core", s_ "v2")] (adds "core" d).
Definition copies : conf := fun d => sets [(s_ "LAYERSERIES_COMPAT_mine", match d (s_ "LAYERSERIES_COMPAT_core") with Some v => v | None => s_ "${LAYERSERIES_COMPAT_core}" end)] (adds "mine" d).
Definition other (v : string) : conf := fun d => sets [(s_ "LAYERSERIES_COMPAT_other", s_ v); (s_ "BBFILES", s_ "/o/*.bb")] (adds "other" d).
Example layers_accepted_met :
  layers_read (fun _ => None) [core; other "v1 v0"%string] = Some (s_ "/o/*.bb") /\
  layers_read (fun _ => None) [core; other "v0"%string] = None /\ layers_read (fun _ => None) [core; copies] = None /\
  In (s_ "core") (collections (r_data (read_layers (fun _ => None) [core]))) /\ r_series (read_layers (fun _ => None) [core]) = [s_ "v1"; s_ "v2"].
Proof. repeat split. vm_compute. auto. Qed.

(** Refuted: that a layer says itself with what it works; a later layer can say it for it *)
Theorem layer_says_refuted :
  let says := sets [(s_ "LAYERSERIES_COMPAT_other", s_ "v2")] in
  layers_read (fun _ => None) [core; other "v0"%string] = None /\ layers_read (fun _ => None) [core; other "v0"%string; says] = Some (s_ "/o/*.bb").
Proof. split; reflexivity. Qed.

Print Assumptions dynamic_selected.
Print Assumptions dynamic_refused.
Print Assumptions dynamic_colon_refuted.
Print Assumptions layers_accepted.
Print Assumptions layer_says.
Print Assumptions layer_says_nothing.
Print Assumptions compat_not_seen.
Print Assumptions series_first.
Print Assumptions layer_says_refuted.
