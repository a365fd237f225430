(** Lemmas about stale shared state. *)
From Coq Require Import Ascii String List Bool.
From Verif Require Import Str_Model Str_Proofs Stale_Model Stale_Spec.
Import ListNotations.
Open Scope list_scope.

Lemma line_iff ex stamp manifest tasks man ss : In (man, ss) (line_removes ex stamp manifest tasks) <->
  exists t rest, In t tasks /\ In (stamp ++ rest) (t_stamps t) /\ ex man = true /\ man = manifest_of manifest t /\ ss = t_stamps t.
Proof.
  unfold line_removes. rewrite in_flat_map. split.
  - intros (t & T & I). destruct (_ && _) eqn:C; [|destruct I]. apply andb_true_iff in C. destruct C as [C E]. apply existsb_exists in C. destruct C as (s & S & P). apply startswith_iff in P. destruct P as [rest ->]. destruct I as [I|[]]. injection I as <- <-. exists t, rest. auto.
  - intros (t & rest & T & S & E & -> & ->). exists t. split; [exact T|]. rewrite E. assert (C : existsb (fun s => startswith stamp s) (t_stamps t) = true) by (apply existsb_exists; exists (stamp ++ rest); split; [exact S|apply startswith_iff; eauto]). rewrite C. now left.
Qed.
Lemma to_remove_iff ex tasks lines : forall r, to_remove ex lines tasks = Some r -> forall man ss, In (man, ss) r <->
  exists stamp manifest, index_line lines stamp manifest /\ In (man, ss) (line_removes ex stamp manifest tasks).
Proof.
  unfold index_line. induction lines as [|l lines IH]; intros r H man ss; cbn [to_remove] in H.
  - injection H as <-. split; [intros []|]. intros (st & mf & (x & y & [] & _) & _).
  - destruct (split_ws l) as [|st [|mf [|dir [|]]]] eqn:S; try discriminate. destruct (to_remove ex lines tasks) as [r'|]; [|discriminate]. injection H as <-. rewrite in_app_iff, (IH r' eq_refl). split.
    + intros [I|(s & m & (x & d & X & E) & I)]; [exists st, mf; split; [exists l, dir; split; [now left|exact S]|exact I]|exists s, m; split; [exists x, d; split; [now right|exact E]|exact I]].
    + intros (s & m & (x & d & [<-|X] & E) & I); [left; rewrite S in E; injection E as -> -> _; exact I|right; exists s, m; split; [exists x, d; auto|exact I]].
Qed.
Lemma to_remove_none ex tasks lines : to_remove ex lines tasks = None <-> exists l, In l lines /\ length (split_ws l) <> 3.
Proof.
  induction lines as [|l lines IH]; cbn [to_remove].
  - split; [discriminate|intros (l & [] & _)].
  - destruct (split_ws l) as [|a [|b [|c [|]]]] eqn:S; try (split; [intros _; exists l; split; [now left|rewrite S; discriminate]|reflexivity]).
    destruct (to_remove ex lines tasks) as [r|].
    + split; [discriminate|]. intros (x & [<-|X] & N); [rewrite S in N; destruct (N eq_refl)|]. assert (Q : @None (list (str * list str)) = None) by reflexivity. destruct IH as [_ IH]. specialize (IH (ex_intro _ x (conj X N))). discriminate.
    + split; [|reflexivity]. intros _. destruct (proj1 IH eq_refl) as (x & X & N). exists x. split; [now right|exact N].
Qed.
Lemma bare_skipn name short : bare name short -> skipn 3 name = short.
Proof. intros (a & b & c & ->). reflexivity. Qed.
Lemma removes_known ex tasks lines r : named tasks -> to_remove ex lines tasks = Some r -> forall man ss, In (man, ss) r <-> exists t, In t tasks /\ known lines t man /\ ex man = true /\ ss = t_stamps t.
Proof.
  intros NM H man ss. rewrite (to_remove_iff _ _ _ _ H). split.
  - intros (st & mf & L & I). apply line_iff in I. destruct I as (t & rest & T & S & E & M & SS). exists t. split; [exact T|]. split; [|auto]. destruct (NM t T) as [short B]. exists st, mf, rest, short. split; [exact L|]. split; [exact S|]. split; [exact B|]. rewrite M. unfold manifest_of. now rewrite (bare_skipn _ _ B).
  - intros (t & T & (st & mf & rest & short & L & S & B & M) & E & SS). exists st, mf. split; [exact L|]. apply line_iff. exists t, rest. split; [exact T|]. split; [exact S|]. split; [exact E|]. split; [|exact SS]. unfold manifest_of. now rewrite (bare_skipn _ _ B).
Qed.
