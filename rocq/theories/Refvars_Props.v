(** C194: the variables an expression refers to. *)
From Coq Require Import Ascii String List Bool Arith Lia Sorted.
From Verif Require Import Str_Model Str_Proofs Refvars_Model Refvars_Spec Refvars_Proofs.
Import ListNotations.
Open Scope list_scope.

(** C194: the answer holds exactly the variables the expression refers to, directly or through others, each once, whatever the order of
    Python's sets. *)
Theorem refvars_exact : forall n ord refs first r, orders ord -> referenced n ord refs first = Some r ->
  NoDup r /\ forall v, In v r <-> exists k, refers first refs k v.
Proof.
  intros n ord refs first r O. unfold referenced. pose proof (inv_steps ord refs first O n _ (inv_begin ord refs first O)) as I. set (s := steps n ord refs (begin ord first)) in *. clearbody s. destruct (queue s) eqn:Q; [|discriminate]. intro H. injection H as <-.
  pose proof (frontier refs first s I) as FR. destruct I as [A _ C _ _ _ _]. rewrite Q, app_nil_r in *. split; [exact A|]. intro v. split; [apply C|]. intros [k K]. destruct (FR k v K) as [X|(x & j & [] & _)]. exact X.
Qed.
(** C194: variables that are nearer come first. *)
Theorem refvars_order : forall n ord refs first r a x b y c dx dy, orders ord -> referenced n ord refs first = Some r -> r = a ++ x :: b ++ y :: c ->
  distance first refs x dx -> distance first refs y dy -> dx <= dy.
Proof.
  intros n ord refs first r a x b y c dx dy O. unfold referenced. pose proof (inv_steps ord refs first O n _ (inv_begin ord refs first O)) as I. set (s := steps n ord refs (begin ord first)) in *. clearbody s. destruct (queue s) eqn:Q; [|discriminate]. intro H. injection H as <-. intros E DX DY.
  destruct I as [_ _ _ _ _ S _]. rewrite Q, app_nil_r, E in S. assert (Y : In y (x :: b ++ y :: c)) by (right; apply in_or_app; right; now left). exact (sorted_cut refs first _ _ _ S y Y dx dy DX DY).
Qed.
(** C194: the search ends, also if variables refer to each other in circles: after as many rounds as there are variables. *)
Theorem refvars_ends : forall vars n ord refs first, orders ord -> (forall k v, refers first refs k v -> In v vars) -> length vars <= n ->
  exists r, referenced n ord refs first = Some r.
Proof.
  intros vars n ord refs first O U L. unfold referenced. pose proof (inv_steps ord refs first O n _ (inv_begin ord refs first O)) as I. pose proof (steps_grow ord refs n (begin ord first)) as G. set (s := steps n ord refs (begin ord first)) in *. clearbody s. destruct (queue s) as [|v q] eqn:Q; [eauto|]. exfalso.
  specialize (G ltac:(discriminate)). destruct I as [A _ C _ _ _ _]. rewrite Q in *. assert (IN : incl (ret s ++ v :: q) vars) by (intros x X; destruct (C x X) as [k K]; now apply (U k)). pose proof (NoDup_incl_length A IN) as LE. rewrite app_length in LE. cbn [length] in LE. unfold begin in G. cbn in G. unfold str in *. lia.
Qed.

(** ** The hypotheses are met *)
Fixpoint ex_ord (l : list str) : list str := match l with [] => [] | x :: l => if mem_str x l then ex_ord l else x :: ex_ord l end.
Definition ex_refs (v : str) : list str :=
  if seqb v (s_ "A") then [s_ "C"; s_ "A"; s_ "B"] else if seqb v (s_ "B") then [s_ "D"; s_ "D"] else if seqb v (s_ "D") then [s_ "A"; s_ "E"] else [].
Example refvars_example : orders ex_ord /\ referenced 5 ex_ord ex_refs [s_ "B"; s_ "A"; s_ "B"] = Some [s_ "A"; s_ "B"; s_ "C"; s_ "D"; s_ "E"] /\
  distance [s_ "B"; s_ "A"; s_ "B"] ex_refs (s_ "D") 1.
Proof.
  split.
  { assert (M : forall l x, In x (ex_ord l) <-> In x l). { induction l as [|y l IH]; intro x; cbn [ex_ord]; [reflexivity|]. destruct (mem_str y l) eqn:E; [|cbn; rewrite IH; reflexivity]. apply mem_str_In in E. rewrite IH. split; [now right|intros [<-|I]; auto]. }
    intro l. split; [|apply M]. induction l as [|y l IH]; cbn [ex_ord]; [constructor|]. destruct (mem_str y l) eqn:E; [exact IH|]. constructor; [|exact IH]. rewrite M. intro I. apply mem_str_In in I. congruence. }
  split; [vm_compute; reflexivity|]. split.
  - apply refers_by with (s_ "B"); [apply refers_first; now left|now left].
  - intros k K. inversion K as [v F|]; subst; [|lia]. cbn in F. intuition discriminate.
Qed.
Example refvars_ends_example : forall k v, refers [s_ "B"; s_ "A"; s_ "B"] ex_refs k v -> In v [s_ "A"; s_ "B"; s_ "C"; s_ "D"; s_ "E"].
Proof.
  intros k v H. induction H as [v F|k u v H IH I].
  - destruct F as [<-|[<-|[<-|[]]]]; [right|left|right]; try reflexivity; left; reflexivity.
  - destruct IH as [<-|[<-|[<-|[<-|[<-|[]]]]]]; vm_compute in I; vm_compute; tauto.
Qed.

Print Assumptions refvars_exact.
Print Assumptions refvars_order.
Print Assumptions refvars_ends.
