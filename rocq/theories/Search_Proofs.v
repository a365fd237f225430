(** Lemmas for C48. *)
From Coq Require Import Ascii String List Bool Arith Lia.
From Verif Require Import Str_Model Str_Proofs Imgtypes_Model Imgtypes_Proofs Posix_Model Posix_Proofs Search_Model Search_Spec.
Import ListNotations.
Open Scope list_scope.

Lemma which_loop_spec ok item paths : forall hist,
  match which_loop ok item paths hist with
  | (None, h) => h = hist ++ map (fun p => pjoin p item) paths /\ Forall (fun p => ok (pjoin p item) = false) paths
  | (Some x, h) => exists before p after, paths = before ++ p :: after /\ x = pjoin p item /\ ok x = true /\ Forall (fun p => ok (pjoin p item) = false) before /\ h = hist ++ map (fun p => pjoin p item) before ++ [x]
  end.
Proof.
  induction paths as [|p paths IH]; intros hist; cbn [which_loop]; [split; [now rewrite app_nil_r|constructor]|]. destruct (ok (pjoin p item)) eqn:E.
  - exists [], p, paths. repeat split; auto.
  - specialize (IH (hist ++ [pjoin p item])). destruct (which_loop ok item paths (hist ++ [pjoin p item])) as [[x|] h].
    + destruct IH as (b & q & a & -> & X & O & F & ->). exists (p :: b), q, a. repeat split; auto. cbn [map app]. now rewrite <- app_assoc.
    + destruct IH as (-> & F). split; [|auto]. cbn [map]. now rewrite <- app_assoc.
Qed.
Lemma pjoin_colon a b : no_char colon a -> no_char colon b -> no_char colon (pjoin a b).
Proof.
  intros A B. unfold pjoin. destruct (isabs b); auto. destruct (rev a) as [|c r]; auto. destruct (is_slash c); apply Forall_app; split; auto.
Qed.
Lemma flat_map_nonempty (f : str -> str) (l : list str) : flat_map (fun p => match p with [] => [] | _ => [f p] end) l = map f (filter (fun p => negb (seqb p [])) l).
Proof. induction l as [|[|c p] l IH]; cbn [flat_map filter]; auto. cbn [seqb negb map app]. now rewrite IH. Qed.
Lemma map_flat_map {A B C} (g : B -> C) (f : A -> list B) (l : list A) : map g (flat_map f l) = flat_map (fun x => map g (f x)) l.
Proof. induction l as [|x l IH]; auto. cbn [flat_map]. now rewrite map_app, IH. Qed.
Lemma flat_map_ext_in {A B} (f g : A -> list B) l : (forall x, In x l -> f x = g x) -> flat_map f l = flat_map g l.
Proof. induction l as [|x l IH]; intros H; auto. cbn [flat_map]. rewrite (H x (or_introl eq_refl)), IH; auto. intros y I. apply H. now right. Qed.
Lemma split_colon_first s : split_on colon (colon :: s) = [] :: split_on colon s.
Proof. exact (split_on_cons colon [] s (Forall_nil _)). Qed.

(** ** Wildcards *)
Section Wild.
  Variable glob : str -> list str.
  Variable readable : str -> bool.
  Variable rel : str -> str -> str.
  Definition hits (pathname element : str) : list str := filter readable (sorted_set (glob (pjoin element pathname))).
  Lemma hits_in pathname element f : In f (hits pathname element) <-> In f (glob (pjoin element pathname)) /\ readable f = true.
  Proof. unfold hits. now rewrite filter_In, sorted_set_in. Qed.
  Lemma wild_files_spec element found : forall seen files, exists new, wild_files readable rel element found seen files = (rev (map (fun f => rel f element) new) ++ seen, files ++ new) /\
    NoDup (map (fun f => rel f element) new) /\ (forall f, In f new -> In f found /\ readable f = true /\ ~ In (rel f element) seen) /\
    (forall f, In f found -> readable f = true -> In (rel f element) seen \/ In (rel f element) (map (fun f => rel f element) new)).
  Proof.
    induction found as [|f found IH]; intros seen files; cbn [wild_files].
    - exists []. rewrite app_nil_r. split; [reflexivity|]. split; [constructor|]. split; intros ? [].
    - destruct (readable f) eqn:R; cbn [negb].
      + destruct (mem_str (rel f element) seen) eqn:M.
        * apply mem_str_In in M. destruct (IH seen files) as (new & -> & N & A & B). exists new. split; [reflexivity|]. split; [exact N|]. split; [intros g I; destruct (A g I) as (X & Y & Z); split; [now right|auto]|]. intros g [<-|I] G; auto.
        * apply mem_str_false in M. destruct (IH (rel f element :: seen) (files ++ [f])) as (new & -> & N & A & B). exists (f :: new). split; [cbn [map rev]; now rewrite <- !app_assoc|]. split.
          { constructor; auto. intros I. apply in_map_iff in I. destruct I as (g & E & I). destruct (A g I) as (_ & _ & X). apply X. rewrite E. now left. }
          split; [intros g [<-|I]; [repeat split; auto; now left|]; destruct (A g I) as (X & Y & Z); repeat split; auto; [now right|]; intros K; apply Z; now right|].
          intros g [<-|I] G; [right; now left|]. destruct (B g I G) as [[E|K]|K]; [right; left; auto|left; auto|right; now right].
      + destruct (IH seen files) as (new & -> & N & A & B). exists new. split; [reflexivity|]. split; [exact N|]. split; [intros g I; destruct (A g I) as (X & Y & Z); split; [now right|auto]|]. intros g [<-|I] G; auto. congruence.
  Qed.
  Lemma wild_loop_spec pathname paths : forall seen files, exists new : list (str * str), wild_loop glob readable rel pathname paths seen files = files ++ map snd new /\
    NoDup (map (fun ef => rel (snd ef) (fst ef)) new) /\ (forall e f, In (e, f) new -> ~ In (rel f e) seen) /\
    (forall e f, In (e, f) new -> exists before after, paths = before ++ e :: after /\ In f (hits pathname e) /\ forall e' f', In e' before -> In f' (hits pathname e') -> rel f' e' <> rel f e) /\
    (forall e f, In e paths -> In f (hits pathname e) -> In (rel f e) seen \/ In (rel f e) (map (fun ef => rel (snd ef) (fst ef)) new)).
  Proof.
    induction paths as [|e paths IH]; intros seen files; cbn [wild_loop].
    - exists []. rewrite app_nil_r. split; [auto|]. split; [constructor|]. repeat split; intros ? ? [].
    - destruct (wild_files_spec e (sorted_set (glob (pjoin e pathname))) seen files) as (n1 & -> & N1 & A1 & B1).
      destruct (IH (rev (map (fun f => rel f e) n1) ++ seen) (files ++ n1)) as (n2 & -> & N2 & S2 & A2 & B2).
      exists (map (fun f => (e, f)) n1 ++ n2). rewrite !map_app, !map_map. cbn [fst snd]. rewrite map_id. split; [now rewrite <- app_assoc|].
      split. { clear -N1 N2 S2. induction n1 as [|x n1 IH1]; cbn [map app]; auto. cbn [map] in N1. inversion N1; subst. constructor; [|apply IH1; auto; intros e' f' I K; apply (S2 e' f' I); cbn [map rev]; rewrite <- app_assoc; apply in_or_app; apply in_app_or in K; destruct K; [left; auto|right; right; auto]].
        intros I. apply in_app_or in I. destruct I as [I|I]; auto. apply in_map_iff in I. destruct I as ((e' & f') & E & I). cbn [fst snd] in E. apply (S2 e' f' I). apply in_or_app. left. apply in_rev. rewrite rev_involutive. rewrite E. now left. }
      split. { intros e' f' I K. apply in_app_or in I. destruct I as [I|I]; [apply in_map_iff in I; destruct I as (g & [= <- <-] & I); apply (A1 g I); auto|]. apply (S2 e' f' I). apply in_or_app. now right. }
      split.
      + intros e' f' I. apply in_app_or in I. destruct I as [I|I].
        * apply in_map_iff in I. destruct I as (g & [= <- <-] & I). destruct (A1 g I) as (X & Y & _). exists [], paths. split; [reflexivity|]. split; [unfold hits; apply filter_In; auto|]. intros ? ? [].
        * destruct (A2 e' f' I) as (b & a & -> & H & F). exists (e :: b), a. repeat split; auto. intros e2 f2 [<-|J] H2 E; [|now apply (F e2 f2)]. apply (S2 e' f' I). rewrite <- E. unfold hits in H2. apply filter_In in H2. destruct H2 as (H2 & R2). apply in_or_app. destruct (B1 f2 H2 R2); [now right|left]. apply in_rev. now rewrite rev_involutive.
      + intros e' f' [<-|I] H.
        * unfold hits in H. apply filter_In in H. destruct H as (H & R). destruct (B1 f' H R); [now left|right]. apply in_or_app. now left.
        * destruct (B2 e' f' I H) as [K|K]; [|right; apply in_or_app; now right]. apply in_app_or in K. destruct K as [K|K]; [|now left]. right. apply in_or_app. left. apply in_rev in K. auto.
  Qed.
End Wild.
