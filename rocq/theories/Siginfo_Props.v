(** Signature data between processes: the theorems. *)
From Coq Require Import Ascii String List Bool Arith Lia.
From Verif Require Import Str_Model Str_Proofs Siginfo_Model Siginfo_Spec Siginfo_Proofs.
Import ListNotations.
Open Scope list_scope.

(** Whatever processes send and in whatever order the receiver takes it, with resets of the senders at any time: it receives from
    every process what that process has sent, in this order, and never fails *)
Theorem infos_arrive es p :
  (forall q i, In (Send q i) es -> is_info i) ->
  exists rest, map Some (sent p es) = results (run es) p ++ rest /\ length rest = length (queues (run es) p).
Proof.
  intro I. destruct (good_run es I p) as (rs & is & m & R & Q & S & _). exists (map Some is). rewrite S, map_app, R. split; [reflexivity|]. rewrite map_length. clear -Q.
  revert is Q. generalize (maps (run es) p) as n. induction (queues (run es) p) as [|x q IH]; intros n is Q; cbn [read_all] in Q.
  - injection Q as <- <-. reflexivity.
  - destruct (setstate n x) as [[i n']|]; [|discriminate]. destruct (read_all n' q) as [[js m2]|] eqn:E; [|discriminate]. injection Q as <- <-. cbn. f_equal. exact (IH _ _ E).
Qed.
(** All that is taken arrives *)
Theorem infos_all_arrive es p :
  (forall q i, In (Send q i) es -> is_info i) -> queues (run es) p = [] -> results (run es) p = map Some (sent p es).
Proof.
  intros I Q. destruct (infos_arrive es p I) as (rest & E & L). rewrite Q in L. destruct rest; [|discriminate]. now rewrite app_nil_r in E.
Qed.
Definition one : info := [Some [(s_ "A", Some (s_ "long value")); (s_ "B", None); (s_ "C", Some (s_ "long value"))]; None; Some []].
Definition two : info := [None; Some [(s_ "D", Some (s_ "long value")); (s_ "E", Some (s_ "other"))]; Some [(s_ "F", Some (s_ "other"))]].
Definition es_example : list event := [Send 1 one; Send 2 two; Receive 2; Send 1 two; Receive 1; Reset 1; Send 1 one; Receive 1; Receive 1].
Example infos_arrive_met :
  results (run es_example) 1 = [Some one; Some two; Some one] /\ results (run es_example) 2 = [Some two] /\
  (forall q i, In (Send q i) es_example -> is_info i).
Proof.
  split; [reflexivity|]. split; [reflexivity|]. intros q i I. unfold es_example in I. cbn [In] in I.
  assert (X : is_info one /\ is_info two).
  { split; intros d D; cbn in D; repeat (destruct D as [D|D]; [first [discriminate|injection D as <-; cbn; repeat constructor; cbn; intuition discriminate]|]); destruct D. }
  destruct X. repeat (destruct I as [I|I]; [first [discriminate|injection I as _ <-; assumption]|]). destruct I.
Qed.

(** A value is written in full at most once, until there is a reset *)
Theorem infos_once es p : (forall e, In e es -> e <> Reset p /\ e <> Receive p) -> NoDup (fulls (queues (run es) p)).
Proof. intro N. exact (proj1 (run_adds p es N)). Qed.
Example infos_once_met : fulls (queues (run [Send 1 one; Send 2 one; Send 1 two; Receive 2]) 1) = [s_ "long value"; s_ "other"].
Proof. reflexivity. Qed.

(** Refuted: that the receiver may begin anew (reset its restore_map) in between: the next value is not known to it *)
Theorem infos_receiver_refuted :
  let (m1, s1) := getstate reset one in
  let (m2, _) := getstate s1 two in
  (exists n, setstate (fun _ => None) m1 = Some (one, n)) /\ setstate (fun _ => None) m2 = None.
Proof. cbn. split; [eexists; reflexivity|reflexivity]. Qed.

Definition values (l : list str) : info := [Some (map (fun x => (x, Some x)) l)].
(** Refuted: that a reset may come at any time while another thread saves.  It is two assignments; a value that is saved between them
    has a number that is given again, and is later read as another value *)
Theorem infos_race_refuted :
  let (m1, s1) := getstate reset (values [s_ "a"; s_ "b"]) in
  let (m2, s2) := getstate (clear_map s1) (values [s_ "c"]) in
  let (m3, s3) := getstate (clear_count s2) (values [s_ "d"; s_ "e"; s_ "f"]) in
  let (m4, _) := getstate s3 (values [s_ "c"]) in
  exists n, read_all (fun _ => None) [m1; m2; m3; m4] =
    Some ([values [s_ "a"; s_ "b"]; values [s_ "c"]; values [s_ "d"; s_ "e"; s_ "f"]; [Some [(s_ "c", Some (s_ "f"))]]], n).
Proof. cbn. eexists. reflexivity. Qed.

Print Assumptions infos_arrive.
Print Assumptions infos_all_arrive.
Print Assumptions infos_once.
Print Assumptions infos_receiver_refuted.
Print Assumptions infos_race_refuted.
