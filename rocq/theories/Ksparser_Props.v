(** Property C07: sizes and system ids in kickstart files. *)
From Coq Require Import Ascii String List Bool NArith ZArith Lia.
From Verif Require Import Str_Model Str_Proofs Ksparser_Model Ksparser_Spec Ksparser_Proofs.
Import ListNotations.
Open Scope list_scope.

(** C07.  An argument is accepted exactly if it is a number (then in the default
    unit) or a number followed by a unit letter, and the result, in bytes or in
    KiB, is the number times the unit. *)
Theorem size_argument_exact :
  forall d in_bytes arg v,
    sizetype [d] in_bytes arg = Some v <->
    exists n c u,
      ((int_literal arg n /\ c = d) \/
       ((forall m, ~ int_literal arg m) /\ exists num, arg = num ++ [c] /\ int_literal num n)) /\
      unit_bytes in_bytes c u /\ (v * (if in_bytes then 1 else 1024) = n * u)%Z.
Proof. exact sizetype_spec. Qed.
Print Assumptions size_argument_exact.

(** C07 on ordinary spellings: decimal number, optional unit letter. *)
Theorem size_argument_decimal :
  forall d in_bytes n v,
    sizetype [d] in_bytes (dec n) = Some v <->
    exists u, unit_bytes in_bytes d u /\ (v * (if in_bytes then 1 else 1024) = Z.of_N n * u)%Z.
Proof.
  intros. rewrite sizetype_spec. pose proof (dec_literal n) as L. split.
  - intros (m & c & u & [[M ->]|[N _]] & U & V).
    + exists u. rewrite (int_literal_fun _ _ _ L M). auto.
    + exfalso. eapply N; eauto.
  - intros (u & U & V). exists (Z.of_N n), d, u. split; [left; auto|auto].
Qed.
Print Assumptions size_argument_decimal.

Theorem size_argument_with_unit :
  forall d in_bytes n c v, is_digit c = false -> is_space c = false ->
    (sizetype [d] in_bytes (dec n ++ [c]) = Some v <->
     exists u, unit_bytes in_bytes c u /\ (v * (if in_bytes then 1 else 1024) = Z.of_N n * u)%Z).
Proof.
  intros d ib n c v D S. rewrite sizetype_spec. pose proof (dec_literal n) as L. split.
  - intros (m & c' & u & [[M _]|[N (num & E & M)]] & U & V).
    + exfalso. eapply suffixed_not_literal; eauto.
    + apply app_inj_tail in E. destruct E as [<- <-]. exists u.
      rewrite (int_literal_fun _ _ _ L M). auto.
  - intros (u & U & V). exists (Z.of_N n), c, u. split; [|auto]. right. split.
    + intros m. apply suffixed_not_literal; auto.
    + exists (dec n). auto.
Qed.
Print Assumptions size_argument_with_unit.

Example size_examples :
  sizetype (s_ "M") false (s_ "10") = Some 10240%Z /\
  sizetype (s_ "M") false (s_ "10k") = Some 10%Z /\
  sizetype (s_ "M") false (s_ "3G") = Some 3145728%Z /\
  sizetype (s_ "K") true (s_ "7S") = Some 3584%Z /\
  sizetype (s_ "M") false (s_ "7S") = None /\
  sizetype (s_ "M") false (s_ "7m") = None /\
  sizetype (s_ "M") false (s_ "") = None /\
  is_digit "G" = false /\ is_space "G" = false.
Proof. repeat split. Qed.

(** Finding: negative sizes are accepted. *)
Theorem size_argument_negative_refuted :
  exists arg v, sizetype (s_ "M") false arg = Some v /\ (v < 0)%Z.
Proof. exists (s_ "-5"), (-5120)%Z. split; [reflexivity|lia]. Qed.
Print Assumptions size_argument_negative_refuted.

(** C07, --system-id: accepted exactly if it is a hexadecimal number from 1 to
    0xff, and then passed on unchanged. *)
Theorem system_id_exact :
  forall arg r, systemidtype arg = Some r <->
    r = arg /\ exists n, hex_literal arg n /\ (1 <= n <= 255)%Z.
Proof. exact systemid_spec. Qed.
Example system_id_examples :
  systemidtype (s_ "0x83") = Some (s_ "0x83") /\ systemidtype (s_ "ef") = Some (s_ "ef") /\
  systemidtype (s_ "0") = None /\ systemidtype (s_ "100") = None /\ systemidtype (s_ "zz") = None.
Proof. repeat split. Qed.
Print Assumptions system_id_exact.
