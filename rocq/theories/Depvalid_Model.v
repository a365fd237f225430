(** Model of the decision whether a prebuilt task can be skipped:
    setscene_depvalid of meta/classes-global/sstate.bbclass, and its use by
    bitbake/lib/bb/runqueue.py. *)
From Coq Require Import Ascii String List Bool Arith.
From Verif Require Import Str_Model.
Import ListNotations.
Open Scope list_scope.

(** An entry of taskdependees: the recipe and the task (the file is not used) *)
Record task := mkTask { t_pn : str; t_name : str }.

(** 1087 *)
Definition directtasks : list str :=
  [s_ "do_populate_lic"; s_ "do_deploy_source_date_epoch"; s_ "do_shared_workdir"; s_ "do_stash_locale"; s_ "do_gcc_stash_builddir"; s_ "do_create_spdx"].
(** 1089-1090 *)
Definition is_native_cross (x : str) : bool :=
  endswith (s_ "-native") x || contains_sub (s_ "-cross-") x || contains_sub (s_ "-crosssdk") x || endswith (s_ "-cross") x.
Definition package_write : list str := [s_ "do_package_write_deb"; s_ "do_package_write_ipk"; s_ "do_package_write_rpm"].
Definition is (a : str) (b : str) : bool := seqb a b.

(** What one round of the loop 1104-1170 decides: go on with the next dependee
    (continue) or need the task (return False).  [excluded a b]: some entry of
    SSTATE_EXCLUDEDEPS_SYSROOT matches the dependee [a] and the task [b] (1134-1146;
    the regular expressions are not modelled). *)
Inductive verdict := Next | Need.
Definition consider (excluded : str -> str -> bool) (t dep : task) : verdict :=
  let tn := t_name t in let dn := t_name dep in let tp := t_pn t in let dp := t_pn dep in
  (* 1111-1112 *)
  if is tn (s_ "do_package") && mem_str dn ([s_ "do_package"] ++ package_write ++ [s_ "do_packagedata"; s_ "do_package_qa"]) then Next
  (* 1114-1115 *)
  else if is tn (s_ "do_populate_sysroot") && mem_str dn package_write then Need
  (* 1117-1118 *)
  else if is tn (s_ "do_populate_sysroot") && mem_str dn [s_ "do_package"; s_ "do_packagedata"; s_ "do_package_qa"; s_ "do_deploy"] then Next
  (* 1120-1121 *)
  else if is_native_cross dp && mem_str dn (package_write ++ [s_ "do_packagedata"; s_ "do_package"; s_ "do_package_qa"]) then Next
  (* 1125-1126 *)
  else if (is tn (s_ "do_package") || is tn (s_ "do_populate_sysroot")) &&
          existsb (fun e => endswith e dp) [s_ "shadow-native"; s_ "shadow-sysroot"; s_ "base-passwd"; s_ "pseudo-native"] && is dn (s_ "do_populate_sysroot") then Next
  (* 1129-1163 *)
  else if is tn (s_ "do_populate_sysroot") && is dn (s_ "do_populate_sysroot") then
    if excluded dp tp then Next
    else if is dp (s_ "meta-extsdk-toolchain") then Need
    else if is_native_cross tp && is_native_cross dp then Need
    else if is_native_cross dp then Need
    else if is_native_cross tp && negb (is tp (s_ "shadow-native")) then Next
    else Need
  (* 1165-1166 *)
  else if mem_str dn directtasks then Next
  (* 1168-1170 *)
  else Need.

Section Decide.
  Variable excluded : str -> str -> bool.
  (** what the ids stand for *)
  Variable info : nat -> task.
  (** 1072-1171; true: the task can be skipped.  [dependees]: the keys of
      taskdependees in the order of the dictionary *)
  Fixpoint any_need (t : nat) (notneeded : list nat) (dependees : list nat) : bool :=
    match dependees with
    | [] => false
    | d :: ds =>
        if Nat.eqb t d then any_need t notneeded ds
        else if existsb (Nat.eqb d) notneeded then any_need t notneeded ds
        else match consider excluded (info t) (info d) with Next => any_need t notneeded ds | Need => true end
    end.
  Definition setscene_depvalid (t : nat) (dependees notneeded : list nat) : bool :=
    if mem_str (t_name (info t)) directtasks then true
    else if is (t_name (info t)) (s_ "do_packagedata") then
      negb (existsb (fun d => is (t_name (info d)) (s_ "do_packagedata")) dependees)
    else negb (any_need t notneeded dependees).
  (** runqueue.py 1997-2013: the dependees and the task itself, in any order *)
  Definition check_dependencies (order : list nat -> list nat) (t : nat) (revdeps notneeded : list nat) : bool :=
    setscene_depvalid t (order (t :: revdeps)) notneeded.
  (** runqueue.py 2183-2192: a task that becomes ready is skipped if it may be
      ([skippable]) and has dependees.  The tasks as they become ready; all of them
      have been found or skipped (the dependees are covered). *)
  Variable skippable : nat -> bool.
  Variable revdeps : nat -> list nat.
  Definition visit (order : list nat -> list nat) (notneeded : list nat) (t : nat) : list nat :=
    if skippable t && negb (match revdeps t with [] => true | _ => false end) && check_dependencies order t (revdeps t) notneeded then t :: notneeded else notneeded.
  Definition skipped (order : list nat -> list nat) (ts : list nat) : list nat := fold_left (visit order) ts [].
End Decide.
