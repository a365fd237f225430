(** world and universe: the theorems. *)
From Coq Require Import Ascii String List Bool.
From Verif Require Import Str_Model Str_Proofs World_Model World_Spec World_Proofs.
Import ListNotations.
Open Scope list_scope.

(** world: the names of the recipes that are not excluded, have the task, and whose names nobody else provides; each once *)
Theorem world_members rs task pn :
  different_files rs -> task <> [] ->
  (In pn (world_target (build_world (parsed rs) (Some task))) <->
   alone rs pn /\ exists r, In r rs /\ r_pn r = pn /\ r_in_world r = true /\ In task (r_tasks r)) /\
  NoDup (world_target (build_world (parsed rs) (Some task))).
Proof.
  intros D T. pose proof (parsed_tables rs D) as TB. pose proof TB as (A & B & C & PW & _ & WT). unfold build_world. rewrite WT. cbn [world_target]. split; [|apply fold_add_nodup; constructor]. rewrite fold_add_in. split.
  - intros [[]|I]. apply in_map_iff in I. destruct I as (f & <- & I). apply filter_In in I. destruct I as [I E]. rewrite PW in I. apply in_map_iff in I. destruct I as (r & <- & I). apply filter_In in I. destruct I as [I W].
    unfold terminal in E. destruct task as [|c task]; [contradiction|]. destruct (A r I) as [TD PF]. rewrite TD, PF in E. apply andb_true_iff in E. destruct E as [M O]. apply mem_str_In in M. rewrite PF. split; [now apply (alone_iff rs _ _ TB)|]. exists r. auto.
  - intros (AL & r & I & <- & W & M). right. apply in_map_iff. exists (r_file r). split; [exact (proj2 (A r I))|]. apply filter_In. split; [rewrite PW; apply in_map; now apply filter_In|].
    unfold terminal. destruct task as [|c task]; [contradiction|]. destruct (A r I) as [TD PF]. rewrite TD, PF. apply andb_true_iff. split; [now apply mem_str_In|now apply (alone_iff rs _ _ TB)].
Qed.
Definition rec (f pn : string) (ps : list str) (w : bool) : recipe := Recipe (s_ f) (s_ pn) ps [s_ "do_build"] w.
Definition rs_example : list recipe :=
  [rec "hello_1.bb"%string "hello"%string [s_ "greeting"] true; rec "hello_2.bb"%string "hello"%string [s_ "greeting"] true; rec "a_1.bb"%string "a"%string [s_ "x"] true; rec "b_1.bb"%string "b"%string [s_ "x"] true;
   rec "boot_1.bb"%string "boot"%string [s_ "virtual/bootloader"] true; rec "image_1.bb"%string "image"%string [] false].
Example world_members_met : world_target (build_world (parsed rs_example) (Some (s_ "do_build"))) = [s_ "hello"] /\ different_files rs_example.
Proof. split; [reflexivity|]. unfold different_files. cbn. repeat constructor; cbn; intuition discriminate. Qed.

(** universe: the names of all recipes; those for which some recipe that provides the name has the task *)
Theorem universe_members rs task pn :
  different_files rs -> task <> [] ->
  (In pn (universe (parsed rs) task) <-> (exists r, In r rs /\ r_pn r = pn) /\ exists r, In r rs /\ has_name r pn /\ In task (r_tasks r)).
Proof.
  intros D T. pose proof (parsed_tables rs D) as (A & B & _ & _ & U & _). unfold universe. rewrite filter_In, U. destruct task as [|c task]; [contradiction|]. rewrite existsb_exists, in_map_iff. split.
  - intros ((r & P & R) & f & F & M). apply B in F. destruct F as (r' & R' & <- & H). rewrite (proj1 (A r' R')) in M. apply mem_str_In in M. split; eauto.
  - intros ((r & R & P) & r' & R' & H & M). split; [eauto|]. exists (r_file r'). split; [apply B; eauto|]. rewrite (proj1 (A r' R')). now apply mem_str_In.
Qed.
Example universe_members_met : universe (parsed rs_example) (s_ "do_build") = map s_ ["hello"; "hello"; "a"; "b"; "boot"; "image"]%string.
Proof. reflexivity. Qed.
(** What is in world is in universe *)
Theorem world_in_universe rs task pn : different_files rs -> task <> [] ->
  In pn (world_target (build_world (parsed rs) (Some task))) -> In pn (universe (parsed rs) task).
Proof.
  intros D T I. apply (world_members rs task pn D T) in I. destruct I as (_ & r & R & P & _ & M). apply universe_members; [exact D|exact T|]. split; [eauto|]. exists r. split; [exact R|]. split; [left; congruence|exact M].
Qed.

(** Refuted: that world depends on the task that is asked for.  In a server that stays, the first list that is not empty is kept *)
Theorem world_stale_refuted :
  let rs := [Recipe (s_ "a_1.bb") (s_ "a") [] [s_ "do_build"; s_ "do_clean"] true; Recipe (s_ "b_1.bb") (s_ "b") [] [s_ "do_clean"] true] in
  let first := build_world (parsed rs) (Some (s_ "do_build")) in
  world_target (build_world first (Some (s_ "do_clean"))) = [s_ "a"] /\ world_target (build_world (parsed rs) (Some (s_ "do_clean"))) = [s_ "a"; s_ "b"].
Proof. split; reflexivity. Qed.
(** Refuted: that in universe every recipe has the task: another recipe that provides the name may have it instead *)
Theorem universe_task_refuted :
  let rs := [Recipe (s_ "a_1.bb") (s_ "a") [] [] true; Recipe (s_ "b_1.bb") (s_ "b") [s_ "a"] [s_ "do_build"] true] in
  universe (parsed rs) (s_ "do_build") = [s_ "a"; s_ "b"].
Proof. reflexivity. Qed.

Print Assumptions world_members.
Print Assumptions universe_members.
Print Assumptions world_in_universe.
Print Assumptions world_stale_refuted.
Print Assumptions universe_task_refuted.
