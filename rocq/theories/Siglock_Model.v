(** Which dependencies count for a task's hash, and locked hashes: meta/lib/oe/sstatesig.py. *)
From Coq Require Import List Ascii String Arith Bool.
From Verif Require Import Str_Model.
Import ListNotations.

(** ** sstatesig.py 11-81 sstate_rundepfilter *)
(** What the decision looks at.  [q_inherits]/[q_dep_inherits]: the class files of the recipe and
    of the dependency's recipe; [q_recommends]: the RRECOMMENDS of the recipe's packages. *)
Record query := mkQuery {
  q_recipe : str; q_task : str; q_dep : str; q_deptask : str; q_same_mc : bool;
  q_inherits : list str; q_dep_inherits : list str; q_recommends : list (list str);
  q_safe : list str; q_abisafe : list str }.

Definition is_native (x : str) : bool := endswith (s_ "-native") x.
Definition is_cross (x : str) : bool := contains_sub (s_ "-cross-") x.
Definition is_nativesdk (x : str) : bool := startswith (s_ "nativesdk-") x.
(** 19-29: the inherited class files joined by blanks, searched for a class name. *)
Definition has_class (inherits : list str) (c : str) : bool := contains_sub c (join (s_ " ") inherits).
Definition is_kernel (inherits : list str) : bool :=
  has_class inherits (s_ "/module-base.bbclass") || has_class inherits (s_ "/linux-kernel-base.bbclass").

Definition rundepfilter (q : query) : bool :=
  if seqb (q_task q) (s_ "do_rm_work") then false
  else if seqb (q_recipe q) (q_dep q) && q_same_mc q then
    negb (seqb (q_task q) (s_ "do_kernel_configme") && seqb (q_deptask q) (s_ "do_unpack_and_patch"))
  else if mem_str (q_recipe q ++ s_ "->" ++ q_dep q) (q_safe q) then false
  else if mem_str (s_ "*->" ++ q_dep q) (q_safe q) && negb (seqb (q_recipe q) (q_dep q)) then false
  else if is_native (q_recipe q) || is_cross (q_recipe q) || is_nativesdk (q_recipe q) then true
  else if has_class (q_inherits q) (s_ "/packagegroup.bbclass") && has_class (q_inherits q) (s_ "/allarch.bbclass")
          && negb (is_native (q_dep q)) then false
  else if mem_str (q_dep q) (q_abisafe q) && negb (has_class (q_inherits q) (s_ "/image.bbclass")) then false
  else if is_kernel (q_dep_inherits q) && negb (is_kernel (q_inherits q)) &&
          existsb (fun recs => contains_sub (s_ "kernel-module-") (join (s_ " ") recs)) (q_recommends q) then false
  else true.

(** ** sstatesig.py 83-94 sstate_lockedsigs *)
(** pn, task, h = ls.split(":", 2); [None] is ValueError. *)
Definition parse_lock (w : str) : option (str * str * str) :=
  match cut_at ":"%char w with
  | (pn, Some r) => match cut_at ":"%char r with
                    | (task, Some h) => Some (pn, task, h)
                    | _ => None
                    end
  | _ => None
  end.
(** The table, the newest entry first (later ones replace earlier ones). *)
Fixpoint add_locks (ws : list str) (acc : list (str * str * str)) : option (list (str * str * str)) :=
  match ws with
  | [] => Some acc
  | w :: r => match parse_lock w with Some e => add_locks r (e :: acc) | None => None end
  end.
Definition locked_sigs (vars : list str) : option (list (str * str * str)) :=
  add_locks (flat_map split_ws vars) [].
Fixpoint lock_of (locks : list (str * str * str)) (pn task : str) : option str :=
  match locks with
  | [] => None
  | (p, t, h) :: r => if seqb p pn && seqb t task then Some h else lock_of r pn task
  end.

(** ** sstatesig.py 153-202 get_taskhash *)
(** self.lockedhashes (the newest first; [] stands for False) and self.unlockedrecipes. *)
Record lstate := mkL { l_hashes : list (str * str); l_unlocked : list str }.
Fixpoint find_lock (m : list (str * str)) (tid : str) : option str :=
  match m with
  | [] => None
  | (k, v) :: r => if seqb tid k then Some v else find_lock r tid
  end.

(** A call: the task, its recipe and task name, the recipes of its dependencies in the same
    multiconfig, and the hash the base class computes. *)
Record call := mkCall { c_tid : str; c_recipe : str; c_task : str; c_deps : list str; c_hash : str }.

Definition locked_taskhash (locks : list (str * str * str)) (st : lstate) (c : call) : str * lstate :=
  match find_lock (l_hashes st) (c_tid c) with
  | Some (x :: h) => (x :: h, st)
  | Some [] => (c_hash c, st)
  | None =>
      let listed := mem_str (c_recipe c) (l_unlocked st) in
      (* 179: any(x in y for y in depnames for x in self.unlockedrecipes), [in] on texts *)
      let spread := existsb (fun y => existsb (fun x => contains_sub x y) (l_unlocked st)) (c_deps c) in
      let unlocked := if listed then l_unlocked st else if spread then c_recipe c :: l_unlocked st else l_unlocked st in
      if negb listed && negb spread then
        match lock_of locks (c_recipe c) (c_task c) with
        | Some h => (h, mkL ((c_tid c, h) :: l_hashes st) unlocked)
        | None => (c_hash c, mkL ((c_tid c, []) :: l_hashes st) unlocked)
        end
      else (c_hash c, mkL ((c_tid c, []) :: l_hashes st) unlocked)
  end.

(** A sequence of calls: the hashes returned. *)
Fixpoint locked_run (locks : list (str * str * str)) (st : lstate) (cs : list call) : list str * lstate :=
  match cs with
  | [] => ([], st)
  | c :: r => let '(h, st1) := locked_taskhash locks st c in
              let '(hs, st2) := locked_run locks st1 r in (h :: hs, st2)
  end.

(** ** sstatesig.py 236-247 dump_lockedsigs: the value written for one type, from the
    (recipe, task, hash) of its tasks in the order written.  The line continuations are joined by
    the metadata parser and are not part of the value. *)
Definition dump_locks (es : list (str * str * str)) : str :=
  List.concat (map (fun e => s_ "    " ++ fst (fst e) ++ s_ ":" ++ snd (fst e) ++ s_ ":" ++ snd e ++ s_ " ") es) ++ s_ "    ".
