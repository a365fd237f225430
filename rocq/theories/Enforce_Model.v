(** BB_SETSCENE_ENFORCE: bitbake/lib/bb/runqueue.py 467, 2755-2762, 2824-2849, 3312-3333.  Definitions only.  Messages are not modelled;
    sets in brackets are not modelled in patterns (see fnmatch in Layerconf_Model). *)
From Coq Require Import Ascii String List Bool.
From Verif Require Import Str_Model Layerconf_Model.
Import ListNotations.
Open Scope list_scope.

(** A target: the name it was asked for by, and the name (PN) of the recipe that provides it *)
Record target := Target { t_name : str; t_pn : str }.
(** 3319-3320 item.split(':')[1] *)
Definition second (item : str) : str := nth 1 (split_on ":"%char item) [].
(** 3317-3322, one item *)
Definition expand (targets : list target) (item : str) : list str :=
  if startswith (s_ "%:") item then map (fun t => t_name t ++ s_ ":" ++ second item) targets else [item].
(** 3312-3323 get_setscene_enforce_ignore_tasks *)
Definition ignore_tasks (enforce ignore : option str) (targets : list target) : option (list str) :=
  match enforce with
  | Some v => if seqb v (s_ "1") then Some (flat_map (expand targets) (split_ws (match ignore with Some i => i | None => [] end))) else None
  | None => None
  end.
(** 3325-3333 check_setscene_enforce_ignore_tasks *)
Definition check_ignore (pn task : str) (l : option (list str)) : bool :=
  match l with
  | Some l => existsb (fun pat => fnmatch (pn ++ s_ ":" ++ task) pat) l
  | None => true
  end.
(** 2824-2849: whether a task that is about to run is an error *)
Definition unexpected (covered stamped noexec : bool) (pn task : str) (l : option (list str)) : bool :=
  if covered then false else if stamped then false else if noexec then false else negb (check_ignore pn task l).
(** 2755-2762 sq_check_taskfail: whether the build is given up when the setscene variant of a task fails *)
Definition give_up (pn task : str) (l : option (list str)) : bool :=
  match l with Some _ => negb (check_ignore pn task l) | None => false end.
