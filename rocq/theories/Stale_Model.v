(** Stale shared state: sstate_eventhandler_stalesstate, meta/classes-global/sstate.bbclass 1311-1352, for one architecture.  Definitions
    only.  Not modelled: the loop over the architectures (an
    architecture that comes before one with an invalid index has been handled); the events about the progress; what sstate_clean_manifest does with a manifest (see Sstate_Model). *)
From Coq Require Import Ascii String List Bool.
From Verif Require Import Str_Model.
Import ListNotations.
Open Scope list_scope.

(** A task of which the stamps are stale: the recipe file, the name of the task (tid is file:name), the stamps *)
Record task := Task { t_file : str; t_name : str; t_stamps : list str }.
(** 1330 taskname_from_tid(tid)[3:], and 1331 *)
Definition manifest_of (manifest : str) (t : task) : str := manifest ++ s_ "." ++ skipn 3 (t_name t).
(** 1327-1335 for one line of the index *)
Definition line_removes (exists_ : str -> bool) (stamp manifest : str) (tasks : list task) : list (str * list str) :=
  flat_map (fun t => if existsb (fun s => startswith stamp s) (t_stamps t) && exists_ (manifest_of manifest t) then [(manifest_of manifest t, t_stamps t)] else []) tasks.
(** 1324-1337; None: bb.fatal *)
Fixpoint to_remove (exists_ : str -> bool) (lines : list str) (tasks : list task) : option (list (str * list str)) :=
  match lines with
  | [] => Some []
  | l :: lines =>
      match split_ws l with
      | [stamp; manifest; _] =>
          match to_remove exists_ lines tasks with
          | Some r => Some (line_removes exists_ stamp manifest tasks ++ r)
          | None => None
          end
      | _ => None
      end
  end.
(** 1339-1349: manifests that are cleaned and stamps that are removed, in order *)
Inductive action := Clean (manifest : str) | Remove (stamp : str).
Definition stale (exists_ : str -> bool) (index : option (list str)) (tasks : list task) : option (list action) :=
  match index with
  | None => Some []
  | Some lines => match to_remove exists_ lines tasks with
                  | Some r => Some (flat_map (fun p => Clean (fst p) :: map Remove (snd p)) r)
                  | None => None
                  end
  end.
