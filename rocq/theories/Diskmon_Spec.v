(** Disk space that runs low. *)
From Coq Require Import Ascii String List Bool ZArith NArith.
From Verif Require Import Str_Model Diskmon_Model.
Import ListNotations.
Open Scope list_scope.

(** Limits are positive if they are given *)
Definition sensible (e : entry) : Prop := (forall n, e_space e = Some n -> (0 < n)%Z) /\ (forall n, e_inode e = Some n -> (0 < n)%Z).
(** The file system counts its inodes (b), all the time, or it does not *)
Definition counts (s : sample) : Prop := files s <> 0%Z /\ free_inode s <> (-1)%Z.
Definition steady (b : bool) (l : list sample) : Prop := forall s, In s l -> (counts s <-> b = true).
Definition low_space (e : entry) (s : sample) : Prop := exists n, e_space e = Some n /\ (free_space s < n)%Z.
Definition low_inode (e : entry) (s : sample) : Prop := exists n, e_inode e = Some n /\ (free_inode s < n)%Z.
Definition low (b : bool) (e : entry) (s : sample) : Prop := low_space e s \/ (b = true /\ low_inode e s).
Definition is_finish (e : event) : bool := match e with Finish _ => true | _ => false end.
(** Units *)
Definition unit_size (u : str) (n : Z) : Prop :=
  (u = [] /\ n = 1%Z) \/ ((u = s_ "k" \/ u = s_ "K") /\ n = 1024%Z) \/ ((u = s_ "m" \/ u = s_ "M") /\ n = (1024 * 1024)%Z) \/ ((u = s_ "g" \/ u = s_ "G") /\ n = (1024 * 1024 * 1024)%Z).
(** A limit as it is written, or nothing *)
Definition written (t : str) (v : option Z) : Prop :=
  (t = [] /\ v = None) \/ exists n u k, (0 < n)%N /\ t = dec n ++ u /\ unit_size u k /\ v = Some (Z.of_N n * k)%Z.
Definition action_name (t : str) (a : action) : Prop :=
  match a with Halt => t = s_ "HALT" \/ t = s_ "ABORT" | Stoptasks => t = s_ "STOPTASKS" | Warn => t = s_ "WARN" end.
