(** Signature data of recipes on their way between processes and into the cache: bitbake/lib/bb/cache.py 242-335 SiggenRecipeInfo;
    who resets: bitbake/lib/bb/cooker.py 2149, 2201-2207, 2233.  Definitions only.
    Values (strings or frozen sets) are strings here.  The class attribute [store] only makes equal values one object and is left
    out. *)
From Coq Require Import Ascii String List Bool Arith.
From Verif Require Import Str_Model.
Import ListNotations.
Open Scope list_scope.

(** A dictionary of the three, by insertion; None: the attribute is None *)
Definition dict := list (str * option str).
(** cache.py 283-286: what is kept for saving: save_map and save_count *)
Record saver := Saver { save_map : list (str * nat); save_count : nat }.
(** 289-295 reset, of save_map and save_count *)
Definition reset : saver := Saver [] 1.
Fixpoint number (fs : str) (l : list (str * nat)) : option nat :=
  match l with
  | [] => None
  | (v, n) :: l => if seqb fs v then Some n else number fs l
  end.
(** 302-311: what is written for one value: the value and the number *)
Definition part := (option str * option nat)%type.
Definition save_value (s : saver) (fs : option str) : part * saver :=
  match fs with
  | None => ((None, None), s)
  | Some v =>
      match number v (save_map s) with
      | Some n => ((None, Some n), s)
      | None => ((Some v, Some (save_count s)), Saver ((v, save_count s) :: save_map s) (S (save_count s)))
      end
  end.
Fixpoint save_items (s : saver) (d : dict) : list (str * part) * saver :=
  match d with
  | [] => ([], s)
  | (dep, fs) :: d =>
      let (p, s) := save_value s fs in
      let (ps, s) := save_items s d in ((dep, p) :: ps, s)
  end.
(** 297-312 _save; [inl]: returned as it is (None or empty) *)
Definition saved := (option dict + list (str * part))%type.
Definition save (s : saver) (deps : option dict) : saved * saver :=
  match deps with
  | None => (inl None, s)
  | Some [] => (inl (Some []), s)
  | Some d => let (ps, s) := save_items s d in (inr ps, s)
  end.
(** restore_map[pid] *)
Definition numbered := nat -> option str.
Definition learn (m : numbered) (n : nat) (v : str) : numbered := fun k => if Nat.eqb k n then Some v else m k.
(** d[k] = v on a dictionary *)
Fixpoint dict_set (d : dict) (k : str) (v : option str) : dict :=
  match d with
  | [] => [(k, v)]
  | (k', v') :: d => if seqb k k' then (k', v) :: d else (k', v') :: dict_set d k v
  end.
(** 321-332, one turn; None: KeyError *)
Definition restore_value (m : numbered) (p : part) : option (option str * numbered) :=
  match p with
  | (None, None) => Some (None, m)
  | (None, Some n) => match m n with Some v => Some (Some v, m) | None => None end
  | (Some v, Some n) => Some (Some v, learn m n v)
  | (Some v, None) => Some (Some v, m)
  end.
Fixpoint restore_items (m : numbered) (ret : dict) (ps : list (str * part)) : option (dict * numbered) :=
  match ps with
  | [] => Some (ret, m)
  | (dep, p) :: ps => match restore_value m p with
                      | Some (v, m) => restore_items m (dict_set ret dep v) ps
                      | None => None
                      end
  end.
(** 314-333 _restore *)
Definition restore (m : numbered) (deps : saved) : option (option dict * numbered) :=
  match deps with
  | inl d => Some (d, m)
  | inr ps => match restore_items m [] ps with Some (d, m) => Some (Some d, m) | None => None end
  end.
(** The data of a recipe: siggen_gendeps, siggen_taskdeps, siggen_varvals *)
Definition info := list (option dict).
(** 335-340 __getstate__ *)
Fixpoint getstate (s : saver) (i : info) : list saved * saver :=
  match i with
  | [] => ([], s)
  | d :: i => let (x, s) := save s d in let (xs, s) := getstate s i in (x :: xs, s)
  end.
(** 342-345 __setstate__ *)
Fixpoint setstate (m : numbered) (xs : list saved) : option (info * numbered) :=
  match xs with
  | [] => Some ([], m)
  | x :: xs => match restore m x with
               | Some (d, m) => match setstate m xs with Some (i, m) => Some (d :: i, m) | None => None end
               | None => None
               end
  end.

(** ** Processes that send to one receiver, each in a queue of its own (a process that parses, or the file of a cache) *)
Definition pid := nat.
Inductive event :=
  | Send (p : pid) (i : info)    (* pickled by process p *)
  | Reset (p : pid)              (* reset in process p *)
  | Receive (p : pid).           (* the receiver takes the next message of p *)
Record world := World {
  savers : pid -> saver;
  queues : pid -> list (list saved);
  maps : pid -> numbered;
  results : pid -> list (option info)   (* what has been received from p; None: KeyError *)
}.
Definition at_ {A} (f : pid -> A) (p : pid) (x : A) : pid -> A := fun q => if Nat.eqb q p then x else f q.
Definition begin : world := World (fun _ => reset) (fun _ => []) (fun _ _ => None) (fun _ => []).
Definition step (w : world) (e : event) : world :=
  match e with
  | Send p i => let (m, s) := getstate (savers w p) i in World (at_ (savers w) p s) (at_ (queues w) p (queues w p ++ [m])) (maps w) (results w)
  | Reset p => World (at_ (savers w) p reset) (queues w) (maps w) (results w)
  | Receive p =>
      match queues w p with
      | [] => w
      | m :: q =>
          match setstate (maps w p) m with
          | Some (i, n) => World (savers w) (at_ (queues w) p q) (at_ (maps w) p n) (at_ (results w) p (results w p ++ [Some i]))
          | None => World (savers w) (at_ (queues w) p q) (maps w) (at_ (results w) p (results w p ++ [None]))
          end
      end
  end.
Definition run (es : list event) : world := fold_left step es begin.
(** cache.py 292-293: reset is two assignments; another thread (cooker.py 2206, SyncThread, while 2233 resets) may save between *)
Definition clear_map (s : saver) : saver := Saver [] (save_count s).
Definition clear_count (s : saver) : saver := Saver (save_map s) 1.
