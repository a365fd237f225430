(** What is said about the pipes of bitbake's workers. *)
From Coq Require Import Ascii String List Bool Arith NArith.
From Verif Require Import Str_Model Wpipe_Model.
Import ListNotations.
Open Scope list_scope.

(** ** Messages of the worker *)
(** The bytes of a message.  An event's data may contain the closing tag: pickle then takes
    what is before it for truncated.  The name of a task does not contain the other one. *)
Definition carries {E T} (loads : str -> loaded E) (loads_exit : str -> option (T * nat)) (m : message E T) (s : str) : Prop :=
  match m with
  | Event e => exists p, s = s_ "<event>" ++ p ++ s_ "</event>" /\ loads p = Loaded e /\ forall q r, p = q ++ s_ "</event>" ++ r -> loads q = Truncated
  | Exit t n => exists p, s = s_ "<exitcode>" ++ p ++ s_ "</exitcode>" /\ loads_exit p = Some (t, n) /\ contains_sub (s_ "</exitcode>") p = false
  end.
(** An event of a child: bytes without these tags in its data. *)
Definition plain_event (s : str) : Prop := exists p, s = s_ "<event>" ++ p ++ s_ "</event>" /\ contains_sub (s_ "<event>") p = false /\ contains_sub (s_ "</event>") p = false.

(** ** Histories of the worker *)
(** What a child wrote since it was started, and what is put out about it: its number is
    not used twice. *)
Definition wrote {T} (pid : nat) (acts : list (action T)) : str := concat (map (fun a => match a with Write p b => if Nat.eqb p pid then b else [] | _ => [] end) acts).
Definition about {T} (pid : nat) (out : list (nat * sent T)) : list (sent T) := map snd (filter (fun x => Nat.eqb (fst x) pid) out).
(** One process: it starts once, writes only while it is running, and is collected at most
    once, after all it wrote. *)
Inductive lived {T} (pid : nat) : list (action T) -> option (T * option nat) -> Prop :=
| lived_not : lived pid [] None
| lived_other acts a s : lived pid acts s -> (match a with Start p _ | Write p _ | Read p | Reap p _ => p end) <> pid -> lived pid (acts ++ [a]) s
| lived_start acts t : lived pid acts None -> lived pid (acts ++ [Start pid t]) (Some (t, None))
| lived_write acts t b : lived pid acts (Some (t, None)) -> lived pid (acts ++ [Write pid b]) (Some (t, None))
| lived_read acts t : lived pid acts (Some (t, None)) -> lived pid (acts ++ [Read pid]) (Some (t, None))
| lived_reap acts t n : lived pid acts (Some (t, None)) -> lived pid (acts ++ [Reap pid n]) (Some (t, Some n)).

(** What was put into the queue of the writing thread. *)
Definition puts (acts : list flush_action) : list str := flat_map (fun a => match a with Put m => [m] | _ => [] end) acts.

(** ** Commands *)
(** A command of the server: a known name, data as pickle writes it (byte 128 comes first)
    that does not contain its closing tag, of less than 4 GiB. *)
(** The commands a server sends to a worker. *)
Definition known : list str := [s_ "cookerconfig"; s_ "extraconfigdata"; s_ "workerdata"; s_ "newtaskhashes"; s_ "runtask"; s_ "finishnow"; s_ "ping"; s_ "quit"].
Definition command (c : str * str) : Prop := In (fst c) known /\ (exists r, snd c = "128"%char :: r) /\ contains_sub (s_ "</" ++ fst c ++ s_ ">") (snd c) = false /\ (N.of_nat (length (snd c)) < 2 ^ 32)%N.
