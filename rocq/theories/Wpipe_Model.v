(** Model of the pipes between bitbake and the processes that run tasks: the server reads
    what its worker sends (bitbake/lib/bb/runqueue.py runQueuePipe 3239-3309), the worker
    passes on what its children send (bitbake/bin/bitbake-worker runQueueWorkerPipe 347-379,
    process_waitpid 515-544, worker_flush 93-115) and takes commands (serve and handle_item
    407-463, runqueue.py send_pickled_data 1339-1346).  Bytes are characters. *)
From Coq Require Import Ascii String List Bool Arith NArith.
From Verif Require Import Str_Model.
Import ListNotations.
Open Scope list_scope.

(** bytearray.find, without and with a start; slices; bytes.count *)
Fixpoint findk (pat s : str) : option nat :=
  if startswith pat s then Some 0 else match s with [] => None | _ :: s => option_map S (findk pat s) end.
Definition find (pat s : str) (start : nat) : option nat := option_map (Nat.add start) (findk pat (skipn start s)).
Definition slice (s : str) (a b : nat) : str := firstn (b - a) (skipn a s).
Fixpoint count_aux (pat : str) (skip : nat) (s : str) : nat :=
  match s with
  | [] => 0
  | _ :: s' => match skip with
               | S k => count_aux pat k s'
               | 0 => if startswith pat s then S (count_aux pat (length pat - 1) s') else count_aux pat 0 s'
               end
  end.
Definition count (pat s : str) : nat := count_aux pat 0 s.

Definition ev_open : str := s_ "<event>".
Definition ev_close : str := s_ "</event>".
Definition ex_open : str := s_ "<exitcode>".
Definition ex_close : str := s_ "</exitcode>".

(** ** The server (runqueue.py 3267-3303) *)
Section Server.
(** Events, and names of tasks; what pickle.loads makes of the bytes of an event (Bad:
    bb.msg.fatal), and of an exit code (None: bb.msg.fatal). *)
Variables E T : Type.
Inductive loaded := Loaded (e : E) | Truncated | Bad.
Variable loads : str -> loaded.
Variable loads_exit : str -> option (T * nat).
(** fire_from_worker, and runqueue_process_waitpid *)
Inductive message := Event (e : E) | Exit (t : T) (status : nat).
(** 3273-3282: the loop goes on with the next closing tag while the data is truncated *)
Inductive scanned := Got (e : E) (index : nat) | Wait | Fatal.
Fixpoint event_scan (fuel : nat) (queue : str) (index : option nat) : scanned :=
  match index with
  | None => Wait
  | Some i =>
      match loads (slice queue 7 i) with
      | Loaded e => Got e i
      | Truncated => match fuel with 0 => Wait | S fuel => event_scan fuel queue (find ev_close queue (i + 1)) end
      | Bad => Fatal
      end
  end.
(** 3272-3288; None: fatal *)
Fixpoint event_loop (fuel : nat) (queue : str) (out : list message) (found : bool) : option (str * list message * bool) :=
  match fuel with
  | 0 => Some (queue, out, found)
  | S fuel =>
      if startswith ev_open queue then
        match event_scan (length queue) queue (find ev_close queue 0) with
        | Got e i => event_loop fuel (skipn (i + 8) queue) (out ++ [Event e]) true
        | Wait => Some (queue, out, found)
        | Fatal => None
        end
      else Some (queue, out, found)
  end.
(** 3289-3302 *)
Fixpoint exit_loop (fuel : nat) (queue : str) (out : list message) (found : bool) : option (str * list message * bool) :=
  match fuel with
  | 0 => Some (queue, out, found)
  | S fuel =>
      match find ex_close queue 0 with
      | Some i =>
          if startswith ex_open queue then
            match loads_exit (slice queue 10 i) with
            | Some (t, status) => exit_loop fuel (skipn (i + 11) queue) (out ++ [Exit t status]) true
            | None => None
            end
          else Some (queue, out, found)
      | None => Some (queue, out, found)
      end
  end.
(** 3268-3302 *)
Fixpoint passes (fuel : nat) (queue : str) (out : list message) : option (str * list message) :=
  match fuel, queue with
  | 0, _ | _, [] => Some (queue, out)
  | S fuel, _ =>
      match event_loop (length queue) queue out false with
      | Some (queue, out, found) =>
          match exit_loop (length queue) queue out found with
          | Some (queue, out, found) => if found then passes fuel queue out else Some (queue, out)
          | None => None
          end
      | None => None
      end
  end.
(** one call of read: the bytes that were there *)
Definition server_read (st : option (str * list message)) (chunk : str) : option (str * list message) :=
  match st with
  | Some (queue, out) => passes (S (length (queue ++ chunk))) (queue ++ chunk) out
  | None => None
  end.
Definition server_run (chunks : list str) : option (str * list message) := fold_left server_read chunks (Some ([], [])).
End Server.
Arguments Loaded {E}. Arguments Truncated {E}. Arguments Bad {E}. Arguments Event {E T}. Arguments Exit {E T}. Arguments Got {E}. Arguments Wait {E}. Arguments Fatal {E}.

(** ** The worker and its children (bitbake-worker) *)
(** 365-373: the messages passed on; None: AssertionError, which ends the worker *)
Fixpoint relay (fuel : nat) (queue : str) (out : list str) : option (str * list str) :=
  match fuel with
  | 0 => Some (queue, out)
  | S fuel =>
      match find ev_close queue 0 with
      | None => Some (queue, out)
      | Some i =>
          let msg := firstn (i + 8) queue in
          if startswith ev_open msg && Nat.eqb (count ev_open msg) 1 then relay fuel (skipn (i + 8) queue) (out ++ [msg]) else None
      end
  end.
Section Worker.
(** Bytes read at once: 102400 *)
Variable limit : nat.
Variable T : Type.
(** A child: its task, the bytes it wrote and the worker has not read, and the queue *)
Record child := mkChild { c_task : T; c_pipe : str; c_queue : str }.
Inductive sent := Passed (msg : str) | Status (t : T) (status : nat).
(** Children by process number, and what was put into the queue of worker_flush, with the
    process it is about *)
Record worker := mkWorker { w_children : nat -> option child; w_out : list (nat * sent) }.
Definition set_child (m : nat -> option child) (pid : nat) (c : option child) : nat -> option child := fun p => if Nat.eqb p pid then c else m p.
(** 358-374 *)
Definition child_read (pid : nat) (c : child) (out : list (nat * sent)) : option (child * list (nat * sent)) :=
  let queue := c_queue c ++ firstn limit (c_pipe c) in
  match relay (length queue) queue [] with
  | Some (queue, msgs) => Some (mkChild (c_task c) (skipn limit (c_pipe c)) queue, out ++ map (fun m => (pid, Passed m)) msgs)
  | None => None
  end.
(** 376-378: until nothing was read *)
Fixpoint child_close (fuel : nat) (pid : nat) (c : child) (out : list (nat * sent)) : option (list (nat * sent)) :=
  match child_read pid c out with
  | Some (c', out) => match c_pipe c, fuel with [], _ | _, 0 => Some out | _, S fuel => child_close fuel pid c' out end
  | None => None
  end.
(** Start of a task (501-513), bytes a child writes, a read of its pipe in serve, and the
    collection of a child that has ended (528-544) *)
Inductive action := Start (pid : nat) (t : T) | Write (pid : nat) (bytes : str) | Read (pid : nat) | Reap (pid status : nat).
Definition worker_step (st : option worker) (a : action) : option worker :=
  match st with
  | None => None
  | Some w =>
      match a with
      | Start pid t => Some (mkWorker (set_child (w_children w) pid (Some (mkChild t [] []))) (w_out w))
      | Write pid bytes =>
          match w_children w pid with
          | Some c => Some (mkWorker (set_child (w_children w) pid (Some (mkChild (c_task c) (c_pipe c ++ bytes) (c_queue c)))) (w_out w))
          | None => Some w
          end
      | Read pid =>
          match w_children w pid with
          | Some c => match child_read pid c (w_out w) with Some (c, out) => Some (mkWorker (set_child (w_children w) pid (Some c)) out) | None => None end
          | None => Some w
          end
      | Reap pid status =>
          match w_children w pid with
          | Some c => match child_close (length (c_pipe c)) pid c (w_out w) with
                      | Some out => Some (mkWorker (set_child (w_children w) pid None) (out ++ [(pid, Status (c_task c) status)]))
                      | None => None
                      end
          | None => Some w
          end
      end
  end.
Definition worker_run (acts : list action) : option worker := fold_left worker_step acts (Some (mkWorker (fun _ => None) [])).
End Worker.
Arguments Passed {T}. Arguments Status {T}. Arguments Start {T}. Arguments Write {T}. Arguments Read {T}. Arguments Reap {T}. Arguments c_task {T}. Arguments c_pipe {T}. Arguments c_queue {T}. Arguments w_out {T}. Arguments w_children {T}. Arguments mkChild {T}. Arguments mkWorker {T}.
(** 93-115: worker_queue, worker_queue_int, and what is in the pipe to the server.  Another
    thread puts a message; the thread takes the first one; os.write writes some of the
    bytes, or none (EAGAIN and EPIPE). *)
Record flushing := mkFlushing { f_queue : list str; f_int : str; f_written : str }.
Inductive flush_action := Put (m : str) | Take | Put_out (n : nat).
Definition flush_step (f : flushing) (a : flush_action) : flushing :=
  match a with
  | Put m => mkFlushing (f_queue f ++ [m]) (f_int f) (f_written f)
  | Take => match f_queue f with m :: q => mkFlushing q (f_int f ++ m) (f_written f) | [] => f end
  | Put_out n => mkFlushing (f_queue f) (skipn n (f_int f)) (f_written f ++ firstn n (f_int f))
  end.
Definition flush_run (acts : list flush_action) : flushing := fold_left flush_step acts (mkFlushing [] [] []).
(** 114: the thread ends *)
Definition flush_done (f : flushing) : bool := match f_queue f, f_int f with [], [] => true | _, _ => false end.

(** ** Commands *)
(** int.to_bytes(4, 'big') and int.from_bytes *)
Definition to_bytes (n : N) : str := [ascii_of_N (n / 16777216 mod 256); ascii_of_N (n / 65536 mod 256); ascii_of_N (n / 256 mod 256); ascii_of_N (n mod 256)].
Definition from_bytes (s : str) : N := fold_left (fun a c => a * 256 + N_of_ascii c)%N s 0%N.
(** runqueue.py 1339-1346 *)
Definition send_pickled_data (name data : str) : str := s_ "<" ++ name ++ s_ ">" ++ to_bytes (N.of_nat (length data)) ++ data ++ s_ "</" ++ name ++ s_ ">".
(** 439-463: what the handler is called with and the rest of the queue; None: not called *)
Definition handle_item (item queue : str) : option (str * str) :=
  let opening_tag := s_ "<" ++ item ++ s_ ">" in
  if negb (startswith opening_tag queue) then None
  else
    let tag_len := length opening_tag in
    if length queue <? tag_len + 4 then None
    else if (N.of_nat (length queue) <? N.of_nat (tag_len * 2 + 1) + from_bytes (slice queue tag_len (tag_len + 4)))%N then None
    else match find (s_ "</" ++ item ++ s_ ">") queue 0 with
         | Some index => Some (slice queue (tag_len + 4) index, skipn (index + 2 + length item + 1) queue)
         | None => None
         end.
(** 421-428 *)
Definition items : list str := [s_ "cookerconfig"; s_ "extraconfigdata"; s_ "workerdata"; s_ "newtaskhashes"; s_ "runtask"; s_ "finishnow"; s_ "ping"; s_ "quit"].
(** The queue, the commands handled so far, and whether quit ended the process (485-490) *)
Record serving := mkServing { v_queue : str; v_handled : list (str * str); v_quit : bool }.
Definition serve_item (st : serving) (item : str) : serving :=
  if v_quit st then st
  else match handle_item item (v_queue st) with
       | Some (data, queue) => mkServing queue (v_handled st ++ [(item, data)]) (seqb item (s_ "quit"))
       | None => st
       end.
(** 407-428: one turn with the bytes that were there *)
Definition serve_turn (st : serving) (chunk : str) : serving := fold_left serve_item items (mkServing (v_queue st ++ chunk) (v_handled st) (v_quit st)).
Definition serve_run (chunks : list str) : serving := fold_left serve_turn chunks (mkServing [] [] false).
