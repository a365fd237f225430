(** C153 to C155: the pipes between bitbake, its workers and their children. *)
From Coq Require Import Ascii String List Bool Arith NArith Lia.
From Verif Require Import Str_Model Str_Proofs Wpipe_Model Wpipe_Spec Wpipe_Proofs.
Import ListNotations.
Open Scope list_scope.

(** * C153: what the server reads *)
(** However the bytes of a sequence of messages come in, and whatever is still to come, the
    server has taken the messages that have come completely, each once and in their order,
    and keeps the beginning of the next one. *)
Theorem server_reads {E T} (loads : str -> loaded E) (loads_exit : str -> option (T * nat)) ms ss chunks rest :
  Forall2 (carries loads loads_exit) ms ss -> concat chunks ++ rest = concat ss ->
  exists k q, server_run E T loads loads_exit chunks = Some (q, firstn k ms) /\ concat chunks = concat (firstn k ss) ++ q /\
    ((k = length ss /\ q = []) \/ exists s x, nth_error ss k = Some s /\ s = q ++ x /\ x <> []).
Proof.
  intros F W. destruct (server_run_spec E T loads loads_exit ms ss F chunks rest W) as (k & q & R & U & K & C). exists k, q. split; [exact R|]. split; [exact U|]. destruct C as [[C1 C2]|C]; [left; split; assumption|right; exact C].
Qed.
(** When all has come, all messages were taken and nothing is left. *)
Theorem server_reads_all {E T} (loads : str -> loaded E) (loads_exit : str -> option (T * nat)) ms ss chunks :
  Forall2 (carries loads loads_exit) ms ss -> concat chunks = concat ss -> server_run E T loads loads_exit chunks = Some ([], ms).
Proof.
  intros F W. destruct (server_reads loads loads_exit ms ss chunks [] F) as (k & q & R & U & C); [rewrite app_nil_r; exact W|]. rewrite R. destruct C as [[-> ->]|(s & x & N & EQ & NX)].
  - rewrite <- (Forall2_len _ _ _ F), firstn_all. reflexivity.
  - exfalso. rewrite W in U. rewrite <- (firstn_skipn k ss) in U at 1. rewrite concat_app in U. apply app_inv_head in U. rewrite (nth_error_split_at _ _ _ N) in U. cbn [concat] in U. rewrite EQ, <- app_assoc in U. rewrite <- (app_nil_r q) in U at 2. apply app_inv_head in U. apply app_eq_nil in U. exact (NX (proj1 U)).
Qed.
(** Nothing is made of bytes that no message begins with, and nothing behind them is taken
    any more. *)
Theorem server_stuck {E T} (loads : str -> loaded E) (loads_exit : str -> option (T * nat)) chunks c s :
  concat chunks = c :: s -> c <> "<"%char -> server_run E T loads loads_exit chunks = Some (c :: s, []).
Proof.
  intros W N. assert (G : forall chunks u, u ++ concat chunks = c :: s -> (u = [] \/ exists v, u = c :: v) -> fold_left (server_read E T loads loads_exit) chunks (Some (u, [])) = Some (c :: s, [])).
  { assert (ST : forall o v, startswith ("<"%char :: o) (c :: v) = false).
    { intros o v. cbn [startswith]. destruct (aeqb "<"%char c) eqn:A; [exfalso; apply N; symmetry; apply aeqb_eq; exact A|reflexivity]. }
    clear W chunks. induction chunks as [|x chunks IH]; intros u W U.
    - cbn [concat] in W. rewrite app_nil_r in W. subst u. reflexivity.
    - cbn [fold_left server_read concat] in *. rewrite app_assoc in W. destruct (u ++ x) as [|d v] eqn:UX.
      + cbn [length passes]. apply IH; [exact W|left; reflexivity].
      + assert (DC : d = c) by (cbn [app] in W; injection W as -> _; reflexivity). subst d. cbn [length passes event_loop]. change ev_open with ("<"%char :: s_ "event>"). rewrite ST. cbn [length exit_loop]. change ex_open with ("<"%char :: s_ "exitcode>"). rewrite ST. destruct (find ex_close (c :: v) 0); apply IH; try exact W; right; exists v; reflexivity. }
  apply G; [exact W|left; reflexivity].
Qed.

(** Two events, one with the closing tag in it, and an exit code. *)
Definition demo_loads (s : str) : loaded nat := if endswith (s_ ".") s then Loaded (length s) else Truncated.
Definition demo_loads_exit (s : str) : option (str * nat) := Some (s, 1).
Definition demo_messages : list (message nat str) := [Event 3; Exit (s_ "a:do_x") 1; Event 11].
Definition demo_bytes : list str := [s_ "<event>ab.</event>"; s_ "<exitcode>a:do_x</exitcode>"; s_ "<event>x</event>y.</event>"].
Example demo_carries : Forall2 (carries demo_loads demo_loads_exit) demo_messages demo_bytes.
Proof.
  repeat constructor.
  - exists (s_ "ab."). split; [reflexivity|]. split; [reflexivity|]. intros q r H. exfalso. assert (Z : contains_sub (s_ "</event>") (s_ "ab.") = true) by (apply contains_sub_iff; exists q, r; exact H). discriminate Z.
  - exists (s_ "a:do_x"). repeat split.
  - exists (s_ "x</event>y."). split; [reflexivity|]. split; [reflexivity|]. intros q r H. assert (L : q = s_ "x"). { destruct q as [|a q]; [discriminate H|]. injection H as <- H. destruct q as [|b q]; [reflexivity|]. exfalso. injection H as <- H. assert (Z : contains_sub (s_ "</event>") (s_ "/event>y.") = true) by (apply contains_sub_iff; exists q, r; exact H). discriminate Z. } rewrite L. reflexivity.
Qed.
Example demo_reads : server_run nat str demo_loads demo_loads_exit [s_ "<event>ab.</ev"; s_ "ent><exitcode>a:do_x</exitcode><event>x</event>"; s_ "y.</event"] = Some (s_ "<event>x</event>y.</event", [Event 3; Exit (s_ "a:do_x") 1]).
Proof. vm_compute. reflexivity. Qed.

(** * C154: what the worker passes on *)
(** Whatever the order in which children are started, write, are read and end: if the data
    of no event contains the tags, the worker goes on, and what it sends about a process is
    its events in their order, each once and complete; behind them, if the process has
    ended, its exit code once; and then no complete event of it is missing. *)
Theorem worker_passes {T} limit (msgs : nat -> list str) (acts : list (action T)) : 0 < limit ->
  (forall pid, Forall plain_event (msgs pid)) -> (forall pid, exists s, lived pid acts s) -> (forall pid, exists rest, wrote pid acts ++ rest = concat (msgs pid)) ->
  exists w, worker_run limit T acts = Some w /\
    forall pid, match w_children w pid with
                | Some c => lived pid acts (Some (c_task c, None)) /\ exists k, about pid (w_out w) = map Passed (firstn k (msgs pid))
                | None => (lived pid acts None /\ about pid (w_out w) = []) \/
                          exists t n k, lived pid acts (Some (t, Some n)) /\ about pid (w_out w) = map Passed (firstn k (msgs pid)) ++ [Status t n] /\
                            forall j m, nth_error (msgs pid) j = Some m -> length (concat (firstn (S j) (msgs pid))) <= length (wrote pid acts) -> j < k
                end.
Proof.
  intros LM PL LV WR. destruct (worker_spec limit T LM msgs PL acts LV WR) as (w & R & I). exists w. split; [exact R|]. intro pid. destruct (LV pid) as [s L]. pose proof (I pid s L) as V. destruct s as [[t [n|]]|].
  - destruct V as (k & q & C & K & A & W & D). rewrite C. right. exists t, n, k. split; [exact L|]. split; [exact A|]. intros j m NJ LJ. destruct (le_lt_dec k j) as [G|G]; [exfalso|exact G]. destruct D as [[_ D]|(s & x & NS & EQ & NX)]; [subst k; assert (j < length (msgs pid)) by (apply nth_error_Some; congruence); lia|].
    rewrite W in LJ. rewrite app_length in LJ. replace (S j) with (k + S (j - k)) in LJ by lia. rewrite firstn_plus, concat_app, app_length, (nth_error_split_at _ _ _ NS) in LJ. cbn [firstn concat] in LJ. rewrite app_length, EQ, app_length in LJ. destruct x; [contradiction|]. cbn [length] in LJ. lia.
  - destruct V as (k & c & C & TK & K & A & _). rewrite C, TK. split; [exact L|]. exists k. exact A.
  - destruct V as (C & A & _). rewrite C. left. split; [exact L|exact A].
Qed.
(** If a process wrote all its events, all of them are sent before its exit code. *)
Theorem worker_events_first {T} limit (msgs : nat -> list str) (acts : list (action T)) pid t n : 0 < limit ->
  (forall pid, Forall plain_event (msgs pid)) -> (forall pid, exists s, lived pid acts s) -> (forall pid, exists rest, wrote pid acts ++ rest = concat (msgs pid)) ->
  lived pid acts (Some (t, Some n)) -> wrote pid acts = concat (msgs pid) ->
  exists w, worker_run limit T acts = Some w /\ about pid (w_out w) = map Passed (msgs pid) ++ [Status t n].
Proof.
  intros LM PL LV WR L W. destruct (worker_spec limit T LM msgs PL acts LV WR) as (w & R & I). exists w. split; [exact R|]. destruct (I pid _ L) as (k & q & C & K & A & U & D). rewrite A. f_equal. f_equal. destruct D as [[_ ->]|(s & x & N & EQ & NX)]; [apply firstn_all|].
  exfalso. rewrite W in U. rewrite <- (firstn_skipn k (msgs pid)) in U at 1. rewrite concat_app in U. apply app_inv_head in U. rewrite (nth_error_split_at _ _ _ N) in U. cbn [concat] in U. rewrite EQ, <- app_assoc in U. rewrite <- (app_nil_r q) in U at 2. apply app_inv_head in U. apply app_eq_nil in U. exact (NX (proj1 U)).
Qed.
(** A read that leaves nothing in the pipe of a running process leaves no complete event. *)
Theorem worker_read_all {T} limit (msgs : nat -> list str) (acts : list (action T)) pid t : 0 < limit ->
  (forall pid, Forall plain_event (msgs pid)) -> (forall pid, exists s, lived pid acts s) -> (forall pid, exists rest, wrote pid acts ++ rest = concat (msgs pid)) ->
  lived pid acts (Some (t, None)) -> wrote pid acts = concat (msgs pid) ->
  exists w, worker_run limit T (acts ++ [Read pid]) = Some w /\ forall c, w_children w pid = Some c -> c_pipe c = [] -> about pid (w_out w) = map Passed (msgs pid).
Proof.
  intros LM PL LV WR L W. destruct (worker_spec limit T LM msgs PL acts LV WR) as (w & R & I). destruct (I pid _ L) as (k & c & C & TK & K & A & U).
  destruct (child_read_spec limit T LM pid (msgs pid) k c [] (w_out w) (PL pid)) as (k1 & c1 & CR & K1 & (_ & PLC) & T1 & P1 & U1 & D1).
  { apply (place_of T (msgs pid) acts pid []); [exact K|rewrite app_nil_r; exact W|exact U]. }
  rewrite worker_snoc, R. cbn [worker_step]. rewrite C, CR. eexists. split; [reflexivity|]. cbn [w_children w_out]. intro c'. rewrite set_own. intro E. injection E as <-. intro PE. rewrite about_app, about_own, A, <- map_app, <- firstn_plus. f_equal. destruct D1 as [[_ ->]|(s & x & N & EQ & NX)]; [apply firstn_all|].
  exfalso. rewrite PE in PLC. cbn [app] in PLC. rewrite app_nil_r in PLC. rewrite (nth_error_split_at _ _ _ N) in PLC. cbn [concat] in PLC. rewrite EQ, <- app_assoc in PLC. rewrite <- (app_nil_r (c_queue c1)) in PLC at 1. apply app_inv_head in PLC. symmetry in PLC. apply app_eq_nil in PLC. exact (NX (proj1 PLC)).
Qed.
(** Whatever the other threads put in, whenever the thread takes a message and however many
    bytes are written at once: what is in the pipe is the beginning of the messages in the
    order in which they were put in, and all of them when the thread may end. *)
Theorem flush_order acts : exists rest, f_written (flush_run acts) ++ rest = concat (puts acts) /\ (flush_done (flush_run acts) = true -> rest = []).
Proof.
  eexists. split; [apply flush_spec|]. unfold flush_done. destruct (f_queue (flush_run acts)); [|discriminate]. destruct (f_int (flush_run acts)); [reflexivity|discriminate].
Qed.
(** Down to the server: it takes the messages in the order in which the worker put them in. *)
Theorem messages_arrive {E T} (loads : str -> loaded E) (loads_exit : str -> option (T * nat)) ms acts chunks rest :
  Forall2 (carries loads loads_exit) ms (puts acts) -> concat chunks ++ rest = f_written (flush_run acts) ->
  exists k q, server_run E T loads loads_exit chunks = Some (q, firstn k ms) /\ (flush_done (flush_run acts) = true -> rest = [] -> q = [] /\ firstn k ms = ms).
Proof.
  intros F W. destruct (flush_order acts) as (left & FL & FD). destruct (server_reads loads loads_exit ms (puts acts) chunks (rest ++ left) F) as (k & q & R & _); [rewrite app_assoc, W; exact FL|]. exists k, q. split; [exact R|]. intros D ->. rewrite (FD D), app_nil_r in FL. rewrite app_nil_r in W.
  pose proof (server_reads_all loads loads_exit ms (puts acts) chunks F ltac:(congruence)) as Z. rewrite R in Z. injection Z as -> ->. split; reflexivity.
Qed.

Definition demo_acts : list (action str) :=
  [Start 7 (s_ "a:do_x"); Write 7 (s_ "<event>1</event><ev"); Start 8 (s_ "b:do_x"); Read 7; Write 8 (s_ "<event>2</event>"); Write 7 (s_ "ent>3</event>"); Reap 8 0; Reap 7 1].
Definition demo_msgs (pid : nat) : list str := if Nat.eqb pid 7 then [s_ "<event>1</event>"; s_ "<event>3</event>"] else if Nat.eqb pid 8 then [s_ "<event>2</event>"] else [].
Example demo_worker : option_map w_out (worker_run 4 str demo_acts) =
  Some [(8, Passed (s_ "<event>2</event>")); (8, Status (s_ "b:do_x") 0); (7, Passed (s_ "<event>1</event>")); (7, Passed (s_ "<event>3</event>")); (7, Status (s_ "a:do_x") 1)].
Proof. vm_compute. reflexivity. Qed.
Example demo_worker_met : (forall pid, Forall plain_event (demo_msgs pid)) /\ (forall pid, exists s, lived pid demo_acts s) /\ (forall pid, exists rest, wrote pid demo_acts ++ rest = concat (demo_msgs pid)) /\
  lived 7 demo_acts (Some (s_ "a:do_x", Some 1)) /\ wrote 7 demo_acts = concat (demo_msgs 7).
Proof.
  assert (L7 : lived 7 demo_acts (Some (s_ "a:do_x", Some 1))).
  { change demo_acts with ((((((((([] ++ [Start 7 (s_ "a:do_x")]) ++ [Write 7 (s_ "<event>1</event><ev")]) ++ [Start 8 (s_ "b:do_x")]) ++ [Read 7]) ++ [Write 8 (s_ "<event>2</event>")]) ++ [Write 7 (s_ "ent>3</event>")]) ++ [Reap 8 0]) ++ [Reap 7 1]) : list (action str)).
    apply lived_reap. apply lived_other; [|discriminate]. apply lived_write. apply lived_other; [|discriminate]. apply lived_read. apply lived_other; [|discriminate]. apply lived_write. apply lived_start. apply lived_not. }
  split; [|split; [|split; [|split]]].
  - intro pid. unfold demo_msgs. destruct (Nat.eqb pid 7); [|destruct (Nat.eqb pid 8)]; [apply Forall_cons; [exists (s_ "1"); repeat split|apply Forall_cons; [exists (s_ "3"); repeat split|apply Forall_nil]]|apply Forall_cons; [exists (s_ "2"); repeat split|apply Forall_nil]|apply Forall_nil].
  - intro pid. change demo_acts with ((((((((([] ++ [Start 7 (s_ "a:do_x")]) ++ [Write 7 (s_ "<event>1</event><ev")]) ++ [Start 8 (s_ "b:do_x")]) ++ [Read 7]) ++ [Write 8 (s_ "<event>2</event>")]) ++ [Write 7 (s_ "ent>3</event>")]) ++ [Reap 8 0]) ++ [Reap 7 1]) : list (action str)).
    destruct (Nat.eq_dec pid 7) as [->|N7]; [eexists; exact L7|]. destruct (Nat.eq_dec pid 8) as [->|N8].
    + eexists. apply lived_other; [|discriminate]. apply lived_reap. apply lived_other; [|discriminate]. apply lived_write. apply lived_other; [|discriminate]. apply lived_start. apply lived_other; [|discriminate]. apply lived_other; [|discriminate]. apply lived_not.
    + exists None. repeat (apply lived_other; [|intro Z; congruence]). apply lived_not.
  - intro pid. unfold demo_msgs. destruct (Nat.eq_dec pid 7) as [->|N7]; [exists []; reflexivity|]. destruct (Nat.eq_dec pid 8) as [->|N8]; [exists []; reflexivity|]. rewrite (proj2 (Nat.eqb_neq pid 7) N7), (proj2 (Nat.eqb_neq pid 8) N8). exists []. unfold wrote, demo_acts. cbn [map concat]. rewrite !(Nat.eqb_sym _ pid), (proj2 (Nat.eqb_neq pid 7) N7), (proj2 (Nat.eqb_neq pid 8) N8). reflexivity.
  - exact L7.
  - reflexivity.
Qed.
Example demo_flush : let f := flush_run [Put (s_ "ab"); Put_out 5; Take; Put (s_ "cd"); Put_out 1; Take; Put_out 9] in f_written f = s_ "abcd" /\ flush_done f = true.
Proof. vm_compute. split; reflexivity. Qed.
(** An event whose data contains an opening tag stops the worker, and with it every task it
    runs: the message is refused with an assertion, although the server would have taken
    it.  The text of a log message is such data. *)
Theorem event_tag_refuted : let acts := [Start 7 (s_ "a:do_x"); Write 7 (s_ "<event>log: <event> seen</event>"); Read 7] in
  worker_run 100 str acts = None /\
  server_run nat str (fun s => Loaded (length s)) demo_loads_exit [s_ "<event>log: <event> seen</event>"] = Some ([], [Event 17]).
Proof. vm_compute. split; reflexivity. Qed.
(** And so does one with a closing tag, which the server reads as one event: its rest is no
    event when the next one comes. *)
Theorem event_end_refuted : let acts := [Start 7 (s_ "a:do_x"); Write 7 (s_ "<event>x</event>y.</event>"); Read 7] in
  worker_run 100 str acts = None /\ server_run nat str demo_loads demo_loads_exit [s_ "<event>x</event>y.</event>"] = Some ([], [Event 11]).
Proof. vm_compute. split; reflexivity. Qed.

(** * C155: commands *)
(** However the bytes of commands come in, the worker has handled the first of them, in
    their order and with the data that was sent, and the rest is in its queue; behind quit
    it handles none. *)
Theorem commands_order cs chunks rest : Forall command cs -> concat chunks ++ rest = concat (map (fun c => send_pickled_data (fst c) (snd c)) cs) ->
  exists k, v_handled (serve_run chunks) = firstn k cs /\ concat chunks = concat (map (fun c => send_pickled_data (fst c) (snd c)) (firstn k cs)) ++ v_queue (serve_run chunks) /\
    (v_quit (serve_run chunks) = true <-> exists c, In c (firstn k cs) /\ fst c = s_ "quit") /\ (forall c, In c (removelast (firstn k cs)) -> fst c <> s_ "quit").
Proof.
  intros F W. destruct (serve_spec cs F chunks rest W) as (k & G). exists k. destruct G as (_ & H & U & Q). split; [exact H|]. split; [exact U|]. split.
  - rewrite Q, existsb_exists. split; intros (c & I & Z); exists c; (split; [exact I|]); [apply seqb_eq; exact Z|apply seqb_eq; exact Z].
  - rewrite <- H. exact (proj2 (quit_run chunks)).
Qed.
(** When all commands have come, and quit is not before another one, every one of them is
    handled after as many turns as there are commands. *)
Theorem commands_all cs chunks : Forall command cs -> concat chunks = concat (map (fun c => send_pickled_data (fst c) (snd c)) cs) -> (forall c, In c (removelast cs) -> fst c <> s_ "quit") ->
  forall turns, length cs <= turns -> v_handled (serve_run (chunks ++ repeat [] turns)) = cs /\ v_queue (serve_run (chunks ++ repeat [] turns)) = [].
Proof.
  intros F W NQ turns L. destruct (serve_all cs F chunks W NQ turns) as (k & KI & K & H & U & _). rewrite Nat.min_r in KI by exact L. assert (k = length cs) by lia. subst k. rewrite firstn_all in H, U. split; [exact H|]. rewrite W in U. rewrite <- (app_nil_r (concat (map _ cs))) in U at 1. apply app_inv_head in U. symmetry. exact U.
Qed.
Definition demo_commands : list (str * str) := [(s_ "runtask", ["128"%char; "a"%char]); (s_ "workerdata", ["128"%char]); (s_ "quit", "128"%char :: s_ "</runtask>")].
Example demo_commands_ok : Forall command demo_commands.
Proof. repeat constructor; try (eexists; reflexivity); cbn; tauto. Qed.
Example demo_serve : let bytes := concat (map (fun c => send_pickled_data (fst c) (snd c)) demo_commands) in
  v_handled (serve_run [firstn 9 bytes; skipn 9 bytes]) = firstn 1 demo_commands /\ v_handled (serve_run [firstn 9 bytes; skipn 9 bytes; []; []]) = demo_commands.
Proof. vm_compute. split; reflexivity. Qed.
(** The length that is sent with a command is not used to find its end: data that contains
    the closing tag is handed over cut, and the rest of it keeps every later command from
    being handled. *)
Theorem command_tag_refuted : let data := "128"%char :: s_ "a</ping>b" in
  let st := serve_run [send_pickled_data (s_ "ping") data; send_pickled_data (s_ "quit") ["128"%char]; []; []; []] in
  v_handled st = [(s_ "ping", "128"%char :: s_ "a")] /\ v_quit st = false /\ v_queue st = s_ "b</ping>" ++ send_pickled_data (s_ "quit") ["128"%char].
Proof. vm_compute. repeat split; reflexivity. Qed.

Print Assumptions server_reads.
Print Assumptions server_reads_all.
Print Assumptions server_stuck.
Print Assumptions worker_passes.
Print Assumptions worker_events_first.
Print Assumptions worker_read_all.
Print Assumptions flush_order.
Print Assumptions messages_arrive.
Print Assumptions event_tag_refuted.
Print Assumptions event_end_refuted.
Print Assumptions commands_order.
Print Assumptions commands_all.
Print Assumptions command_tag_refuted.
