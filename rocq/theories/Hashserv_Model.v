(** Model of the hash equivalence server: bitbake/lib/hashserv/sqlite.py
    (database) and bitbake/lib/hashserv/server.py (request handlers).
    Handlers only suspend while waiting for the upstream server (the database
    calls are coroutines that never yield), so a handler is modelled as atomic
    segments between upstream calls.  Simplifications: times are integers; rows
    with equal creation time are ordered by insertion; NULL columns only occur in
    the optional columns; statistics, logging, users (see Hashperm_Model) and the
    siginfo text are left out. *)
From Coq Require Import Ascii String List Bool Arith ZArith.
From Verif Require Import Str_Model.
Import ListNotations.
Open Scope list_scope.

(** sqlite.py 14-19: UNIQUE(method, taskhash) *)
Record urow := mkU { u_method : str; u_task : str; u_uni : str; u_mark : str }.
(** sqlite.py 23-35: UNIQUE(method, taskhash, outhash); [o_extra] are the optional
    columns that are not NULL *)
Record orow := mkO { o_method : str; o_task : str; o_out : str; o_created : Z; o_extra : list (str * str) }.
(** The database; [mark] is the config entry "gc-mark" (None: absent or NULL) *)
Record db := mkDb { unihashes : list urow; outhashes : list orow; mark : option str }.

Definition u_key (m t : str) (r : urow) : bool := seqb (u_method r) m && seqb (u_task r) t.
Definition o_key (m t o : str) (r : orow) : bool :=
  seqb (o_method r) m && seqb (o_task r) t && seqb (o_out r) o.

(** sqlite.py 310-319 *)
Definition get_equivalent (d : db) (m t : str) : option str :=
  match find (u_key m t) (unihashes d) with Some r => Some (u_uni r) | None => None end.

(** sqlite.py 231-235 etc.: outhash rows with a condition, joined with their
    unihash row *)
Definition joined (d : db) (p : orow -> bool) : list (orow * str) :=
  flat_map (fun r => if p r then
              match get_equivalent d (o_method r) (o_task r) with Some u => [(r, u)] | None => [] end
            else []) (outhashes d).

(** ORDER BY created ASC LIMIT 1 *)
Definition older {A} (x y : orow * A) : orow * A := if (o_created (fst y) <? o_created (fst x))%Z then y else x.
Definition oldest {A} (l : list (orow * A)) : option (orow * A) :=
  match l with [] => None | x :: l => Some (fold_left older l x) end.

(** sqlite.py 227-242 *)
Definition get_unihash_by_taskhash_full (d : db) (m t : str) : option (orow * str) :=
  oldest (joined d (fun r => seqb (o_method r) m && seqb (o_task r) t)).
(** sqlite.py 244-259 *)
Definition get_unihash_by_outhash (d : db) (m o : str) : option (orow * str) :=
  oldest (joined d (fun r => seqb (o_method r) m && seqb (o_out r) o)).
(** sqlite.py 274-288 *)
Definition get_outhash_row (d : db) (m o : str) : option (orow * unit) :=
  oldest (map (fun r => (r, tt)) (filter (fun r => seqb (o_method r) m && seqb (o_out r) o) (outhashes d))).
(** sqlite.py 290-308 *)
Definition get_equivalent_for_outhash (d : db) (m o t : str) : option (orow * str) :=
  oldest (joined d (fun r => seqb (o_method r) m && seqb (o_out r) o && negb (seqb (o_task r) t))).
(** sqlite.py 261-272 *)
Definition unihash_exists (d : db) (u : str) : bool := existsb (fun r => seqb (u_uni r) u) (unihashes d).

(** COALESCE((SELECT value FROM config WHERE name='gc-mark'), '') *)
Definition mark_text (d : db) : str := match mark d with Some m => m | None => [] end.

(** sqlite.py 417-437: INSERT OR IGNORE *)
Definition insert_unihash (d : db) (m t u : str) : db :=
  match get_equivalent d m t with
  | Some _ => d
  | None => mkDb (unihashes d ++ [mkU m t u (mark_text d)]) (outhashes d) (mark d)
  end.

(** sqlite.py 439-450: INSERT OR IGNORE.  The result tells whether the row is new.
    [stale] is what `cursor.lastrowid != prevrowid` yields when the row was there
    already: sqlite3 of Python >= 3.6 sets lastrowid after every execute, so the
    comparison with the None of the new cursor is true; before it was false. *)
Definition insert_outhash (stale : bool) (d : db) (r : orow) : db * bool :=
  if existsb (o_key (o_method r) (o_task r) (o_out r)) (outhashes d) then (d, stale)
  else (mkDb (unihashes d) (outhashes d ++ [r]) (mark d), true).

(** sqlite.py 14-35: columns usable in a condition; the created column is
    represented by its number of seconds *)
Definition ucol (r : urow) (c : str) : option str :=
  if seqb c (s_ "method") then Some (u_method r)
  else if seqb c (s_ "taskhash") then Some (u_task r)
  else if seqb c (s_ "unihash") then Some (u_uni r)
  else if seqb c (s_ "gc_mark") then Some (u_mark r)
  else None.
Definition ucols : list str := [s_ "method"; s_ "taskhash"; s_ "unihash"; s_ "gc_mark"].
Definition ocol (r : orow) (c : str) : option str :=
  if seqb c (s_ "method") then Some (o_method r)
  else if seqb c (s_ "taskhash") then Some (o_task r)
  else if seqb c (s_ "outhash") then Some (o_out r)
  else if seqb c (s_ "created") then Some (dec (Z.to_N (o_created r)))
  else match find (fun kv => seqb (fst kv) c) (o_extra r) with Some kv => Some (snd kv) | None => None end.
Definition ocols : list str :=
  [s_ "method"; s_ "taskhash"; s_ "outhash"; s_ "created"; s_ "owner"; s_ "PN"; s_ "PV"; s_ "PR"; s_ "task";
   s_ "outhash_siginfo"].

(** sqlite.py 83-89: the part of the condition that names columns of the table *)
Definition where_of (cols : list str) (cond : list (str * str)) : list (str * str) :=
  filter (fun kv => mem_str (fst kv) cols) cond.
Definition holds (col : str -> option str) (w : list (str * str)) : bool :=
  forallb (fun kv => match col (fst kv) with Some x => seqb x (snd kv) | None => false end) w.

(** sqlite.py 321-337 *)
Definition do_remove {A} (col : A -> str -> option str) (w : list (str * str)) (rows : list A) : list A :=
  match w with [] => rows | _ => filter (fun r => negb (holds (col r) w)) rows end.
Definition remove (d : db) (cond : list (str * str)) : db :=
  mkDb (do_remove ucol (where_of ucols cond) (unihashes d))
       (do_remove ocol (where_of ocols cond) (outhashes d)) (mark d).

(** sqlite.py 365-384 *)
Definition gc_mark (d : db) (mk : str) (cond : list (str * str)) : db :=
  let w := where_of ucols cond in
  mkDb (match w with
        | [] => unihashes d
        | _ => map (fun r => if holds (ucol r) w then mkU (u_method r) (u_task r) (u_uni r) mk else r) (unihashes d)
        end) (outhashes d) (Some mk).

(** sqlite.py 386-400: comparison with NULL deletes nothing *)
Definition gc_sweep (d : db) : db :=
  mkDb (match mark d with
        | None => unihashes d
        | Some mk => filter (fun r => seqb (u_mark r) mk) (unihashes d)
        end) (outhashes d) None.

(** sqlite.py 343-363 *)
Definition gc_status (d : db) : nat * nat * option str :=
  (length (filter (fun r => seqb (u_mark r) (mark_text d)) (unihashes d)),
   length (filter (fun r => negb (seqb (u_mark r) (mark_text d))) (unihashes d)), mark d).

(** sqlite.py 402-415 *)
Definition clean_unused (d : db) (oldest_kept : Z) : db :=
  mkDb (unihashes d)
       (filter (fun r => negb ((o_created r <? oldest_kept)%Z &&
                  match get_equivalent d (o_method r) (o_task r) with Some _ => false | None => true end))
               (outhashes d)) (mark d).

(** What an upstream server sends for a task *)
Record upstream_row := mkUp { up_method : str; up_task : str; up_uni : str; up_out : str; up_created : Z }.

(** server.py 374-379 *)
Definition update_unified (stale : bool) (d : db) (r : upstream_row) : db :=
  fst (insert_outhash stale (insert_unihash d (up_method r) (up_task r) (up_uni r))
         (mkO (up_method r) (up_task r) (up_out r) (up_created r) [])).

(** The requests *)
Inductive request :=
| Get (m t : str)                                   (* 321-327, all = False *)
| GetAll (m t : str)                                (* 321-327, all = True *)
| GetStream (m t : str)                             (* 412-431 *)
| GetOuthash (m o t : str) (with_unihash : bool)    (* 350-357 *)
| Report (rw : bool) (m t o u : str) (now : Z) (extra : list (str * str))
                                                    (* 466-522; rw: server not read-only and
                                                       the client may report *)
| Equiv (m t u : str)                               (* 524-540 *)
| Remove (cond : list (str * str))                  (* 565-571 *)
| GcMark (mk : str) (cond : list (str * str))       (* 573-584 *)
| GcSweep (mk : str)                                (* 586-602 *)
| CleanUnused (now max_age : Z).                    (* 613-617 *)

Inductive answer :=
| AUni (u : option str)       (* a unihash or None / "" *)
| AOut (t : option str)       (* taskhash of an outhash record without unihash *)
| AOk
| AFail.                      (* the handler raises *)

(** What a suspended handler waits for *)
Inductive wait :=
| WGet (m t : str)                    (* 345, from get or report *)
| WGetAll (m t : str)                 (* 337 *)
| WStream                             (* 424 *)
| WOuthash (fallback : option str)    (* 369; fallback: report_readonly 456 *)
| WReport (m t u : str).              (* 504 *)

Inductive outcome := Answer (a : answer) | Suspend (w : wait).

(** server.py 329-348 with fetch_all = False; [fallback] is the unihash of the
    report that calls it (513-516) *)
Definition get_unihash (up : bool) (d : db) (m t : str) (fallback : option str) : outcome :=
  match get_equivalent d m t with
  | Some u => Answer (AUni (Some u))
  | None => if up then Suspend (WGet m t) else Answer (AUni fallback)
  end.

(** server.py 359-372 *)
Definition get_outhash (up : bool) (d : db) (m o : str) (fallback : option str) : outcome :=
  match get_unihash_by_outhash d m o with
  | Some (_, u) => Answer (AUni (Some u))
  | None => if up then Suspend (WOuthash fallback) else Answer (AUni fallback)
  end.

(** First segment of every handler *)
Definition handle (stale up : bool) (d : db) (r : request) : db * outcome :=
  match r with
  | Get m t => (d, get_unihash up d m t None)
  | GetAll m t =>
      (d, match get_unihash_by_taskhash_full d m t with
          | Some (_, u) => Answer (AUni (Some u))
          | None => if up then Suspend (WGetAll m t) else Answer (AUni None)
          end)
  | GetStream m t =>
      (d, match get_equivalent d m t with
          | Some u => Answer (AUni (Some u))
          | None => if up then Suspend WStream else Answer (AUni None)
          end)
  | GetOuthash m o t true => (d, get_outhash up d m o None)
  | GetOuthash m o t false =>
      (d, match get_outhash_row d m o with
          | Some (r, _) => Answer (AOut (Some (o_task r)))
          | None => if up then Suspend (WOuthash None) else Answer (AOut None)
          end)
  | Report false m t o u now extra => (d, get_outhash up d m o (Some u))
  | Report true m t o u now extra =>
      match insert_outhash stale d (mkO m t o now extra) with
      | (d1, true) =>
          match get_equivalent_for_outhash d1 m o t with
          | Some (_, u') => let d2 := insert_unihash d1 m t u' in (d2, get_unihash up d2 m t (Some u))
          | None =>
              if up then (d1, Suspend (WReport m t u))
              else let d2 := insert_unihash d1 m t u in (d2, get_unihash up d2 m t (Some u))
          end
      | (d1, false) => (d1, get_unihash up d1 m t (Some u))
      end
  | Equiv m t u =>
      let d1 := insert_unihash d m t u in
      (d1, match get_equivalent d1 m t with Some u' => Answer (AUni (Some u')) | None => Answer AFail end)
  | Remove cond => (remove d cond, Answer AOk)
  | GcMark mk cond => (gc_mark d mk cond, Answer AOk)
  | GcSweep mk =>
      match mark d with
      | None => (d, Answer AFail)
      | Some [] => (d, Answer AFail)
      | Some cur => if seqb mk cur then (gc_sweep d, Answer AOk) else (d, Answer AFail)
      end
  | CleanUnused now max_age => (clean_unused d (now - (- max_age))%Z, Answer AOk)
  end.

(** The handler goes on after the upstream server answered *)
Definition resume (stale up : bool) (d : db) (w : wait) (reply : option upstream_row) : db * outcome :=
  match w, reply with
  | WGet _ _, None => (d, Answer AFail)     (* 346: d["method"] with d = None *)
  | WGet _ _, Some r => (insert_unihash d (up_method r) (up_task r) (up_uni r), Answer (AUni (Some (up_uni r))))
  | WGetAll _ _, None => (d, Answer (AUni None))
  | WGetAll _ _, Some r => (update_unified stale d r, Answer (AUni (Some (up_uni r))))
  | WStream, None => (d, Answer (AUni None))
  | WStream, Some r => (d, Answer (AUni (Some (up_uni r))))    (* 425-427: stored later by the backfill task *)
  | WOuthash fallback, None => (d, Answer (AUni fallback))
  | WOuthash fallback, Some r => (update_unified stale d r, Answer (AUni (Some (up_uni r))))
  | WReport m t u, _ =>
      let u' := match reply with Some r => up_uni r | None => u end in
      let d2 := insert_unihash d m t u' in (d2, get_unihash up d2 m t (Some u))
  end.

(** The server with its connections *)
Record server := mkServer { database : db; waiting : list (nat * wait) }.
Inductive event :=
| EReq (conn : nat) (r : request)
| EReply (conn : nat) (reply : option upstream_row)
| EBackfill (reply : option upstream_row).          (* 849-863 *)

Definition finish (s : server) (conn : nat) (d : db) (o : outcome) (ws : list (nat * wait)) : server * option answer :=
  match o with
  | Answer a => (mkServer d ws, Some a)
  | Suspend w => (mkServer d ((conn, w) :: ws), None)
  end.

Definition step (stale up : bool) (s : server) (e : event) : server * option answer :=
  match e with
  | EReq conn r =>
      match find (fun p => Nat.eqb (fst p) conn) (waiting s) with
      | Some _ => (s, None)    (* the connection is still busy *)
      | None => let (d, o) := handle stale up (database s) r in finish s conn d o (waiting s)
      end
  | EReply conn reply =>
      match find (fun p => Nat.eqb (fst p) conn) (waiting s) with
      | None => (s, None)
      | Some (_, w) =>
          let ws := filter (fun p => negb (Nat.eqb (fst p) conn)) (waiting s) in
          let (d, o) := resume stale up (database s) w reply in finish s conn d o ws
      end
  | EBackfill None => (s, None)
  | EBackfill (Some r) =>
      (mkServer (insert_unihash (database s) (up_method r) (up_task r) (up_uni r)) (waiting s), None)
  end.

Fixpoint run (stale up : bool) (s : server) (es : list event) : list (event * option answer) * server :=
  match es with
  | [] => ([], s)
  | e :: es' =>
      let (s', a) := step stale up s e in
      let (tr, s'') := run stale up s' es' in
      ((e, a) :: tr, s'')
  end.

Definition empty_db : db := mkDb [] [] None.
Definition fresh : server := mkServer empty_db [].
