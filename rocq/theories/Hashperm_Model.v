(** Model of the user and permission handling of the hash equivalence server
    (bitbake/lib/hashserv/server.py, users table of sqlite.py).
    Simplifications: the database commands are reduced to "was executed" (their
    effect is modelled in Hashserv_Model); tokens are compared directly instead of
    as salted hashes (the hash is taken to be injective); a request is one step:
    the handlers that sleep (151-161, 635) only do so after the permission check,
    and nothing can change the user of a connection while it sleeps. *)
From Coq Require Import Ascii String List Bool Arith.
From Verif Require Import Str_Model.
Import ListNotations.
Open Scope list_scope.

(** server.py 21-35 *)
Definition NONE_PERM := s_ "@none".
Definition READ_PERM := s_ "@read".
Definition REPORT_PERM := s_ "@report".
Definition DB_ADMIN_PERM := s_ "@db-admin".
Definition USER_ADMIN_PERM := s_ "@user-admin".
Definition ALL_PERM := s_ "@all".
Definition ALL_PERMISSIONS := [READ_PERM; REPORT_PERM; DB_ADMIN_PERM; USER_ADMIN_PERM; ALL_PERM].

(** a row of the users table (sqlite.py 37-44: UNIQUE(username)) *)
Record user := mkUser { name : str; perms : list str; token : str }.

(** the commands on the database *)
Inductive command :=
| CGet | CGetOuthash | CGetStream | CExistsStream | CGetStats | CDbUsage | CDbColumns | CReport
| CEquiv | CResetStats | CBackfillWait | CRemove | CGcMark | CGcSweep | CGcStatus | CCleanUnused.

(** the arguments of @permissions at the handlers: 321, 350, 412, 433, 465, 524,
    542, 548, 555, 565, 573, 586, 604, 613, 619, 623 *)
Definition required (k : command) : list str :=
  match k with
  | CGet | CGetOuthash | CGetStream | CExistsStream | CGetStats | CReport | CBackfillWait => [READ_PERM]
  | CEquiv => [READ_PERM; REPORT_PERM]
  | CResetStats | CRemove | CGcMark | CGcSweep | CGcStatus | CCleanUnused | CDbUsage | CDbColumns => [DB_ADMIN_PERM]
  end.
(** 232-267: commands a read-only server has *)
Definition in_readonly (k : command) : bool :=
  match k with
  | CGet | CGetOuthash | CGetStream | CExistsStream | CGetStats | CDbUsage | CDbColumns | CReport => true
  | _ => false
  end.

(** [n : option str]: the "username" of the request, which self-service requests
    may leave out *)
Inductive request :=
| Data (k : command)
| Auth (n tok : str)
| RefreshToken (n : option str) (fresh : str)
| SetPerms (n : str) (ps : list str)
| GetUser (n : option str)
| GetAllUsers
| NewUser (n : str) (ps : list str) (fresh : str)
| DeleteUser (n : option str)
| BecomeUser (n : str).

Inductive answer :=
| Executed (reported : bool)    (* of a Data command; for CReport: whether it was stored *)
| Done
| Info (us : list (str * list str))
| Denied                        (* "is not allowed to access" *)
| Error                         (* other InvokeError *)
| Unrecognized.

(** [session]: self.user of every connection (230) *)
Record server := mkServer { anon : list str; read_only : bool; users : list user;
                            session : nat -> option user }.

(** 801-808: the constructor refuses other anonymous permissions *)
Definition anon_allowed (ps : list str) : bool :=
  forallb (fun p => mem_str p [NONE_PERM; READ_PERM; REPORT_PERM; DB_ADMIN_PERM]) ps.

Definition subset (a b : list str) : bool := forallb (fun p => mem_str p b) a.

(** 272-290 *)
Definition user_has_permissions (s : server) (u : option user) (ps : list str) (allow_anon : bool) : bool :=
  if allow_anon && (mem_str ALL_PERM (anon s) || subset ps (anon s)) then true
  else match u with
       | None => false
       | Some u => mem_str ALL_PERM (perms u) || subset ps (perms u)
       end.

(** 193-197: the self-service shortcut; gives the username to use *)
Definition self_service (u : option user) (n : option str) : option str :=
  match u with
  | None => None
  | Some u => match n with
              | None => Some (name u)
              | Some n => if seqb n (name u) then Some (name u) else None
              end
  end.

(** sqlite.py 452-471 *)
Definition lookup (us : list user) (n : str) : option user := find (fun u => seqb (name u) n) us.
(** 676-692 *)
Definition get_perm_arg (ps : list str) : option (list str) :=
  let ps := filter (fun p => negb (seqb p NONE_PERM)) ps in
  if forallb (fun p => mem_str p ALL_PERMISSIONS) ps then Some ps else None.
(** 694-697 *)
Definition return_perms (ps : list str) : list str := if mem_str ALL_PERM ps then ALL_PERMISSIONS else ps.

(** sqlite.py 473-499 *)
Definition update (us : list user) (n : str) (f : user -> user) : list user :=
  map (fun u => if seqb (name u) n then f u else u) us.
Definition set_token (tok : str) (u : user) : user := mkUser (name u) (perms u) tok.
Definition set_perms (ps : list str) (u : user) : user := mkUser (name u) ps (token u).
(** sqlite.py 524-535 *)
Definition delete (us : list user) (n : str) : list user := filter (fun u => negb (seqb (name u) n)) us.

Definition with_users (s : server) (us : list user) : server := mkServer (anon s) (read_only s) us (session s).
Definition login (s : server) (c : nat) (u : user) : server :=
  mkServer (anon s) (read_only s) (users s) (fun c' => if Nat.eqb c' c then Some u else session s c').

(** 175-222: the decorator with @user-admin, not for anonymous users *)
Definition as_admin (s : server) (u : option user) (body : server * answer) : server * answer :=
  if user_has_permissions s u [USER_ADMIN_PERM] false then body else (s, Denied).
(** the same with allow_self_service; without a username the body fails (KeyError),
    which cannot happen for a logged in user *)
Definition as_self_or_admin (s : server) (u : option user) (n : option str) (body : str -> server * answer)
    : server * answer :=
  match self_service u n with
  | Some n => body n
  | None => as_admin s u (match n with Some n => body n | None => (s, Error) end)
  end.

Definition handle (s : server) (c : nat) (r : request) : server * answer :=
  let u := session s c in
  match r with
  | Data k =>
      if read_only s && negb (in_readonly k) then (s, Unrecognized)
      else if user_has_permissions s u (required k) true then
        (s, Executed (match k with
                      | CReport => negb (read_only s) && user_has_permissions s u [REPORT_PERM] true  (* 467-469 *)
                      | CEquiv => true
                      | _ => false
                      end))
      else (s, Denied)
  | Auth n tok =>   (* 628-659 *)
      match lookup (users s) n with
      | None => (s, Error)
      | Some x => if seqb (token x) tok then (login s c x, Done) else (s, Error)
      end
  | RefreshToken n fresh =>   (* 661-674 *)
      if read_only s then (s, Unrecognized) else
      as_self_or_admin s u n (fun n =>
        match lookup (users s) n with
        | None => (s, Error)
        | Some _ => (with_users s (update (users s) n (set_token fresh)), Done)
        end)
  | SetPerms n ps =>   (* 699-710 *)
      if read_only s then (s, Unrecognized) else
      as_admin s u
        match get_perm_arg ps with
        | None => (s, Error)
        | Some ps => match lookup (users s) n with
                     | None => (s, Error)
                     | Some _ => (with_users s (update (users s) n (set_perms ps)), Done)
                     end
        end
  | GetUser n =>   (* 712-723 *)
      as_self_or_admin s u n (fun n =>
        (s, Info (match lookup (users s) n with Some x => [(name x, return_perms (perms x))] | None => [] end)))
  | GetAllUsers => as_admin s u (s, Info (map (fun x => (name x, return_perms (perms x))) (users s)))   (* 725-736 *)
  | NewUser n ps fresh =>   (* 738-757 *)
      if read_only s then (s, Unrecognized) else
      as_admin s u
        match get_perm_arg ps with
        | None => (s, Error)
        | Some ps => match lookup (users s) n with
                     | Some _ => (s, Error)
                     | None => (with_users s (users s ++ [mkUser n ps fresh]), Done)
                     end
        end
  | DeleteUser n =>   (* 759-766 *)
      if read_only s then (s, Unrecognized) else
      as_self_or_admin s u n (fun n =>
        match lookup (users s) n with
        | None => (s, Error)
        | Some _ => (with_users s (delete (users s) n), Done)
        end)
  | BecomeUser n =>   (* 768-783 *)
      as_admin s u
        match lookup (users s) n with
        | None => (s, Error)
        | Some x => (login s c x, Done)
        end
  end.

(** Requests of all connections in any order.  A connection number is never reused. *)
Fixpoint run (s : server) (es : list (nat * request)) : list (nat * request * answer) * server :=
  match es with
  | [] => ([], s)
  | (c, r) :: es' =>
      let (s', a) := handle s c r in
      let (tr, s'') := run s' es' in
      ((c, r, a) :: tr, s'')
  end.

(** 786-847: a server at its start *)
Definition start (anon : list str) (ro : bool) (us : list user) : option server :=
  if anon_allowed anon then Some (mkServer anon ro us (fun _ => None)) else None.
