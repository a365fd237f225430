(** Model of the environment on its way from the user to the tasks: bitbake/lib/bb/utils.py
    preserved_envvars (587-609), filter_environment (626-649), approved_variables (651-668),
    clean_environment (670-679), bitbake/lib/bb/main.py (447, 519-521), the datastore of the
    server (bitbake/lib/bb/data.py inheritFromOS 99-109, bitbake/lib/bb/cookerdata.py 240-248,
    bitbake/lib/bb/cooker.py updateConfigOpts 434-465), and the worker
    (bitbake/bin/bitbake-worker 182-203, 280-301, 336-343, bitbake/lib/bb/data.py exported_vars
    189-203). *)
From Coq Require Import Ascii String List Bool Arith.
From Verif Require Import Str_Model.
Import ListNotations.
Open Scope list_scope.

(** os.environ, and other dictionaries: no key twice *)
Definition environ := list (str * str).
Definition look (e : environ) (k : str) : option str := option_map snd (find (fun x => seqb (fst x) k) e).
Definition has (e : environ) (k : str) : bool := match look e k with Some _ => true | None => false end.
Definition del (e : environ) (k : str) : environ := filter (fun x => negb (seqb (fst x) k)) e.
Definition set (e : environ) (k v : str) : environ := del e k ++ [(k, v)].
Definition keys (e : environ) : list str := map fst e.

(** utils.py 587-600, 602-609 *)
Definition preserved_envvars_exported : list str :=
  [s_ "BB_TASKHASH"; s_ "HOME"; s_ "LOGNAME"; s_ "PATH"; s_ "PWD"; s_ "SHELL"; s_ "USER"; s_ "LC_ALL"; s_ "BBSERVER"].
Definition preserved_envvars : list str := [s_ "BBPATH"; s_ "BB_PRESERVE_ENV"; s_ "BB_ENV_PASSTHROUGH_ADDITIONS"] ++ preserved_envvars_exported.
(** 651-668 *)
Definition approved_variables (e : environ) : list str :=
  if has e (s_ "BB_PRESERVE_ENV") then keys e
  else
    let approved := match look e (s_ "BB_ENV_PASSTHROUGH") with
                    | Some v => split_ws v ++ [s_ "BB_ENV_PASSTHROUGH"]
                    | None => preserved_envvars
                    end in
    match look e (s_ "BB_ENV_PASSTHROUGH_ADDITIONS") with
    | Some v => let approved := approved ++ split_ws v in
                if mem_str (s_ "BB_ENV_PASSTHROUGH_ADDITIONS") approved then approved else approved ++ [s_ "BB_ENV_PASSTHROUGH_ADDITIONS"]
    | None => approved
    end.
(** 626-649: what is left, and what was removed *)
Definition filter_environment (good : list str) (e : environ) : environ * environ :=
  (set (filter (fun x => mem_str (fst x) good) e) (s_ "LC_ALL") (s_ "en_US.UTF-8"), filter (fun x => negb (mem_str (fst x) good)) e).
(** 670-679 *)
Definition clean_environment (e : environ) : environ * environ :=
  if has e (s_ "BB_PRESERVE_ENV") then (e, []) else filter_environment (approved_variables e) e.
(** main.py 519-521 *)
Definition restore (e cleaned : environ) : environ := fold_left (fun e x => set e (fst x) (snd x)) cleaned e.

(** ** The server *)
(** data.py 99-109: the variables of the datastore, and whether they are exported.  (The values
    are expanded on the way; here they contain no references.) *)
Definition inherit (env : environ) (permitted : list str) : list (str * (str * bool)) :=
  map (fun x => (fst x, (snd x, mem_str (fst x) preserved_envvars_exported))) (filter (fun x => mem_str (fst x) permitted) env).
(** The process's own environment (that of the client that started it, cleaned), the
    configuration's, and for the main configuration and each multiconfig what was inherited,
    and BB_ORIGENV.  [parses] counts *)
Record server := mkServer { sv_environ : environ; sv_env : environ; sv_main : list (str * (str * bool)) * environ; sv_mcs : list (list (str * (str * bool)) * environ); sv_parses : nat }.
(** cookerdata.py 222-250 and parseBaseConfiguration for [n] multiconfigs *)
Definition parse_config (sv : server) (env : environ) : server :=
  let base := (inherit env (approved_variables (sv_environ sv)), env) in
  mkServer (sv_environ sv) env base (map (fun _ => base) (sv_mcs sv)) (S (sv_parses sv)).
Definition same (a b : option str) : bool := match a, b with Some x, Some y => seqb x y | None, None => true | _, _ => false end.
(** cooker.py 434-465; [options]: prefile or postfile changed.  The loop over the approved
    variables changes the dictionary it compares with one key at a time, each key once. *)
Definition update_config (sv : server) (options : bool) (environment : environ) : server :=
  let sv1 := mkServer (sv_environ sv) (sv_env sv) (fst (sv_main sv), environment) (sv_mcs sv) (sv_parses sv) in
  let clean := negb options && forallb (fun k => same (look (sv_env sv) k) (look environment k)) (approved_variables (sv_environ sv)) in
  if clean then mkServer (sv_environ sv1) environment (sv_main sv1) (sv_mcs sv1) (sv_parses sv1) else parse_config sv1 environment.
(** A new server, with [mcs] multiconfigs: the configuration's environment is empty until the
    first client sends its own *)
Definition start_server (client : environ) (mcs : nat) : server :=
  let e := fst (clean_environment client) in
  mkServer e [] (inherit [] (approved_variables e), []) (repeat (inherit [] (approved_variables e), []) mcs) 1.
(** what a client sends: its environment after setup_bitbake (knotty.py 415) *)
Definition sends (client : environ) : environ := let '(e, cleaned) := clean_environment client in restore e cleaned.
Definition connect (sv : server) (c : environ * bool) : server := update_config sv (snd c) (sends (fst c)).

(** ** The environment of a task *)
(** A variable of the datastore: its value (None: not set), whether expanding it fails, flags *)
Record dvar := mkDvar { d_value : option str; d_fails : bool; d_export : bool; d_unexport : bool }.
Definition dstore := list (str * dvar).
Definition dlook (d : dstore) (k : str) : option dvar := option_map snd (find (fun x => seqb (fst x) k) d).
(** data.py 189-203 *)
Definition exported_vars (d : dstore) : environ :=
  flat_map (fun x => if negb (startswith (s_ "__") (fst x)) && d_export (snd x) && negb (d_unexport (snd x)) && negb (d_fails (snd x))
                     then match d_value (snd x) with Some v => [(fst x, v)] | None => [] end else []) d.
(** bitbake-worker 280-301: the exported variables, those of fakeroot, and those of the task's
    flag exports.  None: a variable of the flag cannot be expanded.  A variable of fakeenv is
    set in the datastore, too. *)
Definition value_now (d : dstore) (fakeenv : environ) (k : str) : option (option str) :=
  match look fakeenv k with
  | Some v => Some (Some v)
  | None => match dlook d k with Some x => if d_fails x then None else Some (d_value x) | None => Some None end
  end.
Fixpoint add_exports (d : dstore) (fakeenv : environ) (l : list str) (e : environ) : option environ :=
  match l with
  | [] => Some e
  | k :: l => match value_now d fakeenv k with
              | None => None
              | Some (Some v) => add_exports d fakeenv l (set e k v)
              | Some None => add_exports d fakeenv l e
              end
  end.
Definition task_environ (worker : environ) (d : dstore) (fakeenv : environ) (exports : option str) : option environ :=
  let e := fold_left (fun e x => set e (fst x) (snd x)) (exported_vars d) [] in
  let e := fold_left (fun e x => set e (fst x) (snd x)) fakeenv e in
  add_exports d fakeenv (match exports with Some t => split_ws t | None => [] end) e.
(** 182-203 and 336-343: the worker's own environment while it starts the task, and afterwards;
    [vars]: the pairs of FAKEROOTENV or FAKEROOTNOENV *)
Definition set_fake (st : environ * list (str * option str)) (x : str * str) : environ * list (str * option str) :=
  let '(e, backup) := st in (set e (fst x) (snd x), filter (fun y => negb (seqb (fst y) (fst x))) backup ++ [(fst x, look e (fst x))]).
Definition put_back (e : environ) (x : str * option str) : environ := match snd x with Some v => set e (fst x) v | None => del e (fst x) end.
Definition worker_after (worker : environ) (vars : environ) : environ :=
  let '(e, backup) := fold_left set_fake vars (worker, []) in fold_left put_back backup e.
