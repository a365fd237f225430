(** Model of the PR server: bitbake/lib/prserv/db.py (class PRTable) and
    bitbake/lib/prserv/serv.py (request dispatch and commits).
    The sqlite table is a list of rows with the primary key (version, pkgarch,
    checksum).  Not modelled: sqlite itself, locking retries, NULL columns,
    the column information returned by export, the network. *)
From Coq Require Import Ascii String List Bool ZArith.
From Verif Require Import Str_Model.
Import ListNotations.
Open Scope Z_scope.
Open Scope list_scope.

(** db.py 52-57: one row *)
Record row := mkRow { r_version : str; r_arch : str; r_sum : str; r_value : Z }.
Definition table := list row.

(** WHERE version=? AND pkgarch=? *)
Definition in_group (v a : str) (r : row) : bool := seqb (r_version r) v && seqb (r_arch r) a.
(** WHERE version=? AND pkgarch=? AND checksum=? *)
Definition has_key (v a c : str) (r : row) : bool := in_group v a r && seqb (r_sum r) c.

(** db.py 105-114 *)
Definition find_value (t : table) (v a c : str) : option Z :=
  match find (has_key v a c) t with Some r => Some (r_value r) | None => None end.

(** SELECT max(value): NULL (None) on no rows *)
Definition omax (o : option Z) (x : Z) : option Z :=
  match o with None => Some x | Some y => Some (Z.max y x) end.
Definition max_of (l : list Z) : option Z := fold_left omax l None.

(** db.py 116-125 *)
Definition find_max_value (t : table) (v a : str) : option Z :=
  max_of (map r_value (filter (in_group v a) t)).

(** db.py 81-91 and 93-103 *)
Definition test_package (t : table) (v a : str) : bool := existsb (in_group v a) t.
Definition test_value (t : table) (v a : str) (x : Z) : bool :=
  existsb (fun r => in_group v a r && (r_value r =? x)) t.

(** ifnull(max(value)+1, 0), db.py 136, 145, 173, 178 *)
Definition next_value (t : table) (v a : str) : Z :=
  match find_max_value t v a with None => 0 | Some m => m + 1 end.

(** db.py 127-159: new table, dirty flag set?, value.  The value read back
    after the INSERT (153-157). None = NotFoundError. *)
Definition get_value_hist (read_only : bool) (t : table) (v a c : str) : table * bool * option Z :=
  match find_value t v a c with
  | Some x => (t, false, Some x)
  | None =>
      if read_only then (t, false, Some (next_value t v a))
      else let t' := t ++ [mkRow v a c (next_value t v a)] in
           (t', true, find_value t' v a c)
  end.

(** db.py 161-193.  INSERT OR REPLACE removes the row with the same key. *)
Definition find_current (t : table) (v a c : str) : option Z :=
  match find (fun r => has_key v a c r &&
                match find_max_value t v a with Some m => m <=? r_value r | None => false end) t with
  | Some r => Some (r_value r)
  | None => None
  end.
Definition get_value_no_hist (read_only : bool) (t : table) (v a c : str) : table * bool * option Z :=
  match find_current t v a c with
  | Some x => (t, false, Some x)
  | None =>
      if read_only then (t, false, Some (next_value t v a))
      else let t' := filter (fun r => negb (has_key v a c r)) t ++ [mkRow v a c (next_value t v a)] in
           (t', true, find_value t' v a c)
  end.

(** db.py 195-199 *)
Definition get_value (nohist read_only : bool) (t : table) (v a c : str) : table * bool * option Z :=
  if nohist then get_value_no_hist read_only t v a c else get_value_hist read_only t v a c.

(** db.py 201-226 *)
Definition import_hist (read_only : bool) (t : table) (v a c : str) (x : Z) : table * bool * option Z :=
  if read_only then (t, false, None)
  else match find_value t v a c with
       | Some y => (t, false, Some y)
       | None => let t' := t ++ [mkRow v a c x] in (t', true, find_value t' v a c)
       end.

(** db.py 228-253: INSERT, on IntegrityError (key present) UPDATE ... AND value<? *)
Definition import_no_hist (read_only : bool) (t : table) (v a c : str) (x : Z) : table * bool * option Z :=
  if read_only then (t, false, None)
  else
    let t' := match find_value t v a c with
              | None => t ++ [mkRow v a c x]
              | Some _ => map (fun r => if has_key v a c r && (r_value r <? x)
                                        then mkRow (r_version r) (r_arch r) (r_sum r) x else r) t
              end in
    (t', true,
     match find (fun r => has_key v a c r && (x <=? r_value r)) t' with
     | Some r => Some (r_value r) | None => None end).

(** db.py 255-259 *)
Definition importone (nohist read_only : bool) (t : table) (v a c : str) (x : Z) : table * bool * option Z :=
  if nohist then import_no_hist read_only t v a c x else import_hist read_only t v a c x.

(** db.py 289-297: an empty argument does not filter *)
Definition opt_match (arg col : str) : bool := match arg with [] => true | _ => seqb col arg end.

(** db.py 281-313 (data part): rows with an empty version are skipped (306) *)
Definition export (nohist : bool) (t : table) (v a c : str) : list row :=
  filter (fun r => negb (seqb (r_version r) []))
    (filter (fun r =>
       (if nohist then
          match find_max_value t (r_version r) (r_arch r) with
          | Some m => r_value r =? m | None => false end
        else true)
       && opt_match v (r_version r) && opt_match a (r_arch r) && opt_match c (r_sum r)) t).

(** serv.py 27-35: the requests that touch the table *)
Inductive request :=
| GetPr (v a c : str)
| ImportOne (v a c : str) (x : Z)
| TestPr (v a c : str)
| TestPackage (v a : str)
| MaxPackagePr (v a : str)
| Export (v a c : str).

Inductive answer :=
| AValue (x : option Z)
| ABool (b : bool)
| ARows (l : list row).

(** serv.py 49-117: new table, dirty?, answer *)
Definition handle (nohist read_only : bool) (t : table) (r : request) : table * bool * answer :=
  match r with
  | GetPr v a c => match get_value nohist read_only t v a c with (t', d, x) => (t', d, AValue x) end
  | ImportOne v a c x =>
      if read_only then (t, false, AValue None)
      else match importone nohist read_only t v a c x with (t', d, y) => (t', d, AValue y) end
  | TestPr v a c => (t, false, AValue (find_value t v a c))
  | TestPackage v a => (t, false, ABool (test_package t v a))
  | MaxPackagePr v a => (t, false, AValue (find_max_value t v a))
  | Export v a c => (t, false, ARows (export nohist t v a c))
  end.

(** The server process: [mem] is what its connection sees (the open
    transaction), [disk] what was committed. *)
Record server := mkServer { mem : table; disk : table; dirty : bool }.

(** db.py 71-74 *)
Definition sync (read_only : bool) (s : server) : server :=
  if read_only then s else mkServer (mem s) (mem s) (dirty s).
(** db.py 76-79 *)
Definition sync_if_dirty (read_only : bool) (s : server) : server :=
  if dirty s then let s' := sync read_only s in mkServer (mem s') (disk s') false else s.

(** What happens to a server *)
Inductive event :=
| ERequest (r : request)   (* a request that is answered: serv.py 40-47 *)
| EBadRequest              (* a request whose handler raises: 43-45 *)
| ESignal                  (* 144-147 *)
| ERestart                 (* orderly stop (139-142) and start (129-137) *)
| ECrash.                  (* killed, then started again *)

(** serv.py 40-47: the `return` in the try block leaves the statement, so the
    `else` branch with sync_if_dirty is never executed. *)
Definition dispatch (nohist read_only : bool) (s : server) (r : request) : server * answer :=
  match handle nohist read_only (mem s) r with
  | (t', d, ans) => (mkServer t' (disk s) (dirty s || d), ans)
  end.

Definition step (nohist read_only : bool) (s : server) (e : event) : server * option answer :=
  match e with
  | ERequest r => let (s', ans) := dispatch nohist read_only s r in (s', Some ans)
  | EBadRequest => (sync read_only s, None)
  | ESignal => (sync read_only s, None)
  | ERestart => let s' := sync_if_dirty read_only s in (mkServer (disk s') (disk s') false, None)
  | ECrash => (mkServer (disk s) (disk s) false, None)
  end.

(** A run of the server: every event with the answer it produced *)
Fixpoint run (nohist read_only : bool) (s : server) (es : list event) : list (event * option answer) * server :=
  match es with
  | [] => ([], s)
  | e :: es' =>
      let (s', ans) := step nohist read_only s e in
      let (tr, s'') := run nohist read_only s' es' in
      ((e, ans) :: tr, s'')
  end.

(** A new server on an empty database file *)
Definition fresh : server := mkServer [] [] false.

(** Importing every row of an export, one import-one request per row
    (client.py importone; the loop is the caller's, it is not in this repository) *)
Definition import_all (nohist : bool) (t : table) (rows : list row) : table :=
  fold_left (fun t r => fst (fst (importone nohist false t (r_version r) (r_arch r) (r_sum r) (r_value r)))) rows t.
