(** Downloads and their checksums: bitbake/lib/bb/fetch2/__init__.py 549-739, 976-1204, 1820-1918 and wget.py 96-143.
    Definitions only.  Modelled is a file that wget fetches (http, https, ftp), with mirrors that are reached by wget under the
    same local name and mirrors that are local files; mirror tarballs, directories and locks are not. *)
From Coq Require Import String Ascii List Bool Arith.
From Verif Require Import Str_Model.
Import ListNotations.
Open Scope list_scope.

(** CHECKSUM_LIST, 36 *)
Inductive cid := MD5 | SHA256 | SHA1 | SHA384 | SHA512.
Definition ids : list cid := [MD5; SHA256; SHA1; SHA384; SHA512].
(** A dictionary of checksums *)
Definition sums : Type := cid -> option str.
Definition no_sums : sums := fun _ => None.
Definition opt_eqb (a b : option str) : bool :=
  match a, b with Some x, Some y => seqb x y | None, None => true | _, _ => false end.
Definition sums_eqb (a b : sums) : bool := forallb (fun i => opt_eqb (a i) (b i)) ids.

(** The exceptions: ChecksumError, NoChecksumError, other fetch errors, UntrustedUrl, NetworkAccess, IOError and ESTALE *)
Inductive exc := EMismatch (sum : str) | ENoSum | EFetch | EUntrusted | ENet | EIO | EStale.

(** What is at the local path: a file with its time of modification, or a link to a file of a local mirror *)
Inductive fil := Real (c : str) (m : nat) | Link (n : nat).
(** The download directory, for one file: the file, its done stamp with its time, the bad files that were renamed, and the
    files of the local mirrors *)
Record st := { file : option fil; stamp : option (sums * nat); bad : list (fil * str); lm : nat -> option (str * nat) }.
(** os.path.exists and the contents; links are followed *)
Definition content (s : st) : option (str * nat) :=
  match file s with None => None | Some (Real c m) => Some (c, m) | Some (Link n) => lm s n end.
Definition here (s : st) : bool := match content s with Some _ => true | None => false end.
Definition set_file (f : option fil) (s : st) : st := {| file := f; stamp := stamp s; bad := bad s; lm := lm s |}.
Definition set_stamp (x : option (sums * nat)) (s : st) : st := {| file := file s; stamp := x; bad := bad s; lm := lm s |}.

(** A run: what the recipe and the configuration say, the time at which stamps are written, and whether bad files can be
    renamed (movefile only warns) *)
Record cfg := { expected : cid -> option str; strict : option str; no_network : bool; premirror_only : bool; trusted : bool; clock : nat; movable : bool }.
(** What a server does, as wget sees it: it sends a file with a time, fails, or there is an error of the local disk *)
Inductive outcome := Got (c : str) (m : nat) | Fails | DiskError | StaleHandle.
Inductive mirror := Server (o : outcome) | LocalFile (n : nat).

(** Computations that change the directory and may raise *)
Definition M (A : Type) : Type := st -> st * (A + exc).
Definition ret {A} (a : A) : M A := fun s => (s, inl a).
Definition raise {A} (e : exc) : M A := fun s => (s, inr e).
Definition bind {A B} (x : M A) (f : A -> M B) : M B := fun s => match x s with (s', inl a) => f a s' | (s', inr e) => (s', inr e) end.
Definition catch {A} (x : M A) (h : exc -> M A) : M A := fun s => match x s with (s', inl a) => (s', inl a) | (s', inr e) => h e s' end.
Definition get {A} (f : st -> A) : M A := fun s => (s, inl (f s)).
Definition modify (f : st -> st) : M unit := fun s => (f s, inl tt).
Definition when (b : bool) (x : M unit) : M unit := if b then x else ret tt.

Section Sum.
(** The checksums of a file's contents *)
Variable H : cid -> str -> str.
Variable cf : cfg.

(** 578-579: an empty checksum counts as none *)
Definition want (i : cid) : option str := match expected cf i with Some [] => None | x => x end.
(** verify_checksum, 549-642, for a method that recommends checksums; the events and messages are not modelled *)
Definition verify_checksum (ignore fatal : bool) (pre : sums) (c : str) : sums + exc :=
  if ignore then inl no_sums else
  let data i := match pre i with Some x => x | None => H i c end in
  let none := forallb (fun i => match want i with None => true | Some _ => false end) ids in
  if fatal && none && opt_eqb (strict cf) (Some (s_ "1")) then inr ENoSum else
  if fatal && none && opt_eqb (strict cf) (Some (s_ "ignore")) then inl (fun i => Some (data i)) else
  let wrong := filter (fun i => match want i with Some e => negb (seqb e (data i)) | None => false end) ids in
  match rev wrong with
  | i :: _ => match data i with [] => inl (fun i => Some (data i)) | x => inr (EMismatch x) end
  | [] => inl (fun i => Some (data i))
  end.

(** rename_bad_checksum, 1032-1043 *)
Definition rename_bad (x : str) (s : st) : st :=
  match file s with
  | Some f => if movable cf then {| file := None; stamp := stamp s; bad := (f, x) :: bad s; lm := lm s |} else s
  | None => s
  end.
(** 695-704 and 730-738: a bad file is renamed if it is there, and the stamp removed *)
Definition drop_bad (x : str) (s : st) : st := set_stamp None (if here s then rename_bad x s else s).
(** verify_donestamp, 644-707 *)
Definition verify_donestamp (ignore : bool) : M bool := fun s =>
  match content s with
  | None => (set_stamp None s, inl false)
  | Some (c, m) =>
      let pre := match stamp s with Some (l, t) => if m <? t then l else no_sums | None => no_sums end in
      match verify_checksum ignore true pre c with
      | inl r => (if sums_eqb r pre then s else set_stamp (Some (r, clock cf)) s, inl true)
      | inr (EMismatch x) => (drop_bad x s, inl false)
      | inr e => (s, inr e)
      end
  end.
(** update_stamp, 709-739.  Reading a file that is not there is an IOError. *)
Definition update_stamp : M unit := fun s =>
  match stamp s with
  | Some (l, _) => (set_stamp (Some (l, clock cf)) s, inl tt)
  | None =>
      match content s with
      | None => (s, inr EIO)
      | Some (c, _) =>
          match verify_checksum false true no_sums c with
          | inl r => (set_stamp (Some (r, clock cf)) s, inl tt)
          | inr (EMismatch x) => (drop_bad x s, inr (EMismatch x))
          | inr e => (s, inr e)
          end
      end
  end.
(** Wget.download, wget.py 96-143, with check_network_access 964-974.  The file is first written under another name. *)
Definition wget (ignore no_net : bool) (o : outcome) : M unit :=
  if no_net then raise ENet else
  match o with
  | Fails => raise EFetch
  | DiskError => raise EIO
  | StaleHandle => raise EStale
  | Got c m =>
      match verify_checksum ignore false no_sums c with
      | inr e => raise e
      | inl _ => match c with
                 | [] => bind (modify (set_file None)) (fun _ => raise EFetch)
                 | _ => modify (set_file (Some (Real c m)))
                 end
      end
  end.
(** ensure_symlink, 1131-1147: what is there is kept, unless it is a broken link *)
Definition ensure_symlink (n : nat) (s : st) : st := if here s then s else set_file (Some (Link n)) s.
(** rename_bad_checksum of a local mirror's file, 1111-1112 *)
Definition rename_mirror (n : nat) (x : str) (s : st) : st :=
  match lm s n with
  | Some (c, m) => if movable cf then {| file := file s; stamp := stamp s; bad := (Real c m, x) :: bad s; lm := fun k => if k =? n then None else lm s k |} else s
  | None => s
  end.
(** try_mirror_url, 1046-1128 *)
Definition try_mirror_url (no_net : bool) (m : mirror) : M bool :=
  match m with
  | Server o =>
      catch (bind (verify_donestamp true) (fun v => bind (get here) (fun h =>
             bind (when (negb v || negb h) (wget true no_net o)) (fun _ => get here))))
        (fun e => match e with
                  | ENet | EIO | ENoSum => raise e
                  | EStale => ret false
                  | EMismatch x => bind (modify (fun s => if here s then rename_bad x s else s)) (fun _ => bind (modify (set_file None)) (fun _ => ret false))
                  | EFetch | EUntrusted => bind (modify (set_file None)) (fun _ => ret false)
                  end)
  | LocalFile n =>
      bind (get (fun s => match lm s n with Some _ => true | None => false end)) (fun ok =>
        if ok then
          bind (modify (ensure_symlink n)) (fun _ =>
            catch (bind update_stamp (fun _ => ret true))
              (fun e => match e with
                        | EMismatch x => bind (modify (rename_mirror n x)) (fun _ => ret false)
                        | EStale | EFetch | EUntrusted => ret false
                        | ENet | EIO | ENoSum => raise e
                        end))
        else ret false)
  end.
(** try_mirrors, 1149-1166 *)
Fixpoint try_mirrors (no_net : bool) (ms : list mirror) : M bool :=
  match ms with
  | [] => ret false
  | m :: ms' => bind (try_mirror_url no_net m) (fun r => if r then ret true else try_mirrors no_net ms')
  end.
(** Fetch.download for one address, 1837-1898 *)
Definition download_one (pre : list mirror) (up : outcome) (mirrors : list mirror) : M unit :=
  bind (verify_donestamp false) (fun v => bind (get here) (fun h =>
  bind (if v && h then ret true else
        bind (try_mirrors (no_network cf) pre) (fun d =>
          if d then catch (bind update_stamp (fun _ => ret true)) (fun e => match e with EMismatch _ => ret false | _ => raise e end)
          else ret false)) (fun done =>
  let no_net := no_network cf || premirror_only cf in
  bind (if done then verify_donestamp false else ret false) (fun verified => bind (get here) (fun h =>
  bind (if negb done && (negb verified || negb h) then
          catch (bind (if trusted cf then ret tt else raise EUntrusted) (fun _ => bind (wget false no_net up) (fun _ => bind update_stamp (fun _ => ret true))))
            (fun e => match e with
                      | ENet | EIO | EStale | ENoSum => raise e
                      | EMismatch x =>
                          bind (modify (fun s => if here s then rename_bad x s else s)) (fun _ =>
                          bind (when (negb verified) (modify (set_file None))) (fun _ => try_mirrors no_net mirrors))
                      | EFetch | EUntrusted => bind (when (negb verified) (modify (set_file None))) (fun _ => try_mirrors no_net mirrors)
                      end)
        else ret done) (fun done => bind (get here) (fun h =>
  if negb done || negb h then raise EFetch else update_stamp))))))).
End Sum.

(** Fetch.download, 1820-1918: each address has its own directory entry.  An IOError other than ESTALE ends the work on the
    address, and nothing more (1900-1903). *)
Record job := { j_cfg : cfg; j_pre : list mirror; j_up : outcome; j_mirrors : list mirror }.
Fixpoint download_all (H : cid -> str -> str) (missing : bool) (js : list (job * st)) : list st * option exc :=
  match js with
  | [] => ([], if missing then Some EFetch else None)
  | (j, s) :: rest =>
      let '(s', r) := download_one H (j_cfg j) (j_pre j) (j_up j) (j_mirrors j) s in
      match r with
      | inl _ | inr EIO => let '(l, x) := download_all H missing rest in (s' :: l, x)
      | inr ENoSum => let '(l, x) := download_all H true rest in (s' :: l, x)
      | inr EStale => (s' :: map snd rest, Some (EMismatch []))
      | inr e => (s' :: map snd rest, Some e)
      end
  end.

(** * Which mirrors are tried *)
(** trusted_network, 1168-1204, for an address whose host part decodeurl gave; [hosts] is the text of BB_ALLOWED_NETWORKS.
    Python's lower() is modelled on ASCII letters. *)
Definition trusted_network (no_net : bool) (hosts : option str) (network : str) : bool :=
  if no_net then true else
  match hosts with
  | None | Some [] => true
  | Some h =>
      match network with
      | [] => true
      | _ =>
          let network := lower (fst (cut_at ":"%char network)) in
          existsb (fun host => let host := lower host in
            (startswith (s_ "*.") host && endswith (skipn 1 host) (s_ "." ++ network)) || seqb host network) (split_on " "%char h)
      end
  end.
(** build_mirroruris, 976-1030: [repl u line tarball] is uri_replace, [trust] is trusted_network, and [ok] tells whether the
    local path of an address can be set up.  When it cannot, the address is followed but not listed.  (Addresses for which
    there is no fetch data at all are not modelled.)  The fuel is the number
    of lines, of which each step removes one. *)
Section Uris.
Variable line : Type.
Variable line_eqb : line -> line -> bool.
Variable repl : str -> line -> nat -> option str.
Variable trust ok : str -> bool.
Variable orig : str.
Fixpoint remove_line (x : line) (l : list line) : list line :=
  match l with [] => [] | y :: l' => if line_eqb x y then l' else y :: remove_line x l' end.
Definition adduri_step (rec : str -> list line -> list str -> list str) (u : str) (lines : list line) (x : line) (uris : list str) (tb : nat) : list str :=
  match repl u x tb with
  | None | Some [] => uris
  | Some new =>
      if mem_str new uris || seqb new orig then uris
      else if negb (trust new) then uris
      else if ok new then rec new (remove_line x lines) (uris ++ [new])
      else rec new (remove_line x lines) uris
  end.
Fixpoint adduri (fuel : nat) (tarballs : list nat) (u : str) (lines : list line) (uris : list str) : list str :=
  match fuel with
  | 0 => uris
  | S fuel =>
      fold_left (fun uris x => fold_left (adduri_step (adduri fuel tarballs) u lines x) tarballs uris) lines uris
  end.
Definition build_mirroruris (lines : list line) (tarballs : list nat) : list str := adduri (length lines) tarballs orig lines [].
End Uris.
