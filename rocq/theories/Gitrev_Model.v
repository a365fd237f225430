(** Model of the revisions of git sources (bitbake/lib/bb/fetch2/__init__.py and
    bitbake/lib/bb/fetch2/git.py): which revision a recipe asks for, how a branch or
    tag becomes a commit, the store of resolved revisions, the names of the clones and
    the revision in the version of the package. *)
From Coq Require Import Ascii String List Bool Arith.
From Verif Require Import Str_Model.
Import ListNotations.
Open Scope list_scope.

(** ** The revision a recipe asks for *)
(** truth of a value of the datastore *)
Definition filled (v : option str) : bool := match v with Some (_ :: _) => true | _ => false end.
(** __init__.py 1214-1224: the variables, the strongest first *)
Definition attempts (pn : option str) (name : str) : list str :=
  let named := negb (seqb name []) in
  let p := match pn with Some p => p | None => [] end in
  (if named && filled pn then [s_ "SRCREV_" ++ name ++ s_ ":pn-" ++ p] else []) ++
  (if named then [s_ "SRCREV_" ++ name] else []) ++
  (if filled pn then [s_ "SRCREV:pn-" ++ p] else []) ++ [s_ "SRCREV"].
(** "srcrev and srcrev != INVALID" (1228) *)
Definition valid (v : option str) : bool := filled v && match v with Some s => negb (seqb s (s_ "INVALID")) | None => false end.
(** 1226-1229: after the loop srcrev is the last value looked at *)
Fixpoint look_up (getVar : str -> option str) (last : option str) (l : list str) : option str :=
  match l with
  | [] => last
  | a :: l => if valid (getVar a) then getVar a else look_up getVar (getVar a) l
  end.
(** the outcome: an exception, a revision, or the latest one of the branch *)
Inductive ask := Failed | Rev (r : str) | Latest.
(** __init__.py 1206-1250; [prev], [ptag]: the parameters rev and tag of the URL *)
Definition srcrev_internal_helper (getVar : str -> option str) (pn : option str) (prev ptag : option str) (name : str) : ask :=
  let srcrev := look_up getVar None (attempts pn name) in
  match prev, ptag with
  | Some _, Some _ => Failed
  | Some p, None | None, Some p =>
      if valid srcrev then (if match srcrev with Some s => seqb s p | None => false end then Rev p else Failed) else Rev p
  | None, None =>
      if valid srcrev then
        match srcrev with
        | Some s => if seqb s (s_ "AUTOINC") then Latest else Rev s
        | None => Failed
        end
      else Failed
  end.

(** ** From a branch or tag to a commit *)
(** The output of git ls-remote: pairs of an object and a ref.  Lines that are not two
    words (an exception, git.py 860) are left out. *)
Definition remote := list (str * str).
(** the inner loop of git.py 859-862 *)
Definition find_ref (s : str) (out : remote) : option str := option_map fst (find (fun l => seqb s (snd l)) out).
(** "[:5] == refs/" (852) *)
Definition is_ref (u : str) : bool := seqb (firstn 5 u) (s_ "refs/").
(** git.py 851-864 *)
Definition resolve (usehead : bool) (u : str) (out : remote) : option str :=
  let full := is_ref u || usehead in
  let head := if full then u else s_ "refs/heads/" ++ u in
  let tag := if full then u else s_ "refs/tags/" ++ u in
  match find_ref head out with
  | Some c => Some c
  | None => match find_ref (tag ++ s_ "^{}") out with
            | Some c => Some c
            | None => find_ref tag out
            end
  end.
(** slash_re.sub(".", path) (git.py 94, 812): each run of slashes becomes one dot *)
Fixpoint dots (after : bool) (p : str) : str :=
  match p with
  | [] => []
  | c :: p => if aeqb c "/" then (if after then dots true p else "."%char :: dots true p) else c :: dots false p
  end.
(** git.py 807-812 *)
Definition revision_key (host path u : str) : str := s_ "git:" ++ host ++ dots false path ++ u.
(** BB_URI_HEADREVS *)
Definition headrevs := list (str * str).
Definition get_rev (k : str) (revs : headrevs) : option str := option_map snd (find (fun e => seqb k (fst e)) revs).
(** A repository and the parameters of its URL that matter here. *)
Record url := mkUrl { u_host : str; u_path : str; u_usehead : bool }.
(** __init__.py 1658-1671; [out] is what the repository of the URL answers now.  None:
    an exception; nothing is stored then. *)
Definition latest_revision (revs : headrevs) (w : url) (u : str) (out : remote) : option str * headrevs :=
  let key := revision_key (u_host w) (u_path w) u in
  match get_rev key revs with
  | Some r => (Some r, revs)
  | None => match resolve (u_usehead w) u out with
            | Some r => (Some r, (key, r) :: revs)
            | None => (None, revs)
            end
  end.
(** sha1_re (git.py 93).  A newline at the end, that $ lets pass, is left out. *)
Definition hexdigit (c : ascii) : bool := is_digit c || ((Ascii.leb "a" c) && (Ascii.leb c "f")).
Definition is_sha1 (r : str) : bool := Nat.eqb (length r) 40 && forallb hexdigit r.
(** git.py 231-232, 258-264: what stands for the revision of a URL that names none *)
Definition unresolved (w : url) (branch : str) : str := if u_usehead w then s_ "HEAD" else branch.
(** git.py 272-279 for one name of the URL: the commit that is fetched and built, and
    the store of resolved revisions afterwards. *)
Definition revision (revs : headrevs) (w : url) (branch : str) (a : ask) (out : remote) : option str * headrevs :=
  let second := fun r u (revs : headrevs) =>
    if is_sha1 r then (Some r, revs) else latest_revision revs w (match r with [] => u | _ => r end) out in
  match a with
  | Failed => (None, revs)
  | Rev r => second r (unresolved w branch) revs
  | Latest => match latest_revision revs w (unresolved w branch) out with
              | (Some r, revs) => second r (unresolved w branch) revs
              | (None, revs) => (None, revs)
              end
  end.
(** A build asks for many revisions, one after the other, while the repositories go on
    changing: each request comes with the answer its repository would give then. *)
Definition request := (url * str * remote)%type.
Fixpoint ask_all (revs : headrevs) (l : list request) : list (option str) :=
  match l with
  | [] => []
  | (w, u, out) :: l => let (r, revs) := latest_revision revs w u out in r :: ask_all revs l
  end.

(** ** The names of the clones *)
(** git.py 281-283 and 289-291; [rev]: the revisions of a rebaseable repository *)
Definition clean_char (c : ascii) : ascii :=
  if aeqb c "/" || aeqb c "*" then "."%char else if aeqb c " " || aeqb c "(" || aeqb c ")" then "_"%char else c.
Definition gitsrcname (host path : str) (rebaseable : bool) (revs : list str) : str :=
  let n := replace_char ":" (s_ ".") host ++ map clean_char path in
  let n := match n with c :: n' => if aeqb c "." then n' else n | [] => n end in
  if rebaseable then fold_left (fun n r => n ++ s_ "_" ++ r) revs n else n.
(** git.py 294-299: the clone and the archive of it *)
Definition clonedir (gitdir n : str) : str := gitdir ++ s_ "/" ++ n.
Definition mirrortarball (n : str) : str := s_ "git2_" ++ n ++ s_ ".tar.gz".

(** ** The revision in the version of the package *)
(** __init__.py 792-793, 815-816 *)
Definition short (r : str) : str := firstn 10 r.
(** sorted(key=len, reverse=True): stable (824) *)
Fixpoint insert_len (x : str * str) (l : list (str * str)) : list (str * str) :=
  match l with
  | [] => [x]
  | y :: l' => if Nat.leb (length (fst y)) (length (fst x)) then x :: l else y :: insert_len x l'
  end.
Definition by_length (l : list (str * str)) : list (str * str) := fold_right insert_len [] l.
(** name_to_rev (807-817): a later source with the same name replaces the revision *)
Fixpoint set_rev (n r : str) (l : list (str * str)) : list (str * str) :=
  match l with
  | [] => [(n, r)]
  | (m, q) :: l => if seqb n m then (n, r) :: l else (m, q) :: set_rev n r l
  end.
Definition name_to_rev (l : list (str * str)) : list (str * str) := fold_left (fun t e => set_rev (fst e) (short (snd e)) t) l [].
(** re.sub with the alternation of the names (825-826): at each place the first name of
    the list that matches; [skip] characters belong to the name replaced last.  Empty
    names are left out. *)
Fixpoint sub_names (t : list (str * str)) (skip : nat) (f : str) : str :=
  match f with
  | [] => []
  | c :: f' =>
      match skip with
      | S k => sub_names t k f'
      | O => match find (fun e => startswith (fst e) f) t with
             | Some (n, r) => r ++ sub_names t (pred (length n)) f'
             | None => c :: sub_names t 0 f'
             end
      end
  end.
(** __init__.py 784-831; [scms]: the names and revisions of the sources under version
    control, in the order of SRC_URI.  For git every revision counts as automatic
    (1673-1675).  None: an exception (no SRCREV_FORMAT). *)
Definition get_srcrev (format : option str) (scms : list (str * str)) : option str :=
  match scms with
  | [] => Some []
  | [(_, r)] => Some (s_ "AUTOINC+" ++ short r)
  | _ => match format with
         | Some (c :: f) => Some (s_ "AUTOINC+" ++ sub_names (by_length (name_to_rev scms)) 0 (c :: f))
         | _ => None
         end
  end.
