(** Model of mirrors of sources (bitbake/lib/bb/fetch2/__init__.py): the lines of PREMIRRORS
    and MIRRORS, the address a line makes of another one, and the list of addresses when
    the data of an address cannot be set up. *)
From Coq Require Import Ascii String List Bool Arith.
From Verif Require Import Str_Model Data_Model Posix_Model Url_Model.
Import ListNotations.
Open Scope list_scope.

(** ** The lines *)
(** 547: a last word without partner is dropped *)
Fixpoint pairs (l : list str) : list (str * str) := match l with a :: b :: l => (a, b) :: pairs l | _ => [] end.
(** 542-547: a backslash followed by n stands for white space *)
Definition mirror_from_string (data : str) : list (str * str) := pairs (split_ws (replace_str (s_ "\n") (s_ " ") data)).

(** ** Regular expressions *)
(** Those that are usual in mirror lines: characters, escaped characters, the dot, each
    perhaps with a star or question mark; ^ at the start and $ at the end. *)
Inductive unit_ := UChar (c : ascii) | UAny.
Inductive item := One (u : unit_) | Star (u : unit_) | Opt (u : unit_) | End.
Definition fits (u : unit_) (c : ascii) : bool := match u with UChar d => aeqb c d | UAny => negb (aeqb c nl) end.
Fixpoint units (s : str) : list item :=
  match s with
  | [] => []
  | c :: s' =>
      if aeqb c "\" then match s' with
                         | d :: ((e :: s'') as t) => if aeqb e "*" then Star (UChar d) :: units s'' else if aeqb e "?" then Opt (UChar d) :: units s'' else One (UChar d) :: units t
                         | [d] => [One (UChar d)]
                         | [] => []
                         end
      else if aeqb c "$" && seqb s' [] then [End]
      else if aeqb c "." then match s' with
                     | d :: s'' => if aeqb d "*" then Star UAny :: units s'' else if aeqb d "?" then Opt UAny :: units s'' else One UAny :: units s'
                     | [] => [One UAny]
                     end
      else match s' with
                     | d :: s'' => if aeqb d "*" then Star (UChar c) :: units s'' else if aeqb d "?" then Opt (UChar c) :: units s'' else One (UChar c) :: units s'
                     | [] => [One (UChar c)]
                     end
  end.
Definition compile (s : str) : list item := match s with c :: s' => if aeqb c "^" then units s' else units s | [] => [] end.
(** What follows the match at the start of a text: greedy, with backtracking.  $ fits before
    a newline at the end too. *)
Fixpoint star (k : str -> option str) (u : unit_) (s : str) : option str :=
  match s with
  | [] => k []
  | c :: s' => if fits u c then match star k u s' with Some r => Some r | None => k s end else k s
  end.
Fixpoint match_items (l : list item) (s : str) : option str :=
  match l with
  | [] => Some s
  | One u :: l => match s with c :: s => if fits u c then match_items l s else None | [] => None end
  | Opt u :: l =>
      match s with
      | c :: s' => if fits u c then match match_items l s' with Some r => Some r | None => match_items l s end else match_items l s
      | [] => match_items l []
      end
  | Star u :: l => star (match_items l) u s
  | End :: l => match s with [] => match_items l [] | [c] => if aeqb c nl then match_items l s else None | _ => None end
  end.
Definition re_match (p s : str) : option str := match_items (compile p) s.

(** ** uri_replace (424-489) *)
Section Replace.
(** re.match, as what follows the match *)
Variable rx : str -> str -> option str.
(** replacements (build_mirroruris 980-985), in order *)
Variable reps : list (str * str).
Definition subst (s : str) : str := fold_left (fun s kv => replace_str (fst kv) (snd kv) s) reps s.
(** 455-463: re.sub with a count of one, after re.match: the match at the start is the
    first.  Backslashes of the replacement, that re.sub interprets, are left out. *)
Definition part (find orig repl : str) : option str :=
  match rx find orig with
  | None => None
  | Some rest => Some (match repl with [] => [] | _ => subst repl ++ rest end)
  end.
(** 437-440 *)
Definition anchored (t : str) : str := match t with [] => [] | _ => if endswith (s_ "$") t then t else t ++ s_ "$" end.
(** 452-454 *)
Definition login (find orig repl : str) : option str := match repl with [] => part find orig [] | _ => Some repl end.
(** 474-482; [name]: the name the file is to have, or nothing *)
Definition named (name orig new : str) : str :=
  match name with
  | [] => new
  | _ =>
      let old := basename orig in
      let path := s_ "/" ++ new in
      if negb (seqb old []) && negb (seqb name old) && endswith (s_ "/" ++ old) path
      then skipn 1 (firstn (length path - length old) path) ++ name
      else if negb (endswith (s_ "/" ++ name) path) then pjoin (skipn 1 path) name
      else new
  end.
(** 443-447: true, false, or a KeyError *)
Fixpoint same_params (find orig : list (str * str)) : option bool :=
  match find with
  | [] => Some true
  | (k, v) :: find => match get orig k with None => None | Some w => if seqb w v then same_params find orig else Some false end
  end.
(** 448-451 *)
Definition set_params (repl orig : list (str * str)) : list (str * str) := fold_left (fun m kv => set m (fst kv) (subst (snd kv))) repl orig.
Inductive result := New (u : str) | Unchanged | Raised.
(** [base]: the name of the local file, if it has checksums, or nothing;
    [tarball]: the mirror tarball, or nothing *)
Definition uri_replace (url base find repl tarball : str) : result :=
  if seqb url [] || seqb find [] || seqb repl [] then Unchanged
  else match decodeurl url, decodeurl find, decodeurl repl with
  | Decoded o, Decoded f, Decoded r =>
      match part (anchored (u_type f)) (u_type o) (u_type r), part (u_host f) (u_host o) (u_host r), part (u_path f) (u_path o) (u_path r),
            login (u_user f) (u_user o) (u_user r), login (u_pswd f) (u_pswd o) (u_pswd r) with
      | Some t, Some h, Some p, Some u, Some w =>
          (* 466-471: the type of the replacement, after the substitutions *)
          let packed := negb (seqb (u_type o) (match u_type r with [] => [] | _ => subst (u_type r) end)) && negb (seqb tarball []) in
          let p := named (if packed then basename tarball else base) (u_path o) p in
          match (if packed then Some true else same_params (u_parm f) (u_parm o)) with
          | None => Raised
          | Some false => Unchanged
          | Some true =>
              match encodeurl {| u_type := t; u_host := h; u_path := p; u_user := u; u_pswd := w;
                                 u_parm := set_params (u_parm r) (if packed then [] else u_parm o) |} with
              | None => Raised
              | Some new => if seqb new url then Unchanged else New new
              end
          end
      | _, _, _, _, _ => Unchanged
      end
  | _, _, _ => Raised
  end.
End Replace.
(** build_mirroruris 980-985 *)
Definition replacements (type host path : str) : list (str * str) :=
  [(s_ "TYPE", type); (s_ "HOST", host); (s_ "PATH", path); (s_ "BASENAME", last (split_on "/"%char path) []);
   (s_ "MIRRORNAME", replace_str (s_ ":") (s_ ".") host ++ replace_str (s_ "*") (s_ ".") (replace_str (s_ "/") (s_ ".") path))].

(** ** The list of addresses (976-1030) when data of an address cannot be set up *)
Section Uris.
(** uri_replace of an address by a line, for one tarball *)
Variable repl : str -> str * str -> option str.
Inductive data := Good | No_path | No_data.
(** whether FetchData and its setup_localpath succeed *)
Variable setup : str -> data.
Variable orig : str.
Fixpoint drop (x : str * str) (l : list (str * str)) : list (str * str) :=
  match l with [] => [] | y :: l => if seqb (fst x) (fst y) && seqb (snd x) (snd y) then l else y :: drop x l end.
(** 987-1026: newud is a variable of the function: after an exception of FetchData it is
    still that of the line before, if there was one.  [lines]: all lines; the fuel bounds
    the depth, as each call removes a line. *)
Fixpoint adduri (fuel : nat) (u : str) (lines : list (str * str)) (uris : list str) : list str :=
  match fuel with
  | 0 => uris
  | S fuel =>
      fst (fold_left (fun st line =>
        let (uris, newud) := (st : list str * option str) in
        match repl u line with
        | None => st
        | Some new =>
            if mem_str new uris || seqb new orig then st
            else match setup new with
                 | Good => (adduri fuel new (drop line lines) (uris ++ [new]), Some new)
                 | No_path => (adduri fuel new (drop line lines) uris, Some new)
                 | No_data => match newud with Some old => (adduri fuel old (drop line lines) uris, newud) | None => st end
                 end
        end) lines (uris, None))
  end.
Definition mirror_uris (lines : list (str * str)) : list str := adduri (length lines) orig lines [].
End Uris.
