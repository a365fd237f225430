(** Functions in recipes and classes: bitbake/lib/bb/parse/parse_py/BBHandler.py 21-35 and 83-261 (get_statements,
    handle, feeder), bitbake/lib/bb/parse/ast.py 151-204, and the places of their lines: bitbake/lib/bb/utils.py
    308-321, bitbake/lib/bb/build.py 296-300 and 548-577, bitbake/lib/bb/data.py 155-165.  Definitions only.
    A file is the list of its lines without the line ends.  Not modelled: messages, the cache of statements. *)
From Coq Require Import String Ascii List Bool Arith NArith.
From Verif Require Import Str_Model Data_Model Parse_Model Tasks_Model.
Import ListNotations.
Open Scope list_scope.

(** ** Headers *)
(** BBHandler.py 21: [\w\.\-\+\{\}\$:] *)
Definition func_char (c : ascii) : bool := word_char c || existsb (aeqb c) (s_ ".-+{}$:").
(** BBHandler.py 21: the words python (before a space or a bracket) and fakeroot (before a space), each with the
    spaces behind it, any number of times.  Taking as many words as possible
    never prevents the rest of the expression from matching.  [fuel]: at most the length of the text. *)
Fixpoint keywords (fuel : nat) (s : str) (py fr : bool) : bool * bool * str :=
  match fuel with
  | O => (py, fr, s)
  | S n =>
      match strip_prefix (s_ "python") s, strip_prefix (s_ "fakeroot") s with
      | Some (c :: r), _ => if is_space c || aeqb c "("%char then keywords n (lstrip (c :: r)) true fr else (py, fr, s)
      | _, Some (c :: r) => if is_space c then keywords n (lstrip (c :: r)) py true else (py, fr, s)
      | _, _ => (py, fr, s)
      end
  end.
(** BBHandler.py 21: the two brackets and the brace at the end *)
Definition opening (s : str) : bool :=
  match lstrip s with
  | a :: s =>
      aeqb a "("%char &&
      match lstrip s with
      | b :: s => aeqb b ")"%char && seqb (lstrip s) (s_ "{")
      | [] => false
      end
  | [] => false
  end.
(** __func_start_regexp__.match and 224-225: the name and the two flags *)
Definition func_start (s : str) : option (str * bool * bool) :=
  let '(py, fr, r) := keywords (length s) s false false in
  let '(name, r) := span func_char r in
  if opening r then Some (match name with [] => s_ "__anonymous" | _ => name end, py, fr) else None.
(** BBHandler.py 28 __def_regexp__.match: def\s+(\w+).*: *)
Definition def_start (s : str) : option str :=
  match after_word (s_ "def") s with
  | Some r => match take_word r with
              | ([], _) => None
              | (name, r) => if existsb (aeqb ":"%char) r then Some name else None
              end
  | None => None
  end.
(** BBHandler.py 29 __python_func_regexp__.match: (\s+.* )|(^$)|(^#) *)
Definition inside_def (s : str) : bool := match s with [] => true | c :: _ => is_space c || aeqb c hash end.

(** ** Reading a file *)
(** A function with the lines of its body and the number of the line that ends it, a def (its first line belongs to
    the body) with the number of the first line behind it, or any other statement *)
Inductive node :=
| Func (name : str) (body : list str) (py fr : bool) (line : nat)
| PyDef (name : str) (body : list str) (line : nat)
| Text (s : str).
(** Top: __residue__; InFunc: __infunc__ and __body__; InDef: __inpython__ and __body__ *)
Inductive mode := Top (residue : list str) | InFunc (name : str) (py fr : bool) (body : list str) | InDef (name : str) (body : list str).
(** BBHandler.py 201-261: a line outside functions; None: bb.fatal, or IndexError for __residue__[0][0] *)
Definition top (residue : list str) (s : str) : option (mode * list node) :=
  if match residue with
     | [] => false
     | [] :: _ => true
     | r :: _ => (head_is hash s && negb (head_is hash r)) || (head_is hash r && negb (head_is hash s))
     end then None
  else if continued s then Some (Top (residue ++ [removelast s]), [])
  else
    let t := concat residue ++ s in
    if match t with [] => true | _ => head_is hash t end then Some (Top [], [])
    else match func_start t with
         | Some (name, py, fr) => Some (InFunc name py fr [], [])
         | None => match def_start t with
                   | Some name => Some (InDef name [t], [])
                   | None => Some (Top [], [Text t])
                   end
         end.
(** BBHandler.py 165-199: the line number [line] *)
Definition step (m : mode) (line : nat) (s : str) : option (mode * list node) :=
  match m with
  | InFunc name py fr body =>
      if seqb s (s_ "}") then Some (Top [], [Func name (body ++ [[]]) py fr line]) else Some (InFunc name py fr (body ++ [s]), [])
  | InDef name body =>
      if inside_def s then Some (InDef name (body ++ [s]), [])
      else match top [] s with Some (m, l) => Some (m, PyDef name body line :: l) | None => None end
  | Top residue => top residue s
  end.
(** BBHandler.py 91-107: [k] lines have been read.  None: an exception.  The flag: the file ends in a function
    without a body *)
Fixpoint go (m : mode) (k : nat) (ls : list str) : option (list node * bool) :=
  match ls with
  | [] =>
      match m with
      | Top [] => Some ([], false)
      | Top _ => None
      | InFunc _ _ _ [] => Some ([], true)
      | InFunc _ _ _ _ => None
      | InDef name body => Some ([PyDef name body (S k)], false)
      end
  | l :: rest =>
      match step m (S k) (rstrip l) with
      | Some (m, out) => match go m (S k) rest with Some (r, e) => Some (out ++ r, e) | None => None end
      | None => None
      end
  end.
Definition read (ls : list str) : option (list node * bool) := go (Top []) 0 ls.
(** BBHandler.py 138-153: the statements are evaluated, then an open function is an error.  [reads]: the statement
    makes BBHandler.handle read another file, which empties __infunc__ (114) *)
Definition accept (reads : str -> bool) (ls : list str) : option (list node) :=
  match read ls with
  | Some (l, false) => Some l
  | Some (l, true) => if existsb (fun n => match n with Text s => reads s | _ => false end) l then Some l else None
  | None => None
  end.

(** ** The other statements, BBHandler.py 22-27 and 234-261 *)
Inductive directive := Exports (names : str) | AddTask (f : str) (before after : option str) | DelTask (names : str) | AddHandler (names : str)
  | Inherit (names : str) | InheritDefer (names : str) | Conf (c : statement).
(** None: ParseError *)
Definition direct (s : str) : option directive :=
  match argument (s_ "EXPORT_FUNCTIONS") s with
  | Some a => Some (Exports a)
  | None => match match_addtask s with
  | Some (f, b, a) => if refused s then None else Some (AddTask f b a)
  | None => match argument (s_ "deltask") s with
  | Some a => Some (DelTask a)
  | None => match argument (s_ "addhandler") s with
  | Some a => Some (AddHandler a)
  | None => match argument (s_ "inherit") s with
  | Some a => Some (Inherit a)
  | None => match argument (s_ "inherit_defer") s with
  | Some a => Some (InheritDefer a)
  | None => option_map Conf (feeder s)
  end end end end end end.

(** ** The lines of the compiled code *)
Definition newline : ascii := ascii_of_nat 10.
Definition unlines (l : list str) : str := join [newline] l.
(** utils.py 318: "\n" * lineno + text *)
Definition padded (lineno : nat) (text : str) : str := repeat newline lineno ++ text.
(** ast.py 167 and build.py 297 *)
Definition py_header (name : str) : str := s_ "def " ++ name ++ s_ "(d):" ++ [newline].
(** ast.py 162, 170 and build.py 297: the text of a python function, as it is compiled *)
Definition py_text (name : str) (body : list str) : str := py_header name ++ unlines body.
(** ast.py 185: the flag lineno *)
Definition func_lineno (body : list str) (line : nat) : nat := line - length body.
(** build.py 299-300 (ast.py 171 for an anonymous function) *)
Definition func_pad (body : list str) (line : nat) : nat := func_lineno body line - 1.
(** ast.py 199 *)
Definition def_pad (body : list str) (line : nat) : nat := line - length body - 1.
(** utils.py 313-320 and methodpool.py 19-28: the compiled code is kept by its text.  Collisions of hashes are not
    modelled.  The file and the padding in effect for each text, in order *)
Definition code := (str * str * nat)%type.
Fixpoint found (cache : list code) (text : str) : option (str * nat) :=
  match cache with
  | [] => None
  | (t, f, p) :: r => if seqb t text then Some (f, p) else found r text
  end.
Fixpoint compile_all (cache : list code) (l : list code) : list (str * nat) :=
  match l with
  | [] => []
  | (t, f, p) :: r =>
      match found cache t with
      | Some x => x :: compile_all cache r
      | None => (f, p) :: compile_all (cache ++ [(t, f, p)]) r
      end
  end.

(** ** The lines of a shell function *)
(** str.rstrip('\n') *)
Fixpoint drop_newlines (s : str) : str := match s with c :: r => if aeqb c newline then drop_newlines r else s | [] => [] end.
Definition rstrip_nl (s : str) : str := rev (drop_newlines (rev s)).
(** data.py 155-165: the lines of the script for a function.  The expansion of the text is not modelled *)
Definition mark (lineno : nat) (file : str) : str := s_ "# line: " ++ dec (N.of_nat lineno) ++ s_ ", file: " ++ file.
Definition emitted (name file : str) (lineno : nat) (value : str) : list str :=
  [mark lineno file; name ++ s_ "() {"] ++ split_on newline (rstrip_nl value) ++ [s_ "}"].
(** build.py 554 script_metadata_comment_regex.match: # line: (\d+), file: (.+) *)
Definition mark_of (s : str) : option (nat * str) :=
  match strip_prefix (s_ "# line: ") s with
  | Some r =>
      match span is_digit r with
      | ([], _) => None
      | (ds, r) => match strip_prefix (s_ ", file: ") r with Some (c :: f) => Some (N.to_nat (dec_val ds), c :: f) | _ => None end
      end
  | None => None
  end.
(** build.py 559-577: from line number [frame] of the script (its lines stripped, 549) backwards to the next comment *)
Fixpoint search_back (script : list str) (i : nat) : option (nat * nat * str) :=
  match match nth_error script i with Some s => mark_of (rstrip s) | None => None end with
  | Some (n, f) => Some (i, n, f)
  | None => match i with O => None | S j => search_back script j end
  end.
Definition place (script : list str) (frame : nat) : option (str * nat) :=
  match search_back script (frame - 1) with
  | Some (i, n, f) => Some (f, frame - i - 2 + n)
  | None => None
  end.
