(** Inheritance of classes (bitbake/lib/bb/parse/parse_py/BBHandler.py 44-81, 111-171,
    bitbake/lib/bb/parse/ast.py 309-326, 420-436, bitbake/lib/bb/data.py 441-448), functions exported by classes
    (ast.py 151-240) and anonymous functions (ast.py 162-173, 381-385).  Definitions only. *)
From Coq Require Import String Ascii List Bool Arith NArith.
From Verif Require Import Str_Model Posix_Model Search_Model.
Import ListNotations.
Open Scope list_scope.

(** The statements of a file: inherit with the text behind it, inherit_defer with the text behind it, or any
    other statement.  The expansion of the texts and conditions on variables are not modelled. *)
Inductive stmt := Inh (text : str) | Defer (text : str) | Act.
(** What can be observed: a file is entered, its statement number k (other than inherit) is evaluated, it is left *)
Inductive event := Start (f : str) | Ran (f : str) (k : nat) | End (f : str).
(** cache: __inherit_cache; queue: __BBDEFINHERITS *)
Record state := mkState { cache : list str; queue : list str; events : list event }.
Definition begin_state : state := mkState [] [] [].
(** Missing: ParseError "Could not inherit file"; Loops: the fuel was not enough *)
Inductive result := Missing | Loops | Done (st : state).
Definition bind (r : result) (f : state -> result) : result := match r with Done st => f st | x => x end.
Definition log (e : event) (st : state) : state := mkState (cache st) (queue st) (events st ++ [e]).
Definition remember (f : str) (st : state) : state := mkState (cache st ++ [f]) (queue st) (events st).
Definition later (t : str) (st : state) : state := mkState (cache st) (queue st ++ [t]) (events st).

Section Inherit.
  (** the files there are and their statements; BBPATH and __bbclasstype, which do not change *)
  Variable content : str -> option (list stmt).
  Variable bbpath ctype : str.
  Definition there (f : str) : bool := match content f with Some _ => true | None => false end.
  (** BBHandler.py 53-64: one round; the marking of attempts is not modelled *)
  Definition candidate (t name : str) : str :=
    let file := if negb (isabs name) && negb (endswith (s_ ".bbclass") name) then pjoin t (name ++ s_ ".bbclass") else name in
    if isabs file then file
    else match fst (which there bbpath file false) with Some f => f | None => file end.
  (** BBHandler.py 50-70 *)
  Definition lookup (name : str) : option str :=
    let f1 := candidate (s_ "classes-" ++ ctype) name in
    if there f1 then Some f1
    else let f2 := candidate (s_ "classes") name in if there f2 then Some f2 else None.

  Section With.
    (** bb.parse.handle(file, d, True) *)
    Variable handle : str -> state -> result.
    (** BBHandler.py 49-81: the loop of inherit *)
    Fixpoint inherit_names (names : list str) (st : state) : result :=
      match names with
      | [] => Done st
      | name :: rest =>
          match lookup name with
          | None => Missing
          | Some f => bind (if mem_str f (cache st) then Done st else handle f (remember f st)) (inherit_names rest)
          end
      end.
    (** statements.eval: the statements of [f] from number [k] on *)
    Fixpoint eval_from (f : str) (k : nat) (ss : list stmt) (st : state) : result :=
      match ss with
      | [] => Done st
      | Inh text :: rest => bind (inherit_names (split_ws text) st) (eval_from f (S k) rest)
      | Defer text :: rest => eval_from f (S k) rest (later text (log (Ran f k) st))
      | Act :: rest => eval_from f (S k) rest (log (Ran f k) st)
      end.
  End With.
  (** BBHandler.py 111-171 handle, for a file that is read (the class enters the cache in inherit already) *)
  Fixpoint handle (fuel : nat) (f : str) (st : state) : result :=
    match fuel with
    | O => Loops
    | S n =>
        match content f with
        | None => Missing
        | Some ss => bind (eval_from (handle n) f 0 ss (log (Start f) st)) (fun st => Done (log (End f) st))
        end
    end.
  (** ast.py 420-424 *)
  Fixpoint handle_each (fuel : nat) (files : list str) (st : state) : result :=
    match files with
    | [] => Done st
    | f :: rest => bind (handle fuel f st) (handle_each fuel rest)
    end.
  (** ast.py 426-432 *)
  Fixpoint deferred (fuel rounds : nat) (st : state) : result :=
    match queue st with
    | [] => Done st
    | text :: rest =>
        match rounds with
        | O => Loops
        | S n => bind (inherit_names (handle fuel) (split_ws text) (mkState (cache st) rest (events st))) (deferred fuel n)
        end
    end.
  (** the recipe and its appends, then the deferred classes *)
  Definition parse (fuel rounds : nat) (recipe : str) (appends : list str) : result :=
    bind (handle_each fuel (recipe :: appends) begin_state) (deferred fuel rounds).
End Inherit.
(** data.py 441-448 inherits_class *)
Definition inherits_class (klass : str) (st : state) : bool :=
  existsb (fun v => endswith (s_ "/" ++ klass ++ s_ ".bbclass") v) (cache st).

(** ** Functions *)
(** The value and the flag python of a variable; other flags are not modelled *)
Record function := mkFunction { body : option str; python : bool }.
Definition store := str -> function.
Definition nothing : store := fun _ => mkFunction None false.
Definition fupd (d : store) (k : str) (v : function) : store := fun x => if seqb x k then v else d x.
Definition nonempty (o : option str) : bool := match o with Some (_ :: _) => true | _ => false end.
(** A function definition (with a name) and an EXPORT_FUNCTIONS line of a class *)
Inductive definition := Method (name text : str) (py : bool) | Export (class_ : str) (funcs : str).
Definition newline : ascii := ascii_of_nat 10.
Definition sentinel : str := s_ "    # Export function set" ++ [newline].
(** MethodNode.eval, ast.py 174-184 *)
Definition method (name text : str) (py : bool) (d : store) : store :=
  let old := if nonempty (body (d name)) then false else python (d name) in
  fupd d name (mkFunction (Some text) (if py then true else old)).
Definition call_text (class_ f : str) (py : bool) : str :=
  if py then sentinel ++ s_ "    bb.build.exec_func('" ++ class_ ++ s_ "_" ++ f ++ s_ "', d)" ++ [newline]
  else sentinel ++ s_ "    " ++ class_ ++ s_ "_" ++ f ++ [newline].
(** ExportFuncsNode.eval, ast.py 213-240; None: bb.fatal.  The copying of dirs, cleandirs and fakeroot is not
    modelled. *)
Definition export_one (class_ f : str) (d : store) : option store :=
  let called := class_ ++ s_ "_" ++ f in
  if nonempty (body (d f)) && negb (match body (d f) with Some t => contains_sub sentinel t | None => false end) then Some d
  else
    let old := if nonempty (body (d f)) then false else python (d f) in
    let d := fupd d f (mkFunction (body (d f)) (if python (d called) then true else old)) in
    let py := python (d called) in
    if negb py && existsb (aeqb "-"%char) class_ then None
    else Some (fupd d f (mkFunction (Some (call_text class_ f py)) (python (d f)))).
Fixpoint export_each (class_ : str) (fs : list str) (d : store) : option store :=
  match fs with
  | [] => Some d
  | f :: rest => match export_one class_ f d with Some d => export_each class_ rest d | None => None end
  end.
Fixpoint define_all (h : list definition) (d : store) : option store :=
  match h with
  | [] => Some d
  | Method n t py :: r => define_all r (method n t py d)
  | Export c fs :: r => match export_each c (split_ws fs) d with Some d => define_all r d | None => None end
  end.

(** ** Anonymous functions: MethodNode.eval 166-173 and runAnonFuncs 381-385; each is (file, number of the line
    of its end, what it does) *)
Definition translated (c : ascii) : ascii := if existsb (aeqb c) (s_ "/.+-@%&~") then "_"%char else c.
Definition anon_name (file : str) (line : nat) : str := s_ "__anon_" ++ dec (N.of_nat line) ++ s_ "_" ++ map translated file.
Definition anon := (str * nat * nat)%type.
Definition name_of (a : anon) : str := let '(f, l, _) := a in anon_name f l.
(** the global namespace: the last definition of a name counts *)
Fixpoint defined (l : list anon) (n : str) : option nat :=
  match l with
  | [] => None
  | a :: r => match defined r n with Some x => Some x | None => if seqb (name_of a) n then Some (snd a) else None end
  end.
(** what the calls in __BBANONFUNCS do, in order *)
Definition run_anon (l : list anon) : list (option nat) := map (fun a => defined l (name_of a)) l.
