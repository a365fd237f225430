(** What is said about the script of a task: how a shell reads it. *)
From Coq Require Import Ascii String List Bool Arith.
From Verif Require Import Str_Model Emit_Model.
Import ListNotations.
Open Scope list_scope.

(** ** A shell *)
Definition mark : ascii := """"%char.
(** Text in double quotes, up to the closing one, and what is left.  None: it does not end, or
    something in it is expanded or executed. *)
Fixpoint quoted (s : str) : option (str * str) :=
  match s with
  | [] => None
  | c :: r =>
      if aeqb c mark then Some ([], r)
      else if aeqb c "$"%char || aeqb c "`"%char then None
      else if aeqb c "\"%char then
        match r with
        | [] => None
        | e :: r' => if aeqb e nl then quoted r'
                     else if existsb (aeqb e) (s_ "\""$`") then option_map (fun p => (e :: fst p, snd p)) (quoted r')
                     else option_map (fun p => (c :: fst p, snd p)) (quoted r)
        end
      else option_map (fun p => (c :: fst p, snd p)) (quoted r)
  end.
Definition name_char (c : ascii) : bool := is_alpha c || is_digit c || aeqb c "_"%char.
Definition sh_name (n : str) : bool := match n with c :: r => (is_alpha c || aeqb c "_"%char) && forallb name_char r | [] => false end.
Fixpoint till (stop : ascii) (s : str) : str * str := match s with [] => ([], []) | c :: r => if aeqb c stop then ([], s) else let '(a, b) := till stop r in (c :: a, b) end.
(** The environment a script makes of one.  None: it does anything else than to set and unset
    variables to texts it contains. *)
Definition env := str -> option str.
Definition put (e : env) (n : str) (v : option str) : env := fun m => if seqb m n then v else e m.
Fixpoint shell (fuel : nat) (s : str) (e : env) : option env :=
  match fuel with
  | 0 => None
  | S fuel =>
      match s with
      | [] => Some e
      | c :: r =>
          if aeqb c nl then shell fuel r e
          else if aeqb c "#"%char then shell fuel (snd (till nl r)) e
          else if startswith (s_ "export ") s then
            let '(n, t) := till "="%char (skipn 7 s) in
            match sh_name n, t with
            | true, q1 :: q2 :: t => if aeqb q2 mark then match quoted t with Some (v, x :: t) => if aeqb x nl then shell fuel t (put e n (Some v)) else None | _ => None end else None
            | _, _ => None
            end
          else if startswith (s_ "unset ") s then
            let '(n, t) := till nl (skipn 6 s) in
            if sh_name n then shell fuel t (put e n None) else None
          else None
      end
  end.
Definition runs (s : str) (e : env) : option env := shell (S (length s)) s e.

(** ** Values and names *)
(** A value the script passes on: no backquote, and a backslash only before something that is
    neither a backslash, a quotation mark, a dollar sign, nor the end. *)
Definition tame (v : str) : Prop :=
  ~ In "`"%char v /\ forall a b, v = a ++ "\"%char :: b -> exists c r, b = c :: r /\ ~ In c (s_ "\""$").
(** Line ends become spaces. *)
Definition one_line (v : str) : str := map (fun c => if aeqb c nl then " "%char else c) v.
(** Names that are not passed to the script. *)
Definition left_out (n : str) : Prop := (exists r, n = s_ "__" ++ r) \/ exists c, In c n /\ In c (s_ "-.{}+").
(** The metadata as usual: no name twice, and what is exported or unexported has a name a shell
    accepts (or one that is left out), can be expanded, and is no shell function of bash. *)
Definition usual (d : data) : Prop :=
  NoDup (map fst d) /\
  forall n v, In (n, v) d -> v_func v = false -> v_export v = true \/ v_unexport v = true ->
    v_fails v = None /\ (sh_name n = true \/ left_out n) /\ (forall r, n <> s_ "BASH_FUNC_" ++ r) /\ forall t, v_value v = Some t -> tame t.
(** What the script says about a name: not at all, or its new state. *)
Definition says (d : data) (n : str) (e : env) : option str :=
  match find (fun x => seqb (fst x) n) d with
  | Some (_, v) =>
      if v_func v then e n
      else if v_unexport v then None
      else if v_export v then match v_value v with Some t => Some (one_line t) | None => e n end
      else e n
  | None => e n
  end.

(** ** Functions *)
(** A shell function that is used, directly or not. *)
Definition shell_function (d : data) (n : str) : Prop := exists v, In (n, v) d /\ v_func v = true /\ v_python v = false.
Inductive used (d : data) (f : str) : str -> Prop :=
| used_direct v n : In (f, v) d -> In n (v_deps v) -> shell_function d n -> used d f n
| used_more g v n : used d f g -> In (g, v) d -> In n (v_deps v) -> shell_function d n -> used d f n.
(** The definition of a function as the script has it: its text without line ends at the end. *)
Definition defines (d : data) (n : str) (t : str) : Prop :=
  exists v val body k, In (n, v) d /\ v_value v = Some val /\ val = body ++ repeat nl k /\ (body = [] \/ exists b c, body = b ++ [c] /\ c <> nl) /\
    t = s_ "# " ++ v_where v ++ [nl] ++ n ++ s_ "() {" ++ [nl] ++ body ++ [nl] ++ s_ "}" ++ [nl; nl].
(** A function whose definition can be written. *)
Definition writable (d : data) (n : str) : Prop :=
  exists v t, In (n, v) d /\ v_func v = true /\ v_python v = false /\ v_unexport v = false /\ v_fails v = None /\ v_value v = Some t /\
    (forall c, In c n -> ~ In c (s_ "-.{}+")) /\ forall r, n <> s_ "BASH_FUNC_" ++ r.
