(** Model of the shell script a task runs in: bitbake/lib/bb/data.py emit_var (111-168),
    emit_func (205-227), and its use in bitbake/lib/bb/build.py exec_func_shell (418-446). *)
From Coq Require Import Ascii String List Bool Arith.
From Verif Require Import Str_Model Imgtypes_Model.
Import ListNotations.
Open Scope list_scope.

(** A variable: its expanded value (None: not set), the text of the exception if it cannot be
    expanded, its flags, where it was defined, and the names its text refers to
    (ShellParser.parse_shell of the value, and the flag vardeps) *)
Record var := mkVar { v_value : option str; v_fails : option str; v_func : bool; v_python : bool; v_export : bool; v_unexport : bool; v_where : str; v_deps : list str }.
Definition unset_var : var := mkVar None None false false false false [] [].
Definition data := list (str * var).
Definition get (d : data) (n : str) : var := match find (fun e => seqb (fst e) n) d with Some e => snd e | None => unset_var end.
(** data.py 163-167: the three re.sub *)
Definition quote (v : str) : str :=
  replace_char "$"%char (s_ "\$") (replace_char nl (s_ " \" ++ [nl]) (replace_char """"%char (s_ "\""") v)).
(** 133 *)
Definition odd_name (n : str) : bool := existsb (fun c => existsb (aeqb c) (s_ "-.{}+")) n.
(** val.rstrip('\n') *)
Fixpoint lstrip_nl (s : str) : str := match s with c :: r => if aeqb c nl then lstrip_nl r else s | [] => [] end.
Definition rstrip_nl (s : str) : str := rev (lstrip_nl (rev s)).
(** 111-168 with all=False; the truth of what is returned.  A name without a brace is its own
    expansion (136).  The class of the exception is left out of the comment. *)
Definition emit_var (d : data) (n : str) : str * bool :=
  let v := get d n in
  if v_python v && v_func v then ([], false)
  else if negb (v_export v) && negb (v_unexport v) && negb (v_func v) then ([], false)
  else match v_fails v with
  | Some exc => (s_ "# expansion of " ++ n ++ s_ " threw " ++ exc ++ [nl], false)
  | None =>
      if odd_name n then ([], false)
      else if v_unexport v then (s_ "unset " ++ n ++ [nl], false)
      else match v_value v with
      | None => ([], false)
      | Some val =>
          if startswith (s_ "BASH_FUNC_") n then
            let name := firstn (length n - 12) (skipn 10 n) in
            (name ++ s_ "() " ++ skipn 3 val ++ [nl] ++ s_ "export -f " ++ name ++ [nl], true)
          else if v_func v then (s_ "# " ++ v_where v ++ [nl] ++ n ++ s_ "() {" ++ [nl] ++ rstrip_nl val ++ [nl] ++ s_ "}" ++ [nl], true)
          else ((if v_export v then s_ "export " else []) ++ n ++ s_ "=""" ++ quote val ++ s_ """" ++ [nl], false)
      end
  end.
(** 208-210 *)
Definition emit_variables (d : data) : str :=
  concat (map (fun n => fst (emit_var d n)) (sorted_set (filter (fun n => negb (startswith (s_ "__") n) && negb (v_func (get d n))) (map fst d)))).
(** emit_var(..) and o.write('\n') *)
Definition emit_line (d : data) (n : str) : str := let '(t, more) := emit_var d n in t ++ if more then [nl] else [].
Definition is_shell (d : data) (n : str) : bool := v_func (get d n) && negb (v_python (get d n)).
(** 216-227; None: out of fuel.  What is written, by name *)
Fixpoint emit_deps (fuel : nat) (d : data) (newdeps seen out : list str) : option (list str) :=
  match newdeps with
  | [] => Some out
  | _ =>
      match fuel with
      | 0 => None
      | S fuel =>
          let deps := sorted_set newdeps in
          let seen := seen ++ deps in
          let funcs := filter (is_shell d) deps in
          emit_deps fuel d (filter (fun n => negb (mem_str n seen)) (sorted_set (flat_map (fun n => v_deps (get d n)) funcs))) seen (out ++ funcs)
      end
  end.
Definition emit_func (d : data) (f : str) : option str :=
  match emit_deps (2 + length d) d (v_deps (get d f)) [] [] with
  | Some l => Some (emit_variables d ++ [nl] ++ emit_line d f ++ concat (map (emit_line d) l))
  | None => None
  end.
(** build.py 427: d.delVarFlag('PWD', 'export') *)
Definition without_pwd (d : data) : data :=
  map (fun e => if seqb (fst e) (s_ "PWD") then (fst e, mkVar (v_value (snd e)) (v_fails (snd e)) (v_func (snd e)) (v_python (snd e)) false (v_unexport (snd e)) (v_where (snd e)) (v_deps (snd e))) else e) d.
(** build.py 418-446 without the shell functions of the traps (before) and the end (behind) *)
Definition script (d : data) (f : str) (cwd : option str) : option str :=
  match emit_func (without_pwd d) f with
  | Some t => Some (t ++ (match cwd with Some p => s_ "cd '" ++ p ++ s_ "'" ++ [nl] | None => [] end) ++ f ++ [nl])
  | None => None
  end.
