(** Tasks of a recipe: addtask and deltask lines (bitbake/lib/bb/parse/parse_py/BBHandler.py
    and bitbake/lib/bb/parse/ast.py) and their effect (bitbake/lib/bb/build.py).  Definitions only. *)
From Coq Require Import String Ascii List Bool Arith.
From Verif Require Import Str_Model.
Import ListNotations.
Open Scope list_scope.

(** ** The line, BBHandler.py 25 *)
(** \w *)
Definition word_char (c : ascii) : bool := is_alpha c || is_digit c || aeqb c "_"%char.
Fixpoint take_word (s : str) : str * str :=
  match s with
  | c :: r => if word_char c then let (a, b) := take_word r in (c :: a, b) else ([], s)
  | [] => ([], [])
  end.
(** .*(?=p): everything before the last place where p is found, and the rest *)
Fixpoint rsplit_at (p s : str) : option (str * str) :=
  match s with
  | [] => None
  | c :: r =>
      match rsplit_at p r with
      | Some (a, b) => Some (c :: a, b)
      | None => if startswith p s then Some ([], s) else None
      end
  end.
(** (.*(?=p))|(.* ) *)
Definition upto (p s : str) : str * str := match rsplit_at p s with Some x => x | None => (s, []) end.
(** ((before\s*(?P<before>...))|(after\s*(?P<after>...)))*: the last value of a group counts.  No
    backtracking is needed: nothing follows.  [fuel]: the number of rounds is at most the length. *)
Fixpoint clauses (fuel : nat) (s : str) (before after : option str) : option str * option str :=
  match fuel with
  | O => (before, after)
  | S n =>
      if startswith (s_ "before") s then let (v, r) := upto (s_ "after") (lstrip (skipn 6 s)) in clauses n r (Some v) after
      else if startswith (s_ "after") s then let (v, r) := upto (s_ "before") (lstrip (skipn 5 s)) in clauses n r before (Some v)
      else (before, after)
  end.
(** addtask\s+(?P<func>\w+)\s*(...)* *)
Definition match_addtask (s : str) : option (str * option str * option str) :=
  if startswith (s_ "addtask") s then
    let r := skipn 7 s in
    match lstrip r with
    | r' => if Nat.eqb (length r') (length r) then None
            else match take_word r' with
                 | ([], _) => None
                 | (f, rest) => let '(b, a) := clauses (length rest) (lstrip rest) None None in Some (f, b, a)
                 end
    end
  else None.
(** BBHandler.py 236-239 (feeder): a word with an operation in it is an error *)
Definition refused (s : str) : bool :=
  existsb (fun te => contains_sub (s_ ":append_") te || contains_sub (s_ ":prepend_") te || contains_sub (s_ ":remove_") te) (split_ws s).

(** ** build.py: the list of tasks (__BBTASKS) and the flag deps of each task (empty if not set).
    Other values a recipe may assign to this flag are not modelled. *)
Record recipe := mkRecipe { r_tasks : list str; r_deps : str -> list str }.
Definition no_tasks : recipe := mkRecipe [] (fun _ => []).
Definition upd (f : str -> list str) (k : str) (v : list str) : str -> list str := fun x => if seqb x k then v else f x.
(** task[:3] != "do_", build.py 932-933 and 957-958 *)
Definition full_name (t : str) : str := if startswith (s_ "do_") t then t else s_ "do_" ++ t.
Definition words_of (o : option str) : list str := match o with Some x => split_ws x | None => [] end.
Definition add_new (l : list str) (x : str) : list str := if mem_str x l then l else l ++ [x].
(** addtask, build.py 931-954 *)
Definition addtask (task : str) (before after : option str) (r : recipe) : recipe :=
  let t := full_name task in
  let deps := upd (r_deps r) t (fold_left add_new (words_of after) (r_deps r t)) in
  mkRecipe (add_new (r_tasks r) t)
    (fold_left (fun dp e => if mem_str t (dp e) then dp else upd dp e (t :: dp e)) (words_of before) deps).
(** list.remove: the first occurrence *)
Fixpoint remove_first (x : str) (l : list str) : list str :=
  match l with
  | [] => []
  | y :: r => if seqb x y then r else y :: remove_first x r
  end.
(** deltask, build.py 956-972 *)
Definition deltask (task : str) (r : recipe) : recipe :=
  let t := full_name task in
  let tasks := remove_first t (r_tasks r) in
  let deps := upd (r_deps r) t [] in
  mkRecipe tasks (fold_left (fun dp k => if mem_str t (dp k) then upd dp k (remove_first t (dp k)) else dp) tasks deps).
(** The statements of a recipe and its classes in the order of their evaluation, ast.py 242-260 and 351-365
    (expansion of the names given to deltask is not modelled) *)
Inductive command := Add (task : str) (before after : option str) | Del (tasks : str).
Definition step (r : recipe) (c : command) : recipe :=
  match c with
  | Add t b a => addtask t b a r
  | Del ts => fold_left (fun r t => deltask t r) (split_ws ts) r
  end.
Definition run (h : list command) : recipe := fold_left step h no_tasks.
(** add_tasks, build.py 880-929: the part kept for the run queue, task and its parents (the expansion of
    names is not modelled) *)
Definition parents (r : recipe) : list (str * list str) := map (fun t => (t, r_deps r t)) (r_tasks r).

(** ** tasksbetween, build.py 996-1023.  [Fatal]: "Circular task dependencies" *)
Inductive result := Fatal | Fuel | Done (out : list str).
Section Between.
  Variable tasks : list str.
  Variable deps : str -> list str.
  Variable endtask : str.
  Fixpoint follow (fuel : nat) (task : str) (chain out : list str) : result :=
    match fuel with
    | O => Fuel
    | S n =>
        if mem_str task chain then Fatal
        else
          let chain := chain ++ [task] in
          fold_left (fun acc other =>
            match acc with
            | Done out =>
                if seqb other task then acc
                else if seqb task endtask then Done (fold_left add_new chain out)
                else if mem_str task (deps other) then follow n other chain out else acc
            | _ => acc
            end) tasks (Done out)
    end.
End Between.
Definition tasksbetween (start endtask : str) (r : recipe) : result :=
  follow (r_tasks r) (r_deps r) endtask (S (S (length (r_tasks r)))) start [] [].
