(** Base hashes of tasks: bitbake/lib/bb/data.py.

    What the code parsers and the expansion engine find in a piece of metadata text
    (references, calls, "contains" questions) is an input here: it is stored next to the text
    in [parse].  The digest function (sha256) is a parameter [H]. *)
From Coq Require Import List Ascii String Arith Bool.
From Verif Require Import Str_Model Imgtypes_Model.
Import ListNotations.

(** codeparser / VariableParse results: .references, .execs, .contains (a dict from variable
    name to the set of questions asked about it). *)
Record parse := mkParse { p_refs : list str; p_execs : list str; p_contains : list (str * list str) }.

(** bitbake/lib/bb/data.py 312-346: the three sorts of values. *)
Inductive body := Plain | Shell | Python.

(** A variable: its unexpanded text, what parsing it finds, its :remove texts that apply (with
    what expanding each finds) and its flags (data_smart.py getVarFlags 952-965: internal ones,
    whose names start with "_" or ":", are not among them). *)
Record entry := mkEntry {
  e_kind : body; e_value : str; e_parse : parse;
  e_removes : list (str * parse); e_flags : list (str * str) }.

(** The inputs of generate_dependencies (data.py 375-388).  [s_getvar k] is d.getVar(k) or "";
    [s_flag v f] is the value of flag f of variable v with its parse; [s_mod] describes the
    helper functions of modulecode_deps. *)
Record store := mkStore {
  s_keys : list str;
  s_entry : str -> entry;
  s_flag : str -> str -> option str * parse;
  s_getvar : str -> str;
  s_mod : str -> option parse;
  s_shelldeps : list str;
  s_flagsexcl : str;
  s_ignored : list str }.

(** sorted(dict) with the values along. *)
Fixpoint insert_by {A} (x : str * A) (l : list (str * A)) : list (str * A) :=
  match l with
  | [] => [x]
  | y :: r => if str_leb (fst x) (fst y) then x :: l else y :: insert_by x r
  end.
Definition sort_by {A} (l : list (str * A)) : list (str * A) := fold_right insert_by [] l.

(** Set difference and [keys & execs]. *)
Definition minus (a b : list str) : list str := filter (fun x => negb (mem_str x b)) a.
Definition meet (a b : list str) : list str := filter (fun x => mem_str x a) b.

(** One answer: the question [item] about variable [k], data.py 273-279. *)
Definition answer (words : list str) (k item : str) : str :=
  nl :: k ++ s_ "{" ++ item ++ s_ "} = " ++
  (if forallb (fun w => mem_str w words) (split_ws item) then s_ "Set" else s_ "Unset").

(** data.py 265-280 *)
Definition handle_contains (s : store) (exclusions : list str) (value : str) (c : list (str * list str)) : str :=
  value ++ List.concat (map (fun kc =>
    if mem_str (fst kc) exclusions || mem_str (fst kc) (s_ignored s) then []
    else List.concat (map (answer (split_ws (s_getvar s (fst kc))) (fst kc)) (sorted_set (snd kc))))
    (sort_by c)).

(** data.py 282-289, the value part. *)
Definition handle_remove (s : store) (exclusions : list str) (removes : list (str * parse)) (value : str) : str :=
  fold_left (fun v r => handle_contains s exclusions (v ++ (nl :: s_ "_remove of ") ++ fst r) (p_contains (snd r)))
    (sort_by removes) value.

(** data.py 286-287: the caller's set receives the references of the first text only, because
    line 287 rebinds the local name to a new set. *)
Definition remove_refs (removes : list (str * parse)) : list str :=
  match sort_by removes with [] => [] | r :: _ => p_refs (snd r) end.

(** varflags.get(name) *)
Fixpoint flag_of (flags : list (str * str)) (name : str) : option str :=
  match flags with
  | [] => None
  | (k, v) :: r => if seqb name k then Some v else flag_of r name
  end.
Definition flag_words (flags : list (str * str)) (name : str) : list str :=
  match flag_of flags name with Some v => split_ws v | None => [] end.

(** data.py 312-346: value and dependencies before the flags are considered. *)
Definition body_deps (s : store) (exclusions : list str) (e : entry) : list str * str :=
  let p := e_parse e in
  match flag_of (e_flags e) (s_ "vardepvalue") with
  | Some v => ([], v)
  | None =>
      let funcs := flag_words (e_flags e) (s_ "prefuncs") ++ flag_words (e_flags e) (s_ "postfuncs") ++
                   flag_words (e_flags e) (s_ "exports") in
      let contained := handle_contains s exclusions (e_value e) (p_contains p) in
      match e_kind e with
      | Python => (p_refs p ++ meet (s_keys s) (p_execs p) ++ funcs, contained)
      | Shell => (s_shelldeps s ++ p_refs p ++ meet (s_keys s) (p_execs p) ++ remove_refs (e_removes e) ++ funcs,
                  handle_remove s exclusions (e_removes e) contained)
      | Plain => (p_refs p ++ meet (s_keys s) (p_execs p) ++ remove_refs (e_removes e),
                  handle_remove s exclusions (e_removes e) contained)
      end
  end.

(** data.py 348-352 *)
Definition value_exclude (flags : list (str * str)) (value : str) : str :=
  match flag_of flags (s_ "vardepvalueexclude") with
  | None => value
  | Some x => fold_left (fun v excl => match excl with [] => v | _ => replace_str excl [] v end)
                (split_on "|"%char x) value
  end.

(** data.py 355-361: [f not in varflagsexcl] is a substring test, the list being one text. *)
Definition flag_deps (s : store) (key : str) (flags : list (str * str)) : list str :=
  match s_flagsexcl s with
  | [] => []
  | _ => map (fun f => key ++ s_ "[" ++ fst f ++ s_ "]")
           (filter (fun f => negb (contains_sub (fst f) (s_flagsexcl s))) flags)
  end.

(** data.py 299-300: key[:-1].split('[')[0:2], when the key ends in "]". *)
Definition flag_key (key : str) : option (str * str) :=
  match rev key with
  | c :: r => if aeqb c "]"%char
              then match split_on "["%char (rev r) with
                   | v :: f :: _ => Some (v, f)
                   | _ => None          (* the code raises IndexError *)
                   end
              else None
  | [] => None
  end.

(** data.py 264-371: the direct dependencies of a key and the text that represents it. *)
Definition build_dependencies (s : store) (key : str) : list str * option str :=
  match s_mod s key with
  | Some m => (minus (p_refs m ++ meet (s_keys s) (p_execs m)) (s_ignored s),
               Some (handle_contains s [] [] (p_contains m)))
  | None =>
      match flag_key key with
      | Some (v, f) =>
          if seqb f (s_ "vardepvalueexclude") then ([], Some [])
          else let '(value, p) := s_flag s v f in
               (minus (p_refs p ++ meet (s_keys s) (p_execs p)) (s_ignored s), value)
      | None =>
          let e := s_entry s key in
          let exclusions := flag_words (e_flags e) (s_ "vardepsexclude") in
          let '(deps, value) := body_deps s exclusions e in
          (minus (minus (deps ++ flag_deps s key (e_flags e) ++ flag_words (e_flags e) (s_ "vardeps"))
                    exclusions) (s_ignored s),
           Some (value_exclude (e_flags e) value))
      end
  end.

(** data.py 393-403 and 420-428: the loop that collects everything reachable.  [None] is
    "still running after [fuel] rounds". *)
Fixpoint closure (deps : str -> list str) (fuel : nat) (new seen : list str) : option (list str) :=
  match new with
  | [] => Some seen
  | _ =>
      match fuel with
      | O => None
      | S f => let seen' := seen ++ new in
               closure deps f (minus (flat_map deps new) seen') seen'
      end
  end.

(** lookupcache[x] with None as nothing (data.py 412-418, 433-435). *)
Definition text_of (value : str -> option str) (x : str) : str :=
  match value x with Some v => v | None => [] end.

(** data.py 412-437: the text that is hashed. *)
Definition base_text (value : str -> option str) (seen : list str) (task : str) : str :=
  text_of value task ++ List.concat (map (fun d : str => d ++ text_of value d) (sorted_set seen)).

(** data.py 375-440 for one task: its dependencies and its base hash. *)
Definition task_deps (s : store) (fuel : nat) (task : str) : option (list str) :=
  closure (fun k => fst (build_dependencies s k)) fuel (fst (build_dependencies s task)) [].
Definition base_hash (H : str -> str) (s : store) (fuel : nat) (task : str) : option str :=
  match task_deps s fuel task with
  | Some seen => Some (H (base_text (fun k => snd (build_dependencies s k)) seen task))
  | None => None
  end.
