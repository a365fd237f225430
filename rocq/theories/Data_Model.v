(** bitbake/lib/bb/data_smart.py: the datastore.  Definitions only.
    One datastore with its own dictionary and those it was copied from; sharing
    between copies is modelled in Dataheap_Model.  Not modelled: inline Python
    (${@...} stays as it is), variable history, renamed variables and the check
    for the old override syntax (547-559), the expansion cache. *)
From Coq Require Import Ascii String List Bool Arith.
From Verif Require Import Str_Model.
Import ListNotations.
Open Scope list_scope.

(** self.dict[var]: the flags _content and _defaultval, the operation lists
    (text and condition), and all other flags. *)
Record entry := {
  e_content : option str;
  e_default : option str;
  e_append : list (str * option str);
  e_prepend : list (str * option str);
  e_remove : list (str * option str);
  e_flags : list (str * str)
}.
Definition no_entry : entry :=
  {| e_content := None; e_default := None; e_append := []; e_prepend := []; e_remove := []; e_flags := [] |}.

(** Dictionaries in insertion order. *)
Fixpoint get {A} (m : list (str * A)) (k : str) : option A :=
  match m with
  | [] => None
  | (k', v) :: m' => if seqb k k' then Some v else get m' k
  end.
Fixpoint set {A} (m : list (str * A)) (k : str) (v : A) : list (str * A) :=
  match m with
  | [] => [(k, v)]
  | (k', v') :: m' => if seqb k k' then (k', v) :: m' else (k', v') :: set m' k v
  end.
Definition del {A} (m : list (str * A)) (k : str) : list (str * A) :=
  filter (fun e => negb (seqb (fst e) k)) m.

(** A datastore: dict, the dictionaries behind "_data", and overridedata
    (428-445, 987-1007). *)
Record store := {
  s_own : list (str * entry);
  s_behind : list (list (str * entry));
  s_over : list (str * list (str * str))
}.
Definition empty : store := {| s_own := []; s_behind := []; s_over := [] |}.

(** data_smart.py 519-528 _findVar *)
Fixpoint find_in (ds : list (list (str * entry))) (var : str) : option entry :=
  match ds with
  | [] => None
  | d :: ds' => match get d var with Some e => Some e | None => find_in ds' var end
  end.
Definition find_var (st : store) (var : str) : option entry := find_in (s_own st :: s_behind st) var.

(** 530-539 _makeShadowCopy followed by the assignment of a changed entry *)
Definition change (st : store) (var : str) (f : entry -> entry) : store :=
  let e := match find_var st var with Some e => e | None => no_entry end in
  {| s_own := set (s_own st) var (f e); s_behind := s_behind st; s_over := s_over st |}.

(** ** Names *)
Definition colon : ascii := ":"%char.
(** 37: the first character decides whether [a-z0-9]+ matches a prefix *)
Definition usable (o : str) : bool :=
  match o with c :: _ => is_lower c || is_digit c | [] => false end.

(** 644-660 _setvar_update_overrides and 726-742: the (shorter name, override)
    pairs of a name, from the last colon to the first; [acc] is the name so far *)
Fixpoint cuts (pre : str) (parts : list str) : list (str * str) :=
  match parts with
  | [] => []
  | p :: ps => cuts (pre ++ colon :: p) ps ++ [(pre, join [colon] parts)]
  end.
Fixpoint take_usable (l : list (str * str)) : list (str * str) :=
  match l with
  | [] => []
  | (short, o) :: l' => if usable o then (short, o) :: (if match l' with ([], _) :: _ => true | _ => false end then [] else take_usable l') else []
  end.
Definition override_cuts (var : str) : list (str * str) :=
  match split_on colon var with
  | [] => []
  | p :: ps => take_usable (cuts p ps)
  end.

(** 589-590: for an operation the name without the operation is cut, also if
    it has no colon: then rfind is -1, the override is the whole name and the
    shorter name lacks its last character *)
Definition operation_cuts (base : str) : list (str * str) :=
  if existsb (aeqb colon) base then override_cuts base
  else if usable base then [(removelast base, base)] else [].

Definition pair_eqb (a b : str * str) : bool := seqb (fst a) (fst b) && seqb (snd a) (snd b).
(** 649-654 *)
Definition register_cuts (cs : list (str * str)) (od : list (str * list (str * str))) (var : str) : list (str * list (str * str)) :=
  fold_left (fun od c => let l := match get od (fst c) with Some l => l | None => [] end in
                         if existsb (pair_eqb (var, snd c)) l then set od (fst c) l else set od (fst c) (l ++ [(var, snd c)]))
            cs od.
Definition register (od : list (str * list (str * str))) (var : str) : list (str * list (str * str)) :=
  register_cuts (override_cuts var) od var.
(** list.remove: the first occurrence *)
Fixpoint remove_first (p : str * str) (l : list (str * str)) : list (str * str) :=
  match l with
  | [] => []
  | x :: l' => if pair_eqb p x then l' else x :: remove_first p l'
  end.
(** 726-742 *)
Definition unregister (od : list (str * list (str * str))) (var : str) : list (str * list (str * str)) :=
  fold_left (fun od c => match get od (fst c) with
                         | Some l => set od (fst c) (remove_first (var, snd c) l)
                         | None => od end)
            (override_cuts var) od.

(** 33: the operation in a name: base, operation and condition; the shortest base *)
Inductive keyword := KAppend | KPrepend | KRemove.
Definition kw_text (k : keyword) : str :=
  match k with KAppend => s_ ":append" | KPrepend => s_ ":prepend" | KRemove => s_ ":remove" end.
Definition kw_here (k : keyword) (s : str) : option (option str) :=
  if startswith (kw_text k) s then
    match skipn (length (kw_text k)) s with
    | [] => Some None
    | c :: add => if aeqb c colon && forallb (fun x => negb (is_upper x)) add then Some (Some add) else None
    end
  else None.
Fixpoint find_kw (pre : str) (s : str) : option (str * keyword * option str) :=
  match kw_here KAppend s, kw_here KPrepend s, kw_here KRemove s with
  | Some add, _, _ => Some (rev pre, KAppend, add)
  | None, Some add, _ => Some (rev pre, KPrepend, add)
  | None, None, Some add => Some (rev pre, KRemove, add)
  | None, None, None => match s with [] => None | c :: s' => find_kw (c :: pre) s' end
  end.

(** ** Overrides *)
(** 801-805, 610-614, 836-841: all parts are in OVERRIDES *)
Definition holds (ov : list str) (o : str) : bool := forallb (fun p => mem_str p ov) (split_on colon o).
Definition cond_holds (ov : list str) (c : option str) : bool :=
  match c with
  | None => true
  | Some o => match o with [] => true | _ => holds ov o end
  end.

(** 811-819: one override [o] against the active names *)
Fixpoint try_all (o : str) (snapshot : list str) (active : list (str * str)) (m : option str) (mod_ : bool)
  : list (str * str) * option str * bool :=
  match snapshot with
  | [] => (active, m, mod_)
  | a :: rest =>
      if endswith (colon :: o) a then
        match get active a with
        | Some t => try_all o rest (set (del active a) (replace_str (colon :: o) [] a) t) m true
        | None => try_all o rest active m mod_
        end
      else if seqb a o then
        match get active a with
        | Some t => try_all o rest (del active a) (Some t) mod_
        | None => try_all o rest active m mod_
        end
      else try_all o rest active m mod_
  end.
(** 810 *)
Fixpoint try_overrides (ov : list str) (active : list (str * str)) (m : option str) (mod_ : bool)
  : list (str * str) * option str * bool :=
  match ov with
  | [] => (active, m, mod_)
  | o :: ov' => let '(active', m', mod') := try_all o (map fst active) active m mod_ in try_overrides ov' active' m' mod'
  end.
(** 807-819: while mod; every changing round shortens a name *)
Fixpoint select_loop (fuel : nat) (ov : list str) (active : list (str * str)) (m : option str) : option str :=
  match fuel with
  | O => m
  | S n => let '(active', m', mod_) := try_overrides ov active m false in
           if mod_ then select_loop n ov active' m' else m'
  end.
Definition active_of (ov : list str) (l : list (str * str)) : list (str * str) :=
  fold_left (fun act e => if holds ov (snd e) then set act (snd e) (fst e) else act) l [].
Definition select (ov : list str) (l : list (str * str)) : option str :=
  let act := active_of ov l in
  select_loop (S (length (concat (map fst act)))) ov act None.

(** ** Changing variables *)
(** 717-742 delVar *)
Definition del_var (st : store) (var : str) : store :=
  {| s_own := set (s_own st) var no_entry; s_behind := s_behind st; s_over := unregister (del (s_over st) var) var |}.

Definition with_op (k : keyword) (x : str * option str) (e : entry) : entry :=
  match k with
  | KAppend => {| e_content := e_content e; e_default := e_default e; e_append := e_append e ++ [x]; e_prepend := e_prepend e; e_remove := e_remove e; e_flags := e_flags e |}
  | KPrepend => {| e_content := e_content e; e_default := e_default e; e_append := e_append e; e_prepend := e_prepend e ++ [x]; e_remove := e_remove e; e_flags := e_flags e |}
  | KRemove => {| e_content := e_content e; e_default := e_default e; e_append := e_append e; e_prepend := e_prepend e; e_remove := e_remove e ++ [x]; e_flags := e_flags e |}
  end.
Definition with_content (v : str) (e : entry) : entry :=
  {| e_content := Some v; e_default := e_default e; e_append := e_append e; e_prepend := e_prepend e; e_remove := e_remove e; e_flags := e_flags e |}.
Definition without_ops (e : entry) : entry :=
  {| e_content := e_content e; e_default := e_default e; e_append := []; e_prepend := []; e_remove := []; e_flags := e_flags e |}.
Definition with_default (v : str) (e : entry) : entry :=
  {| e_content := e_content e; e_default := Some v; e_append := e_append e; e_prepend := e_prepend e; e_remove := e_remove e; e_flags := e_flags e |}.
Definition over (st : store) (od : list (str * list (str * str))) : store :=
  {| s_own := s_own st; s_behind := s_behind st; s_over := od |}.

(** 544-628 setVar; [ov] are the overrides before the change (608) *)
Definition set_var (parsing : bool) (ov : list str) (st : store) (var value : str) : store :=
  match find_kw [] var with
  | Some (base, k, add) =>
      let st1 := change st base (with_op k (value, add)) in
      over st1 (register_cuts (operation_cuts base) (s_over st1) base)
  | None =>
      let st1 := if parsing then st
                 else
                   let st0 := change st var without_ops in
                   match get (s_over st0) var with
                   | None => st0
                   | Some l =>
                       let st0' := fold_left (fun s e => if holds ov (snd e) then del_var s (fst e) else s) l st0 in
                       over st0' (del (s_over st0') var)
                   end in
      let st2 := over st1 (register (s_over st1) var) in
      change st2 var (with_content value)
  end.
(** 744-766 setVarFlag with flag "_defaultval" (the ??= operator) *)
Definition set_default (st : store) (var value : str) : store :=
  let st1 := change st var (with_default value) in over st1 (register (s_over st1) var).
(** 707-715 *)
Definition append_var (ov : list str) (st : store) (var value : str) : store := set_var true ov st (var ++ s_ ":append") value.
Definition prepend_var (ov : list str) (st : store) (var value : str) : store := set_var true ov st (var ++ s_ ":prepend") value.

(** ** Reading variables *)
(** Results: a value, an exception (self reference or recursion limit, both
    reported as ExpansionError, 479-481), or a while loop that has not ended
    after the given number of rounds. *)
Inductive res (A : Type) := Ok (a : A) | Err | Loops.
Arguments Ok {A} _. Arguments Err {A}. Arguments Loops {A}.
Definition bind {A B} (x : res A) (f : A -> res B) : res B :=
  match x with Ok a => f a | Err => Err | Loops => Loops end.

(** 34: [a-zA-Z0-9\-_+./~:] *)
Definition name_char (c : ascii) : bool :=
  is_alpha c || is_digit c || existsb (aeqb c) (s_ "-_+./~:").
Fixpoint span (p : ascii -> bool) (s : str) : str * str :=
  match s with
  | c :: s' => if p c then let '(a, b) := span p s' in (c :: a, b) else ([], s)
  | [] => ([], [])
  end.
(** \${name} at the start of the text *)
Definition ref_at (s : str) : option str :=
  match s with
  | d :: b :: s' =>
      if aeqb d "$"%char && aeqb b "{"%char then
        match span name_char s' with
        | (c :: k, e :: _) => if aeqb e "}"%char then Some (c :: k) else None
        | _ => None
        end
      else None
  | _ => None
  end.
(** The matches of the expression from left to right, and the characters
    between them; [skip] characters belong to the last match *)
Inductive seg := Lit (c : ascii) | Ref (k : str).
Fixpoint segs (skip : nat) (s : str) : list seg :=
  match s with
  | [] => []
  | c :: s' =>
      match skip with
      | S n => segs n s'
      | O => match ref_at s with
             | Some k => Ref k :: segs (length k + 2) s'
             | None => Lit c :: segs 0 s'
             end
      end
  end.
Definition ref_text (k : str) : str := s_ "${" ++ k ++ s_ "}".
(** re.sub with var_sub (108-118) *)
Fixpoint subst (getv : str -> res (option str)) (name : option str) (l : list seg) : res str :=
  match l with
  | [] => Ok []
  | Lit c :: l' => bind (subst getv name l') (fun r => Ok (c :: r))
  | Ref k :: l' =>
      if match name with Some n => seqb n k | None => false end then Err
      else bind (getv k) (fun v =>
           bind (subst getv name l') (fun r => Ok (match v with Some t => t | None => ref_text k end ++ r)))
  end.
(** 460-481 *)
Fixpoint expand (rounds : nat) (getv : str -> res (option str)) (name : option str) (s : str) : res str :=
  if contains_sub (s_ "${") s then
    match rounds with
    | O => Loops
    | S n => bind (subst getv name (segs 0 s)) (fun s' => if seqb s' s then Ok s else expand n getv name s')
    end
  else Ok s.

(** __whitespace_split__.split *)
Fixpoint ws_split (cur : str) (s : str) : list str :=
  match s with
  | [] => [rev cur]
  | c :: s' => if is_space c then rev cur :: [c] :: ws_split [] s' else ws_split (c :: cur) s'
  end.
(** 880-883: the expanded words of every removal *)
Fixpoint expand_removes (ex : str -> res str) (l : list str) : res (list (str * list str)) :=
  match l with
  | [] => Ok []
  | r :: l' => bind (ex r) (fun x => bind (expand_removes ex l') (fun rs => Ok ((r, split_ws x) :: rs)))
  end.
(** 884-895: the text without the removed words, and the removals that matched *)
Definition apply_removes (rs : list (str * list str)) (v : str) : str * list str :=
  let toks := ws_split [] v in
  (concat (filter (fun t => negb (existsb (fun r => mem_str t (snd r)) rs)) toks),
   map fst (filter (fun r => existsb (fun t => mem_str t (snd r)) toks) rs)).

Definition conds (ov : list str) (l : list (str * option str)) : list str :=
  map fst (filter (fun e => cond_holds ov (snd e)) l).
(** 834-859: appends and prepends *)
Definition add_ops (ov : list str) (lv : option entry) (value : option str) : option str :=
  match lv with
  | None => value
  | Some e =>
      let f v r := match v with None => Some r | Some x => Some (x ++ r) end in
      let g v r := match v with None => Some r | Some x => Some (r ++ x) end in
      fold_left g (conds ov (e_prepend e)) (fold_left f (conds ov (e_append e)) value)
  end.
(** 827-831 *)
Definition own_value (lv : option entry) : option str :=
  match lv with
  | None => None
  | Some e => match e_content e with Some v => Some v | None => e_default e end
  end.

(** 790-859: the value before expansion, and the removals carried over from the
    selected override; [rec]: getVarFlag with retparser for another variable *)
Definition before_expansion (rec : str -> res (option str * option (str * list str))) (st : store) (ov : list str) (var : str)
  : res (option str * list str) :=
  let lv := find_var st var in
  bind (match get (s_over st) var with
        | None => Ok (None, [])
        | Some l =>
            match select ov l with
            | None => Ok (None, [])
            | Some m => bind (rec m) (fun r => Ok (fst r, match snd r with Some (_, rm) => rm | None => [] end))
            end
        end)
       (fun mr => Ok (add_ops ov lv (match fst mr with None => own_value lv | Some v => Some v end), snd mr)).

(** 861-905: expansion and removals *)
Definition finish (ex : option str -> str -> res str) (expanding : bool) (ov : list str) (lv : option entry) (var : str)
  (vr : option str * list str) : res (option str * option (str * list str)) :=
  match fst vr with
  | None => Ok (None, None)
  | Some v =>
      bind (ex (Some var) v) (fun x =>
      let truthy := match (if expanding then x else v) with [] => false | _ => true end in
      let removes := snd vr ++ (match lv with Some e => conds ov (e_remove e) | None => [] end) in
      if truthy then bind (expand_removes (ex None) removes) (fun rs => Ok (Some v, Some (apply_removes rs x)))
      else Ok (Some v, Some (x, [])))
  end.

(** 775-905 getVarFlag(var, "_content", expanding, retparser=True): the
    unexpanded value, and for a defined variable the expanded value with the
    removals that matched.  [depth]: recursion limit. *)
Fixpoint get_val (depth rounds : nat) (st : store) (ov : list str) (expanding : bool) (var : str)
  : res (option str * option (str * list str)) :=
  match depth with
  | O => Err
  | S n =>
      let getv := fun k => bind (get_val n rounds st ov true k) (fun r => Ok (option_map fst (snd r))) in
      bind (before_expansion (get_val n rounds st ov false) st ov var)
           (finish (expand rounds getv) expanding ov (find_var st var) var)
  end.

(** d.getVar(var) and d.getVar(var, False) *)
Definition get_var (depth rounds : nat) (st : store) (ov : list str) (var : str) : res (option str) :=
  bind (get_val depth rounds st ov true var) (fun r => Ok (option_map fst (snd r))).
Definition get_raw (depth rounds : nat) (st : store) (ov : list str) (var : str) : res (option str) :=
  bind (before_expansion (get_val depth rounds st ov false) st ov var) (fun r => Ok (fst r)).

(** 490-512 need_overrides: OVERRIDES is expanded with no overrides, then with
    the result, until it is stable (the value cached by 506 is what the next
    round reads in 501); None: not stable after five rounds (bb.fatal) *)
Definition eval_overrides (depth rounds : nat) (st : store) (ov : list str) : res (list str) :=
  bind (get_var depth rounds st ov (s_ "OVERRIDES")) (fun v => Ok (split_on colon (match v with Some t => t | None => [] end))).
Fixpoint stabilise (count depth rounds : nat) (st : store) (ov : list str) : res (option (list str)) :=
  match count with
  | O => Ok None
  | S n => bind (eval_overrides depth rounds st ov) (fun ov' => if list_eq_dec (list_eq_dec ascii_dec) ov' ov then Ok (Some ov) else stabilise n depth rounds st ov')
  end.
Definition need_overrides (depth rounds : nat) (st : store) : res (option (list str)) :=
  bind (eval_overrides depth rounds st []) (stabilise 5 depth rounds st).
