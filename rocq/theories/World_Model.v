(** What world and universe stand for: bitbake/lib/bb/providers.py 416-442 buildWorldTargetList, bitbake/lib/bb/cooker.py 1684-1693
    (in checkPackages), and the tables they use, bitbake/lib/bb/cache.py 172-227 add_cacheData.  Definitions only. *)
From Coq Require Import Ascii String List Bool.
From Verif Require Import Str_Model.
Import ListNotations.
Open Scope list_scope.

(** A recipe; [r_in_world]: not to_boolean(EXCLUDE_FROM_WORLD) *)
Record recipe := Recipe { r_file : str; r_pn : str; r_provides : list str; r_tasks : list str; r_in_world : bool }.
(** The tables; entries that are missing in the dictionaries are empty lists (defaultdict) *)
Record tables := Tables {
  task_deps : str -> list str;
  pkg_fn : str -> str;
  providers : str -> list str;
  pn_provides : str -> list str;
  possible_world : list str;
  universe_target : list str;
  world_target : list str
}.
Definition empty : tables := Tables (fun _ => []) (fun _ => []) (fun _ => []) (fun _ => []) [] [] [].
Definition set_ {A} (f : str -> A) (k : str) (v : A) : str -> A := fun x => if seqb x k then v else f x.
Definition add_new (l : list str) (x : str) : list str := if mem_str x l then l else l ++ [x].
(** cache.py 183-192 *)
Definition all_provides (r : recipe) : list str := fold_left add_new (r_provides r) [r_pn r].
Definition add_provide (r : recipe) (t : (str -> list str) * (str -> list str)) (p : str) : (str -> list str) * (str -> list str) :=
  (set_ (fst t) p (fst t p ++ [r_file r]), set_ (snd t) (r_pn r) (add_new (snd t (r_pn r)) p)).
(** 172-227 *)
Definition add_recipe (t : tables) (r : recipe) : tables :=
  let pp := fold_left (add_provide r) (all_provides r) (providers t, pn_provides t) in
  Tables (set_ (task_deps t) (r_file r) (r_tasks r)) (set_ (pkg_fn t) (r_file r) (r_pn r)) (fst pp) (snd pp)
    (if r_in_world r then possible_world t ++ [r_file r] else possible_world t) (universe_target t ++ [r_pn r]) (world_target t).
Definition parsed (rs : list recipe) : tables := fold_left add_recipe rs empty.

(** providers.py 431-440: the loop over the names that pn provides, with its break; both only make [terminal] false *)
Fixpoint only_provider (t : tables) (pn : str) (ps : list str) : bool :=
  match ps with
  | [] => true
  | p :: ps => if startswith (s_ "virtual/") p then false
               else forallb (fun pf => seqb (pkg_fn t pf) pn) (providers t p) && only_provider t pn ps
  end.
Definition terminal (t : tables) (task : option str) (f : str) : bool :=
  match task with Some k => match k with [] => true | _ => mem_str k (task_deps t f) end | None => true end && only_provider t (pkg_fn t f) (pn_provides t (pkg_fn t f)).
(** 416-442 *)
Definition build_world (t : tables) (task : option str) : tables :=
  match world_target t with
  | _ :: _ => t
  | [] => Tables (task_deps t) (pkg_fn t) (providers t) (pn_provides t) (possible_world t) (universe_target t)
            (fold_left add_new (map (pkg_fn t) (filter (terminal t task) (possible_world t))) [])
  end.
(** cooker.py 1684-1693 *)
Definition universe (t : tables) (task : str) : list str :=
  filter (fun x => match task with [] => true | _ => existsb (fun f => mem_str task (task_deps t f)) (providers t x) end) (universe_target t).
