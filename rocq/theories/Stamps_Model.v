(** Model of the stamp files of tasks: their names (bitbake/lib/bb/siggen.py), their
    creation and removal (bitbake/lib/bb/build.py, meta/classes-global/sstate.bbclass)
    and the decision whether a task is up to date (bitbake/lib/bb/runqueue.py). *)
From Coq Require Import Ascii String List Bool Arith.
From Verif Require Import Str_Model.
Import ListNotations.
Open Scope list_scope.

Definition scene : str := s_ "_setscene".
Definition star : ascii := "*"%char.
(** s.rstrip('.') *)
Fixpoint drop_dots (s : str) : str := match s with c :: r => if aeqb c "." then drop_dots r else s | [] => [] end.
Definition rstrip_dots (s : str) : str := rev (drop_dots (rev s)).
(** glob.glob for patterns with stars only: a star stands for characters other than "/" *)
Fixpoint gmatch (p s : str) : bool :=
  match p with
  | [] => match s with [] => true | _ => false end
  | c :: p' =>
      if aeqb c star then
        (fix go (s : str) : bool := gmatch p' s || match s with x :: s' => negb (aeqb x "/") && go s' | [] => false end) s
      else match s with x :: s' => aeqb x c && gmatch p' s' | [] => false end
  end.

Section Recipe.
  (** STAMP of the recipe; the hash (get_stampfile_hash) and the flag stamp-extra-info
      ("" if not set) of its tasks *)
  Variable base : str.
  Variable hash extra : str -> str.

  (** siggen.py 149-151 and 510-513: the task without _setscene *)
  Definition flag_task (task : str) : str := if endswith scene task then replace_str scene [] task else task.
  Definition hash_task (task : str) : str := if endswith scene task then firstn (length task - 9) task else task.
  (** siggen.py 141-154 and 509-519 (SignatureGeneratorBasic) *)
  Definition stampfile (task : str) : str := rstrip_dots (base ++ s_ "." ++ task ++ s_ "." ++ hash (hash_task task) ++ s_ "." ++ extra (flag_task task)).
  (** siggen.py 159-170 and 521-522 *)
  Definition cleanmask (task : str) : str := rstrip_dots (base ++ s_ "." ++ task ++ s_ "." ++ [star] ++ s_ "." ++ extra (flag_task task)).
  (** build.py 794-806 _get_cleanmask *)
  Definition masks (task : str) : list str :=
    let t := replace_str scene [] task in [cleanmask task; replace_str t (t ++ scene) (cleanmask task)].
  (** build.py 812-817 and 862-865 *)
  Definition kept (name : str) : bool := contains_sub (s_ "sigdata") name || contains_sub (s_ "sigbasedata") name || endswith (s_ ".taint") name.
  Definition matches (task name : str) : bool := existsb (fun m => gmatch m name) (masks task).
  (** build.py 808-818; the files of the stamp directories *)
  Definition clean_stamp (task : str) (files : list str) : list str := filter (fun f => negb (matches task f && negb (kept f))) files.
  (** build.py 824-838 (the directory is created before) *)
  Definition make_stamp (task : str) (files : list str) : list str :=
    filter (fun f => negb (seqb f (stampfile task))) (clean_stamp task files) ++ [stampfile task].
  (** build.py 855-870 *)
  Definition find_stale_stamps (task : str) (files : list str) : list str :=
    flat_map (fun m => filter (fun f => gmatch m f && negb (kept f) && negb (seqb f (stampfile task) || seqb f (stampfile (task ++ scene)))) files) (masks task).
End Recipe.

(** sstate.bbclass 533-578 sstate_clean, the stamps.  [clean]: STAMPCLEAN; [task]:
    without "do_"; [extra]: the flag stamp-extra-info *)
Definition clean_wild (clean task extra : str) : str :=
  match extra with
  | [] => clean ++ s_ ".do_" ++ task ++ [star]
  | _ => clean ++ s_ ".do_" ++ task ++ [star] ++ s_ "." ++ extra
  end.
Definition removed_by_clean (clean task extra f : str) : bool :=
  gmatch (clean_wild clean task extra) f &&
  negb (contains_sub (s_ ".sigdata.") f || contains_sub (s_ ".sigbasedata.") f) && negb (endswith (s_ ".taint") f) &&
  (contains_sub (s_ ".do_" ++ task ++ s_ ".") f || contains_sub (s_ ".do_" ++ task ++ s_ "_setscene.") f || endswith (s_ ".do_" ++ task) f).
Definition sstate_clean_stamps (clean task extra : str) (files : list str) : list str := filter (fun f => negb (removed_by_clean clean task extra f)) files.

(** What check_stamp_task looks at.  Times of files: os.stat; None: no such file *)
Record tasks := mkTasks {
  t_recipe : nat -> str;           (* the file of the recipe, without the configuration *)
  t_name : nat -> str;
  t_stamp : nat -> option nat;     (* the stamp of the task *)
  t_scene : nat -> option nat;     (* the stamp of its _setscene variant *)
  t_nostamp : nat -> bool;
  t_deps : nat -> list nat }.
Definition cache := list (nat * bool).
Fixpoint look (t : nat) (c : cache) : option bool :=
  match c with
  | [] => None
  | (x, b) :: r => if Nat.eqb t x then Some b else look t r
  end.
(** a Python truth value: a time that is there and not 0 *)
Definition truthy (t : option nat) : bool := match t with Some (S _) => true | _ => false end.
(** runqueue.py 1480-1485: the dependency was taken from the shared state *)
Definition restored (w : tasks) (d : nat) : bool :=
  truthy (t_scene w d) && (negb (truthy (t_stamp w d)) || match t_scene w d, t_stamp w d with Some t3, Some t2 => Nat.ltb t2 t3 | _, _ => false end).
(** runqueue.py 1443-1506, taskname given by the task itself.  None: the recursion does not end *)
Fixpoint check (w : tasks) (recurse : bool) (fuel : nat) (t : nat) (c : cache) : option (bool * cache) :=
  match fuel with
  | O => None
  | S fuel' =>
      match t_stamp w t with
      | None => Some (false, c)
      | Some t1 =>
          if t_nostamp w t then Some (false, c)
          else if endswith scene (t_name w t) then Some (true, c)
          else
            let fix go (ds : list nat) (c : cache) : option (bool * cache) :=
              match ds with
              | [] => Some (true, c)
              | d :: r =>
                  if restored w d then go r c
                  else if seqb (t_recipe w t) (t_recipe w d) then
                    match t_stamp w d with
                    | Some (S t2) =>
                        if Nat.ltb t1 (S t2) then Some (false, c)
                        else if recurse then
                          match look d c with
                          | Some true => go r c
                          | Some false => Some (false, c)
                          | None =>
                              match check w true fuel' d c with
                              | None => None
                              | Some (b, c) => if b then go r ((d, b) :: c) else Some (false, (d, b) :: c)
                              end
                          end
                        else go r c
                    | _ => Some (false, c)
                    end
                  else go r c
              end in
            match go (t_deps w t) c with
            | None => None
            | Some (b, c) => Some (b, if recurse then (t, b) :: c else c)
            end
      end
  end.
