(** Task hashes: bitbake/lib/bb/siggen.py, the hashing loop of runqueue.py, task identifiers.

    The digest (sha256) is a parameter [H].  The handler is Isar's default OEBasicHash, whose
    get_unihash returns the task hash (siggen.py 114-121) unless a locked hash is set
    (meta/lib/oe/sstatesig.py 209-212). *)
From Coq Require Import List Ascii String Arith Bool.
From Verif Require Import Str_Model Imgtypes_Model.
Import ListNotations.

(** ** Identifiers *)
Definition colon : ascii := ":"%char.
Definition count_colons (s : str) : nat := List.length (filter (aeqb colon) s).
Definition is_mc (s : str) : bool := startswith (s_ "mc:") s && (2 <=? count_colons s).

(** s.rsplit(":", 1); [None] when there is no colon (the code then fails on index 1). *)
Definition rsplit1 (s : str) : option (str * str) :=
  match cut_at colon (rev s) with
  | (b, Some a) => Some (rev a, rev b)
  | (_, None) => None
  end.

(** runqueue.py 46-52 mc_from_tid is the first component of 54-58 split_mc. *)
Definition split_mc (n : str) : str * str :=
  if is_mc n then match split_on colon n with
                  | _ :: mc :: rest => (mc, join [colon] rest)
                  | _ => ([], n)
                  end
  else ([], n).

(** runqueue.py 60-74: (mc, fn, taskname, mcfn); [None] is IndexError. *)
Definition split_tid_mcfn (tid : str) : option (str * str * str * str) :=
  if is_mc tid then
    match split_on colon tid with
    | _ :: mc :: rest =>
        let fn := join [colon] (removelast rest) in
        Some (mc, fn, last rest [], s_ "mc:" ++ mc ++ s_ ":" ++ fn)
    | _ => None
    end
  else match rsplit1 tid with
       | Some (fn, task) => Some ([], fn, task, fn)
       | None => None
       end.

(** runqueue.py 76-79 build_tid, siggen.py 213-216 build_pnid *)
Definition build_tid (mc fn task : str) : str :=
  match mc with
  | [] => fn ++ s_ ":" ++ task
  | _ => s_ "mc:" ++ mc ++ s_ ":" ++ fn ++ s_ ":" ++ task
  end.

(** ** The text of a task hash *)
(** sorted() on pairs of texts, and sorted(key=...) : a stable insertion sort. *)
Definition pair_leb (a b : str * str) : bool :=
  if seqb (fst a) (fst b) then str_leb (snd a) (snd b) else str_leb (fst a) (fst b).
Section Sorting.
  Variable A : Type.
  Variable le : A -> A -> bool.
  Fixpoint insert_le (x : A) (l : list A) : list A :=
    match l with
    | [] => [x]
    | y :: r => if le x y then x :: l else y :: insert_le x r
    end.
  Definition sort_le (l : list A) : list A := fold_right insert_le [] l.
End Sorting.
Arguments insert_le {A}. Arguments sort_le {A}.

(** f.split("/./")[1] when "/./" in f: what follows the first mark, up to the next one. *)
Definition mark : str := s_ "/./".
Fixpoint upto_mark (f : str) : str :=
  match f with
  | [] => []
  | c :: r => if startswith mark f then [] else c :: upto_mark r
  end.
Fixpoint after_mark (f : str) : option str :=
  match f with
  | [] => None
  | _ :: r => if startswith mark f then Some (upto_mark (skipn 3 f)) else after_mark r
  end.

(** siggen.py 900-904 clean_checksum_file_path *)
Definition clean_path (fc : str * str) : str :=
  match after_mark (fst fc) with Some r => s_ "./" ++ r | None => fst fc end.

(** bitbake/lib/bb/checksum.py 158: checksums.sort(key=operator.itemgetter(1)) *)
Definition by_checksum (l : list (str * str)) : list (str * str) := sort_le (fun a b => str_leb (snd a) (snd b)) l.
(** siggen.py 392: sorted(..., key=clean_checksum_file_path) *)
Definition by_path (l : list (str * str)) : list (str * str) := sort_le (fun a b => str_leb (clean_path a) (clean_path b)) l.

(** siggen.py 393-396; no checksum is the empty text. *)
Definition file_text (fc : str * str) : str :=
  match snd fc with
  | [] => []
  | cs => (match after_mark (fst fc) with Some r => s_ "./" ++ r | None => [] end) ++ cs
  end.

(** siggen.py 398-402 *)
Definition nostamp : str := s_ "nostamp:".
Definition taint_text (taint : option str) : str :=
  match taint with
  | None => []
  | Some t => if startswith nostamp t then skipn 8 t else t
  end.

(** What prep_taskhash (336-384) collects for a task: the base hash, the kept dependencies as
    (pnid, tid), the files with checksums in the order get_checksums found them, the taint. *)
Record task := mkTask {
  t_base : str; t_deps : list (str * str); t_files : list (str * str); t_taint : option str }.

(** siggen.py 388-402 *)
Definition task_text (t : task) (unihash : str -> str) : str :=
  t_base t ++ List.concat (map (fun d => unihash (snd d)) (sort_le pair_leb (t_deps t))) ++
  List.concat (map file_text (by_path (by_checksum (t_files t)))) ++ taint_text (t_taint t).

(** ** Hashing all tasks *)
(** self.taskhash, the latest entry first. *)
Definition hashes := list (str * str).
Fixpoint lookup (m : hashes) (k : str) : option str :=
  match m with
  | [] => None
  | (k', v) :: r => if seqb k k' then Some v else lookup r k
  end.
Definition unihash (m : hashes) (k : str) : str := match lookup m k with Some h => h | None => [] end.

(** siggen.py 354-355 and 386-407: [None] is bb.fatal, a dependency without a hash. *)
Definition hash_task (H : str -> str) (g : str -> task) (m : hashes) (tid : str) : option hashes :=
  if forallb (fun d => match lookup m (snd d) with Some _ => true | None => false end) (t_deps (g tid))
  then Some ((tid, H (task_text (g tid) (unihash m))) :: m)
  else None.

(** runqueue.py 1276-1287: one pass over a copy of [todeal]; [depends] are all dependencies of a
    task, before rundep_check drops some. *)
Fixpoint pass (H : str -> str) (g : str -> task) (depends : str -> list str)
    (todo : list str) (dealt : list str) (m : hashes) : option (list str * hashes) :=
  match todo with
  | [] => Some (dealt, m)
  | tid :: r =>
      if forallb (fun d => mem_str d dealt) (depends tid)
      then match hash_task H g m tid with
           | Some m' => pass H g depends r (tid :: dealt) m'
           | None => None
           end
      else pass H g depends r dealt m
  end.
(** The whole loop; [order n l] is the order in which pass [n] visits the set [l].  The outer
    [None] is "not finished after [fuel] passes", the inner one bb.fatal. *)
Fixpoint hash_loop (H : str -> str) (g : str -> task) (depends : str -> list str) (order : nat -> list str -> list str)
    (fuel : nat) (todeal dealt : list str) (m : hashes) : option (option hashes) :=
  match todeal with
  | [] => Some (Some m)
  | _ =>
      match fuel with
      | O => None
      | S n =>
          match pass H g depends (order n todeal) dealt m with
          | None => Some None
          | Some (dealt', m') =>
              hash_loop H g depends order n (filter (fun t => negb (mem_str t dealt')) todeal) dealt' m'
          end
      end
  end.

(** ** Taints: siggen.py 368-382 *)
(** [mem]: self.taints[tid]; [file]: the content of the taint file ("" or None: none);
    [fresh]: the new uuid. *)
Definition prep_taint (is_nostamp : bool) (mem : option str) (file : option str) (fresh : str) : option str :=
  let mem' := if is_nostamp
              then match mem with
                   | Some t => if startswith nostamp t then mem else Some (nostamp ++ fresh)
                   | None => Some (nostamp ++ fresh)
                   end
              else mem in
  match file with
  | Some (c :: r) => Some (c :: r)
  | _ => mem'
  end.

(** ** Recomputing from dumped data: siggen.py 454-474, 1220-1237 *)
Record sigdata := mkSig {
  d_base : str; d_deps : list str; d_hashes : list (str * str);
  d_files : list (str * str); d_taint : option str }.

(** os.path.basename *)
Definition base_name (f : str) : str := last (split_on "/"%char f) [].

(** 455-465: runtaskdeps, runtaskhashes (a dict: later entries win, hence first here),
    file_checksum_values; 468-474 the taint. *)
Definition dump (t : task) (u : str -> str) (file : option str) : sigdata :=
  mkSig (t_base t) (map fst (sort_le pair_leb (t_deps t)))
    (rev (map (fun d => (fst d, u (snd d))) (t_deps t)))
    (map (fun fc => (match after_mark (fst fc) with Some r => s_ "./" ++ r | None => base_name (fst fc) end, snd fc))
       (by_path (by_checksum (t_files t))))
    (match t_taint t with
     | Some x => if contains_sub nostamp x then Some x
                 else match file with Some (c :: r) => Some (c :: r) | _ => None end
     | None => match file with Some (c :: r) => Some (c :: r) | _ => None end
     end).

(** siggen.py 1220-1237 calc_taskhash, the text. *)
Definition calc_text (d : sigdata) : str :=
  d_base d ++ List.concat (map (unihash (d_hashes d)) (d_deps d)) ++
  List.concat (map (fun c => match snd c with
                             | [] => []
                             | cs => (if contains_sub (s_ "./") (fst c) then fst c else []) ++ cs
                             end) (d_files d)) ++
  match d_taint d with
  | None => []
  | Some t => if contains_sub nostamp t then skipn 8 t else t
  end.
