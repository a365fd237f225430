(** Removing files and directories, with the guard against silly mistakes: bitbake/lib/bb/utils.py 699-743; the directories a task
    starts with: bitbake/lib/bb/build.py 187-210 and utils.py 757-767.  Definitions only. *)
From Coq Require Import Ascii String List Bool Arith.
From Verif Require Import Str_Model Posix_Model Path_Model.
Import ListNotations.
Open Scope list_scope.

(** ** HOME as a part of a regular expression (Python's re, external to /repo) *)
Inductive quant := One | Star | Plus | Opt.
Definition newline : ascii := ascii_of_nat 10.
(** What cannot stand for itself.  Simplification: of these only the point and the three repetitions are modelled *)
Definition other_meta (c : ascii) : bool := existsb (aeqb c) (list_ascii_of_string "\^$|()[]{}").
Definition quant_of (c : ascii) : option quant :=
  if aeqb c "*"%char then Some Star else if aeqb c "+"%char then Some Plus else if aeqb c "?"%char then Some Opt else None.
(** [None]: an error of re, or not modelled *)
Fixpoint rx_parse (s : str) : option (list (ascii * quant)) :=
  match s with
  | [] => Some []
  | c :: s =>
      if other_meta c then None
      else match quant_of c with
           | Some _ => None
           | None =>
               match s with
               | q :: s' =>
                   match quant_of q with
                   | Some q => option_map (cons (c, q)) (rx_parse s')
                   | None => option_map (cons (c, One)) (rx_parse s)
                   end
               | [] => Some [(c, One)]
               end
           end
  end.
Definition rx_char (p c : ascii) : bool := if aeqb p "."%char then negb (aeqb c newline) else aeqb p c.
(** "$" without MULTILINE: at the end, and before a newline at the end *)
Definition rx_end (s : str) : bool := match s with [] => true | [c] => aeqb c newline | _ => false end.
Fixpoint rx_match (r : list (ascii * quant)) (s : str) : bool :=
  match r with
  | [] => rx_end s
  | (p, q) :: r =>
      let many := fix many (s : str) : bool :=
        rx_match r s || match s with c :: s => rx_char p c && many s | [] => false end in
      match q with
      | One => match s with c :: s => rx_char p c && rx_match r s | [] => false end
      | Opt => rx_match r s || match s with c :: s => rx_char p c && rx_match r s | [] => false end
      | Star => many s
      | Plus => match s with c :: s => rx_char p c && many s | [] => false end
      end
  end.
Fixpoint to_end (s : str) : bool :=   (* [^/]*$ *)
  rx_end s || match s with c :: s => negb (aeqb c slash) && to_end s | [] => false end.
Definition after (pre s : str) (k : str -> bool) : bool := startswith pre s && k (skipn (length pre) s).
(** utils.py 699-713 _check_unsafe_delete_path; [home]: the environment variable, empty if not set *)
Definition unsafe (cwd home p : str) : bool :=
  let a := abspath cwd p in
  after (s_ "/") a rx_end || after (s_ "//") a rx_end || after (s_ "/home") a rx_end || after (s_ "/home/") a to_end
  || match home with
     | [] => false
     | _ => match rx_parse home with Some r => rx_match r a | None => false end
     end.

(** ** Files *)
(** The names on the way from the root, and whether it is a directory.  Simplification: no symbolic links to directories; the
    order of the list is the one in which directories are read *)
Definition path := list str.
Definition tree := list (path * bool).
Definition comps (p : str) : path := filter (fun c => negb (seqb c [])) (split_on slash p).
Definition spell (q : path) : str := slash :: join [slash] q.

(** fnmatch (Python library) on one name; sets are of single characters, ranges are not modelled *)
Fixpoint cut_close (s : str) : option (str * str) :=
  match s with
  | [] => None
  | c :: s => if aeqb c "]"%char then Some ([], s) else match cut_close s with Some (a, b) => Some (c :: a, b) | None => None end
  end.
Fixpoint fnm (fuel : nat) (pat name : str) : bool :=
  match fuel with
  | O => false
  | S fuel =>
      match pat with
      | [] => match name with [] => true | _ => false end
      | p :: pat =>
          if aeqb p "*"%char then fnm fuel pat name || match name with _ :: n => fnm fuel (p :: pat) n | [] => false end
          else match name with
               | [] => false
               | c :: name =>
                   if aeqb p "?"%char then fnm fuel pat name
                   else match (if aeqb p "["%char then cut_close pat else None) with
                        | Some (set, rest) =>
                            match set with
                            | n :: set => if aeqb n "!"%char then negb (existsb (aeqb c) set) && fnm fuel rest name
                                          else existsb (aeqb c) (n :: set) && fnm fuel rest name
                            | [] => false
                            end
                        | None => aeqb p c && fnm fuel pat name
                        end
               end
      end
  end.
Definition magic (p : str) : bool := existsb (fun c => aeqb c "*"%char || aeqb c "?"%char || aeqb c "["%char) p.
(** glob (Python library): one name; names beginning with a point only if asked for *)
Definition match_comp (pat name : str) : bool :=
  if magic pat then
    (match name, pat with
     | c :: _, p :: _ => negb (aeqb c "."%char) || aeqb p "."%char
     | _, _ => true
     end) && fnm (S (length pat + length name)) pat name
  else seqb pat name.
Fixpoint match_comps (pat q : path) : bool :=
  match pat, q with
  | [], [] => true
  | p :: pat, c :: q => match_comp p c && match_comps pat q
  | _, _ => false
  end.
(** glob.glob of an absolute path; with a slash at the end only directories *)
Definition globbed (pat : str) (t : tree) : list (path * bool) :=
  filter (fun e => match_comps (comps pat) (fst e) && (negb (endswith [slash] pat) || snd e)) t.
Fixpoint below (q p : path) : bool :=   (* p is q, or in it *)
  match q, p with
  | [], _ => true
  | a :: q, b :: p => seqb a b && below q p
  | _ :: _, [] => false
  end.
Definition path_eqb (a b : path) : bool := below a b && below b a.

(** 729-734: unlink one after the other, a directory is an error *)
Fixpoint unlinks (names : list (path * bool)) (t : tree) : tree * bool :=
  match names with
  | [] => (t, false)
  | (q, true) :: _ => (t, true)
  | (q, false) :: names => unlinks names (filter (fun e => negb (path_eqb q (fst e))) t)
  end.
(** 715-734 remove: what is left, and whether an exception is raised.  rm -rf does what it says *)
Definition remove (cwd home pat : str) (recurse : bool) (t : tree) : tree * bool :=
  match pat with
  | [] => (t, false)
  | _ =>
      if recurse then
        if existsb (fun e => unsafe cwd home (spell (fst e))) (globbed pat t) then (t, true)
        else (filter (fun e => negb (existsb (fun m => below (fst m) (fst e)) (globbed pat t))) t, false)
      else unlinks (globbed pat t) t
  end.
(** 736-742 prunedir *)
Definition prunedir (cwd home topdir : str) (t : tree) : tree * bool :=
  if unsafe cwd home topdir then (t, true) else remove cwd home topdir true t.

Definition has (q : path) (t : tree) : option bool := option_map snd (find (fun e => path_eqb q (fst e)) t).
(** os.makedirs: the directories on the way that are missing; [done]: the way so far *)
Fixpoint makedirs (done todo : path) (t : tree) : tree * bool :=
  match todo with
  | [] => (t, false)
  | c :: todo =>
      match has (done ++ [c]) t with
      | Some true => makedirs (done ++ [c]) todo t
      | Some false => (t, true)
      | None => makedirs (done ++ [c]) todo (t ++ [(done ++ [c], true)])
      end
  end.
(** utils.py 757-767 mkdirhier *)
Definition mkdirhier (dir : str) (t : tree) : tree * bool :=
  if contains_sub (s_ "${") dir then (t, true) else makedirs [] (comps dir) t.
(** build.py 196-199: [dirs], the words of cleandirs *)
Fixpoint cleandirs (cwd home : str) (dirs : list str) (t : tree) : tree * bool :=
  match dirs with
  | [] => (t, false)
  | c :: dirs =>
      match remove cwd home c true t with
      | (t, true) => (t, true)
      | (t, false) => match mkdirhier c t with (t, true) => (t, true) | (t, false) => cleandirs cwd home dirs t end
      end
  end.
(** 201-210: [dirs], the words of dirs; the last one is where the function runs *)
Fixpoint mkdirs (dirs : list str) (t : tree) : tree * bool :=
  match dirs with
  | [] => (t, false)
  | d :: dirs => match mkdirhier d t with (t, true) => (t, true) | (t, false) => mkdirs dirs t end
  end.
Definition prepared (cwd home : str) (clean dirs : list str) (t : tree) : tree * bool :=
  match cleandirs cwd home clean t with (t, true) => (t, true) | (t, false) => mkdirs dirs t end.
