(** The package repositories isar-apt and base-apt: meta/classes-recipe/repository.bbclass,
    meta/classes-recipe/dpkg-base.bbclass, meta/recipes-devtools/base-apt/base-apt.bb and
    meta/recipes-devtools/isar-apt/isar-apt.bb.  Definitions only. *)
From Coq Require Import String Ascii List Bool Arith.
From Verif Require Import Str_Model.
Import ListNotations.
Open Scope list_scope.

(** * Packages *)
(** A .deb file: fields Package, Architecture and Version, and its bytes *)
Record pkg := { k_name : str; k_arch : str; k_ver : str; k_data : str }.
Definition same_key (n a : str) (p : pkg) : bool := seqb (k_name p) n && seqb (k_arch p) a.
Definition find_key (n a : str) (idx : list pkg) : option pkg := find (same_key n a) idx.
Definition drop_key (n a : str) (idx : list pkg) : list pkg := filter (fun p => negb (same_key n a p)) idx.

Section Reprepro.
(** Debian's order of versions: [newer v w] is v > w *)
Variable newer : str -> str -> bool.
(** reprepro includedeb (called at repository.bbclass 77-78), as reprepro behaves with one version of each package:
    a newer version replaces, an older one is skipped, and other bytes for a known file name are refused (None).
    Simplification: one suite, and packages for all architectures are kept under the architecture "all". *)
Definition includedeb (p : pkg) (idx : list pkg) : option (list pkg) :=
  match find_key (k_name p) (k_arch p) idx with
  | None => Some (p :: idx)
  | Some q =>
      if seqb (k_ver p) (k_ver q) then (if seqb (k_data p) (k_data q) then Some idx else None)
      else if newer (k_ver p) (k_ver q) then Some (p :: drop_key (k_name p) (k_arch p) idx)
      else Some idx
  end.
(** repo_add_packages, 58-80: stops at the first failure *)
Fixpoint repo_add_packages (ps : list pkg) (idx : list pkg) : option (list pkg) :=
  match ps with
  | [] => Some idx
  | p :: ps => match includedeb p idx with None => None | Some idx => repo_add_packages ps idx end
  end.
(** repo_del_package, 96-111: removefilter on Package and Architecture *)
Definition repo_del_package (p : pkg) (idx : list pkg) : list pkg := drop_key (k_name p) (k_arch p) idx.
(** repo_contains_package, 113-149: 0 the same file, 1 another file of that name, version and architecture, 2 none *)
Definition repo_contains_package (p : pkg) (idx : list pkg) : nat :=
  match find (fun q => seqb (k_name q) (k_name p) && seqb (k_ver q) (k_ver p) && seqb (k_arch q) (k_arch p)) idx with
  | Some q => if seqb (k_data q) (k_data p) then 0 else 1
  | None => 2
  end.

(** ** do_deploy_deb, dpkg-base.bbclass 211-228, as commands: deb_clean and the addition of each package of the work directory *)
Inductive cmd := Del (p : pkg) | Add (p : pkg).
Definition exec (c : cmd) (idx : list pkg) : option (list pkg) :=
  match c with Del p => Some (repo_del_package p idx) | Add p => includedeb p idx end.
Fixpoint exec_all (cs : list cmd) (idx : list pkg) : option (list pkg) :=
  match cs with [] => Some idx | c :: cs => match exec c idx with None => None | Some idx => exec_all cs idx end end.
Definition deploy_cmds (ds : list pkg) : list cmd := map Del ds ++ map Add ds.
Definition do_deploy_deb (ds : list pkg) (idx : list pkg) : option (list pkg) := exec_all (deploy_cmds ds) idx.
(** The task stopped after [n] commands, [n] for each attempt, and then run to its end *)
Fixpoint interrupted (ns : list nat) (ds : list pkg) (idx : list pkg) : option (list pkg) :=
  match ns with
  | [] => do_deploy_deb ds idx
  | n :: ns => match exec_all (firstn n (deploy_cmds ds)) idx with None => None | Some idx => interrupted ns ds idx end
  end.
(** Tasks of recipes one after the other (they hold isar.lock, 233) *)
Fixpoint deploys (h : list (list pkg)) (idx : list pkg) : option (list pkg) :=
  match h with [] => Some idx | ds :: h => match do_deploy_deb ds idx with None => None | Some idx => deploys h idx end end.
(** The work directory: a build adds its packages (a file of the same name is replaced) and nothing removes those of
    earlier builds (dpkg.bbclass 38-137) *)
Definition same_file (p q : pkg) : bool := seqb (k_name p) (k_name q) && seqb (k_ver p) (k_ver q) && seqb (k_arch p) (k_arch q).
Definition build (out : list pkg) (workdir : list pkg) : list pkg :=
  filter (fun p => negb (existsb (same_file p) out)) workdir ++ out.

(** ** populate_base_apt, base-apt.bb 15-44: the packages in the order in which find lists them *)
Definition populate_one (p : pkg) (idx : list pkg) : option (list pkg) :=
  match repo_contains_package p idx with
  | 0 => Some idx
  | 1 => includedeb p (repo_del_package p idx)
  | _ => includedeb p idx
  end.
Fixpoint populate (ps : list pkg) (idx : list pkg) : option (list pkg) :=
  match ps with [] => Some idx | p :: ps => match populate_one p idx with None => None | Some idx => populate ps idx end end.
End Reprepro.

(** * Configuration *)
(** conf/distributions, if it exists, and whether the database exists *)
Record repo := { r_conf : option str; r_db : bool }.
(** What repo_create is called with: the text of distributions.in with the codename put in (sed, 28-29), the ids of
    the keys (32-36) and the text to append *)
Record config := { c_text : str; c_keys : list str; c_extra : str }.
Inductive act := Write (t : str) | Append (t : str) | Export.
Definition do_act (a : act) (r : repo) : repo :=
  match a with
  | Write t => {| r_conf := Some t; r_db := r_db r |}
  | Append t => {| r_conf := Some (match r_conf r with Some x => x | None => [] end ++ t); r_db := r_db r |}
  | Export => {| r_conf := r_conf r; r_db := true |}
  end.
(** repo_create, 13-46: what it does, decided by what it finds *)
Definition repo_create (c : config) (r : repo) : list act :=
  match r_conf r with
  | Some _ => []
  | None =>
      Write (c_text c) ::
      (match c_keys c with [] => [] | ks => [Append (s_ "SignWith: " ++ concat (map (fun k => k ++ s_ " ") ks) ++ [nl])] end) ++
      (match c_extra c with [] => [] | e => [Append (e ++ [nl])] end)
  end ++ (if r_db r then [] else [Export]).
Definition do_acts (l : list act) (r : repo) : repo := fold_left (fun r a => do_act a r) l r.
Definition create (c : config) (r : repo) : repo := do_acts (repo_create c r) r.
(** base-apt (base-apt.bb 57-61): repo_create; stopped after [n] writes *)
Definition create_stopped (c : config) (n : nat) (r : repo) : repo := do_acts (firstn n (repo_create c r)) r.
(** isar-apt (isar-apt.bb 16-28): conf is removed first *)
Definition cache_config (c : config) (r : repo) : repo := create c {| r_conf := None; r_db := r_db r |}.
Definition cache_config_stopped (c : config) (n : nat) (r : repo) : repo :=
  match n with 0 => r | S n => create_stopped c n {| r_conf := None; r_db := r_db r |} end.

(** * do_local_isarapt, dpkg-base.bbclass 131-139 *)
(** The files of a directory, by path *)
Definition files : Type := list (str * str).
Fixpoint file_at (p : str) (d : files) : option str :=
  match d with [] => None | (k, v) :: d => if seqb p k then Some v else file_at p d end.
(** rm -rf "DIR/*": the star is quoted, so that only a file with that name is removed *)
Definition rm_star (d : files) : files := filter (fun x => negb (seqb (fst x) (s_ "*") || startswith (s_ "*/") (fst x))) d.
(** cp -Rf and cp -Rlf: each file of the source replaces the file of that path *)
Definition copy_over (src dst : files) : files := src ++ dst.
Definition local_isarapt (repo copy : files) : files := copy_over repo (rm_star copy).
