(** What the checksums of local files have to be. *)
From Coq Require Import String Ascii List Bool Permutation.
From Verif Require Import Str_Model Posix_Model Pcache_Model Filesum_Model.
Import ListNotations.
Open Scope list_scope.

(** A name in a directory *)
Definition file_name (c : str) : Prop := c <> [] /\ ~ In "/"%char c /\ c <> s_ "." /\ c <> s_ "..".
(** /a/b/c *)
Definition path_of (cs : list str) : str := flat_map (fun c => "/"%char :: c) cs.
Definition clean_name (q : str) (cs : list str) : Prop := q = path_of cs /\ cs <> [] /\ Forall file_name cs.

(** Going down from a directory *)
Inductive leads : node -> list str -> node -> Prop :=
  | leads_here n : leads n [] n
  | leads_down l c m cs n : In (c, m) l -> leads m cs n -> leads (Dir l) (c :: cs) n.
(** Names in a directory are different *)
Inductive sound_tree : node -> Prop :=
  | sound_file t c : sound_tree (File t c)
  | sound_link : sound_tree DirLink
  | sound_broken : sound_tree Broken
  | sound_dir l : NoDup (map fst l) -> (forall c m, In (c, m) l -> file_name c /\ sound_tree m) -> sound_tree (Dir l).
(** The same tree, read in another order *)
Inductive shuffled : node -> node -> Prop :=
  | shuffled_leaf n : (forall l, n <> Dir l) -> shuffled n n
  | shuffled_dir l l' l'' : Forall2 (fun a b => fst a = fst b /\ shuffled (snd a) (snd b)) l l' -> Permutation l' l'' -> shuffled (Dir l) (Dir l'').

(** A file below a directory that counts, with its contents: none of the directories on the way is excluded *)
Definition counts (excluded : list str) (top : node) (rel : list str) (c : str) : Prop :=
  (exists t, leads top rel (File t c)) /\ rel <> [] /\ forall d, In d (removelast rel) -> ~ In d excluded.
(** The path of the directory does not occur a second time in the path of one of its files *)
Definition once (q : str) (rel : list str) : Prop := forall a b, q ++ path_of rel = a ++ q ++ b -> a = [].

(** A file with the same time has the same contents *)
Definition honest_times (r r' : node) : Prop := forall f t c c', stat_file r f = Some (t, c) -> stat_file r' f = Some (t, c') -> c = c'.

(** The checksums a path stands for: that of the file, under its name, or those of the files that count below the directory,
    under the name of the directory, /./ and the way from there *)
Definition covers (md5 : str -> str) (excluded : list str) (r : node) (q f cs : str) : Prop :=
  exists qs n, clean_name q qs /\ leads r qs n /\
    ((exists t c, n = File t c /\ f = q /\ cs = md5 c) \/
     (exists l rel c, n = Dir l /\ counts excluded n rel c /\ f = q ++ s_ "/." ++ path_of rel /\ cs = md5 c)).
(** The paths that an entry of a list stands for: itself, or what matches it; none if the file was not there *)
Definition wants (glob : str -> list str) (e : str * bool) (q : str) : Prop :=
  snd e = true /\ ((~ In "*"%char (fst e) /\ q = fst e) \/ (In "*"%char (fst e) /\ In q (glob (fst e)))).

Section Spec.
Variable md5 : str -> str.
(** Processes that ask for checksums, write what is new, and merge what others wrote, in any order; any of them may end at any
    time, also while writing; files change between runs.  [past]: the states of the files so far *)
Record sys := { root : node; main : option (dict (nat * str)); parts : list part; procs : list proc }.
Inductive reach : list node -> sys -> Prop :=
  | empty_cache r : reach [r] {| root := r; main := None; parts := []; procs := [] |}
  | begins past r m ps pr : reach past {| root := r; main := m; parts := ps; procs := pr |} ->
      reach past {| root := r; main := m; parts := ps; procs := init_cache m :: pr |}
  | forks past r m ps a p b : reach past {| root := r; main := m; parts := ps; procs := a ++ p :: b |} ->
      reach past {| root := r; main := m; parts := ps; procs := p :: a ++ p :: b |}
  | ends past r m ps a p b : reach past {| root := r; main := m; parts := ps; procs := a ++ p :: b |} ->
      reach past {| root := r; main := m; parts := ps; procs := a ++ b |}
  | asks past r m ps a p b f : reach past {| root := r; main := m; parts := ps; procs := a ++ p :: b |} ->
      reach past {| root := r; main := m; parts := ps; procs := a ++ snd (get_checksum md5 r f p) :: b |}
  | saves past r m ps a p b v : reach past {| root := r; main := m; parts := ps; procs := a ++ p :: b |} -> In v [Whole (extras p); NoData; CutOff] ->
      reach past {| root := r; main := m; parts := v :: ps; procs := a ++ p :: b |}
  | merges past r m ps a p b order d m' ps' : reach past {| root := r; main := m; parts := ps; procs := a ++ p :: b |} ->
      Permutation order ps -> save_merge order (data p) = Some d -> In m' [m; None; Some d] -> incl ps' ps ->
      reach past {| root := r; main := m'; parts := ps'; procs := a ++ {| data := d; extras := extras p; times := times p |} :: b |}
  | changes past r m ps pr r' : reach past {| root := r; main := m; parts := ps; procs := pr |} -> (forall w, In w past -> honest_times r' w) ->
      reach (r' :: past) {| root := r'; main := m; parts := ps; procs := map (fun p => {| data := data p; extras := extras p; times := [] |}) pr |}.
End Spec.
