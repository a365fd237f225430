(** What the environment of a package build should be. *)
From Coq Require Import String Ascii List Bool Arith.
From Verif Require Import Str_Model.
Import ListNotations.
Open Scope list_scope.

(** The name of a variable: letters, digits and underscores *)
Definition letter (c : ascii) : bool :=
  let n := nat_of_ascii c in
  (Nat.leb 48 n && Nat.leb n 57) || (Nat.leb 65 n && Nat.leb n 90) || (Nat.leb 97 n && Nat.leb n 122) || Nat.eqb n 95.
Definition var_name (k : str) : Prop := k <> [] /\ Forall (fun c => letter c = true) k.
(** A value of one line that neither ends in a blank nor holds what a pattern or a quoted text treats as special *)
Definition ordinary (v : str) : Prop :=
  (forall c, In c (nl :: s_ "'*[\^$") -> ~ In c v) /\ (forall a c, v = a ++ [c] -> c <> " "%char /\ c <> "009"%char).
(** An environment: one value for each variable *)
Definition proper_env (e : list (str * str)) : Prop :=
  NoDup (map fst e) /\ forall k v, In (k, v) e -> var_name k /\ ordinary v.
(** The variables each process has for itself *)
Definition own_var (k : str) : Prop := k = s_ "HOME" \/ k = s_ "PWD" \/ k = s_ "SOURCE_DATE_EPOCH".
(** [w] starts with [v], where a dot of [v] may stand for another character *)
Definition looks_like_start (v w : str) : Prop := exists w1 w2, w = w1 ++ w2 /\ Forall2 (fun a b => a = "."%char \/ a = b) v w1.

(** Perl's reading of the configuration: the last value a variable is given in the block that starts with [open] *)
Definition given (ls : list str) (k v : str) : Prop :=
  exists before body1 body2 after,
    ls = before ++ s_ "$build_environment = {" :: body1 ++ (s_ "'" ++ k ++ s_ "' => '" ++ v ++ s_ "',") :: body2 ++ s_ "};" :: after /\
    ~ In (s_ "};") body1 /\ ~ In (s_ "};") body2 /\
    (forall w, ~ In (s_ "'" ++ k ++ s_ "' => '" ++ w ++ s_ "',") body2) /\
    (forall l t, In l (before ++ after) -> l <> s_ "$build_environment =" ++ t).
(** The filter lets the variable pass *)
Definition passes (ls : list str) (f : str) : Prop :=
  exists before body1 body2 after,
    ls = before ++ s_ "$environment_filter = [" :: body1 ++ (s_ "'^" ++ f ++ s_ "$',") :: body2 ++ s_ "];" :: after /\
    ~ In (s_ "];") body1 /\ ~ In (s_ "];") body2 /\
    (forall l t, In l (before ++ after) -> l <> s_ "$environment_filter =" ++ t).
(** Another line of the configuration: it is neither an entry nor the start of one of the two blocks *)
Definition plain_line (l : str) : Prop :=
  (forall t, l <> s_ "'" ++ t) /\ (forall t, l <> s_ "$build_environment =" ++ t) /\ (forall t, l <> s_ "$environment_filter =" ++ t) /\ ~ In "^"%char l.
