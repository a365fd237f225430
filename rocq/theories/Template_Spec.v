(** Templates in terms of text. *)
From Coq Require Import Ascii String List NArith.
From Verif Require Import Str_Model.
Import ListNotations.
Open Scope list_scope.

Definition letter (c : ascii) : Prop := let n := N_of_ascii c in (65 <= n <= 90)%N \/ (97 <= n <= 122)%N \/ c = "_"%char.
Definition letter_or_digit (c : ascii) : Prop := letter c \/ (48 <= N_of_ascii c <= 57)%N.
(** The name of a shell variable *)
Definition identifier (n : str) : Prop := exists x r, n = x :: r /\ letter x /\ Forall letter_or_digit r.
Definition name_ends (t : str) : Prop := match t with [] => True | c :: _ => ~ letter_or_digit c end.
(** [R n v]: the variable n is to be replaced, by v *)
Definition refers (R : str -> str -> Prop) (s : str) : Prop :=
  exists n v t, R n v /\ (s = s_ "${" ++ n ++ s_ "}" ++ t \/ s = s_ "$" ++ n ++ t /\ name_ends t).
Inductive filled_in (R : str -> str -> Prop) : str -> str -> Prop :=
  | fi_end : filled_in R [] []
  | fi_braces n v t o : R n v -> filled_in R t o -> filled_in R (s_ "${" ++ n ++ s_ "}" ++ t) (v ++ o)
  | fi_plain n v t o : R n v -> name_ends t -> filled_in R t o -> filled_in R (s_ "$" ++ n ++ t) (v ++ o)
  | fi_other c t o : ~ refers R (c :: t) -> filled_in R t o -> filled_in R (c :: t) (c :: o).
(** The value for a template: that of bitbake; if it has none, that of the environment of the process; else nothing *)
Definition template_value (d penv : str -> option str) (n v : str) : Prop :=
  (d n = Some v /\ v <> []) \/ ((d n = None \/ d n = Some []) /\ (penv n = Some v \/ penv n = None /\ v = [])).
(** Places for a kickstart file, in this order *)
Definition wks_places (paths : list str) (name : str) : list str :=
  map (fun p => p ++ s_ "/wic/" ++ name) paths ++ map (fun p => p ++ s_ "/scripts/lib/wic/canned-wks/" ++ name) paths.
Definition first_of (there : str -> bool) (l : list str) (p : str) : Prop :=
  exists before after, l = before ++ p :: after /\ there p = true /\ Forall (fun q => there q = false) before.
(** What survives a line with quotes around it *)
Definition one_line (x : str) : Prop := ~ In (ascii_of_nat 10) x.
Definition unquoted (x : str) : Prop := (forall r, x <> """"%char :: r) /\ (forall r, x <> r ++ [""""%char]).
(** Characters in the names of variables that wic reads *)
Definition wic_name_char (c : ascii) : Prop := letter_or_digit c \/ In c (list_ascii_of_string "-+./~").
(** The name of a kickstart file with its extension *)
Definition with_extension (file name : str) : Prop :=
  ((exists x, file = x ++ s_ ".wks" \/ file = x ++ s_ ".wks.in") /\ name = file) \/
  ((forall x, file <> x ++ s_ ".wks" /\ file <> x ++ s_ ".wks.in") /\ name = file ++ s_ ".wks").
