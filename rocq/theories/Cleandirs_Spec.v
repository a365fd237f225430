(** What removing means, in terms of paths. *)
From Coq Require Import Ascii String List Bool.
From Verif Require Import Str_Model.
Import ListNotations.
Open Scope list_scope.

(** p is q or in q *)
Definition within (q p : list str) : Prop := exists r, p = q ++ r.
Definition strictly_within (q p : list str) : Prop := exists a r, p = q ++ a :: r.
(** A way written with one slash before each name *)
Definition written (q : list str) : str := match q with [] => s_ "/" | _ => concat (map (fun c => "/"%char :: c) q) end.
Definition plain_name (c : str) : Prop := c <> [] /\ c <> s_ "." /\ c <> s_ ".." /\ ~ In "/"%char c.
(** No character with a meaning for glob *)
Definition literal (c : str) : Prop := ~ In "*"%char c /\ ~ In "?"%char c /\ ~ In "["%char c.
(** No character with a meaning for re, apart from the point *)
Definition plain_home (h : str) : Prop := forall c, In c h -> ~ In c (list_ascii_of_string "\^$|()[]{}*+?").
(** The point stands for any character but the end of line *)
Definition like (h s : str) : Prop := Forall2 (fun a b => a = b \/ a = "."%char /\ b <> ascii_of_nat 10) h s.
Definition tail_newline (s q : str) : Prop := s = q \/ s = q ++ [ascii_of_nat 10].
(** A tree of files: each name once, and what something is in is a directory; the flag tells directories *)
Record sound_files (t : list (list str * bool)) : Prop := {
  files_root : In ([], true) t;
  files_once : NoDup (map fst t);
  files_names : forall q k, In (q, k) t -> Forall plain_name q;
  files_in : forall q c k, In (q ++ [c], k) t -> In (q, true) t }.
