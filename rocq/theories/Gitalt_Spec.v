(** Names and paths. *)
From Coq Require Import Ascii String List.
From Verif Require Import Str_Model.
Import ListNotations.

Definition a_name (c : str) : Prop := c <> [] /\ ~ In "/"%char c /\ c <> s_ "." /\ c <> s_ "..".
Definition names (l : list str) : Prop := l <> [] /\ Forall a_name l.
(** /a/b/c *)
Definition absolute (l : list str) : str := concat (map (fun c => "/"%char :: c) l).
(** Nothing that sed takes for something else *)
Definition quiet (s : str) : Prop := forall c, In c s -> ~ In c (list_ascii_of_string "|[*\&").
