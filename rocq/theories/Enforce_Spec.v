(** Which tasks may run when everything is to come from the cache. *)
From Coq Require Import Ascii String List Bool.
From Verif Require Import Str_Model Enforce_Model.
Import ListNotations.
Open Scope list_scope.

(** A pattern: star for any text, question mark for any character *)
Inductive matches : str -> str -> Prop :=
| matches_end : matches [] []
| matches_star x pat n : matches pat n -> matches ("*"%char :: pat) (x ++ n)
| matches_one c pat n : matches pat n -> matches ("?"%char :: pat) (c :: n)
| matches_char c pat n : c <> "*"%char -> matches pat n -> matches (c :: pat) (c :: n).
(** What one word of BB_SETSCENE_ENFORCE_IGNORE_TASKS stands for *)
Definition stands_for (targets : list target) (item pat : str) : Prop :=
  (~ (exists r, item = s_ "%:" ++ r) /\ pat = item) \/
  exists t rest tg, In tg targets /\ item = s_ "%:" ++ t ++ rest /\ ~ In ":"%char t /\ (rest = [] \/ exists r, rest = ":"%char :: r) /\ pat = t_name tg ++ s_ ":" ++ t.
(** The task [task] of the recipe [pn] is on the list *)
Definition listed (targets : list target) (ignore pn task : str) : Prop :=
  exists item pat, In item (split_ws ignore) /\ stands_for targets item pat /\ matches pat (pn ++ s_ ":" ++ task).
Definition plain (s : str) : Prop := forall c, In c s -> c <> "*"%char /\ c <> "?"%char /\ c <> ":"%char.
