(** The functions of Python's posixpath module that the modelled code uses
    (CPython library, external to /repo), on strings.  Definitions only. *)
From Coq Require Import Ascii String List Bool Arith.
From Verif Require Import Str_Model.
Import ListNotations.
Open Scope list_scope.

Definition slash : ascii := "/"%char.
Definition is_slash (c : ascii) : bool := aeqb c slash.
(** os.path.isabs *)
Definition isabs (p : str) : bool := match p with c :: _ => is_slash c | [] => false end.
(** os.path.join(a, b) *)
Definition pjoin (a b : str) : str :=
  if isabs b then b
  else match rev a with
       | [] => b
       | c :: _ => if is_slash c then a ++ b else a ++ slash :: b
       end.
(** p[:p.rfind('/') + 1] *)
Fixpoint head_part (p : str) : str :=
  match p with
  | [] => []
  | c :: p' => match head_part p' with
               | [] => if is_slash c then [c] else []
               | h => c :: h
               end
  end.
Definition drop_slashes (p : str) : str :=   (* p.lstrip('/') *)
  (fix go p := match p with c :: p' => if is_slash c then go p' else p | [] => [] end) p.
Definition rstrip_slashes (p : str) : str := rev (drop_slashes (rev p)).
(** os.path.dirname *)
Definition dirname (p : str) : str :=
  let h := head_part p in if forallb is_slash h then h else rstrip_slashes h.
(** os.path.basename *)
Definition basename (p : str) : str := skipn (length (head_part p)) p.

Definition dot : str := s_ ".".
Definition dotdot : str := s_ "..".
(** posixpath.normpath *)
Definition initial_slashes (p : str) : nat :=
  match p with
  | a :: b :: c :: _ => if is_slash a then (if is_slash b then (if is_slash c then 1 else 2) else 1) else 0
  | [a; b] => if is_slash a then (if is_slash b then 2 else 1) else 0
  | [a] => if is_slash a then 1 else 0
  | [] => 0
  end.
(** [acc]: new_comps, last first *)
Definition norm_step (n : nat) (acc : list str) (c : str) : list str :=
  if seqb c [] || seqb c dot then acc
  else if negb (seqb c dotdot) || (Nat.eqb n 0 && match acc with [] => true | _ => false end)
          || match acc with x :: _ => seqb x dotdot | [] => false end
       then c :: acc
       else match acc with _ :: acc' => acc' | [] => [] end.
Definition norm_comps (p : str) : list str :=
  rev (fold_left (norm_step (initial_slashes p)) (split_on slash p) []).
Definition normpath (p : str) : str :=
  match repeat slash (initial_slashes p) ++ join [slash] (norm_comps p) with
  | [] => dot
  | r => r
  end.
