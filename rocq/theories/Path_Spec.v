(** What C29 and C30 mean, independently of the resolution algorithm. *)
From Coq Require Import Ascii String List Bool Arith.
From Verif Require Import Str_Model Posix_Model.
Import ListNotations.
Open Scope list_scope.

Definition slashed (r : str) : str := if endswith [slash] r then r else r ++ [slash].

(** [p] names [root] or something below it: it is [root], or continues it after
    a slash, without '..' in the continuation. *)
Definition inside (root p : str) : Prop :=
  p = root \/ exists rest, p = slashed root ++ rest /\ ~ In dotdot (split_on slash rest).

(** No component of [p] below [root] is a symbolic link. *)
Definition link_free (rdlink : str -> option str) (root p : str) : Prop :=
  forall a b, p = a ++ b -> (b = [] \/ exists b', b = slash :: b') -> length (slashed root) < length a ->
    rdlink a = None.

(** The name of the file reached by the components [cs] from the directory [root]. *)
Definition path_of (root : str) (cs : list str) : str :=
  match cs with [] => root | _ => slashed root ++ join [slash] cs end.

(** Path resolution as the kernel does it for a process whose root directory
    is [root] (path_resolution(7)), by component: [walk cs ds r] says that starting in the directory
    [cs] the components [ds] lead to [r]. *)
Inductive walk (rdlink : str -> option str) (root : str) : list str -> list str -> list str -> Prop :=
| w_done cs : walk rdlink root cs [] cs
| w_skip cs d ds r : d = [] \/ d = dot -> walk rdlink root cs ds r -> walk rdlink root cs (d :: ds) r
| w_up cs ds r : walk rdlink root (removelast cs) ds r -> walk rdlink root cs (dotdot :: ds) r
| w_step cs d ds r : d <> [] -> d <> dot -> d <> dotdot ->
    rdlink (path_of root (cs ++ [d])) = None ->
    walk rdlink root (cs ++ [d]) ds r -> walk rdlink root cs (d :: ds) r
| w_rel cs d t ds r : d <> [] -> d <> dot -> d <> dotdot ->
    rdlink (path_of root (cs ++ [d])) = Some t -> isabs t = false ->
    walk rdlink root cs (split_on slash t ++ ds) r -> walk rdlink root cs (d :: ds) r
| w_abs cs d t ds r : d <> [] -> d <> dot -> d <> dotdot ->
    rdlink (path_of root (cs ++ [d])) = Some t -> isabs t = true ->
    walk rdlink root [] (split_on slash t ++ ds) r -> walk rdlink root cs (d :: ds) r.

(** The file a symbolic link at [path] with target [t] refers to, when no
    directory on the way is a symbolic link. *)
Definition refers_to (path t : str) : str := normpath (pjoin (dirname path) t).
