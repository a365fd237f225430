(** What is said about layers, independently of how the code finds it. *)
From Coq Require Import Ascii String List Bool Arith ZArith.
From Verif Require Import Str_Model Vercmp_Model Layers_Model.
Import ListNotations.
Open Scope list_scope.

Section Layers.
  Variable conf : str -> vars.
  Variable layers : list str.

  (** the version of layer [d] fulfils a condition *)
  Definition fulfils (d : str) (cond : str * str) : Prop := exists v, v_version (conf d) = Some v /\ vercmp_string_op v (snd cond) (fst cond) = Some true.
  (** [c] builds on [d]: it depends on it, or recommends it and it is there and fits *)
  Definition builds_on (c d : str) : Prop :=
    (exists ops, In (d, ops) (v_depends (conf c))) \/
    (exists ops, In (d, ops) (v_recommends (conf c)) /\ In d layers /\ match ops with [] => True | cond :: _ => fulfils d cond end).
  (** the lowest priority that is given, 0 if none is *)
  Definition lowest (ls : list str) (z : Z) : Prop :=
    (z = 0%Z /\ forall c, In c ls -> v_priority (conf c) = NoPri) \/
    ((exists c, In c ls /\ v_priority (conf c) = Num z) /\ forall c y, In c ls -> v_priority (conf c) = Num y -> (z <= y)%Z).
  (** The priority of a layer: the given one, or one more than those of the layers it
      builds on and than the lowest *)
  Inductive priority : str -> Z -> Prop :=
  | given c z : v_priority (conf c) = Num z -> priority c z
  | derived c p least m : v_priority (conf c) = NoPri -> (forall d, builds_on c d -> priority d (p d)) ->
      lowest layers least -> (least <= m)%Z -> (forall d, builds_on c d -> (p d <= m)%Z) -> (m = least \/ exists d, builds_on c d /\ m = p d) ->
      priority c (m + 1)%Z.

  (** Nothing is wrong with a layer *)
  Definition fine (c : str) : Prop :=
    v_priority (conf c) <> BadPri /\
    (forall d ops, In (d, ops) (v_depends (conf c)) -> In d layers /\ forall cond, In cond ops -> fulfils d cond) /\
    (v_pattern (conf c) = EmptyPattern \/ exists p, v_pattern (conf c) = Pattern p).
  (** The versions of recommended layers can be compared *)
  Definition readable (c : str) : Prop := forall d op ver ops v, In (d, (op, ver) :: ops) (v_recommends (conf c)) -> v_version (conf d) = Some v -> vercmp_string_op v ver op <> None.
End Layers.

(** the pattern of a layer in directory [d]: "^${LAYERDIR_RE}/" is [dir_pattern "dir/"] *)
Definition dir_pattern (d : str) : str := "^"%char :: escape d.
Definition inside (f d : str) : Prop := exists r, f = d ++ r.

(** The file [f] belongs to the entry [i] of BBFILES *)
Definition covers (w : fs) (i f : str) : Prop :=
  if isdir w i then In f (below w i) /\ ((exists x, f = x ++ s_ ".bb") \/ exists x, f = x ++ s_ ".bbappend")
  else In f (globbed w i) \/ (globbed w i = [] /\ exists_ w i = true /\ f = i).
(** The entries of BBFILES; without any, the recipes of the current directory *)
Definition entry_of (w : fs) (bbfiles i : str) : Prop :=
  In i (split_ws bbfiles) \/ (split_ws bbfiles = [] /\ In i (here w) /\ exists x, i = x ++ s_ ".bb").
(** Some word of BBMASK has an alternative that occurs in the name *)
Definition hidden_by_mask (bbmask f : str) : Prop := exists m a, In m (split_ws bbmask) /\ In a (split_on "|" m) /\ exists x y, f = x ++ a ++ y.
(** The words of BBMASK have no empty alternatives *)
Definition whole_masks (bbmask : str) : Prop := forall m a, In m (split_ws bbmask) -> In a (split_on "|" m) -> a <> [].
(** A file name without its directories *)
Definition named (f n : str) : Prop := ~ In "/"%char n /\ (f = n \/ exists d, f = d ++ s_ "/" ++ n).
(** [a] comes before [b] in a list *)
Definition before {A} (a b : A) (l : list A) : Prop := exists l1 l2 l3, l = l1 ++ a :: l2 ++ b :: l3.
(** The name [x] contains [y] nowhere *)
Definition without (y x : str) : Prop := forall u v, x <> u ++ y ++ v.
(** The append file [a] is meant for the recipe [fn]: the same name, or the same
    beginning up to a % *)
Definition meant_for (a fn : str) : Prop :=
  exists x, named a (x ++ s_ ".bbappend") /\
    (named fn (x ++ s_ ".bb") \/ exists p q r, x = p ++ s_ "%" ++ q /\ ~ In "%"%char p /\ named fn (p ++ r)).
