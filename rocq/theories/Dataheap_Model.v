(** bitbake/lib/bb/data_smart.py: datastores and their copies as objects that
    share parts of memory.  Definitions only.
    Objects with an address: the dictionary of flags of a variable, and the
    mutable values (operation lists, the set of exported names, the lists in
    overridedata, the table of renamed variables).  Texts have no address.
    Not modelled here: values (see Data_Model), caches, histories. *)
From Coq Require Import Ascii String List Bool Arith.
From Verif Require Import Str_Model Data_Model.
Import ListNotations.
Open Scope list_scope.

(** The value of a flag: a text or the address of a mutable object. *)
Inductive value := Text (s : str) | Obj (a : nat).
(** The contents of a mutable object: pairs; a set of names has empty second components. *)
Definition contents := list (str * option str).

Record heap := {
  h_flags : nat -> list (str * value);   (* dictionaries of flags *)
  h_cont : nat -> contents;              (* mutable values *)
  h_next : nat;                          (* addresses from here on are unused *)
  h_dict : nat -> list (str * nat);      (* DataSmart.dict without "_data" *)
  h_parent : nat -> option nat;          (* dict["_data"] *)
  h_over : nat -> list (str * nat);      (* overridedata *)
  h_ren : nat -> nat;                    (* _var_renames *)
  h_stores : nat                         (* number of datastores *)
}.
Definition upd {A} (f : nat -> A) (k : nat) (v : A) : nat -> A := fun x => if Nat.eqb x k then v else f x.

(** A fresh datastore, 426-445 *)
Definition start : heap :=
  {| h_flags := fun _ => []; h_cont := fun _ => []; h_next := 1; h_dict := fun _ => []; h_parent := fun _ => None;
     h_over := fun _ => []; h_ren := fun _ => 0; h_stores := 1 |}.

(** ** Memory *)
Definition new_flags (h : heap) (f : list (str * value)) : heap * nat :=
  ({| h_flags := upd (h_flags h) (h_next h) f; h_cont := h_cont h; h_next := S (h_next h); h_dict := h_dict h; h_parent := h_parent h;
      h_over := h_over h; h_ren := h_ren h; h_stores := h_stores h |}, h_next h).
Definition new_cont (h : heap) (c : contents) : heap * nat :=
  ({| h_flags := h_flags h; h_cont := upd (h_cont h) (h_next h) c; h_next := S (h_next h); h_dict := h_dict h; h_parent := h_parent h;
      h_over := h_over h; h_ren := h_ren h; h_stores := h_stores h |}, h_next h).
Definition write_flags (h : heap) (a : nat) (f : list (str * value)) : heap :=
  {| h_flags := upd (h_flags h) a f; h_cont := h_cont h; h_next := h_next h; h_dict := h_dict h; h_parent := h_parent h;
     h_over := h_over h; h_ren := h_ren h; h_stores := h_stores h |}.
Definition write_cont (h : heap) (a : nat) (c : contents) : heap :=
  {| h_flags := h_flags h; h_cont := upd (h_cont h) a c; h_next := h_next h; h_dict := h_dict h; h_parent := h_parent h;
     h_over := h_over h; h_ren := h_ren h; h_stores := h_stores h |}.
Definition write_dict (h : heap) (i : nat) (d : list (str * nat)) : heap :=
  {| h_flags := h_flags h; h_cont := h_cont h; h_next := h_next h; h_dict := upd (h_dict h) i d; h_parent := h_parent h;
     h_over := h_over h; h_ren := h_ren h; h_stores := h_stores h |}.
Definition write_over (h : heap) (i : nat) (o : list (str * nat)) : heap :=
  {| h_flags := h_flags h; h_cont := h_cont h; h_next := h_next h; h_dict := h_dict h; h_parent := h_parent h;
     h_over := upd (h_over h) i o; h_ren := h_ren h; h_stores := h_stores h |}.

(** ** Datastores *)
(** 519-528 _findVar; a parent is older than its copy, so S i steps are enough *)
Fixpoint find_from (fuel : nat) (h : heap) (i : nat) (var : str) : option nat :=
  match fuel with
  | O => None
  | S n => match get (h_dict h i) var with
           | Some a => Some a
           | None => match h_parent h i with Some p => find_from n h p var | None => None end
           end
  end.
Definition find (h : heap) (i : nat) (var : str) : option nat := find_from (S i) h i var.

(** 530-539 _makeShadowCopy and 514-517 initVar: the address of the own flags *)
Definition shadow (h : heap) (i : nat) (var : str) : heap * nat :=
  match get (h_dict h i) var with
  | Some a => (h, a)
  | None =>
      let f := match find h i var with Some a => h_flags h a | None => [] end in
      let '(h1, a) := new_flags h f in
      (write_dict h1 i (set (h_dict h1 i) var a), a)
  end.

(** What can be done to datastore [i]. *)
Inductive op :=
| SetFlag (var flag text : str)              (* setVarFlag; setVar: flag _content *)
| AddOp (var : str) (k : keyword) (x : str * option str)  (* setVar of an operation *)
| DelFlag (var flag : str)
| SetFlags (var : str) (fs : list (str * str))
| DelFlags (var : str)
| DelVar (var : str)                         (* the dictionary part *)
| Register (short : str) (x : str * str)     (* overridedata *)
| Unregister (short : str) (x : str * str)
| DropOver (var : str)
| Copy
| Export (var : str)                         (* setVarFlag(var, "export", ...) *)
| Rename (var text : str).                   (* setVarFlag("BB_RENAMED_VARIABLES", ...) *)

(** 744-758 *)
Definition set_flag (h : heap) (i : nat) (var flag : str) (v : value) : heap :=
  let '(h1, a) := shadow h i var in write_flags h1 a (set (h_flags h1 a) flag v).

(** The mutable value of a flag that getVarFlag finds, copied (828-829). *)
Definition copied (h : heap) (i : nat) (var flag : str) : contents :=
  match find h i var with
  | None => []
  | Some a => match get (h_flags h a) flag with Some (Obj c) => h_cont h c | _ => [] end
  end.
Fixpoint remove_one (x : str * option str) (l : contents) : contents :=
  match l with
  | [] => []
  | y :: l' => if seqb (fst x) (fst y) && seqb (match snd x with Some s => s | None => [] end) (match snd y with Some s => s | None => [] end)
               then l' else y :: remove_one x l'
  end.
Definition has (x : str * option str) (l : contents) : bool :=
  existsb (fun y => seqb (fst x) (fst y) && seqb (match snd x with Some s => s | None => [] end) (match snd y with Some s => s | None => [] end)) l.

Definition step (h : heap) (i : nat) (o : op) : heap :=
  match o with
  | SetFlag var flag t => set_flag h i var flag (Text t)
  (* 574-576: the list is copied, extended and stored *)
  | AddOp var k x =>
      let '(h1, c) := new_cont h (copied h i var (kw_text k) ++ [x]) in set_flag h1 i var (kw_text k) (Obj c)
  (* 907-921 *)
  | DelFlag var flag =>
      match find h i var with
      | None => h
      | Some a => match h_flags h a with
                  | [] => h
                  | _ => let '(h1, b) := shadow h i var in write_flags h1 b (del (h_flags h1 b) flag)
                  end
      end
  (* 937-949 *)
  | SetFlags var fs =>
      let '(h1, a) := shadow h i var in
      write_flags h1 a (fold_left (fun f e => if seqb (fst e) (s_ "_content") then f else set f (fst e) (Text (snd e))) fs (h_flags h1 a))
  (* 966-984 *)
  | DelFlags var =>
      let '(h1, a) := shadow h i var in
      match get (h_flags h1 a) (s_ "_content") with
      | Some v => let '(h2, b) := new_flags h1 [(s_ "_content", v)] in write_dict h2 i (set (h_dict h2 i) var b)
      | None => write_dict h1 i (del (h_dict h1 i) var)
      end
  (* 723 *)
  | DelVar var => let '(h1, a) := new_flags h [] in write_dict h1 i (set (h_dict h1 i) var a)
  (* 648-654: the list is recreated first *)
  | Register short x =>
      let l := match get (h_over h i) short with Some c => h_cont h c | None => [] end in
      let y := (fst x, Some (snd x)) in
      if has y l then h
      else let '(h1, c) := new_cont h (l ++ [y]) in write_over h1 i (set (h_over h1 i) short c)
  (* 730-735 *)
  | Unregister short x =>
      match get (h_over h i) short with
      | None => h
      | Some c => let '(h1, c') := new_cont h (remove_one (fst x, Some (snd x)) (h_cont h c)) in write_over h1 i (set (h_over h1 i) short c')
      end
  (* 619, 724-725 *)
  | DropOver var => write_over h i (del (h_over h i) var)
  (* 986-1007 *)
  | Copy =>
      let n := h_stores h in
      {| h_flags := h_flags h; h_cont := h_cont h; h_next := h_next h; h_dict := upd (h_dict h) n []; h_parent := upd (h_parent h) n (Some i);
         h_over := upd (h_over h) n (h_over h i); h_ren := upd (h_ren h) n (h_ren h i); h_stores := S n |}
  (* 760-771: the set is changed in place *)
  | Export var =>
      let h1 := set_flag h i var (s_ "export") (Text (s_ "1")) in
      let '(h2, a) := shadow h1 i (s_ "__exportlist") in
      match get (h_flags h2 a) (s_ "_content") with
      | Some (Obj c) => write_cont h2 c (if has (var, None) (h_cont h2 c) then h_cont h2 c else h_cont h2 c ++ [(var, None)])
      | Some (Text _) => h2 (* a text has no add: AttributeError *)
      | None => let '(h3, c) := new_cont h2 [(var, None)] in write_flags h3 a (set (h_flags h3 a) (s_ "_content") (Obj c))
      end
  (* 747-748: the table is shared by all copies (995) *)
  | Rename var t =>
      let h1 := write_cont h (h_ren h i) ((var, Some t) :: h_cont h (h_ren h i)) in
      set_flag h1 i (s_ "BB_RENAMED_VARIABLES") var (Text t)
  end.

(** A run: operations on existing datastores. *)
Definition run (h : heap) (os : list (nat * op)) : heap :=
  fold_left (fun h x => if Nat.ltb (fst x) (h_stores h) then step h (fst x) (snd x) else h) os h.
