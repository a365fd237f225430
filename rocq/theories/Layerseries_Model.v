(** Reading layer.conf of all layers: bitbake/lib/bb/cookerdata.py 380-455 (in parseConfigurationFiles): BBFILES_DYNAMIC,
    LAYERSERIES_COMPAT and LAYERSERIES_CORENAMES.  Definitions only.  The data is given by the values getVar returns; a layer.conf is
    any function on it.  Not modelled: LAYERDIR, warnings, bblayers.conf itself. *)
From Coq Require Import Ascii String List Bool.
From Verif Require Import Str_Model.
Import ListNotations.
Open Scope list_scope.

Definition data := str -> option str.
Definition getvar (d : data) (k : str) : str := match d k with Some v => v | None => [] end.
Definition delvar (d : data) (k : str) : data := fun x => if seqb x k then None else d x.
Definition setvar (d : data) (k v : str) : data := fun x => if seqb x k then Some v else d x.
Definition compat_var (c : str) : str := s_ "LAYERSERIES_COMPAT_" ++ c.
Definition corenames_var : str := s_ "LAYERSERIES_CORENAMES".
Definition collections (d : data) : list str := split_ws (getvar d (s_ "BBFILE_COLLECTIONS")).
(** layer.conf, as it is read *)
Definition conf := data -> data.
(** What the loop carries: the data, compat_entries (an entry that is missing is empty), layerseries *)
Record reading := Reading { r_data : data; r_compat : str -> list str; r_series : list str }.
(** 405-409, one collection *)
Definition take_compat (r : reading) (c : str) : reading :=
  match r_data r (compat_var c) with
  | Some (x :: v) => Reading (delvar (r_data r) (compat_var c)) (fun k => if seqb k c then split_ws (x :: v) else r_compat r k) (r_series r)
  | _ => r
  end.
(** 410-413 *)
Definition take_series (r : reading) : reading :=
  match r_series r with
  | [] => match split_ws (getvar (r_data r) corenames_var) with
          | [] => r
          | s => Reading (delvar (r_data r) corenames_var) (r_compat r) s
          end
  | _ => r
  end.
(** 389-413, one layer *)
Definition read_layer (r : reading) (c : conf) : reading :=
  let r := Reading (c (r_data r)) (r_compat r) (r_series r) in
  take_series (fold_left take_compat (collections (r_data r)) r).
Definition read_layers (d : data) (layers : list conf) : reading := fold_left read_layer layers (Reading d (fun _ => []) []).

(** 420-436: BBFILES_DYNAMIC *)
Inductive outcome := Files (bbfiles : str) | Fatal | IndexError.
Fixpoint dynamic (cols entries : list str) (bbfiles : str) (invalid : bool) : outcome :=
  match entries with
  | [] => if invalid then Fatal else Files bbfiles
  | e :: entries =>
      match cut_at ":"%char e with
      | (_, None) => dynamic cols entries bbfiles true
      | (l, Some f) =>
          match l with
          | [] => IndexError
          | x :: l' =>
              let invert := aeqb x "!"%char in
              let l := if invert then l' else l in
              let known := mem_str l cols in
              dynamic cols entries (if (known && negb invert) || (negb known && invert) then bbfiles ++ s_ " " ++ f else bbfiles) invalid
          end
      end
  end.
(** 438-455: whether the layers are accepted; [rest]: collections_tmp *)
Fixpoint remove1 (c : str) (l : list str) : list str := match l with [] => [] | x :: l => if seqb x c then l else x :: remove1 c l end.
Definition meets (a b : list str) : bool := existsb (fun x => mem_str x b) a.
Fixpoint accepted (compat : str -> list str) (series cols rest : list str) : bool :=
  match cols with
  | [] => true
  | c :: cols =>
      let rest := remove1 c rest in
      if mem_str c rest then false
      else match compat c with
           | [] => accepted compat series cols rest
           | s => match series with
                  | [] => false
                  | _ => if meets s series then accepted compat series cols rest else false
                  end
           end
  end.
(** All of it; None: bb.fatal or an exception, else BBFILES *)
Definition layers_read (d : data) (layers : list conf) : option str :=
  let r := read_layers d layers in
  let d := r_data r in
  let cols := collections d in
  match dynamic cols (split_ws (getvar d (s_ "BBFILES_DYNAMIC"))) (getvar d (s_ "BBFILES")) false with
  | Files f => if accepted (r_compat r) (r_series r) cols cols then Some f else None
  | _ => None
  end.
