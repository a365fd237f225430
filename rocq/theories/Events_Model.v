(** Model of the events of bitbake (bitbake/lib/bb/event.py): the handlers of classes,
    their registration while recipes are parsed (bitbake/lib/bb/parse/ast.py finalize)
    and the delivery of events to the user interfaces. *)
From Coq Require Import Ascii String List Bool Arith.
From Verif Require Import Str_Model.
Import ListNotations.
Open Scope list_scope.

(** ** Handlers of classes *)
(** _handlers (ordered), _catchall_handlers, _event_handler_map *)
Record table := mkTable { t_handlers : list (str * nat); t_catchall : list str; t_map : list (str * str) }.
Definition no_handlers : table := mkTable [] [] [].
Definition known (name : str) (hs : list (str * nat)) : bool := existsb (fun h => seqb name (fst h)) hs.
Definition add (x : str) (l : list str) : list str := if mem_str x l then l else l ++ [x].
Definition in_map (m name : str) (l : list (str * str)) : bool := existsb (fun p => seqb m (fst p) && seqb name (snd p)) l.
Definition add_map (name m : str) (l : list (str * str)) : list (str * str) := if in_map m name l then l else l ++ [(m, name)].
(** event.py 240-242 and 292-295: BB_CURRENT_MC before the name, with _ for - *)
Definition with_mc (mc name : str) : str := replace_str (s_ "-") (s_ "_") mc ++ name.
(** event.py 237-287.  [code]: the compiled handler, or None if it does not compile
    (259-266); [mask]: the words of eventmask; [seen]: __BBHANDLERS_MC of the datastore.
    A call without a datastore is not modelled, nor that the set is shared with the
    datastores it was copied from.  The handler 0 stands for noop. *)
Definition register (mc name : str) (code : option nat) (mask : list str) (t : table) (seen : list str) : table * list str :=
  let name := with_mc mc name in
  if known name (t_handlers t) then (t, add name seen)
  else match code with
       | None => (mkTable (t_handlers t ++ [(name, 0)]) (t_catchall t) (t_map t), seen)
       | Some c =>
           let hs := t_handlers t ++ [(name, c)] in
           if match mask with [] => true | _ => mem_str (s_ "*") mask end
           then (mkTable hs (add name (t_catchall t)) (t_map t), add name seen)
           else (mkTable hs (t_catchall t) (fold_left (fun l m => add_map name m l) mask (t_map t)), add name seen)
       end.
(** event.py 289-307; None: KeyError *)
Definition remove (mc name : str) (t : table) (seen : list str) : option (table * list str) :=
  let name := with_mc mc name in
  if known name (t_handlers t) then
    Some (mkTable (filter (fun h => negb (seqb name (fst h))) (t_handlers t)) (filter (fun x => negb (seqb name x)) (t_catchall t))
            (filter (fun p => negb (seqb name (snd p))) (t_map t)), filter (fun x => negb (seqb name x)) seen)
  else None.
(** event.py 115-129 fire_class_handlers: the handlers that are called, in order.
    Without _eventfilter; log records are never passed to handlers *)
Definition called (t : table) (seen : list str) (event : str) : list (str * nat) :=
  filter (fun h => (mem_str (fst h) (t_catchall t) || in_map event (fst h) (t_map t)) && mem_str (fst h) seen) (t_handlers t).

(** A handler of a class a recipe inherits *)
Record handler := mkHandler { h_name : str; h_code : option nat; h_mask : list str }.
Fixpoint register_all (mc : str) (hs : list handler) (t : table) (seen : list str) : table * list str :=
  match hs with
  | [] => (t, seen)
  | h :: r => let '(t, seen) := register mc (h_name h) (h_code h) (h_mask h) t seen in register_all mc r t seen
  end.
(** ast.py 388-423 finalize: the handlers called for the events of the recipe (the same
    table is used for all of them), and the table afterwards: only _handlers is put back *)
Definition finalize (mc : str) (hs : list handler) (seen : list str) (events : list str) (t : table) : list (list (str * nat)) * table :=
  let '(t', seen') := register_all mc hs t seen in
  (map (called t' seen') events, mkTable (t_handlers t) (t_catchall t') (t_map t')).
(** cookerdata.py 479-490: the handlers of the configurations *)
Definition configure (cfgs : list (str * list handler)) : table := fold_left (fun t c => fst (register_all (fst c) (snd c) t [])) cfgs no_handlers.
(** Recipes parsed one after the other in one process: what is called for the events of
    each.  [r_seen]: __BBHANDLERS_MC of the configuration of the recipe *)
Record recipe := mkRecipe { r_mc : str; r_seen : list str; r_handlers : list handler; r_events : list str }.
Fixpoint parse_recipes (rs : list recipe) (t : table) : list (list (list (str * nat))) * table :=
  match rs with
  | [] => ([], t)
  | r :: rest =>
      let '(c, t) := finalize (r_mc r) (r_handlers r) (r_seen r) (r_events r) t in
      let '(cs, t) := parse_recipes rest t in (c :: cs, t)
  end.

(** ** User interfaces *)
Section Ui.
  Variable E : Type.
  (** _ui_handlers with the filters (_ui_logfilters), _ui_handler_seq, _uiready, ui_queue,
      and what has been sent to which interface *)
  Record ui := mkUi { u_handlers : list (nat * (E -> bool)); u_seq : nat; u_ready : bool; u_queue : list E; u_sent : list (nat * E) }.
  Definition ui0 : ui := mkUi [] 0 false [] [].
  (** whether sending an event to an interface fails *)
  Variable fails : nat -> E -> bool.
  Inductive op :=
  | Fire (e : E)                          (* fire in the server, 216-234 *)
  | FireWorker (e : E)                    (* fire_from_worker, 236-237 *)
  | Connect (main : bool) (f : E -> bool) (* register_UIHhandler, with the mask set *)
  | Disconnect (h : nat) (main : bool).   (* unregister_UIHhandler *)
  (** 187-211 *)
  Definition fire_ui (u : ui) (e : E) : ui :=
    if u_ready u then
      let to := filter (fun h => snd h e) (u_handlers u) in
      mkUi (filter (fun h => negb (snd h e && fails (fst h) e)) (u_handlers u)) (u_seq u) (u_ready u) (u_queue u)
        (u_sent u ++ map (fun h => (fst h, e)) (filter (fun h => negb (fails (fst h) e)) to))
    else mkUi (u_handlers u) (u_seq u) (u_ready u) (u_queue u ++ [e]) (u_sent u).
  Definition clear_queue (u : ui) : ui := mkUi (u_handlers u) (u_seq u) (u_ready u) [] (u_sent u).
  (** 213-237, 321-341 *)
  Definition step (u : ui) (o : op) : ui :=
    match o with
    | Fire e =>
        let u := if u_ready u && match u_queue u with [] => false | _ => true end then clear_queue (fold_left fire_ui (u_queue u) u) else u in
        fire_ui u e
    | FireWorker e => fire_ui u e
    | Connect main f =>
        let n := S (u_seq u) in mkUi (u_handlers u ++ [(n, f)]) n (main || u_ready u) (u_queue u) (u_sent u)
    | Disconnect h main =>
        mkUi (filter (fun x => negb (Nat.eqb h (fst x))) (u_handlers u)) (u_seq u) (negb main && u_ready u) (u_queue u) (u_sent u)
    end.
  Definition run (u : ui) (os : list op) : ui := fold_left step os u.
  Definition sent_to (h : nat) (u : ui) : list E := map snd (filter (fun p => Nat.eqb h (fst p)) (u_sent u)).
End Ui.
Arguments Fire {E}. Arguments FireWorker {E}. Arguments Connect {E}. Arguments Disconnect {E}. Arguments mkUi {E}.
Arguments u_handlers {E}. Arguments u_seq {E}. Arguments u_ready {E}. Arguments u_queue {E}. Arguments u_sent {E}.
Arguments step {E}. Arguments run {E}. Arguments sent_to {E}. Arguments fire_ui {E}. Arguments clear_queue {E}. Arguments ui0 {E}.
