(** meta/lib/rootfs_progress.py and bitbake/lib/bb/progress.py: progress read from
    the output of a program.  Definitions only. *)
From Coq Require Import Ascii String List Bool NArith.
From Verif Require Import Str_Model Sstname_Model.
Import ListNotations.
Open Scope list_scope.
Open Scope N_scope.

(** rootfs_progress.py 46-90: the three handlers *)
Inductive kind := Download | Install | Initrd.
(** 11-18: what a handler keeps apart from the line buffer and the output.  A
    report is the fraction passed to update(); floats are not modelled.
    [crashed]: an exception (ZeroDivisionError) has left write(). *)
Record core := { num : N; pkg : N; set_up : N; started : bool; reports : list (N * N); crashed : bool }.
Definition fresh : core := {| num := 0; pkg := 0; set_up := 0; started := false; reports := [(0, 1)]; crashed := false |}.

(** 37: the regular expression of the package handlers: digits, " upgraded, ", digits, " newly installed" *)
Definition apt_total (line : str) : option N :=
  match span is_digit line with
  | (c :: a, r) =>
      if startswith (s_ " upgraded, ") r then
        match span is_digit (skipn 11 r) with
        | (c' :: b, r') => if startswith (s_ " newly installed") r' then Some (dec_val (c :: a) + dec_val (c' :: b)) else None
        | _ => None
        end
      else None
  | _ => None
  end.
(** 73-75: the regular expression of the initrd handler; at least 1 *)
Definition initrd_total (line : str) : option N :=
  if startswith (s_ "Total number of modules: ") line then
    match span is_digit (skipn 25 line) with
    | (c :: a, _) => Some (N.max 1 (dec_val (c :: a) / 2))
    | _ => None
    end
  else None.
(** 36-40, 72-77 process_total *)
Definition process_total (k : kind) (line : str) (c : core) : core :=
  match (match k with Initrd => initrd_total line | _ => apt_total line end) with
  | Some n => {| num := n; pkg := pkg c; set_up := set_up c; started := true; reports := reports c; crashed := crashed c |}
  | None => c
  end.
(** a / b, then update() *)
Definition update (a b : N) (c : core) : core :=
  if b =? 0 then {| num := num c; pkg := pkg c; set_up := set_up c; started := started c; reports := reports c; crashed := true |}
  else {| num := num c; pkg := pkg c; set_up := set_up c; started := started c; reports := reports c ++ [(a, b)]; crashed := crashed c |}.
Definition add_pkg (n : N) (c : core) : core :=
  {| num := num c; pkg := pkg c + n; set_up := set_up c; started := started c; reports := reports c; crashed := crashed c |}.
Definition add_set_up (n : N) (c : core) : core :=
  {| num := num c; pkg := pkg c; set_up := set_up c + n; started := started c; reports := reports c; crashed := crashed c |}.
(** 50-53, 61-70, 79-90 process_line; len(line.split(' ')) - 1 *)
Definition process_line (k : kind) (line : str) (c : core) : core :=
  match k with
  | Download =>
      if startswith (s_ "Get:") line then let c := add_pkg 1 c in update (99 * pkg c) (num c) c else c
  | Install =>
      let up c := update (99 * (pkg c + set_up c)) (num c * 2) c in
      if startswith (s_ "Preparing to unpack") line then up (add_pkg 1 c)
      else if startswith (s_ "Setting up") line then up (add_set_up 1 c)
      else c
  | Initrd =>
      let up c := update (99 * pkg c) (num c) c in
      if startswith (s_ "Adding module") line || startswith (s_ "dracut-install: cp") line
         || startswith (s_ "dracut-install: Failed to find module") line then up (add_pkg 1 c)
      else if startswith (s_ "(excluding") line then up (add_pkg (N.of_nat (length (split_on " "%char line) - 1)) c)
      else c
  end.
(** 31-34 *)
Definition line_in (k : kind) (c : core) (line : str) : core :=
  if started c then process_line k line c else process_total k line c.
(** 23-34: the loop over complete lines; the fuel covers one line per character *)
Fixpoint drain (fuel : nat) (k : kind) (buf : str) (c : core) : str * core :=
  match fuel with
  | O => (buf, c)
  | S n => if crashed c then (buf, c) else
      match cut_at nl buf with
      | (_, None) => (buf, c)
      | (a, Some b) => drain n k b (line_in k c (a ++ [nl]))
      end
  end.
Record handler := { buffer : str; out : str; state : core }.
(** 20-34 write; once it has raised, it is not called again *)
Definition write (k : kind) (h : handler) (chunk : str) : handler :=
  if crashed (state h) then h else
  let (b, c) := drain (S (length (buffer h ++ chunk))) k (buffer h ++ chunk) (state h) in
  {| buffer := b; out := out h ++ chunk; state := c |}.
Definition run (k : kind) (chunks : list str) : handler :=
  fold_left (write k) chunks {| buffer := []; out := []; state := fresh |}.

(** ** bitbake/lib/bb/progress.py 77-107 LineFilterProgressHandler.  [show] is
    writeline() after filter_color(), which subclasses define; what it reports is
    a function of the lines it is given, so the lines are recorded. *)
Definition cr : ascii := "013"%char.
Record filter_state := { fbuffer : str; seen : list str; fout : str }.
(** 99-101: the text after the last carriage return unless that ends the line *)
Definition after_cr (line : str) : str :=
  match last (split_on cr line) [] with [] => line | x => x end.
Fixpoint fdrain (fuel : nat) (show : str -> bool) (f : filter_state) : filter_state :=
  match fuel with
  | O => f
  | S n =>
      let step a b c :=
        let line := after_cr (a ++ [c]) in
        fdrain n show {| fbuffer := b; seen := seen f ++ [line]; fout := if show line then fout f ++ line else fout f |} in
      match cut_at nl (fbuffer f) with
      | (a, Some b) => step a b nl
      | _ => match cut_at cr (fbuffer f) with
             | (a, Some b) => step a b cr
             | _ => f
             end
      end
  end.
Definition fwrite (show : str -> bool) (f : filter_state) (chunk : str) : filter_state :=
  fdrain (S (length (fbuffer f ++ chunk))) show {| fbuffer := fbuffer f ++ chunk; seen := seen f; fout := fout f |}.
Definition frun (show : str -> bool) (chunks : list str) : filter_state := fold_left (fwrite show) chunks {| fbuffer := []; seen := []; fout := [] |}.
