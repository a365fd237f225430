(** meta/classes-recipe/bootstrap.bbclass 76-163: apt source lists.  Definitions only. *)
From Coq Require Import Ascii String List Bool.
From Verif Require Import Str_Model Sstname_Model.
Import ListNotations.
Open Scope list_scope.

Definition nonspace (c : ascii) : bool := negb (is_space c).
(** re.split("\s+", s, maxsplit=1) unpacked into two; None: ValueError, no blank *)
Definition split1 (s : str) : option (str * str) :=
  match span nonspace s with
  | (w, []) => None
  | (w, r) => Some (w, snd (span is_space r))
  end.
Definition starts_space (s : str) : bool := match s with c :: _ => is_space c | [] => false end.
(** \S+=\S+ on a whole word *)
Definition key_value (w : str) : bool := match w with _ :: r => existsb (fun c => aeqb c "="%char) (removelast r) | [] => false end.
(** 90: the end of the regular expression: a word, blanks, "]", blanks.  [w] is the
    longest word, [r] what follows it; the result is what remains after the match. *)
Definition close_options (w r : str) : option str :=
  let (w', r') := span nonspace (snd (span is_space r)) in
  if key_value w && seqb w' (s_ "]") && starts_space r' then Some (snd (span is_space r'))
  else if endswith (s_ "]") w && key_value (removelast w) && starts_space r then Some (snd (span is_space r))
  else None.
(** 90: the repeated group matches at most once, because its lookahead wants a blank and it cannot match one *)
Definition options_rest (s : str) : option str :=
  match s with
  | c :: r =>
      if aeqb c "["%char then
        let (w1, r1) := span nonspace (snd (span is_space r)) in
        let two := if key_value w1 && starts_space r1 then
                     let (w2, r2) := span nonspace (snd (span is_space r1)) in close_options w2 r2
                   else None in
        match two with Some x => Some x | None => close_options w1 r1 end
      else None
  | [] => None
  end.
Inductive parsed := NotASource | Failed | Source (type options url suite components : str).
(** 76-106 parse_aptsources_list_line *)
Definition parse_line (line : str) : parsed :=
  let s := strip line in
  if match s with [] => true | _ => startswith (s_ "#") s end then NotASource
  else match split1 s with
  | None => Failed
  | Some (type, s) =>
      if negb (seqb type (s_ "deb") || seqb type (s_ "deb-src")) then NotASource
      else
        let (options, s) := match options_rest s with
                            | Some rest => (strip (firstn (length s - length rest) s), rest)
                            | None => ([], s)
                            end in
        match split1 s with
        | None => Failed
        | Some (source, s) =>
            if startswith (s_ "/") s then Source type options source [] (join (s_ " ") (split_ws s))
            else match split1 s with
                 | None => Failed
                 | Some (suite, s) => Source type options source suite (join (s_ " ") (split_ws s))
                 end
        end
  end.
(** 122-147 get_apt_source_mirror: a mirror is what re.search and re.sub of its
    regular expression do to a URL: None without a match, else the URL with the
    first match replaced.  Which of the three variables is used is decided by the caller. *)
Definition mirror := str -> option str.
Fixpoint get_mirror (snapshot : bool) (mirrors : list mirror) (type options url suite components : str) : parsed :=
  match mirrors with
  | [] => Source type options url suite components
  | m :: mirrors' =>
      match m url with
      | Some url' => Source type (if snapshot then s_ "[check-valid-until=no]" else options) url' suite components
      | None => get_mirror snapshot mirrors' type options url suite components
      end
  end.
(** 156-162: what is written for one line; None: the exception *)
Definition write_line (snapshot : bool) (mirrors : list mirror) (line : str) : option str :=
  match parse_line line with
  | Failed => None
  | NotASource => Some (line ++ [nl])
  | Source t o u s c =>
      match get_mirror snapshot mirrors t o u s c with
      | Source t o u s c => Some (join (s_ " ") [t; o; u; s; c] ++ [nl])
      | _ => None
      end
  end.
(** 148-163 aggregate_aptsources_list: the files as lists of lines *)
Fixpoint write_lines (snapshot : bool) (mirrors : list mirror) (lines : list str) : option str :=
  match lines with
  | [] => Some []
  | l :: lines' => match write_line snapshot mirrors l, write_lines snapshot mirrors lines' with
                   | Some a, Some b => Some (a ++ b)
                   | _, _ => None
                   end
  end.
Fixpoint aggregate (snapshot : bool) (mirrors : list mirror) (files : list (list str)) : option str :=
  match files with
  | [] => Some []
  | f :: files' => match write_lines snapshot mirrors f, aggregate snapshot mirrors files' with
                   | Some a, Some b => Some (a ++ [nl] ++ b)
                   | _, _ => None
                   end
  end.
