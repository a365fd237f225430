(** Templates: meta/classes-global/template.bbclass 10-63; templates of kickstart files and their place, and the file with
    variables for wic: meta/classes-recipe/imagetypes_wic.bbclass 19-86, 113-136; how wic reads it:
    scripts/lib/wic/misc.py BitbakeVars.  Definitions only. *)
From Coq Require Import Ascii String List Bool Arith.
From Verif Require Import Str_Model Posix_Model Data_Model Search_Model.
Import ListNotations.
Open Scope list_scope.

(** ** envsubst (GNU gettext, external to /repo) *)
Definition name_start (c : ascii) : bool := is_alpha c || aeqb c "_"%char.
Definition name_char (c : ascii) : bool := name_start c || is_digit c.
Definition dollar : ascii := "$"%char.
(** After a dollar: the name of a variable, and how many characters it takes with its braces *)
Definition reference (s : str) : option (str * nat) :=
  match s with
  | c :: s' =>
      if aeqb c "{"%char then
        match span name_char s' with
        | (x :: n, d :: _) => if name_start x && aeqb d "}"%char then Some (x :: n, S (S (S (length n)))) else None
        | _ => None
        end
      else match span name_char s with
           | (x :: n, _) => if name_start x then Some (x :: n, S (length n)) else None
           | _ => None
           end
  | [] => None
  end.
(** The variables that occur in the format *)
Fixpoint mentioned (s : str) : list str :=
  match s with
  | [] => []
  | c :: s => (if aeqb c dollar then match reference s with Some (n, _) => [n] | None => [] end else []) ++ mentioned s
  end.
(** The text with the variables of [vars] replaced; [skip]: characters that belong to a reference *)
Fixpoint substitute (vars : list str) (env : str -> str) (skip : nat) (s : str) : str :=
  match s with
  | [] => []
  | c :: s =>
      match skip with
      | S k => substitute vars env k s
      | O =>
          match (if aeqb c dollar then reference s else None) with
          | Some (n, k) => if mem_str n vars then env n ++ substitute vars env k s else c :: substitute vars env 0 s
          | None => c :: substitute vars env 0 s
          end
      end
  end.
(** envsubst FORMAT < TEXT; a variable that is not in the environment is empty *)
Definition envsubst (format : str) (env : str -> option str) (text : str) : str :=
  substitute (mentioned format) (fun n => match env n with Some v => v | None => [] end) 0 text.

(** template.bbclass 25: the format *)
Definition format_of (vars : list str) : str := join (s_ " ") (map (fun v => s_ "\${" ++ v ++ s_ "}") vars).
(** 29-33: the environment; [penv] that of the process, [d] the datastore *)
Definition template_env (d : str -> option str) (vars : list str) (penv : str -> option str) : str -> option str :=
  fun n => if mem_str n vars then match d n with Some (c :: v) => Some (c :: v) | _ => penv n end else penv n.
(** 10-63 the content of the output file of one template; [None]: there are no variables, so nothing is done (16-17) *)
Definition transform (template_vars : str) (d penv : str -> option str) (text : str) : option str :=
  match split_ws template_vars with
  | [] => None
  | vars => Some (envsubst (format_of vars) (template_env d vars penv) text)
  end.

(** ** imagetypes_wic.bbclass *)
(** 76: the characters of a name in the regular expression *)
Definition rx_name (c : ascii) : bool :=
  negb (existsb (aeqb c) ("{"%char :: "}"%char :: "@"%char :: " "%char :: ":"%char :: ascii_of_nat 9 :: ascii_of_nat 10 :: nil)).
(** 76-80 re.findall *)
Fixpoint wks_names (s : str) : list str :=
  match s with
  | [] => []
  | c :: s' =>
      (if startswith (s_ "${") s then
         match span rx_name (skipn 2 s) with
         | (x :: n, d :: _) => if aeqb d "}"%char then [x :: n] else []
         | _ => []
         end
       else []) ++ wks_names s'
  end.
(** 78-80: TEMPLATE_VARS *)
Definition wks_vars (template_vars text : str) : str := template_vars ++ s_ " " ++ join (s_ " ") (wks_names text).
(** 31-54: where the kickstart file is looked for, and what is found.  corebase_paths is the same list as bbpaths, so COREBASE is
    in both.  [there]: os.path.exists; [None]: bb.fatal *)
Definition wks_name (wks_file : str) : str := if endswith (s_ ".wks") wks_file || endswith (s_ ".wks.in") wks_file then wks_file else wks_file ++ s_ ".wks".
Definition wks_path (there : str -> bool) (bbpath : str) (corebase : option str) (wks_file : str) : option str :=
  match wks_file with
  | [] => None
  | _ =>
      let name := wks_name wks_file in
      if isabs name then if there name then Some name else None
      else
        let paths := split_on ":"%char bbpath ++ match corebase with Some c => [c] | None => [] end in
        fst (which there (join (s_ ":") (map (fun p => p ++ s_ "/wic") paths ++ map (fun p => p ++ s_ "/scripts/lib/wic/canned-wks") paths)) name false)
  end.

(** 113-124 do_rootfs_wicenv: the lines for wic *)
Definition quote : ascii := """"%char.
Definition newline : ascii := ascii_of_nat 10.
Definition env_line (var value : str) : str := var ++ s_ "=" ++ quote :: strip value ++ [quote] ++ [newline].
Definition env_text (d : str -> option str) (wicvars : str) : str :=
  concat (map (fun v => match d v with Some (c :: x) => env_line v (c :: x) | _ => [] end) (split_ws wicvars)).
(** misc.py 192-203 _parse_line on a line of the file.  Simplification: lines end in a newline only; the end of line (which the
    regular expression leaves out) is cut off before *)
Definition key_char (c : ascii) : bool := is_alpha c || is_digit c || existsb (aeqb c) (list_ascii_of_string "-_+./~").
Fixpoint drop_quotes (s : str) : str := match s with c :: r => if aeqb c quote then drop_quotes r else s | [] => [] end.
(** 203: strip of quotes *)
Definition strip_quotes (s : str) : str := rev (drop_quotes (rev (drop_quotes s))).
Definition parse_line (line : str) : option (str * str) :=
  match span key_char line with
  | (k :: key, c :: val) => if aeqb c "="%char then Some (k :: key, strip_quotes val) else None
  | _ => None
  end.
(** 217-221 and 252: the last line with a variable counts *)
Definition wic_var (text var : str) : option str :=
  fold_left (fun r line => match parse_line line with Some (k, v) => if seqb k var then Some v else r | None => r end) (split_on newline text) None.
