(** bitbake/lib/bb/fetch2/__init__.py: decodeurl and encodeurl.  Definitions only.
    Characters are bytes: urllib's quote works on the UTF-8 bytes of a text;
    unquote's replacement of byte sequences that are not UTF-8 is not modelled. *)
From Coq Require Import Ascii String List Bool NArith.
From Verif Require Import Str_Model Data_Model Sstname_Model.
Import ListNotations.
Open Scope list_scope.

(** urllib.parse.quote, default safe characters (external to /repo) *)
Definition safe_char (c : ascii) : bool := is_alpha c || is_digit c || existsb (aeqb c) (s_ "_.-~/").
Definition hex_digit (n : N) : ascii := ascii_of_N (if (n <? 10)%N then 48 + n else 55 + n).
Definition quote (s : str) : str :=
  flat_map (fun c => if safe_char c then [c] else ["%"%char; hex_digit (N_of_ascii c / 16); hex_digit (N_of_ascii c mod 16)]) s.
(** urllib.parse.unquote *)
Definition hex_val (c : ascii) : option N :=
  let n := N_of_ascii c in
  if ((48 <=? n) && (n <=? 57))%N then Some (n - 48)%N
  else if ((65 <=? n) && (n <=? 70))%N then Some (n - 55)%N
  else if ((97 <=? n) && (n <=? 102))%N then Some (n - 87)%N
  else None.
Fixpoint unquote (s : str) : str :=
  match s with
  | c :: ((a :: b :: s') as t) =>
      if aeqb c "%"%char then
        match hex_val a, hex_val b with
        | Some x, Some y => ascii_of_N (x * 16 + y) :: unquote s'
        | _, _ => c :: unquote t
        end
      else c :: unquote t
  | c :: t => c :: unquote t
  | [] => []
  end.

(** The tuple returned by decodeurl 394 *)
Record url := { u_type : str; u_host : str; u_path : str; u_user : str; u_pswd : str; u_parm : list (str * str) }.
Inductive decoded :=
| Decoded (u : url)
| Malformed           (* MalformedUrl *)
| Unbound.            (* UnboundLocalError: 373-377 leave pswd unset *)

(** 355: the optional group [((?P<user>[^/;]+)@)?] before [(?P<location>[^;]+)]:
    the longest user text that leaves a location *)
Definition loc_start (s : str) : bool := match s with c :: _ => negb (aeqb c ";"%char) | [] => false end.
Fixpoint user_group (s : str) : option (str * str) :=
  match s with
  | [] => None
  | c :: s' =>
      if aeqb c "/"%char || aeqb c ";"%char then None
      else match user_group s' with
           | Some (u, l) => Some (c :: u, l)
           | None => if aeqb c "@"%char && loc_start s' then Some ([], s') else None
           end
  end.
Definition split_user (s : str) : str * str :=
  match user_group s with Some ((c :: u), l) => (c :: u, l) | _ => ([], s) end.
(** '.' of a regular expression *)
Definition one_line (s : str) : str := fst (span (fun c => negb (aeqb c nl)) s).
(** 372-380 *)
Definition user_pswd (user : str) : option (str * str) :=
  match user with
  | [] => Some ([], [])
  | _ => match cut_at ":"%char user with
         | ([], _) => None
         | (u, None) => Some (u, [])
         | (u, Some p) => Some (u, one_line p)
         end
  end.
(** 382-391; None: a parameter without '=' *)
Fixpoint params (l : list str) (m : list (str * str)) : option (list (str * str)) :=
  match l with
  | [] => Some m
  | [] :: l' => params l' m
  | s :: l' => match cut_at "="%char s with
               | (_, None) => None
               | (k, Some v) => params l' (set m k v)
               end
  end.
(** 350-394 decodeurl *)
Definition decodeurl (s : str) : decoded :=
  match cut_at ":"%char s with
  | (type, Some ("/"%char :: "/"%char :: s1)) =>
      let (user, s2) := split_user s1 in
      let (location, s3) := span (fun c => negb (aeqb c ";"%char)) s2 in
      match location with
      | [] => Malformed
      | _ =>
          let parm := match s3 with _ :: s4 => one_line s4 | [] => [] end in
          let '(host, path) :=
            if seqb (lower type) (s_ "file") then ([], location)
            else let (h, p) := span (fun c => negb (aeqb c "/"%char)) location in
                 (h, match p with [] => s_ "/" | _ => p end) in
          match user_pswd user with
          | None => Unbound
          | Some (u, p) =>
              match params (split_on ";"%char parm) [] with
              | None => Malformed
              | Some m => Decoded {| u_type := type; u_host := host; u_path := unquote path; u_user := u; u_pswd := p; u_parm := m |}
              end
          end
      end
  | _ => Malformed
  end.

(** 414-415: [while '//' in path: path = path.replace("//", "/")].  [fuel] bounds
    the rounds; running out is reported as None. *)
Fixpoint collapse (fuel : nat) (p : str) : option str :=
  if contains_sub (s_ "//") p then
    match fuel with O => None | S f => collapse f (replace_str (s_ "//") (s_ "/") p) end
  else Some p.
(** 396-422 encodeurl; None: MissingParameterError *)
Definition encodeurl (u : url) : option str :=
  match u_type u with
  | [] => None
  | _ =>
      let local := seqb (u_type u) (s_ "file") in
      match collapse (length (u_path u)) (u_path u) with
      | None => None
      | Some path =>
          Some (u_type u ++ s_ "://" ++
                (if negb local && negb (seqb (u_user u) []) then
                   u_user u ++ (match u_pswd u with [] => [] | p => s_ ":" ++ p end) ++ s_ "@" else []) ++
                (if negb local then u_host u else []) ++
                quote path ++
                flat_map (fun kv => s_ ";" ++ fst kv ++ s_ "=" ++ snd kv) (u_parm u))
      end
  end.
