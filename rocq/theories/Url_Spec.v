(** Vocabulary for C41. *)
From Coq Require Import Ascii String List Bool.
From Verif Require Import Str_Model Url_Model.
Import ListNotations.
Open Scope list_scope.

Definition lacks (cs : str) (s : str) : Prop := forall c, In c cs -> ~ In c s.
(** A URL as a user writes it.  The user name and password are optional, the path is quoted. *)
Record written := {
  w_scheme : str;
  w_user : option (str * option str);
  w_host : str;
  w_path : str;
  w_parms : list (str * str)
}.
Definition text (w : written) : str :=
  w_scheme w ++ s_ "://" ++
  match w_user w with None => [] | Some (u, None) => u ++ s_ "@" | Some (u, Some p) => u ++ s_ ":" ++ p ++ s_ "@" end ++
  w_host w ++ w_path w ++
  flat_map (fun kv => s_ ";" ++ fst kv ++ s_ "=" ++ snd kv) (w_parms w).
Definition is_file (t : str) : Prop := lower t = s_ "file".
Definition good_url (w : written) : Prop :=
  lacks (s_ ":") (w_scheme w) /\
  match w_user w with
  | None => True
  | Some (u, p) => u <> [] /\ lacks (s_ "/;:") u /\ match p with None => True | Some p => lacks (nl :: s_ "/;") p end
  end /\
  lacks (s_ "/;@") (w_host w) /\ lacks (s_ ";") (w_path w) /\
  (is_file (w_scheme w) -> w_host w = [] /\ w_path w <> [] /\ lacks (s_ "@") (w_path w)) /\
  (~ is_file (w_scheme w) -> exists p, w_path w = "/"%char :: p) /\
  NoDup (map fst (w_parms w)) /\
  Forall (fun kv => lacks (nl :: s_ ";=") (fst kv) /\ lacks (nl :: s_ ";") (snd kv)) (w_parms w).

(** Two slashes in a row become one. *)
Fixpoint squeeze (p : str) : str :=
  match p with
  | [] => []
  | c :: p' => match p' with
               | d :: _ => if aeqb c "/"%char && aeqb d "/"%char then squeeze p' else c :: squeeze p'
               | [] => [c]
               end
  end.

(** Decoding of %xx: two hexadecimal digits, capital or not, after a percent sign stand for one byte; all else stays. *)
Definition hex_is (c : ascii) (n : nat) : Prop :=
  nth_error (s_ "0123456789ABCDEF") n = Some c \/ nth_error (s_ "0123456789abcdef") n = Some c.
Inductive percent_decoded : str -> str -> Prop :=
| pd_end : percent_decoded [] []
| pd_hex a b x y s t : hex_is a x -> hex_is b y -> percent_decoded s t ->
    percent_decoded ("%"%char :: a :: b :: s) (ascii_of_nat (16 * x + y) :: t)
| pd_keep c s t : ~ (exists a b s' x y, c = "%"%char /\ s = a :: b :: s' /\ hex_is a x /\ hex_is b y) ->
    percent_decoded s t -> percent_decoded (c :: s) (c :: t).
