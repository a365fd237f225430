(** Model of the line protocol in /repo/bitbake/lib/bb/asyncrpc/connection.py.
    A message is represented by its JSON text (json.dumps / json.loads are
    external).  The byte stream is a list of characters.  Definitions only. *)
From Coq Require Import Ascii String List Bool Arith.
From Verif Require Import Str_Model.
Import ListNotations.
Open Scope list_scope.

(** json.dumps({"chunk-stream": None}) *)
Definition marker : str :=
  "{"%char :: """"%char :: s_ "chunk-stream" ++ """"%char :: s_ ": null}".

(** itertools.zip_longest over [n] copies of one iterator: pieces of [n]
    characters, the last one possibly shorter (lines 28-29) *)
Fixpoint pieces (fuel n : nat) (s : str) : list str :=
  match fuel, s with
  | O, _ | _, [] => []
  | S f, _ => firstn n s :: pieces f n (skipn n s)
  end.
Definition chunks (n : nat) (s : str) : list str :=
  match n with O => [] | _ => pieces (length s) n s end.

(** Lines 22-31 *)
Definition chunkify (msg : str) (max_chunk : nat) : list str :=
  if length msg <? max_chunk - 1 then [msg ++ [nl]]
  else (marker ++ [nl]) :: map (fun m => m ++ [nl]) (chunks (max_chunk - 1) msg) ++ [[nl]].

(** Lines 51-54: what is written to the stream *)
Definition send_message (max_chunk : nat) (msg : str) : str := concat (chunkify msg max_chunk).

(** Lines 79-96: one line; None = connection closed or incomplete line *)
Definition recv (stream : str) : option (str * str) :=
  match cut_at nl stream with
  | (line, Some rest) => Some (rstrip (line ++ [nl]), rest)
  | (_, None) => None
  end.

(** Lines 64-69: lines up to the first empty one *)
Fixpoint recv_lines (fuel : nat) (stream : str) : option (list str * str) :=
  match fuel with
  | O => None
  | S f =>
      match recv stream with
      | None => None
      | Some (l, rest) =>
          match l with
          | [] => Some ([], rest)
          | _ => match recv_lines f rest with
                 | None => None
                 | Some (ls, rest') => Some (l :: ls, rest')
                 end
          end
      end
  end.

(** Lines 56-73: the text handed to the final json.loads, and the remaining
    stream.  [marked l] stands for lines 59-63: json.loads(l) is true and
    contains "chunk-stream". *)
Definition recv_message (marked : str -> bool) (stream : str) : option (str * str) :=
  match recv stream with
  | None => None
  | Some (l, rest) =>
      if marked l then
        match recv_lines (S (length rest)) rest with
        | None => None
        | Some (ls, rest') => Some (concat ls, rest')
        end
      else Some (l, rest)
  end.

(** A peer reading [n] messages *)
Fixpoint recv_many (marked : str -> bool) (n : nat) (stream : str) : option (list str * str) :=
  match n with
  | O => Some ([], stream)
  | S k => match recv_message marked stream with
           | None => None
           | Some (m, rest) => match recv_many marked k rest with
                               | None => None
                               | Some (ms, rest') => Some (m :: ms, rest')
                               end
           end
  end.
