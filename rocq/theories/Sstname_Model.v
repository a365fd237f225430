(** Model of shared-state file names: generate_sstatefn of
    meta/classes-global/sstate.bbclass and the parser of scripts/isar-sstate. *)
From Coq Require Import Ascii String List Bool Arith ZArith.
From Verif Require Import Str_Model.
Import ListNotations.
Open Scope list_scope.

(** s[:n] for an int n, also a negative one (Python slicing) *)
Definition slice_to (n : Z) (s : str) : str :=
  if (n <? 0)%Z then firstn (length s - Z.to_nat (- n)) s else firstn (Z.to_nat n) s.

Definition slen (s : str) : Z := Z.of_nat (length s).

(** sstate.bbclass 11-16 *)
Definition extension (siginfo : bool) : str := if siginfo then s_ ".tar.zst.siginfo" else s_ ".tar.zst".
Definition limit (siginfo : bool) : Z := if siginfo then 254%Z else (254 - 8)%Z.

Inductive result := Name (path : str) | Fatal (* bb.fatal, 31-32 *) | Raise. (* IndexError in 24-27 *)

(** sstate.bbclass 19-32: the base name *)
Definition base_name (spec hash task : str) (siginfo : bool) : result :=
  let tail := hash ++ s_ "_" ++ task ++ extension siginfo in
  let fn := spec ++ tail in
  if (slen fn <=? limit siginfo)%Z then Name fn
  else match split_on ":" spec with
       | c0 :: c1 :: c2 :: c3 :: c4 :: c5 :: c6 :: rest =>
           let avail := ((limit siginfo - slen tail - slen c0 - slen c1 - slen c5 - slen c6 - 7) / 3)%Z in
           let spec' := join (s_ ":") (c0 :: c1 :: slice_to avail c2 :: slice_to avail c3 :: slice_to avail c4
                                       :: c5 :: c6 :: rest) in
           let fn' := spec' ++ tail in
           if (slen fn' <=? limit siginfo)%Z then Name fn' else Fatal
       | _ => Raise
       end.

(** sstate.bbclass 8-33; [task = None] models taskname None *)
Definition generate_sstatefn (spec : str) (hash : option str) (task : option str) (siginfo : bool) : result :=
  match task with
  | None => Name []
  | Some task =>
      let hash := match hash with None | Some [] => s_ "INVALID" | Some h => h end in
      match base_name spec hash task siginfo with
      | Name fn => Name (firstn 2 hash ++ s_ "/" ++ firstn 2 (skipn 2 hash) ++ s_ "/" ++ fn)
      | r => r
      end
  end.

(** sstate.bbclass 36 *)
Definition pkgspec (pn host pv pr arch version : str) : str :=
  s_ "sstate:" ++ pn ++ s_ ":" ++ host ++ s_ ":" ++ pv ++ s_ ":" ++ pr ++ s_ ":" ++ arch ++ s_ ":" ++ version ++ s_ ":".
(** sstate.bbclass 37 *)
Definition swspec (pn pv pr version : str) : str := pkgspec pn [] pv pr [] version.

(** isar-sstate 169-171: the fields of SstateRegex *)
Record fields := mkF { f_pn : str; f_arch : str; f_hash : str; f_task : str; f_suffix : str }.

(** [0-9a-f] *)
Definition is_hex (c : ascii) : bool :=
  is_digit c || ((97 <=? N_of_ascii c) && (N_of_ascii c <=? 102))%N.
Fixpoint span (p : ascii -> bool) (s : str) : str * str :=
  match s with
  | [] => ([], [])
  | c :: s' => if p c then let (a, b) := span p s' in (c :: a, b) else ([], s)
  end.

(** The part of the regular expression from "sstate:" on, at the start of s.  No
    backtracking is needed: every [^:]* is followed by ':' and so on. *)
Definition match_here (s : str) : option fields :=
  if startswith (s_ "sstate:") s then
    match cut_at ":" (skipn 7 s) with
    | (pn, Some s1) =>
      match cut_at ":" s1 with
      | (_, Some s2) =>
        match cut_at ":" s2 with
        | (_, Some s3) =>
          match cut_at ":" s3 with
          | (_, Some s4) =>
            match cut_at ":" s4 with
            | (arch, Some s5) =>
              match cut_at ":" s5 with
              | (_, Some s6) =>
                match span is_hex s6 with
                | (hash, "_"%char :: s7) =>
                  match cut_at "." s7 with
                  | (task, Some s8) => Some (mkF pn arch hash task (fst (span (fun c => negb (aeqb c nl)) s8)))
                  | _ => None
                  end
                | _ => None
                end
              | _ => None
              end
            | _ => None
            end
          | _ => None
          end
        | _ => None
        end
      | _ => None
      end
    | _ => None
    end
  else None.

(** "(.*/)?" in front: the longest prefix that ends in '/' (and holds no newline)
    and lets the rest match, or no prefix *)
Fixpoint search (at_start_or_slash : bool) (s : str) : option fields :=
  match (match s with
         | [] => None
         | c :: s' => if aeqb c nl then None else search (aeqb c "/") s'
         end) with
  | Some f => Some f
  | None => if at_start_or_slash then match_here s else None
  end.
Definition sstate_regex (path : str) : option fields := search true path.
