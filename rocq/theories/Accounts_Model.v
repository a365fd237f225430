(** meta/classes-recipe/image-account-extension.bbclass: groups and users of an image.
    Definitions only. *)
From Coq Require Import String Ascii List Bool Arith.
From Verif Require Import Str_Model.
Import ListNotations.
Open Scope list_scope.

(** ** The account files and the tools that change them.  Not in /repo: what the manual pages of
    groupadd, groupmod, useradd, usermod, chpasswd and passwd say, as far as it matters here.
    [a_made] holds the options that only count when an account is created; [a_change]: the password
    has to be changed at the next login. *)
Record group := mkGroup { g_name : str; g_gid : str; g_system : bool }.
Record account := mkAccount {
  a_name : str; a_expire : str; a_inactive : str; a_uid : str; a_gid : str; a_comment : str; a_shell : str; a_groups : str; a_home : str;
  a_made : list str; a_pass : str; a_change : bool }.
Record world := mkWorld { w_groups : list group; w_accounts : list account }.
Definition group_line (g : group) : str := g_name g ++ s_ ":x:" ++ g_gid g ++ s_ ":".
Definition passwd_line (a : account) : str :=
  a_name a ++ s_ ":x:" ++ a_uid a ++ s_ ":" ++ a_gid a ++ s_ ":" ++ a_comment a ++ s_ ":" ++ a_home a ++ s_ ":" ++ a_shell a.
Definition valued : list str :=
  [s_ "--expire"; s_ "--inactive"; s_ "--uid"; s_ "--gid"; s_ "--comment"; s_ "--shell"; s_ "--groups"; s_ "--home"; s_ "--home-dir"].
(** Options with values, options without, and the name *)
Fixpoint parse_args (l : list str) : list (str * str) * list str * option str :=
  match l with
  | [] => ([], [], None)
  | a :: r =>
      if mem_str a valued then match r with v :: r' => let '(o, f, n) := parse_args r' in ((a, v) :: o, f, n) | [] => ([], [], None) end
      else if startswith (s_ "-") a then let '(o, f, n) := parse_args r in (o, a :: f, n)
      else let '(o, f, _) := parse_args r in (o, f, Some a)
  end.
Definition set_opt (a : account) (ov : str * str) : account :=
  let (o, v) := ov in
  let '(mkAccount nm ex ia ui gi co sh gr ho md pw ch) := a in
  if seqb o (s_ "--expire") then mkAccount nm v ia ui gi co sh gr ho md pw ch
  else if seqb o (s_ "--inactive") then mkAccount nm ex v ui gi co sh gr ho md pw ch
  else if seqb o (s_ "--uid") then mkAccount nm ex ia v gi co sh gr ho md pw ch
  else if seqb o (s_ "--gid") then mkAccount nm ex ia ui v co sh gr ho md pw ch
  else if seqb o (s_ "--comment") then mkAccount nm ex ia ui gi v sh gr ho md pw ch
  else if seqb o (s_ "--shell") then mkAccount nm ex ia ui gi co v gr ho md pw ch
  else if seqb o (s_ "--groups") then mkAccount nm ex ia ui gi co sh v ho md pw ch
  else mkAccount nm ex ia ui gi co sh gr v md pw ch.
Definition has_account (w : world) (n : str) : bool := existsb (fun a => seqb (a_name a) n) (w_accounts w).
Definition has_group (w : world) (n : str) : bool := existsb (fun g => seqb (g_name g) n) (w_groups w).
Definition change_accounts (n : str) (f : account -> account) (w : world) : world :=
  mkWorld (w_groups w) (map (fun a => if seqb (a_name a) n then f a else a) (w_accounts w)).
Definition change_groups (n : str) (f : group -> group) (w : world) : world :=
  mkWorld (map (fun g => if seqb (g_name g) n then f g else g) (w_groups w)) (w_accounts w).
Definition gid_opt (o : list (str * str)) : option str := option_map snd (find (fun e => seqb (fst e) (s_ "--gid")) o).

(** A command: program, arguments, standard input *)
Record command := mkCommand { c_prog : str; c_args : list str; c_input : str }.

Section Tools.
  (** Values chosen by the tools for a new group and a new account; reasons to fail, such as a number
      already in use *)
  Variable new_gid : world -> str -> bool -> str.
  Variable new_account : world -> str -> list str -> account.
  Variable refuses : command -> world -> bool.
  Definition fresh (w : world) (n : str) (f : list str) : account :=
    let '(mkAccount _ ex ia ui gi co sh gr ho _ pw ch) := new_account w n f in mkAccount n ex ia ui gi co sh gr ho f pw ch.
  Definition tool (c : command) (w : world) : option world :=
    if refuses c w then None
    else
      let '(o, f, n) := parse_args (c_args c) in
      if seqb (c_prog c) (s_ "/usr/sbin/chpasswd") then
        match cut_at ":"%char (c_input c) with
        | (u, Some p) =>
            if has_account w u then
              Some (change_accounts u (fun a => let '(mkAccount nm ex ia ui gi co sh gr ho md _ _) := a in mkAccount nm ex ia ui gi co sh gr ho md p false) w)
            else None
        | _ => None
        end
      else if seqb (c_prog c) (s_ "/usr/bin/passwd") then
        let u := last (c_args c) [] in
        if has_account w u then
          Some (change_accounts u (fun a => let '(mkAccount nm ex ia ui gi co sh gr ho md pw _) := a in mkAccount nm ex ia ui gi co sh gr ho md pw true) w)
        else None
      else match n with
      | None => None
      | Some n =>
        if seqb (c_prog c) (s_ "/usr/sbin/groupadd") then
          if has_group w n then None
          else
            let system := mem_str (s_ "--system") f in
            Some (mkWorld (w_groups w ++ [mkGroup n (match gid_opt o with Some g => g | None => new_gid w n system end) system]) (w_accounts w))
        else if seqb (c_prog c) (s_ "/usr/sbin/groupmod") then
          if has_group w n then Some (change_groups n (fun g => match gid_opt o with Some i => mkGroup (g_name g) i (g_system g) | None => g end) w) else None
        else if seqb (c_prog c) (s_ "/usr/sbin/useradd") then
          if has_account w n then None
          else match gid_opt o with
          | Some _ => Some (mkWorld (w_groups w) (w_accounts w ++ [fold_left set_opt o (fresh w n f)]))
          | None => (* a group of the same name is added too *)
              if has_group w n then None
              else let a := fold_left set_opt o (fresh w n f) in
                   Some (mkWorld (w_groups w ++ [mkGroup n (a_gid a) (mem_str (s_ "--system") f)]) (w_accounts w ++ [a]))
          end
        else if seqb (c_prog c) (s_ "/usr/sbin/usermod") then
          if has_account w n then Some (change_accounts n (fun a => fold_left set_opt o a) w) else None
        else None
      end.
End Tools.

(** ** The class, 26-151 *)
(** any(line.startswith("{}:".format(entry)) for line in file), 43-44 and 81-82 *)
Definition entry_exists (entry : str) (lines : list str) : bool := existsb (fun l => startswith (entry ++ s_ ":") l) lines.
(** The variable flags of GROUP_x and USER_x; "" if not set *)
Record config := mkConfig { cf_groups : str; cf_users : str; cf_gflag : str -> str -> str; cf_uflag : str -> str -> str; cf_epoch : str }.
(** add_user_option, 84-88 *)
Definition opt_args (o v : str) : list str := match v with [] => [] | _ => [o; v] end.
Definition flag_args (c : bool) (o : str) : list str := if c then [o] else [].
(** image_create_groups, 39-59: the commands for an entry; sudo -E chroot is left out *)
Definition group_commands (cf : config) (entry : str) (exists_ : bool) : list command :=
  let args := opt_args (s_ "--gid") (cf_gflag cf entry (s_ "gid")) in
  if exists_ then match args with [] => [] | _ => [mkCommand (s_ "/usr/sbin/groupmod") (args ++ [entry]) []] end
  else [mkCommand (s_ "/usr/sbin/groupadd") (args ++ flag_args (mem_str (s_ "system") (split_ws (cf_gflag cf entry (s_ "flags")))) (s_ "--system") ++ [entry]) []].
Section Passwords.
  (** hashlib.sha256(...).hexdigest() and openssl passwd -6 --salt SALT PASSWORD *)
  Variable sha256 : str -> str.
  Variable openssl : str -> str -> str.
  (** image_create_users, 77-116 *)
  Definition common_args (cf : config) (entry : str) : list str :=
    let fl := cf_uflag cf entry in
    let groups := split_ws (fl (s_ "groups")) in
    opt_args (s_ "--expire") (fl (s_ "expiredate")) ++ opt_args (s_ "--inactive") (fl (s_ "inactive")) ++ opt_args (s_ "--uid") (fl (s_ "uid")) ++
    opt_args (s_ "--gid") (fl (s_ "gid")) ++ opt_args (s_ "--comment") (fl (s_ "comment")) ++ opt_args (s_ "--shell") (fl (s_ "shell")) ++
    match groups with [] => [] | _ => [s_ "--groups"; join (s_ ",") groups] end.
  Definition user_args (cf : config) (entry : str) (exists_ : bool) : list str :=
    let fl := cf_uflag cf entry in
    let flags := split_ws (fl (s_ "flags")) in
    common_args cf entry ++
    (if exists_ then opt_args (s_ "--home") (fl (s_ "home")) ++ flag_args (negb (seqb (fl (s_ "home")) [])) (s_ "--move-home")
     else opt_args (s_ "--home-dir") (fl (s_ "home")) ++ flag_args (mem_str (s_ "system") flags) (s_ "--system") ++
          flag_args (mem_str (s_ "no-create-home") flags) (s_ "--no-create-home") ++ flag_args (mem_str (s_ "create-home") flags) (s_ "--create-home")).
  (** 118-143 *)
  Definition salt (cf : config) : str := firstn 15 (sha256 (cf_epoch cf ++ [nl])).
  Definition user_commands (cf : config) (entry : str) (exists_ : bool) : list command :=
    let fl := cf_uflag cf entry in
    let flags := split_ws (fl (s_ "flags")) in
    let args := user_args cf entry exists_ in
    let password := fl (s_ "password") in
    (if exists_ then match args with [] => [] | _ => [mkCommand (s_ "/usr/sbin/usermod") (args ++ [entry]) []] end
     else [mkCommand (s_ "/usr/sbin/useradd") (args ++ [entry]) []]) ++
    (if negb (seqb password []) || mem_str (s_ "allow-empty-password") flags then
       let password := if mem_str (s_ "clear-text-password") flags then strip (openssl (salt cf) password) else password in
       [mkCommand (s_ "/usr/sbin/chpasswd") [s_ "-e"] (entry ++ s_ ":" ++ password)]
     else []) ++
    (if mem_str (s_ "force-passwd-change") flags then [mkCommand (s_ "/usr/bin/passwd") [s_ "--expire"; entry] []] else []).
End Passwords.
Section Run.
  Variable new_gid : world -> str -> bool -> str.
  Variable new_account : world -> str -> list str -> account.
  Variable refuses : command -> world -> bool.
  Variable sha256 : str -> str.
  Variable openssl : str -> str -> str.
  Notation tool := (tool new_gid new_account refuses).
  (** One command after the other; the worlds on the way, the first one included.  The result is
      None if a command fails *)
  Fixpoint run_commands (cs : list command) (w : world) : list world * option world :=
    match cs with
    | [] => ([w], Some w)
    | c :: r => match tool c w with
                | None => ([w], None)
                | Some w' => let (t, o) := run_commands r w' in (w :: t, o)
                end
    end.
  Definition group_step (cf : config) (entry : str) (w : world) : list world * option world :=
    run_commands (group_commands cf entry (entry_exists entry (map group_line (w_groups w)))) w.
  Definition user_step (cf : config) (entry : str) (w : world) : list world * option world :=
    run_commands (user_commands sha256 openssl cf entry (entry_exists entry (map passwd_line (w_accounts w)))) w.
  Fixpoint run_steps (steps : list (world -> list world * option world)) (w : world) : list world * option world :=
    match steps with
    | [] => ([w], Some w)
    | s :: r => match s w with
                | (t, None) => (t, None)
                | (t, Some w') => let (t', o) := run_steps r w' in (t ++ t', o)
                end
    end.
  (** image_postprocess_accounts, 148-151 *)
  Definition postprocess_accounts (cf : config) (w : world) : list world * option world :=
    run_steps (map (group_step cf) (split_ws (cf_groups cf)) ++ map (user_step cf) (split_ws (cf_users cf))) w.
End Run.
