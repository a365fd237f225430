(** What a configuration says about groups and accounts. *)
From Coq Require Import String Ascii List Bool Arith.
From Verif Require Import Str_Model Accounts_Model.
Import ListNotations.
Open Scope list_scope.

(** Names as in the account files: no colon, and no option *)
Definition name_ok (n : str) : Prop := ~ In ":"%char n /\ forall r, n <> "-"%char :: r.
Definition config_ok (cf : config) : Prop :=
  forall n, In n (split_ws (cf_groups cf)) \/ In n (split_ws (cf_users cf)) -> name_ok n.
Definition world_ok (w : world) : Prop :=
  (forall g, In g (w_groups w) -> ~ In ":"%char (g_name g)) /\ (forall a, In a (w_accounts w) -> ~ In ":"%char (a_name a)).

(** A field after the run: the configured value, or the old one if none is configured *)
Definition field_after (flag old new : str) : Prop := (flag <> [] -> new = flag) /\ (flag = [] -> new = old).
Section Spec.
  Variable sha256 : str -> str.
  Variable openssl : str -> str -> str.
  Definition has_flag (cf : config) (u f : str) : Prop := In f (split_ws (cf_uflag cf u (s_ "flags"))).
  (** A password is configured *)
  Definition sets_password (cf : config) (u : str) : Prop := cf_uflag cf u (s_ "password") <> [] \/ has_flag cf u (s_ "allow-empty-password").
  (** What is stored: the given hash, or the hash of the given clear text with a salt made of the
      date of the sources *)
  Definition stored (cf : config) (u p : str) : Prop :=
    (has_flag cf u (s_ "clear-text-password") -> p = strip (openssl (firstn 15 (sha256 (cf_epoch cf ++ [nl]))) (cf_uflag cf u (s_ "password")))) /\
    (~ has_flag cf u (s_ "clear-text-password") -> p = cf_uflag cf u (s_ "password")).
  Record account_after (cf : config) (u : str) (a b : account) : Prop := {
    after_name : a_name b = a_name a;
    after_expire : field_after (cf_uflag cf u (s_ "expiredate")) (a_expire a) (a_expire b);
    after_inactive : field_after (cf_uflag cf u (s_ "inactive")) (a_inactive a) (a_inactive b);
    after_uid : field_after (cf_uflag cf u (s_ "uid")) (a_uid a) (a_uid b);
    after_gid : field_after (cf_uflag cf u (s_ "gid")) (a_gid a) (a_gid b);
    after_comment : field_after (cf_uflag cf u (s_ "comment")) (a_comment a) (a_comment b);
    after_shell : field_after (cf_uflag cf u (s_ "shell")) (a_shell a) (a_shell b);
    after_groups : field_after (join (s_ ",") (split_ws (cf_uflag cf u (s_ "groups")))) (a_groups a) (a_groups b);
    after_home : field_after (cf_uflag cf u (s_ "home")) (a_home a) (a_home b);
    after_made : a_made b = a_made a;
    after_pass : (sets_password cf u -> stored cf u (a_pass b)) /\ (~ sets_password cf u -> a_pass b = a_pass a);
    after_change : (has_flag cf u (s_ "force-passwd-change") -> a_change b = true) /\
                   (~ has_flag cf u (s_ "force-passwd-change") -> sets_password cf u -> a_change b = false) /\
                   (~ has_flag cf u (s_ "force-passwd-change") -> ~ sets_password cf u -> a_change b = a_change a) }.
  (** A new account: created with the options of the flags *)
  Definition account_created (cf : config) (u : str) (b : account) : Prop :=
    exists a, a_name a = u /\ account_after cf u a b /\
      (forall o, In o (a_made a) <->
         (o = s_ "--system" /\ has_flag cf u (s_ "system")) \/ (o = s_ "--no-create-home" /\ has_flag cf u (s_ "no-create-home")) \/
         (o = s_ "--create-home" /\ has_flag cf u (s_ "create-home"))).
  (** A group after the run *)
  Definition group_after (cf : config) (g h : group) : Prop :=
    g_name h = g_name g /\ g_system h = g_system g /\ field_after (cf_gflag cf (g_name g) (s_ "gid")) (g_gid g) (g_gid h).
End Spec.

(** What an image can look like when its build was stopped somewhere and started again, any number
    of times: each run starts with what the run before left.  A run that is stopped is one that
    would have succeeded. *)
Inductive interrupted (run : world -> list world * option world) : world -> world -> Prop :=
| int_start w : interrupted run w w
| int_more w x t z y : interrupted run w x -> run x = (t, Some z) -> In y t -> interrupted run w y.
