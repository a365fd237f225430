(** Model of the installer of wic images: meta-isar/recipes-installer/deploy-image/files/usr/
    lib/deploy-image-wic/handle-config.sh (7-111), bin/sys_api.sh (85-238, 276-350) and
    bin/deploy-image-wic.sh (33-207), with the answers of the user (bin/installer_ui.sh) as
    input. *)
From Coq Require Import Ascii String List Bool Arith.
From Verif Require Import Str_Model.
Import ListNotations.
Open Scope list_scope.

(** ${s#p} if it has the prefix *)
Definition after_prefix (p s : str) : option str := if startswith p s then Some (skipn (length p) s) else None.
(** read -r strips blanks at both ends *)
Definition blank (c : ascii) : bool := aeqb c " "%char || aeqb c "009"%char.
Fixpoint skip_blanks (s : str) : str := match s with c :: r => if blank c then skip_blanks r else s | [] => [] end.
Definition read_word (s : str) : str := rev (skip_blanks (rev (skip_blanks s))).

(** What the scripts see.  [m_boot]: the disks of the file systems mounted at / and below
    /boot, as lsblk lists them; [m_entries]: what sys_list_installable_entries finds *)
Record machine := mkMachine { m_file : str -> bool; m_block : str -> bool; m_empty : str -> bool; m_boot : list str; m_data : str; m_auto : option str; m_cmdline : str; m_entries : list str }.
Record config := mkConfig { c_unattended : bool; c_abort : str; c_timeout : str; c_image : str; c_target : str; c_overwrite : str }.
(** handle-config.sh 7-12 *)
Definition default_config : config := mkConfig false (s_ "false") (s_ "5") [] [] [].
(** 14-24 *)
Definition auto_install (m : machine) : config :=
  match m_auto m with
  | Some text => let line i := read_word (nth i (split_on nl text) []) in mkConfig true (line 3) (line 4) (line 0) (line 1) (line 2)
  | None => default_config
  end.
(** uniq *)
Fixpoint uniq (l : list str) : list str :=
  match l with
  | a :: r => match r with b :: _ => if seqb a b then uniq r else a :: uniq r | [] => [a] end
  | [] => []
  end.
(** 40: the output of a pipe, one disk in each line *)
Definition boot_device (m : machine) : str := join [nl] (uniq (map (fun d => s_ "/dev/" ++ d) (m_boot m))).
(** 39-46 *)
Definition pick_target (m : machine) (value : str) : str :=
  let list := split_ws (map (fun c => if aeqb c ","%char || aeqb c ":"%char then " "%char else c) value) in
  match find (fun dev => m_block m dev && negb (seqb dev (boot_device m))) list with Some dev => dev | None => value end.
(** 28-61: one word of the kernel's command line.  (File name patterns in it are not expanded.) *)
Definition cmdline_word (m : machine) (c : config) (x : str) : config :=
  if seqb x (s_ "installer.unattended") then mkConfig true (c_abort c) (c_timeout c) (c_image c) (c_target c) (c_overwrite c)
  else match after_prefix (s_ "installer.image.uri=") x with
  | Some v => mkConfig true (c_abort c) (c_timeout c) v (c_target c) (c_overwrite c)
  | None => match after_prefix (s_ "installer.target.dev=") x with
  | Some v => mkConfig true (c_abort c) (c_timeout c) (c_image c) (pick_target m v) (c_overwrite c)
  | None => match after_prefix (s_ "installer.target.overwrite") x with
  | Some _ => mkConfig true (c_abort c) (c_timeout c) (c_image c) (c_target c) (s_ "OVERWRITE")
  | None =>
      if seqb x (s_ "installer.unattended.abort.enable") then mkConfig (c_unattended c) (s_ "true") (c_timeout c) (c_image c) (c_target c) (c_overwrite c)
      else match after_prefix (s_ "installer.unattended.abort.timeout=") x with
      | Some v => mkConfig (c_unattended c) (c_abort c) v (c_image c) (c_target c) (c_overwrite c)
      | None => c
      end
  end end end.
Definition gather (m : machine) : config := fold_left (cmdline_word m) (split_ws (m_cmdline m)) (auto_install m).
(** 97: the operand of the test is not quoted; with several words the test itself fails, and
    the installation goes on *)
Definition not_a_device (m : machine) (dev : str) : bool := match split_ws dev with [d] => negb (m_block m d) | _ => false end.
(** 64-111; None: exit 1 *)
Definition handle_config (m : machine) : option config :=
  let c := gather m in
  let all_set := match c_image c, c_target c, c_overwrite c with _ :: _, _ :: _, _ :: _ => true | _, _, _ => false end in
  if negb (c_unattended c) then Some c
  else if negb all_set then None
  else if negb (seqb (c_overwrite c) (s_ "OVERWRITE") || seqb (c_overwrite c) (s_ "ABORT")) then None
  else if not_a_device m (c_target c) then None
  else if m_file m (c_image c) then Some c
  else let path := m_data m ++ s_ "/" ++ c_image c in
       if m_file m path then Some (mkConfig true (c_abort c) (c_timeout c) path (c_target c) (c_overwrite c)) else None.

(** ** Target devices *)
(** One of /sys/block: holders (None: no such directory), whether it has a directory md, and
    the contents of md/array_state *)
Record bdev := mkBdev { b_name : str; b_holders : option (list str); b_md : bool; b_state : option str }.
(** The root file system: its type, source with links resolved, and the entries of
    /sys/block/<root>/slaves *)
Record sysfs := mkSys { s_fstype : str; s_source : str; s_slaves : list str; s_block : list bdev }.
(** ${s%%[0-9]*} *)
Fixpoint before_digits (s : str) : str := match s with c :: r => if is_digit c then [] else c :: before_digits r | [] => [] end.
(** ${s%p[0-9]*} *)
Fixpoint before_p (s : str) : option str :=
  match s with
  | c :: r => match before_p r with
              | Some x => Some (c :: x)
              | None => if aeqb c "p"%char && (match r with e :: _ => is_digit e | [] => false end) then Some [] else None
              end
  | [] => None
  end.
(** sys_api.sh 131-138 *)
Definition base_no_part (s : str) : str :=
  if startswith (s_ "mmcblk") s || startswith (s_ "nvme") s then match before_p s with Some x => x | None => s end else before_digits s.
Definition root_dev (s : sysfs) : str := match after_prefix (s_ "/dev/") (s_source s) with Some x => x | None => s_source s end.
Definition unless_empty (x : str) : list str := match x with [] => [] | _ => [x] end.
(** 119-157 *)
Definition exclude_list (s : sysfs) : list str :=
  if seqb (s_fstype s) (s_ "nfs") then [s_ "nfs"]
  else root_dev s :: unless_empty (base_no_part (root_dev s)) ++ flat_map (fun x => x :: unless_empty (before_digits x)) (s_slaves s).
(** 161-164; the names are in lower case *)
Definition candidates (s : sysfs) : list bdev :=
  filter (fun b => negb (startswith (s_ "mmcblk") (b_name b))) (s_block s) ++
  filter (fun b => match after_prefix (s_ "mmcblk") (b_name b) with Some [c] => is_digit c | _ => false end) (s_block s).
(** 169-178: md[0-9]* *)
Definition md_array (h : str) : bool := match after_prefix (s_ "md") h with Some (c :: _) => is_digit c | _ => false end.
Definition raid_member (b : bdev) : bool := match b_holders b with Some l => negb (b_md b) && existsb md_array l | None => false end.
(** 186-200; blanks and newlines of the state are deleted *)
Definition bad_array (b : bdev) : bool :=
  startswith (s_ "md") (b_name b) &&
  match b_state b with
  | Some t => let t := filter (fun c => negb (aeqb c nl || aeqb c " "%char)) t in negb (seqb t (s_ "active") || seqb t (s_ "clean"))
  | None => true
  end.
(** 202-206 *)
Definition bad_kind (n : str) : bool := existsb (fun p => startswith p n) [s_ "dm-"; s_ "loop"; s_ "mtd"; s_ "sr"; s_ "ram"; s_ "zram"].
(** 166-220 *)
Definition discover (s : sysfs) : list str :=
  map (fun b => s_ "/dev/" ++ b_name b)
    (filter (fun b => negb (raid_member b) && negb (bad_array b) && negb (bad_kind (b_name b)) && negb (existsb (fun ex => startswith ex (b_name b)) (exclude_list s))) (candidates s)).

(** ** The installation *)
(** The answers of the user: a key during the countdown, what is chosen in the menus (None:
    cancelled), the two confirmations *)
Record answers := mkAnswers { a_switch : bool; a_image : option nat; a_device : option nat; a_confirm : bool; a_overwrite : bool }.
(** The lock, the version of bmaptool, mkfifo, and bmaptool's own result *)
Record tools := mkTools { t_free : bool; t_version : bool; t_fifo : bool; t_copy : bool }.
Inductive effect := Copy (nobmap : bool) (image dev : str) | Success | Failure | Message.
(** ${s%.wic*} *)
Fixpoint before_wic (s : str) : option str :=
  match s with
  | c :: r => match before_wic r with Some x => Some (c :: x) | None => if startswith (s_ ".wic") s then Some [] else None end
  | [] => None
  end.
(** sys_api.sh 276-291 *)
Definition bmap_of (image : str) : str := match before_wic image with Some x => x | None => image end ++ s_ ".wic.bmap".
(** 304-350; the status, and what was done *)
Definition install (m : machine) (t : tools) (image dev : str) : nat * list effect :=
  if t_free t then
    if t_version t && negb (t_fifo t) then (1, [])
    else (if t_copy t then 0 else 1, [Copy (negb (m_file m (bmap_of image))) image dev])
  else (0, [Message]).
(** deploy-image-wic.sh 33-96; the image and the device, or a status *)
Definition attended (m : machine) (devices : list str) (a : answers) (c : config) : (str * str) + nat * list effect :=
  let chosen :=
    if (match c_image c with [] => true | _ => false end) || negb (m_file m (m_data m ++ s_ "/" ++ c_image c)) then
      match m_entries m with
      | [] => inr (1, [Message])
      | l => match a_image a with Some i => match nth_error l i with Some x => inl x | None => inr (2, []) end | None => inr (2, []) end
      end
    else inl (c_image c) in
  match chosen with
  | inr r => inr r
  | inl image =>
      if negb (m_file m (m_data m ++ s_ "/" ++ image)) then inr (1, [Message])
      else
        let target := match devices with
                      | [] => inr (1, [Message])
                      | [d] => inl d
                      | l => match filter (m_block m) l with
                             | [] => inr (1, [Message])
                             | l => match a_device a with Some i => match nth_error l i with Some x => inl x | None => inr (2, []) end | None => inr (2, []) end
                             end
                      end in
        match target with
        | inr r => inr r
        | inl d => if a_confirm a then inl (m_data m ++ s_ "/" ++ image, d) else inr (2, [])
        end
  end.
(** 109-126 *)
Definition policy (m : machine) (a : answers) (unattended : bool) (c : config) (dev : str) : nat :=
  if m_empty m dev then 0
  else if negb unattended then (if a_overwrite a then 0 else 2)
  else if seqb (c_overwrite c) (s_ "OVERWRITE") then 0 else 1.
(** 134-144 *)
Definition stays_unattended (a : answers) (c : config) : bool := c_unattended c && negb (seqb (c_abort c) (s_ "true") && a_switch a).
(** 151-203 *)
Definition flow_run (m : machine) (devices : list str) (a : answers) (t : tools) (c : config) : nat * list effect :=
  let un := stays_unattended a c in
  match (if un then inl (c_image c, c_target c) else attended m devices a c) with
  | inr (2, e) => (0, e)
  | inr (_, e) => (1, e)
  | inl (image, dev) =>
      match policy m a un c dev with
      | 0 => match install m t image dev with
             | (0, e) => (0, e ++ [Success])
             | (_, e) => (1, e ++ if un then [] else [Failure])
             end
      | 2 => (0, [])
      | _ => (1, [])
      end
  end.
Definition installer (m : machine) (s : sysfs) (a : answers) (t : tools) : nat * list effect :=
  match handle_config m with Some c => flow_run m (discover s) a t c | None => (1, [Message]) end.
