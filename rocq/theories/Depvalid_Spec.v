(** Which prebuilt tasks are needed: the intended reading, as a table. *)
From Coq Require Import Ascii String List Bool.
From Verif Require Import Str_Model.
Import ListNotations.

(** only wanted by tasks that name them themselves *)
Definition only_direct (task : str) : Prop :=
  In task [s_ "do_populate_lic"; s_ "do_deploy_source_date_epoch"; s_ "do_shared_workdir"; s_ "do_stash_locale"; s_ "do_gcc_stash_builddir"; s_ "do_create_spdx"].
Definition writes_packages (task : str) : Prop := In task [s_ "do_package_write_deb"; s_ "do_package_write_ipk"; s_ "do_package_write_rpm"].
Definition packs (task : str) : Prop := In task [s_ "do_package"; s_ "do_packagedata"; s_ "do_package_qa"].
Definition for_build_host (pn : str) : Prop :=
  (exists a, pn = a ++ s_ "-native") \/ (exists a b, pn = a ++ s_ "-cross-" ++ b) \/ (exists a b, pn = a ++ s_ "-crosssdk" ++ b) \/ (exists a, pn = a ++ s_ "-cross").
Definition sets_up_accounts (pn : str) : Prop :=
  exists a e, pn = a ++ e /\ In e [s_ "shadow-native"; s_ "shadow-sysroot"; s_ "base-passwd"; s_ "pseudo-native"].

(** A task [tn] of recipe [tp] is of no use to the task [dn] of recipe [dp]. *)
Inductive useless (excluded : str -> str -> bool) (tp tn dp dn : str) : Prop :=
| u_direct : only_direct dn -> useless excluded tp tn dp dn
| u_package : tn = s_ "do_package" -> packs dn \/ writes_packages dn -> useless excluded tp tn dp dn
| u_sysroot : tn = s_ "do_populate_sysroot" -> packs dn \/ dn = s_ "do_deploy" -> useless excluded tp tn dp dn
| u_host : for_build_host dp -> packs dn \/ (writes_packages dn /\ tn <> s_ "do_populate_sysroot") -> useless excluded tp tn dp dn
| u_accounts : tn = s_ "do_package" \/ tn = s_ "do_populate_sysroot" -> sets_up_accounts dp -> dn = s_ "do_populate_sysroot" -> useless excluded tp tn dp dn
| u_excluded : tn = s_ "do_populate_sysroot" -> dn = s_ "do_populate_sysroot" -> excluded dp tp = true -> useless excluded tp tn dp dn
| u_tools : tn = s_ "do_populate_sysroot" -> dn = s_ "do_populate_sysroot" -> for_build_host tp -> tp <> s_ "shadow-native" -> ~ for_build_host dp -> dp <> s_ "meta-extsdk-toolchain" ->
    useless excluded tp tn dp dn.

(** The names of the tasks of OpenEmbedded that have rules of their own *)
Definition oe_rules (task : str) : Prop := only_direct task \/ In task [s_ "do_packagedata"; s_ "do_package"; s_ "do_populate_sysroot"].
