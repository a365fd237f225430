-Q theories Verif
theories/Str_Model.v
theories/Str_Proofs.v
theories/WicLayout_Model.v
theories/WicLayout_Spec.v
theories/WicLayout_Proofs.v
theories/WicLayout_Props.v
theories/Filemap_Model.v
theories/Filemap_Spec.v
theories/Filemap_Proofs.v
theories/Filemap_Props.v
theories/Ksparser_Model.v
theories/Ksparser_Spec.v
theories/Ksparser_Proofs.v
theories/Ksparser_Props.v
theories/Vercmp_Model.v
theories/Vercmp_Spec.v
theories/Vercmp_Proofs.v
theories/Vercmp_Props.v
theories/Rpc_Model.v
theories/Rpc_Spec.v
theories/Rpc_Proofs.v
theories/Rpc_Props.v
theories/Prserv_Model.v
theories/Prserv_Spec.v
theories/Prserv_Proofs.v
theories/Prserv_Props.v
theories/Hashserv_Model.v
theories/Hashserv_Spec.v
theories/Hashserv_Proofs.v
theories/Hashserv_Props.v
theories/Hashperm_Model.v
theories/Hashperm_Spec.v
theories/Hashperm_Proofs.v
theories/Hashperm_Props.v
theories/Sstname_Model.v
theories/Sstname_Spec.v
theories/Sstname_Proofs.v
theories/Sstname_Props.v
theories/Ssttool_Model.v
theories/Ssttool_Spec.v
theories/Ssttool_Proofs.v
theories/Ssttool_Props.v
theories/Sstman_Model.v
theories/Sstman_Spec.v
theories/Sstman_Proofs.v
theories/Sstman_Props.v
theories/Runq_Model.v
theories/Runq_Spec.v
theories/Runq_Proofs.v
theories/Runq_Props.v
theories/Taskweights_Model.v
theories/Taskweights_Spec.v
theories/Taskweights_Proofs.v
theories/Taskweights_Props.v
theories/Lock_Model.v
theories/Lock_Spec.v
theories/Lock_Proofs.v
theories/Lock_Props.v
theories/Posix_Model.v
theories/Posix_Proofs.v
theories/Path_Model.v
theories/Path_Spec.v
theories/Path_Proofs.v
theories/Path_Props.v
theories/Lists_Model.v
theories/Lists_Spec.v
theories/Lists_Proofs.v
theories/Lists_Props.v
theories/Imgtypes_Model.v
theories/Imgtypes_Spec.v
theories/Imgtypes_Proofs.v
theories/Imgtypes_Props.v
theories/Data_Model.v
theories/Data_Spec.v
theories/Data_Proofs.v
theories/Data_Props.v
theories/Dataheap_Model.v
theories/Dataheap_Spec.v
theories/Dataheap_Proofs.v
theories/Dataheap_Props.v
theories/Deps_Model.v
theories/Deps_Spec.v
theories/Deps_Proofs.v
theories/Deps_Props.v
theories/Url_Model.v
theories/Url_Spec.v
theories/Url_Proofs.v
theories/Url_Props.v
theories/Container_Model.v
theories/Container_Spec.v
theories/Container_Proofs.v
theories/Container_Props.v
theories/Providers_Model.v
theories/Providers_Spec.v
theories/Providers_Proofs.v
theories/Providers_Props.v
theories/Progress_Model.v
theories/Progress_Spec.v
theories/Progress_Proofs.v
theories/Progress_Props.v
theories/Rootclean_Model.v
theories/Rootclean_Spec.v
theories/Rootclean_Proofs.v
theories/Rootclean_Props.v
theories/Aptsrc_Model.v
theories/Aptsrc_Spec.v
theories/Aptsrc_Proofs.v
theories/Aptsrc_Props.v
theories/Words_Model.v
theories/Words_Spec.v
theories/Words_Proofs.v
theories/Words_Props.v
theories/Search_Model.v
theories/Search_Spec.v
theories/Search_Proofs.v
theories/Search_Props.v
theories/Mounts_Model.v
theories/Mounts_Spec.v
theories/Mounts_Proofs.v
theories/Mounts_Props.v
theories/Sigbase_Model.v
theories/Sigbase_Spec.v
theories/Sigbase_Proofs.v
theories/Sigbase_Props.v
theories/Sigtask_Model.v
theories/Sigtask_Spec.v
theories/Sigtask_Proofs.v
theories/Sigtask_Props.v
theories/Siglock_Model.v
theories/Siglock_Spec.v
theories/Siglock_Proofs.v
theories/Siglock_Props.v
theories/Changelog_Model.v
theories/Changelog_Spec.v
theories/Changelog_Proofs.v
theories/Changelog_Props.v
theories/Debcache_Model.v
theories/Debcache_Spec.v
theories/Debcache_Proofs.v
theories/Debcache_Props.v
theories/Accounts_Model.v
theories/Accounts_Spec.v
theories/Accounts_Proofs.v
theories/Accounts_Props.v
theories/Locales_Model.v
theories/Locales_Spec.v
theories/Locales_Proofs.v
theories/Locales_Props.v
theories/Patch_Model.v
theories/Patch_Spec.v
theories/Patch_Proofs.v
theories/Patch_Props.v
theories/Repo_Model.v
theories/Repo_Spec.v
theories/Repo_Proofs.v
theories/Repo_Props.v
theories/Sbuild_Model.v
theories/Sbuild_Spec.v
theories/Sbuild_Proofs.v
theories/Sbuild_Props.v
theories/Fetch_Model.v
theories/Fetch_Spec.v
theories/Fetch_Proofs.v
theories/Fetch_Props.v
theories/Parse_Model.v
theories/Parse_Spec.v
theories/Parse_Proofs.v
theories/Parse_Props.v
theories/Tasks_Model.v
theories/Tasks_Spec.v
theories/Tasks_Proofs.v
theories/Tasks_Props.v
theories/Classes_Model.v
theories/Classes_Spec.v
theories/Classes_Proofs.v
theories/Classes_Props.v
theories/Bbfile_Model.v
theories/Bbfile_Spec.v
theories/Bbfile_Proofs.v
theories/Bbfile_Props.v
theories/Graph_Model.v
theories/Graph_Spec.v
theories/Graph_Proofs.v
theories/Graph_Props.v
theories/Taskdata_Model.v
theories/Taskdata_Spec.v
theories/Taskdata_Proofs.v
theories/Taskdata_Props.v
theories/Rprov_Model.v
theories/Rprov_Spec.v
theories/Rprov_Proofs.v
theories/Rprov_Props.v
theories/Targets_Model.v
theories/Targets_Spec.v
theories/Targets_Proofs.v
theories/Targets_Props.v
theories/Multiconf_Model.v
theories/Multiconf_Spec.v
theories/Multiconf_Proofs.v
theories/Multiconf_Props.v
theories/Sceneq_Model.v
theories/Sceneq_Spec.v
theories/Sceneq_Proofs.v
theories/Sceneq_Props.v
theories/Pcache_Model.v
theories/Pcache_Spec.v
theories/Pcache_Proofs.v
theories/Pcache_Props.v
theories/Filesum_Model.v
theories/Filesum_Spec.v
theories/Filesum_Proofs.v
theories/Filesum_Props.v
theories/Sstfind_Model.v
theories/Sstfind_Spec.v
theories/Sstfind_Proofs.v
theories/Sstfind_Props.v
theories/Depvalid_Model.v
theories/Depvalid_Spec.v
theories/Depvalid_Proofs.v
theories/Depvalid_Props.v
theories/Sstpack_Model.v
theories/Sstpack_Spec.v
theories/Sstpack_Proofs.v
theories/Sstpack_Props.v
theories/Layers_Model.v
theories/Layers_Spec.v
theories/Layers_Proofs.v
theories/Layers_Props.v
theories/Stamps_Model.v
theories/Stamps_Spec.v
theories/Stamps_Proofs.v
theories/Stamps_Props.v
theories/Events_Model.v
theories/Events_Spec.v
theories/Events_Proofs.v
theories/Events_Props.v
theories/Gitrev_Model.v
theories/Gitrev_Spec.v
theories/Gitrev_Proofs.v
theories/Gitrev_Props.v
theories/Rootfiles_Model.v
theories/Rootfiles_Spec.v
theories/Rootfiles_Proofs.v
theories/Rootfiles_Props.v
theories/Rootcmd_Model.v
theories/Rootcmd_Spec.v
theories/Rootcmd_Proofs.v
theories/Rootcmd_Props.v
theories/Ssttrip_Model.v
theories/Ssttrip_Spec.v
theories/Ssttrip_Proofs.v
theories/Ssttrip_Props.v
theories/Mirror_Model.v
theories/Mirror_Spec.v
theories/Mirror_Proofs.v
theories/Mirror_Props.v
theories/Rehash_Model.v
theories/Rehash_Spec.v
theories/Rehash_Proofs.v
theories/Rehash_Props.v
theories/Wicfs_Model.v
theories/Wicfs_Spec.v
theories/Wicfs_Proofs.v
theories/Wicfs_Props.v
theories/Debsrc_Model.v
theories/Debsrc_Spec.v
theories/Debsrc_Proofs.v
theories/Debsrc_Props.v
theories/Layerconf_Model.v
theories/Layerconf_Spec.v
theories/Layerconf_Proofs.v
theories/Layerconf_Props.v
theories/Wpipe_Model.v
theories/Wpipe_Spec.v
theories/Wpipe_Proofs.v
theories/Wpipe_Props.v
theories/Moves_Model.v
theories/Moves_Spec.v
theories/Moves_Proofs.v
theories/Moves_Props.v
theories/Exec_Model.v
theories/Exec_Spec.v
theories/Exec_Proofs.v
theories/Exec_Props.v
theories/Emit_Model.v
theories/Emit_Spec.v
theories/Emit_Proofs.v
theories/Emit_Props.v
theories/Environ_Model.v
theories/Environ_Spec.v
theories/Environ_Proofs.v
theories/Environ_Props.v
theories/Install_Model.v
theories/Install_Spec.v
theories/Install_Proofs.v
theories/Install_Props.v
theories/Expand_Model.v
theories/Expand_Spec.v
theories/Expand_Proofs.v
theories/Expand_Props.v
theories/Epoch_Model.v
theories/Epoch_Spec.v
theories/Epoch_Proofs.v
theories/Epoch_Props.v
theories/Variants_Model.v
theories/Variants_Spec.v
theories/Variants_Proofs.v
theories/Variants_Props.v
theories/Kernelcfg_Model.v
theories/Kernelcfg_Spec.v
theories/Kernelcfg_Proofs.v
theories/Kernelcfg_Props.v
theories/Cleandirs_Model.v
theories/Cleandirs_Spec.v
theories/Cleandirs_Proofs.v
theories/Cleandirs_Props.v
theories/Gitalt_Model.v
theories/Gitalt_Spec.v
theories/Gitalt_Proofs.v
theories/Gitalt_Props.v
theories/Template_Model.v
theories/Template_Spec.v
theories/Template_Proofs.v
theories/Template_Props.v
theories/Siginfo_Model.v
theories/Siginfo_Spec.v
theories/Siginfo_Proofs.v
theories/Siginfo_Props.v
theories/World_Model.v
theories/World_Spec.v
theories/World_Proofs.v
theories/World_Props.v
theories/Layerseries_Model.v
theories/Layerseries_Spec.v
theories/Layerseries_Proofs.v
theories/Layerseries_Props.v
theories/Diskmon_Model.v
theories/Diskmon_Spec.v
theories/Diskmon_Proofs.v
theories/Diskmon_Props.v
theories/Enforce_Model.v
theories/Enforce_Spec.v
theories/Enforce_Proofs.v
theories/Enforce_Props.v
theories/Launch_Model.v
theories/Launch_Spec.v
theories/Launch_Proofs.v
theories/Launch_Props.v
theories/Emptylayer_Model.v
theories/Emptylayer_Spec.v
theories/Emptylayer_Proofs.v
theories/Emptylayer_Props.v
theories/Refvars_Model.v
theories/Refvars_Spec.v
theories/Refvars_Proofs.v
theories/Refvars_Props.v
theories/Filelayer_Model.v
theories/Filelayer_Spec.v
theories/Filelayer_Proofs.v
theories/Filelayer_Props.v
theories/Stale_Model.v
theories/Stale_Spec.v
theories/Stale_Proofs.v
theories/Stale_Props.v
