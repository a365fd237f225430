{"id": "C01", "title": "wic: partitions never overlap and lie inside the image", "statement": "When wic lays out a disk and does not report an error, every partition starts after the partition-table header, occupies exactly its size rounded down to whole sectors, starts no earlier than the end of the partition before it, and the image file created is large enough for every partition plus (for GPT) the backup table.", "quantifier": "all partition lists, sizes, alignments, explicit offsets, partition-table types and --no-table flags", "why_tests_cant": "the layout is a fold over an arbitrary-length list with several interacting branches; a test only sees particular wks files", "anchors": ["scripts/lib/wic/plugins/imager/direct.py: PartitionedImage.layout_partitions, PartitionedImage.create"]}
{"id": "C02", "title": "wic: --align and --offset are honoured exactly or rejected", "statement": "A partition without --offset starts at the smallest sector that is a multiple of its --align and not before the space already used; a partition with --offset starts exactly at that byte; an --offset that is not sector aligned or that would overlap already allocated space is an error and never silently moved.", "quantifier": "all partition lists and all align/offset values", "why_tests_cant": "boundary arithmetic over unbounded integers", "anchors": ["scripts/lib/wic/plugins/imager/direct.py: PartitionedImage.layout_partitions"]}
{"id": "C03", "title": "wic: the partition number wic writes into fstab/root= is the number the partition gets in the table", "statement": "The number used for /dev/<disk>N in fstab and for root= equals the number the partition is created with in the partition table; --no-table partitions have number 0 and consume none.", "quantifier": "all partition lists and partition-table types", "why_tests_cant": "two independent numbering algorithms (one before, one during layout) have to agree on every input", "anchors": ["scripts/lib/wic/plugins/imager/direct.py: PartitionedImage.__init__, PartitionedImage.layout_partitions, DirectPlugin.update_fstab, DirectPlugin.rootdev"]}
{"id": "C04", "title": "wic: MBR tables stay valid (at most 4 primary entries, logical partitions inside the extended one)", "statement": "For an msdos table, at most four entries (primary plus extended) are created, and every logical partition together with its two EBR sectors lies inside the extended partition that is created.", "quantifier": "all partition lists with ptable msdos", "why_tests_cant": "depends on accumulated counters over the whole list", "anchors": ["scripts/lib/wic/plugins/imager/direct.py: PartitionedImage.layout_partitions, PartitionedImage.create"]}
{"id": "C05", "title": "wic: sparse copy reproduces the source byte for byte", "statement": "Copying a (partially mapped) source into a destination at a given seek, after skipping a prefix and limited to a length, makes every destination byte that corresponds to a mapped source byte in the copied window equal to it and leaves all other destination bytes unchanged; if the destination window was zero the result equals the source window.", "quantifier": "all source contents, hole layouts, skip/seek/length values and destinations", "why_tests_cant": "interaction of hole boundaries, chunking, skip and length; infinitely many layouts", "anchors": ["scripts/lib/wic/filemap.py: sparse_copy"]}
{"id": "C06", "title": "wic: merging of extents reported by FIEMAP preserves exactly the set of mapped blocks", "statement": "The merged ranges cover exactly the blocks of the reported extents, are sorted, pairwise disjoint and never adjacent.", "quantifier": "all sequences of extents", "why_tests_cant": "generator state machine over arbitrary sequences", "anchors": ["scripts/lib/wic/filemap.py: FilemapFiemap.get_mapped_ranges"]}
{"id": "C07", "title": "wic: kickstart sizes mean what the suffix says", "statement": "A size argument is either rejected or converted to value*unit for the documented suffix, with the documented default unit when no suffix is given, and the result is expressed in the unit (KiB or bytes) the consumer uses.", "quantifier": "all argument strings", "why_tests_cant": "string parsing over all inputs", "anchors": ["scripts/lib/wic/ksparser.py: sizetype, systemidtype"]}
{"id": "C08", "title": "Version comparison is a total order on versions", "statement": "Comparing two versions is reflexive, antisymmetric (swapping the arguments negates the result) and transitive, so that sorting by it and picking the latest recipe is well defined and independent of the order in which recipes are seen.", "quantifier": "all triples of (epoch, version, revision) strings", "why_tests_cant": "transitivity quantifies over triples of arbitrary strings; unit tests check pairs", "anchors": ["bitbake/lib/bb/utils.py: explode_version, split_version, vercmp_part, vercmp, vercmp_string, vercmp_string_op"]}
{"id": "C09", "title": "Version comparison follows Debian tilde/number/letter rules", "statement": "Numeric components compare as numbers, '~' sorts before the end of the string, letters sort after the end of the string, and a digit sequence is compared by value regardless of leading zeros.", "quantifier": "all version strings", "why_tests_cant": "infinitely many strings", "anchors": ["bitbake/lib/bb/utils.py: explode_version, vercmp_part"]}
{"id": "C10", "title": "RPC messages survive chunking", "statement": "Whatever message a client or server sends over the line protocol is received unchanged, whatever its length relative to the chunk limit, and consecutive messages never run into each other.", "quantifier": "all messages and all chunk limits and all message sequences", "why_tests_cant": "boundary conditions on lengths; arbitrary message sequences", "anchors": ["bitbake/lib/bb/asyncrpc/connection.py: chunkify, StreamConnection.send_message, StreamConnection.recv_message, StreamConnection.recv"]}
{"id": "C11", "title": "PR server: the same checksum always gets the same revision; distinct checksums get distinct ones (history mode)", "statement": "In history mode a (version, arch, checksum) that was once given a value is given the same value forever, a new checksum is given a value strictly larger than all values of that (version, arch), and other (version, arch) groups are unaffected.", "quantifier": "all histories of requests", "why_tests_cant": "an invariant over unbounded histories", "anchors": ["bitbake/lib/prserv/db.py: PRTable._get_value_hist, PRTable.get_value"]}
{"id": "C12", "title": "PR server: revisions never go backwards (no-history mode)", "statement": "In no-history mode the sequence of values handed out for a (version, arch) never decreases, returning to an earlier checksum yields a new larger value, and repeating the current checksum yields the current value.", "quantifier": "all histories of requests and imports", "why_tests_cant": "an invariant over unbounded histories", "anchors": ["bitbake/lib/prserv/db.py: PRTable._get_value_no_hist, PRTable._import_no_hist"]}
{"id": "C13", "title": "PR server: export followed by import into an empty server preserves answers", "statement": "Importing what another server exported makes the new server answer every known (version, arch, checksum) in history mode with the same value; in no-history mode the current value of every (version, arch) is preserved.", "quantifier": "all databases", "why_tests_cant": "quantifies over all databases", "anchors": ["bitbake/lib/prserv/db.py: PRTable.export, PRTable.importone"]}
{"id": "C14", "title": "PR server: acknowledged revisions survive a crash", "statement": "Once the server answered a request, a crash and restart must not let it hand out the same value for a different checksum.", "quantifier": "all histories with a crash at any point", "why_tests_cant": "crash points", "anchors": ["bitbake/lib/prserv/serv.py: PRServerClient.dispatch_message", "bitbake/lib/prserv/db.py: PRTable.sync_if_dirty"]}
{"id": "C15", "title": "Hash server: the unified hash of a task never changes", "statement": "Once the server has answered a unihash for (method, taskhash), every later report or query for it returns the same unihash, whatever other clients report in between, as long as no removal or garbage collection deletes it.", "quantifier": "all interleavings of client requests", "why_tests_cant": "invariant over unbounded request histories", "anchors": ["bitbake/lib/hashserv/server.py: ServerClient.handle_report, handle_equivreport, handle_get", "bitbake/lib/hashserv/sqlite.py: insert_unihash, insert_outhash, get_equivalent_for_outhash"]}
{"id": "C16", "title": "Hash server: a new task hash with a known output joins the oldest matching task", "statement": "When a report for a task hash not seen before carries an output hash already recorded for another task hash of the same method, the unihash returned is the one of the oldest such record; otherwise it is the unihash the client proposed.", "quantifier": "all database states and reports", "why_tests_cant": "quantifies over all databases", "anchors": ["bitbake/lib/hashserv/server.py: ServerClient.handle_report"]}
{"id": "C17", "title": "Hash server: garbage collection keeps everything marked", "statement": "After a sweep with a mark, exactly the unihash entries carrying that mark (plus entries added since) remain, a sweep with any other mark than the current one is refused, and later inserts get the current mark.", "quantifier": "all histories of gc-mark, inserts and sweeps", "why_tests_cant": "invariant over histories", "anchors": ["bitbake/lib/hashserv/sqlite.py: gc_mark, gc_sweep, gc_status", "bitbake/lib/hashserv/server.py: handle_gc_mark, handle_gc_sweep"]}
{"id": "C18", "title": "Hash server: clients can only do what their permissions allow", "statement": "A request is executed only if the anonymous permissions or the logged in user's permissions contain all permissions the request needs; a user without the user-administration (or all) permission can never raise anyone's permissions.", "quantifier": "all sequences of requests by any clients", "why_tests_cant": "security property over all histories", "anchors": ["bitbake/lib/hashserv/server.py: permissions, user_has_permissions, handle_auth, handle_become_user, handle_set_perms"]}
{"id": "C19", "title": "isar-sstate clean only deletes what is old", "statement": "Cleaning deletes an archive only if it is older than --max-age, deletes a signature file only if it is older than --max-sig-age or (per documentation) its archive was deleted, deletes no foreign file, and deletes nothing that is used more recently.", "quantifier": "all file lists, ages and limits", "why_tests_cant": "quantifies over all directory contents and clock values", "anchors": ["scripts/isar-sstate: sstate_clean"]}
{"id": "C20", "title": "isar-sstate upload never overwrites and uploads everything missing", "statement": "After a successful upload every local file selected by the filters exists in the target; objects already present in the target are never altered; no object appears in the target that is not such a file, under its own path and with its own content.", "quantifier": "all local caches and targets", "why_tests_cant": "quantifies over all directory contents", "anchors": ["scripts/isar-sstate: sstate_upload"]}
{"id": "C21", "title": "Shared-state file names are unambiguous, bounded, and understood by isar-sstate", "statement": "The name generated for an archive never exceeds the file-name limit (or the build stops), always contains the complete hash and task name, two tasks with different hash or task never share a name, and isar-sstate recovers exactly the recipe, architecture, hash, task and suffix from it.", "quantifier": "all recipe specs, hashes, tasks", "why_tests_cant": "string arithmetic over all inputs; agreement of a generator and an independent parser", "anchors": ["meta/classes-global/sstate.bbclass: generate_sstatefn", "scripts/isar-sstate: SstateRegex"]}
{"id": "C22", "title": "Shared-state manifests list files before directories and children before parents", "statement": "Removing the entries of a manifest in order never tries to remove a directory before everything the same task put inside it, so that cleaning removes all files and every directory that nobody else populated.", "quantifier": "all directory trees (names without newline, leading or trailing blank) and all subsets populated by others", "why_tests_cant": "needs induction over trees", "anchors": ["meta/classes-global/sstate.bbclass: sstate_install, sstate_clean_manifest"]}
{"id": "C23", "title": "Stale-stamp cleanup removes only unreachable, unprotected manifests", "statement": "On a new build only manifests of this machine whose stamp is neither reachable nor preserved are cleaned, and the index keeps all the others.", "quantifier": "all index files and stamp sets", "why_tests_cant": "quantifies over all index files", "anchors": ["meta/classes-global/sstate.bbclass: sstate_eventhandler_reachablestamps"]}
{"id": "C24", "title": "Task scheduling respects dependencies", "statement": "A task is started only after every task it depends on has completed (been run successfully, skipped as current, or restored from the cache), in every order in which workers may finish.", "quantifier": "all task graphs, all completion orders, all scheduler choices", "why_tests_cant": "schedules", "anchors": ["bitbake/lib/bb/runqueue.py: RunQueueExecute.execute, task_completeoutright, setbuildable, RunQueueScheduler.next_buildable_task"]}
{"id": "C25", "title": "A failed task blocks everything that needs it and nothing else", "statement": "No task that (transitively) depends on a failed task is ever started; with --continue every other task still completes.", "quantifier": "all task graphs, failure sets and schedules", "why_tests_cant": "schedules and failures", "anchors": ["bitbake/lib/bb/runqueue.py: task_fail, task_completeoutright, execute"]}
{"id": "C26", "title": "Each task runs at most once and no more than the thread limit run at a time", "statement": "No task is started twice and the number of simultaneously running tasks never exceeds BB_NUMBER_THREADS.", "quantifier": "all schedules", "why_tests_cant": "schedules", "anchors": ["bitbake/lib/bb/runqueue.py: RunQueueExecute.can_start_task, RunQueueStats, execute"]}
{"id": "C27", "title": "Dependency loops are always detected and never reported falsely", "statement": "The task-weight computation reports a loop exactly when the task graph has one, and otherwise gives every task a weight larger than all tasks depending on it.", "quantifier": "all finite graphs", "why_tests_cant": "all graphs", "anchors": ["bitbake/lib/bb/runqueue.py: RunQueueData.calculate_task_weights"]}
{"id": "C28", "title": "File locks are mutually exclusive", "statement": "At no time do two processes hold the same lock file exclusively (or one exclusively and others shared), even though lock files are unlinked on release while others wait.", "quantifier": "all interleavings of system calls of any number of processes, crashes included", "why_tests_cant": "schedules, crash points", "anchors": ["bitbake/lib/bb/utils.py: lockfile, unlockfile"]}
{"id": "C29", "title": "Path resolution inside a root never escapes it", "statement": "Resolving any path below a root with the root-jailed realpath, whatever absolute, relative, dangling or cyclic symbolic links the tree contains, returns a path below the root or an error.", "quantifier": "all symlink configurations and paths", "why_tests_cant": "all file-system states", "anchors": ["meta/lib/oe/path.py: realpath, __realpath, __realpath_rel, __is_path_below"]}
{"id": "C30", "title": "Relative symlinks point to the same file as the absolute ones they replace", "statement": "Rewriting an absolute symlink into a relative one does not change the file it refers to.", "quantifier": "all link locations and targets", "why_tests_cant": "all pairs of paths", "anchors": ["meta/lib/oe/path.py: make_relative_symlink"]}
{"id": "C31", "title": "Implied list items are completed transitively and always terminate", "statement": "Expanding a list with its implied items yields exactly the items reachable through the implied-items flags from the listed ones, also when these flags form cycles.", "quantifier": "all implication maps and lists", "why_tests_cant": "all graphs", "anchors": ["meta/classes-global/lists.bbclass: add_implied_items"]}
{"id": "C32", "title": "Removing a '-item' from a list removes that item and nothing else", "statement": "An item prefixed with '-' cancels the same item, never other items, and the order of the remaining items is unaffected.", "quantifier": "all lists", "why_tests_cant": "all lists", "anchors": ["meta/classes-global/lists.bbclass: remove_prefixed_items"]}
{"id": "C33", "title": "Feature requirements skip a recipe exactly when violated", "statement": "A recipe is skipped iff ANY_OF features are given and none is present, or a REQUIRED feature is missing, or a CONFLICT feature is present.", "quantifier": "all feature sets", "why_tests_cant": "all sets", "anchors": ["meta/classes-recipe/features_check.bbclass"]}
{"id": "C34", "title": "Multiarch name rewriting is consistent and idempotent", "statement": "In a -native/-compat variant every dependency and provided name gets the suffix exactly once, names already suffixed are kept, and architecture-independent ones are handled as documented.", "quantifier": "all dependency lists", "why_tests_cant": "all lists", "anchors": ["meta/classes-recipe/multiarch.bbclass: fixup_depends, multiarch_virtclass_handler"]}
{"id": "C35", "title": "Requested image types are built and never deleted", "statement": "Every requested image type (with its conversions and type dependencies) is produced by some command, intermediate files are removed only if not requested, and a requested image file is never removed.", "quantifier": "all IMAGE_FSTYPES lists, conversions and type dependencies", "why_tests_cant": "all configurations", "anchors": ["meta/classes-recipe/image.bbclass: get_base_type, get_image_basetypes, anonymous python (collect_image_type, create_conversions)"]}
{"id": "C36", "title": "Datastore: override selection picks the highest-priority override", "statement": "The value of a variable is that of the conditional assignment whose override has the highest priority in OVERRIDES, or the unconditional value if none applies, independent of the order of assignments.", "quantifier": "all assignment histories and OVERRIDES values", "why_tests_cant": "histories", "anchors": ["bitbake/lib/bb/data_smart.py: DataSmart.setVar, getVarFlag, _setvar_update_overrides, need_overrides"]}
{"id": "C37", "title": "Datastore: append, prepend and remove have their documented order", "statement": "Appends are added after and prepends before the value in the order they were made, removals act on the finished whitespace-separated value and remove all occurrences of the listed words and nothing else.", "quantifier": "all histories of operations", "why_tests_cant": "histories", "anchors": ["bitbake/lib/bb/data_smart.py: DataSmart.getVarFlag, setVar"]}
{"id": "C38", "title": "Datastore: copies are isolated", "statement": "After making a copy of a datastore, changing the copy never changes the original and changing the original's own variables never affects what has been set in the copy.", "quantifier": "all sequences of operations on a tree of copies", "why_tests_cant": "histories", "anchors": ["bitbake/lib/bb/data_smart.py: createCopy, setVar, delVar, setVarFlag, _makeShadowCopy", "bitbake/lib/bb/COW.py: COWDictMeta"]}
{"id": "C39", "title": "Variable expansion terminates or reports a self reference", "statement": "Expanding references replaces every defined variable by its expanded value, leaves undefined references in place, and a (direct or mutual) self reference is reported instead of looping.", "quantifier": "all variable graphs and strings", "why_tests_cant": "all graphs", "anchors": ["bitbake/lib/bb/data_smart.py: expandWithRefs, VariableParse.var_sub"]}
{"id": "C40", "title": "Dependency strings: parsing and printing are inverse", "statement": "Printing a dependency dictionary and parsing it again yields the same dictionary; version constraints keep their operator and never leak to another package.", "quantifier": "all dependency dictionaries", "why_tests_cant": "all inputs", "anchors": ["bitbake/lib/bb/utils.py: explode_deps, explode_dep_versions2, join_deps"]}
{"id": "C41", "title": "Fetch URLs: decode and encode are inverse", "statement": "Encoding a decoded URL and decoding again yields the same components; scheme, user, host, path and parameters do not leak into each other.", "quantifier": "all URLs", "why_tests_cant": "all strings", "anchors": ["bitbake/lib/bb/fetch2/__init__.py: decodeurl, encodeurl"]}
{"id": "C42", "title": "Downloads of different container images never share a cache file", "statement": "Two container image references that denote different images are stored under different file names in the download directory.", "quantifier": "all pairs of references", "why_tests_cant": "all pairs", "anchors": ["meta/lib/container_fetcher.py: Container.urldata_init"]}
{"id": "C43", "title": "Recipe selection is deterministic and honours priorities, preferences and required versions", "statement": "Among the recipes for a name the chosen one is in the highest-priority layer group, has the highest DEFAULT_PREFERENCE and then the highest version; a PREFERRED/REQUIRED version is chosen iff available; a required but unavailable version selects nothing; the answer does not depend on the order recipes were parsed.", "quantifier": "all recipe sets", "why_tests_cant": "all sets and orders", "anchors": ["bitbake/lib/bb/providers.py: sortPriorities, findLatestProvider, findPreferredProvider, findBestProvider, preferredVersionMatch"]}
{"id": "C44", "title": "Install progress parsing is independent of how output is split", "statement": "Feeding the package manager's output in any pieces yields the same progress reports and the same text passed through.", "quantifier": "all outputs and all ways to cut them into pieces", "why_tests_cant": "all splittings", "anchors": ["meta/lib/rootfs_progress.py: PkgsProgressHandler.write"]}
{"id": "C45", "title": "Only directories inside TMPDIR are ever removed as root", "statement": "A root_cleandirs entry that passes the check is inside TMPDIR, and the directory removed is exactly the entry; template outputs stay inside WORKDIR.", "quantifier": "all path strings", "why_tests_cant": "all paths", "anchors": ["meta/classes-global/base.bbclass: anonymous python (root_cleandirs), root_cleandirs", "meta/classes-global/template.bbclass: do_transform_template"]}
{"id": "C46", "title": "Apt mirror rewriting applies the first matching rule to the URL only", "statement": "A sources-list line is parsed into type, options, URL, suite and components and printed back equal up to blanks; at most one premirror (the first matching) is applied, and lines that match none are unchanged.", "quantifier": "all lines and mirror lists", "why_tests_cant": "all lines", "anchors": ["meta/classes-recipe/bootstrap.bbclass: parse_aptsources_list_line, get_apt_source_mirror, aggregate_aptsources_list"]}
{"id": "C47", "title": "Word-list predicates used in recipes are set operations", "statement": "contains/contains_any/filter on whitespace separated variables behave as set inclusion, intersection test and order-normalised intersection of the words, whatever the whitespace.", "quantifier": "all strings", "why_tests_cant": "all strings", "anchors": ["bitbake/lib/bb/utils.py: contains, contains_any, filter", "meta/lib/oe/utils.py: both_contain, set_intersect, prune_suffix, trim_version"]}
{"id": "C48", "title": "File-search path order: files of more specific overrides win", "statement": "The FILESPATH search list contains every configured directory combined with every override, ordered first by override priority and then by directory order, so that the first existing file is the most specific.", "quantifier": "all override and path lists", "why_tests_cant": "all lists", "anchors": ["meta/classes-global/base.bbclass: base_set_filespath", "bitbake/lib/bb/utils.py: which"]}
{"id": "C49", "title": "Hash server: cleaning unused outputs removes only old unreferenced records", "statement": "Cleaning with a maximum age removes exactly the output records that are older than that age and whose task has no unihash; records of tasks with a unihash, younger records and all unihashes stay.", "quantifier": "all histories, times and ages", "why_tests_cant": "all histories", "anchors": ["bitbake/lib/hashserv/server.py: handle_clean_unused", "bitbake/lib/hashserv/sqlite.py: clean_unused"]}
{"id": "C50", "title": "Mounts needed to fill a root file system do not outlive the task", "statement": "Whichever command or mount fails, when the installation task ends nothing it mounted below the root file system is left and no other mount has changed, also while other tasks mount and unmount elsewhere; while its commands run everything needed is mounted and the package lock is held from acquiring to releasing; what a killed task left is removed at the end of the build.", "quantifier": "all command lists, failure points, mount tables, interleavings with other tasks and kill points", "why_tests_cant": "depends on every failure and kill point and on other tasks", "anchors": ["meta/classes-recipe/rootfs.bbclass: rootfs_do_mounts, rootfs_do_umounts, do_rootfs_install, do_rootfs_postprocess, do_generate_initramfs", "meta/classes-global/isar-events.bbclass: build_completed"]}
{"id": "C51", "title": "A second execution of a task within one build is reported", "statement": "Starting a task is reported as a multiple execution exactly when it was already started in the same build and has not failed since; no other event is reported so.", "quantifier": "all histories of builds, task starts, failures and successes", "why_tests_cant": "all histories", "anchors": ["meta/classes-global/isar-events.bbclass: build_started, task_started, task_failed"]}
{"id": "C52", "title": "The signature of a task covers what the task uses", "statement": "The base hash of a task is computed from its own text, its relevant flags and the text of every variable reachable from it by references, appends, prepends and removes; a change of one covered text changes what is hashed.", "quantifier": "all data stores, reference graphs and single changes", "why_tests_cant": "quantifies over all reference graphs and all changes", "anchors": ["bitbake/lib/bb/data.py: build_dependencies, generate_dependencies, generate_dependency_hash"]}
{"id": "C53", "title": "Variables a task does not use never change its signature", "statement": "Two data stores that agree on the task and on all variables reachable from it give the same base hash; variables that are excluded or ignored never matter.", "quantifier": "all pairs of data stores", "why_tests_cant": "quantifies over all pairs of data stores", "anchors": ["bitbake/lib/bb/data.py: generate_dependencies, generate_dependency_hash"]}
{"id": "C54", "title": "The task hash does not depend on listing order, schedule or location", "statement": "The order in which dependencies and files are found, the order in which independent tasks are hashed and the directory the sources lie in make no difference to a task's hash; every task gets its hash if the dependency graph has no loop.", "quantifier": "all permutations, all schedules, all directories, all acyclic task graphs", "why_tests_cant": "all schedules and orders", "anchors": ["bitbake/lib/bb/siggen.py: prep_taskhash, get_taskhash", "bitbake/lib/bb/runqueue.py: prepare", "bitbake/lib/bb/checksum.py: get_checksums"]}
{"id": "C55", "title": "A change reaches exactly the tasks that depend on it", "statement": "When the input of one task changes, what is hashed changes for that task and for every task that depends on it, directly or not, and for no other task, provided the hash function does not collide.", "quantifier": "all acyclic task graphs and all collision-free hash functions", "why_tests_cant": "all graphs", "anchors": ["bitbake/lib/bb/siggen.py: prep_taskhash, get_taskhash"]}
{"id": "C56", "title": "A dumped signature is enough to recompute the hash", "statement": "The hash recomputed from a signature dump equals the hash computed during the build.", "quantifier": "all tasks, dependencies, files and taints", "why_tests_cant": "all inputs", "anchors": ["bitbake/lib/bb/siggen.py: dump_sigtask, calc_basehash, calc_taskhash"]}
{"id": "C57", "title": "Task identifiers can be taken apart again", "statement": "Building a task identifier from configuration, recipe file and task name and splitting it gives the three parts back; different triples have different identifiers.", "quantifier": "all configurations, file names and task names without the separators", "why_tests_cant": "all strings", "anchors": ["bitbake/lib/bb/runqueue.py: split_tid_mcfn, build_tid, taskname_from_tid, fn_from_tid"]}
{"id": "C58", "title": "Taints make a task run again and stay in force", "statement": "A task marked as never up to date gets a hash that differs between sessions but not within one; forcing a task changes its hash until the force is removed; tasks with neither have no taint.", "quantifier": "all sessions, histories of calls and taint files", "why_tests_cant": "all histories", "anchors": ["bitbake/lib/bb/siggen.py: prep_taskhash, get_taskhash, invalidate_task"]}
{"id": "C59", "title": "Which dependencies count for a task's signature", "statement": "Apart from do_rm_work and one declared kernel exception, dependencies on tasks of the same recipe always count; a dependency on another recipe is left out exactly when a declared rule says so.", "quantifier": "all recipes, dependencies and rule lists", "why_tests_cant": "all inputs", "anchors": ["meta/lib/oe/sstatesig.py: sstate_rundepfilter"]}
{"id": "C60", "title": "Locked signatures hold a task's hash fixed", "statement": "A locked task reports the locked hash on every call whatever its inputs, other tasks are unaffected, the dump of locked signatures reads back to the same locks, and the last entry for a task wins.", "quantifier": "all lock lists, hash histories and schedules", "why_tests_cant": "all histories", "anchors": ["meta/lib/oe/sstatesig.py: sstate_lockedsigs, get_taskhash, dump_lockedsigs"]}
{"id": "C61", "title": "The generated Debian changelog", "statement": "A recipe's changelog is the given one, or the generated one, with an entry of the recipe's version on top exactly when the version there differs; repeating the task on the same sources changes nothing, also after an interruption at points where it can recover; no entry carries a date older than the sources require.", "quantifier": "all recipes, versions, source trees, interruption points and repetitions", "why_tests_cant": "all histories and crash points", "anchors": ["meta/classes-recipe/debianize.bbclass: deb_add_changelog"]}
{"id": "C62", "title": "Dependency lists and build profiles of packages", "statement": "A list of dependencies is written as its non-empty items, each stripped, separated by comma and blank, whatever separators and blanks the recipe used, and writing it again changes nothing; the build profiles are the configured ones plus cross exactly when the architectures differ.", "quantifier": "all lists and architectures", "why_tests_cant": "all strings", "anchors": ["meta/classes/base.bbclass: deb_list_beautify", "meta/classes-recipe/dpkg-base.bbclass: isar_deb_build_profiles"]}
{"id": "C63", "title": "Which source packages are downloaded", "statement": "The sources of all wanted packages that apt knows are there afterwards or reported as missing, whatever the order of the fields in the package lists; nothing that is there is downloaded again or removed; nothing else is asked for; only failed downloads are reported.", "quantifier": "all package lists, field orders, download results and contents of the download directory", "why_tests_cant": "all inputs and histories", "anchors": ["meta/classes-recipe/deb-dl-dir.bbclass: debsrc_source_version_filter, debsrc_download"]}
{"id": "C64", "title": "The cache of downloaded packages", "statement": "A package in the cache never changes; exporting adds exactly the downloaded packages whose names are not in it and which are not isar's own, in whatever order they are found, and loses none; importing into an empty directory gives exactly the packages of the cache.", "quantifier": "all caches, downloads, repositories, file orders and histories of exports", "why_tests_cant": "all histories", "anchors": ["meta/classes-recipe/deb-dl-dir.bbclass: deb_dl_dir_import, deb_dl_dir_export"]}
{"id": "C65", "title": "Accounts and groups of an image are exactly what is configured, however often the step is interrupted", "statement": "After the account step, every configured group and user exists with every configured value (id, home, shell, comment, groups, password as configured or hashed), values that are not configured and accounts that are not configured are unchanged, and an account that did not exist is made with the configured flags. Whether an account exists is decided by its whole name. Stopping the step at any command and starting it again, any number of times, ends in the same accounts as one run, and a second run changes nothing. Two users with the same clear-text password should not get the same stored hash.", "quantifier": "every configuration of groups and users, every initial set of accounts, every default chosen by the tools, every point at which the step stops and every number of restarts", "why_tests_cant": "Tests try one configuration on one base image; the property ranges over every initial set of accounts and every interruption.", "anchors": ["meta/classes-recipe/image-account-extension.bbclass: image_create_groups, image_create_users, image_postprocess_accounts"]}
{"id": "C66", "title": "Locales generated in an image and locales kept by the purge agree with LOCALE_GEN", "statement": "Each item of LOCALE_GEN that is not blank is written to locale.gen once, without surrounding blanks and in sorted order, whatever the order, repetition or spacing of the items; nothing else is added. The locales kept are exactly the language, the locale without codeset and the full locale of each item, so nothing that is generated is purged. Repeating the step adds no line that the first run did not add; it should leave the file unchanged.", "quantifier": "every list of items, every spacing and order of them, every file already in the image and every number of runs", "why_tests_cant": "The property ranges over all values of LOCALE_GEN and all files of the image; a test tries a few.", "anchors": ["meta/classes-recipe/image-locales-extension.bbclass: get_locale_gen, get_nopurge, image_install_localepurge_install"]}
{"id": "C67", "title": "The patches of a recipe are exactly the sources that are patches and within their limits, in order", "statement": "A source of SRC_URI is applied if and only if it is not a directory, it is told to be a patch or has the name of one (.patch or .diff, perhaps packed) and is not told otherwise, and every limit given with it (dates, revisions, versions) holds. The patches come in the order of SRC_URI, each with its strip level (striplevel, else pnum, else 1), its directory and the unpacked file. There is an answer unless a parameter has no meaning. A limit on the revision should compare whole revisions.", "quantifier": "every list of sources with any names and parameters, every date, revision and version of the recipe", "why_tests_cant": "Tests try a few names and parameters; the rule has to hold for every combination of names, packings and limits.", "anchors": ["meta/lib/oe/patch.py: patch_path, src_patches, should_apply", "meta/lib/oe/types.py: boolean"]}
{"id": "C68", "title": "The source tree after patching depends only on the patches of this run", "statement": "Whatever earlier runs of the task did, successful or not, a run leaves in each directory it patches exactly the files before any patch with the patches of this run applied in order. It succeeds if and only if all of them apply, stops at the first that does not, and leaves other directories alone. This should also hold for patches of the same base name, for one directory under two names, for directories no longer patched, and with quilt after a first patch that did not apply.", "quantifier": "every history of runs with any lists of patches, every tree, every patch that can be taken back", "why_tests_cant": "The property is about all histories of edits and failures; tests patch a fresh tree once.", "anchors": ["meta/lib/oe/patch.py: PatchTree, QuiltTree, NOOPResolver", "meta/classes-recipe/patch.bbclass: patch_do_patch"]}
{"id": "C69", "title": "isar-apt holds what the last deploy of each package says", "statement": "After the packages of a recipe are deployed, the repository isar-apt holds for each of their names and architectures the newest one deployed, even over a newer version or other bytes of the same version that were there before, and every other package is unchanged. Stopping the task at any command, any number of times, and running it again gives the same repository, and after any history of deploys each package is the one of the last task that deployed it. (False in two ways: packages of earlier builds are not removed from the work directory and are deployed with the new ones, so going back to an older version has no effect; a package that a recipe no longer builds stays in the repository.)", "quantifier": "all lists of packages, all contents of the repository, all stop points and numbers of restarts, all histories of deploys, any strict total order of versions", "why_tests_cant": "Which package wins depends on everything that was deployed before and on where earlier runs stopped; a test sees one history.", "anchors": ["meta/classes-recipe/dpkg-base.bbclass: do_deploy_deb, deb_clean, do_local_isarapt", "meta/classes-recipe/repository.bbclass: repo_add_packages, repo_del_package"]}
{"id": "C70", "title": "base-apt holds the newest of what was downloaded", "statement": "After base-apt is filled, it holds for each name and architecture the newest of the packages it had and those found in the download directory, where a downloaded file takes the place of one with the same name, version and architecture but other bytes. The order in which files are found makes no difference, a second run changes nothing, and nothing that was there or downloaded is lost without one that is at least as new. The query for a package answers exactly whether the same file, another file of that name, or none is there.", "quantifier": "all sets of downloaded packages in all orders, all contents of the repository, any strict total order of versions", "why_tests_cant": "The loop decides for each file from what earlier files left, and find gives no order; a test tries one order.", "anchors": ["meta/recipes-devtools/base-apt/base-apt.bb: populate_base_apt", "meta/classes-recipe/repository.bbclass: repo_contains_package, repo_del_package, repo_add_packages"]}
{"id": "C71", "title": "The configuration of a repository is complete and current", "statement": "A new repository is configured with the given text, then a line with all key ids if keys are given, then the optional fields; running the creation again changes nothing. For isar-apt the configuration is what the recipe says now, however often the task was stopped before. (False for base-apt: when the task is stopped after the first write, the line with the keys is never added and the repository stays unsigned; and keys given after the first creation are not used.)", "quantifier": "all texts, key lists and optional fields, all earlier states, all stop points", "why_tests_cant": "What a restart does depends on which writes were done before the stop; tests do not stop between two writes.", "anchors": ["meta/classes-recipe/repository.bbclass: repo_create, repo_expand_opt_fields", "meta/recipes-devtools/isar-apt/isar-apt.bb: do_cache_config", "meta/recipes-devtools/base-apt/base-apt.bb: repo, do_cache"]}
{"id": "C72", "title": "The environment of a package build is what the task changed plus what is passed through", "statement": "The configuration written for a package build gives each variable the value it was given last: the value passed through by name if there is one, and otherwise the value in the environment of the task if it differs from the reference environment and is not HOME, PWD or SOURCE_DATE_EPOCH. Exactly nine named variables pass the filter.", "quantifier": "all reference and task environments, pass-through lists and orders of exports and filters", "why_tests_cant": "The file is edited in place by sed once per variable, with names and values as patterns; tests run one environment.", "anchors": ["meta/classes-recipe/dpkg.bbclass: dpkg_runbuild, expand_sbuild_pt_additions", "meta/classes-recipe/sbuild.bbclass: sbuild_export, sbuild_add_env_filter"]}
{"id": "C73", "title": "The mounts of a build are added once and taken away again", "statement": "Adding the mounts keeps every line of the table, makes every mount present and doubles no line, and adding them again changes nothing. Removing them takes away every mount and brings the table back to what it was.", "quantifier": "all mount lists and all tables", "why_tests_cant": "Insertion compares whole lines and removal searches patterns; whether they are inverse depends on every line of the table.", "anchors": ["meta/classes-recipe/sbuild.bbclass: insert_mounts, remove_mounts"]}
{"id": "C74", "title": "A download that ends well has the checksums the recipe states", "statement": "Whatever the premirrors, the upstream server and the mirrors send, when the download of an address ends with success the file in the download directory has every checksum that the recipe states; this holds after every history of downloads for recipes with changing checksums and of outside changes that do not backdate files below the done stamp. When checksums are required (BB_STRICT_CHECKSUM = 1) an address without any is never downloaded with success. A recipe's whole download that ends with success leaves every file verified, except that an address that met an error of the local disk is silently skipped.", "quantifier": "all contents sent by servers and mirrors, all checksums and histories of the download directory", "why_tests_cant": "Tests fetch a handful of files; the claim ranges over every response of every server, every earlier state of the stamp and every order of recipe changes.", "anchors": ["bitbake/lib/bb/fetch2/__init__.py: verify_checksum, verify_donestamp, update_stamp, Fetch.download", "bitbake/lib/bb/fetch2/wget.py: Wget.download"]}
{"id": "C75", "title": "Sources are used in order, and the network only when allowed", "statement": "A file that is there and has the stated checksums is kept, whatever the sources have. Otherwise a first premirror with the right file is used. Premirrors, whatever they send, never keep the upstream server from being used when it has the right file. With the network off no file is downloaded; with premirrors only, or for an untrusted host, nothing the upstream server sends has any effect.", "quantifier": "all sources, contents, stamps and configurations", "why_tests_cant": "The order of fallbacks depends on every combination of failures of the sources; tests cover few.", "anchors": ["bitbake/lib/bb/fetch2/__init__.py: Fetch.download, try_mirrors, try_mirror_url, check_network_access, ensure_symlink, rename_bad_checksum"]}
{"id": "C76", "title": "The list of mirror addresses", "statement": "Each mirror address is listed once, is allowed, differs from the original and follows from it by replacements with lines of the mirror table, no line being used twice on the way; every allowed address that one line gives is listed; the search ends within as many steps as there are lines. A host is trusted exactly when a pattern of BB_ALLOWED_NETWORKS is the host or is *.domain for its domain; the port does not matter.", "quantifier": "all mirror tables, replacement results, patterns and hosts", "why_tests_cant": "Mirror tables can refer to each other in cycles; termination and completeness cannot be settled by examples.", "anchors": ["bitbake/lib/bb/fetch2/__init__.py: build_mirroruris, trusted_network"]}
{"id": "C77", "title": "Layout of configuration files and recipes", "statement": "Blank lines and comment blocks are ignored, and a statement may be broken over several lines with a backslash (trailing white space allowed) at any place: both parsers then see exactly the statements that were written. A file both parsers accept gives the same statements in both, unless a line ends in two backslashes.", "quantifier": "every sequence of blank lines, comments and statements, every way of breaking them into lines; every list of lines", "why_tests_cant": "Tests have a few hand-written files; the claim is about every layout of every file.", "anchors": ["bitbake/lib/bb/parse/parse_py/ConfHandler.py:handle", "bitbake/lib/bb/parse/parse_py/BBHandler.py:feeder"]}
{"id": "C78", "title": "Reading of assignments and directives", "statement": "A line is read as an assignment exactly if it has the form [export] NAME[FLAG] OP \"text\"; if the name does not end in a character of the operators it is read as written, and so has one meaning. Every other line is accepted exactly if it is an include, require, export, unset or flag unset directive.", "quantifier": "every line", "why_tests_cant": "The regular expressions admit infinitely many lines, and backtracking picks one of several ways to match.", "anchors": ["bitbake/lib/bb/parse/parse_py/ConfHandler.py:__config_regexp__", "bitbake/lib/bb/parse/parse_py/ConfHandler.py:feeder"]}
{"id": "C79", "title": "Assignment operators", "statement": "A file of assignments is evaluated without error and is equivalent to one that uses only = and ??= with texts computed by hand: ?= assigns only if nothing is assigned, += =+ .= =. add to what is assigned with or without a blank, ??= gives a default. The value of a variable is this text with its :append, :prepend and :remove operations around it; flags follow the same operators. := is = of the text expanded at that line; unset forgets value, default, operations and flags.", "quantifier": "every sequence of assignment lines, every variable and flag, every list of overrides that do not select a variant", "why_tests_cant": "Values depend on the whole history of assignments; tests try a few short histories.", "anchors": ["bitbake/lib/bb/parse/ast.py:DataNode.eval", "bitbake/lib/bb/data_smart.py:setVar"]}
{"id": "C80", "title": "Inclusion of configuration files", "statement": "Including a file by absolute name has the same effect as writing its lines at that place. A missing file is an error with require and ignored with include. A relative name is taken next to the including file before BBPATH is searched.", "quantifier": "every including and included file without further inclusions, every state before them", "why_tests_cant": "Tests include one or two small files; the claim is about all contents.", "anchors": ["bitbake/lib/bb/parse/parse_py/ConfHandler.py:include", "bitbake/lib/bb/parse/parse_py/ConfHandler.py:include_single_file", "bitbake/lib/bb/parse/parse_py/ConfHandler.py:handle"]}
{"id": "C81", "title": "The tasks of a recipe and what each waits for", "statement": "After any sequence of addtask and deltask lines in a recipe and its classes, the tasks are exactly those whose last line creates them, each once, and a task waits exactly for the tasks some line names, without those deleted later; without deltask the order of the lines does not matter.", "quantifier": "all sequences of addtask and deltask lines with any names", "why_tests_cant": "Classes and appends contribute lines in any order and number; tests cover the order of one recipe.", "anchors": ["bitbake/lib/bb/build.py: addtask, deltask, add_tasks", "bitbake/lib/bb/parse/ast.py: AddTaskNode, DelTaskNode"]}
{"id": "C82", "title": "The addtask line", "statement": "An addtask line with any of the keywords before and after, in either order and with any blanks, names the task and the two lists of names as written.", "quantifier": "all task names and lists of names", "why_tests_cant": "A regular expression with nested repetition and look-ahead: tests try a few names.", "anchors": ["bitbake/lib/bb/parse/parse_py/BBHandler.py: __addtask_regexp__, feeder"]}
{"id": "C83", "title": "The tasks between two tasks", "statement": "tasksbetween(start, end) returns each task on a dependency path from start to end exactly once and no other, ends for every recipe, and reports a circle exactly if one can be reached from start.", "quantifier": "all tasks and dependency graphs, all start and end tasks", "why_tests_cant": "All graphs; a depth-first search with a shared chain.", "anchors": ["bitbake/lib/bb/build.py: tasksbetween", "meta/classes-recipe/patch.bbclass: src_patches"]}
{"id": "C84", "title": "The classes of a recipe are exactly those that it, its appends and its classes name, each evaluated once", "statement": "After a recipe and its appends have been parsed, the classes that belong to it are exactly those named by inherit or inherit_defer in the recipe, in an append or, transitively, in one of these classes; each name stands for the first file on the search path (the directory for the type before classes). Each of these files, and no other, is evaluated once, from its first statement to its last; a statement is evaluated after the classes inherited above it in its file. This holds even if classes inherit each other; the parsing always ends, and fails exactly if one of the named classes is found nowhere. inherits_class answers accordingly.", "quantifier": "every set of files with their inherit and inherit_defer statements, every search path and every recipe with its appends", "why_tests_cant": "the graph of classes can have any shape, with cycles and classes reached on several ways; tests see a few recipes", "anchors": ["bitbake/lib/bb/parse/parse_py/BBHandler.py:inherit", "bitbake/lib/bb/parse/parse_py/BBHandler.py:handle", "bitbake/lib/bb/parse/ast.py:InheritNode", "bitbake/lib/bb/data.py:inherits_class"]}
{"id": "C85", "title": "Deferred classes come last, in the order in which they are named", "statement": "The classes named only by inherit_defer are evaluated after the recipe and all its appends; a file evaluated before such a class is the recipe, an append, a class of these inherited without delay, or is inherited by a class that was deferred before it.", "quantifier": "every set of files, every search path, every recipe with its appends", "why_tests_cant": "the deferred classes can inherit and defer further classes, in any order", "anchors": ["bitbake/lib/bb/parse/ast.py:InheritDeferredNode", "bitbake/lib/bb/parse/ast.py:finalize"]}
{"id": "C86", "title": "A function of a recipe's own is not replaced by an exported one; otherwise the last class exporting it counts", "statement": "If the recipe or a class defines a function itself, the last definition counts whatever functions of this name are exported by classes inherited before or after it, and it runs in the language in which it is defined. If there is no such definition, the function calls the one of the class that exports it last, in the language of this one.", "quantifier": "every sequence of function definitions and EXPORT_FUNCTIONS lines", "why_tests_cant": "definitions and exports come from many files in an order that depends on the inherit lines", "anchors": ["bitbake/lib/bb/parse/ast.py:ExportFuncsNode", "bitbake/lib/bb/parse/ast.py:MethodNode"]}
{"id": "C87", "title": "Every anonymous function is run once, in order", "statement": "The anonymous Python functions of a recipe and of its classes are each run once, in the order in which they are evaluated.", "quantifier": "every list of anonymous functions with their files and lines", "why_tests_cant": "the functions are stored under names made from the file name and line, which must not coincide", "anchors": ["bitbake/lib/bb/parse/ast.py:MethodNode", "bitbake/lib/bb/parse/ast.py:runAnonFuncs"]}
{"id": "C88", "title": "Functions of a recipe file", "statement": "Reading a recipe or class file finds exactly its functions: each header line, with the words python and fakeroot and the name, starts a function whose text is the lines up to the line that is a closing brace, each without trailing blanks; each def holds the lines that are indented, blank or comments; the lines in between are read as statements, in order. A file whose last function is not closed is refused.", "quantifier": "all files made of any number of comments, blank lines, statements over several lines, functions and defs with any text; all header lines", "why_tests_cant": "The header is a regular expression with optional repeated words and an optional name, and the reader keeps state across lines; tests can only try some headers and files.", "anchors": ["/repo/bitbake/lib/bb/parse/parse_py/BBHandler.py: __func_start_regexp__, __def_regexp__, feeder, handle", "/repo/bitbake/lib/bb/parse/ast.py: MethodNode, PythonMethodNode"]}
{"id": "C89", "title": "Commands of a recipe file", "statement": "A statement line that is one of the words EXPORT_FUNCTIONS, addtask, deltask, addhandler, inherit, inherit_defer followed by a blank and an argument is that command with that argument; every line that starts with none of them is read like a line of a configuration file.", "quantifier": "all statement lines", "why_tests_cant": "The commands are tried one after another by regular expressions; that none of them takes a line meant for another must hold for all lines.", "anchors": ["/repo/bitbake/lib/bb/parse/parse_py/BBHandler.py: feeder, __inherit_regexp__, __inherit_def_regexp__, __export_func_regexp__, __addtask_regexp__, __deltask_regexp__, __addhandler_regexp__"]}
{"id": "C90", "title": "Line numbers of functions in messages", "statement": "A message about a line of a function names the line of the recipe file it comes from: the code compiled for a python function or def has each line at the number it has in the file, and a failing line of a shell script is traced back to its line in the recipe through the comments in the script.", "quantifier": "all files, all functions and defs in them, all their lines, all scripts around the function", "why_tests_cant": "The numbers are derived by counting backwards from the end of a function and by padding; off-by-one errors depend on header length, blank lines and position.", "anchors": ["/repo/bitbake/lib/bb/parse/ast.py: MethodNode, PythonMethodNode", "/repo/bitbake/lib/bb/utils.py: better_compile", "/repo/bitbake/lib/bb/data.py: emit_var", "/repo/bitbake/lib/bb/build.py: exec_func_shell", "/repo/bitbake/lib/bb/methodpool.py: insert_method"]}
{"id": "C91", "title": "Direct dependencies of a task", "statement": "Before a build, each task gets exactly the dependencies its recipe names: those of addtask, of deptask and rdeptask for each DEPENDS and RDEPENDS that has a provider with such a task, of the flags depends and rdepends, of mcdepends, and the first level of recrdeptask; never itself. A dependency on a task that does not exist stops the build.", "quantifier": "all sets of recipes, tasks, providers, multiconfigs and flags", "why_tests_cant": "The dependency graph is assembled from eight sources with different rules for missing names; that nothing is lost or added must hold for every combination.", "anchors": ["/repo/bitbake/lib/bb/runqueue.py: RunQueueData.prepare (Step A)", "/repo/bitbake/lib/bb/taskdata.py: add_tasks, get_mcdepends"]}
{"id": "C92", "title": "recrdeptask reaches everything below", "statement": "A task with recrdeptask waits for the named tasks of every recipe that has a task anywhere below what it depends on (and below its recideptask tasks), and for what other such tasks below have found; tasks that name themselves do not wait for each other; nothing else is added, and the search always ends.", "quantifier": "all dependency graphs, of any size and depth, without circular direct dependencies (soundness and termination also with them)", "why_tests_cant": "The closure is computed by peeling the graph from its ends and by repeated passes until nothing changes; completeness and termination depend on the shape of the whole graph.", "anchors": ["/repo/bitbake/lib/bb/runqueue.py: RunQueueData.prepare (cumulativedeps, recursivetasks, recursivetasksselfref)"]}
{"id": "C93", "title": "Exactly what is needed is built", "statement": "The tasks of a build are exactly the requested tasks and everything they depend on, directly or not; a task with a final - asks for its dependencies only; what a task of the build depends on is in the build; a build is refused exactly if a dependency or a requested task does not exist or nothing is left to do.", "quantifier": "all sets of recipes and all lists of targets", "why_tests_cant": "The marking is a recursive search over an arbitrary graph.", "anchors": ["/repo/bitbake/lib/bb/runqueue.py: RunQueueData.prepare (Step B, mark_active, Step C)"]}
{"id": "C94", "title": "--runall and --runonly", "statement": "With --runall=T the build consists of task T of every recipe that has a requested task, and of every recipe with a task these need, and so on, with everything they need; with --runonly=T it consists of the tasks named T among these and what they need. The search always ends.", "quantifier": "all sets of recipes, targets and task names", "why_tests_cant": "--runall repeats until no task is new; that this ends and finds the least such set must hold for all graphs.", "anchors": ["/repo/bitbake/lib/bb/runqueue.py: RunQueueData.prepare (runall, runonly)"]}
{"id": "C95", "title": "Two versions of a recipe are never built together", "statement": "The check after pruning passes exactly if no two recipe files of the build in one multiconfig have the same PN and provide a common name that is not exempt; since a recipe provides its own PN, two versions of a recipe are never built together.", "quantifier": "all builds, providers and exemptions", "why_tests_cant": "The check groups recipe files by what they provide; a pair can be hidden by the order of the tasks.", "anchors": ["/repo/bitbake/lib/bb/runqueue.py: RunQueueData.prepare (Sanity Check - Check for multiple tasks building the same provider)"]}
{"id": "C96", "title": "Every dependency of a recipe in the build is provided", "statement": "After the dependencies of a build have been resolved, every name in DEPENDS or RDEPENDS of a recipe that takes part in the build and is not reported as unbuildable is assumed to be provided or has a first provider that can provide it, takes part in the build and is not unbuildable either; the same holds for every requested name that has not failed; and no recipe takes part that the requested names do not need.", "quantifier": "every set of recipes with any dependencies, task flags and choices of providers, every list of targets, with and without --continue (without it, if no target has failed)", "why_tests_cant": "Failures spread through providers and dependees in an order that depends on the graph; tests see a few graphs.", "anchors": ["bitbake/lib/bb/taskdata.py:TaskData.add_unresolved", "bitbake/lib/bb/taskdata.py:TaskData.add_tasks", "bitbake/lib/bb/taskdata.py:TaskData.add_provider", "bitbake/lib/bb/taskdata.py:TaskData.fail_fn", "bitbake/lib/bb/taskdata.py:TaskData.remove_buildtarget"]}
{"id": "C97", "title": "Recipes are unbuildable only for a reason", "statement": "A recipe is reported as unbuildable only if a chain of dependencies and of possible providers leads from it to a name that nothing provides; if every name has at most one provider, exactly these recipes among those of the build are reported. With several providers a recipe can be reported although recipes that can be built provide everything it needs.", "quantifier": "every set of recipes, every list of targets, all settings", "why_tests_cant": "It is a statement about all chains in all graphs and all orders in which failures are found.", "anchors": ["bitbake/lib/bb/taskdata.py:TaskData.fail_fn", "bitbake/lib/bb/taskdata.py:TaskData.remove_buildtarget", "bitbake/lib/bb/taskdata.py:TaskData.add_provider_internal"]}
{"id": "C98", "title": "The resolution of dependencies ends", "statement": "For any finite set of recipe files, also with circular dependencies, the resolution of the dependencies comes to an end.", "quantifier": "every finite set of recipes, every list of targets, all settings", "why_tests_cant": "Termination for all inputs cannot be tested.", "anchors": ["bitbake/lib/bb/taskdata.py:TaskData.add_unresolved", "bitbake/lib/bb/taskdata.py:TaskData.fail_fn"]}
{"id": "C99", "title": "Dependencies of tasks on tasks of other recipes are met", "statement": "For a recipe of the build that is not unbuildable, every name in the flags depends and rdepends of its tasks is assumed to be provided, is provided as in C96, or is unbuildable. If the name was already unbuildable when the recipe was added, the recipe is built without it.", "quantifier": "every set of recipes, every list of targets, with and without --continue (without it, if no target has failed)", "why_tests_cant": "The outcome depends on the order in which recipes are added.", "anchors": ["bitbake/lib/bb/taskdata.py:TaskData.add_tasks", "bitbake/lib/bb/taskdata.py:TaskData.remove_buildtarget"]}
{"id": "C100", "title": "A target that cannot be built stops the build", "statement": "Without --continue, the resolution ends with an error if a requested name turns out to be unbuildable. If every name has at most one provider this holds, and a resolution without an error means that everything any recipe or task needs is provided. With several providers the code does not guarantee it: the exception is lost when it is raised while the provider of another name is being added, and then failed recipes can remain as providers.", "quantifier": "every set of recipes, every list of targets, without --continue", "why_tests_cant": "It depends on the order of failures.", "anchors": ["bitbake/lib/bb/taskdata.py:TaskData.add_unresolved", "bitbake/lib/bb/taskdata.py:TaskData.remove_buildtarget"]}
{"id": "C101", "title": "A runtime name is satisfied by the provider the configuration prefers", "statement": "For every set of recipe files that can provide a runtime name and every configuration: the files offered are the ones chosen for each recipe name, each once, whatever order they were found in; a recipe named by PREFERRED_RPROVIDER comes first; otherwise, if PREFERRED_PROVIDER of something the candidates provide names exactly one candidate, that one comes first, and if it names none the order stays; several are reported only if the configuration names different candidates. PACKAGES_DYNAMIC counts only if no file lists the name. That a conflict is always reported does not hold: of two candidates that are both preferred the second is skipped.", "quantifier": "all recipe files, all values of the variables, all lists of provided names, all orders in which files are found", "why_tests_cant": "The result depends on the order of a loop that changes the list it runs over; tests have one or two candidates and one preference", "anchors": ["bitbake/lib/bb/providers.py: filterProvidersRunTime, getRuntimeProviders", "bitbake/lib/bb/taskdata.py: TaskData.add_rprovider"]}
{"id": "C102", "title": "Which configuration a requested target is built in", "statement": "A requested target of the form mc:NAME:TARGET is looked up in the configuration NAME and one without such a prefix in the default configuration, with the task written after :do_ or the default task; asking for an unknown configuration stops the build; mc:*:TARGET stands for the target in every configuration; and the target world, whichever way the configuration is written, stands for all recipes of the world list of that configuration.", "quantifier": "every list of requested targets, every set of configurations and every default task", "why_tests_cant": "The target list is rewritten in place while it is being read, with textual replacement; which configuration and task a target ends up with depends on all other targets and on their order.", "anchors": ["bitbake/lib/bb/cooker.py: BBCooker.buildTaskData", "bitbake/lib/bb/cooker.py: BBCooker.checkPackages"]}
{"id": "C103", "title": "Everything a build with several configurations needs is provided where it belongs", "statement": "With several configurations, when the dependencies have been resolved without error, every requested name is provided in the configuration it was requested for, every name in DEPENDS or RDEPENDS of a recipe that takes part is provided in the configuration of that recipe, and every name in a multiconfig dependency (mcdepends) of a recipe that takes part is provided in the configuration that the dependency names, which exists; recipes that nothing needs do not take part in any configuration; and the resolution comes to an end even if the recipes of the configurations depend on each other.", "quantifier": "every set of at least two configurations, every set of recipes, dependencies and multiconfig dependencies, every list of targets, every order in which a set of dependencies is enumerated, with and without --continue", "why_tests_cant": "Serving one multiconfig dependency adds recipes to another configuration, which have dependencies and multiconfig dependencies of their own; the rounds end at a fixed point of all configurations together.", "anchors": ["bitbake/lib/bb/cooker.py: BBCooker.buildTaskData", "bitbake/lib/bb/taskdata.py: TaskData.add_tasks, TaskData.get_mcdepends, TaskData.add_unresolved"]}
{"id": "C104", "title": "The graph of the setscene tasks", "statement": "From the graph of tasks of a build and the tasks that have a setscene variant (that can come from the cache), the engine works out which ordinary tasks each setscene task stands for, which setscene tasks it needs and which need it. This ends for every graph without loops, passes the engine's own sanity check, and is exact: a task belongs to a setscene task if and only if the latter needs it directly or by way of ordinary tasks only. The tasks the engine refuses to leave out are exactly those that are requested or needed by nothing, and what these need down to the first tasks that may come from the cache. Of the setscene tasks with the same hash all but exactly one wait, and each waits for that one.", "quantifier": "every finite acyclic graph of tasks, every set of setscene tasks in it, every assignment of hashes", "why_tests_cant": "The algorithm squashes the graph level by level, moving sets of tasks from node to node; whether anything is lost or added depends on the order in which the paths of an arbitrary graph meet. Tests have a handful of fixed graphs.", "anchors": ["bitbake/lib/bb/runqueue.py:build_scenequeue_data"]}
{"id": "C105", "title": "What a task that is executed needs is there", "statement": "When the engine executes a task, every task it depends on ran successfully, has no code, has a current stamp, or is a setscene task that was restored from the cache before and was not merely left out because nothing seemed to need it. In particular no ordinary task is ever left out in favour of something from the cache and then needed by a task that is executed. (Not so when the hash of a setscene task changes during the build: shown by a witness.)", "quantifier": "every acyclic graph of tasks without hard setscene dependencies, every content of the cache and the stamps, every answer of the outside world, every order of worker reports, failures and interruptions", "why_tests_cant": "Whether an input is present depends on the history: what the cache delivered, when it failed, which tasks were held back at that time. Tests run a few scripted builds.", "anchors": ["bitbake/lib/bb/runqueue.py:RunQueueExecute.execute", "bitbake/lib/bb/runqueue.py:update_holdofftasks", "bitbake/lib/bb/runqueue.py:process_possible_migrations"]}
{"id": "C106", "title": "Names of recipe variants", "statement": "The name under which a variant of a recipe (a class such as native, a configuration of a multi-configuration build, or both) is kept gives back exactly the recipe file, the class and the configuration, and different ones have different names.", "quantifier": "every recipe path and configuration name without a colon, every class", "why_tests_cant": "Names are cut at colons; whether a cut hits the right one depends on all the parts, including classes with colons and empty parts. Tests try a few names.", "anchors": ["bitbake/lib/bb/cache.py: virtualfn2realfn, realfn2virtual, variant2virtual"]}
{"id": "C107", "title": "When a cached recipe is used again", "statement": "A cached recipe is used if and only if the recipe file exists with the recorded time, all files it was made of have the recorded times, the files it looked for are there or missing as recorded, the appends are the same ones, and there is a complete entry for every variant; otherwise it is parsed, and a recipe that changed is taken out of the cache. The list of the files looked for is read as it was written.", "quantifier": "every cache, every state of the file system, every list of appends", "why_tests_cant": "Each single condition left out gives a stale result that shows only when exactly that file changes between two sessions.", "anchors": ["bitbake/lib/bb/cache.py: Cache.cacheValid, Cache.cacheValidUpdate, Cache.remove, filelist_regex"]}
{"id": "C108", "title": "The recipe cache never changes what is known", "statement": "After any history of sessions, each with any set of recipes, any order of the parser processes' results and interruption, and any change of files in between, what a session knows about the recipes is what parsing all of them afresh would give: the session does not fail, nothing stale is used, and if no result is lost nothing is missing.", "quantifier": "every history of sessions and file changes, every order of results, every parser that notes what it reads", "why_tests_cant": "Staleness appears only in histories: what the cache holds depends on all earlier sessions, and wrong results occur for particular sequences of edits.", "anchors": ["bitbake/lib/bb/cache.py: Cache, CoreRecipeInfo, SiggenRecipeInfo, MulticonfigCache", "bitbake/lib/bb/cooker.py: CookerParser", "bitbake/lib/bb/main.py: extra_caches"]}
{"id": "C109", "title": "Checksums of local files are never stale", "statement": "When files change only between runs and a changed file has another modification time, the checksum of a local file is that of its present contents, whatever processes asked for checksums before, wrote their results and merged those of others, in whatever order, and whichever of them were killed on the way.", "quantifier": "every interleaving of processes asking, saving, merging and dying; every history of file changes; every path", "why_tests_cant": "A stale checksum needs a particular history: an entry written by one process, merged by another, read in a later run after a change.", "anchors": ["bitbake/lib/bb/checksum.py: FileMtimeCache, FileChecksumCache.get_checksum, merge_data", "bitbake/lib/bb/cache.py: MultiProcessCache"]}
{"id": "C110", "title": "Which local files count", "statement": "The checksums for a list of local paths are exactly those of the listed files that exist, and of all files below the listed directories that are not in an excluded directory, each under its path (with /./ after the listed directory); they, and what they contribute to a signature, do not depend on the order in which directories are read.", "quantifier": "every directory tree, every list of paths and patterns, every order of reading directories", "why_tests_cant": "Directory trees of any depth and names; reading order differs between file systems and machines and cannot be provoked in a test.", "anchors": ["bitbake/lib/bb/checksum.py: FileChecksumCache.get_checksums, checksum_dir", "bitbake/lib/bb/siggen.py: get_taskhash, clean_checksum_file_path"]}
{"id": "C111", "title": "A prebuilt object is looked for under the name it was stored under", "statement": "For every recipe, task, hash and build host the file name for which the search for prebuilt objects asks the shared-state directory and the mirrors is the one under which the task's archive is stored, and its signature information is asked for beside it.", "quantifier": "all recipes (name, host, version, revision, architecture), tasks, hashes and kinds of build host", "why_tests_cant": "The storing and the looking side build the name from different variables; agreement must hold for every recipe, of which a test shows a few.", "anchors": ["meta/classes-global/sstate.bbclass: sstate_checkhashes (getpathcomponents, getsstatefile), SSTATE_PKGNAME, BB_HASHFILENAME, sstate_state_fromvars"]}
{"id": "C112", "title": "The search for prebuilt objects is exact for every interleaving of its threads", "statement": "The search returns exactly the tasks whose object is in the local directory or on a mirror, and counts all others as missed, no task in both; it raises exactly if some object cannot be named; it ends after a bounded number of steps.", "quantifier": "all sets of tasks, contents of the local directory and the mirrors, errors of the fetcher, numbers of threads, orders of the set of missed tasks and interleavings of the threads", "why_tests_cant": "The threads share the work queue and the two sets; a test runs a few interleavings.", "anchors": ["meta/classes-global/sstate.bbclass: sstate_checkhashes", "meta/lib/oe/utils.py: ThreadedWorker.run, ThreadedPool"]}
{"id": "C113", "title": "A prebuilt task is skipped exactly if nobody who is not skipped can use it", "statement": "Whether a prebuilt task is skipped is given by the table of uses: every task that depends on it is skipped too or has no use for it. The skipped tasks do not depend on the order in which tasks become ready or in which dependees are looked at.", "quantifier": "all recipes and task names, graphs of dependees, exclusions and orders in which a task comes after its dependees", "why_tests_cant": "The decision is a chain of special cases over all pairs of tasks, applied along a schedule; tests cover a few pairs and one order.", "anchors": ["meta/classes-global/sstate.bbclass: setscene_depvalid", "bitbake/lib/bb/runqueue.py: RunQueueExecute.check_dependencies, execute"]}
{"id": "C114", "title": "A shared-state archive is there completely or not at all", "statement": "However many processes create the archive of a prebuilt object at the same time, at whatever moment any of them fails or is killed: the name of the archive stands at every moment for nothing or for the complete archive of one of the processes (or what somebody else put there). An archive that is there is not changed by later processes, a process that ends without a failing command leaves an archive there and no temporary file, and a temporary file left by a killed process is never taken for an object.", "quantifier": "all numbers of processes, contents, interleavings of their commands, failures and kills between and within commands, states of the name at the start, and changes by others in between", "why_tests_cant": "The interleavings and crash points of several packing processes cannot be enumerated by tests.", "anchors": ["meta/classes-global/sstate.bbclass:sstate_create_package", "meta/classes-global/sstate.bbclass:sstate_checkhashes"]}
{"id": "C115", "title": "Layers have the priorities their configuration implies", "statement": "For layers whose dependencies are all enabled in fitting versions and do not form loops, every layer gets the priority it states, or else one more than the highest priority among the layers it depends on or recommends (and at least one more than the lowest stated one); the result does not depend on the order in which layers are listed. A layer with a missing or unfitting dependency, an invalid priority or no pattern makes the start of the build fail.", "quantifier": "all sets of layers, priorities, dependency and recommendation graphs, versions and orders", "why_tests_cant": "The priorities are found by a memoising recursion over a graph given by the user; tests cover single graphs.", "anchors": ["bitbake/lib/bb/cooker.py:handleCollections", "bitbake/lib/bb/cooker.py:calc_layer_priority"]}
{"id": "C116", "title": "A file belongs to the innermost layer that contains it", "statement": "For layers whose patterns are directories, the layer and priority found for a file are those of the longest directory containing the file, and no layer is found iff no directory contains it, also when layers are nested and whatever characters the directory names contain.", "quantifier": "all lists of layers, directory names and files", "why_tests_cant": "The code sorts escaped regular expressions as texts; that this means innermost first has to hold for all names.", "anchors": ["bitbake/lib/bb/cooker.py:CookerCollectFiles.calc_bbfile_priority", "bitbake/lib/bb/cookerdata.py:LAYERDIR_RE"]}
{"id": "C117", "title": "The recipes found are those covered by BBFILES and not masked", "statement": "A recipe file is used iff some entry of BBFILES (a directory, a pattern or a name; without entries the recipes of the current directory) covers it and no word of BBMASK matches it; each is used once. A recipe is reported as hidden exactly by the last one of the same file name.", "quantifier": "all file systems, layer configurations, values of BBFILES and BBMASK made of texts and alternatives", "why_tests_cant": "Selection, sorting, removal of duplicates and masking have to work together for every list.", "anchors": ["bitbake/lib/bb/cooker.py:CookerCollectFiles.collect_bbfiles", "bitbake/lib/bb/cooker.py:CookerCollectFiles.find_bbfiles"]}
{"id": "C118", "title": "Append files are applied to the recipes they are meant for, in the order of priorities", "statement": "The append files applied to a recipe are exactly the unmasked ones covered by BBFILES whose name is that of the recipe, or whose name up to a % begins the name of the recipe; they are applied in ascending order of the priorities of the entries of BBFILES they belong to.", "quantifier": "all file systems, layer configurations, BBFILES, BBMASK, recipes and names with .bb only at the end", "why_tests_cant": "The order decides which layer wins; it has to hold for all combinations of layers and patterns.", "anchors": ["bitbake/lib/bb/cooker.py:CookerCollectFiles.get_file_appends", "bitbake/lib/bb/cooker.py:CookerCollectFiles.collect_bbfiles"]}
{"id": "C119", "title": "A new stamp replaces the older stamps of its task and no others", "statement": "When a task has run, the stamp files are: the new stamp of the task, and all files that were there before except the stamps of this task and of its setscene variant. When the setscene variant has run, only older stamps of the variant go. The stamps of all other tasks, the signature files and the marks of invalidated tasks stay. The stamps reported as stale are exactly those of the task and its variant for another hash, and right after a run there are none.", "quantifier": "all recipes, tasks, hashes, extra information and sets of files, with usual names", "why_tests_cant": "The stamps of all recipes and earlier builds lie side by side; a wildcard that fits one name too many makes bitbake repeat or skip tasks of another recipe, and tests only ever see a few names.", "anchors": ["bitbake/lib/bb/build.py: _get_cleanmask, clean_stamp_mcfn, make_stamp_mcfn, find_stale_stamps", "bitbake/lib/bb/siggen.py: stampfile_mcfn, stampcleanmask_mcfn, stampfile"]}
{"id": "C120", "title": "Cleaning a shared-state task removes exactly its stamps", "statement": "Cleaning a shared-state task removes, of all stamps in the directory of the recipe, exactly those of the task and of its setscene variant, for every version of the recipe and every hash (with the extra information of the task if it has any). Stamps of tasks whose name begins alike, signature files, marks of invalidated tasks and files outside of the directory stay.", "quantifier": "all recipes, versions, tasks, hashes, extra information and sets of files", "why_tests_cant": "The wildcard fits the stamps of other tasks too and the filter behind it has to be exact for every name.", "anchors": ["meta/classes-global/sstate.bbclass: sstate_clean"]}
{"id": "C121", "title": "The check of the stamps finds out whether a task is up to date", "statement": "The recursive check says yes exactly if the task has a stamp, is not marked nostamp, and each task of the same recipe it depends on was taken from the shared state or has a stamp that is not newer and is up to date itself. This holds whatever earlier checks have remembered, and what is remembered stays right. The check ends if no task depends on itself. Without recursion only the direct dependencies are compared.", "quantifier": "all task graphs, stamp times, contents of the memory and orders of checks", "why_tests_cant": "The result is remembered across calls in a shared table and depends on the times of arbitrarily many stamps along all paths of the graph.", "anchors": ["bitbake/lib/bb/runqueue.py: check_stamp_task"]}
{"id": "C122", "title": "For an event of a recipe exactly the handlers meant for it are called", "statement": "While recipes are parsed one after the other in one process, the handlers called for an event of a recipe are exactly those of its configuration and of the recipe whose mask names the event (or is empty or contains *), in the order of their definition, of several with one name the first, and independent of the recipes parsed before. Parsing leaves the handlers of the configuration as they were. A handler that was removed and registered again is called for its new mask only.", "quantifier": "all configurations, recipes, handlers, masks, events and orders of parsing", "why_tests_cant": "The tables of the handlers are global and only partly put back after each recipe, so what is called may depend on the whole history of the process.", "anchors": ["bitbake/lib/bb/event.py: register, remove, fire_class_handlers, set_handlers", "bitbake/lib/bb/parse/ast.py: finalize", "bitbake/lib/bb/cookerdata.py: parseConfigurationFiles"]}
{"id": "C123", "title": "The user interface gets every event once and in order", "statement": "Before a main user interface is connected no event is sent and none lost. Once it is connected it gets every event its filter lets through, exactly once; those fired before it connected come first and all in the order in which they were fired, if the first event afterwards is fired by the server itself. In any case what was sent and what still waits make up all events. A further interface gets exactly the events fired after it connected.", "quantifier": "all sequences of events of the server and of tasks, connections and disconnections of interfaces, and all filters", "why_tests_cant": "Interfaces come and go at any time while tasks run; lost or reordered events only show in rare interleavings.", "anchors": ["bitbake/lib/bb/event.py: fire, fire_ui_handlers, fire_from_worker, register_UIHhandler, unregister_UIHhandler, set_UIHmask"]}
{"id": "C124", "title": "The revision a recipe asks for", "statement": "Without rev or tag in the URL, the revision of a source under version control is the value of the first of SRCREV_<name>:pn-<recipe>, SRCREV_<name>, SRCREV:pn-<recipe> and SRCREV that is set, not empty and not INVALID; AUTOINC asks for the latest one, and if no variable is usable the build fails. A revision in the URL is taken if no variable is usable or the deciding one agrees with it, and is an error otherwise; rev and tag together are an error.", "quantifier": "all values of the variables, recipe and source names, URL parameters", "why_tests_cant": "four variables, each unset, empty, INVALID, AUTOINC or a revision, combine with two URL parameters", "anchors": ["bitbake/lib/bb/fetch2/__init__.py: srcrev_internal_helper"]}
{"id": "C125", "title": "A branch or tag becomes the commit the repository names", "statement": "A plain name of a revision resolves to the branch of that name if the repository has one, else to the commit of the annotated tag, else to the tag; a full ref name to that ref; nothing else resolves. A full commit id is used as it is, whatever the repository or the store of revisions says, and whatever is asked for the result is a full commit id.", "quantifier": "all repositories (answers of ls-remote with each ref once), names, stores and URLs", "why_tests_cant": "ranges over all sets of refs", "anchors": ["bitbake/lib/bb/fetch2/git.py: _latest_revision, urldata_init"]}
{"id": "C126", "title": "The store of resolved revisions", "statement": "Once a branch or tag of a repository is resolved, every later request of the build for it gets the same commit although the repository moves on; the answer is what the repository itself said when first asked with success.", "quantifier": "all sequences of requests and all changes of the repositories between them", "why_tests_cant": "depends on the whole history of requests", "anchors": ["bitbake/lib/bb/fetch2/__init__.py: latest_revision", "bitbake/lib/bb/fetch2/git.py: _revision_key"]}
{"id": "C127", "title": "Clones of different repositories are kept apart", "statement": "Two repositories of a host with different paths never share the clone directory or the archive made of it; the name of a clone has no slash; a repository that may be rewritten has one clone per revision.", "quantifier": "all hosts, paths and revisions", "why_tests_cant": "ranges over all pairs of paths", "anchors": ["bitbake/lib/bb/fetch2/git.py: urldata_init"]}
{"id": "C128", "title": "The revision in the version of a package", "statement": "With several sources, SRCREV_FORMAT is read from the left, at each place the longest name of a source is replaced by the first ten characters of its revision, and nothing is replaced twice; a new revision of a source that the format mentions changes the version.", "quantifier": "all formats, numbers of sources, names and revisions", "why_tests_cant": "names can be prefixes of each other or occur in revisions", "anchors": ["bitbake/lib/bb/fetch2/__init__.py: _get_srcrev"]}
{"id": "C129", "title": "Downloading sources or debug packages leaves the image's resolv.conf alone", "statement": "For every root file system without a left-over saved copy, the tasks that cache source and debug packages end with the resolv.conf (file, link, dangling link or none) it had before. A task that failed and is run again restores it too if it failed without network, or before the host's file was copied or after it was removed. If a download fails with network and the task is run again, the host's resolv.conf stays in the image and the original is lost.", "quantifier": "every state of etc/resolv.conf, host file, network setting and failing command", "why_tests_cant": "the bug shows only after a failure at particular commands followed by a second run", "anchors": ["meta/classes-recipe/rootfs.bbclass: do_cache_deb_src, cache_dbg_pkgs, rootfs_install_resolvconf"]}
{"id": "C130", "title": "Additional files are put into the root file system, and nowhere else", "statement": "For every list of files with different destinations in a fresh root file system, each destination gets the content of its source and no other file of the machine changes; running it twice, as the class does, gives the same if the machine has no file named like a destination. Refuted: the second run removes the build machine's own file of the destination's name; an entry without source ends the function and later files are missing; an existing file is not emptied.", "quantifier": "every list of entries, root directory and file system", "why_tests_cant": "the effect outside of the root file system depends on the files of the machine", "anchors": ["meta/classes-recipe/rootfs-add-files.bbclass: rootfs_add_files"]}
{"id": "C131", "title": "Marking an image sets the given keys of os-release once and keeps the rest", "statement": "For every os-release of complete lines and every choice of values, the result is the lines without the set keys, in order, followed by one line for each value given; marking an image again gives what marking the original would give. Without a final newline the first key is glued to the last line.", "quantifier": "every text of complete lines and every triple of one-line values, given or not", "why_tests_cant": "all texts and values", "anchors": ["meta/classes-recipe/image-postproc-extension.bbclass: update_etc_os_release, image_postprocess_mark"]}
{"id": "C132", "title": "The image's sources.list.d holds exactly the lists of the image recipe", "statement": "If the recipe brings package lists, sources.list.d of the finished image consists of exactly these, the last one of a name; else it is untouched. Files named *.list are chosen; every chosen file ends in a beginning of .list. Refuted: files with the extension .l, .li or .lis are taken for lists.", "quantifier": "every SRC_URI, work directory and sources.list.d", "why_tests_cant": "all names of files", "anchors": ["meta/classes-recipe/image.bbclass: apt_list_files, do_rootfs_finalize"]}
{"id": "C133", "title": "rootfs_cmd accepts its documented command line only and passes the command on unchanged", "statement": "For every argument list, a command is run iff the arguments are --bind and --chdir options and a root file system, then -- and a non-empty command; what is run is exactly the isar-apt bind, the directories, the root file system, the read-only system directories that exist, the other binds in order and the command word for word. Refuted: a path with a space becomes two arguments.", "quantifier": "every argument list, repository and set of existing directories", "why_tests_cant": "an unbounded grammar", "anchors": ["meta/classes-recipe/rootfs.bbclass: rootfs_cmd"]}
{"id": "C134", "title": "The packages downloaded from isar-apt are those apt would install", "statement": "For every output of apt-get --print-uris, the names passed to apt-get download are exactly the package names of the listed URIs, in order, whatever directory they are in; other lines give none. Refuted: the architecture is lost.", "quantifier": "every list of lines", "why_tests_cant": "the expression is greedy twice and must find the name in every directory and version", "anchors": ["meta/classes-recipe/rootfs.bbclass: rootfs_install_pkgs_isar_download"]}
{"id": "C135", "title": "The initrd deployed is the one made for the last kernel, by the generator of the image", "statement": "dracut is used iff it is asked for or a package name contains it. For every set of kernels, order of the directory and left-over file, the initrd deployed is the one generated for the last kernel if no other file name begins with the name of it; with one kernel it belongs to the kernel deployed. Refuted: with kernels 6.1.0-9 and 6.1.0-10 the initrd of 6.1.0-9 is deployed with the other kernel; a backup of the initrd may be deployed in place of it; a package with dracut in its name selects dracut.", "quantifier": "every list of kernels, content of /boot and order find reads it in", "why_tests_cant": "the order of a directory is not fixed", "anchors": ["meta/classes-recipe/rootfs.bbclass: rootfs_generate_initramfs, initramfs_generator_cmdline", "meta/classes-recipe/image.bbclass: do_copy_boot_files"]}
{"id": "C136", "title": "Archives of directories restore what was packed", "statement": "The archive a task makes of its directories restores, in any other build and wherever that build's directories are, exactly the files, links and directories that were there, replaces what was there before and touches nothing else; the task itself has its own directories unchanged after packing. The code does not do so for a directory that does not exist (packing passes over it; the task's own move back and any restore fail), for a directory whose name starts with a dot (left out of the archive; restoring fails) or for two directories of the same name (packing fails).", "quantifier": "all file systems, all lists of directories of a task, all places of the working directories and all file systems the archive is restored into", "why_tests_cant": "ranges over every tree of files and every placement of directories, in two builds", "anchors": ["meta/classes-global/sstate.bbclass:sstate_package", "meta/classes-global/sstate.bbclass:sstate_create_package", "meta/classes-global/sstate.bbclass:sstate_installpkg", "meta/classes-global/sstate.bbclass:sstate_installpkgdir", "meta/classes-global/sstate.bbclass:sstate_task_postfunc"]}
{"id": "C137", "title": "Debian packages restored from shared state", "statement": "After a build of a recipe, or after its archive was restored, all packages this build makes are in the work directory with the content it made, and every package there comes from some build of the recipe that took place. If work directories are empty when builds begin, a restored archive holds exactly the packages of its build. The code does not ensure the latter: the work directory is not emptied before a rebuild, so packages of an earlier build get into the archive of a later one and into every work directory it is restored in.", "quantifier": "all sequences of builds, restored builds and removals of the work directory, all sets of packages a build makes", "why_tests_cant": "ranges over unbounded histories of builds with different inputs", "anchors": ["meta/classes-recipe/dpkg-base.bbclass:dpkg_build_sstate_prepare", "meta/classes-recipe/dpkg-base.bbclass:dpkg_build_sstate_finalize", "meta/classes-recipe/dpkg-base.bbclass:do_dpkg_build_setscene"]}
{"id": "C138", "title": "Root file systems restored from shared state", "statement": "The archive of an installed root file system, restored into an empty work directory, is exactly what was installed, without the packages in apt's cache, whatever tasks ran before. The code does not do so when the work directory is not empty (files of the old root file system stay) nor when the archives of the boot files or the initrd are restored too (these hold the root file system after its postprocessing).", "quantifier": "all sequences of tasks of an image, restored tasks and removals of the work directory, all root file systems", "why_tests_cant": "ranges over unbounded histories of tasks and over all contents", "anchors": ["meta/classes-recipe/rootfs.bbclass:rootfs_install_sstate_prepare", "meta/classes-recipe/rootfs.bbclass:rootfs_install_sstate_finalize", "meta/classes-recipe/rootfs.bbclass:do_rootfs_install_setscene"]}
{"id": "C139", "title": "The bootstrap restored from shared state", "statement": "The bootstrap a work directory holds after it was made or restored is exactly the one made for that input, whatever happened before, and one that was made can be restored ever after.", "quantifier": "all sequences of builds, restored builds and removals of the work directory", "why_tests_cant": "ranges over unbounded histories", "anchors": ["meta/recipes-core/isar-mmdebstrap/isar-mmdebstrap.inc:bootstrap_sstate_prepare", "meta/recipes-core/isar-mmdebstrap/isar-mmdebstrap.inc:bootstrap_sstate_finalize"]}
{"id": "C140", "title": "The address a mirror line makes", "statement": "When a line of PREMIRRORS or MIRRORS applies to the address of a source, whatever its regular expressions are, the new address has the user and password of the line and never those of the source, asks for the file under its local name (or that of the mirror tarball), has the parameters the line sets and otherwise those of the source (none for a tarball), and differs from the old one. The usual line 'scheme://.*/.* mirror/directory/' applies to exactly the addresses of that scheme and makes them name the local file name in the directory. TYPE, HOST, PATH and MIRRORNAME stand for the parts of the source's address. Lines are pairs of words separated by white space or backslash-n. The code raises an exception for a line that asks for a parameter the source does not have, also replaces the keywords in the parts of the address, and shifts all lines after one word too many.", "quantifier": "all addresses, all lines, all regular expression engines for the first part, all local names and tarballs", "why_tests_cant": "ranges over all texts of addresses and mirror lines", "anchors": ["bitbake/lib/bb/fetch2/__init__.py:uri_replace", "bitbake/lib/bb/fetch2/__init__.py:mirror_from_string", "bitbake/lib/bb/fetch2/__init__.py:build_mirroruris"]}
{"id": "C141", "title": "Mirror lines are used once", "statement": "An address in the list of mirrors of a source comes from the source's address by lines of the list, each used at most as often as it is there. The code does not keep to this when a line makes an address of an unknown scheme: the address made by the line before is then followed again, and that line used a second time.", "quantifier": "all lists of lines, all replacements a line may make, all addresses", "why_tests_cant": "ranges over all chains of mirror lines", "anchors": ["bitbake/lib/bb/fetch2/__init__.py:build_mirroruris"]}
{"id": "C142", "title": "New hashes after an equal output was found", "statement": "When the hash server reports that the output of a task is known under another name, every task that depends on it gets the hash made of the names its dependencies have now, every other task is left alone, and the entries of tasks that are not in use show the new names; the tasks told to the workers are those whose entries changed; the outcome does not depend on the order in which sets are gone through, and the step always comes to an end. Refuted: the entry of a task does not always carry its new hash.", "quantifier": "every task graph without loops, every way of hashing, every queue of reports, every order of iteration, every set of running and finished tasks, every answer of the server", "why_tests_cant": "the new hashes are computed in an order that Python's sets decide, over any graph; a test sees one graph and one order", "anchors": ["bitbake/lib/bb/runqueue.py:process_possible_migrations", "bitbake/lib/bb/siggen.py:get_taskhash", "bitbake/lib/bb/siggen.py:set_unihash", "bitbake/lib/bb/siggen.py:report_unihash_equiv"]}
{"id": "C143", "title": "Dependencies passed to a task", "statement": "The dependency data of a task name exactly the task itself and the tasks of the same multiconfig it needs, over any number of steps within that multiconfig; this also holds with loops.", "quantifier": "every dependency graph, every assignment of multiconfigs, every task", "why_tests_cant": "the collection must be complete for graphs of any depth", "anchors": ["bitbake/lib/bb/runqueue.py:build_taskdepdata"]}
{"id": "C144", "title": "Lines added to fstab by wic", "statement": "The fstab of an image is the old one followed by one line of six fields for every partition of the table that has a mount point (or is swap), in the order of the kickstart file, and there is a new file exactly if there is such a partition. Refuted: an old file without a final newline, and mount points with spaces, give broken lines.", "quantifier": "every list of partitions, every old fstab that is empty or ends with a newline, all fields without white space", "why_tests_cant": "the fields come from any kickstart file and any fstab of a package; tests try a few", "anchors": ["scripts/lib/wic/plugins/imager/direct.py:update_fstab"]}
{"id": "C145", "title": "Devices in fstab and the root device name the partition", "statement": "What wic writes to identify a partition leads to it: UUID= has the identifier the file system is made with (for FAT the text of the 32-bit number given to mkdosfs, in whatever form it was given), device nodes follow the kernel's naming and differ between partitions, and the root device is one by which the kernel finds the root partition. Refuted: squashfs with --use-uuid, disks such as nvme0n1, --part-name together with --label, partition numbers above nine with msdos, --uuid with msdos.", "quantifier": "every list of partitions, every table type, every disk identifier, every identifier made up or given", "why_tests_cant": "identifiers are random or come from the user; the forms and numbers are unbounded", "anchors": ["scripts/lib/wic/plugins/imager/direct.py:PartitionedImage.__init__", "scripts/lib/wic/plugins/imager/direct.py:update_fstab", "scripts/lib/wic/plugins/imager/direct.py:rootdev", "scripts/lib/wic/ksparser.py:_parse", "scripts/lib/wic/partition.py:prepare_rootfs_msdos"]}
{"id": "C146", "title": "Sizes and files of file systems made by wic", "statement": "A file system made of a directory has room for its content, the requested size and the extra space, or exactly the fixed size, and is refused only if the content is larger than that; an empty file system fills its partition; every partition has a file of its own, so that all can be put into the image. Refuted: swap and empty btrfs with --fixed-size are made with size 0; two swap areas share one file and the second fails.", "quantifier": "every size, overhead factor of at least one, content, and list of partitions", "why_tests_cant": "sizes and combinations are unbounded", "anchors": ["scripts/lib/wic/partition.py:get_rootfs_size", "scripts/lib/wic/partition.py:get_extra_block_count", "scripts/lib/wic/partition.py:prepare", "scripts/lib/wic/partition.py:prepare_swap_partition", "scripts/lib/wic/partition.py:prepare_empty_partition_btrfs", "scripts/lib/wic/plugins/imager/direct.py:assemble"]}
{"id": "C147", "title": "Kernels are configured with exactly the fragments of the recipe", "statement": "The fragments of KERNEL_CONFIG_FRAGMENTS, and after them the *.cfg files of SRC_URI without apply=no in their order, are what KCONFIG_FRAGMENTS lists; each is in the place the kernel build looks for it, old copies are gone, other sources stay, a missing fragment fails the task, and olddefconfig is used exactly if a configuration was copied.", "quantifier": "every list of fragments and sources, every content of WORKDIR and of the sources", "why_tests_cant": "Lists, names and directories are arbitrary; tests use a handful of fragments.", "anchors": ["meta/classes-recipe/linux-kernel.bbclass: config_fragments, get_kernel_config_fragments, get_kernel_config_target, dpkg_configure_kernel"]}
{"id": "C148", "title": "Packages are built on one consistent architecture", "statement": "Packages for the build machine are built on it; other packages are cross built there exactly if they are for the distribution's architecture (or its compat architecture) and cross building is on, otherwise on the distribution's architecture; the build root, the task it depends on and the toolchain always belong to the chosen architecture.", "quantifier": "every combination of architectures, flavour and switches", "why_tests_cant": "The combinations are unbounded and only few configurations are built in tests.", "anchors": ["meta/classes-recipe/crossvars.bbclass: anonymous python function"]}
{"id": "C149", "title": "The source directory handed to the build is S", "statement": "PPS, looked up from WORKDIR, names the directory S; when S is below WORKDIR it is the relative path, when S is elsewhere it is S itself.", "quantifier": "all absolute paths S and WORKDIR", "why_tests_cant": "Paths are arbitrary text with dots and repeated slashes.", "anchors": ["meta/classes-recipe/dpkg-base.bbclass: get_package_srcdir"]}
{"id": "C150", "title": "The generated control file says what the recipe says", "statement": "Read as dpkg reads control files, the generated debian/control has a source paragraph and a binary paragraph with exactly the values of the recipe.", "quantifier": "all recipes whose values are one line each (lists: each entry)", "why_tests_cant": "Values are arbitrary text.", "anchors": ["meta/classes-recipe/debianize.bbclass: deb_create_control", "meta/classes-recipe/debianize.bbclass: beautify"]}
{"id": "C151", "title": "The debian directory has the files of the recipe", "statement": "deb_debianize puts the hooks (executable), units, triggers and tmpfiles of the recipe into debian/, takes control and rules from the recipe or generates them, leaves an existing copyright alone, and changes nothing else.", "quantifier": "all contents of WORKDIR and of the debian directory", "why_tests_cant": "Any subset of the files can exist.", "anchors": ["meta/classes-recipe/debianize.bbclass: deb_debianize"]}
{"id": "C152", "title": "bitbake-layers changes exactly the layers it was told to in bblayers.conf", "statement": "For every bblayers.conf made of comments, blank lines, statements and settings of BBLAYERS in the usual layout: after any layers are added or removed, bitbake still reads the file and every statement that is not about BBLAYERS is as before, in order. A new layer is added behind the layers of the first setting, or, if several settings append, on a line of its own; a layer already listed is not added and reported. A removed layer is gone from the list, every other layer stays in order, and removal is reported as failed exactly if no setting listed it; then the file stays as it is. Without a setting of BBLAYERS there is an error.", "quantifier": "all files in that layout (any number of parts, continuation lines, operators, quotation marks, white space), all layer paths to add and remove", "why_tests_cant": "Tests edit a few sample files; the claim is about all layouts of the file and is a round trip through two independent readers (the line editor and bitbake's parser).", "anchors": ["bitbake/lib/bb/utils.py: edit_metadata, edit_bblayers_conf", "bitbake/lib/bb/parse/parse_py/ConfHandler.py: feeder"]}
{"id": "C153", "title": "What a worker sends reaches bitbake whole and in order", "statement": "However the bytes of a worker's messages are cut up on their way, the server has taken exactly the messages that have come in completely, each once and in order, and keeps the beginning of the next; when all bytes have come, all messages were taken. An event may contain its own closing tag. Nothing behind bytes that begin no message is ever taken.", "quantifier": "all sequences of events and exit codes, all encodings whose early ends are reported as truncated, all ways the bytes are split into reads", "why_tests_cant": "Tests send a few messages in one piece; the split can fall anywhere, also inside a tag.", "anchors": ["bitbake/lib/bb/runqueue.py: runQueuePipe.read"]}
{"id": "C154", "title": "A worker passes on all events of a task before its exit code", "statement": "Whatever the order in which children start, write, are read and end, what a worker sends about a process is its events in order, each once and complete, and then its exit code, and no complete event is missing then. The writing thread writes the messages in the order in which they were put in, whatever it manages to write at once, and all of them before it ends; the server takes them in that order. Holds if no event contains the tags: otherwise the worker stops with an assertion (refuted).", "quantifier": "all schedules of starts, writes, reads and ends of any number of processes, all sizes of reads, all schedules of the writing thread, all ways the bytes are split", "why_tests_cant": "The order depends on the schedule of processes and on how many bytes each read and write moves.", "anchors": ["bitbake/bin/bitbake-worker: runQueueWorkerPipe.read", "bitbake/bin/bitbake-worker: runQueueWorkerPipe.close", "bitbake/bin/bitbake-worker: process_waitpid", "bitbake/bin/bitbake-worker: worker_flush"]}
{"id": "C155", "title": "A worker handles the commands of the server in order", "statement": "However the bytes of commands come in, the worker has handled the first of them, in order and with the data that was sent, the rest is in its queue, and behind quit it handles none. Once all have come, all are handled after as many turns of its loop as there are commands. Holds if no command's data contains its closing tag: otherwise the data is cut and later commands are not handled (refuted).", "quantifier": "all sequences of commands, all ways the bytes are split into reads, any number of turns", "why_tests_cant": "A turn looks for the commands in a fixed order, and a read can end anywhere in one.", "anchors": ["bitbake/bin/bitbake-worker: serve", "bitbake/bin/bitbake-worker: handle_item", "bitbake/lib/bb/runqueue.py: send_pickled_data"]}
{"id": "C156", "title": "Moving a file never loses it", "statement": "bb.utils.movefile of a file: whatever operations fail and wherever the machine stops, the file is unchanged under its old name or its whole content is under the new one. Unless a link at the target is replaced or a rename on one device is refused by the kernel, the target shows either what was there before or the whole content. When a time is returned, it is the requested time or the file's own, the target has content, owner and permissions of the source, the source is gone and no other name is touched; when nothing fails and the target is no directory it succeeds. A symbolic link is moved as a link and is always at one of the two names.", "quantifier": "every file system with hard links, source, target, owner and mode of the process, requested time, and every sequence of failing operations and crash points", "why_tests_cant": "the states between two system calls and the failures of each of them cannot be enumerated by tests; the number of writes depends on the file", "anchors": ["bitbake/lib/bb/utils.py: movefile", "bitbake/lib/bb/utils.py: rename"]}
{"id": "C157", "title": "Copying a file and breaking hard links", "statement": "bb.utils.copyfile of a readable file: at all times the source is unchanged (or has its content, if copied over itself), and the target shows what was there before or the whole content unless it was a link. When a time is returned the target has content, owner and permissions of the source and that time, is a file of its own, and all other names are as before. break_hardlinks saying yes means that the file has one name only and its other names keep theirs.", "quantifier": "every file system with hard links, source, target, requested time, and every sequence of failing operations and crash points", "why_tests_cant": "failures and crash points between any two of a number of operations that depends on the file", "anchors": ["bitbake/lib/bb/utils.py: copyfile", "bitbake/lib/bb/utils.py: break_hardlinks"]}
{"id": "C158", "title": "A task runs its functions in order and tells how it ended", "statement": "Executing a task in a worker runs its prefuncs, the task and its postfuncs in this order up to the first that raises an exception. The exit code is 0 exactly if the task exists, T is set and nothing raised an exception; then all functions were run, TaskStarted and TaskSucceeded were fired and a stamp was made unless nostamp or selfstamp is set. A stamp is only made after everything else went well. Once the preparations are done and unless it is killed, a task fires TaskStarted and exactly one of TaskSucceeded, TaskFailed and TaskFailedSilent (with quieterrors); what is no task fires TaskInvalid.", "quantifier": "every task, its functions and flags, and every sequence of exceptions raised by any of the steps", "why_tests_cant": "an exception can come from any step, including the cleaning up after another exception; tests raise them at a few places", "anchors": ["bitbake/lib/bb/build.py: _exec_task", "bitbake/lib/bb/build.py: exec_task", "bitbake/bin/bitbake-worker: child"]}
{"id": "C159", "title": "A function runs in its directories, with its locks", "statement": "A function is run only after its cleandirs were emptied and made, its dirs made and its lock files taken, all in the order given, with the last of its dirs as working directory. Whatever it raises, its lock files are released one after the other, all of them unless releasing fails. It returns normally exactly if nothing raised.", "quantifier": "every function with any lists of directories and lock files, and every sequence of exceptions", "why_tests_cant": "any step can fail, for lists of any length", "anchors": ["bitbake/lib/bb/build.py: exec_func", "bitbake/lib/bb/utils.py: fileslocked"]}
{"id": "C160", "title": "Lock files of tasks", "statement": "Two tasks with a common lock file never run at the same time. If all lists of lock files follow one common order and name no file twice, tasks never wait for each other for ever: when no task can go on, all are done; and every schedule ends.", "quantifier": "every number of tasks, every lists of lock files, every schedule", "why_tests_cant": "a deadlock depends on the schedule of any number of tasks", "anchors": ["bitbake/lib/bb/utils.py: fileslocked", "bitbake/lib/bb/build.py: exec_func"]}
{"id": "C161", "title": "Exported variables reach the shell of a task with their values", "statement": "The script of a shell task begins with lines that set every exported variable to its value and remove every unexported one, and do nothing else: no other variable changes, PWD keeps the value the task was started with, and no value is expanded or executed. A value arrives unchanged, but for line ends, which become spaces, exactly if it has no backquote and every backslash stands before a character that is neither a backslash, a quotation mark nor a dollar sign.", "quantifier": "all metadata, all values and names, all environments the shell starts with", "why_tests_cant": "Quoting is correct or not for all strings; the bad ones (backslash at the end, backquotes, messages of two lines) are not in any recipe a test builds.", "anchors": ["bitbake/lib/bb/data.py emit_var", "bitbake/lib/bb/data.py emit_func", "bitbake/lib/bb/build.py exec_func_shell"]}
{"id": "C162", "title": "The script of a task defines every shell function it uses", "statement": "The script of a shell task defines the function of the task and all shell functions it uses, directly or through others, whatever calls whatever: each of the used ones exactly once, with its text, and no other function. The search ends for recursive functions too. The last line calls the function of the task.", "quantifier": "all sets of functions and references between them, cyclic or not", "why_tests_cant": "The closure has to be complete and finite for every call graph, including cycles and names that are not functions.", "anchors": ["bitbake/lib/bb/data.py emit_func", "bitbake/lib/bb/build.py exec_func_shell"]}
{"id": "C163", "title": "A client's environment is cleaned to exactly the variables that pass, and given back", "statement": "Without BB_PRESERVE_ENV the environment a command line client works in has exactly the variables named by BB_ENV_PASSTHROUGH (or the usual ones without it) and by BB_ENV_PASSTHROUGH_ADDITIONS, each with its value, and LC_ALL set to en_US.UTF-8; everything else is taken out. With BB_PRESERVE_ENV nothing changes. What the client sends to the server as its environment afterwards has every variable of the user with its value, but for LC_ALL. (That LC_ALL is given back, too, does not hold.)", "quantifier": "every environment of the client, every name and value", "why_tests_cant": "the variables that pass depend on the values of other variables of the same environment; a test tries a few environments", "anchors": ["bitbake/lib/bb/utils.py: preserved_envvars, approved_variables, filter_environment, clean_environment", "bitbake/lib/bb/main.py: setup_bitbake"]}
{"id": "C164", "title": "A running server's configuration reflects the environment of its last client", "statement": "After any sequence of clients that connect to a server, the variables inherited from the environment in the main configuration and in every multiconfig are exactly those of the last client that pass, with its values, exported exactly for the usual exported names; BB_ORIGENV of the main configuration is the environment the last client sent. The configuration is parsed again for a client exactly if an option or a variable that passes changed. Which names pass is decided by the environment of the client that started the server. (That the last client's own BB_ENV_PASSTHROUGH_ADDITIONS counts, and that BB_ORIGENV of a multiconfig is the last client's, do not hold.)", "quantifier": "every environment of the client that started the server, every number of multiconfigs, every history of clients", "why_tests_cant": "it is about histories of connections to a server that keeps state", "anchors": ["bitbake/lib/bb/cooker.py: updateConfigOpts", "bitbake/lib/bb/cookerdata.py: CookerDataBuilder.__init__, parseBaseConfiguration", "bitbake/lib/bb/data.py: inheritFromOS"]}
{"id": "C165", "title": "The environment of a task is made of the datastore alone", "statement": "Whatever the environment of the worker is, a task runs with exactly these variables: those of fakeroot's environment; else those that the task's flag exports names and that have a value; else the exported variables (flag export, not unexport, not internal) that have a value and can be expanded. It is not started exactly if a variable that its flag exports names (and fakeroot's environment does not) cannot be expanded. After a task was started every variable of the worker's own environment is as before, if FAKEROOTENV names each variable once. (That this holds if it names one twice is refuted.)", "quantifier": "every environment of the worker, datastore, fakeroot environment and exports flag; every name and value", "why_tests_cant": "precedence between four sources for every variable; leaks between tasks show only for later tasks of the same worker", "anchors": ["bitbake/bin/bitbake-worker: fork_off_task", "bitbake/lib/bb/data.py: exported_vars"]}
{"id": "C166", "title": "Configuration of the installer", "statement": "The installer uses for image, target device and overwriting what the kernel's command line says last, or else what auto.install says; of a list of devices the first that is a block device and not the one booted from. It runs without questions exactly if auto.install or one of these words is there, and then only if image, device and overwriting (OVERWRITE or ABORT) are all given, the device is a block device and the image exists.", "quantifier": "all kernel command lines, contents of auto.install, existing files and devices", "why_tests_cant": "Which of two sources wins depends on every word of a command line of any length and on the contents of a file; tests try a few.", "anchors": ["meta-isar/recipes-installer/deploy-image/files/usr/lib/deploy-image-wic/handle-config.sh"]}
{"id": "C167", "title": "Devices the installer offers", "statement": "The installer offers exactly the plain disks (no loop, device mapper, RAM, CD or flash devices, no members of arrays, only working arrays) whose names do not start with the name of the disk of the root file system or of a device directly below it. The disk with the root file system, or with a part of its device, is never offered.", "quantifier": "all sets of block devices with their holders and states, all root file systems and parts of its device", "why_tests_cant": "Names are compared by prefix, so whether the running system's disk may be erased depends on the names of all devices.", "anchors": ["meta-isar/recipes-installer/deploy-image/files/usr/bin/sys_api.sh: sys_discover_target_devices"]}
{"id": "C168", "title": "What the installer writes", "statement": "The installer copies an image at most once, only if it exists and no other installation runs: without questions only to the configured device, and only if that is empty or OVERWRITE is configured; otherwise only to a device that was offered, after confirmation, and if it is not empty after a second one. The block map is the one named like the image up to its last .wic.", "quantifier": "all configurations, machines, answers and results of the tools", "why_tests_cant": "That nothing is overwritten without consent must hold on every path of the flow; a test covers one.", "anchors": ["meta-isar/recipes-installer/deploy-image/files/usr/bin/deploy-image-wic.sh: flow_run, flow_run_attended, flow_validate_target_overwrite_policy", "meta-isar/recipes-installer/deploy-image/files/usr/bin/sys_api.sh: sys_install_image_with_lock, sys_bmap_options_for_image"]}
{"id": "C169", "title": "Disk expanded on first boot", "statement": "On first boot the disk is changed that holds the partition the root file system is on, also through encryption or other layers, and no other; it is left alone if fewer than 32768 of its blocks belong to no partition. The first block of a disk with GPT is saved before and restored after. The file system of the last partition is resized if it is ext or btrfs and systemd does not do it; the script fails for other ones.", "quantifier": "all devices, layers between partition and file system, sizes and partition tables", "why_tests_cant": "Which disk is written depends on the names of devices and on chains of layers of any length.", "anchors": ["meta/recipes-support/expand-on-first-boot/files/expand-last-partition.sh"]}
{"id": "C170", "title": "Partition table written on first boot", "statement": "The table given back to sfdisk is the dumped one without the header line of the last block, without the size of the last partition and of extended ones; all other lines and all starts are as before. With sfdisk's rule for missing sizes the last partition keeps its start, does not shrink, overlaps with none, and reaches the end of the disk if it is the last on it.", "quantifier": "all partition tables (any number of entries and fields)", "why_tests_cant": "A pattern that matched too much would destroy the data of a device in the field; this must hold for every table.", "anchors": ["meta/recipes-support/expand-on-first-boot/files/expand-last-partition.sh"]}
{"id": "C171", "title": "Choice of SOURCE_DATE_EPOCH", "statement": "SOURCE_DATE_EPOCH of a recipe is the time of the last commit if its sources are from git, else the time of the youngest file of its sources (hidden files and lock files do not count), else the fallback. The same sources give the same value in whatever order directories are listed.", "quantifier": "all source trees (any depth and size), orders of listing, times and SRC_URI", "why_tests_cant": "Reproducible builds rest on the value not depending on the order in which a file system lists directories; a test sees one order.", "anchors": ["meta/lib/oe/reproducible.py: get_source_date_epoch, find_git_folder, get_source_date_epoch_from_youngest_file", "meta/classes-global/base.bbclass: create_source_date_epoch_stamp"]}
{"id": "C172", "title": "SOURCE_DATE_EPOCH in tasks", "statement": "What was determined when sources were unpacked is what tasks read; the fallback is used without the file or if it has no number. The file is replaced atomically. Within one datastore all reads give the same value, whatever happens to the file. No file of an image is younger than it, and files that would be get the same time.", "quantifier": "all times, contents of the file, interruptions of writing, sequences of reads and changes", "why_tests_cant": "Crash points and histories of reads cannot be enumerated by tests.", "anchors": ["meta/lib/oe/reproducible.py: epochfile_read, epochfile_write", "meta/classes-recipe/image.bbclass: do_rootfs_finalize"]}
{"id": "C173", "title": "The variants of a recipe", "statement": "A recipe gives one set of data for itself and one for each word of BBCLASSEXTEND, under different names, each made from the recipe itself. Parsing one variant alone by its virtual file name, as a worker does for a task, gives the same data as parsing all variants, as the server does; a name that is no variant gives none.", "quantifier": "all recipes (as abstract datastores with any effect of classes and finalisation), values of BBCLASSEXTEND, file names and configuration names without colon, and variant names", "why_tests_cant": "Tests parse a few recipes with one or two variants; names that contain one another, repeated words and names with several colons are not combined.", "anchors": ["bitbake/lib/bb/parse/ast.py:multi_finalize", "bitbake/lib/bb/parse/ast.py:_create_variants", "bitbake/lib/bb/cookerdata.py:parseRecipeVariants", "bitbake/lib/bb/cookerdata.py:parseRecipe"]}
{"id": "C174", "title": "Kernel modules for several kernels", "statement": "A kernel module recipe has exactly one variant for each kernel in KERNEL_NAMES and for KERNEL_NAME, with this KERNEL_NAME and a package name that ends in it; other variants such as native exist for KERNEL_NAME only.", "quantifier": "all recipe names, kernel lists, other words of BBCLASSEXTEND", "why_tests_cant": "The one test builds one module for a fixed list of kernels.", "anchors": ["meta/classes-recipe/per-kernel.bbclass", "meta/classes-recipe/linux-module.bbclass", "bitbake/lib/bb/parse/ast.py:multi_finalize"]}
{"id": "C175", "title": "Names of customization packages", "statement": "For every customization an image asks for, the package name is that of the recipe of this customization: of its variant for the image if the image is in CUSTOMIZATION_FOR_IMAGES, else of the recipe itself. Packages for different images have different names. The variables in CUSTOMIZATION_VARS_PREFIXED stand in front of the name, the others behind it.", "quantifier": "all values of CUSTOMIZATIONS, CUSTOMIZATION_VARS, CUSTOMIZATION_VARS_PREFIXED and CUSTOMIZATION_FOR_IMAGES, and all image names", "why_tests_cant": "The names are computed twice, by the image and by the recipe, from free text; a test compares them for one configuration.", "anchors": ["meta/classes-recipe/image-customizations.bbclass:customization_packages", "meta/classes-recipe/customization-base.bbclass", "meta/classes-recipe/dpkg-customization.bbclass"]}
{"id": "C176", "title": "Which sources are kernel configuration fragments", "statement": "The configuration fragments of a kernel are those of KERNEL_CONFIG_FRAGMENTS followed, in the order of SRC_URI, by the sources with the extension .cfg that are not marked apply=no.", "quantifier": "all values of KERNEL_CONFIG_FRAGMENTS and all lists of sources", "why_tests_cant": "Tests use one .cfg file; other extensions that the code takes too do not occur.", "anchors": ["meta/classes-recipe/linux-kernel.bbclass:config_fragments"]}
{"id": "C177", "title": "Kernel configuration fragments are where the build looks", "statement": "Every fragment given by a relative path is copied to the place in the sources that the kernel build is told, from where a local file of SRC_URI is unpacked; a fragment inside the sources is used in place.", "quantifier": "all source directories, work directories and lists of fragments", "why_tests_cant": "The names are computed in python and the copies made in shell, by different tests of the same path.", "anchors": ["meta/classes-recipe/linux-kernel.bbclass:get_kernel_config_fragments", "meta/classes-recipe/linux-kernel.bbclass:dpkg_configure_kernel", "bitbake/lib/bb/fetch2/__init__.py:unpack"]}
{"id": "C178", "title": "Profiles of linux-libc-dev", "statement": "If the configuration does not set the profiles itself, a kernel recipe provides linux-libc-dev exactly if KERNEL_LIBC_DEV_DEPLOY is true, and for all architectures exactly if KERNEL_LIBC_DEV_ARCH_ALL is true too; a value that is neither true nor false is an error.", "quantifier": "all profiles, base distributions, recipe names and values of both variables", "why_tests_cant": "There are many spellings of the two switches, and the result passes through a word list.", "anchors": ["meta/classes-recipe/linux-kernel.bbclass:get_additional_build_profiles", "meta/classes-recipe/linux-kernel.bbclass:KERNEL_LIBC_DEV_ARCH"]}
{"id": "C179", "title": "Removing deletes what is named and nothing precious", "statement": "A recursive removal of a path deletes that path with everything in it and nothing else, or raises an error and deletes nothing; with a pattern it is all matches or none. It is refused exactly for the root, /home, a directory in /home, and the value of HOME. So no pattern ever removes /home or a home in it, and HOME goes only with a directory above it. A removal without recursion never removes a directory.", "quantifier": "every path or pattern, every tree of files, every HOME and current directory", "why_tests_cant": "The paths come from variables of recipes; tests try a few, and a wrong one deletes data.", "anchors": ["bitbake/lib/bb/utils.py: _check_unsafe_delete_path, remove, prunedir"]}
{"id": "C180", "title": "A task starts with clean directories", "statement": "When a function starts, the directories listed in cleandirs contain nothing from earlier runs, apart from other listed directories; each is there unless a later one in the list is above it; nothing outside of them is changed. It does not fail unless one of them is guarded, has an unexpanded variable, or is in something that is no directory. The directories listed in dirs are made and nothing else is changed.", "quantifier": "every list of directories with names without characters that mean something to glob, every tree of files", "why_tests_cant": "What earlier runs left behind depends on the history of the build directory.", "anchors": ["bitbake/lib/bb/build.py: exec_func", "bitbake/lib/bb/utils.py: remove, mkdirhier"]}
{"id": "C181", "title": "Git sources find their objects inside the build chroot", "statement": "After the adjustment, a cloned source that borrows objects from the download directory refers to them by a relative path, and this path leads, from the clone, to the same repository below the link beside the recipes; this holds for every source of SRC_URI, whatever the other ones are. A link inside the download directory to a repository in it becomes relative and leads to the same repository. The link beside the recipes leads to the download directory afterwards.", "quantifier": "every work directory, download directory, link directory, list of sources, destsuffix and subpath; names without characters special to sed", "why_tests_cant": "It depends on how deep the directories are relative to each other and on the state of earlier builds.", "anchors": ["meta/classes-recipe/dpkg-base.bbclass: do_adjust_git", "bitbake/lib/bb/fetch2/git.py: unpack", "meta/conf/bitbake.conf: GITDIR, GIT_DL_LINK_DIR"]}
{"id": "C182", "title": "Templates are filled in with the variables they name, and nothing else changes", "statement": "The output file of a template is its text in which every reference to a variable of TEMPLATE_VARS, written ${NAME} or $NAME, is replaced by the value of that variable; references to other variables and all other text are copied unchanged, and what surrounds a reference does not influence its replacement.", "quantifier": "every TEMPLATE_VARS, datastore, process environment and template text", "why_tests_cant": "A test sees a few templates; that nothing else changes, next to and between references, concerns every text.", "anchors": ["meta/classes-global/template.bbclass do_transform_template"]}
{"id": "C183", "title": "Kickstart templates: the references and the file", "statement": "The kickstart file that is used is the first one that exists among the wic directories of BBPATH and COREBASE and then their canned-wks directories, with .wks added if there is no extension; in a kickstart template every ${NAME} is replaced by the value of the variable, also when it is not listed in TEMPLATE_VARS.", "quantifier": "every list of directories, file system, file name, kickstart text and datastore", "why_tests_cant": "The order of search and the scan for references concern every layer setup and every kickstart text.", "anchors": ["meta/classes-recipe/imagetypes_wic.bbclass wks_full_path, get_wks_full_path, python anonymous function"]}
{"id": "C184", "title": "wic reads the variables of the image as bitbake wrote them", "statement": "For every variable of WICVARS with a value, wic reads from the env file exactly the value in bitbake without the blanks around it; for every other variable it reads nothing.", "quantifier": "every WICVARS, datastore with one-line values that neither begin nor end in a quote, and variable asked for", "why_tests_cant": "The round trip through a text file with quoting concerns every value.", "anchors": ["meta/classes-recipe/imagetypes_wic.bbclass do_rootfs_wicenv", "scripts/lib/wic/misc.py BitbakeVars._parse_line, BitbakeVars.get_var"]}
{"id": "C185", "title": "Signature data arrives as it was sent, from every process and in every schedule", "statement": "However processes that parse recipes send their signature data (each value in full once, later by number), and in whatever order the server takes the messages of the different processes, also when senders reset their numbering in between: the server receives from every process exactly the data it has sent, in that order, and never fails; and a value is sent in full at most once between two resets.", "quantifier": "every sequence of send, reset and receive events of any number of processes, and all data", "why_tests_cant": "The numbering is shared state of a stream; that it stays consistent concerns every interleaving and every history.", "anchors": ["bitbake/lib/bb/cache.py SiggenRecipeInfo._save, _restore, reset, __getstate__, __setstate__", "bitbake/lib/bb/cooker.py CookerParser.shutdown"]}
{"id": "C186", "title": "What world and universe stand for", "statement": "The target world stands for the names of exactly those recipes that are not excluded from world, have the task that is asked for, provide nothing virtual, and of whose provided names no recipe with another name is a provider, each name once; universe stands for the names of all recipes for which some provider has the task; what is in world is in universe.", "quantifier": "every set of recipes with different files, and every task", "why_tests_cant": "Membership depends on all recipes together; no finite set of layers settles it.", "anchors": ["bitbake/lib/bb/providers.py buildWorldTargetList", "bitbake/lib/bb/cooker.py BBCooker.checkPackages", "bitbake/lib/bb/cache.py CoreRecipeInfo.add_cacheData"]}
{"id": "C187", "title": "Files that depend on the presence of layers", "statement": "With entries NAME:PATTERN and !NAME:PATTERN in BBFILES_DYNAMIC, BBFILES gets exactly the patterns whose layer is configured, respectively is not; the build stops exactly if an entry has no colon.", "quantifier": "every list of collections, every BBFILES_DYNAMIC and every BBFILES", "why_tests_cant": "It is a rule for every combination of layers and entries.", "anchors": ["bitbake/lib/bb/cookerdata.py CookerDataBuilder.parseConfigurationFiles"]}
{"id": "C188", "title": "Layers work with the core or the build stops", "statement": "The configuration is accepted exactly if no collection occurs twice and every layer that names series names one of the core, whose series are those of the first layer that names them; what is checked is what the layer says, and a layer cannot copy it from a layer before, because it does not see it.", "quantifier": "every sequence of layer.conf files (as arbitrary functions on the data)", "why_tests_cant": "What a layer.conf does is arbitrary; the rule must hold for every sequence of layers.", "anchors": ["bitbake/lib/bb/cookerdata.py CookerDataBuilder.parseConfigurationFiles"]}
{"id": "C189", "title": "The build stops when the disk runs low", "statement": "With HALT and STOPTASKS the build is told to finish at the first check that finds too little free space, or too few free inodes on a file system that counts them: at once with HALT, after the running tasks with STOPTASKS, and exactly once. With WARN it is never told to finish. The first such check warns of what runs low; with WARN another warning follows as soon as the space (the number of inodes) has fallen by more than the interval. As long as nothing runs low nothing is said or done. (Violated: with no free space at all the warning comes with every check.)", "quantifier": "every entry with positive limits, every sequence of disk states, every pair of intervals", "why_tests_cant": "the behaviour depends on the whole history of disk states, of any length", "anchors": ["bitbake/lib/bb/monitordisk.py:diskMonitor.check"]}
{"id": "C190", "title": "The configuration of the disk monitor", "statement": "A limit is a positive number with the unit K, M or G (powers of 1024, in either case) or without one; anything else is an error. An entry is read exactly if it is an action, a path, a space limit and an inode limit, of which one at least is given. One bad entry turns off the monitor; otherwise exactly the last entry for each path and action is watched.", "quantifier": "every list of words of BB_DISKMON_DIRS, every realpath", "why_tests_cant": "ranges over all numbers and all lists of entries", "anchors": ["bitbake/lib/bb/monitordisk.py:convertGMK", "bitbake/lib/bb/monitordisk.py:getDiskData"]}
{"id": "C191", "title": "Which tasks may run when everything must come from the cache", "statement": "Without BB_SETSCENE_ENFORCE = 1 every task may run. With it, a task about to run is an error exactly if it is not covered, has no stamp, is not noexec and is not on BB_SETSCENE_ENFORCE_IGNORE_TASKS; and the failure of a setscene task gives up the build exactly if the task is not on that list. A word of the list is a shell pattern for recipe:task; with % for the recipe it stands for each target of the build, and lists exactly that task of the targets. (Violated: targets asked for by what they provide instead of the recipe's name are not listed by %.)", "quantifier": "every list, every set of targets, every recipe and task", "why_tests_cant": "ranges over all patterns and all names", "anchors": ["bitbake/lib/bb/runqueue.py:get_setscene_enforce_ignore_tasks", "bitbake/lib/bb/runqueue.py:check_setscene_enforce_ignore_tasks", "bitbake/lib/bb/runqueue.py:sq_check_taskfail"]}
{"id": "C192", "title": "A function called for many items in parallel", "statement": "For every order in which the processes end: if the call returns, no item raised an exception and the answer holds the non-empty results of all items, each once. If it ends with an error, the error names exactly the exceptions of what was started. At no time are more processes running than BB_NUMBER_THREADS; nothing is started more often than asked for; once an exception has been seen nothing more is started; and when the call ends every process has ended. With at least one process allowed the call ends. (Violated: a process that is killed passes for one without a result; with BB_NUMBER_THREADS = 0 the call never ends.)", "quantifier": "every list of items, every outcome of each, every schedule, every limit", "why_tests_cant": "depends on the order in which processes end, for any number of them", "anchors": ["meta/lib/oe/utils.py:multiprocess_launch"]}
{"id": "C193", "title": "Layers without files are warned about", "statement": "A layer is warned about exactly if this is not switched off for it, no recipe belongs to it, and each file that its pattern matches is a recipe of another layer or lies under the pattern of a layer with recipes. So a layer with a recipe of its own is never warned about, and a layer whose pattern matches nothing always is. (Violated: a layer inside another one that has only .bbappend files is warned about although these belong to it.)", "quantifier": "every list of layers, every set of recipes, appends and skipped recipes, every way patterns match", "why_tests_cant": "ranges over all nestings of layers and all sets of files", "anchors": ["bitbake/lib/bb/cooker.py:CookerCollectFiles.collection_priorities", "bitbake/lib/bb/cooker.py:CookerCollectFiles.calc_bbfile_priority"]}
{"id": "C194", "title": "The variables an expression refers to", "statement": "The answer holds exactly the variables an expression refers to, directly or through the values of other variables, each once, whatever the order of Python's sets; variables that are nearer come first; and the search ends, also if variables refer to each other in circles.", "quantifier": "every expression, every set of variables with any references between them, every order of sets", "why_tests_cant": "ranges over all graphs of references and all orders of sets", "anchors": ["bitbake/lib/bb/utils.py:get_referenced_vars"]}
{"id": "C195", "title": "The layer of a file", "statement": "The layer of a path is the one with the longest pattern that matches, the first of several; there is none exactly if no pattern matches. The first entry of BBFILES_PRIORITIZED that matches a file is the path that decides; without one it is the file itself. The patterns are those of the collections. (Violated: a recipe in a nested layer is said to be in the outer layer if an entry of the outer layer comes first.)", "quantifier": "every set of layers and patterns, every list of entries, every file", "why_tests_cant": "ranges over all nestings of layers and all patterns", "anchors": ["bitbake/lib/bb/utils.py:get_file_layer", "bitbake/lib/bb/utils.py:get_collection_res"]}
{"id": "C196", "title": "Stale shared state is removed", "statement": "When tasks are reported stale, a manifest of an architecture is cleaned exactly if it exists and is that of a stale task, by a line of the index that knows one of the task's stamps; all stamps of such a task are removed, no others, and never before its manifest is cleaned. An invalid line of the index ends the build before anything is removed. (Violated: a line also counts for the stamps of another version that begins alike, as 1.0-r1 and 1.0-r10.)", "quantifier": "every index, every set of stale tasks and stamps, every set of existing manifests, every point of interruption", "why_tests_cant": "ranges over all indexes, sets of stale tasks and interruptions", "anchors": ["meta/classes-global/sstate.bbclass:sstate_eventhandler_stalesstate"]}
