# Formal model of ilbers/isar in Rocq (Coq 8.16.1)

This file says what is modelled, how each property of `properties.jsonl` is
stated and proved, what is trusted, and what was found.  It is written before
the proofs and kept current; section "Status" is updated with each milestone.

## 1. Method

* The Python (and bbclass) functions are transcribed branch by branch into
  total, computable Gallina functions.  Exceptions / `bb.fatal` / `WicError`
  are values (`option`, `sum`, or an explicit result type).  Every definition
  cites the file and lines of `/repo` it models and states simplifications.
* For each area `X` there is
  - `X_Model.v`  : the model (definitions only, no proofs),
  - `X_Proofs.v` : lemmas,
  - `X_Props.v`  : specification predicates written independently of the
    model's helpers, the theorems (proved by citing one lemma), non-vacuity
    `Example`s and `Print Assumptions`.
* Stateful cores (PR server, hash server, run queue, locks, datastore) are
  transition systems `step : state -> event -> state * output` (or a step
  relation when the environment is nondeterministic); properties are invariants
  proved by induction over arbitrary event lists, without bounds.
* Where the code does not satisfy a property, a `..._refuted` theorem exhibits
  a concrete witness evaluated on the model, and the strongest true statement
  is proved next to it (with the extra hypotheses visible).  These are listed in
  section 5 "Findings".
* Strings are `list ascii` (`str`).  Python strings are sequences of code
  points; wherever the code only compares, concatenates, splits or measures
  them, restricting code points to 8 bit loses nothing that the code looks at.
* Integers are `Z`/`N` (Python's unbounded integers), never `nat` when values
  may be large.

## 2. Trusted base

* Coq 8.16.1's kernel (checked again with `coqchk`), the Coq standard library
  and std++ (used for finite maps/sets and list lemmas).  No plugin, no axiom
  of our own; `Print Assumptions` output of every property theorem is recorded in
  section 6.
* The transcription from Python to Gallina, which is by hand.  Each definition
  quotes its source lines so that it can be compared.
* External behaviour that is not part of the repository is modelled, and the
  modelling is trusted: SQLite statements (as list/finite-map operations),
  POSIX `flock`/`open`/`unlink`/`stat` (lock model), `os.path` functions on
  strings, Python's `str.split/strip/rstrip/replace`, `re` for the particular
  patterns used, JSON encoding (as an abstract injective function in the RPC
  model), file contents (as functions from offsets to bytes).

## 3. Properties: what is modelled and how it is proved

| id | modelled code | proof |
|----|---------------|-------|
| C01 | wic `layout_partitions` as a left fold over partitions with the record of counters | invariant over the fold: offset monotone, intervals disjoint, end <= min_size |
| C02 | same | per-partition case analysis of the step; least-aligned-sector spec |
| C03 | `__init__` numbering + layout numbering | simulation of the two folds; refuted for explicit `--type logical` |
| C04 | extended partition computation | invariant; refuted in presence of gaps, proved for gap-free lists |
| C05 | `sparse_copy` as a loop over mapped ranges and 1 MiB chunks, files as functions Z -> byte | loop invariant by induction on ranges and on chunk count |
| C06 | extent merging generator | induction over extents; set-of-blocks equality |
| C07 | `sizetype`, `systemidtype` | case analysis; arithmetic spec |
| C08 | `explode_version`, `vercmp_part`, `vercmp` | token-level comparison is a lexicographic product of total orders |
| C09 | same | rules stated on strings, proved from the tokenizer's lemmas |
| C10 | `chunkify`, `recv`, `recv_message` over a byte stream | induction over chunks; refuted for chunks ending in blanks; `_partial` otherwise |
| C11, C12, C13 | `PRTable` as association list with SQL semantics | invariants over request histories |
| C14 | server with volatile/durable database and `dirty` flag | refuted by a two-request history; positive theorem for the intended code path |
| C15, C16, C17, C18 | hash server tables and request handlers as a step function | invariants over request histories |
| C19, C20 | isar-sstate `clean`, `upload` | set equations over file lists; refuted for `--max-sig-age` |
| C21 | `generate_sstatefn`, SstateRegex matcher | string lemmas, round trip |
| C22 | manifest generation, `sstate_clean_manifest` on a tree file system | induction over the manifest |
| C23 | `reachablestamps` handler | set equations; preserve list refuted |
| C24, C25, C26 | run-queue execution as a transition system with nondeterministic completion | invariants by induction over event lists |
| C27 | `calculate_task_weights` | Kahn-style worklist; loop iff not all built |
| C28 | open/flock/fstat/stat/unlink interleavings of n processes | inductive invariant over the step relation |
| C29 | `realpath` on symlink oracles with fuel | induction on fuel, path-component invariant |
| C30 | `make_relative_symlink` | component-wise spec; refuted for string-prefix ancestors |
| C31, C32 | lists.bbclass | reachability characterisation of DFS with seen set; counting |
| C33 | features_check | decision rule equivalence |
| C34 | multiarch rewriting | refuted for already suffixed names; decision rules |
| C35 | image.bbclass type resolution and removal commands | closure characterisation; requested image removed: refuted |
| C36, C37, C38, C39 | datastore operations and expansion | histories; override priority; isolation; expansion fuel/visited set |
| C40 | explode/join deps | round trip by induction |
| C41 | decodeurl/encodeurl | round trip under well-formedness |
| C42 | container_fetcher naming | refuted (collision), injective on tags without '.' |
| C43 | providers.py | order independence through the total order of C08 |
| C44 | rootfs_progress | fold/append lemma |
| C45 | root_cleandirs / template checks | refuted (string prefix), positive theorem |
| C46 | bootstrap.bbclass apt sources | parsing lemmas |
| C47 | utils contains/filter/... | set semantics |
| C48 | base_set_filespath, which | ordering theorem |
| C49 | hash server clean_unused | set equation on the tables |
| C50 | rootfs mount/umount shell steps over a mount table, with failures, kills and other tasks | induction over command lists and interleavings; refuted for postprocessing and restarts |
| C51 | isar-events once stamps | fold over event histories |
| C52, C53 | build_dependencies, generate_dependencies, generate_dependency_hash over a table of variables | closure = reachability; text equality; refuted for second removes, flag name parts, missing separators |
| C54, C55 | prep_taskhash/get_taskhash text, hashing loop of runqueue prepare | sort uniqueness, confluence of the loop, propagation by induction on the graph |
| C56 | calc_taskhash on dumped data | text equality; refuted for equal short names |
| C57 | tid composition | round trip |
| C58 | taint handling | fold over calls |
| C59 | sstate_rundepfilter | decision rule as iff |
| C60 | locked signatures | invariants over call histories, parse/print round trip |
| C61 | deb_add_changelog as a sequence of file operations | exact result; invariants over runs and prefixes of runs; counterexamples |
| C62 | deb_list_beautify, isar_deb_build_profiles | induction on lists of items |
| C63 | awk filter, sort, comm, download loop | fold invariants; merge of sorted lists is intersection |
| C64 | deb_dl_dir_import, deb_dl_dir_export | fold over files, invariants over histories |
| C65 | Accounts_Model: image_create_groups and image_create_users as lists of commands on a set of groups and users; the tools with arbitrary defaults. | Each command is an idempotent keyed step; a general restart lemma over lists of such steps gives the interruption theorem; exactness by induction over the configuration. |
| C66 | Locales_Model: get_locale_gen, get_nopurge and the appending of locale.gen to the file of the image. | The split on backslash n inverts the join of items; stripping is characterised by a unique trimmed part; sorted sets are unique. |
| C67 | Patch_Model: splitext, patch_path, should_apply and src_patches over sources with parameters; version comparison is the model of C08. | The extension split is unique; each test of should_apply is an equivalence with its limit; induction over the sources. |
| C68 | Patch_Model: PatchTree with its series file and stored copies, QuiltTree with quilt's stack, and do_patch over directories and names of directories. | A generic invariant of the loop over patches (directories patched so far hold exactly their patches), instantiated for both tools; induction over histories. |
| C69 | Repo_Model: packages, includedeb, removefilter, do_deploy_deb as a list of commands, attempts that stop, histories, the work directory | invariant one_each; a step lemma for includedeb against the newest of what is offered, induction over commands and histories |
| C70 | Repo_Model: populate_one, populate, repo_contains_package | induction over the files with the set of offered packages as the invariant; existence of the newest of a finite set |
| C71 | Repo_Model: repo_create as a list of writes decided by what exists | case analysis on the writes; induction over attempts |
| C72 | Sbuild: environments as lists, the filter loop with grep's pattern match (dot as any character), the two sed edits as passes over lines, the whole sequence of a build | the file is always a rendering of at most one block of each kind; each edit maps renderings to renderings; reading back by unique decomposition |
| C73 | Sbuild: the table as lines, insertion by whole lines, removal by pattern search | induction over the mounts |
| C74 | the download directory for one file (file or link, done stamp with its time, renamed bad files), wget, mirrors, the done stamp and the loop over addresses, as a state and exception monad (Fetch_Model) | an honesty invariant on the stamp, preserved by every step |
| C75 | Fetch_Model: download_one with premirrors, upstream and mirrors whose responses are arbitrary | case analysis of the monadic program with invariants for each source list |
| C76 | adduri and build_mirroruris over an arbitrary replacement function, trusted_network on texts (Fetch_Model) | induction on the lines left |
| C77 | Parse_Model.conf_lines, bb_lines | induction over the items of the file; agreement by induction over the lines |
| C78 | Parse_Model.match_config, feeder | the backtracking matcher is sound and complete for the written form; uniqueness under a condition on the last character of the name |
| C79 | Parse_Model.eval_assignment, eval_all on the datastore of Data_Model | refinement of the store by the per-variable meaning of the operators, by induction over the lines |
| C80 | Parse_Model.include_single, include_all, handle | evaluation of statements without inclusions does not depend on the including file; non-termination by induction on the fuel |
| C81 | Tasks_Model.addtask, deltask, run, parents; expansion of names is not modelled | induction on the history from its end; the effect of one statement as an iff |
| C82 | Tasks_Model.match_addtask, clauses, rsplit_at (the regular expression, greedy, last group value) | last occurrence of the keyword by induction on the line |
| C83 | Tasks_Model.follow, tasksbetween with fuel, shown sufficient | induction on the fuel with a specification of the search for any chain; pigeonhole for termination |
| C84 | Classes_Model: lookup, inherit, evaluation of the statements of a file, the recipe with its appends and the deferred classes, with a log of what is evaluated | One invariant (record part) for what any piece of the parsing adds to the cache, the queue and the log; induction over fuel, statements and names; counting of the files for the end |
| C85 | Classes_Model: deferred | The invariant of C84 for both phases; unique place of the start of a class in the log |
| C86 | Classes_Model: method, export_one, define_all | Invariants of the store over the sequence of definitions |
| C87 | Classes_Model: anon_name, run_anon | The names are injective |
| C88 | the reader of .bb/.bbclass files as a function over lines with a mode (top, in function, in def) | exact characterisation of headers, induction over the parts of a file |
| C89 | the chain of matches in feeder | case analysis over the command words |
| C90 | line numbers in MethodNode/PythonMethodNode, padding in better_compile, marks in emit_var and the search in exec_func_shell | the reader's invariant gives the place of each function in the file; arithmetic on padded texts |
| C91 | Step A over a record of everything taskdata holds; tids are pairs of recipe file and task | membership characterisation of each source |
| C92 | cumulativedeps by rounds over endpoints, then passes to a fixed point, then removal of self references | invariant of the peeling (visited set, remaining dependencies, recipes found), least fixed point against an inductive definition |
| C93 | mark_active as a depth-first search with fuel, proved sufficient | closure invariant of depth-first search; reachability |
| C94 | the loop over runall_tids with fuel, proved sufficient | monotonicity of the sets found, least fixed point against an inductive definition |
| C95 | the grouping and the search for equal names | NoDup of the mapped list |
| C96 | TaskData with its tables, failures as nested calls with exceptions, the resolution loop as passes | Two invariants (one for all states, one for states between operations), relations for what a failure changes |
| C97 | as C96; the reasons are an inductive definition over the recipes | The reasons are part of the invariant for all states; mutual induction for the converse |
| C98 | as C96; the loop and the recursion of failures have fuel | Every pass that adds something settles a name; every nested failure adds a failed file |
| C99 | as C96 | as C96 |
| C100 | as C96, exceptions carry the state | computation |
| C101 | The loop over the list that it changes, by index, on top of the model of _filterProviders | Invariants of the loop: permutation of the eligible files, the head is the last one chosen, nothing is skipped before the first choice |
| C102 | Targets_Model: the target list of buildTaskData and checkPackages as functions on lists of strings | case analysis over the spelling of each target; induction over the list |
| C103 | Multiconf_Model: the rounds of buildTaskData over one TaskData (Taskdata_Model) per configuration | invariant over all configurations, monotone growth, and a measure (dependencies not yet served) for the end |
| C104 | Sceneq_Model: sq_revdeps, sq_revdeps_squash, sq_collated_deps as functions from tasks to sets, endpoints as a dictionary, the recursion over levels with a depth bound; unskippable of Runq_Model; defer | An invariant over the endpoints that are still to be processed: soundness of every set, every task with a squashed set is an endpoint or still has unprocessed users, every dependency of a covered task is covered, squashed or an endpoint; the rank of the graph bounds the depth and shows that nothing is left at the end |
| C105 | The engine of Runq_Model with the graph of the setscene tasks of Sceneq_Model | Invariant over all events: what is covered, what is not and what is being restored are disjoint, nothing covered becomes uncovered, tasks below an undecided setscene task are held back, what is left out is needed only by covered tasks |
| C106 | Pcache_Model: virtualfn2realfn, realfn2virtual, variant2virtual on strings | cutting at the last and at the first colons |
| C107 | Pcache_Model: cache_valid, valid_update, file_list; file contents and times are a function from names | case analysis of the checks against the specification `unchanged`; induction over the file list |
| C108 | Pcache_Model: session over load, sort_out, from_cache, from_files, sync; the parser is a parameter | invariant: every entry of the cache is what parsing gave in an earlier state; with honest times an unchanged entry is what parsing gives now |
| C109 | Filesum_Model: get_checksum, cached_mtime, merge_data, save_merge, init_cache on a tree of files | invariant: every entry anywhere was true in some earlier state of the files |
| C110 | Filesum_Model: get_checksums, walk, checksum_dir, replace, wanted | induction over trees; os.walk against the relation `leads`; normpath of the marked path; permutations of trees |
| C111 | Sstfind_Model.stored_name, looked_for, hashfilename | splitting the specification at blanks and the task identifier at its last colon |
| C112 | Sstfind_Model.local_scan, pool_step, checkhashes | invariant over the steps of the workers (what is queued, being checked, found, refused is a permutation of the files); decreasing measure |
| C113 | Depvalid_Model.consider, setscene_depvalid, check_dependencies, visit | case analysis of the names; fixpoint equation of the visited list; induction along the order |
| C114 | Sstpack_Model: the shell function as a small-step program of several processes over one shared name; tar writes its output piece by piece; mv and ln are atomic | invariants over event lists (what a temporary file contains at each place of the program; what the name stands for at the tests) |
| C115 | Layers_Model: handleCollections with its two loops; variables of layers given by value, versions compared by the modelled vercmp_string_op | inductive definition of the priority of a layer; induction over its accessibility with a stack of distinct layers for the recursion depth |
| C116 | Layers_Model: re.escape, matching of escaped texts, stable descending sort, first match | sortedness of the list and order of escaped prefixes |
| C117 | Layers_Model: new_files, masked, recipes, overlayed over abstract answers of the file system | permutation and membership lemmas; induction over the list from its end |
| C118 | Layers_Model: appends, applies_to, file_appends | order of first occurrences in the list without duplicates; stable sort by priority |
| C119 | file names as strings, glob with stars, sets of files as lists | case analysis on the unique occurrence of the task name in the mask |
| C120 | file names as strings with their parts between dots | the mark .do_ occurs once in the name of a stamp; its parts are determined by the dots |
| C121 | tasks as numbers, stamps as optional times, the cache as association list | induction on the recursion with a sound cache as invariant |
| C122 | the three tables of event.py, registration and removal, recipes parsed in sequence | invariant that the tables contain what the masks say, preserved by registration and by putting back the handlers |
| C123 | interfaces with filters, the queue, the log of sent events; operations as a list | induction on the operations with the connected interface as invariant; permutation of sent and waiting events |
| C124 | the loop over the variables and the decision (Gitrev_Model) | decision rules as equivalences with a spec of the first usable variable |
| C125 | the search in the output of ls-remote and the use of it in urldata_init (Gitrev_Model) | case analysis on the three searches with unique refs; invariant of the store |
| C126 | the persistent store and its keys, requests over time (Gitrev_Model) | induction over the requests: the store holds the first success of each key |
| C127 | gitsrcname, clonedir, mirror tarball (Gitrev_Model) | injectivity of the character map and of the concatenations |
| C128 | name_to_rev, the order by length and the substitution (Gitrev_Model) | the substitution produces the unique leftmost-longest reading; readings of equal piece lengths are injective |
| C129 | Rootfiles_Model.v: commands, stopped, cache_deb_src | cases over the commands and the states of the file |
| C130 | Rootfiles_Model.v: rootfs_add_files, add_files_task | induction over the entries with the file system outside the destinations unchanged |
| C131 | Rootfiles_Model.v: sed_delete, set_line, update_etc_os_release | text to lines, then filters that commute |
| C132 | Rootfiles_Model.v: apt_list_files, finalize_lists | induction over the lists |
| C133 | Rootcmd_Model.v: options, rootfs_cmd | induction over the arguments |
| C134 | Rootcmd_Model.v: ends, group, sed_name, isar_names | underscores are counted before the only quote |
| C135 | Rootcmd_Model.v: uses_dracut, one_kernel, generate_initramfs, kernel_deployed | names in /boot as an invariant over the kernels; permutation of the directory |
| C136 | trees as lists of paths with nodes; moves, removal, tar of the pattern *, unpacking | induction over the directories with a lemma on what is below a path after a move |
| C137 | work directory and archives as a state, builds and restores as events | invariant over histories |
| C138 | root file system and archives by task as a state | invariant over histories |
| C139 | the tarball and the archives as a state | invariant over histories |
| C140 | decoded addresses of Url_Model, a regular expression engine as a parameter and one for the usual expressions | case analysis over the parts of the address; lemmas on replaced texts and names |
| C141 | adduri with the variable newud that keeps its value over the loop | induction over the depth with a permutation of the lines as invariant |
| C142 | collection of dependents, the loop in rounds over sets with any order of iteration, KeyError as None, the server's answers as a function | invariant over the rounds: what is done has the right hash and depends on nothing still to do; a task without pending dependencies exists because there are no loops |
| C143 | build_taskdepdata with the cache entries and the rounds | induction over the rounds: children of what was collected are collected or pending |
| C144 | partitions as records, the text of the file, lines joined with tabs | splitting of the new text into lines and fields |
| C145 | numbers and identifiers given in PartitionedImage.__init__, device names, root device, what sgdisk and mkfs get | hexadecimal digits and numbers correspond; numbers increase along the list |
| C146 | size computation, empty partitions, names of files, copying and renaming | arithmetic; file names contain the line number between two dots |
| C147 | Debsrc_Model: the Python functions and the copying loop over maps from paths to contents | induction over the list of fragments |
| C148 | Debsrc_Model: crossvars as a function of the variables | case analysis |
| C149 | Debsrc_Model: normpath, commonpath and slicing | lemmas on normalised paths |
| C150 | Debsrc_Model: the text written; Debsrc_Spec: a reader of deb822 | line by line round trip |
| C151 | Debsrc_Model: directories as maps from names to content and mode | case analysis and folds over the fixed lists |
| C152 | Layerconf_Model: edit_metadata as a fold over lines with the state of the open variable, and both passes of edit_bblayers_conf with the callback's verdict as a value; Layerconf_Spec reads the result with the parser of Parse_Model. | edit_metadata on a well-formed file is shown to map each setting to a setting and every other part to itself (except blank lines); the parsed statements of the result follow from conf_layout, the layers from the fold of the operators. |
| C153 | The queue of bytes, the loop over events and the loop over exit codes, with pickle.loads as a function that gives an event, truncated or an error. | A closing tag before the real one lies in the data (a tag does not overlap itself), so the scan goes on; a queue that is a proper prefix of a message gives nothing; induction over the messages, then over the reads. |
| C154 | Children with their pipes and queues, actions of a schedule, the list of what is sent; the two queues of the writing thread and the pipe. | Invariant per process: what it wrote is the events passed on, then its queue, then its pipe; what was sent about it is these events. Induction over the schedule; the writing thread keeps the concatenation of what was put in. |
| C155 | send_pickled_data with the length in four bytes, handle_item, the eight names in their order, turns of the loop with the bytes that came. | The closing tag occurs first behind the data (byte 128 keeps it out of the length); a part of a command gives nothing; the queue is always the rest of the stream; a turn handles the first command if it is complete. |
| C156 | a file system of names and nodes, every system call as a step that can fail, data written byte by byte, all states recorded | Hoare triples over the recorded states with invariants for writing, renamed and unlinked phases |
| C157 | the same file system as C156 | the triples of C156 with the rename as last visible step |
| C158 | actions that can each raise, with a record of what was done | a relation between a program and its full list of actions, closed under sequence, loops and finally |
| C159 | the same actions as C158 | the relation of C158, with a direct account of the last part |
| C160 | tasks that take their files one by one, with blocking locks | exclusion as an invariant; a chain of waiting tasks has growing ranks; a measure falls with each step |
| C161 | Emit_Model: the text emit_var writes for a variable, emit_func's order, the quoting as three substitutions; the text of an exception is data. | Emit_Spec has its own small shell (double quotes, export, unset, comments); script_value is an equivalence by induction on the length of the value, script_environment an induction over the sorted names. |
| C162 | Emit_Model.emit_deps: the loop over new names, with the set of those seen. | Invariant of the loop (what is written is what was seen and is a function; all references are seen or new) and a measure: the functions not yet seen. |
| C163 | dictionaries as association lists without duplicate keys; the functions of utils.py as functions on them | equations for look-ups after set, del and filter; the list of approved variables against a declarative definition of passing |
| C164 | the server's state (its process's environment, the configuration's, what each configuration inherited) and updateConfigOpts as a step | an invariant over the list of clients |
| C165 | exported_vars, the loops of fork_off_task that fill the emptied environment, and the backup of the worker's environment | look-ups after folds of set; the backup list has one entry for each name with the value before |
| C166 | Install_Model.handle_config over a machine (files, block devices, auto.install, command line) | Induction over the words from the end: the last word with a prefix decides; values are unique, hence an equivalence for acceptance. |
| C167 | Install_Model.discover over /sys/block and the root file system | Equivalence of the filter with the specification; the kernel's naming of partitions gives that the stripped name is a prefix of the disk's. |
| C168 | Install_Model.installer: the flow with the user's answers and the results of the tools as input, effects as a list | Case analysis of the flow against the configuration's specification. |
| C169 | Expand_Model.run over what /sys, findmnt and sfdisk say | Descent by induction on the chain; the number and p at the end are stripped by reversal. |
| C170 | Expand_Model.transform on lines (grep and the two sed commands); sfdisk's rule for missing sizes as specification | Refinement: the greedy patterns on a printed entry act as leaving out its size; the rest by arithmetic on starts. |
| C171 | Epoch_Model.get_epoch over trees of files with times | Nested induction on trees; the maximum does not depend on the order; equality of trees is extensional. |
| C172 | Epoch_Model.write_state (files after k steps), read_epoch, reads, clamp | Case analysis of steps; induction on the history. |
| C173 | multi_finalize over an abstract datastore, with the names of Pcache | membership in the list of datastores, and that a name is always a piece of itself |
| C174 | the variables the class uses, on top of multi_finalize | case analysis on the words of BBCLASSEXTEND |
| C175 | both computations of the name, and the variants of the recipe on top of multi_finalize | equality of the two names for the same IMAGE, and injectivity of appending the image |
| C176 | config_fragments with the file name functions of Patch | case analysis on the pieces of .cfg |
| C177 | both computations as functions of S and the fragment; paths compared after normpath | case analysis on the last slash; a dot component is dropped by normpath |
| C178 | get_additional_build_profiles and the two uses of bb.utils.contains | words of the concatenated text |
| C179 | The regular expression with HOME in it (repetitions and the point), abspath, glob on a tree of files without symbolic links, unlink and rm -rf. | The guard as an iff; filters on the tree; induction on the names for unlink. |
| C180 | The loops of exec_func over the words of cleandirs and dirs, remove and mkdirhier. | The tree after one step as an iff, then induction on the list. |
| C181 | Where git.py unpacks and where do_adjust_git looks, relpath, sed on the lines of alternates, how git reads them, the link and the mirror links. | The path git computes is normalised component by component; induction on the sources. |
| C182 | Template_Model: envsubst, format_of, template_env, transform. | Strong induction over the text; the specification is shown total and deterministic. |
| C183 | Template_Model: wks_names, wks_vars, wks_name, wks_path. | Induction over the text; the search by the lemma on which. |
| C184 | Template_Model: env_line, env_text, parse_line, wic_var. | Induction over the list of variables, over the lines of the file. |
| C185 | Siginfo_Model: save, restore, getstate, setstate, processes with queues. | Invariant: the receiver, after reading its queue, knows all numbers of the sender; induction over the events. |
| C186 | World_Model: add_recipe, build_world, universe. | Invariant of the tables by induction over the recipes; then membership. |
| C187 | Layerseries_Model: dynamic. | Induction over the entries; the form of an entry determines its parts. |
| C188 | Layerseries_Model: read_layer, accepted, layers_read. | Invariants of the loop over layers and collections; the decision as an iff. |
| C189 | the state of one entry and its checks over a list of statvfs samples (Diskmon_Model) | induction over the samples with an invariant of the state |
| C190 | convertGMK and getDiskData on words (Diskmon_Model) | uniqueness of decimal notation, induction over the entries |
| C191 | the list, the pattern matching and the two decisions made with it (Enforce_Model) | equivalence of fnmatch with an inductive definition of matching; unique cut at the colon |
| C192 | the loop that starts processes and collects them, including the removal from the list it runs over (Launch_Model) | an invariant over the turns and a weight that falls |
| C193 | the tally of matched and unmatched patterns (Emptylayer_Model) | an invariant of the tally over the recipes |
| C194 | the queue, the set of seen variables and the answer (Refvars_Model) | an invariant of the breadth-first search with distances |
| C195 | the search for the longest pattern and for the entry (Filelayer_Model) | induction over the patterns; uniqueness of the best match |
| C196 | the handler as a list of actions (Stale_Model) | induction over the lines of the index; the order by induction over the actions |

## 4. Not modelled

Everything that only launches external tools (mkfs, parted, dpkg, apt, tar,
schroot, git, ...), logging, the user interfaces (knotty, ncurses, toaster),
network sockets below the line protocol, Python's process/thread start-up.

## 5. Findings (code that does not satisfy the property as one would state it)

Each item is a theorem `..._refuted`: it evaluates the model on a concrete
witness.  The theorem next to it in the same file states what does hold.

* C01 `wic_negative_align_refuted` (WicLayout_Props.v): argparse accepts a negative --align; then partitions can overlap.
* C03 `wic_realnum_refuted` (WicLayout_Props.v): ... but not with an explicit --type logical.
* C04 `wic_extended_refuted` (WicLayout_Props.v): C04 as one would state it fails: an --offset after the first logical partition is not accounted for in the size of the extended one.
* C06 `fiemap_all_holes_refuted` (Filemap_Props.v): Finding: a file without mapped blocks makes the generator fail (an exception instead of an empty enumeration).
* C07 `size_argument_negative_refuted` (Ksparser_Props.v): Finding: negative sizes are accepted.
* C09 `version_order_is_not_dpkg_refuted` (Vercmp_Props.v): Finding: the order is not dpkg's. A longer word beats a shorter one even if a separator follows the shorter one (dpkg: letters sort before other characters).
* C08 `version_second_colon_refuted` (Vercmp_Props.v): Finding: text after a second ':' is dropped, so different versions compare equal.
* C10 `rpc_boundary_blank_refuted` (Rpc_Props.v): Finding: for every chunk size there is a JSON text (a string with a blank at the boundary) that arrives changed.
* C10 `rpc_blank_chunk_desynchronises_refuted` (Rpc_Props.v): Finding: if a whole chunk is white space the reader stops there, and the rest of the message is taken for further messages.
* C10 `rpc_reserved_key_refuted` (Rpc_Props.v): Finding: a short message that itself has the key "chunk-stream" makes the receiver swallow the following messages.
* C11 `pr_import_collision_refuted` (Prserv_Props.v): Finding: an import can give one value to two checksums.
* C13 `pr_export_empty_version_refuted` (Prserv_Props.v): Finding: rows with an empty version are not exported.
* C14 `pr_acknowledged_value_reissued_refuted` (Prserv_Props.v): Finding: answering a request commits nothing, so a crash makes the server hand out an acknowledged value again for a different checksum -- however many values were acknowledged before, in both modes.
* C15 `hash_upstream_race_refuted` (Hashserv_Props.v): C15 fails for answers that waited for the upstream server: between the local lookup and the reply another client registers the task, the reply is passed on although another unihash is stored (server.py 344-346).
* C15 `hash_readonly_report_refuted` (Hashserv_Props.v): A client that may not report (or any client of a read-only server) is told the unihash of the output it reports, even if the task has another one stored (server.py 447-462).
* C15 `hash_unsaved_answer_refuted` (Hashserv_Props.v): With the row-id behaviour of old Python versions a task whose entry was removed is told unihashes that are not stored.
* C15 `hash_get_unknown_with_upstream_refuted` (Hashserv_Props.v): A query for a task that neither server knows fails instead of answering "no unihash" when an upstream server is configured (server.py 345-346).
* C16 `hash_same_output_distinct_unihash_refuted` (Hashserv_Props.v): The unihashes of two tasks that reported the same output may still differ, if both were known before.
* C49 `hash_clean_unused_removes_young_refuted` (Hashserv_Props.v): ... but the age limit has the wrong sign (server.py 616): records younger than the limit are removed, for every positive limit.
* C18 `perm_revocation_ignored_refuted` (Hashperm_Props.v): The permissions of a logged in user are the ones read at login: withdrawing them, or deleting the user, does not stop connections that are already logged in (651, 776).
* C21 `sst_epoch_misread_refuted` (Sstname_Props.v): A version with an epoch shifts the fields: isar-sstate then takes the revision for the architecture, so --arch selects the wrong files.
* C20 `upload_race_overwrites_refuted` (Ssttool_Props.v): Uploading is decided when the scan ends: an object that another client creates between the scan and the copy is overwritten.
* C19 `clean_deletes_young_refuted` (Ssttool_Props.v): An archive created just now is deleted because another archive with the same hash is old; and a signature file created just now although --max-sig-age is a year.
* C19 `clean_unknown_unit_refuted` (Ssttool_Props.v): A unit the tool does not know counts as days: a limit of one year or of one month is a limit of one day or of one minute. A limit for signature files that is not a number ends in an exception.
* C22 `manifest_blank_name_refuted` (Sstman_Props.v): A staged file whose name ends in a blank is left behind, and the file of the same name without the blank, not staged by the task, is removed.
* C22 `manifest_repeated_source_refuted` (Sstman_Props.v): A path that repeats the name of the source directory is recorded under a wrong name (str.replace replaces all occurrences): its file is left behind, and with it the directories above it.
* C23 `reachable_preserve_ignored_refuted` (Sstman_Props.v): Whatever the list of preserved stamps says: written as lines, it protects nothing (the newline is kept when it is read).
* C23 `reachable_duplicate_lost_refuted` (Sstman_Props.v): An index with the same line twice loses the entry although it is reachable.
* C25 `number_threads_starves_refuted` (Runq_Props.v): The engine counts a failed task as still running against number_threads (runqueue.py 252), so with --continue an unrelated task of the same limited name is never run.
* C26 `enforce_exceeds_threads_refuted` (Runq_Props.v): In setscene enforce mode a refused task is failed without having been active (2318-2321), the count of active tasks drops below the truth and more tasks than threads run.
* C26 `enforce_never_ends_refuted` (Runq_Props.v): In setscene enforce mode a refused task can be refused again in every round: the queue never ends.
* C27 `all_looping_tasks_printed_refuted` (Taskweights_Props.v): Not every loop is printed, even when there are fewer than ten, and a task may be on a loop and in no chain: 5 needs 0, which needs 4, 1, 2, 3 and 5 again, but 3 has been visited from 1 when 5 is reached.
* C28 `lock_exclusion_shared_refuted` (Lock_Props.v): flock(2) does not promise that, and then it fails: process 0 gives up its shared lock during the conversion, 1 takes the lock and releases it (removing the file), 2 locks a new file, 0 gets its lock on the old file and removes the new one, 3 locks yet another file while 2 still holds the lock.
* C29 `realpath_relative_root_refuted` (Path_Props.v): Without use_physdir a relative root given with '..' is no jail: the path is only compared as a string.
* C29 `realpath_canonical_refuted` (Path_Props.v): A link to "." leaves a "." in the result, which is then not canonical.
* C30 `relative_link_same_refuted` (Path_Props.v): Without the condition on the first differing components the claim is false: the common ancestor is searched as a string prefix.
* C30 `link_to_own_directory_refuted` (Path_Props.v): A link to its own directory is removed, and the new link cannot be made.
* C30 `replaced_link_trailing_slash_refuted` (Path_Props.v): With the base directory given with a trailing slash the directory of the link is taken relative to the current directory, and the link is wrong.
* C30 `replaced_link_repeated_base_refuted` (Path_Props.v): When the name of the base directory occurs again further down, the wrong part is cut off.
* C32 `marked_item_removed_refuted` (Lists_Props.v): One mark does not cancel an item that is listed twice, nor one implied by two items.
* C32 `implied_item_removed_refuted` (Lists_Props.v): One mark does not cancel an item implied by two items.
* C34 `fixup_idempotent_refuted` (Lists_Props.v): Names that already carry the suffix get it a second time (missing elif in fixup_depends).
* C35 `collect_cycle_refuted` (Imgtypes_Props.v): Image types whose dependencies form a cycle are collected without end.
* C35 `requested_image_removed_refuted` (Imgtypes_Props.v): IMAGE_FSTYPES = "ext4.gz ext4.xz": the requested ext4.xz is removed.
* C35 `same_task_name_refuted` (Imgtypes_Props.v): Two base types with the same cleaned name share a task: only one is built.
* C35 `ambiguous_conversion_refuted` (Imgtypes_Props.v): With conversions "tar.gz" and "gz" the two loops disagree and the task fails.
* C35 `image_basetypes_complete_refuted` (Imgtypes_Props.v): But a base type needed through a conversion's own dependency is not a member.
* C36 `multi_part_priority_refuted` (Data_Props.v): Overrides in several parts: with OVERRIDES = "x:y:z" the value for "x:y" beats the one for "z", although z has the highest priority...
* C36 `variant_without_value_hides_refuted` (Data_Props.v): A variant that is only the target of a removal or of an append whose condition is not met has no value, but hides the variants of lower priority.
* C36 `append_becomes_override_refuted` (Data_Props.v): An append to a lower-case variable registers it as an override of the name without its last letter: with an override "files" set, FILES-like variables change (here "file" takes the value of "files").
* C39 `expansion_ends_refuted` (Data_Props.v): Expansion of a value with a stray dollar sign can go on without end.
* C38 `export_changes_original_refuted` (Dataheap_Props.v): Exporting a variable in a copy adds it to the list of exported names of the original.
* C38 `renames_change_original_refuted` (Dataheap_Props.v): The table of renamed variables is shared as well.
* C38 `inherited_flags_deleted_refuted` (Dataheap_Props.v): Deleting the flags of an inherited variable without value has no effect in a copy.
* C40 `second_constraint_refuted` (Deps_Props.v): Refuted: two constraints in a row for the same package. The second takes over the version of the first.
* C111 `blank_version_refuted` (Deps_Props.v): Refuted: one constraint is one entry. A version with a blank gives two.
* C40 `names_agree_refuted` (Deps_Props.v): Refuted: both functions read the same names. Only one of them drops commas.
* C40 `comma_joins_refuted` (Deps_Props.v): Refuted: a comma separates packages. Without a blank after it, the names are joined.
* C41 `file_user_lost_refuted` (Url_Props.v): Refuted: a user is kept for every scheme.
* C41 `host_becomes_user_refuted` (Url_Props.v): Refuted: the host stays the host. With nothing after the "@", it is read as part of the host, and as the user after encoding.
* C41 `empty_user_crashes_refuted` (Url_Props.v): Refuted: decoding either succeeds or reports a malformed URL. An empty user name with a password leaves a variable unset.
* C41 `empty_scheme_refuted` (Url_Props.v): Refuted: every decoded URL can be encoded.
* C42 `dotted_names_collide_refuted` (Container_Props.v): Refuted: slashes and dots of the name.
* C42 `underscore_tags_collide_refuted` (Container_Props.v): Refuted: underscores of the name and of the tag.
* C42 `digest_and_tag_collide_refuted` (Container_Props.v): Refuted: a digest and a tag spelled like it. (The tags pushed by image signing tools look so).
* C42 `unpacked_digests_collide_refuted` (Container_Props.v): Refuted: the unpacked files are kept apart. Images chosen by digest all unpack as "latest".
* C43 `wildcard_best_refuted` (Providers_Props.v): Among the recipes that fit a wildcard the best one is taken: it is the first in order of preference upwards, then of the list, so an older version or one marked as not to be preferred.
* C43 `wildcard_preference_refuted` (Providers_Props.v): A recipe marked as not to be preferred is chosen by a wildcard.
* C43 `wildcard_order_refuted` (Providers_Props.v): The choice does not depend on the order of the files: it does for wildcards.
* C43 `revision_ignored_refuted` (Providers_Props.v): A revision can be asked for with "_": the regular expression leaves it in the version, so nothing fits.
* C43 `missing_hides_others_refuted` (Providers_Props.v): A required version of one recipe that is missing hides the other providers of the name.
* C43 `empty_required_refuted` (Providers_Props.v): An empty REQUIRED_VERSION asks for nothing: it makes every recipe unselectable.
* C44 `zero_packages_refuted` (Progress_Props.v): If nothing is announced, the first line that tells of a step is a division by zero.
* C44 `filter_pieces_refuted` (Progress_Props.v): With them the pieces matter: what is shown, and which lines are looked at.
* C44 `filter_tail_lost_refuted` (Progress_Props.v): The end of an output that does not end in a newline is never passed on.
* C45 `removed_inside_refuted` (Rootclean_Props.v): Only directories inside TMPDIR are removed: the check compares texts, not directories.
* C45 `blank_entry_refuted` (Rootclean_Props.v): An entry that expands to a text with a blank is split after the check.
* C45 `mounted_kept_refuted` (Rootclean_Props.v): A directory with a mount in it is not removed: the mounts are compared with the entry without TMPDIR.
* C45 `unrelated_mount_refuted` (Rootclean_Props.v): And unrelated mounts stop the removal.
* C45 `template_inside_refuted` (Rootclean_Props.v): Templates outside of WORKDIR are refused.
* C45 `template_overwrites_refuted` (Rootclean_Props.v): The result never replaces its template: it does for a file called ".tmpl", which is emptied before it is read.
* C45 `template_collision_refuted` (Rootclean_Props.v): Two templates have different results.
* C46 `three_options_refuted` (Aptsrc_Props.v): Every valid line is understood: with three options the URL is not found, so no mirror is used.
* C46 `flat_relative_refuted` (Aptsrc_Props.v): A flat repository given by a relative path, which has no components, is an exception.
* C46 `snapshot_drops_options_refuted` (Aptsrc_Props.v): Options survive: with snapshots they are replaced.
* C47 `contains_words_refuted` (Words_Props.v): [contains] depends on the words of the variable only.
* C47 `booleans_differ_refuted` (Words_Props.v): The two booleans accept the same words.
* C47 `backfill_once_refuted` (Words_Props.v): [features_backfill] adds a feature once.
* C47 `jobs_edges_refuted` (Words_Props.v): A limit of zero limits, -j alone is accepted.
* C47 `foreign_locale_refuted` (Words_Props.v): Only packages of the recipe are left out.
* C48 `flag_textual_refuted` (Search_Props.v): The flag is removed as an element of the list: it is removed as text, which joins two directories.
* C48 `absolute_override_refuted` (Search_Props.v): Every override is searched below the directories.
* C48 `no_directories_refuted` (Search_Props.v): Without directories nothing is searched: the working directory is.
* C48 `no_filespath_refuted` (Search_Props.v): A missing relative file without FILESPATH is reported: it is an exception.
* C50 `restart_after_kill_refuted` (Mounts_Props.v): A mount left on sys/firmware is not removed by the next run: it is mounted again, unmounted once, and sys stays busy; every later run of the task fails in the same way.
* C50 `postprocess_leaves_nothing_refuted` (Mounts_Props.v): Without postprocessing commands, or when mounting or the emulator fails, postprocessing leaves mounts behind.
* C50 `build_end_foreign_refuted` (Mounts_Props.v): The whole line is searched, so a mount elsewhere is unmounted when only its options name the directory.
* C52 `base_second_remove_untracked_refuted` (Sigbase_Props.v): C52 is false: what a second :remove text refers to is not tracked. Changing C from z to y changes the value of A, and the hash stays.
* C52 `base_flag_name_part_refuted` (Sigbase_Props.v): C52 is false: the flag [dirs] is taken to be ignored because its name is a part of "sstate-outputdirs"; moving the directory a task runs in does not change its hash.
* C52 `base_two_changes_cancel_refuted` (Sigbase_Props.v): C52 does not extend to two changes at once: names and values are joined without separators, so two changes can cancel out whatever the digest is.
* C54 `task_text_two_dirs_refuted` (Sigtask_Props.v): C54 is false for files from two directories that move separately: single files are sorted by their absolute path, so the hash changes although nothing else does.
* C54 `task_text_second_mark_refuted` (Sigtask_Props.v): C54 is false behind a second mark: of a directory entry /layer/./files/./NAME only "files" counts, so renaming the file is not seen.
* C56 `sigdata_same_name_refuted` (Sigtask_Props.v): C56 is false for two dependencies with the same recipe and task name (two versions of one recipe): one entry is kept for both, and a mismatch is reported.
* C60 `lock_name_part_refuted` (Siglock_Props.v): C60 is false where one name is a part of another: unlocking "lib" also unlocks a recipe that depends on "libfoo", which has nothing to do with it.
* C60 `lock_schedule_refuted` (Siglock_Props.v): C60 is false over different schedules: a recipe becomes unlocked when the first of its tasks with an unlocked dependency is hashed, so the hash of its other tasks depends on the order.
* C61 `changelog_killed_doubles_refuted` (Changelog_Props.v): C61 is false for a build killed before it could mark that there was no changelog: the entry it wrote is taken for the original changelog and doubled.
* C61 `changelog_killed_truncates_refuted` (Changelog_Props.v): C61 is false for a build killed while the original changelog is being copied: the beginning is taken for the whole, the rest is lost for good.
* C61 `changelog_killed_removed_refuted` (Changelog_Props.v): C61 is false for a build killed between removing the changelog and writing the given one: the original version is no longer filled in.
* C61 `changelog_new_sources_refuted` (Changelog_Props.v): C61 is false when new sources are unpacked over old ones: the kept copy wins over the changelog they bring, whatever it is.
* C61 `changelog_second_entry_refuted` (Changelog_Props.v): C61: the comment in deb_debianize says that no entry is added if the given changelog has one for the version; only its first entry is looked at.
* C63 `sources_epoch_refuted` (Debcache_Props.v): Two versions of a source that differ in the epoch only have the same .dsc name. If both are wanted, or one was downloaded earlier, the second is neither downloaded nor reported as missing, although apt could deliver it.
* C64 `cache_own_exported_refuted` (Debcache_Props.v): Whether a package is isar's own is looked up by a substring of the path. If the name of another package of isar ends with the name, and is listed first, the contents differ and isar's own package is put into the cache of downloaded packages.
* C64 `cache_rebuilt_stays_refuted` (Debcache_Props.v): A package of isar that is rebuilt with the same version while an image or another package is built no longer has the content that was installed, so the old one is put into the cache. As nothing in the cache is ever replaced, it stays.
* C65 `accounts_same_hash_refuted` (Accounts_Props.v): The salt of clear-text passwords is made of the date of the sources alone, so accounts with the same password have the same hash in the image, whatever the hash functions.
* C66 `locales_again_refuted` (Locales_Props.v): The step is not repeatable: locale.gen is appended to (line 78), so a run of the task that is repeated leaves each line twice in the image.
* C67 `patch_rev_exact_refuted` (Patch_Props.v): "rev" asks for text within the revision, not for the revision: a patch meant for revision 1 is also applied to revision 10.
* C68 `patch_same_name_refuted` (Patch_Props.v): Two patches of the same base name (from different directories): both are applied, but the second overwrites the copy of the first under patches/, and from then on the task fails, because the first cannot be taken back.
* C68 `patch_two_names_refuted` (Patch_Props.v): Two names of one directory ("s" and "s/."): the second name starts a new patch set, which first takes back what was applied under the first name; the task succeeds and the first patch is missing.
* C68 `patch_stale_directory_refuted` (Patch_Props.v): A directory that no longer has a patch in SRC_URI keeps the patches of earlier runs.
* C68 `quilt_first_failure_refuted` (Patch_Props.v): With quilt, after a run whose first patch did not apply, taking back does nothing (quilt pop reports that nothing is applied, and the exception is dropped before the series file is removed): the bad patch is tried again by every later run, although it is no longer in SRC_URI.
* C69 `deploy_last_build_refuted` (Repo_Props.v): Nothing removes the packages of earlier builds from the work directory, and all of them are deployed: after going back from version 2 to version 1, isar-apt still holds version 2.
* C69 `deploy_renamed_refuted` (Repo_Props.v): A package that a recipe no longer builds stays in isar-apt: only packages of the names that are deployed are removed.
* C71 `create_restart_refuted` (Repo_Props.v): base-apt: a task stopped after the first write leaves a configuration without the keys, and nothing completes it: the repository stays unsigned.
* C71 `create_new_keys_refuted` (Repo_Props.v): base-apt: keys given later are not used, since the file exists.
* C69 `local_copy_exact_refuted` (Repo_Props.v): The quoted star keeps the shell from expanding it, so that what was copied before stays: a package that has been removed from isar-apt is still in the copy.
* C72 `changed_exported_refuted` (Sbuild_Props.v): FULL STATEMENT REFUTED: a variable with a new value is exported. The lines of the environment are used as patterns for the start of a line, so a value that was cut short, such as a PATH with the last directory taken off, counts as unchanged.
* C72 `only_variables_exported_refuted` (Sbuild_Props.v): FULL STATEMENT REFUTED: only variables of the task are exported. A value of several lines is read line by line, and a line in it that holds an equals sign becomes a variable of the build.
* C72 `value_kept_refuted` (Sbuild_Props.v): FULL STATEMENT REFUTED: values are passed on unchanged; blanks at the end are lost.
* C73 `remove_undoes_insert_refuted` (Sbuild_Props.v): FULL STATEMENT REFUTED: removing the mounts brings the table back. A line that was in it before, for the same mount, is removed too.
* C73 `only_own_mounts_removed_refuted` (Sbuild_Props.v): FULL STATEMENT REFUTED: only the lines of the mounts themselves are removed. The line is looked for anywhere in a line, so the mount of a directory also takes away that of a longer path which ends the same way.
* C74 `verified_without_honesty_refuted` (Fetch_Props.v): FULL STATEMENT REFUTED: a file that does not have the stated checksum is not accepted. When it is put in place of an earlier one with a time before that of the stamp, as a copy that keeps times does, the recorded checksums are believed.
* C74 `all_verified_refuted` (Fetch_Props.v): FULL STATEMENT REFUTED: a download that ends well leaves every file in place. An error of the disk in the middle of it, such as a full one, ends the work on that address without a word.
* C75 `any_good_source_refuted` (Fetch_Props.v): FULL STATEMENT REFUTED: one source with the right file is enough. Of several premirrors the first that sends anything is the only one used, so a bad one hides a good one; the same holds for the mirrors.
* C75 `local_mirror_untouched_refuted` (Fetch_Props.v): FULL STATEMENT REFUTED: a local mirror is only read. When a file in it does not have the stated checksum, as after an update of the recipe, the file of the mirror itself is renamed, and other recipes no longer find it.
* C77 `handlers_agree_refuted` (Parse_Props.v): With two backslashes they differ.
* C77 `comment_inside_refuted` (Parse_Props.v): A comment between the lines of a statement is an error in a recipe; in a configuration file it becomes part of the value.
* C77 `unfinished_statement_refuted` (Parse_Props.v): C77, refuted: a statement whose last line ends in a backslash at the end of the file is an error in a recipe; in a configuration file the backslash is dropped.
* C78 `short_flag_unset_refuted` (Parse_Props.v): A flag of one character can be set, but not unset.
* C78 `override_unset_refuted` (Parse_Props.v): A name with an override can be assigned, but neither exported nor unset.
* C78 `inner_quotes_refuted` (Parse_Props.v): An unescaped quote inside the text is an error, two of them are not.
* C78 `untidy_names_refuted` (Parse_Props.v): Without the condition on names the reading is not the obvious one.
* C79 `flag_weak_default_refuted` (Parse_Props.v): A weak default of a flag replaces what was assigned.
* C79 `append_drops_default_refuted` (Parse_Props.v): += on a variable that has only a weak default drops the default.
* C80 `mutual_inclusion_refuted` (Parse_Props.v): Files that include each other are read for ever.
* C80 `self_inclusion_refuted` (Parse_Props.v): The guard against a file including itself compares the name as written: an absolute name is skipped, a relative one is not.
* C81 `deltask_complete_refuted` (Tasks_Props.v): C81, refuted: deltask does not remove the waiting of a task that is created by a later line; that task then waits for a task that does not exist.
* C81 `after_name_completed_refuted` (Tasks_Props.v): C81, refuted: do_ is added to the name of the task, but not to the names after "after" and "before"; with addtask x after y the task waits for y and not for do_y.
* C82 `addtask_keyword_in_name_refuted` (Tasks_Props.v): C82, refuted: a name that contains "after" is cut in two: with addtask x before do_build_after_y, the task x is before do_build_ and after _y.
* C86 `empty_function_refuted` (Classes_Props.v): C86: an empty function of the recipe (that does nothing on purpose) does not count: a class inherited below it replaces it by its own. REFUTED: "a function that the recipe defines itself is never replaced by one that a class exports".
* C86 `leftover_python_refuted` (Classes_Props.v): C86: the language of an empty function stays when the function is defined anew in the other language. REFUTED: "a function defined as a shell function is run as one".
* C86 `early_export_refuted` (Classes_Props.v): C86: a class that exports a Python function above its definition has it run as a shell function. REFUTED: "the place of EXPORT_FUNCTIONS in a class does not matter".
* C87 `anonymous_lost_refuted` (Classes_Props.v): C87: two classes whose names differ in a special character, with anonymous functions that end in the same line: one runs twice, the other not at all. REFUTED: "every anonymous function is run".
* C88 `unclosed_accepted_refuted` (Bbfile_Props.v): C88, refuted: a file that ends in the header of a function and inherits a class is accepted; the function is dropped without a message.
* C88 `inner_brace_refuted` (Bbfile_Props.v): C88, refuted: a line of a function that is only a brace ends it, also within a nested block or a here-document.
* C88 `fakeroot_name_refuted` (Bbfile_Props.v): C88, refuted: "fakeroot ()" defines a function without a name, "fakeroot()" one called fakeroot.
* C89 `inherit_variable_refuted` (Bbfile_Props.v): C89, refuted: a variable called inherit cannot be assigned: the line is taken for the command.
* C90 `same_text_refuted` (Bbfile_Props.v): C90, refuted: two defs with the same text in two files: messages name the file and line of the first for both.
* C90 `pasted_mark_refuted` (Bbfile_Props.v): 
* C91 `mcdepends_of_others_refuted` (Graph_Props.v): C91, refuted: a task with mcdepends waits for what it names there only. It also waits for what every other task of its multiconfig names: here a:do_x waits for q:do_z, which only b:do_y asks for.
* C92 `recrdeptask_direct_refuted` (Graph_Props.v): C92, refuted: do_a with recrdeptask do_c waits for do_c of all recipes it depends on. If it depends on task do_b of recipe x (inter-task dependency) and do_b has no dependencies itself, it does not wait for do_c of x.
* C92 `recrdeptask_circular_refuted` (Graph_Props.v): C92, refuted for circular runtime dependencies: packages a and b need each other at run time, which is accepted for tasks that name themselves in recrdeptask. A task r:do_r that depends on x:do_c, which depends on a:do_a, waits for do_z of no recipe: the circle hides a and everything behind it. The build itself has no circle left.
* C97 `other_provider_refuted` (Taskdata_Props.v): A recipe can fail although recipes that can be built provide all its dependencies: if the first provider of a name fails at once, the name fails before the second provider is added. Here app needs virtual/lib, which a.bb and b.bb provide, and a.bb needs something that is known to be missing.
* C99 `failed_flag_refuted` (Taskdata_Props.v): A recipe with a task that depends by its flag on a name that has failed already does not fail: it is built without what it depends on.
* C100 `unbuildable_target_refuted` (Taskdata_Props.v): Without --continue, a requested name that cannot be provided does not always stop the build: the exception is lost if it is raised while a provider of another name is added. Then a failed recipe can remain the provider of a name that a recipe needs that has not failed.
* C101 `conflict_noticed_refuted` (Rprov_Props.v): Two candidates that the configuration prefers for different names are not noticed: removing the first from the list the loop runs over makes it skip the second.
* C102 `wildcard_task_refuted` (Targets_Props.v): A request for all configurations with a task: in the default configuration the task is forgotten, and the task of the command runs instead (build instead of clean).
* C102 `wildcard_default_refuted` (Targets_Props.v): With a further target that names no configuration, the default configuration is left out.
* C102 `wildcard_order_matters_refuted` (Targets_Props.v): A target for one configuration after a target for all is refused, before it, it is not.
* C103 `single_configuration_refuted` (Multiconf_Props.v): With one configuration the statement of mc_provided is wrong: whether there are multiconfig dependencies is decided when only the recipes of the targets have been added. If it is pkg, on which the image depends, that names the firmware in a multiconfig dependency, nothing provides the firmware; a second target which has any multiconfig dependency changes that.
* C105 `migration_leaves_out_refuted` (Sceneq_Props.v): A task is executed although a task that it needs was left out: after a change of hash.
* C106 `colon_path_refuted` (Pcache_Props.v): With a colon in the path of a recipe its variants are taken for other files.
* C108 `signature_info_refuted` (Pcache_Props.v): A session that writes signatures, a change of the recipe, an ordinary session, and again one that writes signatures: the last one uses the information about signatures from before the change.
* C108 `killed_sync_refuted` (Pcache_Props.v): The cache is two files. If the process is killed between writing them then the next session uses old information, and if it is killed at the beginning of the first then the next session does not start.
* C108 `uncached_variant_refuted` (Pcache_Props.v): A variant that may not be cached any more (it fetches the newest revision) while the recipe itself may: the entry of the variant from before the change stays in the cache and is used.
* C108 `file_of_variant_refuted` (Pcache_Props.v): A file that only a variant of the recipe looks for appears: the entry of the variant is used as it was.
* C109 `cut_off_refuted` (Filesum_Props.v): If a process is killed while it writes its file, no later process can merge the files.
* C109 `changed_during_run_refuted` (Filesum_Props.v): A file that changes during a run is recorded with the time from before: when that version is back, with its time, its checksum is wrong.
* C110 `colon_name_refuted` (Filesum_Props.v): A file with a colon in its name has no checksum: changes of it are not seen.
* C110 `repeated_path_refuted` (Filesum_Props.v): A file is left out if the path of the directory occurs again in its own path.
* C111 `source_tasks_refuted` (Sstfind_Props.v): Objects of tasks called fetch, unpack, patch or preconfigure would be stored under the name of the package and looked for under that of the sources.
* C111 `blank_version_refuted` (Sstfind_Props.v): A blank in the version: the object is never looked for under its name.
* C112 `no_threads_refuted` (Sstfind_Props.v): With BB_NUMBER_THREADS = "0" the search never ends when an object is to be looked for on a mirror.
* C113 `packagedata_refuted` (Depvalid_Props.v): do_packagedata is meant to be skipped unless another do_packagedata depends on it; as the task is among its own dependees it never is.
* C114 `failed_link_refuted` (Sstpack_Props.v): A failing ln is ignored: the task succeeds although its object is not stored.
* C114 `killed_leaves_refuted` (Sstpack_Props.v): A process that is killed does not, and nobody else does.
* C115 `empty_pattern_refuted` (Layers_Props.v): An empty pattern makes the code forget the errors found before: a layer without the layer it depends on is accepted.
* C115 `zero_priority_refuted` (Layers_Props.v): A stated priority of 0 is not kept, and what it becomes depends on the order in which the layers are listed.
* C115 `layer_loop_refuted` (Layers_Props.v): Layers that depend on each other end the program with an exception instead of an error message.
* C117 `bar_mask_refuted` (Layers_Props.v): A mask that is only "|" is made to mask everything beside other masks, and nothing alone.
* C118 `nested_order_refuted` (Layers_Props.v): The priority that counts is that of the pattern in BBFILES: if it reaches into the directory of a layer inside the layer, the append files of the inner layer are applied before those of a layer of lower priority.
* C118 `short_recipe_refuted` (Layers_Props.v): A name with ".bb" in the middle: the append file for anything that begins with "a.bbx" is applied to a.bb.
* C119 `task_in_path_refuted` (Stamps_Props.v): If the name of the task occurs in the path of the directory, the stamps of the setscene variant are looked for in another directory: a task that has run again leaves the stamp of its setscene variant, and the variant counts as done.
* C119 `sigdata_path_refuted` (Stamps_Props.v): If the path of the directory contains "sigdata", no stamp is ever removed.
* C122 `mask_order_refuted` (Events_Props.v): Two recipes define a handler of one name with different masks: if the second is parsed after the first in the same process, its handler is also called for the events of the first.
* C122 `mc_names_refuted` (Events_Props.v): The name of the configuration is put before the name of the handler without a separator: the handler of one configuration can be called in place of a handler of another one.
* C123 `worker_first_refuted` (Events_Props.v): An event of a task can overtake the events that wait for the interface.
* C123 `failed_ui_refuted` (Events_Props.v): When sending to the main interface fails, the server goes on without it: the events up to the connection of the next interface are neither sent nor kept.
* C125 `tag_param_refuted` (Gitrev_Props.v): ";tag=1.0" means a branch if the repository has a branch of that name too.
* C125 `full_tag_refuted` (Gitrev_Props.v): The full name of an annotated tag gives the object of the tag, not the commit.
* C125 `usehead_branch_refuted` (Gitrev_Props.v): With usehead a branch given as the revision is not found although it exists.
* C126 `key_shared_refuted` (Gitrev_Props.v): A repository whose path differs by a dot for a slash, or a branch that continues the path, gets the commit of the other repository.
* C126 `key_branch_refuted` (Gitrev_Props.v): 
* C127 `clones_shared_refuted` (Gitrev_Props.v): A dot for a slash: two repositories share the clone and the archive of it.
* C128 `version_names_refuted` (Gitrev_Props.v): Two sources with the same name: the revision of the first is not in the version.
* C129 `resolv_restart_refuted` (Rootfiles_Props.v): A download that fails: when the task is run again, the resolv.conf of the host stays in the root file system and the original one is lost.
* C130 `add_files_host_refuted` (Rootfiles_Props.v): The task removes the file of the build machine that has the name of the destination.
* C130 `add_files_empty_refuted` (Rootfiles_Props.v): An entry without source ends the function: the files after it are not added.
* C130 `add_files_empties_refuted` (Rootfiles_Props.v): A file that is there already is not emptied by an entry without source.
* C131 `os_release_unterminated_refuted` (Rootfiles_Props.v): If the last line has no newline, BUILD_ID is glued to it.
* C132 `lists_extension_refuted` (Rootfiles_Props.v): The test is for a part of ".list": a file with the extension .l is taken for a list.
* C133 `rootfs_cmd_space_refuted` (Rootcmd_Props.v): A path with a space becomes two arguments.
* C134 `isar_names_arch_refuted` (Rootcmd_Props.v): The architecture is lost: for a package of another architecture the one for this machine is downloaded.
* C135 `generator_refuted` (Rootcmd_Props.v): A package that only mentions dracut in its name is enough.
* C135 `initrd_newest_refuted` (Rootcmd_Props.v): With two kernels they may not: 6.1.0-9 comes after 6.1.0-10.
* C135 `initrd_backup_refuted` (Rootcmd_Props.v): A backup next to the initrd may be deployed in its place.
* C136 `trip_missing_refuted` (Ssttrip_Props.v): A directory that does not exist is passed over when the archive is made, but not when it is restored, nor by the task itself.
* C136 `trip_hidden_refuted` (Ssttrip_Props.v): A directory with a hidden name is not in the archive.
* C136 `trip_name_refuted` (Ssttrip_Props.v): Two directories of the same name cannot be in one archive.
* C137 `debs_stale_refuted` (Ssttrip_Props.v): Otherwise the packages of an earlier build get into the archive of a later one, and from there into any work directory it is restored in.
* C138 `rootfs_merge_refuted` (Ssttrip_Props.v): In one that is not empty, files of the root file system before stay: the setscene task has no root_cleandirs.
* C138 `rootfs_other_refuted` (Ssttrip_Props.v): The archives of the other tasks hold the root file system too: restoring the initrd puts the files of the postprocessing back into the restored root file system.
* C140 `mirror_parameter_refuted` (Mirror_Props.v): A line that asks for a parameter raises an exception for every address that fits otherwise and does not have it.
* C140 `mirror_words_refuted` (Mirror_Props.v): The words are replaced one after the other, and so also in the parts of the address.
* C140 `mirror_odd_refuted` (Mirror_Props.v): One word too many or too few shifts all lines after it.
* C141 `mirror_twice_refuted` (Mirror_Props.v): With an address of an unknown scheme, the address of the line before is followed again, and its line used a second time.
* C142 `rehash_entry_refuted` (Rehash_Props.v): C142, refuted: the entry of a task does not always have its hash: when the name of the new hash is the name the task had, the entry keeps the old hash.
* C144 `fstab_newline_refuted` (Wicfs_Props.v): C144, refuted: when the last line of the old file does not end with a newline, the first new line becomes part of it.
* C144 `fstab_space_refuted` (Wicfs_Props.v): C144, refuted: a mount point with a space gives a line with seven fields.
* C145 `device_squashfs_refuted` (Wicfs_Props.v): C145, refuted: a squashfs has no identifier, but its line with --use-uuid has one.
* C145 `device_nvme_refuted` (Wicfs_Props.v): C145, refuted: for other disks whose names end with a digit the node is not there.
* C145 `rootdev_part_name_refuted` (Wicfs_Props.v): C145, refuted: with --part-name and --label the root device has the label, but the partition has the other name.
* C145 `rootdev_msdos_number_refuted` (Wicfs_Props.v): C145, refuted: with a table of type msdos the number in the root device is decimal, the kernel's hexadecimal: partition 10 is not found.
* C145 `rootdev_msdos_uuid_refuted` (Wicfs_Props.v): C145, refuted: with a table of type msdos an identifier given with --uuid is in the root device, but not on the disk.
* C146 `empty_fixed_refuted` (Wicfs_Props.v): C146, refuted: with --fixed-size the file of a swap area is empty, and an empty btrfs is made with size 0.
* C146 `files_swap_refuted` (Wicfs_Props.v): C146, refuted: two swap areas have the same file; after the first was put into the image the file is gone, and the second fails.
* C147 `fragment_c_refuted` (Debsrc_Props.v): The test is for a part of ".cfg": C files of SRC_URI are taken for fragments.
* C147 `fragment_beside_refuted` (Debsrc_Props.v): A fragment next to the sources, whose path begins like theirs, is not copied: whether it is there or not, the task succeeds and the kernel is configured with a file that does not exist.
* C150 `control_description_refuted` (Debsrc_Props.v): A description of two lines makes a control file that cannot be read.
* C151 `debianize_variant_refuted` (Debsrc_Props.v): Units are looked for under the name of the recipe: a native or compat variant of the recipe, whose package has the same name, does not get them.
* C152 `layer_overridden_refuted` (Layerconf_Props.v): Refuted: a layer that is reported as added is in effect. The first setting gets it, and a later setting with an equals sign replaces that.
* C152 `layer_glued_refuted` (Layerconf_Props.v): Refuted: a file bitbake reads can be read after a layer was added. If the last line has no line end and two settings append, the new setting is glued to that line.
* C152 `layer_tab_refuted` (Layerconf_Props.v): Refuted: a setting bitbake reads is found. With a tabulator before the operator there is an error.
* C152 `layer_pattern_refuted` (Layerconf_Props.v): Refuted: removing by a pattern removes all layers that match. Only the first one of each setting goes, and nothing is reported.
* C152 `layer_default_refuted` (Layerconf_Props.v): Refuted: removing a layer never makes another one effective. A setting that appends and is emptied is dropped; a default behind it then counts.
* C152 `layer_tail_refuted` (Layerconf_Props.v): Refuted: what is not about BBLAYERS stays, in every file bitbake reads. If the line with the last quotation mark is continued by an empty line, the end of the value is not found, and all lines from there on are lost when a layer is added.
* C154 `event_tag_refuted` (Wpipe_Props.v): An event whose data contains an opening tag stops the worker, and with it every task it runs: the message is refused with an assertion, although the server would have taken it. The text of a log message is such data.
* C154 `event_end_refuted` (Wpipe_Props.v): And so does one with a closing tag, which the server reads as one event: its rest is no event when the next one comes.
* C155 `command_tag_refuted` (Wpipe_Props.v): The length that is sent with a command is not used to find its end: data that contains the closing tag is handed over cut, and the rest of it keeps every later command from being handled.
* C156 `move_gap_refuted` (Moves_Props.v): The description says that a move is atomic. A link at dest is removed first: for a moment there is nothing at that name.
* C156 `move_partial_refuted` (Moves_Props.v): A rename that the kernel refuses although both names are on one device (two bind mounts) is done byte by byte under the new name: others see a part of the file there. Other names of the old file are overwritten, and the owner is lost.
* C156 `move_mode_refuted` (Moves_Props.v): A file that only its owner may read is readable by everybody under its new name for a moment, when it comes from another device; if the machine stops there, it stays so.
* C156 `move_time_refuted` (Moves_Props.v): A file of the time 0 is moved, or freed of its other names, but what is returned means failure.
* C156 `move_link_self_refuted` (Moves_Props.v): A link that is moved to where it is is lost.
* C156 `move_same_refuted` (Moves_Props.v): A file that is moved to another of its names is reported as moved, but keeps both.
* C157 `copy_unreadable_refuted` (Moves_Props.v): A source that cannot be read is made readable for the copy; if the machine stops, or an operation fails, it stays so.
* C158 `exec_early_refuted` (Exec_Props.v): A task whose preparations fail (no log file, an invalid nice level) is to be reported by TaskFailed. The event is built with too few arguments: no event is fired, and exec_task, which is there to catch exceptions, raises one.
* C158 `exec_late_refuted` (Exec_Props.v): A task can be reported as succeeded and fail: the stamp is written after the event.
* C158 `exec_missing_refuted` (Exec_Props.v): A prefunc that does not exist does not make the task fail.
* C160 `locks_cycle_refuted` (Exec_Props.v): Two tasks that list two lock files in different order can wait for each other for ever; a task that lists a file twice waits for itself.
* C160 `locks_twice_refuted` (Exec_Props.v): 
* C161 `script_newline_refuted` (Emit_Props.v): Refuted: an exported value arrives as it is. A line end becomes a space.
* C161 `script_backslash_refuted` (Emit_Props.v): Refuted: an exported value without a line end arrives as it is. Of two backslashes one is left.
* C161 `script_end_refuted` (Emit_Props.v): Refuted: a value does not change others. A backslash at the end takes away the closing quotation mark: the text of the next variable is executed.
* C161 `script_backquote_refuted` (Emit_Props.v): Refuted: values are not executed. A backquote is written as it is.
* C161 `script_failure_refuted` (Emit_Props.v): Refuted: a variable that cannot be expanded is only a comment in the script. The message of ExpansionError has two lines (bitbake/lib/bb/data_smart.py 195-197); the second one is executed.
* C161 `script_override_refuted` (Emit_Props.v): Refuted: every exported name is left out or accepted by a shell. That of a variable with an override is written, and the shell stops there.
* C162 `script_dash_refuted` (Emit_Props.v): Refuted: every function that is used is defined. One with a dash in its name is left out, without a message.
* C163 `environ_locale_refuted` (Environ_Props.v): The locale the user set is not restored, so neither is it in what the user's own hooks and BB_ORIGENV see.
* C164 `server_additions_refuted` (Environ_Props.v): What a later client lets pass does not: its BB_ENV_PASSTHROUGH_ADDITIONS is ignored.
* C164 `server_origenv_refuted` (Environ_Props.v): BB_ORIGENV of a multiconfig can be that of an earlier client: a variable that does not pass changed.
* C165 `worker_environment_twice_refuted` (Environ_Props.v): Not if FAKEROOTENV names a variable twice: the first value stays, for all the later tasks.
* C166 `installer_abort_refuted` (Install_Props.v): installer.target.overwrite=ABORT on the kernel's command line has the device overwritten: only the word's beginning is looked at.
* C167 `devices_nested_refuted` (Install_Props.v): With the root file system in an encrypted logical volume the disk is offered: only what is directly below its device counts.
* C167 `devices_overlay_refuted` (Install_Props.v): With an overlay as root file system every disk is offered.
* C167 `devices_similar_refuted` (Install_Props.v): A disk that has nothing to do with the root file system is not offered if its name starts with the name of the root file system's disk: sdaa, with sda1, or any nvme disk, with one below the root file system's device.
* C168 `installer_locked_refuted` (Install_Props.v): When another console installs success is reported, whatever the image and the device asked for here, and whatever becomes of that installation.
* C168 `installer_boot_refuted` (Install_Props.v): If the only device given is the one booted from it is overwritten.
* C168 `installer_boots_refuted` (Install_Props.v): With two disks mounted at / and below /boot none of them is avoided.
* C169 `expand_sdp_refuted` (Expand_Props.v): A partition of the sixteenth disk is not recognised: the p of sdp is taken for that of a partition, and nothing is expanded.
* C170 `expand_order_refuted` (Expand_Props.v): The partition dumped last need not be the last on the disk: then the space at the end stays unused.
* C170 `expand_named_refuted` (Expand_Props.v): A partition whose name contains last-lba is removed from the table.
* C171 `epoch_order_refuted` (Epoch_Props.v): With repositories in two subdirectories the time depends on the order in which the file system lists them.
* C172 `epoch_stale_refuted` (Epoch_Props.v): Read before the sources are unpacked, the fallback stays, although the file is there then.
* C174 `kernel_colon_refuted` (Variants_Props.v): A kernel whose name has a colon: the variant is made, but KERNEL_NAME is only what comes before the colon.
* C175 `customization_prefix_refuted` (Variants_Props.v): CUSTOMIZATION_VARS_PREFIXED is said to list the variables that stand in front of the package name. It is searched as a text, so a machine that is not listed goes in front too if its name is a piece of the name of the distribution.
* C175 `customization_image_refuted` (Variants_Props.v): An image whose name is a piece of the name of the distribution: its package name is not the one of the recipe itself with the image behind it.
* C176 `fragments_c_refuted` (Kernelcfg_Props.v): The extension is looked for in the text ".cfg": a C source file is taken for a configuration fragment.
* C177 `fragments_download_refuted` (Kernelcfg_Props.v): A fragment that is downloaded from a directory of a server: it is unpacked without the directory, and looked for with it.
* C177 `fragments_beside_refuted` (Kernelcfg_Props.v): A path that starts with the text of ${S} but is outside of it: not copied, yet named as if it were.
* C179 `home_slash_refuted` (Cleandirs_Props.v): The guard does not know HOME if it is written with a slash at the end.
* C179 `home_regex_refuted` (Cleandirs_Props.v): Nor if it has a character that means something to re.
* C179 `home_above_refuted` (Cleandirs_Props.v): What HOME is in is not guarded.
* C180 `cleandirs_bracket_refuted` (Cleandirs_Props.v): A directory with a bracket in its name is not emptied, but another one is.
* C180 `cleandirs_order_refuted` (Cleandirs_Props.v): With a directory after one that is in it, the one in it is not there in the end.
* C181 `alternates_subdir_refuted` (Gitalt_Props.v): A repository unpacked to a subdir is not adjusted: its objects are still looked for in the downloads of the host.
* C181 `link_dangling_refuted` (Gitalt_Props.v): If the old downloads were moved away, the task fails: the dangling link is not replaced.
* C182 `template_environment_refuted` (Template_Props.v): Refuted: that the output depends on the variables of bitbake only. A variable that is unset (or empty) in bitbake is taken from the environment of the process.
* C183 `wks_plain_refuted` (Template_Props.v): Refuted: that every reference is replaced. Without braces, a variable that is not in TEMPLATE_VARS stays.
* C184 `wicenv_lines_refuted` (Template_Props.v): Refuted: that wic reads every value as it is. Of more than one line it reads the first; another line may even set another variable.
* C184 `wicenv_quote_refuted` (Template_Props.v): Refuted: a quote at the end of a value is lost.
* C185 `infos_receiver_refuted` (Siginfo_Props.v): Refuted: that the receiver may begin anew (reset its restore_map) in between: the next value is not known to it.
* C185 `infos_race_refuted` (Siginfo_Props.v): Refuted: that a reset may come at any time while another thread saves. It is two assignments; a value that is saved between them has a number that is given again, and is later read as another value.
* C186 `world_stale_refuted` (World_Props.v): Refuted: that world depends on the task that is asked for. In a server that stays, the first list that is not empty is kept.
* C186 `universe_task_refuted` (World_Props.v): Refuted: that in universe every recipe has the task: another recipe that provides the name may have it instead.
* C187 `dynamic_colon_refuted` (Layerseries_Props.v): Refuted: that every wrong entry gets this message; an entry without the name of a layer is an exception.
* C188 `layer_says_refuted` (Layerseries_Props.v): Refuted: that a layer says itself with what it works; a later layer can say it for it.
* C189 `diskmon_full_refuted` (Diskmon_Props.v): C189 is violated in one place: on a disk that is entirely full the warning comes with every check, although nothing has changed since the last one: the free space at the last warning, 0, is taken for "no warning yet".
* C191 `enforce_provides_refuted` (Enforce_Props.v): C191 is violated in one place: a target asked for by what it provides (virtual/kernel) rather than by the name of its recipe is not listed by "%:", which compares the name asked for with the name of the recipe.
* C192 `launch_killed_refuted` (Launch_Props.v): C192 is violated in two places. A process that is killed, and says nothing, passes for one without a result: the call returns.
* C192 `launch_zero_refuted` (Launch_Props.v): And with BB_NUMBER_THREADS = "0" nothing is ever started, and the call never ends.
* C193 `emptylayer_nested_refuted` (Emptylayer_Props.v): C193 is violated in one place: a layer inside another one that only appends to recipes is warned about, although there are files in it that belong to it: they lie under the pattern of the outer layer too, and that has recipes.
* C195 `filelayer_nested_refuted` (Filelayer_Props.v): C195 is violated for nested layers: a recipe in an inner layer is said to be in the outer one, if an entry of the outer layer comes first and matches: a star also matches slashes, and then the entry, not the file, is compared with the patterns.
* C196 `stale_prefix_refuted` (Stale_Props.v): C196 is violated in one place: a line of the index also counts for stamps of another version that merely begin alike (1.0-r1 and 1.0-r10): the manifest of 1.0-r1 is cleaned though only 1.0-r10 is stale. (By default the manifests are named by PN, so both versions of one recipe share them and the stamps of two recipes differ by their directories).

### Seen while reading, not stated as theorems

* siggen: a taint taken from a file stays in memory after the file is removed;
  the cache of unihashes is keyed by configuration, recipe name and task, so two
  versions of a recipe evict each other; an unset variable and an empty one hash
  alike; an empty locked hash counts as unlocked on later calls.
* checksum.py `merge_data` tests `h in dest` instead of `h in dest[0]`, so newer
  cached entries are overwritten; a file changed within the same second keeps
  its cached checksum.
* rootfs.bbclass tests `'$ROOTFSDIR'` in single quotes, which is always true; a
  partly mounted /dev group is never completed on a retry; `task_failed` raises
  if the stamp is missing.
* sbuild.bbclass removes mounts with an unanchored regular expression and may
  remove lines of other mounts.
* runqueue.py: the "basic" scheduler raises ValueError; `continue` in the inner
  loop of 2209-2211 has no effect; `process_possible_migrations` uses a stale
  variable (2568); `pending_hash_index` uses the literal "taskname".
* COW.py: iterating keys yields deleted keys.
* lock files: base names cut at 255 characters can collide; `fileslocked` keeps
  locks already taken when a later one raises.
* prserv: `sync_if_dirty` in serv.py 40-47 is unreachable.
* image.bbclass 248 refers to an undefined `image_type` in an error message.
* bootstrap.bbclass: cached base repository premirror text contains an
  unexpanded variable.

## 6. Assumptions printed for each theorem

Each `X_Props.v` ends with `Print Assumptions` for its theorems.  All theorems
of the manifest print "Closed under the global context": no axiom is used, not
even one of the standard library.  They are, by property:

* C01 (proved): wic_partitions_disjoint_and_inside, wic_negative_align_refuted, wic_entries_are_the_layout.
* C02 (proved): wic_align_and_offset_exact, wic_rejects_only_unplaceable, wic_entries_are_the_layout.
* C03 (partial): wic_realnum_is_table_number_partial, wic_num_is_parted_number, wic_realnum_refuted, wic_hybrid_mbr_slots.
* C04 (partial): wic_msdos_at_most_four_slots, wic_logical_iff_after_third, wic_extended_contains_logical_partial, wic_extended_refuted.
* C05 (proved): sparse_copy_exact_bytes, sparse_copy_new_file_equals_window, sparse_copy_via_fiemap.
* C06 (proved): fiemap_ranges_exact, merge_preserves_blocks, seek_ranges_exact, fiemap_all_holes_refuted.
* C07 (proved): size_argument_exact, size_argument_decimal, size_argument_with_unit, system_id_exact, size_argument_negative_refuted.
* C08 (proved): vercmp_reflexive, vercmp_antisymmetric, vercmp_transitive, vercmp_transitive_strict, version_operators_consistent, version_second_colon_refuted.
* C09 (proved): version_numbers_by_value, version_tilde_before_end, version_longer_is_newer, version_order_is_not_dpkg_refuted, version_lexicographic, version_kinds_ordered, version_words_alphabetical, version_other_characters, version_string_parts.
* C10 (partial): rpc_messages_survive_partial, rpc_only_white_space_lost, rpc_lines_bounded, rpc_boundary_blank_refuted, rpc_blank_chunk_desynchronises_refuted, rpc_reserved_key_refuted.
* C11 (proved): pr_hist_same_checksum_same_value, pr_hist_new_checksum_larger_value, pr_hist_distinct_checksums_distinct_values, pr_groups_independent, pr_get_always_answered, pr_import_collision_refuted, pr_first_value_is_zero.
* C12 (proved): pr_nohist_never_decreases, pr_nohist_other_checksum_larger, pr_repeat_same_value, pr_readonly_never_changes, pr_first_value_is_zero.
* C13 (proved): pr_export_import_same_answers, pr_export_empty_version_refuted.
* C14 (partial): pr_committed_values_survive_crash_partial, pr_requests_never_commit, pr_acknowledged_value_reissued_refuted.
* C15 (partial): hash_unihash_never_changes_partial, hash_entry_stays, hash_upstream_race_refuted, hash_readonly_report_refuted, hash_unsaved_answer_refuted, hash_get_unknown_with_upstream_refuted.
* C16 (proved): hash_report_joins_oldest, hash_same_output_distinct_unihash_refuted, hash_report_asks_upstream.
* C17 (proved): hash_sweep_exact, hash_collection_keeps_marked_and_new, hash_gc_status_predicts_sweep.
* C49 (partial): hash_clean_unused_keeps_used, hash_clean_unused_removes_young_refuted.
* C18 (partial): perm_executed_iff_covered, perm_report_stored_iff, perm_session_from_login, perm_no_escalation, perm_no_escalation_history, perm_revocation_ignored_refuted, perm_user_names_unique, perm_new_user_exact.
* C19 (partial): clean_exact, clean_keeps_young_partial, clean_directories, clean_age_exact, clean_bad_age_deletes_nothing, clean_deletes_young_refuted, clean_unknown_unit_refuted.
* C20 (proved): upload_exact, upload_completes_iff, upload_race_overwrites_refuted.
* C21 (proved): sst_name_bounded, sst_name_fatal_iff, sst_name_read_back, sst_name_unambiguous, sst_siginfo_beside_archive, sst_epoch_misread_refuted, sst_missing_hash_marked.
* C22 (proved): manifest_clean_exact, manifest_clean_racing_exact, manifest_touches_only_staged, install_then_clean, install_refuses_overlap, manifest_blank_name_refuted, manifest_repeated_source_refuted.
* C23 (partial): reachable_cleanup_exact, reachable_preserve_ignored_refuted, reachable_duplicate_lost_refuted.
* C24 (proved): dependencies_first, dependencies_first_transitively, success_was_started, restored_is_covered.
* C25 (partial): failure_blocks_dependents, halt_starts_nothing, complete_means_finished, continue_completes_partial, number_threads_starves_refuted.
* C26 (partial): taken_up_once, thread_limit, name_limit, enforce_exceeds_threads_refuted, enforce_never_ends_refuted.
* C27 (proved): unbuildable_iff_below_loop, refused_iff_loop, weight_is_sum, weight_grows, printed_loops_genuine, two_loop_found, chains_start_first, loop_printed_once, all_looping_tasks_printed_refuted.
* C28 (partial): lock_exclusion, lock_exclusion_shared_partial, lock_exclusion_shared_refuted, held_lock_file_exists, release_removes_file, lock_obtainable, kernel_locks, retry_does_not_give_up, no_retry_gives_up.
* C29 (proved): realpath_inside, realpath_link_free, realpath_never_asserts, realpath_refuses_outside, realpath_is_chroot, walk_deterministic, realpath_finds, realpath_relative_root_refuted, realpath_canonical_refuted.
* C30 (partial): relative_link_same, unrelated_link_kept, relative_link_same_refuted, link_to_own_directory_refuted, replaced_link_same, replaced_link_trailing_slash_refuted, replaced_link_repeated_base_refuted, path_parent_iff.
* C31 (proved): implied_items_exact, list_variable_closure.
* C32 (partial): removal_exact, marked_item_removed, unmarked_item_kept, list_variable_sound, marked_item_removed_refuted, implied_item_removed_refuted.
* C33 (proved): features_skip_iff, features_unused_iff.
* C34 (partial): fixup_plain, fixup_archall, multiarch_package_plain, drop_native_exact, extend_provides_exact, fixup_suffixed, fixup_idempotent_refuted.
* C35 (partial): base_type_exact, collected_exactly, dependency_tasks_first, collect_ends, collect_cycle_refuted, wanted_images_kept_partial, task_effect_exact, requested_image_removed_refuted, same_task_name_refuted, ambiguous_conversion_refuted, image_basetypes_exact, image_basetypes_have_tasks, image_basetypes_complete_refuted, task_name_exact.
* C36 (partial): override_selected, no_override_plain, selection_exists, selection_unique, order_independent, run_time_set_wins, run_time_set_frame, overrides_stable, multi_part_priority_refuted, variant_without_value_hides_refuted, append_becomes_override_refuted.
* C37 (proved): operations_in_order, override_selected, removals_exact, removals_exact_any_store.
* C39 (partial): expansion_sound, expansion_complete, circular_reported, expansion_ends, expansion_ends_refuted.
* C38 (partial): change_stays_local, own_variables_kept, history_stays_local, copy_looks_alike, any_change_stays_local, export_changes_original_refuted, renames_change_original_refuted, inherited_flags_deleted_refuted.
* C40 (partial): all_constraints_read, sorted_reading, names_different, printed_deps_read_back, printed_single_read_back, names_listed, no_operator_refused, second_constraint_refuted, blank_version_refuted, names_agree_refuted, comma_joins_refuted.
* C41 (partial): parts_do_not_leak, decode_encode_decode, encode_stable, slashes_merged, file_user_lost_refuted, host_becomes_user_refuted, empty_user_crashes_refuted, empty_scheme_refuted, path_decoded, percent_decoded_unique.
* C42 (partial): same_file_same_image, dotted_names_collide_refuted, underscore_tags_collide_refuted, digest_and_tag_collide_refuted, unpacked_digests_collide_refuted, fetched_image, fetched_root, unpacked_tags_apart.
* C43 (partial): best_chosen, best_unique, best_order, required_obeyed, preferred_taken, one_per_recipe, preferred_provider_first, provider_order, wildcard_best_refuted, wildcard_preference_refuted, wildcard_order_refuted, revision_ignored_refuted, missing_hides_others_refuted, empty_required_refuted, required_provider_fits.
* C44 (proved): pieces_irrelevant, silent_before_total, counted, totals_exist, never_backwards, zero_packages_refuted, filter_pieces_irrelevant_partial, filter_pieces_refuted, filter_tail_lost_refuted.
* C45 (partial): removed_exactly_partial, accepted_where, outside_refused, removed_inside_refuted, blank_entry_refuted, mounted_kept_refuted, unrelated_mount_refuted, template_contained_partial, template_inside_refuted, template_overwrites_refuted, template_collision_refuted, refused_exactly.
* C46 (partial): same_words, fields_read, flat_fields_read, first_mirror, lines_apart, other_lines_kept, comments_and_blanks, bad_line_fails, three_options_refuted, flat_relative_refuted, snapshot_drops_options_refuted, source_written.
* C47 (proved): contains_is, contains_any_is, filter_is, tidy_unique, filter_same_words, filter_symmetric, filter_again, any_iff_filter, contains_iff_filter, set_intersect_is, both_contain_is, backfill_is, backfill_keeps, backfill_twice, str_filter_is, build_depends_is, prune_first_is, prune_suffixes_is, trim_version_is, trim_twice, squash_words, booleans_agree, boolean_case, jobs_found, jobs_limited, packages_kept, contains_words_refuted, booleans_differ_refuted, backfill_once_refuted, jobs_edges_refuted, foreign_locale_refuted.
* C48 (proved): filespath_is, which_first, most_specific, absolute_places, local_absolute, local_found, local_missing, wild_first, flag_textual_refuted, absolute_override_refuted, no_directories_refuted, no_filespath_refuted.
* C50 (partial): install_leaves_nothing, install_leaves_nothing_concurrent, install_outcome, commands_see_mounts, umounts_undo_mounts, restart_after_kill_partial, postprocess_leaves_nothing_partial, restart_after_kill_refuted, postprocess_leaves_nothing_refuted, build_end_unmounts, separate_when, build_end_reports, other_configurations_skip, build_end_foreign_refuted, lock_window, build_end_accounts.
* C51 (proved): second_execution_reported, reports_come_from_starts.
* C52 (partial): base_deps_exact_partial, base_deps_used, base_deps_found, base_change_detected_partial, base_second_remove_untracked_refuted, base_flag_name_part_refuted, base_two_changes_cancel_refuted.
* C53 (proved): base_hash_only_used, base_hash_ignored, base_hash_excluded, base_struck_text.
* C54 (partial): task_text_order_free, task_text_relocatable, task_text_file_change, task_hashes_schedule_free, task_hashes_complete, task_text_two_dirs_refuted, task_text_second_mark_refuted.
* C55 (proved): task_change_propagates.
* C56 (partial): sigdata_recomputes_partial, sigdata_same_name_refuted.
* C57 (proved): tid_round_trip, tid_injective.
* C58 (proved): nostamp_taint_stable, nostamp_sessions_differ, forced_taint_counts, forced_taint_stays, untainted.
* C59 (proved): dependency_counts, own_tasks_count, undeclared_target_counts.
* C60 (partial): lock_first_call, lock_stable, lock_isolates, lock_dump_round_trip, lock_last_wins, lock_name_part_refuted, lock_schedule_refuted.
* C61 (partial): changelog_exact, changelog_given_kept, changelog_rebuilds, changelog_restart_partial, changelog_younger, changelog_killed_doubles_refuted, changelog_killed_truncates_refuted, changelog_killed_removed_refuted, changelog_new_sources_refuted, changelog_second_entry_refuted.
* C62 (proved): deb_list_items, deb_list_any, deb_list_again, profiles_exact.
* C63 (partial): sources_listed, sources_common, sources_complete, sources_only, sources_none, sources_epoch_refuted.
* C64 (partial): cache_kept, cache_export_exact, cache_nothing_lost, cache_export_order, cache_import_empty, cache_import_exact, cache_own_exported_refuted, cache_rebuilt_stays_refuted, package_files.
* C65 (partial): accounts_exact, groups_exact, accounts_restart, accounts_again, accounts_whole_name, accounts_same_hash_refuted.
* C66 (partial): locales_exact, nopurge_exact, locales_kept, locales_order, locales_file, locales_file_again, locales_again_refuted.
* C67 (partial): patches_selected, patches_defined, patch_rev_exact_refuted.
* C68 (partial): patch_runs_exact, quilt_runs_exact_partial, patch_same_name_refuted, patch_two_names_refuted, patch_stale_directory_refuted, quilt_first_failure_refuted, patch_task_exact.
* C69 (partial): deploy_exact, deploy_restart, deploy_history, deploy_last_build_refuted, deploy_renamed_refuted, local_copy_complete, local_copy_exact_refuted.
* C70 (proved): base_apt_exact, base_apt_order, base_apt_again, base_apt_keeps, contains_exact.
* C71 (partial): create_exact, create_again, cache_config_exact, create_restart_refuted, create_new_keys_refuted.
* C72 (partial): build_environment_partial, unchanged_not_exported, new_exported, changed_exported_partial, changed_exported_refuted, only_variables_exported_refuted, value_kept_refuted, last_export_wins, filter_exact, build_filter, tail_kept.
* C73 (partial): mounts_inserted, mounts_inserted_once, mount_line_exact, mount_line_same, mounts_removed, mounts_gone, remove_undoes_insert_partial, remove_undoes_insert_refuted, only_own_mounts_removed_refuted.
* C74 (partial): fetched_is_verified, stamps_stay_honest, fetched_is_verified_always, all_verified_partial, missing_checksum_refused, verified_without_honesty_refuted, all_verified_refuted.
* C75 (partial): present_file_kept, premirror_first, upstream_suffices, no_network_no_download, premirror_only_no_upstream, untrusted_not_contacted, any_good_source_refuted, local_mirror_untouched_refuted.
* C76 (proved): mirrors_listed, direct_mirrors_listed, mirror_search_ends, trusted_exact.
* C77 (proved): conf_layout, bb_layout, layout_irrelevant, handlers_agree, handlers_agree_refuted, comment_inside_refuted, unfinished_comment_refused, unfinished_statement_refuted.
* C78 (proved): reading_sound, writing_accepted, reading_exact, reading_unique, directives_exact, assignment_first, short_flag_unset_refuted, override_unset_refuted, inner_quotes_refuted, untidy_names_refuted.
* C79 (proved): operators_refine, operators_exact, other_lines_irrelevant, flags_exact, immediate_is_now, immediate_keeps, unset_forgets, flag_weak_default_refuted, append_drops_default_refuted.
* C80 (partial): include_inserts, missing_file, relative_order, mutual_inclusion_refuted, self_inclusion_refuted, inclusions_insert.
* C81 (proved): tasks_exact, task_deps_exact, task_parents_exact, task_parents_all, task_order_free, deltask_complete_refuted, after_name_completed_refuted.
* C82 (partial): addtask_before_after_partial, addtask_after_before_partial, addtask_before_partial, addtask_after_partial, addtask_alone, addtask_keyword_in_name_refuted, addtask_only, addtask_refused.
* C83 (proved): tasksbetween_exact, tasksbetween_circle, tasksbetween_ends.
* C84 (proved): class_search, classes_exact, inherits_class_exact, classes_evaluated, classes_first, classes_end, classes_missing.
* C85 (proved): deferred_last.
* C86 (partial): own_function_wins, exported_function, function_untouched, empty_function_refuted, leftover_python_refuted, early_export_refuted.
* C87 (partial): anonymous_once, anonymous_lost_refuted.
* C88 (proved): heading_exact, def_heading_exact, heading_unique, file_exact, function_place, def_place, unclosed_refused, unclosed_accepted_refuted, inner_brace_refuted, fakeroot_name_refuted.
* C89 (proved): command_exact, addtask_direct, configuration_line, inherit_variable_refuted.
* C90 (partial): python_function_lines, def_lines, compiled_in_place, same_text_refuted, shell_lines_partial, pasted_mark_refuted.
* C91 (proved): direct_exact, resolve_succeeds, mcdepends_of_others_refuted.
* C92 (proved): recrdeptask_exact, recrdeptask_nothing_else, direct_kept, recrdeptask_waits, resolve_succeeds, recrdeptask_direct_refuted, recrdeptask_circular_refuted.
* C93 (proved): needed_exact, build_exact, build_closed, build_accepted.
* C94 (proved): build_exact, build_accepted, build_closed.
* C95 (proved): versions_exact, one_version_built.
* C96 (proved): needs_provided, targets_provided, only_wanted.
* C97 (partial): failed_has_reason, failed_exact, other_provider_refuted.
* C98 (proved): resolution_ends.
* C99 (partial): flags_provided_partial, failed_flag_refuted.
* C100 (partial): unbuildable_target_refuted, unbuildable_target_stops_partial.
* C101 (partial): runtime_reordered, rprovider_first, inferred_first, runtime_order, rprovider_chosen, dynamic_last, conflict_noticed_refuted, rprovider_some.
* C102 (partial): targets_as_asked, unknown_conf_stops, wildcard_exact_partial, world_everywhere, wildcard_task_refuted, wildcard_default_refuted, wildcard_order_matters_refuted, other_prefix_default.
* C103 (partial): mc_provided, mc_only_wanted, mc_ends, single_configuration_refuted.
* C104 (proved): collapse_exact, unskippable_exact, deferral_exact, deferral_one_each, collapse_result_exact.
* C105 (partial): inputs_present, ordinary_inputs_ran, migration_leaves_out_refuted.
* C106 (partial): virtual_round, virtual_apart, variant_names, colon_path_refuted.
* C107 (proved): entry_used_exact, list_found.
* C108 (partial): cache_is_fresh, signature_info_refuted, killed_sync_refuted, uncached_variant_refuted, file_of_variant_refuted.
* C109 (partial): checksum_right, cut_off_refuted, changed_during_run_refuted.
* C110 (partial): list_covered, reading_order, colon_name_refuted, repeated_path_refuted.
* C111 (partial): found_where_stored, source_tasks_refuted, blank_version_refuted.
* C112 (partial): check_exact, check_raises, check_ends, no_threads_refuted.
* C113 (proved): depvalid_exact, ordinary_tasks, packagedata_refuted, skipped_exact, skipped_unique.
* C114 (partial): archive_complete, archive_stays, archive_stored, temp_removed, temp_names_apart, failed_link_refuted, killed_leaves_refuted.
* C115 (partial): priorities_exact, priority_determined, errors_refused, empty_pattern_refuted, zero_priority_refuted, layer_loop_refuted.
* C116 (proved): file_layer, empty_pattern_nothing.
* C117 (partial): recipes_exact, overlayed_exact, bar_mask_refuted.
* C118 (partial): appends_exact, appends_order, nested_order_refuted, short_recipe_refuted.
* C119 (partial): make_stamp_exact, scene_stamp_exact, other_tasks_keep, stale_exact, none_stale, task_in_path_refuted, sigdata_path_refuted.
* C120 (proved): clean_stamps_exact, clean_keeps_signatures, clean_keeps_others.
* C121 (proved): check_stamp_exact, check_stamp_ends, check_direct, nothing_newer.
* C122 (partial): handlers_called, handlers_restored, removed_forgotten, mask_order_refuted, mc_names_refuted, removed_elsewhere.
* C123 (partial): ui_in_order, ui_all_once, further_ui, nothing_before, worker_first_refuted, failed_ui_refuted.
* C124 (proved): srcrev_exact, srcrev_latest, srcrev_missing, srcrev_param, srcrev_both.
* C125 (partial): resolve_exact, resolve_full, resolve_fails, revision_fixed, revision_commit, tag_param_refuted, full_tag_refuted, usehead_branch_refuted, revision_newest, revision_head, revision_named.
* C126 (partial): asked_again, answer_exact, keys_apart, key_shared_refuted, key_branch_refuted, keys_slashes.
* C127 (partial): clones_apart, clone_no_slash, clones_per_revision, clones_shared_refuted.
* C128 (partial): version_exact, version_single, version_needs_format, version_changes, version_names_refuted, version_without.
* C129 (partial): resolv_kept, resolv_restart_offline, resolv_restart_partial, resolv_restart_refuted, resolv_during.
* C130 (partial): add_files_fresh, add_files_task_partial, add_files_host_refuted, add_files_empty_refuted, add_files_empties_refuted, add_files_missing.
* C131 (partial): os_release_exact, os_release_again, os_release_once, os_release_unterminated_refuted, os_release_unterminated.
* C132 (partial): lists_exact, lists_untouched, lists_chosen, lists_only, lists_extension_refuted, lists_missing.
* C133 (partial): rootfs_cmd_accepts, rootfs_cmd_exact, rootfs_cmd_space_refuted.
* C134 (partial): isar_names_exact, isar_names_none, isar_names_arch_refuted.
* C135 (partial): generator_exact, generator_refuted, initrd_last, initrd_belongs, initrd_none, initrd_newest_refuted, initrd_backup_refuted, kernel_chosen, initrd_version.
* C136 (partial): trip_exact, trip_own, trip_missing_refuted, trip_hidden_refuted, trip_name_refuted.
* C137 (partial): debs_there, debs_origin, debs_exact_partial, debs_stale_refuted.
* C138 (partial): rootfs_restored, rootfs_merge_refuted, rootfs_other_refuted.
* C139 (proved): bootstrap_exact, bootstrap_stays.
* C140 (partial): mirror_address, mirror_usual, mirror_words, mirror_parameter_refuted, mirror_words_refuted, mirror_lines, mirror_odd_refuted, mirror_regex.
* C141 (partial): mirror_once_partial, mirror_twice_refuted, mirror_distinct, mirror_direct.
* C142 (partial): rehash_all_right, rehash_others, rehash_changed, rehash_done_keeps, rehash_reported, rehash_any_order, rehash_entry_refuted.
* C143 (proved): depdata_exact.
* C144 (partial): fstab_lines, fstab_new_file, fstab_newline_refuted, fstab_space_refuted.
* C145 (partial): device_fat, device_other, device_squashfs_refuted, device_node, device_nvme_refuted, devices_distinct, rootdev_found, rootdev_part_name_refuted, rootdev_msdos_number_refuted, rootdev_msdos_uuid_refuted, uuids_once, fat_refused.
* C146 (partial): rootfs_room, empty_fills, empty_fixed_refuted, files_own, files_swap_refuted, rootfs_exact.
* C147 (partial): fragment_chosen, fragment_only, fragment_order, fragments_used, fragments_there_partial, fragments_rest, fragments_stale, fragments_missing, fragment_c_refuted, fragment_beside_refuted, kernel_target.
* C148 (proved): arch_native, arch_cross, arch_same, arch_chroot.
* C149 (proved): srcdir_below, srcdir_names, srcdir_same.
* C150 (partial): control_exact, control_description_refuted.
* C151 (partial): debianize_files, debianize_main, debianize_rest, debianize_variant_refuted.
* C152 (partial): layers_others, layer_added, layer_added_end, layer_there, layer_removed, layer_missing, layers_none, layer_overridden_refuted, layer_glued_refuted, layer_tab_refuted, layer_pattern_refuted, layer_default_refuted, layer_tail_refuted.
* C153 (proved): server_reads, server_reads_all, server_stuck.
* C154 (partial): worker_passes, worker_events_first, worker_read_all, flush_order, messages_arrive, event_tag_refuted, event_end_refuted.
* C155 (partial): commands_order, commands_all, command_tag_refuted.
* C156 (partial): move_keeps, move_atomic, move_done, move_succeeds, move_nothing, move_link_keeps, move_gap_refuted, move_partial_refuted, move_mode_refuted, move_time_refuted, move_link_self_refuted, move_same_refuted.
* C157 (partial): copy_keeps, copy_atomic, copy_done, copy_succeeds, hardlinks_broken, copy_unreadable_refuted, copy_link_keeps, copy_unreadable_restored, hardlinks_missing, hardlinks_single.
* C158 (partial): exec_order, exec_success, exec_stamp, exec_events, exec_early_refuted, exec_late_refuted, exec_missing_refuted.
* C159 (proved): func_order.
* C160 (partial): locks_exclusive, locks_finish, locks_end, locks_cycle_refuted, locks_twice_refuted.
* C161 (partial): script_value, script_environment, script_newline_refuted, script_backslash_refuted, script_end_refuted, script_backquote_refuted, script_failure_refuted, script_override_refuted.
* C162 (partial): script_functions, script_dash_refuted.
* C163 (partial): environ_cleaned, environ_preserved, environ_sent, environ_locale_refuted.
* C164 (partial): server_last_client, server_parses, server_additions_refuted, server_origenv_refuted.
* C165 (partial): task_environment, task_environment_fails, worker_environment, worker_environment_twice_refuted.
* C166 (partial): installer_config, installer_complete, installer_interactive, installer_abort_refuted, installer_not_boot.
* C167 (partial): devices_exact, devices_not_root, devices_others, devices_nested_refuted, devices_overlay_refuted, devices_similar_refuted.
* C168 (partial): installer_copies, installer_once, installer_unattended_status, installer_attended, installer_bmap, installer_locked_refuted, installer_boot_refuted, installer_boots_refuted.
* C169 (partial): expand_disk, expand_no_partition, expand_sdp_refuted, expand_space, expand_dangling.
* C170 (partial): expand_table, expand_grows, expand_order_refuted, expand_named_refuted.
* C171 (partial): epoch_git, epoch_git_searched, epoch_youngest, epoch_fallback, epoch_reproducible, epoch_order_refuted.
* C172 (partial): epoch_number, epoch_atomic, epoch_written, epoch_read, epoch_unpacked, epoch_stable, epoch_clamped, epoch_stale_refuted.
* C173 (proved): variant_stores, variant_same.
* C174 (partial): kernel_variants, kernel_colon_refuted.
* C175 (partial): customization_found, customization_apart, customization_usual, customization_prefix_refuted, customization_image_refuted.
* C176 (partial): fragments_taken, fragments_c_refuted.
* C177 (partial): fragments_there, fragments_inside, fragments_local, fragments_download_refuted, fragments_beside_refuted.
* C178 (proved): libcdev_profiles.
* C179 (partial): unsafe_paths, remove_named, prune_named, remove_spares, remove_home, remove_files, home_slash_refuted, home_regex_refuted, home_above_refuted.
* C180 (partial): cleandirs_clean, cleandirs_works, dirs_made, cleandirs_bracket_refuted, cleandirs_order_refuted.
* C181 (partial): adjusted_place, alternates_adjusted, mirror_relative, link_leads, alternates_subdir_refuted, link_dangling_refuted.
* C182 (partial): template_filled, template_reference, template_copied, template_environment_refuted, template_no_variables.
* C183 (partial): wks_names_found, wks_replaced, wks_found_first, wks_plain_refuted.
* C184 (partial): wicenv_read, wicenv_lines_refuted, wicenv_quote_refuted.
* C185 (partial): infos_arrive, infos_all_arrive, infos_once, infos_receiver_refuted, infos_race_refuted.
* C186 (partial): world_members, universe_members, world_in_universe, world_stale_refuted, universe_task_refuted.
* C187 (partial): dynamic_selected, dynamic_refused, dynamic_colon_refuted.
* C188 (partial): layers_accepted, layer_says, layer_says_nothing, compat_not_seen, series_first, layer_says_refuted.
* C189 (partial): diskmon_stops, diskmon_warn_only, diskmon_quiet, diskmon_warns, diskmon_warns_again, diskmon_full_refuted, diskmon_warns_again_inodes.
* C190 (proved): diskmon_limit, diskmon_entry, diskmon_entry_only, diskmon_entry_sensible, diskmon_watched.
* C191 (partial): enforce_off, enforce_unexpected, enforce_give_up, enforce_nothing, enforce_targets, enforce_provides_refuted.
* C192 (partial): launch_results, launch_fatal, launch_bound, launch_once, launch_stops, launch_ends, launch_killed_refuted, launch_zero_refuted.
* C193 (partial): emptylayer_warned, emptylayer_recipe, emptylayer_empty, emptylayer_nested_refuted.
* C194 (proved): refvars_exact, refvars_order, refvars_ends.
* C195 (partial): filelayer_longest, filelayer_entry, filelayer_patterns, filelayer_nested_refuted, filelayer_patterns_order.
* C196 (partial): stale_cleaned, stale_stamps, stale_order, stale_invalid, stale_prefix_refuted.
