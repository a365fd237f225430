{
 "claims": [
  {
   "property": "C01",
   "status": "proved",
   "theorems": [
    "wic_partitions_disjoint_and_inside",
    "wic_negative_align_refuted",
    "wic_entries_are_the_layout"
   ],
   "note": "Negative --align/sizes excluded by the visible hypothesis 'sane'; the refuted theorem shows why."
  },
  {
   "property": "C02",
   "status": "proved",
   "theorems": [
    "wic_align_and_offset_exact",
    "wic_rejects_only_unplaceable",
    "wic_entries_are_the_layout"
   ],
   "note": ""
  },
  {
   "property": "C03",
   "status": "partial",
   "theorems": [
    "wic_realnum_is_table_number_partial",
    "wic_num_is_parted_number",
    "wic_realnum_refuted",
    "wic_hybrid_mbr_slots"
   ],
   "note": "The code violates the property for explicit --type logical (refuted); proved when no partition is declared logical."
  },
  {
   "property": "C04",
   "status": "partial",
   "theorems": [
    "wic_msdos_at_most_four_slots",
    "wic_logical_iff_after_third",
    "wic_extended_contains_logical_partial",
    "wic_extended_refuted"
   ],
   "note": "Containment fails for --offset gaps (refuted); proved for gap-free lists."
  },
  {
   "property": "C05",
   "status": "proved",
   "theorems": [
    "sparse_copy_exact_bytes",
    "sparse_copy_new_file_equals_window",
    "sparse_copy_via_fiemap"
   ],
   "note": ""
  },
  {
   "property": "C06",
   "status": "proved",
   "theorems": [
    "fiemap_ranges_exact",
    "merge_preserves_blocks",
    "seek_ranges_exact",
    "fiemap_all_holes_refuted"
   ],
   "note": "A window without any mapped block raises instead of yielding nothing (refuted theorem)."
  },
  {
   "property": "C07",
   "status": "proved",
   "theorems": [
    "size_argument_exact",
    "size_argument_decimal",
    "size_argument_with_unit",
    "system_id_exact",
    "size_argument_negative_refuted"
   ],
   "note": "Negative sizes are accepted by the code (refuted theorem)."
  },
  {
   "property": "C08",
   "status": "proved",
   "theorems": [
    "vercmp_reflexive",
    "vercmp_antisymmetric",
    "vercmp_transitive",
    "vercmp_transitive_strict",
    "version_operators_consistent",
    "version_second_colon_refuted"
   ],
   "note": ""
  },
  {
   "property": "C09",
   "status": "proved",
   "theorems": [
    "version_numbers_by_value",
    "version_tilde_before_end",
    "version_longer_is_newer",
    "version_order_is_not_dpkg_refuted",
    "version_lexicographic",
    "version_kinds_ordered",
    "version_words_alphabetical",
    "version_other_characters",
    "version_string_parts"
   ],
   "note": "The listed rules are proved; the complete dpkg order is not followed (refuted theorem)."
  },
  {
   "property": "C10",
   "status": "partial",
   "theorems": [
    "rpc_messages_survive_partial",
    "rpc_only_white_space_lost",
    "rpc_lines_bounded",
    "rpc_boundary_blank_refuted",
    "rpc_blank_chunk_desynchronises_refuted",
    "rpc_reserved_key_refuted"
   ],
   "note": "Exact delivery proved when no chunk of a long message ends in white space; without that only white space can be lost; the full claim is refuted for every chunk size (each received chunk is rstripped)."
  },
  {
   "property": "C11",
   "status": "proved",
   "theorems": [
    "pr_hist_same_checksum_same_value",
    "pr_hist_new_checksum_larger_value",
    "pr_hist_distinct_checksums_distinct_values",
    "pr_groups_independent",
    "pr_get_always_answered",
    "pr_import_collision_refuted",
    "pr_first_value_is_zero"
   ],
   "note": "Over all runs in which no acknowledged value is lost by a crash (hypothesis kept). Imports can make two checksums share a value (refuted theorem)."
  },
  {
   "property": "C12",
   "status": "proved",
   "theorems": [
    "pr_nohist_never_decreases",
    "pr_nohist_other_checksum_larger",
    "pr_repeat_same_value",
    "pr_readonly_never_changes",
    "pr_first_value_is_zero"
   ],
   "note": "Over all runs in which no acknowledged value is lost by a crash; strictness for groups without imports."
  },
  {
   "property": "C13",
   "status": "proved",
   "theorems": [
    "pr_export_import_same_answers",
    "pr_export_empty_version_refuted"
   ],
   "note": "For non-empty versions; rows with an empty version are not exported (refuted theorem)."
  },
  {
   "property": "C14",
   "status": "partial",
   "theorems": [
    "pr_committed_values_survive_crash_partial",
    "pr_requests_never_commit",
    "pr_acknowledged_value_reissued_refuted"
   ],
   "note": "Proved for values followed by a commit (failed request, signal, orderly stop). The full claim is refuted: answering a request commits nothing because sync_if_dirty in the else branch is unreachable."
  },
  {
   "property": "C15",
   "status": "partial",
   "theorems": [
    "hash_unihash_never_changes_partial",
    "hash_entry_stays",
    "hash_upstream_race_refuted",
    "hash_readonly_report_refuted",
    "hash_unsaved_answer_refuted",
    "hash_get_unknown_with_upstream_refuted"
   ],
   "note": "Proved for every answer given without waiting for an upstream server and for every stored entry under any interleaving; refuted for answers that waited for upstream and for reports of clients that may not report."
  },
  {
   "property": "C16",
   "status": "proved",
   "theorems": [
    "hash_report_joins_oldest",
    "hash_same_output_distinct_unihash_refuted",
    "hash_report_asks_upstream"
   ],
   "note": "For a server without upstream, as in the property; tasks that already had a unihash keep it (second theorem)."
  },
  {
   "property": "C17",
   "status": "proved",
   "theorems": [
    "hash_sweep_exact",
    "hash_collection_keeps_marked_and_new",
    "hash_gc_status_predicts_sweep"
   ],
   "note": ""
  },
  {
   "property": "C49",
   "status": "partial",
   "theorems": [
    "hash_clean_unused_keeps_used",
    "hash_clean_unused_removes_young_refuted"
   ],
   "note": "Used records always stay; the age limit is applied with the wrong sign (refuted theorem)."
  },
  {
   "property": "C18",
   "status": "partial",
   "theorems": [
    "perm_executed_iff_covered",
    "perm_report_stored_iff",
    "perm_session_from_login",
    "perm_no_escalation",
    "perm_no_escalation_history",
    "perm_revocation_ignored_refuted",
    "perm_user_names_unique",
    "perm_new_user_exact"
   ],
   "note": "Proved for the permissions a user had when logging in; permissions withdrawn later still work on open connections (refuted theorem)."
  },
  {
   "property": "C19",
   "status": "partial",
   "theorems": [
    "clean_exact",
    "clean_keeps_young_partial",
    "clean_directories",
    "clean_age_exact",
    "clean_bad_age_deletes_nothing",
    "clean_deletes_young_refuted",
    "clean_unknown_unit_refuted"
   ],
   "note": "Exactly which files go is proved; the full claim is refuted: a young archive is deleted with an old archive of the same hash, and a young signature file regardless of --max-sig-age."
  },
  {
   "property": "C20",
   "status": "proved",
   "theorems": [
    "upload_exact",
    "upload_completes_iff",
    "upload_race_overwrites_refuted"
   ],
   "note": "For one upload at a time; a concurrent upload of the same object is overwritten (refuted theorem)."
  },
  {
   "property": "C21",
   "status": "proved",
   "theorems": [
    "sst_name_bounded",
    "sst_name_fatal_iff",
    "sst_name_read_back",
    "sst_name_unambiguous",
    "sst_siginfo_beside_archive",
    "sst_epoch_misread_refuted",
    "sst_missing_hash_marked"
   ],
   "note": "Versions containing a colon (epoch) are misread by isar-sstate (refuted theorem)."
  },
  {
   "property": "C22",
   "status": "proved",
   "theorems": [
    "manifest_clean_exact",
    "manifest_clean_racing_exact",
    "manifest_touches_only_staged",
    "install_then_clean",
    "install_refuses_overlap",
    "manifest_blank_name_refuted",
    "manifest_repeated_source_refuted"
   ],
   "note": "Over all names a line can record; names ending in a blank and paths repeating the source directory are recorded wrongly (refuted theorems)."
  },
  {
   "property": "C23",
   "status": "partial",
   "theorems": [
    "reachable_cleanup_exact",
    "reachable_preserve_ignored_refuted",
    "reachable_duplicate_lost_refuted"
   ],
   "note": "Exact for what the code takes as preserved; the documented preserve list has no effect at all (refuted theorem, for every list)."
  },
  {
   "property": "C24",
   "status": "proved",
   "theorems": [
    "dependencies_first",
    "dependencies_first_transitively",
    "success_was_started",
    "restored_is_covered"
   ],
   "note": "For every task graph, setscene graph, priority map, sequence of worker reports, engine calls, hash migrations and interrupts, and every answer of the outside world."
  },
  {
   "property": "C25",
   "status": "partial",
   "theorems": [
    "failure_blocks_dependents",
    "halt_starts_nothing",
    "complete_means_finished",
    "continue_completes_partial",
    "number_threads_starves_refuted"
   ],
   "note": "Blocking of dependents proved outside setscene enforce mode. Completion of everything else with --continue proved when no task name has a number_threads limit (false with such limits: number_threads_starves_refuted) and the setscene phase was concluded."
  },
  {
   "property": "C26",
   "status": "partial",
   "theorems": [
    "taken_up_once",
    "thread_limit",
    "name_limit",
    "enforce_exceeds_threads_refuted",
    "enforce_never_ends_refuted"
   ],
   "note": "At most once: always. Thread limit: outside setscene enforce mode; refuted in that mode."
  },
  {
   "property": "C27",
   "status": "proved",
   "theorems": [
    "unbuildable_iff_below_loop",
    "refused_iff_loop",
    "weight_is_sum",
    "weight_grows",
    "printed_loops_genuine",
    "two_loop_found",
    "chains_start_first",
    "loop_printed_once",
    "all_looping_tasks_printed_refuted"
   ],
   "note": "The last theorem records what the property does not promise: not every loop is printed, and a task on a loop may be in no printed chain."
  },
  {
   "property": "C28",
   "status": "partial",
   "theorems": [
    "lock_exclusion",
    "lock_exclusion_shared_partial",
    "lock_exclusion_shared_refuted",
    "held_lock_file_exists",
    "release_removes_file",
    "lock_obtainable",
    "kernel_locks",
    "retry_does_not_give_up",
    "no_retry_gives_up"
   ],
   "note": "Exclusive locks: proved for every interleaving and crash. With shared locks it holds if flock converts atomically, and fails with the conversion flock(2) documents (refuted theorem with the schedule)."
  },
  {
   "property": "C29",
   "status": "proved",
   "theorems": [
    "realpath_inside",
    "realpath_link_free",
    "realpath_never_asserts",
    "realpath_refuses_outside",
    "realpath_is_chroot",
    "walk_deterministic",
    "realpath_finds",
    "realpath_relative_root_refuted",
    "realpath_canonical_refuted"
   ],
   "note": "For every file system and path: the result is inside the root, contains no link, and (targets in normal form) is what the kernel would find in a chroot; large enough loop counts find it. Without use_physdir the theorem needs an absolute root; refuted for root '..'. A link to '.' leaves a '.' in the result (refuted canonicity)."
  },
  {
   "property": "C30",
   "status": "partial",
   "theorems": [
    "relative_link_same",
    "unrelated_link_kept",
    "relative_link_same_refuted",
    "link_to_own_directory_refuted",
    "replaced_link_same",
    "replaced_link_trailing_slash_refuted",
    "replaced_link_repeated_base_refuted",
    "path_parent_iff"
   ],
   "note": "Holds when the first differing component of the link's path is not a string prefix of the target's; refuted otherwise (string-prefix ancestor), and a link to its own directory is lost. replace_absolute_symlinks holds when the base directory occurs once in the path and has no trailing slash."
  },
  {
   "property": "C31",
   "status": "proved",
   "theorems": [
    "implied_items_exact",
    "list_variable_closure"
   ],
   "note": "For every implication map (cyclic or not) and list."
  },
  {
   "property": "C32",
   "status": "partial",
   "theorems": [
    "removal_exact",
    "marked_item_removed",
    "unmarked_item_kept",
    "list_variable_sound",
    "marked_item_removed_refuted",
    "implied_item_removed_refuted"
   ],
   "note": "Exact rule proved: an item stays iff it is listed more often than it is marked; an item listed once is removed by its mark and unmarked items stay, in order. Refuted: one mark does not remove an item listed twice or implied by two others."
  },
  {
   "property": "C33",
   "status": "proved",
   "theorems": [
    "features_skip_iff",
    "features_unused_iff"
   ],
   "note": "For all feature lists and kinds."
  },
  {
   "property": "C34",
   "status": "partial",
   "theorems": [
    "fixup_plain",
    "fixup_archall",
    "multiarch_package_plain",
    "drop_native_exact",
    "extend_provides_exact",
    "fixup_suffixed",
    "fixup_idempotent_refuted"
   ],
   "note": "Ordinary names get the suffix exactly once and the other rules hold; names that already have a suffix are kept but a twice-suffixed name is added as well (refuted)."
  },
  {
   "property": "C35",
   "status": "partial",
   "theorems": [
    "base_type_exact",
    "collected_exactly",
    "dependency_tasks_first",
    "collect_ends",
    "collect_cycle_refuted",
    "wanted_images_kept_partial",
    "task_effect_exact",
    "requested_image_removed_refuted",
    "same_task_name_refuted",
    "ambiguous_conversion_refuted",
    "image_basetypes_exact",
    "image_basetypes_have_tasks",
    "image_basetypes_complete_refuted",
    "task_name_exact"
   ],
   "note": "Proved for any task order and any number of types unless two needed types share a base type that is not wanted itself: then the last one is deleted (refuted for IMAGE_FSTYPES = 'ext4.gz ext4.xz'). Also refuted: base types with the same cleaned name, ambiguous conversions, cyclic type dependencies."
  },
  {
   "property": "C36",
   "status": "partial",
   "theorems": [
    "override_selected",
    "no_override_plain",
    "selection_exists",
    "selection_unique",
    "order_independent",
    "run_time_set_wins",
    "run_time_set_frame",
    "overrides_stable",
    "multi_part_priority_refuted",
    "variant_without_value_hides_refuted",
    "append_becomes_override_refuted"
   ],
   "note": "Proved for all histories of lines and all OVERRIDES when each variant of the variable has a single override. Missing: variants with several overrides, whose priority rule is refuted. Also refuted: a variant without value hides lower ones; an append to a lower-case variable makes it an override of another variable."
  },
  {
   "property": "C37",
   "status": "proved",
   "theorems": [
    "operations_in_order",
    "override_selected",
    "removals_exact",
    "removals_exact_any_store"
   ],
   "note": "For all histories, conditions and white space."
  },
  {
   "property": "C39",
   "status": "partial",
   "theorems": [
    "expansion_sound",
    "expansion_complete",
    "circular_reported",
    "expansion_ends",
    "expansion_ends_refuted"
   ],
   "note": "Proved for all files of plain variables whose texts have no stray dollar sign and no inline Python. Refuted otherwise: three variables with stray dollar signs make expansion loop for ever with growing text."
  },
  {
   "property": "C38",
   "status": "partial",
   "theorems": [
    "change_stays_local",
    "own_variables_kept",
    "history_stays_local",
    "copy_looks_alike",
    "any_change_stays_local",
    "export_changes_original_refuted",
    "renames_change_original_refuted",
    "inherited_flags_deleted_refuted"
   ],
   "note": "Proved for all trees of copies and all histories of operations, on a model with shared objects. Refuted for two shared objects: the list of exported names and the table of renamed variables. Missing: Python values other than texts, lists and sets stored by callers."
  },
  {
   "property": "C40",
   "status": "partial",
   "theorems": [
    "all_constraints_read",
    "sorted_reading",
    "names_different",
    "printed_deps_read_back",
    "printed_single_read_back",
    "names_listed",
    "no_operator_refused",
    "second_constraint_refuted",
    "blank_version_refuted",
    "names_agree_refuted",
    "comma_joins_refuted"
   ],
   "note": "Holds for texts whose every constraint is written right after its package name and whose versions have no blank, in five spacings. The refuted theorems give the texts that are misread."
  },
  {
   "property": "C41",
   "status": "partial",
   "theorems": [
    "parts_do_not_leak",
    "decode_encode_decode",
    "encode_stable",
    "slashes_merged",
    "file_user_lost_refuted",
    "host_becomes_user_refuted",
    "empty_user_crashes_refuted",
    "empty_scheme_refuted",
    "path_decoded",
    "percent_decoded_unique"
   ],
   "note": "Round trip for all decodable URLs with a scheme, no user in a file: URL and no @ in the host; the refuted theorems show each exception. Bytes are modelled, not Unicode replacement of invalid UTF-8."
  },
  {
   "property": "C42",
   "status": "partial",
   "theorems": [
    "same_file_same_image",
    "dotted_names_collide_refuted",
    "underscore_tags_collide_refuted",
    "digest_and_tag_collide_refuted",
    "unpacked_digests_collide_refuted",
    "fetched_image",
    "fetched_root",
    "unpacked_tags_apart"
   ],
   "note": "Holds within one registry for paths without dots, tags without underscores and tags that do not look like digests; the refuted theorems give colliding images outside of that."
  },
  {
   "property": "C43",
   "status": "partial",
   "theorems": [
    "best_chosen",
    "best_unique",
    "best_order",
    "required_obeyed",
    "preferred_taken",
    "one_per_recipe",
    "preferred_provider_first",
    "provider_order",
    "wildcard_best_refuted",
    "wildcard_preference_refuted",
    "wildcard_order_refuted",
    "revision_ignored_refuted",
    "missing_hides_others_refuted",
    "empty_required_refuted",
    "required_provider_fits"
   ],
   "note": "Without wildcards and when every required version exists the choice is the best file per recipe. The refuted theorems show what happens for wildcards, revisions, missing required versions and an empty REQUIRED_VERSION. Run-time providers: see C101."
  },
  {
   "property": "C44",
   "status": "proved",
   "theorems": [
    "pieces_irrelevant",
    "silent_before_total",
    "counted",
    "totals_exist",
    "never_backwards",
    "zero_packages_refuted",
    "filter_pieces_irrelevant_partial",
    "filter_pieces_refuted",
    "filter_tail_lost_refuted"
   ],
   "note": "All three handlers of rootfs_progress.py. Announcing no packages and then reporting one is a division by zero (zero_packages_refuted). For bitbake's own line filter the property holds only without carriage returns. Fractions stand for floats."
  },
  {
   "property": "C45",
   "status": "partial",
   "theorems": [
    "removed_exactly_partial",
    "accepted_where",
    "outside_refused",
    "removed_inside_refuted",
    "blank_entry_refuted",
    "mounted_kept_refuted",
    "unrelated_mount_refuted",
    "template_contained_partial",
    "template_inside_refuted",
    "template_overwrites_refuted",
    "template_collision_refuted",
    "refused_exactly"
   ],
   "note": "Entries inside TMPDIR are removed exactly; what else the textual check lets through is characterised by accepted_where, and the refuted theorems show a removal outside TMPDIR, a mounted directory removed and a template overwritten. Symbolic links and shell globbing are not modelled."
  },
  {
   "property": "C46",
   "status": "partial",
   "theorems": [
    "same_words",
    "fields_read",
    "flat_fields_read",
    "first_mirror",
    "lines_apart",
    "other_lines_kept",
    "comments_and_blanks",
    "bad_line_fails",
    "three_options_refuted",
    "flat_relative_refuted",
    "snapshot_drops_options_refuted",
    "source_written"
   ],
   "note": "Any recognised line keeps its words; lines with at most two options are read into the right fields. With three options the URL is not found, a relative flat repository is an exception, and a snapshot replaces the options. The regular expressions of the mirrors are arbitrary partial functions on URLs."
  },
  {
   "property": "C47",
   "status": "proved",
   "theorems": [
    "contains_is",
    "contains_any_is",
    "filter_is",
    "tidy_unique",
    "filter_same_words",
    "filter_symmetric",
    "filter_again",
    "any_iff_filter",
    "contains_iff_filter",
    "set_intersect_is",
    "both_contain_is",
    "backfill_is",
    "backfill_keeps",
    "backfill_twice",
    "str_filter_is",
    "build_depends_is",
    "prune_first_is",
    "prune_suffixes_is",
    "trim_version_is",
    "trim_twice",
    "squash_words",
    "booleans_agree",
    "boolean_case",
    "jobs_found",
    "jobs_limited",
    "packages_kept",
    "contains_words_refuted",
    "booleans_differ_refuted",
    "backfill_once_refuted",
    "jobs_edges_refuted",
    "foreign_locale_refuted"
   ],
   "note": "Words are characterised independently as maximal runs without blanks. The refuted theorems record edge cases: an empty variable never contains anything, the two boolean parsers differ, limit 0 is no limit, locale packages of other recipes are dropped. Iteration order of python sets is arbitrary; int() and re.match are arbitrary functions."
  },
  {
   "property": "C48",
   "status": "proved",
   "theorems": [
    "filespath_is",
    "which_first",
    "most_specific",
    "absolute_places",
    "local_absolute",
    "local_found",
    "local_missing",
    "wild_first",
    "flag_textual_refuted",
    "absolute_override_refuted",
    "no_directories_refuted",
    "no_filespath_refuted"
   ],
   "note": "For at least one directory. The refuted theorems show that the __default: flag is removed as text, an absolute override replaces the directory, and an empty list searches the working directory. Existence of files is an arbitrary predicate; glob, access and relpath of which_wild are arbitrary functions."
  },
  {
   "property": "C50",
   "status": "partial",
   "theorems": [
    "install_leaves_nothing",
    "install_leaves_nothing_concurrent",
    "install_outcome",
    "commands_see_mounts",
    "umounts_undo_mounts",
    "restart_after_kill_partial",
    "postprocess_leaves_nothing_partial",
    "restart_after_kill_refuted",
    "postprocess_leaves_nothing_refuted",
    "build_end_unmounts",
    "separate_when",
    "build_end_reports",
    "other_configurations_skip",
    "build_end_foreign_refuted",
    "lock_window",
    "build_end_accounts"
   ],
   "note": "The installation task always restores the mount table. Postprocessing leaves mounts when it has no commands or when mounting fails, and a run after a kill fails for good once sys/firmware was mounted, until the end of the build unmounts it. The kernel's mount table is an external model; umount fails only for the reasons in it, and commands mount nothing themselves."
  },
  {
   "property": "C51",
   "status": "proved",
   "theorems": [
    "second_execution_reported",
    "reports_come_from_starts"
   ],
   "note": "Stamp files are a set of names; the glob that removes them at build start is taken to match all."
  },
  {
   "property": "C52",
   "status": "partial",
   "theorems": [
    "base_deps_exact_partial",
    "base_deps_used",
    "base_deps_found",
    "base_change_detected_partial",
    "base_second_remove_untracked_refuted",
    "base_flag_name_part_refuted",
    "base_two_changes_cancel_refuted"
   ],
   "note": "Proved when each variable has at most one remove and for a single change. The refuted theorems show that references in a second remove are not tracked, that a flag is ignored when its name is part of an excluded name, and that two changes can cancel because texts are joined without separators. The reference parser is an arbitrary function."
  },
  {
   "property": "C53",
   "status": "proved",
   "theorems": [
    "base_hash_only_used",
    "base_hash_ignored",
    "base_hash_excluded",
    "base_struck_text"
   ],
   "note": "For all data stores; hash functions do not occur, the hashed text itself is compared."
  },
  {
   "property": "C54",
   "status": "partial",
   "theorems": [
    "task_text_order_free",
    "task_text_relocatable",
    "task_text_file_change",
    "task_hashes_schedule_free",
    "task_hashes_complete",
    "task_text_two_dirs_refuted",
    "task_text_second_mark_refuted"
   ],
   "note": "Location independence holds for one common directory; task_text_two_dirs_refuted shows that moving two directories independently changes the order of the files."
  },
  {
   "property": "C55",
   "status": "proved",
   "theorems": [
    "task_change_propagates"
   ],
   "note": "Under the hypothesis that the hash function is injective on the texts."
  },
  {
   "property": "C56",
   "status": "partial",
   "theorems": [
    "sigdata_recomputes_partial",
    "sigdata_same_name_refuted"
   ],
   "note": "Holds when the dependencies have different short names; sigdata_same_name_refuted is a counterexample otherwise."
  },
  {
   "property": "C57",
   "status": "proved",
   "theorems": [
    "tid_round_trip",
    "tid_injective"
   ],
   "note": "For file names as bitbake produces them: absolute, task name without colon."
  },
  {
   "property": "C58",
   "status": "proved",
   "theorems": [
    "nostamp_taint_stable",
    "nostamp_sessions_differ",
    "forced_taint_counts",
    "forced_taint_stays",
    "untainted"
   ],
   "note": "Random identifiers are an input."
  },
  {
   "property": "C59",
   "status": "proved",
   "theorems": [
    "dependency_counts",
    "own_tasks_count",
    "undeclared_target_counts"
   ],
   "note": "Whether a recipe is native, cross or a kernel module is an arbitrary predicate."
  },
  {
   "property": "C60",
   "status": "partial",
   "theorems": [
    "lock_first_call",
    "lock_stable",
    "lock_isolates",
    "lock_dump_round_trip",
    "lock_last_wins",
    "lock_name_part_refuted",
    "lock_schedule_refuted"
   ],
   "note": "lock_name_part_refuted shows that a recipe is unlocked when it depends on a recipe whose name only contains the name of an unlocked one, lock_schedule_refuted that whether a recipe becomes unlocked depends on the order in which tasks are hashed."
  },
  {
   "property": "C61",
   "status": "partial",
   "theorems": [
    "changelog_exact",
    "changelog_given_kept",
    "changelog_rebuilds",
    "changelog_restart_partial",
    "changelog_younger",
    "changelog_killed_doubles_refuted",
    "changelog_killed_truncates_refuted",
    "changelog_killed_removed_refuted",
    "changelog_new_sources_refuted",
    "changelog_second_entry_refuted"
   ],
   "note": "Restart after an interruption is proved only where it holds; the refuted theorems give interruption points and histories where the changelog is doubled, truncated, lost or stale."
  },
  {
   "property": "C62",
   "status": "proved",
   "theorems": [
    "deb_list_items",
    "deb_list_any",
    "deb_list_again",
    "profiles_exact"
   ],
   "note": ""
  },
  {
   "property": "C63",
   "status": "partial",
   "theorems": [
    "sources_listed",
    "sources_common",
    "sources_complete",
    "sources_only",
    "sources_none",
    "sources_epoch_refuted"
   ],
   "note": "Proved with the test the code makes for being there, a .dsc file named without epoch. sources_epoch_refuted: a source that differs from one already there in the epoch only is neither downloaded nor reported."
  },
  {
   "property": "C64",
   "status": "partial",
   "theorems": [
    "cache_kept",
    "cache_export_exact",
    "cache_nothing_lost",
    "cache_export_order",
    "cache_import_empty",
    "cache_import_exact",
    "cache_own_exported_refuted",
    "cache_rebuilt_stays_refuted",
    "package_files"
   ],
   "note": "Exactness holds when no path in isar's repository contains the name of another package; cache_own_exported_refuted is a counterexample otherwise. cache_rebuilt_stays_refuted: an own package that was rebuilt gets into the cache in its old form and stays."
  },
  {
   "property": "C65",
   "status": "partial",
   "theorems": [
    "accounts_exact",
    "groups_exact",
    "accounts_restart",
    "accounts_again",
    "accounts_whole_name",
    "accounts_same_hash_refuted"
   ],
   "note": "All parts are proved except the last sentence, which is false of the code: the salt comes from SOURCE_DATE_EPOCH alone (accounts_same_hash_refuted). useradd, usermod, groupadd, groupmod and chpasswd are modelled from their manual pages with arbitrary defaults and arbitrary failures."
  },
  {
   "property": "C66",
   "status": "partial",
   "theorems": [
    "locales_exact",
    "nopurge_exact",
    "locales_kept",
    "locales_order",
    "locales_file",
    "locales_file_again",
    "locales_again_refuted"
   ],
   "note": "The last clause is false of the code: locale.gen is appended to on each run (locales_again_refuted). locale-gen, debconf and localepurge themselves are not modelled."
  },
  {
   "property": "C67",
   "status": "partial",
   "theorems": [
    "patches_selected",
    "patches_defined",
    "patch_rev_exact_refuted"
   ],
   "note": "Everything but the last sentence is proved; rev and notrev look for text within the revision (patch_rev_exact_refuted). The encoding of the entry as a URL and back is C41; the fetcher's local paths are given."
  },
  {
   "property": "C68",
   "status": "partial",
   "theorems": [
    "patch_runs_exact",
    "quilt_runs_exact_partial",
    "patch_same_name_refuted",
    "patch_two_names_refuted",
    "patch_stale_directory_refuted",
    "quilt_first_failure_refuted",
    "patch_task_exact"
   ],
   "note": "Proved for names that differ within a directory and one name for each directory; for quilt also for histories whose first patches applied. The cases of the last sentence are false of the code (the refuted theorems). patch(1) is any function whose -R takes back what it applied; quilt is modelled from its manual page; GitApplyTree, the interactive resolver, interruptions between the writes of one patch and patches that reach into another patched directory are not modelled."
  },
  {
   "property": "C69",
   "status": "partial",
   "theorems": [
    "deploy_exact",
    "deploy_restart",
    "deploy_history",
    "deploy_last_build_refuted",
    "deploy_renamed_refuted",
    "local_copy_complete",
    "local_copy_exact_refuted"
   ],
   "note": "The claims about deployed packages are proved in full; the claim that the repository follows the last build is refuted in two ways, and the copy used by a build keeps files that were removed. reprepro itself is modelled from its documented behaviour (newer replaces, older is skipped, other bytes for a known name are refused); the order of versions is any strict total order on version strings, so that two spellings of one version are not considered."
  },
  {
   "property": "C70",
   "status": "proved",
   "theorems": [
    "base_apt_exact",
    "base_apt_order",
    "base_apt_again",
    "base_apt_keeps",
    "contains_exact"
   ],
   "note": "Assumes that one file name among the downloads has one content. Source packages (repo_add_srcpackage) and the sorting of debug packages into their own suite are not modelled."
  },
  {
   "property": "C71",
   "status": "partial",
   "theorems": [
    "create_exact",
    "create_again",
    "cache_config_exact",
    "create_restart_refuted",
    "create_new_keys_refuted"
   ],
   "note": "Proved for complete runs and for isar-apt; refuted for a stopped task and for changed keys of base-apt. The sed that puts in the codename is taken as given."
  },
  {
   "property": "C72",
   "status": "partial",
   "theorems": [
    "build_environment_partial",
    "unchanged_not_exported",
    "new_exported",
    "changed_exported_partial",
    "changed_exported_refuted",
    "only_variables_exported_refuted",
    "value_kept_refuted",
    "last_export_wins",
    "filter_exact",
    "build_filter",
    "tail_kept"
   ],
   "note": "Refuted for values the old value starts with (they count as unchanged), for values of several lines and for values that end in blanks; proved exactly for the rest. Values with quotes, backslashes or the characters * [ ^ $ are outside the theorems."
  },
  {
   "property": "C73",
   "status": "partial",
   "theorems": [
    "mounts_inserted",
    "mounts_inserted_once",
    "mount_line_exact",
    "mount_line_same",
    "mounts_removed",
    "mounts_gone",
    "remove_undoes_insert_partial",
    "remove_undoes_insert_refuted",
    "only_own_mounts_removed_refuted"
   ],
   "note": "Removal is proved to undo insertion when no earlier line holds one of the mounts; refuted otherwise. Paths with the characters * [ \\ ^ $ | are outside the model."
  },
  {
   "property": "C74",
   "status": "partial",
   "theorems": [
    "fetched_is_verified",
    "stamps_stay_honest",
    "fetched_is_verified_always",
    "all_verified_partial",
    "missing_checksum_refused",
    "verified_without_honesty_refuted",
    "all_verified_refuted"
   ],
   "note": "A file put in place with a modification time before that of the done stamp is accepted with the recorded checksums (verified_without_honesty_refuted). An IOError other than ESTALE raised while an address is fetched is swallowed: the whole download ends with success and the file is missing (all_verified_refuted)."
  },
  {
   "property": "C75",
   "status": "partial",
   "theorems": [
    "present_file_kept",
    "premirror_first",
    "upstream_suffices",
    "no_network_no_download",
    "premirror_only_no_upstream",
    "untrusted_not_contacted",
    "any_good_source_refuted",
    "local_mirror_untouched_refuted"
   ],
   "note": "One good source is not always enough: the first premirror (or mirror) that sends anything ends the search, so a bad one hides a later good one (any_good_source_refuted). A file of a file:// mirror that does not have the checksum is renamed in the mirror (local_mirror_untouched_refuted). Locks, mirror tarballs and fetchers other than wget are not modelled."
  },
  {
   "property": "C76",
   "status": "proved",
   "theorems": [
    "mirrors_listed",
    "direct_mirrors_listed",
    "mirror_search_ends",
    "trusted_exact"
   ],
   "note": "uri_replace and the set-up of the mirror's fetcher are parameters of the model."
  },
  {
   "property": "C77",
   "status": "proved",
   "theorems": [
    "conf_layout",
    "bb_layout",
    "layout_irrelevant",
    "handlers_agree",
    "handlers_agree_refuted",
    "comment_inside_refuted",
    "unfinished_comment_refused",
    "unfinished_statement_refuted"
   ],
   "note": "Two refuted corner cases: a doubled backslash at the end of a line is continued in .conf files but yields one backslash in recipes; a comment inside a continued statement becomes part of the value in .conf files and is fatal in recipes."
  },
  {
   "property": "C78",
   "status": "proved",
   "theorems": [
    "reading_sound",
    "writing_accepted",
    "reading_exact",
    "reading_unique",
    "directives_exact",
    "assignment_first",
    "short_flag_unset_refuted",
    "override_unset_refuted",
    "inner_quotes_refuted",
    "untidy_names_refuted"
   ],
   "note": "Refuted corner cases: a one-character flag can be set but not unset; a name with an override can be assigned but not unset or exported; two inner quotes are accepted where one is not; names ending in : + . are ambiguous."
  },
  {
   "property": "C79",
   "status": "proved",
   "theorems": [
    "operators_refine",
    "operators_exact",
    "other_lines_irrelevant",
    "flags_exact",
    "immediate_is_now",
    "immediate_keeps",
    "unset_forgets",
    "flag_weak_default_refuted",
    "append_drops_default_refuted"
   ],
   "note": "Refuted: ??= on a flag replaces an assigned value; += on a variable with only a ??= default drops the default. Python expansions ${@...} are not modelled."
  },
  {
   "property": "C80",
   "status": "partial",
   "theorems": [
    "include_inserts",
    "missing_file",
    "relative_order",
    "mutual_inclusion_refuted",
    "self_inclusion_refuted",
    "inclusions_insert"
   ],
   "note": "The insertion theorem (inclusions_insert) is for inclusions at any depth that name the files absolutely. Termination fails: files that include each other are read for ever (refuted), and the guard against self-inclusion only sees the name as written (refuted)."
  },
  {
   "property": "C81",
   "status": "proved",
   "theorems": [
    "tasks_exact",
    "task_deps_exact",
    "task_parents_exact",
    "task_parents_all",
    "task_order_free",
    "deltask_complete_refuted",
    "after_name_completed_refuted"
   ],
   "note": "Refuted corner cases: deltask does not free a task that is created by a later line; do_ is not added to the names after 'after' and 'before'."
  },
  {
   "property": "C82",
   "status": "partial",
   "theorems": [
    "addtask_before_after_partial",
    "addtask_after_before_partial",
    "addtask_before_partial",
    "addtask_after_partial",
    "addtask_alone",
    "addtask_keyword_in_name_refuted",
    "addtask_only",
    "addtask_refused"
   ],
   "note": "Only if the last list does not contain the text of a keyword inside a name; otherwise the name is cut in two without a warning (refuted)."
  },
  {
   "property": "C83",
   "status": "proved",
   "theorems": [
    "tasksbetween_exact",
    "tasksbetween_circle",
    "tasksbetween_ends"
   ],
   "note": "Requires a task other than end to exist (otherwise the list is empty)."
  },
  {
   "property": "C84",
   "status": "proved",
   "theorems": [
    "class_search",
    "classes_exact",
    "inherits_class_exact",
    "classes_evaluated",
    "classes_first",
    "classes_end",
    "classes_missing"
   ],
   "note": "The files are given as lists of statements; the expansion of variables in the names is not modelled."
  },
  {
   "property": "C85",
   "status": "proved",
   "theorems": [
    "deferred_last"
   ],
   "note": "The order is stated for the names deferred by the recipe, its appends and the classes inherited without delay."
  },
  {
   "property": "C86",
   "status": "partial",
   "theorems": [
    "own_function_wins",
    "exported_function",
    "function_untouched",
    "empty_function_refuted",
    "leftover_python_refuted",
    "early_export_refuted"
   ],
   "note": "Not true of functions with an empty text and of exports above the definition of the exported function (the refuted theorems show it)."
  },
  {
   "property": "C87",
   "status": "partial",
   "theorems": [
    "anonymous_once",
    "anonymous_lost_refuted"
   ],
   "note": "For files whose names do not differ only in special characters; two such files with functions that end in the same line break it."
  },
  {
   "property": "C88",
   "status": "proved",
   "theorems": [
    "heading_exact",
    "def_heading_exact",
    "heading_unique",
    "file_exact",
    "function_place",
    "def_place",
    "unclosed_refused",
    "unclosed_accepted_refuted",
    "inner_brace_refuted",
    "fakeroot_name_refuted"
   ],
   "note": "The refuted theorems record where the code differs from what a user expects: an unclosed function is accepted when the statements were cached before, a brace at the start of a line inside a function ends it, and fakeroot alone is a name or a word depending on a space."
  },
  {
   "property": "C89",
   "status": "proved",
   "theorems": [
    "command_exact",
    "addtask_direct",
    "configuration_line",
    "inherit_variable_refuted"
   ],
   "note": "inherit_variable_refuted: a variable named like a command cannot be assigned with blanks around the operator."
  },
  {
   "property": "C90",
   "status": "partial",
   "theorems": [
    "python_function_lines",
    "def_lines",
    "compiled_in_place",
    "same_text_refuted",
    "shell_lines_partial",
    "pasted_mark_refuted"
   ],
   "note": "Missing for shell: functions changed by appends, overrides or expansion of variables with several lines. same_text_refuted: identical defs in two files are reported at the place of the first. pasted_mark_refuted: a comment of the form of the script's own marks moves the place."
  },
  {
   "property": "C91",
   "status": "proved",
   "theorems": [
    "direct_exact",
    "resolve_succeeds",
    "mcdepends_of_others_refuted"
   ],
   "note": "mcdepends_of_others_refuted records that a task with mcdepends also waits for what other tasks of its multiconfig name there."
  },
  {
   "property": "C92",
   "status": "proved",
   "theorems": [
    "recrdeptask_exact",
    "recrdeptask_nothing_else",
    "direct_kept",
    "recrdeptask_waits",
    "resolve_succeeds",
    "recrdeptask_direct_refuted",
    "recrdeptask_circular_refuted"
   ],
   "note": "recrdeptask_direct_refuted: the recipe of a direct inter-task dependency without dependencies of its own is not covered. recrdeptask_circular_refuted: circular runtime dependencies hide recipes from recrdeptask of other tasks."
  },
  {
   "property": "C93",
   "status": "proved",
   "theorems": [
    "needed_exact",
    "build_exact",
    "build_closed",
    "build_accepted"
   ],
   "note": ""
  },
  {
   "property": "C94",
   "status": "proved",
   "theorems": [
    "build_exact",
    "build_accepted",
    "build_closed"
   ],
   "note": ""
  },
  {
   "property": "C95",
   "status": "proved",
   "theorems": [
    "versions_exact",
    "one_version_built"
   ],
   "note": "The message about different recipes that provide the same name is not modelled."
  },
  {
   "property": "C96",
   "status": "proved",
   "theorems": [
    "needs_provided",
    "targets_provided",
    "only_wanted"
   ],
   "note": "The choice among providers is a parameter (see C43); multiconfig dependencies are not modelled here."
  },
  {
   "property": "C97",
   "status": "partial",
   "theorems": [
    "failed_has_reason",
    "failed_exact",
    "other_provider_refuted"
   ],
   "note": "other_provider_refuted: the converse with several providers does not hold in the code."
  },
  {
   "property": "C98",
   "status": "proved",
   "theorems": [
    "resolution_ends"
   ],
   "note": ""
  },
  {
   "property": "C99",
   "status": "partial",
   "theorems": [
    "flags_provided_partial",
    "failed_flag_refuted"
   ],
   "note": "failed_flag_refuted: a failed name in a flag does not make a recipe fail that is added later."
  },
  {
   "property": "C100",
   "status": "partial",
   "theorems": [
    "unbuildable_target_refuted",
    "unbuildable_target_stops_partial"
   ],
   "note": "Refuted with a concrete set of recipes; C96 holds whenever no target has failed."
  },
  {
   "property": "C101",
   "status": "partial",
   "theorems": [
    "runtime_reordered",
    "rprovider_first",
    "inferred_first",
    "runtime_order",
    "rprovider_chosen",
    "dynamic_last",
    "conflict_noticed_refuted",
    "rprovider_some"
   ],
   "note": "Conflicting preferences can go unnoticed (conflict_noticed_refuted). Matching of PACKAGES_DYNAMIC patterns is a parameter; the values of getVar are a function."
  },
  {
   "property": "C102",
   "status": "partial",
   "theorems": [
    "targets_as_asked",
    "unknown_conf_stops",
    "wildcard_exact_partial",
    "world_everywhere",
    "wildcard_task_refuted",
    "wildcard_default_refuted",
    "wildcard_order_matters_refuted",
    "other_prefix_default"
   ],
   "note": "The wildcard is proved for a list of targets that are all wildcards without a task (wildcard_exact_partial). It does not hold in general: a task written after a wildcard target is dropped in the default configuration, another target without a prefix removes the default configuration from the wildcard, and a qualified target after a wildcard is fatal while before it is fine."
  },
  {
   "property": "C103",
   "status": "partial",
   "theorems": [
    "mc_provided",
    "mc_only_wanted",
    "mc_ends",
    "single_configuration_refuted"
   ],
   "note": "Proved for at least two configurations. With a single configuration it does not hold (single_configuration_refuted): multiconfig dependencies are served only if one of the targets itself has one. Names that fail with --continue are excepted as in C96-C100."
  },
  {
   "property": "C104",
   "status": "proved",
   "theorems": [
    "collapse_exact",
    "unskippable_exact",
    "deferral_exact",
    "deferral_one_each",
    "collapse_result_exact"
   ],
   "note": "Stamp files and hard dependencies (setscene variants that depend on other variants) are not part of it."
  },
  {
   "property": "C105",
   "status": "partial",
   "theorems": [
    "inputs_present",
    "ordinary_inputs_ran",
    "migration_leaves_out_refuted"
   ],
   "note": "Holds as long as the hash of no setscene task changes during the build. After such a change a task can be executed although a task it needs was left out earlier (migration_leaves_out_refuted). Hard dependencies between setscene variants, which Isar does not use, are excluded."
  },
  {
   "property": "C106",
   "status": "partial",
   "theorems": [
    "virtual_round",
    "virtual_apart",
    "variant_names",
    "colon_path_refuted"
   ],
   "note": "Proved for paths without a colon. With a colon in the path the variant is taken for another file (colon_path_refuted)."
  },
  {
   "property": "C107",
   "status": "proved",
   "theorems": [
    "entry_used_exact",
    "list_found"
   ],
   "note": ""
  },
  {
   "property": "C108",
   "status": "partial",
   "theorems": [
    "cache_is_fresh",
    "signature_info_refuted",
    "killed_sync_refuted",
    "uncached_variant_refuted",
    "file_of_variant_refuted"
   ],
   "note": "cache_is_fresh is the full statement for sessions of one kind, under the stated conditions on the parser. Refuted by the code: mixing sessions with and without -S uses stale signature information; a kill while the two cache files are written leaves a stale or unusable cache; a variant that stops being cachable and a file only a variant looks for are missed."
  },
  {
   "property": "C109",
   "status": "partial",
   "theorems": [
    "checksum_right",
    "cut_off_refuted",
    "changed_during_run_refuted"
   ],
   "note": "checksum_right is the full statement. Refuted: after a kill in the middle of writing a file of new checksums no later process can merge (UnpicklingError is not caught); a file changed during a run is recorded under its old time."
  },
  {
   "property": "C110",
   "status": "partial",
   "theorems": [
    "list_covered",
    "reading_order",
    "colon_name_refuted",
    "repeated_path_refuted"
   ],
   "note": "Refuted: a file with a colon in its name is left out, and so is a file whose path contains the path of the listed directory again (/src/srcfile.c)."
  },
  {
   "property": "C111",
   "status": "partial",
   "theorems": [
    "found_where_stored",
    "source_tasks_refuted",
    "blank_version_refuted"
   ],
   "note": "Not true of objects of tasks called fetch, unpack, patch or preconfigure, nor of recipes with a blank in the version (refuted theorems)."
  },
  {
   "property": "C112",
   "status": "partial",
   "theorems": [
    "check_exact",
    "check_raises",
    "check_ends",
    "no_threads_refuted"
   ],
   "note": "With BB_NUMBER_THREADS = 0 the search waits for ever when an object is missing locally (refuted theorem)."
  },
  {
   "property": "C113",
   "status": "proved",
   "theorems": [
    "depvalid_exact",
    "ordinary_tasks",
    "packagedata_refuted",
    "skipped_exact",
    "skipped_unique"
   ],
   "note": "The intended skipping of do_packagedata never happens (refuted theorem). The regular expressions of SSTATE_EXCLUDEDEPS_SYSROOT are given by what they match."
  },
  {
   "property": "C114",
   "status": "partial",
   "theorems": [
    "archive_complete",
    "archive_stays",
    "archive_stored",
    "temp_removed",
    "temp_names_apart",
    "failed_link_refuted",
    "killed_leaves_refuted"
   ],
   "note": "Refuted parts: a failing ln is ignored (|| true), so that the task succeeds with nothing stored; a killed process leaves its temporary file for ever."
  },
  {
   "property": "C115",
   "status": "partial",
   "theorems": [
    "priorities_exact",
    "priority_determined",
    "errors_refused",
    "empty_pattern_refuted",
    "zero_priority_refuted",
    "layer_loop_refuted"
   ],
   "note": "Refuted parts: an empty pattern makes the code forget errors found before; a stated priority of 0 is not kept and becomes something that depends on the order; layers depending on each other end the program with an exception."
  },
  {
   "property": "C116",
   "status": "proved",
   "theorems": [
    "file_layer",
    "empty_pattern_nothing"
   ],
   "note": "For patterns of the form ^${LAYERDIR_RE}/ (all of the layers of this project); other regular expressions are not modelled."
  },
  {
   "property": "C117",
   "status": "partial",
   "theorems": [
    "recipes_exact",
    "overlayed_exact",
    "bar_mask_refuted"
   ],
   "note": "Refuted part: a mask that is only | masks everything beside others. Masks other than texts and alternatives of texts are not modelled."
  },
  {
   "property": "C118",
   "status": "partial",
   "theorems": [
    "appends_exact",
    "appends_order",
    "nested_order_refuted",
    "short_recipe_refuted"
   ],
   "note": "Refuted parts: an entry of BBFILES that reaches into an inner layer gives its append files the outer priority; names with .bb in the middle can match shorter recipes."
  },
  {
   "property": "C119",
   "status": "partial",
   "theorems": [
    "make_stamp_exact",
    "scene_stamp_exact",
    "other_tasks_keep",
    "stale_exact",
    "none_stale",
    "task_in_path_refuted",
    "sigdata_path_refuted"
   ],
   "note": "Proved for names without wildcards where the name of the task does not occur in the path. Refuted otherwise: if the path contains the name of the task, stamps of the setscene variant stay; if it contains \"sigdata\", no stamp is ever removed. Names with ? or [ are not modelled."
  },
  {
   "property": "C120",
   "status": "proved",
   "theorems": [
    "clean_stamps_exact",
    "clean_keeps_signatures",
    "clean_keeps_others"
   ],
   "note": "The manifest part of sstate_clean is C22."
  },
  {
   "property": "C121",
   "status": "proved",
   "theorems": [
    "check_stamp_exact",
    "check_stamp_ends",
    "check_direct",
    "nothing_newer"
   ],
   "note": ""
  },
  {
   "property": "C122",
   "status": "partial",
   "theorems": [
    "handlers_called",
    "handlers_restored",
    "removed_forgotten",
    "mask_order_refuted",
    "mc_names_refuted",
    "removed_elsewhere"
   ],
   "note": "Proved if all handlers compile and a name always comes with the same mask. Refuted otherwise: the masks of a handler of an earlier recipe stay in the tables; and names of handlers of two configurations can collide because the name of the configuration is put before the name without a separator."
  },
  {
   "property": "C123",
   "status": "partial",
   "theorems": [
    "ui_in_order",
    "ui_all_once",
    "further_ui",
    "nothing_before",
    "worker_first_refuted",
    "failed_ui_refuted"
   ],
   "note": "Proved for interfaces that do not fail. Refuted: an event of a task that arrives first overtakes the waiting ones, as only fire empties the queue; when sending to the interface fails, the events until the next one connects are dropped."
  },
  {
   "property": "C124",
   "status": "proved",
   "theorems": [
    "srcrev_exact",
    "srcrev_latest",
    "srcrev_missing",
    "srcrev_param",
    "srcrev_both"
   ],
   "note": ""
  },
  {
   "property": "C125",
   "status": "partial",
   "theorems": [
    "resolve_exact",
    "resolve_full",
    "resolve_fails",
    "revision_fixed",
    "revision_commit",
    "tag_param_refuted",
    "full_tag_refuted",
    "usehead_branch_refuted",
    "revision_newest",
    "revision_head",
    "revision_named"
   ],
   "note": "Refuted parts: ;tag=X gives the branch X if there is one; the full name of an annotated tag gives the tag object instead of the commit; with usehead a branch given as revision is not found."
  },
  {
   "property": "C126",
   "status": "partial",
   "theorems": [
    "asked_again",
    "answer_exact",
    "keys_apart",
    "key_shared_refuted",
    "key_branch_refuted",
    "keys_slashes"
   ],
   "note": "answer_exact assumes that no other repository or branch of the build has the same key; refuted without: paths that differ by a dot for a slash, or a branch whose name continues the path, get the commit of another repository."
  },
  {
   "property": "C127",
   "status": "partial",
   "theorems": [
    "clones_apart",
    "clone_no_slash",
    "clones_per_revision",
    "clones_shared_refuted"
   ],
   "note": "clones_apart is for paths without . _ * space and parentheses; refuted in general (/lib/x and /lib.x share a clone)."
  },
  {
   "property": "C128",
   "status": "partial",
   "theorems": [
    "version_exact",
    "version_single",
    "version_needs_format",
    "version_changes",
    "version_names_refuted",
    "version_without"
   ],
   "note": "version_changes needs sources with names of their own; refuted when two share a name (such as the default name)."
  },
  {
   "property": "C129",
   "status": "partial",
   "theorems": [
    "resolv_kept",
    "resolv_restart_offline",
    "resolv_restart_partial",
    "resolv_restart_refuted",
    "resolv_during"
   ],
   "note": "A rerun after a failed download loses the original file (refuted in that case)."
  },
  {
   "property": "C130",
   "status": "partial",
   "theorems": [
    "add_files_fresh",
    "add_files_task_partial",
    "add_files_host_refuted",
    "add_files_empty_refuted",
    "add_files_empties_refuted",
    "add_files_missing"
   ],
   "note": "The three defects are proved as refutations."
  },
  {
   "property": "C131",
   "status": "partial",
   "theorems": [
    "os_release_exact",
    "os_release_again",
    "os_release_once",
    "os_release_unterminated_refuted",
    "os_release_unterminated"
   ],
   "note": "Refuted for a text without a final newline."
  },
  {
   "property": "C132",
   "status": "partial",
   "theorems": [
    "lists_exact",
    "lists_untouched",
    "lists_chosen",
    "lists_only",
    "lists_extension_refuted",
    "lists_missing"
   ],
   "note": "The test of the extension is a substring test."
  },
  {
   "property": "C133",
   "status": "partial",
   "theorems": [
    "rootfs_cmd_accepts",
    "rootfs_cmd_exact",
    "rootfs_cmd_space_refuted"
   ],
   "note": "Exact for paths that are single words; refuted for paths with white space."
  },
  {
   "property": "C134",
   "status": "partial",
   "theorems": [
    "isar_names_exact",
    "isar_names_none",
    "isar_names_arch_refuted"
   ],
   "note": "Refuted for packages of another architecture."
  },
  {
   "property": "C135",
   "status": "partial",
   "theorems": [
    "generator_exact",
    "generator_refuted",
    "initrd_last",
    "initrd_belongs",
    "initrd_none",
    "initrd_newest_refuted",
    "initrd_backup_refuted",
    "kernel_chosen",
    "initrd_version"
   ],
   "note": "Refuted for several kernels, backups and package names."
  },
  {
   "property": "C136",
   "status": "partial",
   "theorems": [
    "trip_exact",
    "trip_own",
    "trip_missing_refuted",
    "trip_hidden_refuted",
    "trip_name_refuted"
   ],
   "note": "proved for existing, visible, differently named directories that are not inside each other; the three refutations show that the code does not handle the rest"
  },
  {
   "property": "C137",
   "status": "partial",
   "theorems": [
    "debs_there",
    "debs_origin",
    "debs_exact_partial",
    "debs_stale_refuted"
   ],
   "note": "exact contents are refuted by debs_stale_refuted and proved for histories in which builds begin with an empty work directory"
  },
  {
   "property": "C138",
   "status": "partial",
   "theorems": [
    "rootfs_restored",
    "rootfs_merge_refuted",
    "rootfs_other_refuted"
   ],
   "note": "the general statement is refuted"
  },
  {
   "property": "C139",
   "status": "proved",
   "theorems": [
    "bootstrap_exact",
    "bootstrap_stays"
   ],
   "note": "the shared state directory is assumed not to lose archives"
  },
  {
   "property": "C140",
   "status": "partial",
   "theorems": [
    "mirror_address",
    "mirror_usual",
    "mirror_words",
    "mirror_parameter_refuted",
    "mirror_words_refuted",
    "mirror_lines",
    "mirror_odd_refuted",
    "mirror_regex"
   ],
   "note": "the refutations show where the code departs from the claim; backslashes in replacements are not modelled; the usual line is proved for lines without user and parameters"
  },
  {
   "property": "C141",
   "status": "partial",
   "theorems": [
    "mirror_once_partial",
    "mirror_twice_refuted",
    "mirror_distinct",
    "mirror_direct"
   ],
   "note": "proved if data can be made for every address; refuted otherwise"
  },
  {
   "property": "C142",
   "status": "partial",
   "theorems": [
    "rehash_all_right",
    "rehash_others",
    "rehash_changed",
    "rehash_done_keeps",
    "rehash_reported",
    "rehash_any_order",
    "rehash_entry_refuted"
   ],
   "note": "Refuted part: when the name of the new hash equals the name in the entry, hash in the entry stays the old one (2575-2577). The rest of the function (lines 2594-2690, which setscene tasks are run again) is not modelled."
  },
  {
   "property": "C143",
   "status": "proved",
   "theorems": [
    "depdata_exact"
   ],
   "note": ""
  },
  {
   "property": "C144",
   "status": "partial",
   "theorems": [
    "fstab_lines",
    "fstab_new_file",
    "fstab_newline_refuted",
    "fstab_space_refuted"
   ],
   "note": "Refuted parts: no final newline in the old file; a space in a mount point. Times of the file are not modelled."
  },
  {
   "property": "C145",
   "status": "partial",
   "theorems": [
    "device_fat",
    "device_other",
    "device_squashfs_refuted",
    "device_node",
    "device_nvme_refuted",
    "devices_distinct",
    "rootdev_found",
    "rootdev_part_name_refuted",
    "rootdev_msdos_number_refuted",
    "rootdev_msdos_uuid_refuted",
    "uuids_once",
    "fat_refused"
   ],
   "note": "Refuted parts as in the statement. The kernel's and udev's texts (%08x-%02x, %04X-%04X, p after a digit) are stated in the specification. The number in the table is taken to be the one wic computes (see C04)."
  },
  {
   "property": "C146",
   "status": "partial",
   "theorems": [
    "rootfs_room",
    "empty_fills",
    "empty_fixed_refuted",
    "files_own",
    "files_swap_refuted",
    "rootfs_exact"
   ],
   "note": "Refuted parts as in the statement. The overhead factor is a fraction, not a float; sizes are those passed to mkfs."
  },
  {
   "property": "C147",
   "status": "partial",
   "theorems": [
    "fragment_chosen",
    "fragment_only",
    "fragment_order",
    "fragments_used",
    "fragments_there_partial",
    "fragments_rest",
    "fragments_stale",
    "fragments_missing",
    "fragment_c_refuted",
    "fragment_beside_refuted",
    "kernel_target"
   ],
   "note": "Refuted in two corners: names ending in .c or .cf are taken for fragments, and a fragment next to S whose path begins like S is not copied."
  },
  {
   "property": "C148",
   "status": "proved",
   "theorems": [
    "arch_native",
    "arch_cross",
    "arch_same",
    "arch_chroot"
   ],
   "note": ""
  },
  {
   "property": "C149",
   "status": "proved",
   "theorems": [
    "srcdir_below",
    "srcdir_names",
    "srcdir_same"
   ],
   "note": "WORKDIR is not the root directory; one leading slash."
  },
  {
   "property": "C150",
   "status": "partial",
   "theorems": [
    "control_exact",
    "control_description_refuted"
   ],
   "note": "Values of several lines are not indented: refuted for DESCRIPTION. Shell expansion in the here document is not modelled."
  },
  {
   "property": "C151",
   "status": "partial",
   "theorems": [
    "debianize_files",
    "debianize_main",
    "debianize_rest",
    "debianize_variant_refuted"
   ],
   "note": "Refuted for native and compat variants: units are looked for under PN, the package has the name BPN."
  },
  {
   "property": "C152",
   "status": "partial",
   "theorems": [
    "layers_others",
    "layer_added",
    "layer_added_end",
    "layer_there",
    "layer_removed",
    "layer_missing",
    "layers_none",
    "layer_overridden_refuted",
    "layer_glued_refuted",
    "layer_tab_refuted",
    "layer_pattern_refuted",
    "layer_default_refuted",
    "layer_tail_refuted"
   ],
   "note": "Proved for files in the usual layout. Outside of it the code is wrong: a later = setting hides the added layer, a missing line end glues lines, a tabulator before the operator hides the setting, a pattern removes one layer per setting, a dropped += makes a later ?= count, an empty continuation behind the closing quotation mark loses the rest of the file. fnmatch without brackets, no tilde in paths, no edit callback."
  },
  {
   "property": "C153",
   "status": "proved",
   "theorems": [
    "server_reads",
    "server_reads_all",
    "server_stuck"
   ],
   "note": "What pickle.loads makes of bytes is a parameter; that data cut before a closing tag is reported as truncated is a hypothesis on it."
  },
  {
   "property": "C154",
   "status": "partial",
   "theorems": [
    "worker_passes",
    "worker_events_first",
    "worker_read_all",
    "flush_order",
    "messages_arrive",
    "event_tag_refuted",
    "event_end_refuted"
   ],
   "note": "Partial because the code refutes it for events that contain <event> or </event>, which end the worker."
  },
  {
   "property": "C155",
   "status": "partial",
   "theorems": [
    "commands_order",
    "commands_all",
    "command_tag_refuted"
   ],
   "note": "Partial because the code refutes it for data that contains the closing tag: the length that is sent along is not used to find the end."
  },
  {
   "property": "C156",
   "status": "partial",
   "theorems": [
    "move_keeps",
    "move_atomic",
    "move_done",
    "move_succeeds",
    "move_nothing",
    "move_link_keeps",
    "move_gap_refuted",
    "move_partial_refuted",
    "move_mode_refuted",
    "move_time_refuted",
    "move_link_self_refuted",
    "move_same_refuted"
   ],
   "note": "Refuted: the move is not atomic when a link is replaced; a refused rename on one device writes the target in place, overwrites its other names and loses the owner; a private file from another device is readable for a moment; a file of time 0 reports failure; a link moved onto itself is lost; a move to another name of the same file does nothing but reports success."
  },
  {
   "property": "C157",
   "status": "partial",
   "theorems": [
    "copy_keeps",
    "copy_atomic",
    "copy_done",
    "copy_succeeds",
    "hardlinks_broken",
    "copy_unreadable_refuted",
    "copy_link_keeps",
    "copy_unreadable_restored",
    "hardlinks_missing",
    "hardlinks_single"
   ],
   "note": "Refuted for sources that cannot be read: they are made readable in place and stay so when the machine stops or an operation fails. See move_time_refuted for break_hardlinks of a file of time 0."
  },
  {
   "property": "C158",
   "status": "partial",
   "theorems": [
    "exec_order",
    "exec_success",
    "exec_stamp",
    "exec_events",
    "exec_early_refuted",
    "exec_late_refuted",
    "exec_missing_refuted"
   ],
   "note": "Refuted: a failure of the preparations fires no event, because TaskFailed is built with too few arguments; TaskSucceeded is fired before the stamp is written, which can fail; a prefunc that does not exist is skipped."
  },
  {
   "property": "C159",
   "status": "proved",
   "theorems": [
    "func_order"
   ],
   "note": "The run file, the way back to the old working directory and the interpreters are not modelled."
  },
  {
   "property": "C160",
   "status": "partial",
   "theorems": [
    "locks_exclusive",
    "locks_finish",
    "locks_end",
    "locks_cycle_refuted",
    "locks_twice_refuted"
   ],
   "note": "Refuted without the condition: the files are taken in the order they are listed, so that two tasks with different orders can block each other, and one that lists a file twice blocks itself."
  },
  {
   "property": "C161",
   "status": "partial",
   "theorems": [
    "script_value",
    "script_environment",
    "script_newline_refuted",
    "script_backslash_refuted",
    "script_end_refuted",
    "script_backquote_refuted",
    "script_failure_refuted",
    "script_override_refuted"
   ],
   "note": "The full claim (every exported value arrives) is false: line ends, doubled and final backslashes and backquotes are not quoted, the message of a failed expansion is executed from its second line on, and names with overrides stop the shell. Proved for all values exactly when they arrive, and for all metadata without these."
  },
  {
   "property": "C162",
   "status": "partial",
   "theorems": [
    "script_functions",
    "script_dash_refuted"
   ],
   "note": "Functions with a dash (or one of . { } +) in their name are used, but not defined (refuted). The names a text refers to (ShellParser) are data of the model."
  },
  {
   "property": "C163",
   "status": "partial",
   "theorems": [
    "environ_cleaned",
    "environ_preserved",
    "environ_sent",
    "environ_locale_refuted"
   ],
   "note": "Proved for all environments; that the user's LC_ALL is restored is refuted: filter_environment overwrites it without putting it among the removed variables."
  },
  {
   "property": "C164",
   "status": "partial",
   "theorems": [
    "server_last_client",
    "server_parses",
    "server_additions_refuted",
    "server_origenv_refuted"
   ],
   "note": "Proved for all histories; refuted: the names that pass are not taken from the last client, and BB_ORIGENV in multiconfigs stays that of an earlier client when nothing is parsed again."
  },
  {
   "property": "C165",
   "status": "partial",
   "theorems": [
    "task_environment",
    "task_environment_fails",
    "worker_environment",
    "worker_environment_twice_refuted"
   ],
   "note": "Proved for all environments and datastores; refuted for a fakeroot environment that names a variable twice: the backup is overwritten by the first new value, which stays in the worker."
  },
  {
   "property": "C166",
   "status": "partial",
   "theorems": [
    "installer_config",
    "installer_complete",
    "installer_interactive",
    "installer_abort_refuted",
    "installer_not_boot"
   ],
   "note": "Refuted for installer.target.overwrite=ABORT on the kernel's command line: it has the device overwritten."
  },
  {
   "property": "C167",
   "status": "partial",
   "theorems": [
    "devices_exact",
    "devices_not_root",
    "devices_others",
    "devices_nested_refuted",
    "devices_overlay_refuted",
    "devices_similar_refuted"
   ],
   "note": "Refuted for a root file system two layers above its disk and for overlays (the system's disk is offered), and for disks with similar names (sdaa is not offered)."
  },
  {
   "property": "C168",
   "status": "partial",
   "theorems": [
    "installer_copies",
    "installer_once",
    "installer_unattended_status",
    "installer_attended",
    "installer_bmap",
    "installer_locked_refuted",
    "installer_boot_refuted",
    "installer_boots_refuted"
   ],
   "note": "Refuted: success is reported when another console installs, whatever it does; a device booted from is overwritten if it is the only one given or if two disks are mounted."
  },
  {
   "property": "C169",
   "status": "partial",
   "theorems": [
    "expand_disk",
    "expand_no_partition",
    "expand_sdp_refuted",
    "expand_space",
    "expand_dangling"
   ],
   "note": "Refuted for the disk sdp, whose name is cut to sd: nothing is expanded."
  },
  {
   "property": "C170",
   "status": "partial",
   "theorems": [
    "expand_table",
    "expand_grows",
    "expand_order_refuted",
    "expand_named_refuted"
   ],
   "note": "Refuted when the partition dumped last is not the last on the disk (the end stays unused), and for a partition whose name contains last-lba (it is deleted from the table)."
  },
  {
   "property": "C171",
   "status": "partial",
   "theorems": [
    "epoch_git",
    "epoch_git_searched",
    "epoch_youngest",
    "epoch_fallback",
    "epoch_reproducible",
    "epoch_order_refuted"
   ],
   "note": "Refuted when the repository is at none of the usual places and there are two: the one listed first counts."
  },
  {
   "property": "C172",
   "status": "partial",
   "theorems": [
    "epoch_number",
    "epoch_atomic",
    "epoch_written",
    "epoch_read",
    "epoch_unpacked",
    "epoch_stable",
    "epoch_clamped",
    "epoch_stale_refuted"
   ],
   "note": "Refuted: a value read before unpacking stays the fallback for that datastore."
  },
  {
   "property": "C173",
   "status": "proved",
   "theorems": [
    "variant_stores",
    "variant_same"
   ],
   "note": "Assumes that parsing does not depend on __ONLYFINALISE and that finalising one variant does not affect another."
  },
  {
   "property": "C174",
   "status": "partial",
   "theorems": [
    "kernel_variants",
    "kernel_colon_refuted"
   ],
   "note": "Proved for kernel names without colon; refuted for a name with a colon, of which only the first part becomes KERNEL_NAME."
  },
  {
   "property": "C175",
   "status": "partial",
   "theorems": [
    "customization_found",
    "customization_apart",
    "customization_usual",
    "customization_prefix_refuted",
    "customization_image_refuted"
   ],
   "note": "The list of variables to put in front is searched as a text, so a machine or an image whose name is a piece of it also goes in front (refuted)."
  },
  {
   "property": "C176",
   "status": "partial",
   "theorems": [
    "fragments_taken",
    "fragments_c_refuted"
   ],
   "note": "Proved if no source has the extension .c, .cf or a mere dot; refuted for C source files, which are taken for fragments because the extension is looked for in the text .cfg."
  },
  {
   "property": "C177",
   "status": "partial",
   "theorems": [
    "fragments_there",
    "fragments_inside",
    "fragments_local",
    "fragments_download_refuted",
    "fragments_beside_refuted"
   ],
   "note": "Refuted for fragments downloaded from a directory of a server and for paths that merely start with the text of S."
  },
  {
   "property": "C178",
   "status": "proved",
   "theorems": [
    "libcdev_profiles"
   ],
   "note": ""
  },
  {
   "property": "C179",
   "status": "partial",
   "theorems": [
    "unsafe_paths",
    "remove_named",
    "prune_named",
    "remove_spares",
    "remove_home",
    "remove_files",
    "home_slash_refuted",
    "home_regex_refuted",
    "home_above_refuted"
   ],
   "note": "Proved for a HOME without characters that mean something to re (a point is allowed). Refuted: HOME with a slash at the end, or with such a character, is not recognised; a directory HOME is in is not guarded."
  },
  {
   "property": "C180",
   "status": "partial",
   "theorems": [
    "cleandirs_clean",
    "cleandirs_works",
    "dirs_made",
    "cleandirs_bracket_refuted",
    "cleandirs_order_refuted"
   ],
   "note": "Refuted: a directory with a bracket in its name is taken as a pattern, so it is not emptied and another one is removed; a directory listed before one it is in is not there in the end."
  },
  {
   "property": "C181",
   "status": "partial",
   "theorems": [
    "adjusted_place",
    "alternates_adjusted",
    "mirror_relative",
    "link_leads",
    "alternates_subdir_refuted",
    "link_dangling_refuted"
   ],
   "note": "Refuted: a source with the parameter subdir is unpacked elsewhere than the adjustment looks, so it keeps the path of the host; if the old download directory is gone, the dangling link is not replaced and the task fails. sed is modelled for patterns whose only special character is the point."
  },
  {
   "property": "C182",
   "status": "partial",
   "theorems": [
    "template_filled",
    "template_reference",
    "template_copied",
    "template_environment_refuted",
    "template_no_variables"
   ],
   "note": "Proved as an iff with an inductive specification of filling in; envsubst itself is modelled from its documentation. Refuted: that the output depends on bitbake's variables only (an unset or empty variable is taken from the environment of the process)."
  },
  {
   "property": "C183",
   "status": "partial",
   "theorems": [
    "wks_names_found",
    "wks_replaced",
    "wks_found_first",
    "wks_plain_refuted"
   ],
   "note": "Refuted for references without braces: $NAME stays if the variable is not in TEMPLATE_VARS."
  },
  {
   "property": "C184",
   "status": "partial",
   "theorems": [
    "wicenv_read",
    "wicenv_lines_refuted",
    "wicenv_quote_refuted"
   ],
   "note": "Refuted for values of more than one line (only the first is read, and a later line may set another variable) and for values that end in a quote (it is lost)."
  },
  {
   "property": "C185",
   "status": "partial",
   "theorems": [
    "infos_arrive",
    "infos_all_arrive",
    "infos_once",
    "infos_receiver_refuted",
    "infos_race_refuted"
   ],
   "note": "Proved for resets that are one step. Refuted for a reset in another thread while data is saved (CookerParser.shutdown resets while the thread that writes the caches may still run): reset is two assignments, and a value saved between them can later be read as another one. Also a reset of the receiver only makes it fail."
  },
  {
   "property": "C186",
   "status": "partial",
   "theorems": [
    "world_members",
    "universe_members",
    "world_in_universe",
    "world_stale_refuted",
    "universe_task_refuted"
   ],
   "note": "Proved for the first request after parsing. Refuted: in a server that stays, a later request of world with another task gets the list of the first one; and a recipe may be in universe because another provider of its name has the task."
  },
  {
   "property": "C187",
   "status": "partial",
   "theorems": [
    "dynamic_selected",
    "dynamic_refused",
    "dynamic_colon_refuted"
   ],
   "note": "Refuted: that every wrong entry gets the message; an entry without the name of a layer (:PATTERN) raises an IndexError."
  },
  {
   "property": "C188",
   "status": "partial",
   "theorems": [
    "layers_accepted",
    "layer_says",
    "layer_says_nothing",
    "compat_not_seen",
    "series_first",
    "layer_says_refuted"
   ],
   "note": "Refuted: that only the layer itself can say with which series it works; a later layer can say it for it."
  },
  {
   "property": "C189",
   "status": "partial",
   "theorems": [
    "diskmon_stops",
    "diskmon_warn_only",
    "diskmon_quiet",
    "diskmon_warns",
    "diskmon_warns_again",
    "diskmon_full_refuted",
    "diskmon_warns_again_inodes"
   ],
   "note": "The part that the code violates is refuted: diskmon_full_refuted. It is assumed that a file system either always or never counts its inodes."
  },
  {
   "property": "C190",
   "status": "proved",
   "theorems": [
    "diskmon_limit",
    "diskmon_entry",
    "diskmon_entry_only",
    "diskmon_entry_sensible",
    "diskmon_watched"
   ],
   "note": "realpath is a parameter of the model."
  },
  {
   "property": "C191",
   "status": "partial",
   "theorems": [
    "enforce_off",
    "enforce_unexpected",
    "enforce_give_up",
    "enforce_nothing",
    "enforce_targets",
    "enforce_provides_refuted"
   ],
   "note": "The part that the code violates is refuted: enforce_provides_refuted. Sets in brackets are not modelled in patterns."
  },
  {
   "property": "C192",
   "status": "partial",
   "theorems": [
    "launch_results",
    "launch_fatal",
    "launch_bound",
    "launch_once",
    "launch_stops",
    "launch_ends",
    "launch_killed_refuted",
    "launch_zero_refuted"
   ],
   "note": "The parts that the code violates are refuted: launch_killed_refuted, launch_zero_refuted. launch_ends assumes that the oldest process is found to have ended in each of the last turns."
  },
  {
   "property": "C193",
   "status": "partial",
   "theorems": [
    "emptylayer_warned",
    "emptylayer_recipe",
    "emptylayer_empty",
    "emptylayer_nested_refuted"
   ],
   "note": "The part that the code violates is refuted: emptylayer_nested_refuted."
  },
  {
   "property": "C194",
   "status": "proved",
   "theorems": [
    "refvars_exact",
    "refvars_order",
    "refvars_ends"
   ],
   "note": "What one value refers to directly is given (expandWithRefs)."
  },
  {
   "property": "C195",
   "status": "partial",
   "theorems": [
    "filelayer_longest",
    "filelayer_entry",
    "filelayer_patterns",
    "filelayer_nested_refuted",
    "filelayer_patterns_order"
   ],
   "note": "The part that the code violates is refuted: filelayer_nested_refuted. re.match is a parameter; sets in brackets are not modelled in the entries."
  },
  {
   "property": "C196",
   "status": "partial",
   "theorems": [
    "stale_cleaned",
    "stale_stamps",
    "stale_order",
    "stale_invalid",
    "stale_prefix_refuted"
   ],
   "note": "The part that the code violates is refuted: stale_prefix_refuted. One architecture; cleaning a manifest is an action here."
  }
 ]
}