{
 "claims": [
  {
   "property": "C01",
   "status": "proved",
   "theorems": [
    "C01_chunks_concatenate_to_input",
    "C01_finalized_stream_complete"
   ],
   "note": ""
  },
  {
   "property": "C02",
   "status": "proved",
   "theorems": [
    "C02_split_independent",
    "C02_empty_block_ends_stream",
    "C02_emitted_chunks_final"
   ],
   "note": ""
  },
  {
   "property": "C03",
   "status": "proved",
   "theorems": [
    "C03_chunk_sizes"
   ],
   "note": ""
  },
  {
   "property": "C04",
   "status": "proved",
   "theorems": [
    "C04_boundaries_follow_rule",
    "C04_rule_is_deterministic",
    "C04_gear_tables_total"
   ],
   "note": ""
  },
  {
   "property": "C05",
   "status": "proved",
   "theorems": [
    "C05_resynchronisation",
    "C05_decision_is_local"
   ],
   "note": ""
  },
  {
   "property": "C06",
   "status": "proved",
   "theorems": [
    "C06_stream_roundtrip",
    "C06_packet_roundtrip",
    "C06_incomplete_packet_not_decoded",
    "C06_too_big_rejected",
    "C06_unknown_type_rejected"
   ],
   "note": ""
  },
  {
   "property": "C07",
   "status": "partial",
   "theorems": [
    "C07_in_order_exactly_once",
    "C07_flush_means_written",
    "C07_progress",
    "C07_delivery_possible",
    "C07_blocked_caller_not_stuck",
    "C07_flush_success_refuted"
   ],
   "note": "In-order exactly-once delivery and progress proved for every schedule. The claim that Flush returning means success is refuted: FlushOutgoingQueue returns void and returns after a send error."
  },
  {
   "property": "C08",
   "status": "partial",
   "theorems": [
    "C08_outgoing_bounded",
    "C08_incoming_bounded",
    "C08_receive_error_last",
    "C08_send_error_last_refuted",
    "C08_send_after_error"
   ],
   "note": "Bounds and 'receive error is reported last' proved; the symmetric claim for send errors is refuted (received packets are withheld after a send error)."
  },
  {
   "property": "C09",
   "status": "proved",
   "theorems": [
    "C09_signature_lists_every_chunk"
   ],
   "note": ""
  },
  {
   "property": "C10",
   "status": "proved",
   "theorems": [
    "C10_patch_reproduces_source",
    "C10_only_terminator_empty",
    "C10_production"
   ],
   "note": ""
  },
  {
   "property": "C11",
   "status": "partial",
   "theorems": [
    "C11_no_out_of_bounds_partial",
    "C11_out_of_bounds_iff",
    "C11_no_out_of_bounds_refuted"
   ],
   "note": "Proved when offset+size does not wrap; refuted in general: chunk_offset + chunk_size wraps in uint64, exact condition in C11_out_of_bounds_iff."
  },
  {
   "property": "C12",
   "status": "proved",
   "theorems": [
    "C12_files_classified",
    "C12_extraneous_files",
    "C12_dirs_classified",
    "C12_missing_dirs_in_order",
    "C12_server_list_unique_first"
   ],
   "note": ""
  },
  {
   "property": "C13",
   "status": "proved",
   "theorems": [
    "C13_flags",
    "C13_no_path_lost_or_invented",
    "C13_totals"
   ],
   "note": ""
  },
  {
   "property": "C14",
   "status": "proved",
   "theorems": [
    "C14_file_list",
    "C14_index_denotes_same_file",
    "C14_deletion_list",
    "C14_index_list",
    "C14_batches_bounded"
   ],
   "note": ""
  },
  {
   "property": "C15",
   "status": "proved",
   "theorems": [
    "C15_dry_run_changes_nothing",
    "C15_nothing_else_touched",
    "C15_without_delete_nothing_lost",
    "C15_extraneous_deleted",
    "C15_always_a_tree",
    "C15_hidden_contents_block_delete"
   ],
   "note": ""
  },
  {
   "property": "C16",
   "status": "partial",
   "theorems": [
    "C16_old_new_or_temp_partial",
    "C16_old_or_new_at_every_moment_refuted",
    "C16_whole_file_loses_old_contents_refuted"
   ],
   "note": "The full claim is refuted: between remove() and rename() no file of that name exists, and --whole-file truncates in place. Proved for syncs without --whole-file: at every moment the old file, the complete new file, or no file and the complete new contents in the temporary file next to it."
  },
  {
   "property": "C17",
   "status": "partial",
   "theorems": [
    "C17_files_delivered",
    "C17_existing_files_updated",
    "C17_dirs_delivered",
    "C17_no_temp_files_left",
    "C17_sync_ends",
    "C17_sync_succeeds",
    "C17_unrelated_file_destroyed_refuted",
    "C17_client_file_lost_refuted"
   ],
   "note": "Proved for every schedule if no client path is the name of a temporary file; refuted without that (an unrelated file X.__cdc_rsync_temp__ of the destination, or a client's file of that name, is destroyed by a successful sync). Also proved: every sync ends, and without conflicts (no_conflicts) no sync fails."
  },
  {
   "property": "C18",
   "status": "partial",
   "theorems": [
    "C18_sync_completes",
    "C18_moderate_files_sync",
    "C18_production_limit",
    "C18_sync_completes_refuted"
   ],
   "note": "Proved for every schedule and every queue capacity, for all option combinations, under the condition that every changed file can be synced without circular wait; that condition is proved for basis files up to 700 MB. Refuted without it: for every capacity there is a changed file with which no run finishes (signatures are all sent before the patch task is queued)."
  },
  {
   "property": "C19",
   "status": "partial",
   "theorems": [
    "C19_join_monoid",
    "C19_join_shape",
    "C19_join_no_double",
    "C19_join_no_double_refuted",
    "C19_join_split",
    "C19_names_recombine",
    "C19_names_rejoin",
    "C19_fix_separators",
    "C19_ensure_separator",
    "C19_ensure_no_separator",
    "C19_ensure_separator_empty_refuted"
   ],
   "note": "All laws proved for every string (Linux branch). 'No helper doubles a separator' is refuted when the appended part starts with one (Join(\"a\",\"/b\") = \"a//b\"); EnsureEndsWithPathSeparator turns the empty path into the root."
  },
  {
   "property": "C20",
   "status": "proved",
   "theorems": [
    "C20_hex_roundtrip",
    "C20_hex_injective",
    "C20_hex_accepts",
    "C20_hex_rejects"
   ],
   "note": ""
  },
  {
   "property": "C21",
   "status": "proved",
   "theorems": [
    "C21_path_parses_back",
    "C21_paths_distinct",
    "C21_parses_to_chunk_ids",
    "C21_directories_exist",
    "C21_behaves_like_a_map"
   ],
   "note": ""
  },
  {
   "property": "C22",
   "status": "partial",
   "theorems": [
    "C22_cleanup",
    "C22_nothing_under_limit",
    "C22_unlimited",
    "C22_interrupted",
    "C22_last_access",
    "C22_failed_put_refuted"
   ],
   "note": "Proved for every history without failed writes (target reached, least recently used first, no more than needed, nothing under the limit). Refuted after a failed Put: the truncated file it leaves is not counted."
  },
  {
   "property": "C23",
   "status": "partial",
   "theorems": [
    "C23_exact_after_scan_partial",
    "C23_never_under_partial",
    "C23_exact_fresh_puts_partial",
    "C23_size_refuted"
   ],
   "note": "Refuted in general (overwriting Put counts twice, Remove does not subtract). Proved: exact after every scan, never below the stored bytes once scanned, exact while only new ids are put."
  },
  {
   "property": "C24",
   "status": "partial",
   "theorems": [
    "C24_list_bytes",
    "C24_list_complete",
    "C24_caches_true_chunks",
    "C24_truncated_entry_is_replaced",
    "C24_other_chunks_untouched",
    "C24_locks_cover",
    "C24_range_bytes_partial",
    "C24_range_prefix",
    "C24_whole_chunk_partial",
    "C24_not_found_is_true",
    "C24_truncated_entry_refuted",
    "C24_prefetch_only_does_nothing",
    "C24_grpc_range_refuted"
   ],
   "note": "List reads are proved for all schedules, failures and truncated cache entries. Reads of a single chunk are exact only with an intact cache; with a truncated cache entry they return a prefix as success (refuted). GrpcReader's range Get has offset and size swapped (refuted)."
  },
  {
   "property": "C25",
   "status": "proved",
   "theorems": [
    "C25_no_deadlock",
    "C25_every_schedule_ends",
    "C25_all_requests_complete",
    "C25_mutual_exclusion",
    "C25_lock_order"
   ],
   "note": ""
  },
  {
   "property": "C26",
   "status": "proved",
   "theorems": [
    "C26_read_exact",
    "C26_read_through_provider",
    "C26_malformed_manifest",
    "C26_plan_made"
   ],
   "note": ""
  },
  {
   "property": "C27",
   "status": "partial",
   "theorems": [
    "C27_split_preserves_file",
    "C27_split_preserves_refs",
    "C27_split_bounds",
    "C27_append_chunk",
    "C27_second_flush_refuted"
   ],
   "note": "Splitting is proved correct and bounded; refuted is that it can be repeated: the size of the list references is not counted, so that a file can exceed the limit after splitting and the next pass over it makes Flush fail."
  },
  {
   "property": "C28",
   "status": "proved",
   "theorems": [
    "C28_create",
    "C28_delete",
    "C28_history",
    "C28_create_effect",
    "C28_new_builder",
    "C28_loaded_builder",
    "C28_path_components",
    "C28_path_separators",
    "C28_path_single"
   ],
   "note": ""
  },
  {
   "property": "C29",
   "status": "partial",
   "theorems": [
    "C29_flush_preserves",
    "C29_flush_reports_ids",
    "C29_changes_after_flush",
    "C29_list_limit",
    "C29_equal_directories_refuted"
   ],
   "note": "Proved: if the lists the flush writes are unshared (separate) the manifest read back from the store has the same tree, later changes work on the flushed tree, and lists stay within the size limit. C29_equal_directories_refuted shows that the condition is needed: two directories with equal contents get the same content id, share one loaded list, and changing one changes both."
  },
  {
   "property": "C30",
   "status": "partial",
   "theorems": [
    "C30_compare",
    "C30_update_all",
    "C30_lost_chunk_list_refuted",
    "C30_deleted_directory_chunks_refuted"
   ],
   "note": "Proved: the comparison yields exactly the differences, and UpdateAll ends with the stored manifest equal to the source for every old manifest, interleaving, prioritization and intermediate flush, provided no task failed, a file with the same time and size is unchanged (trustworthy), the source does not change while read, and flushed lists are not shared (separate, cf. C29). Refuted without: a file whose chunk list is lost is kept empty; chunks of a deleted directory stay in the FileChunkMap."
  },
  {
   "property": "C31",
   "status": "partial",
   "theorems": [
    "C31_bounded_steps",
    "C31_progress",
    "C31_hang_only_partial",
    "C31_hang_refuted"
   ],
   "note": "Proved: every run has a bounded number of steps for any failures and schedules (sources of bounded width and depth), the loop always goes on unless it waits without tasks, and the only ways to wait without tasks are identified. Refuted: such a wait (a hang) is reachable when the flush deadline passes between the two calls of WantManifestFlushed."
  },
  {
   "property": "C32",
   "status": "partial",
   "theorems": [
    "C32_prune_foreign_depth_refuted",
    "C32_keep_referenced_partial",
    "C32_prune_after_failure_refuted"
   ],
   "note": "Prune of the disk store keeps exactly the given ids (C21_behaves_like_a_map); the ids UpdateAll passes include everything the stored manifest refers to if no task failed (chunk lists: of files all of whose lists can be read). Refuted: after a failed scan followed by a successful last task the lists of the failed directory are pruned; and if the cache directory holds the same id at another directory depth."
  },
  {
   "property": "C33",
   "status": "proved",
   "theorems": [
    "C33_lookup",
    "C33_size",
    "C33_invisible_before_flush",
    "C33_total_exact"
   ],
   "note": ""
  },
  {
   "property": "C34",
   "status": "proved",
   "theorems": [
    "C34_two_fifo_queues",
    "C34_nothing_lost",
    "C34_dequeue_total",
    "C34_flush_deadline"
   ],
   "note": ""
  },
  {
   "property": "C35",
   "status": "partial",
   "theorems": [
    "C35_answer_is_glob",
    "C35_matching_path_accepted",
    "C35_first_rule_decides",
    "C35_spec_unambiguous",
    "C35_no_overread_partial",
    "C35_no_overread_refuted",
    "C35_double_star_empty_refuted"
   ],
   "note": "Matching equals the glob specification whenever no over-read happens; memory safety is refuted (pattern 'ab*c' on 'ab' reads past the terminator)."
  },
  {
   "property": "C36",
   "status": "partial",
   "theorems": [
    "C36_removes_exactly_sequences",
    "C36_plain_text_unchanged",
    "C36_idempotent_refuted"
   ],
   "note": "Exact removal proved; idempotence refuted."
  },
  {
   "property": "C37",
   "status": "partial",
   "theorems": [
    "C37_size_modulo_2_64",
    "C37_size_exact_partial",
    "C37_overflow_rejected_refuted",
    "C37_print_parse"
   ],
   "note": "Exact modulo 2^64 and exact when no overflow; overflow rejection refuted (16384P parses to 0)."
  },
  {
   "property": "C38",
   "status": "partial",
   "theorems": [
    "C38_success_is_valid_range",
    "C38_failure_is_zero",
    "C38_range_roundtrip",
    "C38_single_port",
    "C38_total_refuted"
   ],
   "note": "Totality refuted: see C38_total_refuted."
  },
  {
   "property": "C39",
   "status": "proved",
   "theorems": [
    "C39_at_most_once",
    "C39_wait",
    "C39_completed_retrievable",
    "C39_single_worker_fifo",
    "C39_outstanding_exact",
    "C39_wait_returns",
    "C39_shutdown",
    "C39_wait_after_shutdown_hangs",
    "C39_at_most_truthful"
   ],
   "note": ""
  },
  {
   "property": "C40",
   "status": "proved",
   "theorems": [
    "C40_semaphore_bound",
    "C40_no_lost_wakeup"
   ],
   "note": ""
  },
  {
   "property": "C41",
   "status": "proved",
   "theorems": [
    "C41_executable_flag"
   ],
   "note": ""
  },
  {
   "property": "C42",
   "status": "proved",
   "theorems": [
    "C42_only_new_chunks_sent",
    "C42_unchanged_file_sends_nothing"
   ],
   "note": ""
  },
  {
   "property": "C43",
   "status": "partial",
   "theorems": [
    "C43_found_is_child",
    "C43_lookup_exact_partial",
    "C43_lookup_race_refuted",
    "C43_list_all"
   ],
   "note": "What is found is right under every interleaving and listing is complete; not-found is right only without concurrent lookups: a race makes Lookup miss an existing name (refuted)."
  },
  {
   "property": "C44",
   "status": "proved",
   "theorems": [
    "C44_intermediate_manifest"
   ],
   "note": ""
  },
  {
   "property": "C45",
   "status": "partial",
   "theorems": [
    "C45_no_freed_memory_is_used_partial",
    "C45_freed_memory_is_used_with_large_directories_refuted"
   ],
   "note": "Proved for every history whose manifests have unique names and indirect asset lists at the root only. Refuted for large directories below the root: updating such a directory frees the list that holds its children's protos before their update tasks read them (use after free)."
  },
  {
   "property": "C46",
   "status": "partial",
   "theorems": [
    "C46_requests_are_answered_from_the_current_manifest_partial",
    "C46_a_missing_list_can_only_make_inodes_stale_partial",
    "C46_a_waiting_lookup_finds_another_file_refuted"
   ],
   "note": "Proved for the same histories, exactly if no asset list is missing while a manifest is set (otherwise inodes may become stale). Refuted for a lookup that had to wait: the name pointer is kept without a copy, so it is answered for whatever name the buffer holds later."
  },
  {
   "property": "C47",
   "status": "partial",
   "theorems": [
    "C47_each_request_is_answered_once_or_waits",
    "C47_no_request_waits_for_a_complete_manifest_partial",
    "C47_resumed_requests_are_answered_partial"
   ],
   "note": "The accounting (answered exactly once or waiting) is proved for every history. That nothing waits once the manifest is complete is proved for the supported manifests only (see C45)."
  },
  {
   "property": "C48",
   "status": "partial",
   "theorems": [
    "C48_opening_a_changed_file_drops_the_cache_partial",
    "C48_reading_a_changed_file_by_an_old_handle_fails_partial",
    "C48_an_old_version_stays_cached_refuted"
   ],
   "note": "Proved for changes by the last manifest. Refuted in general: a further manifest that does not change the file resets the mark, and the pages of the first version stay cached."
  },
  {
   "property": "C49",
   "status": "proved",
   "theorems": [
    "C49_paging_returns_every_entry_once"
   ],
   "note": ""
  },
  {
   "property": "C50",
   "status": "partial",
   "theorems": [
    "C50_incremental_update",
    "C50_intermediate_manifest",
    "C50_operations_apply",
    "C50_never_hangs",
    "C50_moved_directory_refuted",
    "C50_replaced_directory_refuted",
    "C50_chunk_map_keeps_deleted_refuted"
   ],
   "note": "C50_incremental_update is the property; the _refuted theorems show changes that the watcher's operations do not tell: a directory that is moved in (its contents have no notification), a directory renamed away and re-created (stale children), and a FileChunkMap that keeps deleted nested files because Remove gets a path with backslashes."
  },
  {
   "property": "C51",
   "status": "partial",
   "theorems": [
    "C51_no_duplicates",
    "C51_reported_is_true",
    "C51_nothing_missed",
    "C51_lost_deletion_refuted"
   ],
   "note": "Proved as stated; C51_lost_deletion_refuted shows that the proviso is needed: removed, added, removed again leaves no trace although the file existed before."
  },
  {
   "property": "C52",
   "status": "partial",
   "theorems": [
    "C52_only_pending_wrong",
    "C52_settled",
    "C52_no_lost_wakeup",
    "C52_can_go_on",
    "C52_settles",
    "C52_lost_deletion_refuted",
    "C52_failed_update_refuted"
   ],
   "note": "Holds for every history; lost changes are the exception. C52_lost_deletion_refuted and C52_failed_update_refuted show that they happen: after one failed Update the empty default manifest is stored and everything unchanged stays missing. Re-creation of the watched directory and buffer overflows (full rescan) are in C75."
  },
  {
   "property": "C53",
   "status": "partial",
   "theorems": [
    "C53_windows_arguments",
    "C53_host_and_path",
    "C53_ssh_arguments",
    "C53_expansion_refuted",
    "C53_scp_to_sftp"
   ],
   "note": "The readers (Microsoft's C runtime rules, double quotes and tilde of a POSIX shell) are specified separately. C53_expansion_refuted: $ and ` are not quoted, so the remote shell expands them. The end anchor of the first regular expression is taken to match at the end of the string only (true without newlines)."
  },
  {
   "property": "C54",
   "status": "partial",
   "theorems": [
    "C54_parse",
    "C54_understood_or_rejected",
    "C54_verbose_refuted",
    "C54_flag_value_refuted"
   ],
   "note": "Sound and complete: C54_parse for everything the relation `written` covers, C54_understood_or_rejected for every other command line. C54_verbose_refuted: --verbose (documented) is rejected; C54_flag_value_refuted: --recursive=false turns recursion on. atoi is a parameter. Warnings and messages are not modelled."
  },
  {
   "property": "C55",
   "status": "partial",
   "theorems": [
    "C55_finish",
    "C55_prefix",
    "C55_auto_flush",
    "C55_error_sticky",
    "C55_calls_return",
    "C55_packets",
    "C55_end_to_end",
    "C55_overread_refuted",
    "C55_lost_error_hang_refuted"
   ],
   "note": "For every codec satisfying the record `laws` (zstd's streaming contract; a toy instance is given). C55_packets needs that no received piece spans the end of compressed data; C55_overread_refuted shows that the receiver fails otherwise, which the client's protocol does not exclude. C55_error_sticky and C55_calls_return hold once the constructor has returned; C55_lost_error_hang_refuted: the constructor overwrites an earlier error of its thread."
  },
  {
   "property": "C56",
   "status": "partial",
   "theorems": [
    "C56_one_directory",
    "C56_start",
    "C56_start_reuses",
    "C56_start_ok_runs",
    "C56_start_invalid",
    "C56_stop",
    "C56_stop_removes_idle",
    "C56_shutdown",
    "C56_no_crash",
    "C56_start_succeeds",
    "C56_no_idle_refuted",
    "C56_idle_survives_stop",
    "C56_dead_directory_refuted",
    "C56_dead_after_stop_refuted"
   ],
   "note": "C56_no_idle_refuted, C56_dead_directory_refuted, C56_dead_after_stop_refuted: a failed start leaves a directory with an updater and server but no session; no stop removes it (C56_idle_survives_stop), and once its manifest build has failed every later start of that directory fails until the service is restarted."
  },
  {
   "property": "C57",
   "status": "partial",
   "theorems": [
    "C57_received",
    "C57_converges",
    "C57_converges_bounded",
    "C57_wait_ok",
    "C57_wait_ok_serves",
    "C57_wait_returns",
    "C57_shutdown",
    "C57_handlers_end_refuted",
    "C57_stale_ack_refuted",
    "C57_change_back_refuted",
    "C57_retry_refuted"
   ],
   "note": "Refuted: C57_stale_ack_refuted (acknowledgements of an earlier session of the instance count for a restarted one), C57_change_back_refuted (change and change back: OK while the client serves the state in between), C57_retry_refuted (a client that failed to fetch a manifest is never told again), C57_handlers_end_refuted (the server call of a vanished client lasts until Shutdown)."
  },
  {
   "property": "C58",
   "status": "partial",
   "theorems": [
    "C58_reserved",
    "C58_prefers_unreserved",
    "C58_exhausted",
    "C58_distinct",
    "C58_bounded",
    "C58_netstat",
    "C58_taken_back_refuted",
    "C58_all_held_refuted",
    "C58_netstat_refuted"
   ],
   "note": "Refuted: C58_taken_back_refuted (the second InterlockedCompareExchange64 has exchange and comparand swapped, so a port found in use stays marked and a held port is handed out although a port nobody holds is unused), C58_all_held_refuted (with all ports marked a held port is handed out again, even to its holder), C58_netstat_refuted (on Windows listeners on 0.0.0.0 are not seen; port 44 counts as used because of 443)."
  },
  {
   "property": "C59",
   "status": "proved",
   "theorems": [
    "C59_iterates",
    "C59_entries",
    "C59_total",
    "C59_unique"
   ],
   "note": ""
  },
  {
   "property": "C60",
   "status": "partial",
   "theorems": [
    "C60_in_order",
    "C60_null",
    "C60_ahead",
    "C60_returns",
    "C60_all_closed",
    "C60_abort_only",
    "C60_open_error_refuted"
   ],
   "note": "The error case is refuted: FileOpenTask::ReleaseFile and ~FileOpenTask dereference a StatusOr that holds an error, which aborts; the clients' 'Failed to open file' branch is never reached."
  },
  {
   "property": "C61",
   "status": "partial",
   "theorems": [
    "C61_answers",
    "C61_failure",
    "C61_authentic",
    "C61_end_to_end",
    "C61_list_is_singles",
    "C61_verified_refuted",
    "C61_truncated_refuted"
   ],
   "note": "Verification of changed files is refuted (C61_verified_refuted, C61_truncated_refuted): ReadFromFile ignores the number of bytes read and neither side compares the data with the id."
  },
  {
   "property": "C62",
   "status": "partial",
   "theorems": [
    "C62_target",
    "C62_session_id",
    "C62_stop",
    "C62_start_then_stop",
    "C62_stop_all",
    "C62_instance_name",
    "C62_value",
    "C62_lines_unique",
    "C62_stop_all_refuted"
   ],
   "note": "That 'stop *' ends the sessions of the Stadia use case is refuted (C62_stop_all_refuted)."
  },
  {
   "property": "C63",
   "status": "partial",
   "theorems": [
    "C63_code_point_len",
    "C63_valid_name",
    "C63_same_directory",
    "C63_different_directories",
    "C63_cache_path",
    "C63_different_caches",
    "C63_max_len_refuted",
    "C63_backslash_refuted"
   ],
   "note": "Two refuted parts: C63_max_len_refuted, C63_backslash_refuted."
  },
  {
   "property": "C64",
   "status": "partial",
   "theorems": [
    "C64_server_receive",
    "C64_server_receive_error",
    "C64_server_receive_returns",
    "C64_server_receive_exact",
    "C64_client_receive",
    "C64_client_receive_ok",
    "C64_client_receive_error_loses_refuted",
    "C64_server_receives_prefix",
    "C64_client_receives_prefix",
    "C64_server_send",
    "C64_server_send_returns",
    "C64_client_send_refuted",
    "C64_client_send_partial",
    "C64_end_to_end_client",
    "C64_end_to_end_server"
   ],
   "note": "Two refuted parts (C64_client_send_refuted, C64_client_receive_error_loses_refuted); C64_client_send_partial: the client's Send is right if send() accepts everything in one call."
  },
  {
   "property": "C65",
   "status": "partial",
   "theorems": [
    "C65_check_sound",
    "C65_check_complete_partial",
    "C65_check_complete_refuted",
    "C65_check_symmetric_refuted",
    "C65_command_line",
    "C65_server_checks",
    "C65_bounded",
    "C65_deployed_for_a_reason",
    "C65_success",
    "C65_server_error_reported",
    "C65_converges",
    "C65_deployed_once",
    "C65_windows_2038_refuted"
   ],
   "note": "Three refuted parts: C65_check_complete_refuted, C65_check_symmetric_refuted, C65_windows_2038_refuted; C65_check_complete_partial gives the cases in which up-to-date servers pass."
  },
  {
   "property": "C66",
   "status": "partial",
   "theorems": [
    "C66_pieces",
    "C66_errors",
    "C66_message",
    "C66_message_refuted",
    "C66_port",
    "C66_no_port_early",
    "C66_no_port_fails",
    "C66_wait",
    "C66_second_attempt_refuted",
    "C66_second_attempt_partial",
    "C66_rejected_waits",
    "C66_rejection_noticed_refuted"
   ],
   "note": "Refuted parts: C66_message_refuted, C66_second_attempt_refuted; C66_second_attempt_partial says when a second attempt is right. C66_rejection_noticed_refuted; C66_rejected_waits says what happens instead."
  },
  {
   "property": "C67",
   "status": "partial",
   "theorems": [
    "C67_place",
    "C67_deployed",
    "C67_atomic",
    "C67_recovers",
    "C67_fuse_deployed",
    "C67_fuse_atomic_refuted"
   ],
   "note": "Refuted part: C67_fuse_atomic_refuted. sftp is modelled by what its commands mkdir, cd, put -p, chmod and rename do (rename replaces an existing file atomically, as posix-rename@openssh.com does; a server without that extension would fail the rename instead)."
  },
  {
   "property": "C68",
   "status": "partial",
   "theorems": [
    "C68_port",
    "C68_no_early_decision",
    "C68_port_refuted",
    "C68_port_not_zero",
    "C68_old",
    "C68_starts",
    "C68_deploys",
    "C68_started",
    "C68_no_crash_refuted",
    "C68_crashes",
    "C68_failure_reported_refuted",
    "C68_failure_reported_partial",
    "C68_old_deployed_refuted"
   ],
   "note": "Refuted: C68_port_refuted, C68_no_crash_refuted (C68_crashes: it always does), C68_failure_reported_refuted (C68_failure_reported_partial: when it is reported), C68_old_deployed_refuted."
  },
  {
   "property": "C69",
   "status": "partial",
   "theorems": [
    "C69_prefix",
    "C69_all_heard_refuted",
    "C69_all_heard_partial",
    "C69_exit",
    "C69_quiet_after_end",
    "C69_terminates_partial",
    "C69_terminates_refuted",
    "C69_no_deadlock"
   ],
   "note": "Refuted: C69_all_heard_refuted (C69_all_heard_partial), C69_terminates_refuted (C69_terminates_partial, C69_no_deadlock). Windows calls are modelled by their documentation: WaitForMultipleObjects returns the lowest signalled index; a read returns 1 to 4095 available bytes; failures of the system calls are not modelled."
  },
  {
   "property": "C70",
   "status": "partial",
   "theorems": [
    "C70_lists_tree",
    "C70_open_fails",
    "C70_stays_ended",
    "C70_listing_complete",
    "C70_listing_flat",
    "C70_entry_accessors",
    "C70_symlink_flag_refuted",
    "C70_symlink_refuted",
    "C70_socket_refuted",
    "C70_untyped_skipped",
    "C70_backslash_refuted"
   ],
   "note": "Refuted: C70_symlink_flag_refuted, C70_symlink_refuted, C70_socket_refuted, C70_untyped_skipped (a theorem about the failure), C70_backslash_refuted. The positive theorems hold for trees of regular files, directories and kinds that share no bit with them (fifos, character devices). Changes of the directory during the iteration are not modelled. closedir is assumed not to set errno."
  },
  {
   "property": "C71",
   "status": "partial",
   "theorems": [
    "C71_config",
    "C71_totals",
    "C71_unique",
    "C71_status",
    "C71_no_infinite_run",
    "C71_no_deadlock",
    "C71_progress_consistent",
    "C71_unique_le_total",
    "C71_null_hash",
    "C71_no_threads_refuted",
    "C71_cuts_exist"
   ],
   "note": "Refuted: C71_no_threads_refuted. Assumes failing system calls set errno, avg_chunk_size < 2^63 and max_chunk_size_step <= 2^63 (shifts wrap above). The hash function is any function; statements about unique bytes assume no collision among the chunks of the run. Counters are unbounded. What listing a directory yields is an oracle here (C70). done_ and the progress thread are not modelled."
  },
  {
   "property": "C72",
   "status": "partial",
   "theorems": [
    "C72_bucket",
    "C72_show",
    "C72_results_partial",
    "C72_default_sizes",
    "C72_indexer_counts",
    "C72_results_min_refuted",
    "C72_results_max_refuted",
    "C72_results_empty_refuted"
   ],
   "note": "Refuted: C72_results_min_refuted, C72_results_max_refuted, C72_results_empty_refuted (C72_results_partial, C72_default_sizes). The table theorem asks for a class in use of at most 2^31 (the code starts its minimum there). The assert in ChunkSizeBuckets is the boolean found_all. Fractions are numerators; text output is not modelled."
  },
  {
   "property": "C73",
   "status": "partial",
   "theorems": [
    "C73_search_calls",
    "C73_add_files_exact",
    "C73_missing_directory_is_empty",
    "C73_directory_error_reported",
    "C73_entry_error_reported",
    "C73_find_files_dest_wins",
    "C73_sync_search_agrees",
    "C73_destination_one_slash",
    "C73_symlinked_destination_refuted",
    "C73_file_as_destination_refuted",
    "C73_two_slashes_refuted",
    "C73_vanished_directory_refuted",
    "C73_expansion_refuted"
   ],
   "note": "Refuted: C73_symlinked_destination_refuted, C73_file_as_destination_refuted, C73_two_slashes_refuted, C73_vanished_directory_refuted, C73_expansion_refuted. glibc's nftw is modelled from io/ftw.c; wordexp is an oracle. C73_sync_search_agrees links the search to the one used in the model of the whole sync (C15 to C17). Filter rules are restricted to those for which the filter does not read out of bounds (C35)."
  },
  {
   "property": "C74",
   "status": "partial",
   "theorems": [
    "C74_search",
    "C74_full_source",
    "C74_base_is_prefix",
    "C74_non_relative_base",
    "C74_relative_base",
    "C74_source_to_files",
    "C74_refuted_once",
    "C74_refuted_drive_relative",
    "C74_refuted_doubled_separator"
   ],
   "note": "Refuted: C74_refuted_once, C74_refuted_drive_relative, C74_refuted_doubled_separator. Pattern matching of FindFirstFileEx is an arbitrary function for which * matches everything and the empty pattern nothing. UTF-16 conversion and I/O errors of the search (only logged by the code) are left out. Paths with a drive letter but no root (C:file) are excluded by 'rooted', since they are refuted."
  },
  {
   "property": "C75",
   "status": "partial",
   "theorems": [
    "C75_settled",
    "C75_empty_when_missing",
    "C75_heals",
    "C75_healing_run",
    "C75_no_lost_wakeup",
    "C75_comes_to_rest",
    "C75_settles",
    "C75_rest_is_quiet",
    "C75_refuted_gap",
    "C75_refuted_temporary_file",
    "C75_refuted_short_visit",
    "C75_refuted_failed_scan"
   ],
   "note": "Refuted: C75_refuted_gap, C75_refuted_temporary_file, C75_refuted_short_visit, C75_refuted_failed_scan. Paths are independent of each other here, and Update/UpdateAll store the value a path has unless it changes meanwhile (C30, C50 prove this for the updater, C52 has the tree structure for the case without removal). Timers are left out: every step may happen at any time."
  },
  {
   "property": "C76",
   "status": "partial",
   "theorems": [
    "C76_quiet",
    "C76_every_file_has_its_line",
    "C76_total_complete",
    "C76_lasting_total_is_complete",
    "C76_total_never_goes_back",
    "C76_rate",
    "C76_every_deletion_has_its_line",
    "C76_found",
    "C76_line_width",
    "C76_path_shown",
    "C76_line_replaced",
    "C76_size_shown",
    "C76_time_shown",
    "C76_refuted_empty_files",
    "C76_refuted_once",
    "C76_refuted_dry_run",
    "C76_refuted_json_line"
   ],
   "note": "Refuted: C76_refuted_empty_files, C76_refuted_once, C76_refuted_dry_run, C76_refuted_json_line. Fractions are exact here; the program divides doubles, which for totals below 2^53 is 1 exactly if the fraction is. Speeds and estimated times are left out; counters do not wrap around."
  },
  {
   "property": "C77",
   "status": "partial",
   "theorems": [
    "C77_defined",
    "C77_otherwise_undefined",
    "C77_recent",
    "C77_all_shown",
    "C77_totals",
    "C77_thread_numbers",
    "C77_colours_differ",
    "C77_chunks",
    "C77_as_many_as_registered",
    "C77_groups",
    "C77_print",
    "C77_narrow",
    "C77_line_width",
    "C77_one_character_per_chunk",
    "C77_dash",
    "C77_refuted_lru",
    "C77_refuted_name_size",
    "C77_name_size",
    "C77_refuted_assert",
    "C77_refuted_registered_again"
   ],
   "note": "Refuted: C77_refuted_lru, C77_refuted_name_size, C77_refuted_assert, C77_refuted_registered_again. Bandwidths are left out; counters do not wrap around; cells are bytes."
  },
  {
   "property": "C78",
   "status": "partial",
   "theorems": [
    "C78_empty_buffer",
    "C78_read",
    "C78_any_handler",
    "C78_shared_file",
    "C78_ends",
    "C78_write",
    "C78_write_all",
    "C78_copy",
    "C78_write_file",
    "C78_write_file_prefix",
    "C78_read_file",
    "C78_read_file_sound",
    "C78_read_file_missing",
    "C78_read_range",
    "C78_read_range_error",
    "C78_refuted_write_file_ok",
    "C78_refuted_closed",
    "C78_refuted_no_crash",
    "C78_refuted_offset",
    "C78_refuted_pipe",
    "C78_refuted_missing_range"
   ],
   "note": "Refuted: C78_refuted_write_file_ok, C78_refuted_closed, C78_refuted_no_crash, C78_refuted_offset, C78_refuted_pipe, C78_refuted_missing_range. The C library's FILE is a content, a position, a flag and a fault; written bytes pass a buffer that is flushed as a whole."
  },
  {
   "property": "C79",
   "status": "partial",
   "theorems": [
    "C79_url",
    "C79_url_error",
    "C79_lower",
    "C79_url_case",
    "C79_url_round_trip",
    "C79_scp",
    "C79_scp_none",
    "C79_scp_program",
    "C79_detect",
    "C79_guess",
    "C79_refuted_scp_directory",
    "C79_refuted_host",
    "C79_refuted_port",
    "C79_refuted_uname_is_decisive"
   ],
   "note": "Refuted: C79_refuted_scp_directory, C79_refuted_host, C79_refuted_port, C79_refuted_uname_is_decisive. The regular expression is matched greedily without backtracking in the model; C79_url and C79_url_error show that it is the preferred match of the declarative grammar. The drive prefix is the one of C74."
  },
  {
   "property": "C80",
   "status": "partial",
   "theorems": [
    "C80_vectors",
    "C80_capacity",
    "C80_equal",
    "C80_equal_sizes",
    "C80_ownership",
    "C80_no_leak",
    "C80_stable",
    "C80_allocations",
    "C80_refuted_out_of_memory",
    "C80_refuted_huge",
    "C80_refuted_zeroed"
   ],
   "note": "Refuted: C80_refuted_out_of_memory, C80_refuted_huge, C80_refuted_zeroed. realloc always moves the block in the model; memcpy and memcmp of no bytes are taken to be defined for null pointers."
  }
 ]
}