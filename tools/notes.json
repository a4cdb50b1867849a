{
 "C07": [
  "",
  "In-order exactly-once delivery and progress proved for every schedule. The claim that Flush returning means success is refuted: FlushOutgoingQueue returns void and returns after a send error."
 ],
 "C08": [
  "",
  "Bounds and 'receive error is reported last' proved; the symmetric claim for send errors is refuted (received packets are withheld after a send error)."
 ],
 "C11": [
  "",
  "Proved when offset+size does not wrap; refuted in general: chunk_offset + chunk_size wraps in uint64, exact condition in C11_out_of_bounds_iff."
 ],
 "C35": [
  "",
  "Matching equals the glob specification whenever no over-read happens; memory safety is refuted (pattern 'ab*c' on 'ab' reads past the terminator)."
 ],
 "C36": [
  "",
  "Exact removal proved; idempotence refuted."
 ],
 "C37": [
  "",
  "Exact modulo 2^64 and exact when no overflow; overflow rejection refuted (16384P parses to 0)."
 ],
 "C38": [
  "",
  "Totality refuted: see C38_total_refuted."
 ],
 "C19": [
  "",
  "All laws proved for every string (Linux branch). 'No helper doubles a separator' is refuted when the appended part starts with one (Join(\"a\",\"/b\") = \"a//b\"); EnsureEndsWithPathSeparator turns the empty path into the root."
 ],
 "C22": [
  "",
  "Proved for every history without failed writes (target reached, least recently used first, no more than needed, nothing under the limit). Refuted after a failed Put: the truncated file it leaves is not counted."
 ],
 "C23": [
  "",
  "Refuted in general (overwriting Put counts twice, Remove does not subtract). Proved: exact after every scan, never below the stored bytes once scanned, exact while only new ids are put."
 ],
 "C32": [
  "",
  "Prune of the disk store keeps exactly the given ids (C21_behaves_like_a_map); the ids UpdateAll passes include everything the stored manifest refers to if no task failed (chunk lists: of files all of whose lists can be read). Refuted: after a failed scan followed by a successful last task the lists of the failed directory are pruned; and if the cache directory holds the same id at another directory depth."
 ],
 "C24": [
  "",
  "List reads are proved for all schedules, failures and truncated cache entries. Reads of a single chunk are exact only with an intact cache; with a truncated cache entry they return a prefix as success (refuted). GrpcReader's range Get has offset and size swapped (refuted)."
 ],
 "C27": [
  "",
  "Splitting is proved correct and bounded; refuted is that it can be repeated: the size of the list references is not counted, so that a file can exceed the limit after splitting and the next pass over it makes Flush fail."
 ],
 "C43": [
  "",
  "What is found is right under every interleaving and listing is complete; not-found is right only without concurrent lookups: a race makes Lookup miss an existing name (refuted)."
 ],
 "C29": [
  "",
  "Proved: if the lists the flush writes are unshared (separate) the manifest read back from the store has the same tree, later changes work on the flushed tree, and lists stay within the size limit. C29_equal_directories_refuted shows that the condition is needed: two directories with equal contents get the same content id, share one loaded list, and changing one changes both."
 ],
 "C30": [
  "",
  "Proved: the comparison yields exactly the differences, and UpdateAll ends with the stored manifest equal to the source for every old manifest, interleaving, prioritization and intermediate flush, provided no task failed, a file with the same time and size is unchanged (trustworthy), the source does not change while read, and flushed lists are not shared (separate, cf. C29). Refuted without: a file whose chunk list is lost is kept empty; chunks of a deleted directory stay in the FileChunkMap."
 ],
 "C31": [
  "",
  "Proved: every run has a bounded number of steps for any failures and schedules (sources of bounded width and depth), the loop always goes on unless it waits without tasks, and the only ways to wait without tasks are identified. Refuted: such a wait (a hang) is reachable when the flush deadline passes between the two calls of WantManifestFlushed."
 ],
 "C18": [
  "",
  "Proved for every schedule and every queue capacity, for all option combinations, under the condition that every changed file can be synced without circular wait; that condition is proved for basis files up to 700 MB. Refuted without it: for every capacity there is a changed file with which no run finishes (signatures are all sent before the patch task is queued)."
 ],
 "C16": [
  "",
  "The full claim is refuted: between remove() and rename() no file of that name exists, and --whole-file truncates in place. Proved for syncs without --whole-file: at every moment the old file, the complete new file, or no file and the complete new contents in the temporary file next to it."
 ],
 "C17": [
  "",
  "Proved for every schedule if no client path is the name of a temporary file; refuted without that (an unrelated file X.__cdc_rsync_temp__ of the destination, or a client's file of that name, is destroyed by a successful sync). Also proved: every sync ends, and without conflicts (no_conflicts) no sync fails."
 ],
 "C45": [
  "",
  "Proved for every history whose manifests have unique names and indirect asset lists at the root only. Refuted for large directories below the root: updating such a directory frees the list that holds its children's protos before their update tasks read them (use after free)."
 ],
 "C46": [
  "",
  "Proved for the same histories, exactly if no asset list is missing while a manifest is set (otherwise inodes may become stale). Refuted for a lookup that had to wait: the name pointer is kept without a copy, so it is answered for whatever name the buffer holds later."
 ],
 "C47": [
  "",
  "The accounting (answered exactly once or waiting) is proved for every history. That nothing waits once the manifest is complete is proved for the supported manifests only (see C45)."
 ],
 "C48": [
  "",
  "Proved for changes by the last manifest. Refuted in general: a further manifest that does not change the file resets the mark, and the pages of the first version stay cached."
 ],
 "C50": [
  "",
  "C50_incremental_update is the property; the _refuted theorems show changes that the watcher's operations do not tell: a directory that is moved in (its contents have no notification), a directory renamed away and re-created (stale children), and a FileChunkMap that keeps deleted nested files because Remove gets a path with backslashes."
 ],
 "C51": [
  "",
  "Proved as stated; C51_lost_deletion_refuted shows that the proviso is needed: removed, added, removed again leaves no trace although the file existed before."
 ],
 "C52": [
  "",
  "Holds for every history; lost changes are the exception. C52_lost_deletion_refuted and C52_failed_update_refuted show that they happen: after one failed Update the empty default manifest is stored and everything unchanged stays missing. Re-creation of the watched directory and buffer overflows (full rescan) are in C75."
 ],
 "C53": [
  "",
  "The readers (Microsoft's C runtime rules, double quotes and tilde of a POSIX shell) are specified separately. C53_expansion_refuted: $ and ` are not quoted, so the remote shell expands them. The end anchor of the first regular expression is taken to match at the end of the string only (true without newlines)."
 ],
 "C54": [
  "",
  "Sound and complete: C54_parse for everything the relation `written` covers, C54_understood_or_rejected for every other command line. C54_verbose_refuted: --verbose (documented) is rejected; C54_flag_value_refuted: --recursive=false turns recursion on. atoi is a parameter. Warnings and messages are not modelled."
 ],
 "C55": [
  "",
  "For every codec satisfying the record `laws` (zstd's streaming contract; a toy instance is given). C55_packets needs that no received piece spans the end of compressed data; C55_overread_refuted shows that the receiver fails otherwise, which the client's protocol does not exclude. C55_error_sticky and C55_calls_return hold once the constructor has returned; C55_lost_error_hang_refuted: the constructor overwrites an earlier error of its thread."
 ],
 "C56": [
  "",
  "C56_no_idle_refuted, C56_dead_directory_refuted, C56_dead_after_stop_refuted: a failed start leaves a directory with an updater and server but no session; no stop removes it (C56_idle_survives_stop), and once its manifest build has failed every later start of that directory fails until the service is restarted."
 ],
 "C57": [
  "",
  "Refuted: C57_stale_ack_refuted (acknowledgements of an earlier session of the instance count for a restarted one), C57_change_back_refuted (change and change back: OK while the client serves the state in between), C57_retry_refuted (a client that failed to fetch a manifest is never told again), C57_handlers_end_refuted (the server call of a vanished client lasts until Shutdown)."
 ],
 "C58": [
  "",
  "Refuted: C58_taken_back_refuted (the second InterlockedCompareExchange64 has exchange and comparand swapped, so a port found in use stays marked and a held port is handed out although a port nobody holds is unused), C58_all_held_refuted (with all ports marked a held port is handed out again, even to its holder), C58_netstat_refuted (on Windows listeners on 0.0.0.0 are not seen; port 44 counts as used because of 443)."
 ],
 "C59": [
  "",
  ""
 ],
 "C60": [
  "",
  "The error case is refuted: FileOpenTask::ReleaseFile and ~FileOpenTask dereference a StatusOr that holds an error, which aborts; the clients' 'Failed to open file' branch is never reached."
 ],
 "C61": [
  "",
  "Verification of changed files is refuted (C61_verified_refuted, C61_truncated_refuted): ReadFromFile ignores the number of bytes read and neither side compares the data with the id."
 ],
 "C62": [
  "",
  "That 'stop *' ends the sessions of the Stadia use case is refuted (C62_stop_all_refuted)."
 ],
 "C63": [
  "",
  "Two refuted parts: C63_max_len_refuted, C63_backslash_refuted."
 ],
 "C64": [
  "",
  "Two refuted parts (C64_client_send_refuted, C64_client_receive_error_loses_refuted); C64_client_send_partial: the client's Send is right if send() accepts everything in one call."
 ],
 "C65": [
  "",
  "Three refuted parts: C65_check_complete_refuted, C65_check_symmetric_refuted, C65_windows_2038_refuted; C65_check_complete_partial gives the cases in which up-to-date servers pass."
 ],
 "C66": [
  "",
  "Refuted parts: C66_message_refuted, C66_second_attempt_refuted; C66_second_attempt_partial says when a second attempt is right. C66_rejection_noticed_refuted; C66_rejected_waits says what happens instead."
 ],
 "C67": [
  "",
  "Refuted part: C67_fuse_atomic_refuted. sftp is modelled by what its commands mkdir, cd, put -p, chmod and rename do (rename replaces an existing file atomically, as posix-rename@openssh.com does; a server without that extension would fail the rename instead)."
 ],
 "C68": [
  "",
  "Refuted: C68_port_refuted, C68_no_crash_refuted (C68_crashes: it always does), C68_failure_reported_refuted (C68_failure_reported_partial: when it is reported), C68_old_deployed_refuted."
 ],
 "C69": [
  "",
  "Refuted: C69_all_heard_refuted (C69_all_heard_partial), C69_terminates_refuted (C69_terminates_partial, C69_no_deadlock). Windows calls are modelled by their documentation: WaitForMultipleObjects returns the lowest signalled index; a read returns 1 to 4095 available bytes; failures of the system calls are not modelled."
 ],
 "C70": [
  "",
  "Refuted: C70_symlink_flag_refuted, C70_symlink_refuted, C70_socket_refuted, C70_untyped_skipped (a theorem about the failure), C70_backslash_refuted. The positive theorems hold for trees of regular files, directories and kinds that share no bit with them (fifos, character devices). Changes of the directory during the iteration are not modelled. closedir is assumed not to set errno."
 ],
 "C71": [
  "",
  "Refuted: C71_no_threads_refuted. Assumes failing system calls set errno, avg_chunk_size < 2^63 and max_chunk_size_step <= 2^63 (shifts wrap above). The hash function is any function; statements about unique bytes assume no collision among the chunks of the run. Counters are unbounded. What listing a directory yields is an oracle here (C70). done_ and the progress thread are not modelled."
 ],
 "C72": [
  "",
  "Refuted: C72_results_min_refuted, C72_results_max_refuted, C72_results_empty_refuted (C72_results_partial, C72_default_sizes). The table theorem asks for a class in use of at most 2^31 (the code starts its minimum there). The assert in ChunkSizeBuckets is the boolean found_all. Fractions are numerators; text output is not modelled."
 ],
 "C73": [
  "",
  "Refuted: C73_symlinked_destination_refuted, C73_file_as_destination_refuted, C73_two_slashes_refuted, C73_vanished_directory_refuted, C73_expansion_refuted. glibc's nftw is modelled from io/ftw.c; wordexp is an oracle. C73_sync_search_agrees links the search to the one used in the model of the whole sync (C15 to C17). Filter rules are restricted to those for which the filter does not read out of bounds (C35)."
 ],
 "C74": [
  "",
  "Refuted: C74_refuted_once, C74_refuted_drive_relative, C74_refuted_doubled_separator. Pattern matching of FindFirstFileEx is an arbitrary function for which * matches everything and the empty pattern nothing. UTF-16 conversion and I/O errors of the search (only logged by the code) are left out. Paths with a drive letter but no root (C:file) are excluded by 'rooted', since they are refuted."
 ],
 "C75": [
  "",
  "Refuted: C75_refuted_gap, C75_refuted_temporary_file, C75_refuted_short_visit, C75_refuted_failed_scan. Paths are independent of each other here, and Update/UpdateAll store the value a path has unless it changes meanwhile (C30, C50 prove this for the updater, C52 has the tree structure for the case without removal). Timers are left out: every step may happen at any time."
 ],
 "C76": [
  "",
  "Refuted: C76_refuted_empty_files, C76_refuted_once, C76_refuted_dry_run, C76_refuted_json_line. Fractions are exact here; the program divides doubles, which for totals below 2^53 is 1 exactly if the fraction is. Speeds and estimated times are left out; counters do not wrap around."
 ],
 "C77": [
  "",
  "Refuted: C77_refuted_lru, C77_refuted_name_size, C77_refuted_assert, C77_refuted_registered_again. Bandwidths are left out; counters do not wrap around; cells are bytes."
 ],
 "C78": [
  "",
  "Refuted: C78_refuted_write_file_ok, C78_refuted_closed, C78_refuted_no_crash, C78_refuted_offset, C78_refuted_pipe, C78_refuted_missing_range. The C library's FILE is a content, a position, a flag and a fault; written bytes pass a buffer that is flushed as a whole."
 ],
 "C79": [
  "",
  "Refuted: C79_refuted_scp_directory, C79_refuted_host, C79_refuted_port, C79_refuted_uname_is_decisive. The regular expression is matched greedily without backtracking in the model; C79_url and C79_url_error show that it is the preferred match of the declarative grammar. The drive prefix is the one of C74."
 ],
 "C80": [
  "",
  "Refuted: C80_refuted_out_of_memory, C80_refuted_huge, C80_refuted_zeroed. realloc always moves the block in the model; memcpy and memcmp of no bytes are taken to be defined for null pointers."
 ]
}