# Formal model of google/cdc-file-transfer in Rocq (Coq 8.16.1)

The repository's C++ is read as text; every definition of the model cites the
file and lines it models.  Nothing here is extracted from or linked to the C++.

## Layout

* `rocq/theories/Model*.v`  – executable models (no proofs)
* `rocq/theories/Spec*.v`   – small independent specifications used in the statements
* `rocq/theories/Proof*.v`  – lemmas and proofs
* `rocq/theories/Prop*.v`   – the property theorems only (`Cxx_...`), each closed by
  a lemma, with non-vacuity `Example`s beside them (`Prop*Ex.v` where the examples are big)
* `rocq/theories/{Base,ListX,Str}.v` – byte strings, finite lists, 64-bit arithmetic
* `tools/manifest.py`, `tools/notes.json` – regenerate `MANIFEST.json`
* `tools/assumptions.py` – regenerates the last section of this file
* `seeded/LOG.jsonl` – wrong programs the theorems were tested against

Naming: `_partial` = only part of the property is proved (the note in MANIFEST.json says
what is missing), `_refuted` = the property, as stated, is false of the code and the theorem
is the counterexample (usually next to a theorem with the exact extra condition).

## Per property: what is modelled, how it is proved

| id | modelled | proof |
|----|----------|-------|
| C01-C05 | ChunkerTmpl: constructor, Process, Finalize, FindChunkBoundary; hash width, gear table and config are parameters; hash arithmetic mod 2^w | induction on the data; `feed` invariant: emitted ++ buffered = fed; canonical chunking function of the whole input; mask/leading-zeros lemma |
| C06 | CreateHeader, send and receive of one packet, byte stream | arithmetic on base 256; induction on packets |
| C07,C08 | pump as a labelled transition system: caller, sender, receiver threads, socket | inductive invariant over all schedules |
| C09-C11, C41, C42 | CreateAndSendSignature, ServerChunkReceiver, PatchSender, ReceiveDiffAndPatch; hash is a section variable | simulation: pending + emitted commands denote the bytes read so far; schedule = arbitrary numbers of signature messages visible at each chunk |
| C12,C13 | file_diff::Generate, AdjustToFlagsAndGetStats | sorted two-list merge against a membership specification |
| C14 | the batchers and their receivers | induction on the list |
| C15-C17 | file system as finite map; all server actions of a sync as an LTS of file system operations, pools interleaved; a crash is any reachable state | invariants over all schedules; refutation by witness where the code violates the claim |
| C18 | Client and server as message programs over two bounded pumps and a wire | progress measure: no reachable state is stuck; refuted for huge basis files |
| C19 | path helpers (non-Windows branch) on byte strings | induction on strings |
| C20 | ContentId | finite sweep on nibbles, induction |
| C21-C23, C32 | DiskDataStore over a file-system map | refinement to a map, LRU specification |
| C24 | DataProvider as a nondeterministic computation with interfering threads and failures | case analysis per chunk against a `truth` map |
| C25 | lock programs of DataProvider and mutex semantics | lock-order argument over all schedules |
| C26,C27,C43 | Asset::Read, Asset::Lookup (threads), ManifestBuilder::EnforceFileProtoSize | slices of concatenations; interleavings |
| C28-C29 | ManifestBuilder tree operations, Flush and reading back | refinement to a path map; refutation by witness (aliasing) |
| C30-C32, C44 | ManifestUpdater: comparison, tasks, queue, main loop as a machine whose steps interleave tasks and main thread | invariant relating manifest, pending tasks and source; termination measure; refutation by witness |
| C33,C34 | FileChunkMap, PendingAssetsQueue | refinement, permutation |
| C35 | PathFilter with explicit memory (reads past the terminator are an outcome) | glob specification; refutation of memory safety |
| C36-C38 | ansi filter, jedec sizes, port ranges | induction on strings |
| C39,C40 | Threadpool, Semaphore as LTS | inductive invariants |
| C45-C49 | FUSE callbacks, inode table, SetManifest with its update tasks, explicit memory (protos inside allocations, inodes as objects); histories of kernel requests and manifests | inductive invariant over histories: the inode table, the kernel's reference counts, the current manifest and the live allocations fit together |
| C50 | Update with operations (non-recursive) on the machine of C30-C32 | invariant: pending files are marked in progress and every wanted path is pending or right; applying deletes/updates by induction over the list |
| C51 | ProcessDirChanges' merging, GetFileOperations | induction over the story of one name |
| C52 | transition system: user changes, watcher thread, callback, runner loop, Update, DefaultManifestId | inductive invariant over histories (uses C50, C51); a measure bounds the steps |
| C53 | QuoteForWindows, QuoteForSsh, ScpToSftpCommand as functions on byte strings | readers of Windows command lines and shell words as specification; round trips by induction over the string |
| C54 | params.cc as functions on argument lists; files, directories, atoi, environment as parameters | grammar of spellings and meaning of items as specification; induction over the grammar; completeness by case analysis of every option name |
| C55 | ZstdStream as a transition system (caller, compressor thread, time-outs), UnzstdStream::Read and ThreadDoReceive as functions on the pieces Receive returns; zstd as a record of its contract | invariant over executions, measure for termination, induction over frames and packets; toy codec as instance and for refutations |
| C56 | SessionManager and the session tables of MultiSession as functions from table to answer and table; the outcome of every environment action is an argument | invariant over histories (one directory per instance), per-entry step relation; counterexamples for the idle and the dead directory |
| C57 | ConfigStreamServiceImpl, the reader thread of the client and the acknowledgement as a transition system with any number of connections | inductive invariant over traces, termination measures, concrete counterexample runs |
| C58 | ReservePort/ReleasePort as a transition system with one step per shared-memory access; FindAvailablePorts on strings | inductive invariant relating the memory and each call to the trace; measure for termination; concrete runs |
| C59 | NextEntry pass by pass with node addresses from an arbitrary allocator | mutual induction over the traversal with a stack invariant (addresses distinct, cached path right whenever the cached address is the top's) |
| C60 | transition system of the caller, the pool's queue and threads, the completed queue and the sorted map | invariants by induction over runs (permutation of all indices, phase invariant), measure for the waiting call |
| C61 | GetContent with a world (chunk map, files, store) per chunk that may change between chunks; both client calls; as the reader of the data provider of C24 | induction over the request; C33 for what the chunk map returns; C24 for the composition; explicit computation for the refutation |
| C62 | the two commands, the service's StartSession and StopSession, and the three parsers, on the session manager of C56 | induction over strings; C56 and C35 for the histories and the wildcards; explicit computation for the refutation |
| C63 | GetCacheDir, GetCachePath, Utf8CodePointLen with out-of-bounds reads and failing assertions as UB; GetFullPath and blake3 are parameters | case analysis on leading bytes (all 256 values checked by computation, then induction over strings); invariant of the shortening loop; C20 for hex; C56's session table for the refutation |
| C64 | Send and Receive of both sockets over a stream and a list of the operating system's choices (how many bytes, not ready, failure) | induction over the list of choices; progress by counting transfers; end to end by induction over messages |
| C65 | GameletComponent, server main up to Run, Run of the client over arbitrary start, detect, deploy, sync and stop steps; a concrete working device | round trip by induction over components and C37's decimal lemmas; all shapes of a run by case analysis; convergence by computing a run of the device symbolically |
| C66 | HandleServerOutput on byte strings with find/rfind/atoi as in C++; StartServer's wait as a function of the process's events | invariant over pieces (state = function of the concatenation); monotonicity of the search under appending; character arguments for the first occurrence |
| C67 | both scripts as command lists; sftp batch semantics on a remote tree, stopping at the first error; interruption after any command or inside a put | induction over the directory part with an invariant on the way to the directory; case analysis of the four final commands |
| C68 | HandleFuseStdout and ParsePort on byte strings; Start, Stop and the destruction of a failed session as functions of what the device does in each attempt | invariant over pieces; character arguments for the only possible occurrence of the key words; case analysis of Start |
| C69 | labelled transition system of child, pipes and watching thread | conservation of text per step; invariants by induction on runs; a measure for Terminate |
| C70 | the iterator's stack of open directories over a file system oracle; a tree type as specification | relation between stack and remaining tree by induction on the tree |
| C71 | labelled transition system, one critical section per step | weighted-sum invariant over all workers by induction on runs; measure for termination |
| C72 | the loops with wrap-around, over the indexer's map | successor structure of the classes; double counting |
| C73 | directory trees as reported by lstat/opendir/readdir; nftw with its callback; AddFiles, FindFiles, the preparation of the directories | induction on the tree: walk = list of calls; list of calls = paths of the tree |
| C74 | FindFirstFile/FindNextFile as directory trees; SearchFiles with its two passes; GetDrivePrefix, DirName, GetFullSource, GetBaseDir, FindAndSendFiles | induction on the tree: search = list of calls = paths of the tree; string lemmas for the base directory; composition with C14's model |
| C75 | labelled transition system: directory, handle, watcher thread stages, system's notification list, modified_files_, the two flags, running job, stored manifest | inductive invariant: every path is right, or told of, or about to be scanned, or overlooked; decreasing measure for termination; the invariant with the overlooked set emptied for healing |
| C76 | the tracker's record and its 12 public functions as a function from calls to printed lines (structured) with the arguments of Print; the formatting helpers on byte strings | induction over the calls with the timer, the sums and the mode as invariants; arithmetic |
| C77 | the printer's record and its operations on events; lines as lists of visible cells | induction over the events from the end; arithmetic of the groups n*m/w |
| C78 | fread/fwrite/fclose on a FILE; the loops with a handler that has state and may change the FILE | induction on fuel; uniqueness of cutting into pieces |
| C79 | functions on byte strings | maximal munch is the preferred match; induction over the string |
| C80 | buffers on a heap of blocks with explicit allocation, 64-bit sizes and undefined behaviour | refinement of vectors with an ownership invariant; induction over the history |

## Modelled code, and what is not

Modelled (function by function, lines cited at each definition):

* `fastcdc/fastcdc.h`
* `cdc_rsync/base/{message_pump,cdc_interface}.cc`
* `cdc_rsync/file_finder_and_sender.cc`, `cdc_rsync/cdc_rsync_client.cc` (conversation, batches)
* `cdc_rsync_server/{cdc_rsync_server,file_diff_generator,file_finder,file_deleter_and_sender}.cc`
* `common/{path (string helpers, Linux),path_filter,ansi_filter,port_range_parser,threadpool,semaphore}`
* `absl_helper/jedec_size_flag.cc`
* `data_store/{disk_data_store,mem_data_store,data_provider,data_store_reader,grpc_reader}.cc`
* `manifest/{content_id,manifest_builder,manifest_updater,file_chunk_map,pending_assets_queue}.cc`
* `cdc_fuse_fs/{asset,cdc_fuse_fs}.cc`
* `common/remote_util.cc` (quoting), `cdc_rsync/params.cc`
* `cdc_rsync/zstd_stream.cc`, `cdc_rsync_server/unzstd_stream.cc`
* `common/file_watcher_win.cc` (merging and thread), `cdc_stream/multi_session.cc` (runner loop, operations)
* `cdc_stream/session_manager.cc`, session table of `cdc_stream/multi_session.cc`
* `cdc_stream/grpc_asset_stream_server.cc` (ConfigStreamServiceImpl), `cdc_fuse_fs/config_stream_client.cc`
* `common/port_manager_win.cc` (PortManager; SharedMemory as atomic cells)
* `manifest/manifest_iterator.cc` (reading the manifest from a file is left out)
* `cdc_rsync/parallel_file_opener.cc`
* `AssetStreamServiceImpl` of `cdc_stream/grpc_asset_stream_server.cc` (without logging and SendCachedContentIds), `cdc_fuse_fs/asset_stream_client.cc` (gRPC itself is assumed to deliver requests and responses unchanged); a file is assumed not to change during the read of one chunk
* `ParseUserHostDir`, `ParseInstanceName`, `ParseValue`, the request handling of `LocalAssetsStreamManagerServiceImpl` (without metrics and `InitSsh`'s process), `StartCommand::Run` (without starting the service) and `StopCommand::Run`
* `MultiSession::GetCacheDir`, `GetCachePath`, `GetMultiSessionKey`, `Util::Utf8CodePointLen` (both platforms, "C" locale; `path::GetFullPath` is a parameter)
* `ServerSocket::Send/Receive`, `ClientSocket::Send/Receive` (system calls as choices; sizes below INT_MAX; connection set-up and shutdown not modelled)
* `GameletComponent`, `CdcRsyncClient::Run` (process and ssh behaviour as parameters), `CdcRsyncServer::CheckComponents`, cdc_rsync_server's `main` up to `Run`
* `CdcRsyncClient::HandleServerOutput`, the waiting part of `StartServer`, `SendErrorMessage`
* `ServerArch::GetDeploySftpCommands`, `RemoteToolsBinDir`, `CdcFuseManager::Deploy`
* `CdcFuseManager` (all functions except `IsHealthy`), `Session::Start`/`Stop`/destructor, the start part of `MultiSession::StartSession`
* `AsyncReader`, `MessagePumpThread`, `WinProcess::Terminate` (as a transition system)
* `DirectoryIterator`, `DirectoryEntry` (Linux types)
* `Indexer::Run`, `Indexer::Impl`, `Worker` except the progress thread
* `SizeBucket`, `ChunkSizeBuckets`, `ShowChunkSizes`, the distribution columns of `WriteResultsFile`, size flags of `main` (cdc_indexer)
* `SearchFilesLinux`, `FileFinder::AddFiles`, `CdcRsyncServer::FindFiles`, `ExpandPathVariables` (Linux)
* `FileFinderAndSender::FindAndSendFiles` with `GetFullSource`, `GetBaseDir`; `SearchFiles`, `SearchFilesWin`, `GetDrivePrefix`, `DirName` (Windows branches)
* `WatchDirChanges` (re-creation, missing directory), overflow handling of `ReadDirChanges`, `ClearModifiedFiles`, the rescan branch and the failure branches of `MultiSessionRunner::Run`
* `ProgressTracker` (all but the estimates), `ConsoleProgressPrinter::Print` and the formatting helpers of progress_tracker.cc
* `StatsPrinter` (all but bandwidths)
* `StreamReadFileContents`, `StreamWriteFileContents`, `ReadFile` (three), `WriteFile`
* `Url::Parse`, `ScpToSftpCommand`, `ServerArch` (guess, detection)
* `Buffer`

Not modelled: protobuf serialisation (messages are values; sizes of messages are parameters
where the code looks at them), blake3 (a parameter; collision freedom is a stated hypothesis
where it matters), zstd's compression (a parameter), sockets below "an ordered byte stream that may end",
gRPC, the operating system's file system beyond a map from paths to contents/metadata with
the stated failure behaviour, Windows-only branches except where said, SSH/process
start-up, logging and metrics, clock values (any value may be observed).

General simplifications: allocation never fails; `size_t` is 64 bits; where a counter cannot
wrap within the life of a process this is not modelled as wrapping (said at the definition);
std::mutex critical sections are atomic steps of the transition systems.

## Testing against wrong programs

`seeded/LOG.jsonl` has one line per edit of the model in a scratch copy: which definition,
what edit, which claim it breaks, which theorem or lemma failed to compile, and which theorem
was tightened when the edit survived.  Edits that are equivalent (or outside what a `_partial`
theorem covers) are logged with an empty list and say so.

## Findings about the code

Proved as `_refuted` theorems: see MANIFEST.json.  Found while modelling (read from the code,
not all of them have a theorem):

* Threadpool: `Wait()` hangs after `Shutdown()` with queued tasks; `GetCompletedTask` after `Shutdown` hangs.
* message pump: `ReceiveMessage` with the wrong type consumes the packet; Flush cannot report errors (C07).
* `CreateAndSendSignature` early return leaves hash tasks in `hash_pool_`; uint64 wrap-around in patch offsets (C11).
* `FileOpenTask` dereferences a non-OK StatusOr (parallel_file_opener.cc:42-46, 61-65).
* `CreateMissingDirs` with `--relative` non-recursive: existing non-empty directory treated as a file, RemoveFile fails.
* `FindFile`'s GetStats also succeeds for directories; FinalizeCopiedFileTask "just warns" about the exec bit but the status stays an error.
* `--existing --copy-dest`: a changed file whose basis is only in copy-dest fails to open when its directory is missing.
* `ReadFile` leaks the FILE on failure; `WriteFile` leaks it when fwrite fails and ignores fclose's result.
* `CreateSymlink`: is_dir branches swapped (path.cc:986-991); EnsureEndsWithPathSeparator turns the empty destination into "/".
* `SyncChangedFiles`: finalize_pool is destroyed before patch_pool on early return (cdc_rsync_server.cc:795-805).
* A client file X and X.__cdc_rsync_temp__ collide; an unrelated destination file of that name is destroyed (C17).
* `-r --relative --delete`: parent directories not sent by the client are extraneous on the server, non-empty, so the sync fails; filtered content inside an extraneous directory makes `--delete` fail.
* A huge basis file deadlocks client and server (C18); ReplaceFile has a window without the file, `--whole-file` truncates in place (C16).
* DiskDataStore: size_ double counts / is never decremented by Remove (C23), failed Put leaves an uncounted truncated file (C22), Prune confuses ids at other directory depths (C32).
* DataProvider: single-chunk Get returns a truncated cached chunk as success; `GrpcReader::Get(range)` swaps size and offset; prefetch-only lists fetch nothing; a batch Get fails entirely if any chunk is not found.
* Asset::Lookup race (C43); EnforceFileProtoSize second pass failure (C27); ManifestBuilder asset_lists_ aliasing (C29), iterator held across inserts (manifest_builder.cc:415-438), EnforceAssetListProtoSize can pop from an empty list.
* ManifestUpdater: hang (C31), status overwritten so that prune removes referenced chunks (C32), a file with unreadable chunk list is kept and not re-added, deleting a directory does not remove its files from FileChunkMap (C30), queue_ not cleared when Update returns early, flush_deadline_ persists.
* FUSE: use-after-free of child protos in indirect lists of non-root directories (C45), name pointer of a queued lookup kept without a copy (C46), the "updated" mark lost on a second manifest (C48), readdir bumps nlookup although the kernel does not count it, ForgetChild of an invalid inode leaks it, a transient fetch failure during SetManifest invalidates existing inodes, chmod reports success without effect, Access ORs permission classes and grants everything to gid 0.
* Streaming: a directory moved into the streamed one arrives without its contents, rename + mkdir leaves stale children (C50); remove-add-remove between two pick-ups loses the deletion (C51); a failed incremental Update stores the empty manifest, after which only changed files come back until the next full scan (C52).
* Remote commands: QuoteForSsh leaves $ and ` unquoted, so the remote shell expands them in file names (C53); Scp quotes its destination for Windows only.
* Command line: --verbose is documented but rejected (--verbosity is the name), --flag=value is accepted and ignores the value, `--exclude -x` needs the = form, `:dir` silently becomes the local directory `dir`, one-letter hosts are taken for drives (C54).
* Compression: a piece with the end of a frame and the next packet makes UnzstdStream fail; status_ is assigned by the constructor after the thread has started (C55).
* Session manager: a failed start leaves an idle MultiSession that nothing removes; once its (or any session-less) runner has failed, the directory cannot be streamed again before a service restart (C56).
* Manifest distribution: acknowledgements outlive the session, so WaitForManifestAck of a restarted session returns at once; a failed fetch in SetManifest is not retried until the manifest changes again; GetManifestId ignores failed writes, so the calls (threads) of vanished clients pile up until Shutdown (C57).
* PortManager::ReservePort: both attempts to restore the timestamp of a port that turned out to be in use call InterlockedCompareExchange64(ts_ptr, now, port_timestamp) instead of (ts_ptr, port_timestamp, now), so the port stays marked and a held port can be handed out while free ones exist; netstat filtering on Windows looks at 127.0.0.1 only and misses listeners on 0.0.0.0 (C58).
* C60: a file that cannot be opened (deleted since the search, or no permission) aborts cdc_rsync instead of producing the error message the caller has for it: `*fp_` on a non-OK `StatusOr` in `ReleaseFile` and in `~FileOpenTask` (parallel_file_opener.cc:42-47, 61-65).
* C61: data that no longer matches its content id is served, and poisons the cache: `ReadFromFile` (grpc_asset_stream_server.cc:100-120) ignores `read_size` (zero-filled data for a truncated file) and neither the server nor `DataProvider` compares the data with the id; the wrong data is stored in the persistent cache under that id and returned for ever, also for other files and sessions sharing the chunk.
* C62: `cdc_stream stop *` becomes the pattern `*:*` (stop_command.cc:72-75), which matches no session started with a gamelet name: ids of such sessions (service_impl.cc:204-224) contain no colon, and no argument of `stop` produces a pattern without one.
* C63: on Linux workstations `GetCacheDir` applies `path::ToUnix` (multi_session.cc:590), so that `/a/b` and a directory named `a\b` in `/` have the same key and `cdc_stream start` of the second streams the first; `GetCachePath` shortens only the last component, so its result exceeds `max_len` if the application data folder is long.
* C64: `ClientSocket::Send` (client_socket.cc:131-140) ignores a short count of `send()` and reports success, unlike `ServerSocket::Send`; `ClientSocket::Receive` answers `Partial read` with bytes_received = 0 after having consumed bytes.
* C65: `GameletComponent::operator==` (gamelet_component.cc:45-46) tests `build_version` twice instead of `other.build_version`, so it is not symmetric and contradicts its comment; `FromCommandLineArgs` reads size and time with `std::stol`, which throws on Windows servers (32-bit long) for times after 2038 or sizes from 2 GiB: the server aborts at every start, before and after deployment.
* C66: `StartServer` resets neither `server_listen_port_`, `server_output_` nor `is_server_error_` (cdc_rsync_client.cc:229-247); after an attempt whose server announced a port and then died with a redeployable exit code, the next attempt does not wait and uses the stale port. An error message containing 0x1e (e.g. in a file name) is cut at it and the rest printed as output.
* C67: `CdcFuseManager::Deploy` (cdc_fuse_manager.cc:67-96) uses `put` on the final names, unlike cdc_rsync's temporary file and rename: an interrupted deployment replaces a working cdc_fuse_fs by half of one.
* C66: errors of output handlers are only logged by the process pump (process_win.cc:230-234, 283-287), so `HandleServerOutput`'s 'Failed to find Port marker' never reaches the user; the start runs into its timeout.
* C68: (a) `CdcFuseManager::Start` ignores that the second `RunFuseProcess` may set needs_deploy again (cdc_fuse_manager.cc:139-146): fuse_process_ is then null and `WaitForFuseConnected` dereferences it, so a device on which cdc_fuse_fs cannot run (e.g. exit code 127) crashes the streaming service. (b) `Stop` (cdc_fuse_manager.cc:247-259) dereferences forwarding_process_ whenever fuse_process_ is set; after a failed start (e.g. ssh not found) it is null, and the destructor of the failed session calls `Stop`. (c) `ParsePort` takes the first `Port ` of the output although its comment says it searches backwards; a login message with `Port ` breaks or misdirects the forwarding.
* C69: `MessagePumpThread::ThreadWorkerMain` checks the process handle first (process_win.cc:441-495) and cancels pending reads on exit, so the last output of a child can be lost: the error message of a failing cdc_rsync_server (C66), or the 'not up-to-date' line of cdc_fuse_fs, after which the session fails to start instead of redeploying (C68).
* C70: dir_iter.cc:69-89, 248-281 tests `d_type & DT_REG` although the types are numbers, not bits: DT_LNK=10 contains DT_REG=8 (symlinks are indexed as files), DT_SOCK=12 and DT_BLK=6 contain DT_DIR=4 (opendir fails with ENOTDIR, the search stops and later files are missed). DT_UNKNOWN entries are skipped silently.
* C71: with num_threads 0 and hardware_concurrency() 0 (allowed by the standard) Run returns OK without reading anything (indexer.cc:127, 384-393). IndexFile uses the value of ferror() as an errno (indexer.cc:351-355), so every read error is reported as EPERM, 'permission denied'. Indexer::Stats() calls itself without end if Run has not been called.
* C72: `WriteResultsFile` starts its columns at min_chunk_size (main.cc:298-299) while SizeBucket starts its steps at the next power of two: for e.g. --min_chunk_size=3000 all columns are 0 (the assert fails in debug builds). For --max_chunk_size=5000 the last column counts its chunks twice. `stats.unique_bytes / stats.unique_chunks` (main.cc:347) divides by zero if there was nothing to index.
* C73: file_finder.cc:34 `dir.substr(base_dir.size())` assumes that nftw reports directories that start with base_dir, but nftw strips trailing slashes: a destination like `dir//` (or `~` for a user with home `/`) throws std::out_of_range through nftw as soon as the directory is not empty, and so does a destination that is a file. path.cc:699 FTW_PHYS also applies to the destination itself: if it is a symbolic link to a directory, the server sees an empty directory, so everything is sent again and --delete deletes nothing. path.cc:226 ignores wordexp's return value. path.cc:704: ENOENT is accepted for any directory of the tree, not only the start directory, so a vanishing subdirectory truncates the list.
* C74: path.cc:611-635: the second pass of a recursive search with a pattern also descends into directories that matched in the first pass, so that a file below k nested matching directories (e.g. a\*.d with nested .d directories) is reported 2^k times. file_finder_and_sender.cc:67: for a source like `C:file` the base directory `C:\` is longer than the directory found (empty), and :178 substr throws std::out_of_range. With doubled separators (`a\\b`) the base directory ends at the first one, so that the file is listed as `/b`: it never matches the server's `b`, and is sent again every time. path.cc:577: the find handle leaks when the handler or the recursion fails for a directory. A recursive pattern with ? but no * only descends into matching directories.
* C75: file_watcher_win.cc:218-229: dir_recreated_cb_ is called before ReadDirectoryChanges is armed; a file changed in between, after the scan the callback starts has passed it, is never streamed until it changes again (calling back after arming would close the gap). :458-465: a REMOVED for a path noted as ADDED erases the note, also when an update that is running has stored the path: a temporary file created before and deleted during a scan stays in the manifest. multi_session.cc:262-269, 276-280: after a failed update the manifest is empty until the next change; there is no retry, although the cause (a file locked by another process) is usually transient.
* C76: progress_tracker.cc:345 `finished &= GetTotalProgress() == 1`: if all files are empty the total is 0, the progress stays 0 and neither the 100 % line nor the line feed is ever printed; if the last k files are empty, the 100 % line is printed k+1 times. cdc_rsync_client.cc:634: in a dry run ReportCopyProgress is not called, so that the total stays at 0 %. :502 PrintJson passes width 0, so that on a terminal a short JSON object leaves the end of a longer one behind it. :133 StartFindFiles resets files_found_ but not dirs_found_, :280 StartDeleteFiles files_deleted_ but not dirs_deleted_. Widths count bytes, not characters.
* C77: stats_printer.h:118 calls recent_files_ an LRU list, but AddToRecentFiles leaves a known path where it is: the file in constant use drops out after 32 others. stats_printer.cc:115 shortens names to 30 characters and three dots, 33 > kMaxFilenameSize. RecordCachedChunk lacks the assertions its header promises, and the ones of RecordStreamedChunk come after AddToRecentFiles and vanish in release builds: an out-of-bounds write. InitFile resizes and keeps the states of a file's old chunks. :235 PrintPadded(std::move(line), line.size() + ...) depends on the order in which a compiler evaluates arguments: from left to right (clang) the size is read after the move and the line is cut off. The parameter |path| of GetShortFilename is copied for every file.
* C78: path.cc:976 WriteFile ignores fclose's result, so that a small file is reported written on a full disk and is empty (DiskDataStore::Put relies on it). :838, :886, :972 return without fclose: a FILE leaks at every failure. :840, :888 the message prints data.size() after data.clear(): always 0. :834, :879 ftell64's result is not checked: on Linux, ReadFile(directory) throws std::length_error, ReadFile(pipe) resizes to 2^64-1. common/buffer.cc:64 realloc's result is not checked and size + size / 2 may wrap around. :860 fseek's result is not checked: offsets from 2^63 on and pipes are read from the beginning.
* C79: url.cc:29 the host group takes user names, '[' of IPv6 addresses and fragments, the port is any string of digits, and a port that is not one is silently replaced by the default; tolower is called with negative chars for non-ASCII bytes (undefined). remote_util.cc:89 the first scp before a blank or dot is replaced, also one in a directory name.
* C80: buffer.cc:65 resize asks for 1.5 times the size and does not check the result of realloc: when memory is short the next write goes to a null pointer and the old block is lost; above 2/3 of the address space the capacity wraps around.

## Trusted base

* Coq's kernel (8.16.1), with `vm_compute` used in examples and refutations.
* What Print Assumptions lists for each theorem: see the last section (nothing).
* The faithfulness of the model, definition by definition (cited lines), and of the
  specifications in `Spec*.v`.

## Print Assumptions

Generated by `tools/assumptions.py`. 527 theorems, 527 of them "Closed under the global context" (no axiom, not even of the standard library).

Closed:


* `C01_chunks_concatenate_to_input`, `C01_finalized_stream_complete`
* `C02_emitted_chunks_final`, `C02_empty_block_ends_stream`, `C02_split_independent`
* `C03_chunk_sizes`
* `C04_boundaries_follow_rule`, `C04_gear_tables_total`, `C04_rule_is_deterministic`
* `C05_decision_is_local`, `C05_resynchronisation`
* `C06_incomplete_packet_not_decoded`, `C06_packet_roundtrip`, `C06_stream_roundtrip`, `C06_too_big_rejected`, `C06_unknown_type_rejected`
* `C07_blocked_caller_not_stuck`, `C07_delivery_possible`, `C07_flush_means_written`, `C07_flush_success_refuted`, `C07_in_order_exactly_once`, `C07_progress`
* `C08_incoming_bounded`, `C08_outgoing_bounded`, `C08_receive_error_last`, `C08_send_after_error`, `C08_send_error_last_refuted`
* `C09_signature_lists_every_chunk`
* `C10_only_terminator_empty`, `C10_patch_reproduces_source`, `C10_production`
* `C11_no_out_of_bounds_partial`, `C11_no_out_of_bounds_refuted`, `C11_out_of_bounds_iff`
* `C12_dirs_classified`, `C12_extraneous_files`, `C12_files_classified`, `C12_missing_dirs_in_order`, `C12_server_list_unique_first`
* `C13_flags`, `C13_no_path_lost_or_invented`, `C13_totals`
* `C14_batches_bounded`, `C14_deletion_list`, `C14_file_list`, `C14_index_denotes_same_file`, `C14_index_list`
* `C15_always_a_tree`, `C15_dry_run_changes_nothing`, `C15_extraneous_deleted`, `C15_hidden_contents_block_delete`, `C15_nothing_else_touched`, `C15_without_delete_nothing_lost`
* `C16_old_new_or_temp_partial`, `C16_old_or_new_at_every_moment_refuted`, `C16_whole_file_loses_old_contents_refuted`
* `C17_client_file_lost_refuted`, `C17_dirs_delivered`, `C17_existing_files_updated`, `C17_files_delivered`, `C17_no_temp_files_left`, `C17_sync_ends`, `C17_sync_succeeds`, `C17_unrelated_file_destroyed_refuted`
* `C18_moderate_files_sync`, `C18_production_limit`, `C18_sync_completes`, `C18_sync_completes_refuted`
* `C19_ensure_no_separator`, `C19_ensure_separator`, `C19_ensure_separator_empty_refuted`, `C19_fix_separators`, `C19_join_monoid`, `C19_join_no_double`, `C19_join_no_double_refuted`, `C19_join_shape`, `C19_join_split`, `C19_names_recombine`, `C19_names_rejoin`
* `C20_hex_accepts`, `C20_hex_injective`, `C20_hex_rejects`, `C20_hex_roundtrip`
* `C21_behaves_like_a_map`, `C21_directories_exist`, `C21_parses_to_chunk_ids`, `C21_path_parses_back`, `C21_paths_distinct`
* `C22_cleanup`, `C22_failed_put_refuted`, `C22_interrupted`, `C22_last_access`, `C22_nothing_under_limit`, `C22_unlimited`
* `C23_exact_after_scan_partial`, `C23_exact_fresh_puts_partial`, `C23_never_under_partial`, `C23_size_refuted`
* `C24_caches_true_chunks`, `C24_grpc_range_refuted`, `C24_list_bytes`, `C24_list_complete`, `C24_locks_cover`, `C24_not_found_is_true`, `C24_other_chunks_untouched`, `C24_prefetch_only_does_nothing`, `C24_range_bytes_partial`, `C24_range_prefix`, `C24_truncated_entry_is_replaced`, `C24_truncated_entry_refuted`, `C24_whole_chunk_partial`
* `C25_all_requests_complete`, `C25_every_schedule_ends`, `C25_lock_order`, `C25_mutual_exclusion`, `C25_no_deadlock`
* `C26_malformed_manifest`, `C26_plan_made`, `C26_read_exact`, `C26_read_through_provider`
* `C27_append_chunk`, `C27_second_flush_refuted`, `C27_split_bounds`, `C27_split_preserves_file`, `C27_split_preserves_refs`
* `C28_create`, `C28_create_effect`, `C28_delete`, `C28_history`, `C28_loaded_builder`, `C28_new_builder`, `C28_path_components`, `C28_path_separators`, `C28_path_single`
* `C29_changes_after_flush`, `C29_equal_directories_refuted`, `C29_flush_preserves`, `C29_flush_reports_ids`, `C29_list_limit`
* `C30_compare`, `C30_deleted_directory_chunks_refuted`, `C30_lost_chunk_list_refuted`, `C30_update_all`
* `C31_bounded_steps`, `C31_hang_only_partial`, `C31_hang_refuted`, `C31_progress`
* `C32_keep_referenced_partial`, `C32_prune_after_failure_refuted`, `C32_prune_foreign_depth_refuted`
* `C33_invisible_before_flush`, `C33_lookup`, `C33_size`, `C33_total_exact`
* `C34_dequeue_total`, `C34_flush_deadline`, `C34_nothing_lost`, `C34_two_fifo_queues`
* `C35_answer_is_glob`, `C35_double_star_empty_refuted`, `C35_first_rule_decides`, `C35_matching_path_accepted`, `C35_no_overread_partial`, `C35_no_overread_refuted`, `C35_spec_unambiguous`
* `C36_idempotent_refuted`, `C36_plain_text_unchanged`, `C36_removes_exactly_sequences`
* `C37_overflow_rejected_refuted`, `C37_print_parse`, `C37_size_exact_partial`, `C37_size_modulo_2_64`
* `C38_failure_is_zero`, `C38_range_roundtrip`, `C38_single_port`, `C38_success_is_valid_range`, `C38_total_refuted`
* `C39_at_most_once`, `C39_at_most_truthful`, `C39_completed_retrievable`, `C39_outstanding_exact`, `C39_shutdown`, `C39_single_worker_fifo`, `C39_wait`, `C39_wait_after_shutdown_hangs`, `C39_wait_returns`
* `C40_no_lost_wakeup`, `C40_semaphore_bound`
* `C41_executable_flag`
* `C42_only_new_chunks_sent`, `C42_unchanged_file_sends_nothing`
* `C43_found_is_child`, `C43_list_all`, `C43_lookup_exact_partial`, `C43_lookup_race_refuted`
* `C44_intermediate_manifest`
* `C45_freed_memory_is_used_with_large_directories_refuted`, `C45_no_freed_memory_is_used_partial`
* `C46_a_missing_list_can_only_make_inodes_stale_partial`, `C46_a_waiting_lookup_finds_another_file_refuted`, `C46_requests_are_answered_from_the_current_manifest_partial`
* `C47_each_request_is_answered_once_or_waits`, `C47_no_request_waits_for_a_complete_manifest_partial`, `C47_resumed_requests_are_answered_partial`
* `C48_an_old_version_stays_cached_refuted`, `C48_opening_a_changed_file_drops_the_cache_partial`, `C48_reading_a_changed_file_by_an_old_handle_fails_partial`
* `C49_paging_returns_every_entry_once`
* `C50_chunk_map_keeps_deleted_refuted`, `C50_incremental_update`, `C50_intermediate_manifest`, `C50_moved_directory_refuted`, `C50_never_hangs`, `C50_operations_apply`, `C50_replaced_directory_refuted`
* `C51_lost_deletion_refuted`, `C51_no_duplicates`, `C51_nothing_missed`, `C51_reported_is_true`
* `C52_can_go_on`, `C52_failed_update_refuted`, `C52_lost_deletion_refuted`, `C52_no_lost_wakeup`, `C52_only_pending_wrong`, `C52_settled`, `C52_settles`
* `C53_expansion_refuted`, `C53_host_and_path`, `C53_scp_to_sftp`, `C53_ssh_arguments`, `C53_windows_arguments`
* `C54_flag_value_refuted`, `C54_parse`, `C54_understood_or_rejected`, `C54_verbose_refuted`
* `C55_auto_flush`, `C55_calls_return`, `C55_end_to_end`, `C55_error_sticky`, `C55_finish`, `C55_lost_error_hang_refuted`, `C55_overread_refuted`, `C55_packets`, `C55_prefix`
* `C56_dead_after_stop_refuted`, `C56_dead_directory_refuted`, `C56_idle_survives_stop`, `C56_no_crash`, `C56_no_idle_refuted`, `C56_one_directory`, `C56_shutdown`, `C56_start`, `C56_start_invalid`, `C56_start_ok_runs`, `C56_start_reuses`, `C56_start_succeeds`, `C56_stop`, `C56_stop_removes_idle`
* `C57_change_back_refuted`, `C57_converges`, `C57_converges_bounded`, `C57_handlers_end_refuted`, `C57_received`, `C57_retry_refuted`, `C57_shutdown`, `C57_stale_ack_refuted`, `C57_wait_ok`, `C57_wait_ok_serves`, `C57_wait_returns`
* `C58_all_held_refuted`, `C58_bounded`, `C58_distinct`, `C58_exhausted`, `C58_netstat`, `C58_netstat_refuted`, `C58_prefers_unreserved`, `C58_reserved`, `C58_taken_back_refuted`
* `C59_entries`, `C59_iterates`, `C59_total`, `C59_unique`
* `C60_abort_only`, `C60_ahead`, `C60_all_closed`, `C60_in_order`, `C60_null`, `C60_open_error_refuted`, `C60_returns`
* `C61_answers`, `C61_authentic`, `C61_end_to_end`, `C61_failure`, `C61_list_is_singles`, `C61_truncated_refuted`, `C61_verified_refuted`
* `C62_instance_name`, `C62_lines_unique`, `C62_session_id`, `C62_start_then_stop`, `C62_stop`, `C62_stop_all`, `C62_stop_all_refuted`, `C62_target`, `C62_value`
* `C63_backslash_refuted`, `C63_cache_path`, `C63_code_point_len`, `C63_different_caches`, `C63_different_directories`, `C63_max_len_refuted`, `C63_same_directory`, `C63_valid_name`
* `C64_client_receive`, `C64_client_receive_error_loses_refuted`, `C64_client_receive_ok`, `C64_client_receives_prefix`, `C64_client_send_partial`, `C64_client_send_refuted`, `C64_end_to_end_client`, `C64_end_to_end_server`, `C64_server_receive`, `C64_server_receive_error`, `C64_server_receive_exact`, `C64_server_receive_returns`, `C64_server_receives_prefix`, `C64_server_send`, `C64_server_send_returns`
* `C65_bounded`, `C65_check_complete_partial`, `C65_check_complete_refuted`, `C65_check_sound`, `C65_check_symmetric_refuted`, `C65_command_line`, `C65_converges`, `C65_deployed_for_a_reason`, `C65_deployed_once`, `C65_server_checks`, `C65_server_error_reported`, `C65_success`, `C65_windows_2038_refuted`
* `C66_errors`, `C66_message`, `C66_message_refuted`, `C66_no_port_early`, `C66_no_port_fails`, `C66_pieces`, `C66_port`, `C66_rejected_waits`, `C66_rejection_noticed_refuted`, `C66_second_attempt_partial`, `C66_second_attempt_refuted`, `C66_wait`
* `C67_atomic`, `C67_deployed`, `C67_fuse_atomic_refuted`, `C67_fuse_deployed`, `C67_place`, `C67_recovers`
* `C68_crashes`, `C68_deploys`, `C68_failure_reported_partial`, `C68_failure_reported_refuted`, `C68_no_crash_refuted`, `C68_no_early_decision`, `C68_old`, `C68_old_deployed_refuted`, `C68_port`, `C68_port_not_zero`, `C68_port_refuted`, `C68_started`, `C68_starts`
* `C69_all_heard_partial`, `C69_all_heard_refuted`, `C69_exit`, `C69_no_deadlock`, `C69_prefix`, `C69_quiet_after_end`, `C69_terminates_partial`, `C69_terminates_refuted`
* `C70_backslash_refuted`, `C70_entry_accessors`, `C70_listing_complete`, `C70_listing_flat`, `C70_lists_tree`, `C70_open_fails`, `C70_socket_refuted`, `C70_stays_ended`, `C70_symlink_flag_refuted`, `C70_symlink_refuted`, `C70_untyped_skipped`
* `C71_config`, `C71_cuts_exist`, `C71_no_deadlock`, `C71_no_infinite_run`, `C71_no_threads_refuted`, `C71_null_hash`, `C71_progress_consistent`, `C71_status`, `C71_totals`, `C71_unique`, `C71_unique_le_total`
* `C72_bucket`, `C72_default_sizes`, `C72_indexer_counts`, `C72_results_empty_refuted`, `C72_results_max_refuted`, `C72_results_min_refuted`, `C72_results_partial`, `C72_show`
* `C73_add_files_exact`, `C73_destination_one_slash`, `C73_directory_error_reported`, `C73_entry_error_reported`, `C73_expansion_refuted`, `C73_file_as_destination_refuted`, `C73_find_files_dest_wins`, `C73_missing_directory_is_empty`, `C73_search_calls`, `C73_symlinked_destination_refuted`, `C73_sync_search_agrees`, `C73_two_slashes_refuted`, `C73_vanished_directory_refuted`
* `C74_base_is_prefix`, `C74_full_source`, `C74_non_relative_base`, `C74_refuted_doubled_separator`, `C74_refuted_drive_relative`, `C74_refuted_once`, `C74_relative_base`, `C74_search`, `C74_source_to_files`
* `C75_comes_to_rest`, `C75_empty_when_missing`, `C75_healing_run`, `C75_heals`, `C75_no_lost_wakeup`, `C75_refuted_failed_scan`, `C75_refuted_gap`, `C75_refuted_short_visit`, `C75_refuted_temporary_file`, `C75_rest_is_quiet`, `C75_settled`, `C75_settles`
* `C76_every_deletion_has_its_line`, `C76_every_file_has_its_line`, `C76_found`, `C76_lasting_total_is_complete`, `C76_line_replaced`, `C76_line_width`, `C76_path_shown`, `C76_quiet`, `C76_rate`, `C76_refuted_dry_run`, `C76_refuted_empty_files`, `C76_refuted_json_line`, `C76_refuted_once`, `C76_size_shown`, `C76_time_shown`, `C76_total_complete`, `C76_total_never_goes_back`
* `C77_all_shown`, `C77_as_many_as_registered`, `C77_chunks`, `C77_colours_differ`, `C77_dash`, `C77_defined`, `C77_groups`, `C77_line_width`, `C77_name_size`, `C77_narrow`, `C77_one_character_per_chunk`, `C77_otherwise_undefined`, `C77_print`, `C77_recent`, `C77_refuted_assert`, `C77_refuted_lru`, `C77_refuted_name_size`, `C77_refuted_registered_again`, `C77_thread_numbers`, `C77_totals`
* `C78_any_handler`, `C78_copy`, `C78_empty_buffer`, `C78_ends`, `C78_read`, `C78_read_file`, `C78_read_file_missing`, `C78_read_file_sound`, `C78_read_range`, `C78_read_range_error`, `C78_refuted_closed`, `C78_refuted_missing_range`, `C78_refuted_no_crash`, `C78_refuted_offset`, `C78_refuted_pipe`, `C78_refuted_write_file_ok`, `C78_shared_file`, `C78_write`, `C78_write_all`, `C78_write_file`, `C78_write_file_prefix`
* `C79_detect`, `C79_guess`, `C79_lower`, `C79_refuted_host`, `C79_refuted_port`, `C79_refuted_scp_directory`, `C79_refuted_uname_is_decisive`, `C79_scp`, `C79_scp_none`, `C79_scp_program`, `C79_url`, `C79_url_case`, `C79_url_error`, `C79_url_round_trip`
* `C80_allocations`, `C80_capacity`, `C80_equal`, `C80_equal_sizes`, `C80_no_leak`, `C80_ownership`, `C80_refuted_huge`, `C80_refuted_out_of_memory`, `C80_refuted_zeroed`, `C80_stable`, `C80_vectors`
