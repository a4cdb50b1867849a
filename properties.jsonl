{"id": "C01", "title": "Chunking loses nothing", "statement": "Concatenating the chunks the chunker hands to its callback, in callback order, gives exactly the bytes passed to it, for any sequence of Process calls followed by Finalize; before Finalize they are a prefix and the rest is still buffered.", "quantifier": "every chunk configuration, gear table, byte string and every way of feeding it", "why_tests_cant": "infinitely many inputs and configurations; a lost or duplicated byte shows only at particular boundary positions", "anchors": ["fastcdc/fastcdc.h: ChunkerTmpl::Process, Finalize"]}
{"id": "C02", "title": "Chunking does not depend on how the input is fed", "statement": "Two ways of splitting the same bytes into non-empty Process calls followed by Finalize produce the same chunk sequence, so sender and receiver (which read files with different buffer sizes) agree on chunk boundaries.", "quantifier": "all byte strings and all pairs of splits of them into non-empty blocks", "why_tests_cant": "the number of splits is exponential in the input size", "anchors": ["fastcdc/fastcdc.h: ChunkerTmpl::Process", "cdc_rsync/base/cdc_interface.cc", "manifest/asset_builder.cc"]}
{"id": "C03", "title": "Chunk sizes stay within the configured limits", "statement": "No chunk is empty, no chunk exceeds max_size, and every chunk except the last of the stream has at least min_size bytes.", "quantifier": "every configuration with 1<=avg, min<=avg<=max (including min=0), gear table and input", "why_tests_cant": "the extreme sizes depend on hash values of particular data", "anchors": ["fastcdc/fastcdc.h: FindChunkBoundary, Config"]}
{"id": "C04", "title": "Chunk boundaries follow the documented rule", "statement": "A boundary is the first position from min_size on whose rolling hash is <= threshold; if there is none before the limit, it is the last of the positions (the end included) whose hash has the most leading zero bits; the search loops always terminate.", "quantifier": "every configuration, hash width, gear table and data", "why_tests_cant": "the mask/regression loop is only exercised by data with specific hash values", "anchors": ["fastcdc/fastcdc.h: FindChunkBoundary"]}
{"id": "C05", "title": "Chunking is content-defined: edits stay local", "statement": "After two inputs share a chunk boundary and an identical remainder, all later chunks are identical; the boundary decision at a position depends on the last hash-width bytes only.", "quantifier": "all pairs of prefixes with a shared suffix", "why_tests_cant": "quantifies over pairs of arbitrary files", "anchors": ["fastcdc/fastcdc.h"]}
{"id": "C06", "title": "Message framing round-trips", "statement": "What the sending side of the message pump writes to the socket for a sequence of packets is decoded by the receiving side to the same sequence of (type, payload); payloads above 2^24-1 bytes and unknown packet types are rejected instead of being misread.", "quantifier": "all packet sequences and payload sizes", "why_tests_cant": "sizes up to 2^24 and arbitrary concatenations", "anchors": ["cdc_rsync/base/message_pump.cc: CreateHeader, ThreadDoSendPacket, ThreadDoReceivePacket"]}
{"id": "C07", "title": "The message pump delivers messages in order, exactly once", "statement": "Whatever the interleaving of the caller, the sender thread and the receiver thread, the messages returned by ReceiveMessage are at each moment a prefix of the messages queued by the peer's SendMessage; Flush returns successfully only if everything queued before was written to the socket.", "quantifier": "all schedules of the threads involved and all message histories", "why_tests_cant": "interleavings cannot be enumerated by tests", "anchors": ["cdc_rsync/base/message_pump.cc: QueuePacket, ThreadSenderMain, ThreadReceiverMain, FlushOutgoingQueue, ReceiveMessage"]}
{"id": "C08", "title": "The message pump bounds its memory and reports errors last", "statement": "The outgoing (incoming) queue never holds more than the 8 MiB limit plus one packet, the byte counters always equal the queued bytes, and a receive error is reported only after all messages received before it have been returned.", "quantifier": "all schedules and message histories", "why_tests_cant": "needs every interleaving", "anchors": ["cdc_rsync/base/message_pump.cc"]}
{"id": "C09", "title": "A file's signature lists every chunk of the file in order", "statement": "CreateAndSendSignature sends, in file order, exactly one (hash, size) entry per chunk of the basis file, in non-empty batches, and then exactly one empty terminator message.", "quantifier": "every basis file, chunk configuration, hash function and completion order of the hash tasks", "why_tests_cant": "batch boundaries and the worker's schedule vary", "anchors": ["cdc_rsync/base/cdc_interface.cc: CreateAndSendSignature"]}
{"id": "C10", "title": "Patching reproduces the source file", "statement": "If sender and receiver run the signature/diff/patch exchange over a file pair, the patched file has exactly the sender file's bytes, for every basis file, however the signature messages interleave with the sender's reading, provided no two different chunks involved have the same hash; every non-final patch message is non-empty, so the terminator is recognised.", "quantifier": "every source file, basis file, chunk configuration and arrival schedule of signature messages", "why_tests_cant": "quantifies over pairs of files and schedules", "anchors": ["cdc_rsync/base/cdc_interface.cc: CreateAndSendSignature, ReceiveSignatureAndCreateAndSendDiff, ReceiveDiffAndPatch, ServerChunkReceiver, PatchSender"]}
{"id": "C11", "title": "A malformed patch never makes the receiver read out of bounds", "statement": "For every patch message, well-formed or not, ReceiveDiffAndPatch either applies it with in-bounds reads or returns an error.", "quantifier": "every patch message the peer can send", "why_tests_cant": "the bad values lie at 64-bit wrap-around", "anchors": ["cdc_rsync/base/cdc_interface.cc: ReceiveDiffAndPatch"]}
{"id": "C12", "title": "File diff classifies every file exactly once", "statement": "file_diff::Generate reports a client file as missing iff the server has no such path, a server file as extraneous iff the client has no such path, and every common path as exactly one of changed or matching; a common file is matching only if its size and mtime agree (or it is taken unchanged from copy_dest), and files of the copy_dest directory are never reported as extraneous.", "quantifier": "all lists of client and server files and directories, with and without double check and copy_dest", "why_tests_cant": "all combinations of two path sets", "anchors": ["cdc_rsync_server/file_diff_generator.cc: FindFileDiff, GenerateDirs, Generate"]}
{"id": "C13", "title": "Flags adjust the diff as documented", "statement": "With --existing no missing file is transferred; with --checksum every matching file is re-checked as changed; with --whole-file every changed file is sent whole; otherwise nothing is moved. No path is lost or invented by the adjustment.", "quantifier": "all diffs and all flag combinations", "why_tests_cant": "all combinations of flags and lists", "anchors": ["cdc_rsync_server/file_diff_generator.cc: AdjustToFlagsAndGetStats"]}
{"id": "C14", "title": "Batched file lists survive the trip", "statement": "Splitting file lists, index lists and deletion lists into batches and sending them over the wire delivers the same list (with the right base directory and index) on the other side, whatever the batch limit; only the terminator is an empty batch.", "quantifier": "all file lists and name lengths", "why_tests_cant": "batch limits depend on accumulated sizes", "anchors": ["cdc_rsync_server/file_deleter_and_sender.cc", "cdc_rsync/file_finder_and_sender.cc", "cdc_rsync_server/cdc_rsync_server.cc: SendFileIndices", "cdc_rsync/cdc_rsync_client.cc"]}
{"id": "C15", "title": "Dry run changes nothing, deletion deletes exactly the extraneous files", "statement": "With --dry-run no file or directory of the destination changes. With --delete exactly the extraneous files and directories go away, children before parents; without it nothing is deleted.", "quantifier": "all destination trees and all diffs", "why_tests_cant": "all trees and option combinations", "anchors": ["cdc_rsync_server/cdc_rsync_server.cc: RemoveExtraneousFilesAndDirs, CreateMissingDirs, SyncChangedFiles", "cdc_rsync_server/file_deleter_and_sender.cc"]}
{"id": "C16", "title": "Interrupted replacement never loses a file's contents", "statement": "At every crash point while a changed file is being replaced, the target path holds either the complete old or the complete new contents.", "quantifier": "every crash point in the replacement sequence", "why_tests_cant": "crash points between system calls cannot be hit by unit tests", "anchors": ["common/path.cc: ReplaceFile", "cdc_rsync_server/cdc_rsync_server.cc: PatchTask"]}
{"id": "C17", "title": "After a sync the destination matches the source", "statement": "After a successful run without --existing every client file exists at the destination with the client's bytes, whatever the destination held before; unrelated destination files are untouched unless --delete is given.", "quantifier": "all source trees, destination trees and options", "why_tests_cant": "end-to-end over all pairs of trees", "anchors": ["cdc_rsync_server/cdc_rsync_server.cc", "cdc_rsync/cdc_rsync_client.cc"]}
{"id": "C18", "title": "Client and server stay in step", "statement": "For every combination of options and every file state both sides execute the same sequence of message types, so neither side waits for a message the other will not send.", "quantifier": "all option combinations, all numbers of files in each class", "why_tests_cant": "all combinations of options and counts", "anchors": ["cdc_rsync_server/cdc_rsync_server.cc: Run/Sync", "cdc_rsync/cdc_rsync_client.cc: Run/Sync"]}
{"id": "C19", "title": "Path helpers obey the laws callers rely on", "statement": "Joining then splitting gives the parts back, joining is associative, normalising separators and ensuring a (no) trailing separator are idempotent, DirName and BaseName recombine to the path, and no helper doubles or drops a separator.", "quantifier": "all path strings", "why_tests_cant": "unbounded strings with separators at every position", "anchors": ["common/path.cc", "common/path.h"]}
{"id": "C20", "title": "Content ids round-trip through their textual form", "statement": "ToHexString/FromHexString are inverse on all ids, distinct ids have distinct strings and malformed strings are rejected.", "quantifier": "all 20-byte ids and all strings", "why_tests_cant": "2^160 ids", "anchors": ["manifest/content_id.cc"]}
{"id": "C21", "title": "The disk cache behaves like a map from id to bytes", "statement": "After any history of Put/Get/Remove, Get returns the bytes of the latest Put not followed by a Remove, reading any sub-range; file paths of distinct ids never collide and can be parsed back to the id.", "quantifier": "all operation histories and directory depths", "why_tests_cant": "unbounded histories", "anchors": ["data_store/disk_data_store.cc"]}
{"id": "C22", "title": "Cache cleanup evicts least recently used chunks down to the target", "statement": "After Cleanup the stored bytes are at most capacity*fill_factor if it was over, evicted chunks are never more recently used than kept ones, no more are evicted than needed and nothing is evicted when under the limit.", "quantifier": "all cache contents, access times and capacities", "why_tests_cant": "all cache states", "anchors": ["data_store/disk_data_store.cc: Cleanup"]}
{"id": "C23", "title": "The cache's reported size equals the bytes it stores", "statement": "Size() always equals the sum of the stored chunk sizes.", "quantifier": "all operation histories", "why_tests_cant": "unbounded histories", "anchors": ["data_store/disk_data_store.cc: Put, Remove, Size"]}
{"id": "C24", "title": "The data provider returns the right bytes", "statement": "Get returns bytes equal to the chunk's bytes from the writer cache or the first reader that has them, in every sub-range, with truncated cache entries detected and refetched; what it caches is the true chunk.", "quantifier": "all requests, cache states, reader sets", "why_tests_cant": "all cache states incl. partially written chunks", "anchors": ["data_store/data_provider.cc"]}
{"id": "C25", "title": "Concurrent data provider requests cannot deadlock", "statement": "Whatever sets of chunks concurrent requests and the cleanup lock, lock acquisition never forms a cycle.", "quantifier": "all numbers of threads, request sets and schedules", "why_tests_cant": "all schedules", "anchors": ["data_store/data_provider.cc: WriteLockAll, LockAllMutexes"]}
{"id": "C26", "title": "Reading a streamed file returns the requested range", "statement": "Asset::Read(offset,size) returns exactly the bytes [offset, min(offset+size, file size)) of the file the manifest describes, for direct and indirect chunk lists; out-of-range offsets read nothing.", "quantifier": "all chunk lists, offsets, sizes, buffers", "why_tests_cant": "all layouts and ranges", "anchors": ["cdc_fuse_fs/asset.cc: Read, FindChunkList, FindChunk, ChunkSize"]}
{"id": "C27", "title": "Splitting large chunk lists preserves the file", "statement": "Moving chunks to indirect lists when the file proto gets too large preserves the sequence of (absolute offset, chunk id), and bounds each list's size.", "quantifier": "all chunk lists and size limits", "why_tests_cant": "all list lengths around limits", "anchors": ["manifest/manifest_builder.cc: EnforceFileProtoSize"]}
{"id": "C28", "title": "The manifest builder maintains a correct directory tree", "statement": "After any history of GetOrCreateAsset and DeleteAsset the tree contains exactly the created, not deleted paths with the right type, missing parents are created, replacing a file by a directory (or vice versa) follows the documented rule and other paths are unaffected.", "quantifier": "all operation histories and paths", "why_tests_cant": "unbounded histories", "anchors": ["manifest/manifest_builder.cc"]}
{"id": "C29", "title": "Directories that overflow into indirect lists stay independent", "statement": "Flushing a manifest with oversized directories preserves every asset, and later changes to one directory do not affect any other directory.", "quantifier": "all directory trees, size limits and subsequent changes", "why_tests_cant": "needs two directories of identical overflowing contents", "anchors": ["manifest/manifest_builder.cc: EnforceDirProtoSize, asset_lists_"]}
{"id": "C30", "title": "The manifest updater finds exactly the changes", "statement": "Comparing the manifest with a directory listing yields an add for each new, a delete for each vanished and an update for each modified asset and nothing else, and applying them makes the manifest equal to the listing.", "quantifier": "all manifests and listings", "why_tests_cant": "all pairs of trees", "anchors": ["manifest/manifest_updater.cc: CompareAssets, ApplyOperations"]}
{"id": "C31", "title": "Updating the manifest terminates", "statement": "Update returns for every set of operations, failures and deadline times.", "quantifier": "all schedules, deadlines and failures", "why_tests_cant": "a hang needs particular timing", "anchors": ["manifest/manifest_updater.cc: Update"]}
{"id": "C32", "title": "Pruning keeps what the manifest references", "statement": "Chunks referenced by the final manifest are never pruned, even if scanning some directory failed.", "quantifier": "all failure patterns", "why_tests_cant": "needs failures in particular order", "anchors": ["manifest/manifest_updater.cc: Update", "data_store/disk_data_store.cc: Prune"]}
{"id": "C33", "title": "The chunk map locates chunks in current files", "statement": "After any history of updates and flush, looking up a chunk id succeeds iff some current file contains it and yields a path, offset and size at which that chunk lies; updates are invisible before the flush.", "quantifier": "all operation histories", "why_tests_cant": "unbounded histories with shared chunks", "anchors": ["manifest/file_chunk_map.cc"]}
{"id": "C34", "title": "The pending assets queue loses nothing and honours priorities", "statement": "Add/Dequeue/Prioritize keep exactly the multiset of queued assets; prioritised assets come before others, and arrival order is kept within a class.", "quantifier": "all operation histories", "why_tests_cant": "unbounded histories", "anchors": ["manifest/pending_assets_queue.cc"]}
{"id": "C35", "title": "Wildcard filters match what they say and never read out of bounds", "statement": "A path passes the filter according to the first rule whose glob (with ? and *) matches it, and deciding this reads only the path's own characters.", "quantifier": "all patterns and paths", "why_tests_cant": "infinitely many patterns; over-reads are invisible to assertions", "anchors": ["common/path_filter.cc: IsMatch, PathFilter::IsMatch"]}
{"id": "C36", "title": "ANSI filtering removes exactly the escape sequences", "statement": "Text without escape sequences is unchanged, complete sequences are removed, the result never contains an introducer, and filtering twice equals filtering once.", "quantifier": "all byte strings", "why_tests_cant": "all byte strings", "anchors": ["common/ansi_filter.cc"]}
{"id": "C37", "title": "Size flags parse to the size they denote", "statement": "A flag value such as 12K denotes 12*1024 bytes; a value that does not fit is rejected; printing then parsing gives the same size.", "quantifier": "all flag strings", "why_tests_cant": "64-bit overflow", "anchors": ["absl_helper/jedec_size_flag.cc"]}
{"id": "C38", "title": "Port ranges parse to valid ranges", "statement": "A successful parse yields 1 <= first <= last <= 65535; a failed one yields 0,0; printing a valid range and parsing it gives it back.", "quantifier": "all strings", "why_tests_cant": "all strings", "anchors": ["common/port_range_parser.cc"]}
{"id": "C39", "title": "The thread pool runs every task once and Wait waits for all", "statement": "Under every schedule each queued task is executed at most once and, when Wait returns, every task queued before has completed and is retrievable; a single worker completes tasks in FIFO order; the outstanding count is exact.", "quantifier": "all schedules and numbers of workers", "why_tests_cant": "interleavings", "anchors": ["common/threadpool.cc"]}
{"id": "C40", "title": "The semaphore never admits more than its count", "statement": "The number of completed Waits never exceeds the initial count plus the number of Signals, and a waiter is blocked only if the count is zero.", "quantifier": "all schedules", "why_tests_cant": "interleavings", "anchors": ["common/semaphore.cc"]}
{"id": "C41", "title": "The executable flag of a patched file is that of the source file", "statement": "The flag the receiver derives while patching (used to set the executable permission) is true exactly when the complete source file starts with an ELF magic or a #! line, wherever the first bytes come from (basis or message data).", "quantifier": "every basis and source file without hash collision, every schedule in which signatures become available, every way of grouping patch commands in messages", "why_tests_cant": "which chunk and which message carries the first bytes depends on the schedule and on chunking", "anchors": ["cdc_rsync/base/cdc_interface.cc: ReceiveDiffAndPatch, CreateAndSendDiff", "common/util.cc: IsExecutable"]}
{"id": "C42", "title": "Delta transfer sends exactly the chunks the receiver does not have", "statement": "The literal data sent for a source file is the concatenation, in order, of those of its chunks whose hash does not occur in the receiver's signature; in particular an unchanged file causes no literal data.", "quantifier": "every basis and source file, every schedule in which signatures become available", "why_tests_cant": "must hold for every file content and every arrival order of signatures relative to local chunks", "anchors": ["cdc_rsync/base/cdc_interface.cc: ServerChunkReceiver, PatchSender, CreateAndSendDiff"]}
{"id": "C43", "title": "A name in a streamed directory is found exactly if it is there", "statement": "Looking up a name in a streamed directory returns the child with that name if the directory has one and not-found otherwise, and listing a directory returns all children, no matter which of the directory's indirect lists are already loaded and what other threads look up at the same time.", "quantifier": "all directories, names, loading states and interleavings of concurrent lookups", "why_tests_cant": "the outcome depends on the interleaving of concurrent lookups that load lists", "anchors": ["cdc_fuse_fs/asset.cc: Lookup, FetchNextDirAssetList, GetAllChildProtos"]}
{"id": "C44", "title": "Intermediate manifests are honest", "statement": "A manifest that is published while the update of a streamed directory is still running tells what is final: every path that is not marked as in progress and is not inside a directory marked as in progress has exactly the entry of the source directory (or none, if the source has none).", "quantifier": "all source trees, old manifests, schedules of the updater's tasks and moments at which an intermediate manifest is stored", "why_tests_cant": "the intermediate manifest depends on which tasks have finished when it is stored", "anchors": ["manifest/manifest_updater.cc: ApplyOperations, HandleFileChunkerResult, HandleDirScannerResult, FlushAndPushManifest", "manifest/asset_builder.cc: SetInProgress"]}
{"id": "C45", "title": "The mounted file system survives every history", "statement": "Whatever requests the kernel sends for inodes it knows, in whatever order, with new manifests arriving at any point in between, the mounted file system never uses memory it has freed and never violates one of its own assertions.", "quantifier": "all histories of kernel requests (lookup, getattr, open, read, release, opendir, readdir, releasedir, forget, access), manifests, resumed requests, fetch failures, task orders and address choices", "why_tests_cant": "a use after free needs a particular combination of loaded inodes, directory layout and manifest updates", "anchors": ["cdc_fuse_fs/cdc_fuse_fs.cc: CdcFuse*, GetOrCreateInode, ForgetOne, ForgetChild, UpdateInodeTask, InvalidateTree, SetManifest", "cdc_fuse_fs/asset.cc: Lookup, GetAllChildProtos, UpdateProto"]}
{"id": "C46", "title": "Every file system request is answered as the current manifest says", "statement": "A request on an inode is answered from the asset the current manifest has at the inode's path: lookup finds exactly the names in the directory, stat returns that asset's size, time, type and permissions, opening and listing succeed exactly for the right types, access is granted exactly if the permission bits grant it, requests on unfinished assets wait, and requests on paths that no longer exist fail with ENOENT.", "quantifier": "all histories of kernel requests and manifests, all inodes and all operations", "why_tests_cant": "depends on the whole history of manifests and lookups", "anchors": ["cdc_fuse_fs/cdc_fuse_fs.cc: CdcFuseLookup .. CdcFuseAccess, SetManifest, QueueLookupRequest"]}
{"id": "C47", "title": "Every file system request is answered exactly once", "statement": "No request is lost or answered twice: every request is answered or waiting, a waiting request is answered as soon as a manifest is set in which its asset is finished, and nothing waits once the manifest is complete.", "quantifier": "all histories of kernel requests and manifests, including requests that arrive while waiting requests are being resumed", "why_tests_cant": "needs every interleaving of queueing, manifest updates and resuming", "anchors": ["cdc_fuse_fs/cdc_fuse_fs.cc: QueueLookupRequest, QueueOpenRequest, QueueOpenDirRequest, SetManifest"]}
{"id": "C48", "title": "No old data after a file has changed", "statement": "After a manifest has changed a file, opening it makes the kernel drop the cached pages of the older version, and reads through handles from before fail instead of mixing versions.", "quantifier": "all histories of kernel requests and manifests", "why_tests_cant": "depends on the order of opens and manifest updates", "anchors": ["cdc_fuse_fs/cdc_fuse_fs.cc: CdcFuseOpen, CdcFuseRead, UpdateInodeTask, SetManifest"]}
{"id": "C49", "title": "Reading a directory page by page returns every entry once", "statement": "For every directory listing and every buffer size with room for the longest entry, the entries the kernel reads page by page are exactly the entries of the listing, each once and in order.", "quantifier": "all listings and page sizes", "why_tests_cant": "sizes of names and pages are unbounded; cut-off entries occur at any position", "anchors": ["cdc_fuse_fs/cdc_fuse_fs.cc: CdcFuseReadDir, AddDirectoryEntry"]}
{"id": "C50", "title": "Incremental update makes the reported paths right and leaves the others alone", "statement": "When Update() is called with operations that are true of the source directory, in any order and with either path separator, and returns, the stored manifest is right at every path that was right before and at every path the operations tell about (files: if they could be read); no entry stays marked as in progress; entries that no operation concerns are unchanged. Intermediate manifests are right wherever they are not marked as in progress. Applying the operations never fails and Update never waits for a task that does not exist.", "quantifier": "all source trees, all previous manifests, all lists of true operations, all schedules of the chunker tasks and flushes", "why_tests_cant": "needs every set of changes (files replaced by directories, nested deletions, both separators) and every order of task completion", "anchors": ["manifest/manifest_updater.cc: Update, ApplyOperations, HandleFileChunkerResult", "manifest/manifest_builder.cc: GetOrCreateAsset, DeleteAsset, Flush", "cdc_stream/multi_session.cc: GetFileOperations"]}
{"id": "C51", "title": "Merged change notifications tell the truth", "statement": "After any sequence of change notifications in any number of buffers, GetModifiedFiles() reports every name at most once; what is reported as added or modified exists with the reported kind, size and time, what is reported as deleted does not exist; everything that changed is reported unless it did not exist before and does not exist now (temporary files) - provided that no name is removed more than once between two calls.", "quantifier": "all sequences of notifications that tell a possible story of each name", "why_tests_cant": "the sequences of events are unbounded and interleave arbitrarily many names", "anchors": ["common/file_watcher_win.cc: ProcessDirChanges, GetModifiedFiles", "common/file_watcher_win.h: FileMap"]}
{"id": "C52", "title": "The manifest follows the source directory", "statement": "While a directory is streamed, at every moment every path is right in the stored manifest, or has a change that was not picked up yet, or is being updated, or is lost (its deletion was merged away, it could not be read, or an Update failed after it). No collected change is left without a wake-up; without further changes the runner handles everything within a bounded number of steps, and then the manifest matches the directory except for lost changes.", "quantifier": "all histories of changes, notifications, callbacks, pick-ups and updates, in every interleaving", "why_tests_cant": "the race between the watcher thread, the runner loop and the user's changes has unboundedly many interleavings", "anchors": ["cdc_stream/multi_session.cc: MultiSessionRunner::Run, OnFilesChanged, GetFileOperations", "common/file_watcher_win.cc: ReadDirChanges, ProcessDirChanges, GetModifiedFiles", "manifest/manifest_updater.cc: Update, DefaultManifestId"]}
{"id": "C53", "title": "Command line arguments arrive unchanged", "statement": "Every list of arguments (with blanks, quotation marks and backslashes anywhere), quoted with QuoteForWindows and separated by blanks, is read back unchanged by a program started with that command line. Every list of arguments without $ and `, quoted with QuoteForSsh, arrives at a program that ssh starts through the remote shell: paths below ~ or ~user below that home directory, everything else literally. ScpToSftpCommand replaces exactly the first occurrence of scp that ends a command name.", "quantifier": "all lists of arguments, all byte strings", "why_tests_cant": "three parsers (the C runtime, ssh's joining, the shell) have to be inverted for every string; tests only sample backslash/quote combinations", "anchors": ["common/remote_util.cc: QuoteForWindows, QuoteForSsh, ScpToSftpCommand, Scp"]}
{"id": "C54", "title": "cdc_rsync's command line means the same however it is written", "statement": "Flags may be written long or short and short ones grouped, values after '=' or as the next argument, in any order among the sources and the destination. Parse then yields exactly: every flag given, the last value of every option (or its environment variable or default), the filter rules in their order including those read from files, the last argument as destination - split into [user@]host and path unless it is a drive or a network share - and the ones before as sources (or the lines of the --files-from file). Every other command line is rejected; so are --delete without --recursive, bad compression levels, missing sources or destination.", "quantifier": "all command lines, file contents and environments", "why_tests_cant": "unboundedly many combinations and orders of options, spellings and values", "anchors": ["cdc_rsync/params.cc: Parse, HandleParameter, CheckOptionResult, PopUserHost, LoadFilesFrom, HandleFilterRuleFile, ValidateParameters", "common/path.cc: GetDrivePrefix, ReadAllLines, EnsureEndsWithPathSeparator (Windows)"]}
{"id": "C55", "title": "What is sent through the compressed connection arrives unchanged and in order, and no call hangs", "statement": "When the compression stream's Finish returns OK, the bytes on the socket are exactly one complete compressed frame of all the data written; at every other time, whatever failed, they decompress to a prefix of it, and if little data comes for half a second all of it so far becomes readable. Errors are final, and a Write or Finish call always returns. The receiving side hands out every packet, compressed or not, in order and unchanged, however the network cuts the bytes into pieces, and switches back to uncompressed data at the end of the frame.", "quantifier": "all data, call sequences, thread schedules, time-outs, compressor and network failures, segmentations of the byte stream and codecs that keep zstd's contract", "why_tests_cant": "depends on the interleaving of caller, compressor thread and time-outs, and on where the network cuts the stream", "anchors": ["cdc_rsync/zstd_stream.cc: ZstdStream, Write, Finish, ThreadCompressorMain", "cdc_rsync_server/unzstd_stream.cc: UnzstdStream::Read", "cdc_rsync/base/message_pump.cc: ThreadDoReceivePacket, ThreadDoReceive, RedirectInput", "cdc_rsync/cdc_rsync_client.cc: StartCompressionStream, StopCompressionStream", "cdc_rsync_server/cdc_rsync_server.cc: Thread_OnPackageReceived"]}
{"id": "C56", "title": "The session manager streams every instance from at most one directory, and start and stop do exactly what they say", "statement": "Whatever starts, stops and failures came before: an instance is streamed from at most one directory; a successful start leaves it streamed from the requested directory only; a failed start never streams it from somewhere new; no call affects another instance's session, except that stop ends exactly the sessions whose id matches the pattern. A healthy session is reused. Until the service is shut down no call crashes, and as long as manifests can be built a start in which nothing fails succeeds.", "quantifier": "all histories of start, stop, shutdown and runner failures, with any outcome of the environment at every call, all instances, directories and patterns", "why_tests_cant": "depends on unbounded histories of calls and of failures at every point of them", "anchors": ["cdc_stream/session_manager.cc: StartSession, StopSession, StopSessionInternal, GetOrCreateMultiSession, Shutdown", "cdc_stream/multi_session.cc: MultiSession::StartSession, StopSession, MatchSessions, Shutdown"]}
{"id": "C57", "title": "Every connected instance gets the workstation's manifests in order and ends up with the current one, and WaitForManifestAck means what it says", "statement": "A FUSE client receives manifest ids in the order they were set, starting with the current one, without repetitions or inventions; once nothing more happens for it, which takes boundedly many steps after the last change, it has received the current id and, if it had no failure, serves that manifest. WaitForManifestAck returns OK only when the last acknowledgement of the instance is for the current manifest, which a client of the instance had switched to before acknowledging; if no manifest is set twice and the instance had one client only, that client serves the current manifest. Without failures it does return OK. After Shutdown at most one more id is sent and every server call returns.", "quantifier": "all interleavings of manifest changes, any number of clients connecting, disconnecting and failing, lost and late acknowledgements, and shutdown", "why_tests_cant": "depends on the schedule of server threads, clients and the network", "anchors": ["cdc_stream/grpc_asset_stream_server.cc: ConfigStreamServiceImpl", "cdc_fuse_fs/config_stream_client.cc: ManifestIdReader, SendManifestAck", "cdc_fuse_fs/cdc_fuse_fs.cc: SetManifest"]}
{"id": "C58", "title": "ReservePort hands out unused ports, unreserved ones first, and processes sharing a range do not collide while free ports are left", "statement": "ReservePort returns a port of the range that netstat showed unused on the workstation and on the instance; of all such ports whose reservation state did not change during the call it never skips one that is unreserved, or reserved longer ago, in favour of another. It fails only if every port is in use or changed during the call, never waits for another process and returns after at most three steps per port. As long as each successful call had an unreserved unused port to choose, no port is ever held by two managers, across crashes and releases. A port counts as unused exactly if every netstat line showing the device's address with that port contains TIME_WAIT.", "quantifier": "all interleavings of the shared-memory accesses of any number of managers and processes, crashes, releases, clocks, range sizes and netstat outputs", "why_tests_cant": "collisions depend on the interleaving of several processes on shared memory", "anchors": ["common/port_manager_win.cc: PortManager::ReservePort, ReleasePort, FindAvailablePorts", "common/port_manager.h"]}
{"id": "C59", "title": "ManifestIterator visits every asset of a manifest exactly once, in order and with the right path", "statement": "After Open, NextEntry returns the assets of the manifest in pre-order (a directory's direct assets, then those of its lists, each subdirectory followed by its contents) and RelativePath is the path of the directory the asset is in; then it returns null for good. If there was no error these are all entries of all directories; Status is an error exactly if a list could not be read, and the entries returned before are entries of the manifest. Every manifest whose lists do not contain themselves has exactly one such traversal. The result does not depend on which addresses the allocator reuses.", "quantifier": "all manifests, directory depths and list structures, all sets of unreadable lists, all allocators", "why_tests_cant": "the cached path is keyed by the address of a list node, which may be reused; arbitrary nesting", "anchors": ["manifest/manifest_iterator.cc: ManifestIterator::Open, NextEntry, UpdateRelPath, MutableAsset", "manifest/manifest_iterator.h"]}
{"id": "C60", "title": "ParallelFileOpener hands out every file once, in order, without leaking or blocking", "statement": "GetNextOpenFile returns the open files in the order of file_indices, each once, and null only after the last; at most 256 files (257 during a call) are open ahead of the caller; a call returns after a bounded number of steps of the pool and the caller; every opened file is either handed to the caller or closed by the destructor, never both. A file that cannot be opened should make the call return null so that the caller reports an error; it does not, the process aborts.", "quantifier": "all numbers of files and threads, all interleavings of the caller and the pool's threads, all subsets of files that cannot be opened, destruction at any point between calls", "why_tests_cant": "the files are completed in any order by the pool; depends on the schedule", "anchors": ["cdc_rsync/parallel_file_opener.cc: ParallelFileOpener::GetNextOpenFile, QueueNextFile, FileOpenTask", "cdc_rsync/parallel_file_opener.h", "cdc_rsync/cdc_rsync_client.cc: SendMissingFiles"]}
{"id": "C61", "title": "Chunks fetched from the workstation are the chunks with the requested ids", "statement": "GetContent returns one item per requested id, in order, each being what the workstation has for the id (from the indexed file, else from the manifest's data store), or an error if some chunk cannot be read; the reported sizes are those of the items. While indexed files do not change the items are the chunks with these ids, so that reads through the cache return the right bytes. Claimed for streaming and refuted: that a file that changes after it was indexed leads to an error or to the old bytes; other bytes (zeros if it was truncated) are delivered, cached under the old id and returned by all later reads of that id.", "quantifier": "all requests, all chunk maps produced by histories of updates, all file contents and changes between two chunks, all read faults; all interleavings with other users of the cache", "why_tests_cant": "depends on when files change relative to indexing and reading, and on the cache's history", "anchors": ["cdc_stream/grpc_asset_stream_server.cc: AssetStreamServiceImpl::GetContent, ReadFromFile, ReadFromDataStore", "cdc_fuse_fs/asset_stream_client.cc: AssetStreamClient::GetContent", "common/path.cc: ReadFile", "data_store/grpc_reader.cc", "data_store/data_provider.cc"]}
{"id": "C62", "title": "The target given to cdc_stream start is the target that stops the session", "statement": "A target is [user@]host:dir, split at the first colon, where a single letter before the colon (a Windows drive) is rejected; an empty host or directory is rejected by start. Every session started on the command line is named by its target as written: stop with the same target never answers 'not found' and, if it succeeds, ends the session; without wildcards it ends no other session; 'stop *' ends all of them. Claimed and refuted: that 'stop *' ends every session of the service; a session started with an instance name is left running, because its id has no colon. Instance names and the output of 'ggp ssh init' are parsed as documented.", "quantifier": "all strings; all histories of start, stop, shutdown and failures", "why_tests_cant": "all strings and histories of sessions", "anchors": ["cdc_stream/local_assets_stream_manager_client.cc: ParseUserHostDir", "cdc_stream/local_assets_stream_manager_service_impl.cc: StartSession, StopSession, GetTarget, ParseInstanceName, ParseValue", "cdc_stream/start_command.cc: StartCommand::Run", "cdc_stream/stop_command.cc: StopCommand::Run"]}
{"id": "C63", "title": "Each streamed directory has its own cache, at a valid and short path", "statement": "The name under which cdc_stream caches the manifest of a directory (and finds its running sessions) is a valid file name; spellings of one full path that differ in a trailing separator, the kind of separator or, on Windows, in ASCII case share it; other directories do not, unless 32 bits of their hashes collide. The cache path is that name behind the root, shortened from the front if it would exceed the maximum: always with the hash, by whole code points and by no more of them than needed; valid UTF-8 stays valid; no byte behind the string is read. Claimed and refuted: that the path never exceeds the maximum (a long root is not shortened), and that on Linux different directories never share sessions (\"/a\\\\b\" and \"/a/b\" do: the second directory's client is served the first directory).", "quantifier": "all directory names, roots and maximum lengths, both platforms, all hash functions with 20 bytes", "why_tests_cant": "all byte strings and positions of code points relative to the cut", "anchors": ["cdc_stream/multi_session.cc: GetCacheDir, GetCachePath", "cdc_stream/session_manager.cc: GetMultiSessionKey", "common/util.cc: Utf8CodePointLen"]}
{"id": "C64", "title": "Sockets deliver messages whole, however the operating system splits them", "statement": "Receive of the server's socket returns the next bytes of the stream in order and loses none: OK without allow_partial_read means exactly the requested number of bytes, with it at least one; end of stream is reported only when nothing was read; without failing calls an error means the peer closed in the middle of a message; it returns as soon as the bytes are there or the peer has closed. The client's Receive gives the same guarantees for OK and end of stream. Any sequence of receives yields a prefix of the stream. OK from the server's Send means all bytes went out in order, and messages sent by it arrive as they were when received with their sizes, on either end. Claimed and refuted: the client's Send (a short count of send() is success) and that a client's Receive which reports an error has taken nothing from the stream.", "quantifier": "all streams, request sizes, message lists and all ways the operating system splits, delays, interrupts and fails the calls", "why_tests_cant": "local sockets hardly ever return short counts; the splits are unbounded", "anchors": ["common/socket.h: Socket::Send, Socket::Receive", "common/server_socket.cc: ServerSocket::Send, ServerSocket::Receive", "common/client_socket.cc: ClientSocket::Send, ClientSocket::Receive"]}
{"id": "C65", "title": "cdc_rsync starts an up-to-date server, deploying it at most once and only when needed", "statement": "The version, name, size and time of the server binary arrive at the server as the client wrote them on its command line. A server that passes the check is up to date (same name; same build version, or same size and time if one side was built locally). Whatever the device does, a run starts the server at most three times, asks for the architecture at most once and deploys at most once; a local sync never deploys; a deployment follows an attempt of that same architecture that failed with a code that does not mean the check had passed, and is followed by a start; success means that a server came up, the sync was complete and the server exited with 0; a server's exit code and message are reported. On a working device a run succeeds whatever architecture was guessed, deploys exactly if the server was missing or did not pass the check, and the next run deploys nothing. Claimed and refuted: that every up-to-date server passes (a released client rejects a locally built server of the same size and time: the code compares the same version twice), that the check is symmetric, and that a binary dated after 2038 can be used on Windows (stol throws).", "quantifier": "all components, command lines, devices, guesses and behaviours of device and network", "why_tests_cant": "all combinations of exit codes, architectures, versions and failures in each step", "anchors": ["cdc_rsync/cdc_rsync_client.cc: CdcRsyncClient::Run, StartServer, DeployServer, GetServerExitStatus", "common/gamelet_component.cc: GameletComponent::operator==, ToCommandLineArgs, FromCommandLineArgs", "cdc_rsync_server/main.cc: main", "cdc_rsync_server/cdc_rsync_server.cc: CdcRsyncServer::CheckComponents"]}
{"id": "C66", "title": "The server's port and error messages survive any splitting of its output", "statement": "cdc_rsync reads its server's port and error messages from one stream that ssh delivers in arbitrary pieces. Port, error text and rejection do not depend on the pieces; the port is the announced one whatever was printed before, behind or as error messages in between, provided the words 'Server is listening' did not occur before; there is no port before the announcement is complete; the error text is exactly what is between the markers, so a message without marker arrives as sent; a first start attempt yields the announced port. Claimed and refuted: the same for messages that contain the marker character (file names may), and for a second start attempt in the same run (the first attempt's port is kept: the client connects to a dead server's port). Claimed and refuted: an output that announces no port ends the start (the handler's error is only logged, so the client waits until the time is up or the server exits).", "quantifier": "all outputs without NUL, all ways to cut them, all ports, all noise", "why_tests_cant": "all cut positions of all outputs", "anchors": ["cdc_rsync/cdc_rsync_client.cc: CdcRsyncClient::HandleServerOutput, StartServer", "cdc_rsync_server/main.cc: SendErrorMessage", "cdc_rsync_server/cdc_rsync_server.cc: CdcRsyncServer::Run", "cdc_rsync/base/server_exit_code.h: kServerErrorMarker"]}
{"id": "C67", "title": "Deploying the remote components: complete, atomic for the server, nothing else touched", "statement": "The sftp script cdc_rsync uses to deploy its server creates the directories it needs below the home directory, puts the server with its contents and time, executable, exactly where the start command looks for it, leaves no temporary file and changes nothing else. Wherever it is interrupted (between commands or in the middle of a transfer) the server in place is the old one or the complete new one, and the next deployment succeeds. The FUSE deployment of cdc_stream is complete when it succeeds. Claimed and refuted: an interrupted FUSE deployment leaves a complete file system binary in place (it is put in place directly, so half a binary remains).", "quantifier": "all remote file systems, architectures, file contents, temporary names and interruption points", "why_tests_cant": "all interruption points and remote states", "anchors": ["cdc_rsync/server_arch.cc: ServerArch::GetDeploySftpCommands, RemoteToolsBinDir, GetStartServerCommand", "cdc_stream/cdc_fuse_manager.cc: CdcFuseManager::Deploy", "common/remote_util.cc: RemoteUtil::Sftp"]}
{"id": "C68", "title": "Starting the file system on the device: right port, one deployment, errors reported", "statement": "cdc_stream recognizes from the output of cdc_fuse_fs, however it is cut and whatever harmless lines the login prints before, whether the file system is current and which port it uses; nothing is concluded from half a line. A current file system is started without deployment and its port is forwarded; an old, missing or broken one is deployed exactly once and started again; a successful start means that the last one started said it is connected. Claimed and refuted: (1) the port is right whatever the login prints, (2) starting never crashes the service (it does when the file system cannot run even after deployment), (3) a failed start is reported (the service crashes if ssh could not be run), (4) an old file system is always redeployed (its words may be lost at its exit, C69).", "quantifier": "all outputs, all ways to cut them, all ports, all behaviours of the device in both attempts", "why_tests_cant": "all cut positions, all failure combinations", "anchors": ["cdc_stream/cdc_fuse_manager.cc: ParsePort, CdcFuseManager::Start, RunFuseProcess, RunPortForwardingProcess, WaitForFuseConnected, Stop, HandleFuseStdout", "cdc_stream/session.cc: Session::Start, Session::Stop, Session::~Session", "cdc_stream/multi_session.cc: MultiSession::StartSession", "cdc_fuse_fs/main.cc: main", "cdc_fuse_fs/constants.h"]}
{"id": "C69", "title": "Output and exit of child processes: in order, nothing twice, nothing after Terminate", "statement": "What the output handlers of a child process receive is, per stream, always a beginning of what the child wrote, in order, nothing twice, in pieces of 1 to 4095 bytes. The exit is noticed only after it happened, at most once and with the right code. Once Terminate has returned no handler is called any more; it returns after a number of steps bounded by the amount of data the child still writes, and never gets stuck. If the watching thread had kept up when the child exited, everything was heard. Claimed and refuted: everything the child wrote before its exit is heard (the exit is looked at first and drops what is in the pipe); Terminate returns whatever the child does (a child that keeps writing keeps it busy; it is killed only afterwards).", "quantifier": "all interleavings of child, watching thread and Terminate; all data", "why_tests_cant": "schedules", "anchors": ["common/process_win.cc: AsyncReader::Read, IssueRead, MessagePumpThread::ThreadWorkerMain, Shutdown, WinProcess::Terminate, HasExited, ExitCode"]}
{"id": "C70", "title": "DirectoryIterator lists every wanted entry of a directory tree once, with its relative path", "statement": "Iterating over a directory with DirectoryIterator yields, depth first, every entry of the wanted kind (directories, regular files, or both) exactly once, with the path relative to the start directory; without the recursive flag only the direct entries. Directories that may not be read are reported but not entered; any other error ends the iteration with that error as status. A failing Open leaves an iterator that yields nothing and has that status, and an iterator that has ended stays ended. Claimed and refuted: only regular files and directories are reported, under their true kind (the type is tested as a bit mask: symbolic links are listed as regular files, IsSymlink() is true for regular files, sockets and block devices are taken for directories and abort a recursive search); entries are listed on file systems that do not report types; relative paths are right for directory names that end in a backslash.", "quantifier": "all directory trees, names, errors at any point, flags, addresses of DIR objects", "why_tests_cant": "the tests list a handful of small trees", "anchors": ["common/dir_iter.cc: DirectoryIterator::Open, NextEntry, Impl::UpdateRelPath, DirectoryEntry"]}
{"id": "C71", "title": "cdc_indexer counts every file, chunk and byte exactly once, whatever the number of threads", "statement": "When Indexer::Run returns OK, every file of every input has been counted once, and the numbers of chunks and bytes are those of the files cut by the chunking rule: they do not depend on the schedule, the number of threads or the size of the blocks read. The number of unique chunks is the number of different hashes, and, if no two different chunks have the same hash, unique chunks, bytes and the size distribution are those of the different chunks. Run returns OK exactly if every input exists and can be listed (or may not be read) and every file can be read; otherwise its status is that of one of the failures. Run always returns. At any time the statistics never decrease and show no more unique than total chunks and bytes, and no more files than there are. Claimed and refuted: a run that returns OK has counted every file (no threads are started if hardware_concurrency() is 0).", "quantifier": "all file systems, inputs, configurations, numbers of threads, interleavings", "why_tests_cant": "schedules", "anchors": ["cdc_indexer/indexer.cc: Indexer::Run, Impl::GetNextJob, AddChunk, AddFile, SetError, Worker::Run, Worker::IndexFile"]}
{"id": "C72", "title": "The chunk size distribution counts every unique chunk exactly once", "statement": "Every unique chunk is counted in the smallest size class that holds it; the classes are 1 KB, doubled up to the minimum chunk size, then in equal steps. The table cdc_indexer prints has a row for every class between the smallest and the largest one used, with the right count, and the counts add up to the number of unique chunks. The columns written with --results_file do so if the minimum chunk size is a power of two and the maximum is a class, which holds for the default sizes with any power of two as average. Claimed and refuted: the columns are right for every allowed combination of sizes (with other minimum sizes the chunks are in no column; with other maximum sizes chunks are counted twice); writing the results file is defined when nothing was indexed (division by zero).", "quantifier": "all configurations with sizes up to 2^62, all multisets of chunk sizes, map orders", "why_tests_cant": "there are no tests of main.cc; classes depend on four numbers", "anchors": ["cdc_indexer/indexer.cc: SizeBucket", "cdc_indexer/main.cc: ChunkSizeBuckets, ShowChunkSizes, WriteResultsFile, main"]}
{"id": "C73", "title": "The server's search lists exactly the files and directories in the destination and copy-dest directories", "statement": "Searching a directory calls the handler for every entry in depth-first order and stops at the first call that fails. FileFinder::AddFiles adds exactly the files (everything but directories and symbolic links) and readable directories of the tree, with their path relative to the directory, modified time and size, each once, only those the path filter includes and, without --recursive, only direct entries. A directory that does not exist counts as empty; missing permissions for subdirectories are ignored; every other error is reported. FindFiles lists everything in the destination and whatever in copy-dest is not there, no path twice. Claimed and refuted: a destination that is a symbolic link to a directory is searched (it counts as empty); a destination with several trailing slashes or one that is a regular file is handled (std::out_of_range leaves nftw); an incomplete search is reported (a subdirectory that vanishes while being opened ends the search silently); every destination path can be used (wordexp errors read uninitialised memory, spaces are rejected, copy-dest is never expanded).", "quantifier": "all directory trees, names, errors at any entry, filter rules, handlers, both recursion modes", "why_tests_cant": "the tests search one small fixed tree without errors, links or special base directories", "anchors": ["common/path.cc: SearchFilesLinux, ftw_handler, ExpandPathVariables", "cdc_rsync_server/file_finder.cc: FileFinder::AddFiles, ReleaseFiles", "cdc_rsync_server/cdc_rsync_server.cc: HandleSetOptions, FindFiles"]}
{"id": "C74", "title": "A source argument stands for the files its form says, and the part cut off for the server is a part of their directory", "statement": "The client's search (Windows) calls the handler exactly for what the source stands for: the content of a directory written with a trailing backslash, a directory and its content, the entries matching a pattern, and with --recursive everything below whose name matches; each once unless a directory matches a recursive pattern. '/' is accepted for '\\', '.' and '..' mean the content of that directory, and a sources directory is put in front of the source without its root. The base directory removed for the server is empty or ends with a separator and is a prefix of the directory of everything found; without --relative it is the directory part of the source; with --relative it ends at the first \\.\\ , or is the sources directory, or the root. Hence the premises of C14 hold for the files of every source. Claimed and refuted: every file is found once (2^k times below k directories that match a recursive pattern); C:file can be used (out_of_range); doubled separators do not matter (the file is called /b on the server).", "quantifier": "all directory trees, source and sources_dir strings, patterns and matching functions, handlers, both recursion and relative modes", "why_tests_cant": "the tests use one directory tree and a dozen arguments; the claims are about all trees and strings", "anchors": ["cdc_rsync/file_finder_and_sender.cc: FindAndSendFiles, GetFullSource, GetBaseDir, GetDrivePrefixWithBackslash, EndsWithSpecialDir", "common/path.cc: SearchFiles, SearchFilesWin, GetDrivePrefix, DirName (Windows)"]}
{"id": "C75", "title": "Removing or re-creating the streamed directory, or overflowing notifications, leave a right manifest in the end", "statement": "A streaming session keeps going when the streamed directory is removed, re-created or replaced, or when changes come faster than the notifications are read. When everything has come to rest, the manifest agrees with the directory in every path (and is empty if the directory is missing), unless a change of the path was overlooked in one of four named situations; an overflow or a re-creation makes up for everything overlooked before. A noted change always wakes the runner. Unless the user goes on, the program comes to rest by itself within 40 n + 27 steps, n being the number of notifications outstanding; it never rescans forever. Claimed and refuted, each by a run in which only that situation occurs: a change between the watcher's callback and its request for notifications is seen; a temporary file that exists only during a scan is gone from the manifest; a directory that comes back for less than the watcher's interval is gone from the manifest; an update that failed once is repeated.", "quantifier": "all histories: any interleaving of changes, removals, re-creations, overflows, failures, watcher and runner steps, any number of them; all sets of paths and values", "why_tests_cant": "the claims are about every interleaving of three parties; tests see one schedule, and the gaps are microseconds wide", "anchors": ["common/file_watcher_win.cc: AsyncFileWatcher::WatchDirChanges, ReadDirChanges, ProcessDirChanges, ClearModifiedFiles", "cdc_stream/multi_session.cc: MultiSessionRunner::Run, OnFilesChanged, OnDirRecreated"]}
{"id": "C76", "title": "The progress display says what was reported, line by line, at a bounded rate", "statement": "With --quiet nothing is printed. With -v every copied or synced file and every deletion leaves exactly one lasting line, in order, that names it; a file's says 100 %, deletions are numbered. Without -v, when everything in the statistics has been copied and synced, the last line says 100 % and lasts. A total that lasts is 100 %, and the total shown never goes back and never exceeds 100 %. A report prints at most once in 100 ms on a terminal, else once a second. The search's last line has the numbers found. A file's line is exactly as wide as the console (if 12 columns are left for the path), shows the path or its end after '...', and leaves nothing of the line it overwrites. Sizes up to 2^64 are shown with at most four digits in the smallest possible unit; times as hours, minutes < 60, seconds < 60. Claimed and refuted: a finished sync says 100 % (not if all files are empty), says so once, also with --dry-run; a JSON line replaces the one before.", "quantifier": "all sequences of calls with all sizes, paths and times, both verbosities, terminal or not; all widths, sizes, durations", "why_tests_cant": "the tests check a few sequences with fixed times; the claims are about all sequences", "anchors": ["cdc_rsync/progress_tracker.cc: ProgressTracker (all public functions), UpdateOutput, OutputFileProgress, GetTotalProgress, ConsoleProgressPrinter::Print, PaddRight, ShortenFilePath, FormatIntBytes, FormatTime", "cdc_rsync/cdc_rsync_client.cc: SendMissingFiles, ReceiveSignaturesAndSendDelta (their calls)"]}
{"id": "C77", "title": "The streaming statistics display shows what was recorded", "statement": "At most 32 files are shown, none twice, only files with a chunk recorded since Clear, and always the last recorded one; up to 32 files all are shown in order. The totals are sums since Clear. A chunk has the state and thread of the last record about it. Print never reads out of bounds; a character stands for the most recently recorded chunk of its group; every chunk is in exactly one group; with room for all, one character per chunk; '-' iff nothing in the group is loaded. Every line has the same width. The first 36 threads have different colours. Recording is defined iff the file is registered and the index is smaller than its number of chunks. Claimed and refuted: the list is an LRU list; names are shortened to 32 characters; recording a chunk of a file that is not registered asserts; a file that is registered again starts with nothing loaded.", "quantifier": "all sequences of registrations, records and clears with all paths, indices, sizes, threads and times; all console widths", "why_tests_cant": "there is no test of it; which files and chunks are shown depends on the whole history", "anchors": ["manifest/stats_printer.h: StatsPrinter", "manifest/stats_printer.cc: InitFile, Clear, RecordStreamedChunk, RecordCachedChunk, Print, AddToRecentFiles, GetShortFilename"]}
{"id": "C78", "title": "Files are streamed and read exactly and to the end", "statement": "StreamReadFileContents gives the handler what is left of the file in pieces as large as the buffer (only the last smaller, none empty), in order, then (nullptr, 0); a read failure is an error without (nullptr, 0); the handler's first error ends it and is returned; this is so also for a handler that uses the file itself, and it ends if that never goes back. An empty buffer is FailedPrecondition. StreamWriteFileContents writes the pieces up to the first empty one, or a prefix and returns an error. Copying by pieces copies. ReadFile returns the whole content or an error; the ranged one exactly the existing bytes of the range. WriteFile writes the data if there is room, else a prefix. Claimed and refuted: WriteFile's ok means written; files are closed after errors; reading a directory or a pipe is an error, not a crash; the range starts at the offset (not at offsets of 2^63 and more, not on pipes); a missing file is an error (not for an empty range).", "quantifier": "all contents, positions, buffer sizes, points of failure, handlers with any state (also ones that move in the file), amounts of disk space, offsets and lengths", "why_tests_cant": "the tests read a few small files with well-behaved handlers and without failures", "anchors": ["common/path.cc: StreamReadFileContents, StreamWriteFileContents, ReadFile (3), WriteFile", "common/path.h: StreamReadFileHandler, StreamWriteFileHandler", "common/buffer.cc: resize"]}
{"id": "C79", "title": "URLs, scp commands and architectures are recognised", "statement": "Url::Parse returns the groups of the preferred match of (https?)://([^:^?/]+)(?::([0-9]+))?.* on the text in lower case, with the default port if there is none, and an error exactly if there is no match; case does not matter; protocol://host:port followed by anything but a digit is parsed into just these. ScpToSftpCommand replaces the first scp (any case) that ends a word by sftp and nothing else, and is empty exactly if there is none; it replaces the program in directories without blanks and dots. The server's architecture is what uname says if that is known, else Windows exactly if PROCESSOR_ARCHITECTURE says AMD64, else an error. Windows is guessed exactly for drives, shares and paths with only backslashes. Claimed and refuted: the program is replaced in any directory; the host is the URL's host (user names, IPv6, fragments); the port is a port; uname is decisive.", "quantifier": "all strings; all hosts, ports, directories, command lines; all outputs of the remote commands", "why_tests_cant": "the tests try a dozen strings; backtracking and first occurrences are about all of them", "anchors": ["common/url.cc: Url::Parse", "common/remote_util.cc: RemoteUtil::ScpToSftpCommand", "cdc_rsync/server_arch.cc: GuessFromDestination, DetectFromRemoteDevice, GetArchTypeFromUname, GetArchTypeFromWinProcArch"]}
{"id": "C80", "title": "Buffers behave like vectors of bytes", "statement": "After any history of constructing, resizing, reserving, clearing, appending, writing, moving (also onto itself) and destroying any number of buffers, within the size limits, every buffer has the size of the corresponding vector and holds its bytes, without undefined behaviour and without affecting the others; size never exceeds the capacity, which is allocated; == is equality of the vectors; no block has two owners or is lost, and all memory is free when all buffers are gone; pointers stay valid while the size stays within the capacity; the number of allocations of a growing buffer is logarithmic in its capacity. Claimed and refuted: running out of memory is reported; resize(n) gives a capacity of n; added bytes are zero.", "quantifier": "all histories of calls on any number of buffers, all sizes and bytes, all memory limits", "why_tests_cant": "the tests call each function a few times; aliasing, lost blocks and growth are about all histories", "anchors": ["common/buffer.h: Buffer", "common/buffer.cc: Buffer::resize, Buffer::reserve, Buffer::append, Buffer::operator=, Buffer::operator==, Buffer::~Buffer"]}
