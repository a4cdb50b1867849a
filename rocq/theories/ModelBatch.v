(** Model of the batched lists exchanged by client and server:
    cdc_rsync/file_finder_and_sender.cc (file list, client to server),
    cdc_rsync_server/cdc_rsync_server.cc HandleSendAllFiles and SendFileIndices,
    cdc_rsync_server/file_deleter_and_sender.cc (deletion list, server to
    client), cdc_rsync/cdc_rsync_client.cc ReceiveDeletedFiles and
    ReceiveFileIndices.  A channel is the list of messages sent so far (in-order
    exactly-once delivery is C07); SendMessage does not fail. *)
From Verif Require Import Base ListX Str ModelPath ModelFileDiff.
Local Open Scope N_scope.

(** ** The file list *)

(** One call of the search handler, path.h SearchHandler: [fd_dir] is the
    directory including base_dir_, with a trailing separator unless empty. *)
Record found := mk_found {
  fd_dir : bytes; fd_name : bytes; fd_mtime : Z; fd_size : N; fd_isdir : bool }.

(** messages.proto AddFilesRequest *)
Record addfiles := mk_addfiles {
  aq_dir : bytes; aq_files : list (bytes * Z * N); aq_dirs : list bytes }.

(** ClientFileInfo / ClientDirInfo, cdc_rsync/client_file_info.h:25-43 *)
Record cfile := mk_cfile { cf_path : bytes; cf_size : N; cf_base_len : N }.
Record cdir := mk_cdir { cd_path : bytes; cd_base_len : N }.

(** FileFinderAndSender's members, file_finder_and_sender.h:79-107 *)
Record ffs := mk_ffs {
  ff_base : bytes;            (* base_dir_ *)
  ff_files : list cfile;      (* files_ *)
  ff_dirs : list cdir;        (* dirs_ *)
  ff_req : addfiles;          (* request_ *)
  ff_size : N;                (* request_size_ *)
  ff_out : list addfiles      (* messages sent *)
}.
Definition ffs_init : ffs := mk_ffs [] [] [] (mk_addfiles [] [] []) 0 [].

Definition blen (b : bytes) : N := N.of_nat (length b).

Section Finder.
Variable sep : byte.                      (* PathSeparator() of the client *)
Variable included : bytes -> bool.        (* path_filter_->IsMatch, C35 *)
Variable threshold : N.                   (* request_size_threshold_ *)

(** path::Join with the client's separator, common/path.cc:72-88, 410-414 *)
Definition client_join (p a : bytes) : bytes :=
  match a with
  | [] => p
  | _ :: _ => (if needs_sep p then p ++ [sep] else p) ++ a
  end.

(** std::string::substr(n): throws if n is beyond the end *)
Definition substr (s : bytes) (n : nat) : outcome bytes :=
  if (n <=? length s)%nat then Ok (skipn n s) else UB.

(** SendFilesAndDirs, file_finder_and_sender.cc:232-246 *)
Definition ffs_send (s : ffs) : ffs :=
  match aq_files (ff_req s), aq_dirs (ff_req s) with
  | [], [] => s
  | _, _ => mk_ffs (ff_base s) (ff_files s) (ff_dirs s)
              (mk_addfiles (aq_dir (ff_req s)) [] []) (blen (aq_dir (ff_req s)))
              (ff_out s ++ [ff_req s])
  end.

(** HandleFoundFileOrDir, file_finder_and_sender.cc:174-230; the progress
    reports are left out *)
Definition handle_found (s : ffs) (f : found) : outcome ffs :=
  do relative_dir <- substr (fd_dir f) (length (ff_base s));
  if negb (included (client_join relative_dir (fd_name f))) then Ok s
  else
    let s :=
      if seqb (aq_dir (ff_req s)) relative_dir then s
      else
        let s := ffs_send s in
        mk_ffs (ff_base s) (ff_files s) (ff_dirs s)
          (mk_addfiles relative_dir (aq_files (ff_req s)) (aq_dirs (ff_req s)))
          (blen relative_dir) (ff_out s) in
    let q := ff_req s in
    let s :=
      if fd_isdir f then
        mk_ffs (ff_base s) (ff_files s)
          (ff_dirs s ++ [mk_cdir (client_join (fd_dir f) (fd_name f)) (u32 (blen (ff_base s)))])
          (mk_addfiles (aq_dir q) (aq_files q) (aq_dirs q ++ [fd_name f]))
          (ff_size s + blen (fd_name f)) (ff_out s)
      else
        mk_ffs (ff_base s)
          (ff_files s ++ [mk_cfile (client_join (fd_dir f) (fd_name f)) (fd_size f) (u32 (blen (ff_base s)))])
          (ff_dirs s)
          (mk_addfiles (aq_dir q) (aq_files q ++ [(fd_name f, fd_mtime f, fd_size f)]) (aq_dirs q))
          (ff_size s + (blen (fd_name f) + 8 + 8)) (ff_out s) in
    Ok (if threshold <=? ff_size s then ffs_send s else s).

Fixpoint handle_all (s : ffs) (fs : list found) : outcome ffs :=
  match fs with [] => Ok s | f :: fs => do s <- handle_found s f; handle_all s fs end.

(** FindAndSendFiles, file_finder_and_sender.cc:109-147, on a source for which
    GetBaseDir is [fst src] and the search (path::SearchFiles) calls the
    handler on [snd src] in this order. *)
Definition find_and_send (s : ffs) (src : bytes * list found) : outcome ffs :=
  handle_all (mk_ffs (fst src) (ff_files s) (ff_dirs s) (ff_req s) (ff_size s) (ff_out s)) (snd src).

Fixpoint find_sources (s : ffs) (srcs : list (bytes * list found)) : outcome ffs :=
  match srcs with [] => Ok s | x :: srcs => do s <- find_and_send s x; find_sources s srcs end.

(** Flush, file_finder_and_sender.cc:149-164 *)
Definition ffs_flush (s : ffs) : ffs :=
  let s := ffs_send s in
  mk_ffs (ff_base s) (ff_files s) (ff_dirs s) (ff_req s) (ff_size s) (ff_out s ++ [ff_req s]).

(** cdc_rsync_client.cc:510-540 FindAndSendAllSourceFiles *)
Definition send_all_files (srcs : list (bytes * list found)) : outcome ffs :=
  do s <- find_sources ffs_init srcs; Ok (ffs_flush s).
End Finder.

(** The server's end, cdc_rsync_server.cc:478-511 HandleSendAllFiles.  Returns
    client_files_, client_dirs_ and the messages that were not consumed; [Fail]
    when there is no further message (ReceiveMessage would wait). *)
Definition add_files (dir : bytes) (fs : list (bytes * Z * N)) (acc : list finfo) : list finfo :=
  fold_left (fun acc f =>
    let '(name, mtime, size) := f in
    acc ++ [mk_finfo (join dir name) mtime size (u32 (N.of_nat (length acc))) nullptr]) fs acc.
Definition add_dirs (dir : bytes) (ds : list bytes) (acc : list dinfo) : list dinfo :=
  fold_left (fun acc name =>
    acc ++ [mk_dinfo (join dir name) (u32 (N.of_nat (length acc))) nullptr]) ds acc.

Fixpoint handle_send_all_files (msgs : list addfiles) (files : list finfo) (dirs : list dinfo)
  : outcome (list finfo * list dinfo * list addfiles) :=
  match msgs with
  | [] => Fail
  | q :: msgs =>
      match aq_files q, aq_dirs q with
      | [], [] => Ok (files, dirs, msgs)
      | _, _ =>
          let dir := fix_seps (aq_dir q) in
          handle_send_all_files msgs (add_files dir (aq_files q) files) (add_dirs dir (aq_dirs q) dirs)
      end
  end.

(** ** The deletion list *)

(** messages.proto AddDeletedFilesResponse *)
Record addDeleted := mk_addDeleted { ad_dir : bytes; ad_files : list bytes; ad_dirs : list bytes }.

(** FileDeleterAndSender's members *)
Record fds := mk_fds { fs_resp : addDeleted; fs_size : N; fs_out : list addDeleted }.
Definition fds_init : fds := mk_fds (mk_addDeleted [] [] []) 0 [].

(** SendFilesAndDirs, file_deleter_and_sender.cc:96-109 *)
Definition fds_send (s : fds) : fds :=
  match ad_files (fs_resp s), ad_dirs (fs_resp s) with
  | [], [] => s
  | _, _ => mk_fds (mk_addDeleted [] [] []) 0 (fs_out s ++ [fs_resp s])
  end.

(** relative_dir, file_deleter_and_sender.cc:45-46 *)
Definition del_dir (p : bytes) : bytes := match dirname p with [] => [] | _ => ensure_ends_with_sep (dirname p) end.

Section Deleter.
Variable threshold : N.

(** The reporting part of DeleteAndSendFileOrDir, file_deleter_and_sender.cc:45-76;
    the removal (:36-43) is in ModelSync. *)
Definition report_deleted (s : fds) (relative_path : bytes) (is_directory : bool) : fds :=
  let relative_dir := del_dir relative_path in
  let s :=
    if seqb (ad_dir (fs_resp s)) relative_dir then s
    else
      let s := fds_send s in
      mk_fds (mk_addDeleted relative_dir (ad_files (fs_resp s)) (ad_dirs (fs_resp s)))
             (blen relative_dir) (fs_out s) in
  let filename := basename relative_path in
  let r := fs_resp s in
  let s := mk_fds (if is_directory then mk_addDeleted (ad_dir r) (ad_files r) (ad_dirs r ++ [filename])
                   else mk_addDeleted (ad_dir r) (ad_files r ++ [filename]) (ad_dirs r))
                  (fs_size s + blen filename) (fs_out s) in
  if threshold <=? fs_size s then fds_send s else s.

Definition report_all (ds : list (bytes * bool)) (s : fds) : fds :=
  fold_left (fun s d => report_deleted s (fst d) (snd d)) ds s.

(** Flush, file_deleter_and_sender.cc:79-94 *)
Definition fds_flush (s : fds) : list addDeleted :=
  let s := fds_send s in fs_out s ++ [fs_resp s].
End Deleter.

(** ReceiveDeletedFiles, cdc_rsync_client.cc:559-588: the paths passed to
    ReportFileDeleted (false) and ReportDirDeleted (true), in order, and the
    messages not consumed. *)
Fixpoint receive_deleted (msgs : list addDeleted) : outcome (list (bytes * bool) * list addDeleted) :=
  match msgs with
  | [] => Fail
  | r :: msgs =>
      match ad_files r, ad_dirs r with
      | [], [] => Ok ([], msgs)
      | _, _ =>
          do x <- receive_deleted msgs;
          Ok (map (fun f => (ad_dir r ++ f, false)) (ad_files r) ++
              map (fun d => (ad_dir r ++ d, true)) (ad_dirs r) ++ fst x, snd x)
      end
  end.

(** ** Index lists *)

(** kMaxBatchSize, cdc_rsync_server.cc:613 *)
Definition kMaxBatchSize : nat := 4000.

(** SendFileIndices, cdc_rsync_server.cc:602-642: [cur] is the message being
    filled. *)
Fixpoint send_indices (batch : nat) (cur : list N) (idx : list N) : list (list N) :=
  match idx with
  | [] => (match cur with [] => [] | _ => [cur] end) ++ [[]]
  | i :: idx =>
      let cur := cur ++ [i] in
      if (batch <=? length cur)%nat then cur :: send_indices batch [] idx
      else send_indices batch cur idx
  end.
Definition send_file_indices (idx : list N) : list (list N) := send_indices kMaxBatchSize [] idx.

(** ReceiveFileIndices, cdc_rsync_client.cc:590-622; [acc] is *file_indices *)
Fixpoint receive_indices (num_files : nat) (msgs : list (list N)) (acc : list N) : outcome (list N * list (list N)) :=
  match msgs with
  | [] => Fail
  | [] :: msgs =>
      if existsb (fun i => N.of_nat num_files <=? i) acc then Fail else Ok (acc, msgs)
  | m :: msgs => receive_indices num_files msgs (acc ++ m)
  end.
