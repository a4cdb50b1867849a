(** Model of what a sync does to the destination directory:
    cdc_rsync_server/cdc_rsync_server.cc (FindFiles, DiffFiles,
    RemoveExtraneousFilesAndDirs, CreateMissingDirs, HandleSendMissingFileData,
    SyncChangedFiles, PatchTask, FinalizeCopiedFileTask) on a file system. *)
From Verif Require Import Base ListX Str ModelFastcdc ModelCdc ModelFileDiff.
Local Open Scope N_scope.

(** ** The file system *)

(** A directory tree: all paths are relative to its root, components separated by
    single slashes; the root itself ([]) is not listed.  No symbolic links, no
    permissions are checked. *)
Record file := mk_file { f_data : bytes; f_mtime : Z; f_mode : N }.
Inductive node := NDir | NFile (f : file).
Definition fs := list (bytes * node).

Fixpoint get (s : fs) (p : bytes) : option node :=
  match s with
  | [] => None
  | (q, n) :: s => if seqb q p then Some n else get s p
  end.
Definition del (s : fs) (p : bytes) : fs := filter (fun e => negb (seqb (fst e) p)) s.
Definition put (s : fs) (p : bytes) (n : node) : fs := (p, n) :: del s p.

(** The directories above [p], outermost first. *)
Fixpoint above (pre p : bytes) : list bytes :=
  match p with
  | [] => []
  | c :: p => if c =? 47 then pre :: above (pre ++ [c]) p else above (pre ++ [c]) p
  end.
Definition ancestors (p : bytes) : list bytes := above [] p.

Definition is_dir (s : fs) (p : bytes) : bool := match get s p with Some NDir => true | _ => false end.
Definition is_file (s : fs) (p : bytes) : bool := match get s p with Some (NFile _) => true | _ => false end.
Definition resolves (s : fs) (p : bytes) : bool := forallb (is_dir s) (ancestors p).
Definition has_children (s : fs) (p : bytes) : bool := existsb (fun e => existsb (seqb p) (ancestors (fst e))) s.

(** System calls.  [now]: the time at which a file is written; [mode0]: the mode of new
    files.  Writing goes through a FILE*, here by path: no modelled step moves a file
    that is still being written. *)
Variant op :=
| ORemove (p : bytes)            (* path::RemoveFile, common/path.cc:1069-1087: remove(), ENOENT is ignored *)
| OMkdir (p : bytes)             (* one component of create_directories, path.cc:1031-1037 *)
| OOpen (p : bytes)              (* path::OpenFile(p, "wb") *)
| OAppend (p : bytes) (b : bytes) (* fwrite, in StreamWriteFileContents and ReceiveDiffAndPatch *)
| ORename (p q : bytes)          (* path.cc:1039-1045 *)
| OChmod (p : bytes) (m : N)     (* path::ChangeMode *)
| OUtime (p : bytes) (t : Z).    (* path::SetFileTime *)

Section Fs.
Variable now : Z.
Variable mode0 : N.

Definition exec_op (o : op) (s : fs) : outcome fs :=
  match o with
  | ORemove p =>
      if existsb (is_file s) (ancestors p) then Fail           (* ENOTDIR *)
      else match get s p with
           | None => Ok s                                       (* ENOENT *)
           | Some (NFile _) => Ok (del s p)
           | Some NDir => if has_children s p then Fail else Ok (del s p)
           end
  | OMkdir p =>
      match get s p with
      | Some NDir => Ok s
      | Some (NFile _) => Fail
      | None => if resolves s p then Ok (put s p NDir) else Fail
      end
  | OOpen p =>
      if resolves s p then
        match get s p with
        | Some NDir => Fail
        | Some (NFile f) => Ok (put s p (NFile (mk_file [] now (f_mode f))))
        | None => Ok (put s p (NFile (mk_file [] now mode0)))
        end
      else Fail
  | OAppend p b =>
      match get s p with
      | Some (NFile f) => Ok (put s p (NFile (mk_file (f_data f ++ b) now (f_mode f))))
      | _ => Fail
      end
  | ORename p q =>
      match get s p, get s q with
      | Some (NFile f), Some NDir => Fail
      | Some (NFile f), _ => if resolves s q then Ok (put (del s p) q (NFile f)) else Fail
      | _, _ => Fail                                            (* directories are never renamed *)
      end
  | OChmod p m =>
      match get s p with
      | Some (NFile f) => Ok (put s p (NFile (mk_file (f_data f) (f_mtime f) m)))
      | _ => Fail
      end
  | OUtime p t =>
      match get s p with
      | Some (NFile f) => Ok (put s p (NFile (mk_file (f_data f) t (f_mode f))))
      | _ => Fail
      end
  end.

(** ** Tasks *)

(** What a task still has to do.  [QRead copy p k]: read the file [p] of the
    destination or of the copy-dest directory; [QStat]: its mode; [QExists] and
    [QIsDir] ask the destination.  [QErr]: the status of the task is an error. *)
Inductive prog :=
| QDo (o : op) (k : prog)
| QRead (copy : bool) (p : bytes) (k : bytes -> prog)
| QStat (copy : bool) (p : bytes) (k : N -> prog)
| QExists (p : bytes) (yes no : prog)
| QIsDir (p : bytes) (yes no : prog)
| QEnd
| QErr.

(** The copy-dest directory; it is only read. *)
Variable copy_fs : fs.

Definition tree (copy : bool) (s : fs) : fs := if copy then copy_fs else s.
Definition step_prog (p : prog) (s : fs) : option (prog * fs) :=
  match p with
  | QDo o k => match exec_op o s with Ok s' => Some (k, s') | _ => Some (QErr, s) end
  | QRead c p k => match get (tree c s) p with Some (NFile f) => Some (k (f_data f), s) | _ => Some (QErr, s) end
  | QStat c p k => match get (tree c s) p with
                   | Some (NFile f) => Some (k (f_mode f), s)
                   | Some NDir => Some (k 0, s)
                   | None => Some (QErr, s)
                   end
  | QExists p yes no => Some (match get s p with Some _ => yes | None => no end, s)
  | QIsDir p yes no => Some (if is_dir s p then yes else no, s)
  | QEnd | QErr => None
  end.

Fixpoint do_all (os : list op) (k : prog) : prog := match os with [] => k | o :: os => QDo o (do_all os k) end.
End Fs.

(** ** The server *)
Record sopts := mk_sopts {
  so_delete : bool; so_recursive : bool; so_relative : bool; so_existing : bool;
  so_checksum : bool; so_whole_file : bool; so_dry_run : bool }.

(** The pointers destination_.c_str() and copy_dest_.c_str(), see ModelFileDiff. *)
Definition dest_ptr : ptr := 1.
Definition copy_ptr : ptr := 2.

(** ".__cdc_rsync_temp__", cdc_rsync_server.cc:43-44 *)
Definition temp_suffix : bytes := [46; 95; 95; 99; 100; 99; 95; 114; 115; 121; 110; 99; 95; 116; 101; 109; 112; 95; 95].

Definition kExecutableBits : N := 73. (* 0111, cdc_rsync_server.cc:52-53 *)
Definition MODE_IWUSR : N := 128.     (* common/path.h *)

Section Server.
Variable mode0 : N.
Variable copy_fs : option fs.               (* None: no --copy-dest *)
Variable filter_match : bytes -> bool.      (* PathFilter::IsMatch *)
Variable dir_stat : Z * N.                  (* time and size that stat reports for directories *)
Variable sort_f : list finfo -> list finfo.
Variable sort_d : list dinfo -> list dinfo.
Variable opts : sopts.
(** The client's files and their contents, by index. *)
Variable client_files : list finfo.
Variable client_dirs : list dinfo.
Variable content : N -> bytes.
(** The blocks in which the contents of a file arrive, HandleSendMissingFileData and
    ReceiveDiffAndPatch. *)
Variable blocks : bytes -> list bytes.
(** The rsync exchange, see ModelCdc; scheduling may differ from file to file. *)
Variable hash : bytes -> N.
Variable w : nat.
Variable gear : byte -> N.
Variable cfg : config.
Variable iobuf : nat.
Variable completed available : N -> nat -> bool.

(** ftw_handler (common/path.cc:655-687) calls the handler for files and directories
    of the first level or, with --recursive, of all levels; FileFinder::AddFiles
    (file_finder.cc:26-42) drops paths that the filter excludes. *)
Definition visible (p : bytes) : bool := filter_match p && (so_recursive opts || match ancestors p with [] => true | _ => false end).
Definition scan_files (s : fs) (base : ptr) : list finfo :=
  flat_map (fun e => match snd e with
                     | NFile f => if visible (fst e) then [mk_finfo (fst e) (f_mtime f) (N.of_nat (length (f_data f))) kInvalidIndex base] else []
                     | NDir => []
                     end) s.
Definition scan_dirs (s : fs) (base : ptr) : list dinfo :=
  flat_map (fun e => match snd e with NDir => if visible (fst e) then [mk_dinfo (fst e) kInvalidIndex base] else [] | _ => [] end) s.

(** FindFiles, cdc_rsync_server.cc:452-477 *)
Definition server_lists (s : fs) : list finfo * list dinfo :=
  match copy_fs with
  | None => release_files (scan_files s dest_ptr) (scan_dirs s dest_ptr)
  | Some c => release_files (scan_files s dest_ptr ++ scan_files c copy_ptr) (scan_dirs s dest_ptr ++ scan_dirs c copy_ptr)
  end.

(** path::GetStats *)
Definition stat_in (s : fs) (p : bytes) : option (Z * N) :=
  match get s p with
  | Some (NFile f) => Some (f_mtime f, N.of_nat (length (f_data f)))
  | Some NDir => Some dir_stat
  | None => None
  end.
Definition the_copy : fs := match copy_fs with Some c => c | None => [] end.

(** DiffFiles, cdc_rsync_server.cc:513-538 *)
Definition make_diff (s : fs) : diff :=
  let '(sf, sd) := server_lists s in
  let d := generate (fun b p => if b =? copy_ptr then stat_in the_copy p else stat_in s p)
             dest_ptr (match copy_fs with Some _ => Some copy_ptr | None => None end)
             (so_relative opts && negb (so_recursive opts)) sort_f sort_d
             client_files sf client_dirs sd in
  snd (adjust_to_flags (so_existing opts) (so_checksum opts) (so_whole_file opts) d).

(** RemoveExtraneousFilesAndDirs, cdc_rsync_server.cc:540-575, with
    FileDeleterAndSender::DeleteAndSendFileOrDir (file_deleter_and_sender.cc:29-44),
    which removes nothing in a dry run. *)
Definition delete_task (d : diff) : prog :=
  do_all (if so_dry_run opts then []
          else map ORemove (map fi_path (extraneous_files d) ++ map di_path (rev (sort_d (extraneous_dirs d))))) QEnd.

(** path::CreateDirRec *)
Definition mkdirs (p : bytes) : list op := map OMkdir (ancestors p ++ [p]).

(** CreateMissingDirs, cdc_rsync_server.cc:577-600 *)
Fixpoint mkdirs_task (ds : list dinfo) : prog :=
  match ds with
  | [] => QEnd
  | d :: ds =>
      let k := do_all (mkdirs (di_path d)) (mkdirs_task ds) in
      QExists (di_path d) (QDo (ORemove (di_path d)) k) k
  end.

(** One iteration of HandleSendMissingFileData (cdc_rsync_server.cc:665-735) and the
    FinalizeCopiedFileTask for the file (:190-240).  DirName of a path below the
    destination is the last of its ancestors. *)
Definition missing_task (f : finfo) : prog :=
  let p := fi_path f in
  let bs := blocks (content (fi_index f)) in
  let k := do_all (map OMkdir (ancestors p)) (QDo (OOpen p) (do_all (map (OAppend p) bs)
             (QDo (OUtime p (fi_mtime f))
               (if match bs with b :: _ => is_executable b | [] => false end
                then QStat false p (fun m => QDo (OChmod p (N.lor m kExecutableBits)) QEnd)
                else QEnd)))) in
  QIsDir p (QDo (ORemove p) k) k.

(** The messages for one changed file: CreateAndSendSignature on the basis,
    ReceiveSignatureAndCreateAndSendDiff on the client's file. *)
Definition exchange (i : N) (basis src : bytes) : outcome (list request) :=
  do sigs <- create_signature hash w gear cfg iobuf (completed i) basis;
  create_diff hash w gear cfg iobuf (available i) src sigs.

(** One iteration of SyncChangedFiles (cdc_rsync_server.cc:806-832) and the PatchTask
    (:59-171).  Simplified: the basis is read at once when it is patched, not chunk by
    chunk between the writes. *)
Definition changed_task (c : cinfo) : prog :=
  let p := ci_path c in
  let copy := ci_base c =? copy_ptr in
  let temp := if copy then p else p ++ temp_suffix in
  QRead copy p (fun basis =>
    match exchange (ci_index c) basis (content (ci_index c)) with
    | Ok reqs =>
        QDo (OOpen temp) (QRead copy p (fun basis =>
          match patch basis reqs with
          | Ok (data, ex) =>
              do_all (map (OAppend temp) (blocks data)) (QStat copy p (fun m =>
                let mode := N.lor m (if ex then kExecutableBits else 0) in
                if copy then QDo (OChmod p (N.lor mode MODE_IWUSR)) (QDo (OUtime p (ci_mtime c)) QEnd)
                else QDo (ORemove p) (QDo (ORename temp p) (QDo (OChmod p mode) (QDo (OUtime p (ci_mtime c)) QEnd)))))
          | _ => QErr
          end))
    | _ => QErr
    end).

(** Sync, cdc_rsync_server.cc:326-400: the phases and the tasks of each.  The tasks of
    a phase may run at the same time (patcher, finalizers); here every task may take
    its next step at any time. *)
Definition phases (s : fs) : list (list prog) :=
  let d := make_diff s in
  (if so_delete opts then [[delete_task d]] else []) ++
  (if so_dry_run opts then []
   else [[mkdirs_task (missing_dirs d)]; map missing_task (missing_files d); map changed_task (changed_files d)]).

(** A sync in progress: what is left to do, and the destination. *)
Definition sync_state := (list (list prog) * fs)%type.
Definition all_ended (ps : list prog) : Prop := Forall (fun p => p = QEnd) ps.
Inductive sync_step : sync_state -> sync_state -> Prop :=
| sync_task now l1 p p' l2 rest s s' :
    step_prog now mode0 the_copy p s = Some (p', s') -> sync_step ((l1 ++ p :: l2) :: rest, s) ((l1 ++ p' :: l2) :: rest, s')
| sync_next ps rest s : all_ended ps -> sync_step (ps :: rest, s) (rest, s).
Inductive sync_runs : sync_state -> sync_state -> Prop :=
| runs_refl x : sync_runs x x
| runs_step x y z : sync_step x y -> sync_runs y z -> sync_runs x z.

(** [s'] is the destination at some moment of a sync (a crash point) of [s], or after a
    sync that has succeeded. *)
Definition during (s s' : fs) : Prop := exists rest, sync_runs (phases s, s) (rest, s').
Definition synced (s s' : fs) : Prop := sync_runs (phases s, s) ([], s').
End Server.
