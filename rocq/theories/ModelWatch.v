(** Model of the part of common/file_watcher_win.cc that collects changes of the
    streamed directory and of the part of cdc_stream/multi_session.cc that hands them to
    the manifest updater.

    Simplifications: one FILE_NOTIFY_EXTENDED_INFORMATION is a [notification]; file
    names are UTF-8 strings already (Util::WideToUtf8Str is the identity); the variant
    without ReadDirectoryChangesExW, which reads size and time later, is left out, as are
    event_count_ and the re-creation of the watched directory itself. *)
From Verif Require Import Base Str ModelText ModelPath ModelCdc ModelChunkMap ModelProvider ModelAsset ModelManifest ModelUpdater.
Local Open Scope N_scope.

(** FileWatcherWin::FileAction, FileInfo (file_watcher_win.h:40-50). *)
Inductive faction := FAdded | FModified | FDeleted.
Record finfo := mkfi { fi_action : faction; fi_dir : bool; fi_size : N; fi_mtime : N }.

(** FileMap (file_watcher_win.h:52): an unordered_map, here the list of its entries in
    iteration order.  find, erase and insert_or_assign. *)
Definition fmap := list (bytes * finfo).
Fixpoint fm_find (k : bytes) (m : fmap) : option finfo :=
  match m with
  | [] => None
  | (x, i) :: r => if name_eqb x k then Some i else fm_find k r
  end.
Definition fm_erase (k : bytes) (m : fmap) : fmap := filter (fun e => negb (name_eqb (fst e) k)) m.
Definition fm_assign (k : bytes) (i : finfo) (m : fmap) : fmap := (k, i) :: fm_erase k m.

(** FILE_ACTION_*, and one entry of the buffer. *)
Inductive naction := NAdded | NRemoved | NModified | NOldName | NNewName.
Record notification := mkn { n_name : bytes; n_action : naction; n_dir : bool; n_size : N; n_mtime : N }.

(** One iteration of the loop in ProcessDirChanges (file_watcher_win.cc:460-520). *)
Definition merge (m : fmap) (n : notification) : fmap :=
  let was_added := match fm_find (n_name n) m with Some i => match fi_action i with FAdded => true | _ => false end | None => false end in
  let info a := mkfi a (n_dir n) (n_size n) (n_mtime n) in
  match n_action n with
  | NRemoved | NOldName =>
      if was_added then fm_erase (n_name n) m else fm_assign (n_name n) (info FDeleted) m
  | NAdded | NNewName => fm_assign (n_name n) (info FAdded) m
  | NModified => fm_assign (n_name n) (info (if was_added then FAdded else FModified)) m
  end.
(** ProcessDirChanges (451-526) without the callback, for any number of buffers. *)
Definition process (m : fmap) (ns : list notification) : fmap := fold_left merge ns m.

(** FileWatcherActionToOperation, GetFileOperations (multi_session.cc:41-73). *)
Definition file_operation (e : bytes * finfo) : operation :=
  let i := snd e in
  (match fi_action i with FAdded => KAdd | FModified => KUpdate | FDeleted => KDelete end,
   mkai (fst e) (if fi_dir i then TDir else TFile) (fi_mtime i) (fi_size i) []).
Definition get_file_operations (m : fmap) : list operation := map file_operation m.
