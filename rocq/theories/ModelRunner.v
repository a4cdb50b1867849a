(** Model of the loop of MultiSessionRunner::Run (cdc_stream/multi_session.cc:208-290),
    of OnFilesChanged (multi_session.cc:372-375), of ManifestUpdater::DefaultManifestId
    (manifest/manifest_updater.cc:474-504) and of the thread of FileWatcherWin
    (common/file_watcher_win.cc:298-527) after StartWatching and UpdateAll succeeded.

    Simplifications: time is left out (the changes are picked up at any time when
    files_changed_ is set); the removal and re-creation of the watched directory, buffer
    overflows and shutdown are not modelled; a run of Update is one step, although the
    source may change and notifications arrive while it runs: what it reads is limited
    accordingly; an Update that fails does so before files are queued or after the last
    one was handled (otherwise the queue is kept for the next call). *)
From Verif Require Import Base Str ModelText ModelPath SpecPath ModelCdc ModelChunkMap ModelProvider ModelAsset SpecAsset ModelManifest SpecManifest ModelUpdater SpecUpdater PropUpdater SpecWatch ModelWatch SpecMerge SpecRunner PropIncr.
From Coq Require Import Permutation.
Local Open Scope N_scope.

Section Runner.
Context (store : cid -> option (list asset)) (truth : cid -> option bytes) (clists : cid -> option (list cref)) (store_root : cid -> option asset)
  (put : list asset -> option cid) (put_chunks : list cref -> option cid) (put_root : asset -> option cid)
  (sort_desc : list asset -> list asset) (max_size : N) (sort : list ainfo -> list ainfo)
  (push : bool) (max_queued : nat) (mpt : Z).
Notation fl := (flushing store put put_chunks put_root sort_desc max_size).

(** A call of Update (manifest_updater.cc:765-897) that returns: the manifest is loaded,
    the operations are applied, the files are read by [chunk], the manifest is stored. *)
Definition update (ops : list operation) (chunk : bytes -> option chunked -> Prop) (b b2 : builder) : Prop :=
  exists search fc m0 m now fuel id b' log,
    start store fl push ops false b fc m0 /\
    msteps store clists sort search chunk fl push max_queued mpt m0 m /\ loop_done m /\
    flush store now put put_chunks put_root sort_desc max_size fuel (u_b (m_u m)) = Ok (id, b', log) /\
    separate store (b_lists (u_b (m_u m))) (root_of now (u_b (m_u m))) log /\
    load_manifest store_root id = Some b2.

(** DefaultManifestId (manifest_updater.cc:474-504): a manifest without any entry is
    stored as the current one. *)
Definition default_manifest (b2 : builder) : Prop :=
  exists now fuel id b' log,
    flush store now put put_chunks put_root sort_desc max_size fuel (mkb None (fun _ => None)) = Ok (id, b', log) /\
    separate store (fun _ => None) (root_of now (mkb None (fun _ => None))) log /\ load_manifest store_root id = Some b2.

(** The state.  The last four fields are not in the program. *)
Record world := mkw {
  w_map : fmap;                        (* modified_files_ of the watcher *)
  w_due : bool;                        (* changes were merged, the callback not yet called (file_watcher_win.cc:523-525) *)
  w_changed : bool;                    (* files_changed_ *)
  w_update : option (list operation);  (* Update is running with these *)
  w_man : builder;                     (* the manifest that was stored last *)
  w_lost : path -> Prop;               (* paths whose last change was lost, see the steps *)
  w_os : list change;                  (* changes whose notifications have not been read *)
  w_seen : list change;                (* changes merged into w_map since the last pick-up *)
  w_base : path -> option snode }.     (* the source as of the last pick-up *)
Definition w_src (w : world) : path -> option snode := apply_changes (w_base w) (w_seen w ++ w_os w).
(** The paths that changed after the last pick-up. *)
Definition pending (w : world) (q : path) : Prop := In q (map c_path (w_seen w ++ w_os w)).

(** [true]: a step of the program; [false]: the user changes something. *)
Inductive wstep : bool -> world -> world -> Prop :=
| W_change w c : happens (w_src w) c ->
    wstep false w (mkw (w_map w) (w_due w) (w_changed w) (w_update w) (w_man w) (w_lost w) (w_os w ++ [c]) (w_seen w) (w_base w))
(** The watcher thread reads notifications and merges them (file_watcher_win.cc:394-427, 451-522). *)
| W_merge w a r : w_due w = false -> w_os w = a ++ r -> a <> [] ->
    wstep true w (mkw (process (w_map w) (map c_note a)) true (w_changed w) (w_update w) (w_man w) (w_lost w) r (w_seen w ++ a) (w_base w))
(** It calls OnFilesChanged (multi_session.cc:372-375). *)
| W_callback w : w_due w = true ->
    wstep true w (mkw (w_map w) false true (w_update w) (w_man w) (w_lost w) (w_os w) (w_seen w) (w_base w))
(** The changes are picked up (multi_session.cc:240-245, 275-278).  The change of a path
    that was removed more than once since the last time may get lost (C51). *)
| W_pick w ops (lost : path -> Prop) : w_changed w = true -> w_update w = None -> Permutation ops (get_file_operations (w_map w)) ->
    (forall q, w_lost w q -> lost q) ->
    (forall q, w_base w q <> None -> (2 <= removals (wstr q) (map c_note (w_seen w)))%nat -> lost q) ->
    wstep true w (mkw [] (w_due w) false (match w_map w with [] => None | _ => Some ops end) (w_man w) lost (w_os w) [] (apply_changes (w_base w) (w_seen w)))
(** Update is done.  What it could not read is lost, unless it was changed meanwhile;
    what the operations tell is not lost any more. *)
| W_done w ops (chunk : bytes -> option chunked -> Prop) b2 (lost : path -> Prop) : w_update w = Some ops -> update ops chunk (w_man w) b2 ->
    (forall q, w_lost w q -> told (w_base w) ops q \/ lost q) ->
    (forall q, ~ pending w q -> reads_file truth clists (w_base w) chunk q \/ lost q) ->
    wstep true w (mkw (w_map w) (w_due w) (w_changed w) None b2 lost (w_os w) (w_seen w) (w_base w))
(** Update failed (multi_session.cc:281-285): everything is lost. *)
| W_failed w ops b2 (lost : path -> Prop) : w_update w = Some ops -> default_manifest b2 -> (forall q, w_base w q <> None -> lost q) ->
    wstep true w (mkw (w_map w) (w_due w) (w_changed w) None b2 lost (w_os w) (w_seen w) (w_base w)).

Inductive wsteps : world -> world -> Prop :=
| wsteps_refl w : wsteps w w
| wsteps_step b w w1 w2 : wsteps w w1 -> wstep b w1 w2 -> wsteps w w2.
(** Steps of the program only, and their number. *)
Inductive own_steps : nat -> world -> world -> Prop :=
| own_refl w : own_steps 0 w w
| own_step n w w1 w2 : own_steps n w w1 -> wstep true w1 w2 -> own_steps (S n) w w2.

(** Everything has been handled. *)
Definition settled (w : world) : Prop := w_os w = [] /\ w_due w = false /\ w_changed w = false /\ w_update w = None.
End Runner.
