(** Model of a streaming session whose watched directory is removed, re-created or
    changed faster than the notifications can be read: MultiSessionRunner::Run
    (cdc_stream/multi_session.cc:176-290, 372-380) together with the thread of
    FileWatcherWin (common/file_watcher_win.cc:196-527).

    Simplifications: a path has a value (absent, or whatever the manifest would hold for
    it), and paths are independent of each other; what a run of Update or UpdateAll
    stores is taken from C30 and C50: the value a path has, unless it changed in the
    meantime, in which case it may store anything; time is left out; a buffer with several
    notifications is handled in as many steps; shutdown is not modelled, and neither is a
    failing first UpdateAll, which ends the session. *)
From Verif Require Import Base.

Section Rescan.
Context {P V : Type} (P_eq : forall p q : P, {p = q} + {p <> q}) (absent : V).

(** FILE_ACTION_..., file_watcher_win.cc:469-490: renames count as removed and added. *)
Inductive kind := Added | Removed | Modified.
(** FileAction, file_watcher_win.h *)
Inductive action := AAdded | ADeleted | AModified.

(** file_watcher_win.cc:458-513: what becomes of the entry of a path. *)
Definition merge (old : option action) (k : kind) : option action :=
  let was_added := match old with Some AAdded => true | _ => false end in
  match k with
  | Removed => if was_added then None else Some ADeleted
  | Added => Some AAdded
  | Modified => Some (if was_added then AAdded else AModified)
  end.

(** Where the watcher's thread is, file_watcher_win.cc:196-258. *)
Inductive stage :=
| Opening (prev_run_was_success : bool)  (* before GetValidDirHandle, :214 *)
| Opened                                 (* it succeeded, before the callback, :218-221 *)
| Called                                 (* after the callback, before ReadDirectoryChanges, :314 *)
| Reading                                (* notifications are being collected, :338-444 *)
| Failed.                                (* ReadDirChanges returned, before ClearModifiedFiles, :234 *)

(** What the runner is doing, multi_session.cc:192, 255, 275; with the paths that may have
    changed since (not in the program). *)
Inductive job :=
| Idle
| All (first : bool) (touched : P -> bool)
| Update (ops : P -> option action) (touched : P -> bool).

Record world := mkw {
  src : P -> V;                  (* the directory *)
  exists_ : bool;                (* the directory is there *)
  replaced : bool;               (* the open handle belongs to a directory that is gone *)
  st : stage;
  os : list (P * kind);          (* notifications the system has collected *)
  dirty : P -> option action;    (* modified_files_ *)
  due : bool;                    (* files_changed_cb_ is about to be called, :525 *)
  files_changed : bool;
  dir_recreated : bool;
  work : job;
  man : P -> V;                  (* the manifest that was stored last *)
  lost : P -> Prop }.            (* not in the program: paths with a lost change *)

Definition upd {X} (f : P -> X) (p : P) (x : X) : P -> X := fun q => if P_eq q p then x else f q.
Definition touch (j : job) (p : P) : job :=
  match j with
  | Idle => Idle
  | All f t => All f (upd t p true)
  | Update ops t => Update ops (upd t p true)
  end.
Definition touch_all (j : job) : job :=
  match j with Idle => Idle | All f _ => All f (fun _ => true) | Update ops _ => Update ops (fun _ => true) end.
Definition changes (old new : V) (k : kind) : Prop :=
  match k with
  | Added => old = absent /\ new <> absent
  | Removed => old <> absent /\ new = absent
  | Modified => old <> absent /\ new <> absent /\ new <> old
  end.
Definition is_reading (s : stage) : bool := match s with Reading => true | _ => false end.
(** A path the running job may store a wrong value for. *)
Definition may_spoil (j : job) (q : P) : Prop :=
  match j with Idle => False | All _ t => t q = true | Update ops t => ops q <> None /\ t q = true end.

(** Labels: what the user does, a step of the program, the system's buffer overflows, an
    update fails. *)
Inductive label := User | Own | Overflow | Failure.

Inductive step : label -> world -> world -> Prop :=
(** A path changes.  The system collects a notification if ReadDirectoryChanges has been
    called for this directory.  If the callback that asks for a scan has been made and
    taken up, but ReadDirectoryChanges not yet called, nobody is told. *)
| S_change w p v k : exists_ w = true -> changes (src w p) v k ->
    step User w (mkw (upd (src w) p v) true (replaced w) (st w)
      (if is_reading (st w) && negb (replaced w) then os w ++ [(p, k)] else os w)
      (dirty w) (due w) (files_changed w) (dir_recreated w) (touch (work w) p) (man w)
      (fun q => lost w q \/ (q = p /\ st w = Called /\ replaced w = false /\ dir_recreated w = false)))
(** The directory is removed, created or replaced.  If it has been missing, was created and
    disappears again before the watcher looks (every timeout_ms_, :245-250), nobody is told. *)
| S_replace w src' e : (e = false -> forall q, src' q = absent) -> exists_ w = true \/ e = true ->
    step User w (mkw src' e true (st w) (os w) (dirty w) (due w) (files_changed w) (dir_recreated w)
      (touch_all (work w)) (man w)
      (fun q => lost w q \/ (st w = Opening false /\ e = false /\ dir_recreated w = false /\
                             (man w q <> absent \/ may_spoil (touch_all (work w)) q))))
(** GetValidDirHandle, :214-221, 235-239 *)
| S_open w b : st w = Opening b -> exists_ w = true ->
    step Own w (mkw (src w) true false Opened [] (dirty w) (due w) (files_changed w) (dir_recreated w) (work w) (man w) (lost w))
| S_missing w : st w = Opening true -> exists_ w = false ->
    step Own w (mkw (src w) false (replaced w) (Opening false) (os w) (dirty w) (due w) (files_changed w) true (work w) (man w) (lost w))
(** dir_recreated_cb_, :221; OnDirRecreated, multi_session.cc:377-380 *)
| S_callback w : st w = Opened ->
    step Own w (mkw (src w) (exists_ w) (replaced w) Called (os w) (dirty w) (due w) (files_changed w) true (work w) (man w) (lost w))
(** ReadDirectoryChanges, :313-329 *)
| S_read w : st w = Called ->
    step Own w (mkw (src w) (exists_ w) (replaced w) Reading (os w) (dirty w) (due w) (files_changed w) (dir_recreated w) (work w) (man w) (lost w))
(** The removal or re-creation is detected, :346-376, or reading fails, :393-401, 434-440 *)
| S_detect w : st w = Reading -> replaced w = true ->
    step Own w (mkw (src w) (exists_ w) true Failed [] (dirty w) (due w) (files_changed w) (dir_recreated w) (work w) (man w) (lost w))
(** The buffer overflows, :402-408 *)
| S_overflow w : st w = Reading -> os w <> [] ->
    step Overflow w (mkw (src w) (exists_ w) (replaced w) Failed [] (dirty w) (due w) (files_changed w) (dir_recreated w) (work w) (man w) (lost w))
(** ClearModifiedFiles, :234 *)
| S_clear w : st w = Failed ->
    step Own w (mkw (src w) (exists_ w) (replaced w) (Opening true) (os w) (fun _ => None) (due w) (files_changed w) (dir_recreated w) (work w) (man w) (lost w))
(** ProcessDirChanges, :451-522.  An entry that vanishes is lost if the manifest has the
    path or may get it from what is running. *)
| S_merge w p k r : st w = Reading -> os w = (p, k) :: r ->
    step Own w (mkw (src w) (exists_ w) (replaced w) Reading r (upd (dirty w) p (merge (dirty w p) k)) true (files_changed w) (dir_recreated w)
      (work w) (man w)
      (fun q => lost w q \/ (q = p /\ merge (dirty w p) k = None /\ (man w p <> absent \/ may_spoil (touch_all (work w)) p))))
(** files_changed_cb_, :525; OnFilesChanged, multi_session.cc:372-375 *)
| S_files_changed w : due w = true ->
    step Own w (mkw (src w) (exists_ w) (replaced w) (st w) (os w) (dirty w) false true (dir_recreated w) (work w) (man w) (lost w))
(** multi_session.cc:238-246, 266-275.  What is told about a path may be out of date if
    there are further notifications or if the directory is not the one watched. *)
| S_pick w : work w = Idle -> dir_recreated w = false -> files_changed w = true ->
    step Own w (mkw (src w) (exists_ w) (replaced w) (st w) (os w) (fun _ => None) (due w) false false
      (Update (dirty w) (fun q => (if in_dec P_eq q (map fst (os w)) then true else false) || negb (is_reading (st w)) || replaced w)) (man w) (lost w))
(** :248-255 *)
| S_scan w : work w = Idle -> dir_recreated w = true ->
    step Own w (mkw (src w) (exists_ w) (replaced w) (st w) (os w) (dirty w) (due w) (files_changed w) false
      (All false (fun _ => false)) (man w) (lost w))
(** UpdateAll succeeds *)
| S_scanned w f t man' : work w = All f t -> (forall q, t q = false -> man' q = src w q) ->
    step Own w (mkw (src w) (exists_ w) (replaced w) (st w) (os w) (dirty w) (due w) (files_changed w) (dir_recreated w) Idle man'
      (fun q => lost w q /\ t q = true))
(** Update succeeds *)
| S_updated w ops t man' : work w = Update ops t ->
    (forall q, ops q = None -> man' q = man w q) -> (forall q, ops q <> None -> t q = false -> man' q = src w q) ->
    step Own w (mkw (src w) (exists_ w) (replaced w) (st w) (os w) (dirty w) (due w) (files_changed w) (dir_recreated w) Idle man'
      (fun q => lost w q /\ (ops q = None \/ t q = true)))
(** UpdateAll or Update fails: the empty manifest, :259-264, 280-284.  Always possible if
    the directory is missing. *)
| S_scan_failed w t : work w = All false t ->
    step (if exists_ w then Failure else Own) w (mkw (src w) (exists_ w) (replaced w) (st w) (os w) (dirty w) (due w) (files_changed w) (dir_recreated w) Idle (fun _ => absent)
      (fun q => src w q <> absent))
| S_update_failed w ops t : work w = Update ops t -> (exists q, ops q <> None) ->
    step (if exists_ w then Failure else Own) w (mkw (src w) (exists_ w) (replaced w) (st w) (os w) (dirty w) (due w) (files_changed w) (dir_recreated w) Idle (fun _ => absent)
      (fun q => src w q <> absent)).

(** A run, with the labels of its steps. *)
Inductive run : list label -> world -> world -> Prop :=
| run_nil w : run [] w w
| run_snoc ls l w w1 w2 : run ls w w1 -> step l w1 w2 -> run (ls ++ [l]) w w2.

(** Run starts: the watcher reads (StartWatching waits for that, file_watcher_win.cc:576)
    and UpdateAll is called, multi_session.cc:176-192. *)
Definition starts (w : world) : Prop :=
  exists_ w = true /\ replaced w = false /\ st w = Reading /\ os w = [] /\ (forall q, dirty w q = None) /\
  due w = false /\ files_changed w = false /\ dir_recreated w = false /\ (exists t, work w = All true t /\ forall q, t q = false) /\
  (forall q, ~ lost w q).

(** Everything has been handled, and the watcher waits for changes or for the directory
    to come back. *)
Definition at_rest (w : world) : Prop :=
  (st w = Reading /\ replaced w = false \/ st w = Opening false /\ exists_ w = false) /\
  os w = [] /\ due w = false /\ files_changed w = false /\ dir_recreated w = false /\ work w = Idle.
End Rescan.
