(** Model of manifest/manifest_updater.cc: comparing the manifest with the source
    directory and updating it.

    Names: [bytes] are strings as in the code; the manifest is the builder of
    ModelManifest.  Worker threads only run DirScannerTask and FileChunkerTask; the
    state machine at the end interleaves them with the main thread. *)
From Verif Require Import Base Str ModelText ModelPath ModelCdc ModelChunkMap ModelProvider ModelAsset ModelManifest.
Local Open Scope N_scope.

(** AssetInfo (manifest_updater.h:83-116). *)
Record ainfo := mkai { ai_path : bytes; ai_type : atype; ai_mtime : N; ai_size : N; ai_chunks : list fchunk }.

(** What path::SearchFiles reports for an entry of a directory. *)
Record sentry := mksentry { se_name : bytes; se_mtime : N; se_size : N; se_dir : bool }.

(** The handler of GetAllSrcAssets (manifest_updater.cc:57-68). *)
Definition src_info (rel : bytes) (e : sentry) : ainfo :=
  mkai (join (to_unix rel) (se_name e)) (if se_dir e then TDir else TFile) (se_mtime e) (if se_dir e then 0 else se_size e) [].

(** AppendCopyChunks / AppendMoveChunks (99-113). *)
Definition copy_chunks (refs : list cref) (list_offset : N) : list fchunk :=
  map (fun r => (cr_id r, (cr_off r + list_offset) mod 2 ^ 64)) refs.

(** ManifestUpdater::Operator, Operation (manifest_updater.h:122-131). *)
Inductive opkind := KAdd | KUpdate | KDelete | KKeep.
Definition operation : Type := opkind * ainfo.

(** The condition of CompareAssets for keeping an asset (374-380). *)
Definition unchanged (s m : ainfo) : bool :=
  (ai_mtime s =? ai_mtime m) && type_eqb (ai_type s) (ai_type m) &&
  (negb (type_eqb (ai_type s) TFile) || (ai_size s =? ai_size m)) && negb (type_eqb (ai_type s) TDir).

(** CompareAssets (351-393). *)
Fixpoint compare_assets (src : list ainfo) : list ainfo -> list operation :=
  match src with
  | [] => map (fun m => (KDelete, m))
  | s :: src' =>
      fix inner (man : list ainfo) : list operation :=
        match man with
        | [] => (KAdd, s) :: compare_assets src' []
        | m :: man' =>
            match scmp (ai_path s) (ai_path m) with
            | Lt => (KAdd, s) :: compare_assets src' man
            | Gt => (KDelete, m) :: inner man'
            | Eq => (if unchanged s m then (KKeep, m) else (KUpdate, s)) :: compare_assets src' man'
            end
        end
  end.

Section Scanner.
(** [lists]: the asset lists in the store, [clists]: the chunk lists in the store,
    [sort]: std::sort on AssetInfo. *)
Context (store : cid -> option (list asset)) (clists : cid -> option (list cref)) (sort : list ainfo -> list ainfo).

(** The indirect chunk lists of one file (271-288): the chunks and the ids of the
    lists that were read; if one cannot be read there are no chunks at all. *)
Fixpoint indirect_chunks (ind : list (N * cid)) (acc : list fchunk) (ids : list cid) : list fchunk * list cid :=
  match ind with
  | [] => (acc, ids)
  | (off, id) :: r =>
      match clists id with
      | None => ([], ids)
      | Some refs => indirect_chunks r (acc ++ copy_chunks refs off) (ids ++ [id])
      end
  end.

(** GetAssetInfosFromList (254-296). *)
Definition asset_ainfo (rel : bytes) (a : asset) : ainfo * list cid :=
  let i := a_info a in
  let '(chunks, ids) := if type_eqb (i_type i) TFile
                        then indirect_chunks (fp_ind (i_file i)) (copy_chunks (fp_chunks (i_file i)) 0) []
                        else ([], []) in
  (mkai (join rel (a_name a)) (i_type i) (i_mtime i) (if type_eqb (i_type i) TDir then 0 else fp_size (i_file i)) chunks, ids).
Fixpoint list_ainfos (rel : bytes) (l : list asset) : list ainfo * list cid :=
  match l with
  | [] => ([], [])
  | a :: r => let '(ai, ids) := asset_ainfo rel a in let '(ais, ids') := list_ainfos rel r in (ai :: ais, ids ++ ids')
  end.

(** The loop over the indirect asset lists (307-329): infos, ids of the lists that
    were read (with those of chunk lists), and the lists that remain. *)
Fixpoint indirect_ainfos (rel : bytes) (ind : list cid) : list ainfo * list cid * list cid :=
  match ind with
  | [] => ([], [], [])
  | id :: r =>
      let '(ais, ids, keep) := indirect_ainfos rel r in
      match store id with
      | None => (ais, ids, keep)
      | Some l => let '(ais1, ids1) := list_ainfos rel l in (ais1 ++ ais, ids1 ++ id :: ids, id :: keep)
      end
  end.

(** GetAllAssetsFromDirAsset (300-333), not cancelled. *)
Definition dir_ainfos (rel : bytes) (dir : asset) : list ainfo * list cid * list cid :=
  let '(ais, ids) := list_ainfos rel (a_dirs dir) in
  let '(ais', ids', keep) := indirect_ainfos rel (a_ind dir) in
  (sort (ais ++ ais'), ids ++ ids', keep).
End Scanner.

(** AssetProto::Type as a number (proto/manifest.proto:70-80). *)
Definition type_num (t : atype) : N := match t with TUnknown => 0 | TFile => 1 | TDir => 2 | TSymlink => 3 end.

(** manifest_builder_, *file_chunks, queue_, manifest_content_ids. *)
Record ustate := mku { u_b : builder; u_fc : fcmap; u_q : list passet; u_ids : list cid }.
Definition with_b (s : ustate) (b : builder) : ustate := mku b (u_fc s) (u_q s) (u_ids s).
Definition with_fc (s : ustate) (o : fcop) : ustate := mku (u_b s) (fcstep (u_fc s) o) (u_q s) (u_ids s).
Definition enqueue (s : ustate) (a : passet) : ustate := mku (u_b s) (u_fc s) (queue_add a (u_q s)) (u_ids s).

(** An AssetBuilder: RelativePath() and Name(). *)
Definition rel_file (rel name : bytes) : bytes := join rel name.

(** absl::StartsWith(ai.path, *last_deleted) && ai.path[last_deleted->size()] == '/' (634-635). *)
Fixpoint inside (dir path : bytes) : bool :=
  match dir, path with
  | [], c :: _ => c =? 47
  | [], [] => false
  | d :: dir', c :: path' => (d =? c) && inside dir' path'
  | _ :: _, [] => false
  end.

Section Apply.
Context (store : cid -> option (list asset)) (clists : cid -> option (list cref)) (sort : list ainfo -> list ainfo).
Context (now : N).

(** First loop of ApplyOperations (626-644). *)
Fixpoint apply_deletes (ops : list operation) (last : option bytes) (s : ustate) : option ecode * ustate :=
  match ops with
  | [] => (None, s)
  | (KDelete, ai) :: r =>
      let s1 := with_fc s (ORemove (ai_path ai)) in
      if match last with Some d => inside d (ai_path ai) | None => false end
      then apply_deletes r last s1
      else match delete_asset store now (ai_path ai) (u_b s1) with
           | (Some e, b) => (Some e, with_b s1 b)
           | (None, b) => apply_deletes r (Some (ai_path ai)) (with_b s1 b)
           end
  | _ :: r => apply_deletes r last s
  end.

(** What is set on an added or updated asset (675-693). *)
Definition set_fields (recursive : bool) (ai : ainfo) (i : info) : info :=
  match ai_type ai with
  | TFile => mkinfo (i_type i) (ai_mtime ai) 493 (mkfp (ai_size ai) [] []) (i_target i) true
  | TDir => mkinfo (i_type i) (ai_mtime ai) 493 (i_file i) (i_target i) (if recursive then true else i_progress i)
  | _ => mkinfo (i_type i) (ai_mtime ai) (i_perms i) (i_file i) (i_target i) (i_progress i)
  end.

(** AppendAsset (asset_builder.cc:86-94) on the directory that the scanner task
    holds a pointer to, here found by its path; permissions and time of the new
    message are 0.  [parent]: RelativePath and Name of the directory. *)
Definition append_child (n : bytes) (ty : atype) (f : info -> info) (dir : asset) (L : lists) : unit * asset * lists :=
  (tt, set_dirs dir (a_dirs dir ++ [Asset n (f (mkinfo ty 0 0 (mkfp 0 [] []) [] false)) [] []]), L).
Definition append_asset (parent : bytes * bytes) (n : bytes) (ty : atype) (f : info -> info) (b : builder) : option ecode * builder :=
  match at_dir store now NoCreate (split_unix (join (fst parent) (snd parent))) (root_of now b) (b_lists b) (append_child n ty f) with
  | (inl tt, root, L) => (None, mkb (Some root) L)
  | (inr e, root, L) => (Some e, mkb (Some root) L)
  end.

(** The in_progress field of the asset at a path (of a new asset: false). *)
Fixpoint read_asset (parts : list bytes) (dir : asset) (L : lists) : option asset :=
  match parts with
  | [] => Some dir
  | n :: r =>
      match find_split n (a_dirs dir) with
      | Some (_, a, _) => read_asset r a L
      | None => match find_ind store n (a_ind dir) L with (FFound _ _ a _, L1) => read_asset r a L1 | _ => None end
      end
  end.
Definition progress_of (path : bytes) (b : builder) : bool :=
  match read_asset (split_unix path) (root_of now b) (b_lists b) with Some a => i_progress (a_info a) | None => false end.

(** AssetBuilder::InProgress after the fields were set (680-695). *)
Definition in_progress_after (recursive : bool) (ai : ainfo) (b : builder) : bool :=
  match ai_type ai with TFile => true | TDir => if recursive then true else progress_of (ai_path ai) b | _ => progress_of (ai_path ai) b end.

(** Second loop of ApplyOperations (647-700). *)
Fixpoint apply_updates (ops : list operation) (parent : option (bytes * bytes)) (deadline : time) (recursive : bool) (s : ustate) : option ecode * ustate :=
  match ops with
  | [] => (None, s)
  | (KDelete, _) :: r => apply_updates r parent deadline recursive s
  | (KKeep, ai) :: r => apply_updates r parent deadline recursive (with_fc s (OInit (ai_path ai) (ai_size ai) (ai_chunks ai)))
  | (k, ai) :: r =>
      let f := set_fields recursive ai in
      let '(res, rel, name) :=
        match k, parent with
        | KAdd, Some p => (append_asset p (basename (ai_path ai)) (ai_type ai) f (u_b s), rel_file (fst p) (snd p), basename (ai_path ai))
        | _, _ => (match get_or_create store now (ai_path ai) (ai_type ai) true f (u_b s) with
                   | (inl e, b) => (Some e, b)
                   | (inr _, b) => (None, b)
                   end,
                   match split_unix (ai_path ai) with [] => [] | _ => dirname (to_unix (ai_path ai)) end,
                   last (split_unix (ai_path ai)) [])
        end in
      match res with
      | (Some e, b) => (Some e, with_b s b)
      | (None, b) =>
          let s1 := with_b s b in
          let s2 := if in_progress_after recursive ai b then enqueue s1 (mkpasset (type_num (ai_type ai)) rel name false deadline) else s1 in
          apply_updates r parent deadline recursive s2
      end
  end.

(** ApplyOperations (619-702). *)
Definition apply_operations (ops : list operation) (parent : option (bytes * bytes)) (deadline : time) (recursive : bool) (s : ustate) : option ecode * ustate :=
  match apply_deletes ops None s with
  | (Some e, s1) => (Some e, s1)
  | (None, s1) => apply_updates ops parent deadline recursive s1
  end.

(** The result of FileChunkerTask: None if reading failed. *)
Record chunked := mkchunked { ck_size : N; ck_refs : list cref; ck_exec : bool }.

(** HandleFileChunkerResult (704-738); the result is whether it succeeded. *)
Definition handle_file (a : passet) (res : option chunked) (s : ustate) : bool * ustate :=
  let p := join (pa_rel a) (pa_name a) in
  let f i := match res with
             | None => mkinfo (i_type i) (i_mtime i) (i_perms i) (mkfp 0 (fp_chunks (i_file i)) (fp_ind (i_file i))) (i_target i) false
             | Some c => mkinfo (i_type i) (i_mtime i) (if ck_exec c then 493 else 420) (mkfp (ck_size c) (ck_refs c) []) (i_target i) false
             end in
  match get_or_create store now p TFile false f (u_b s) with
  | (inl _, b) => (false, with_b s b)
  | (inr _, b) =>
      let s1 := with_b s b in
      match res with
      | None => (false, with_fc s1 (OInit p 0 []))
      | Some c => (true, with_fc (with_fc s1 (OInit p (ck_size c) [])) (OAppend p (map (fun r => (cr_id r, cr_off r)) (ck_refs c)) 0))
      end
  end.

(** What DirScannerTask::ThreadRun leaves behind (222-240): operations and content
    ids, or None if it failed before comparing. *)
Definition scan_result : Type := option (list operation * list cid).

(** ThreadRun (222-240): [search] is the result of path::SearchFiles.  Lists that
    cannot be read are erased from the directory (326). *)
Definition drop_lists (keep : list cid) (dir : asset) (L : lists) : unit * asset * lists := (tt, set_ind dir keep, L).
Definition scan_dir (a : passet) (search : option (list sentry)) (s : ustate) : scan_result * ustate :=
  let rel := join (pa_rel a) (pa_name a) in
  match search with
  | None => (None, s)
  | Some es =>
      let src := sort (map (src_info rel) es) in
      match at_dir store now NoCreate (split_unix rel) (root_of now (u_b s)) (b_lists (u_b s))
              (fun dir L => let '(man, ids, keep) := dir_ainfos store clists sort rel dir in ((man, ids), set_ind dir keep, L)) with
      | (inl (man, ids), root, L) => (Some (compare_assets src man, ids), with_b s (mkb (Some root) L))
      | (inr _, root, L) => (None, s)
      end
  end.

(** HandleDirScannerResult (740-763); [late]: the deadline of the task has passed.
    The task has a pointer to the directory, here it is looked up by its path; a
    failure to find it again is counted as a failure of the task. *)
Definition clear_progress (i : info) : info := mkinfo (i_type i) (i_mtime i) (i_perms i) (i_file i) (i_target i) false.
Definition handle_dir (a : passet) (res : scan_result) (late : bool) (s : ustate) : bool * ustate :=
  let '(ops, ids) := match res with Some r => r | None => ([], []) end in
  let deadline := if late then None else pa_deadline a in
  match apply_operations ops (Some (pa_rel a, pa_name a)) deadline true s with
  | (Some e, s1) => (false, s1)
  | (None, s1) =>
      match at_dir store now NoCreate (split_unix (join (pa_rel a) (pa_name a))) (root_of now (u_b s1)) (b_lists (u_b s1))
              (fun dir L => (tt, set_info dir (clear_progress (a_info dir)), L)) with
      | (r, root, L) =>
          (match res, r with Some _, inl _ => true | _, _ => false end, mku (mkb (Some root) L) (u_fc s1) (u_q s1) (u_ids s1 ++ ids))
      end
  end.
End Apply.

(** * Update *)

(** A task in the thread pool; for a directory with what ThreadRun left behind. *)
Inductive running := RFile (a : passet) | RDir (a : passet) (res : option scan_result).
Definition is_scanner (r : running) : bool := match r with RDir _ _ => true | _ => false end.

(** The state of Update (765-905): [m_wait] is true while the main thread is in
    GetCompletedTask (838), [m_status] is the variable status (783), and
    [m_failed] records, only for the specification, that some task or operation
    failed. *)
Record mstate := mkm { m_u : ustate; m_run : list running; m_wait : bool; m_status : bool; m_failed : bool }.

Section Machine.
Context (store : cid -> option (list asset)) (clists : cid -> option (list cref)) (sort : list ainfo -> list ainfo).
(** [search]: possible results of path::SearchFiles for a directory, [chunk]: of
    FileChunkerTask for a file, [flushes b b' ids]: manifest_builder_->Flush()
    makes b' out of b and reports ids as FlushedContentIds. *)
Context (search : bytes -> option (list sentry) -> Prop) (chunk : bytes -> option chunked -> Prop)
  (flushes : builder -> builder -> list cid -> Prop).
(** [push]: there is a push handler; [max_queued]: MaxQueuedTasks, also the number
    of buffers; [mpt]: kMinAssetProcessingTime. *)
Context (push : bool) (max_queued : nat) (mpt : Z).

Definition with_u (m : mstate) (u : ustate) : mstate := mkm u (m_run m) (m_wait m) (m_status m) (m_failed m).
Definition with_q (u : ustate) (q : list passet) : ustate := mku (u_b u) (u_fc u) q (u_ids u).

(** accept (569-574). *)
Definition accept_of (drain : bool) : option (passet -> bool) :=
  if drain then Some (fun a => negb (pa_type a =? 2)) else None.

(** The loop of QueueTasks (579-615).  It may stop because the pool has
    max_queued_tasks tasks that were not started yet, or because all buffers are
    in use by FileChunkerTasks, in both cases there are at least max_queued tasks;
    otherwise it stops when nothing can be dequeued. *)
Inductive queue_tasks (drain : bool) : mstate -> mstate -> Prop :=
| QT_stop m : queue_dequeue (accept_of drain) (u_q (m_u m)) = None \/ (max_queued <= length (m_run m))%nat ->
    queue_tasks drain m m
| QT_file m a q m' : queue_dequeue (accept_of drain) (u_q (m_u m)) = Some (a, q) -> pa_type a = 1 ->
    queue_tasks drain (mkm (with_q (m_u m) q) (m_run m ++ [RFile a]) (m_wait m) (m_status m) (m_failed m)) m' ->
    queue_tasks drain m m'
| QT_dir m now a q c b m' : queue_dequeue (accept_of drain) (u_q (m_u m)) = Some (a, q) -> pa_type a = 2 ->
    get_or_create store now (join (pa_rel a) (pa_name a)) TDir true (fun i => i) (u_b (m_u m)) = (inr c, b) ->
    queue_tasks drain (mkm (with_b (with_q (m_u m) q) b) (m_run m ++ [RDir a None]) (m_wait m) (m_status m) (m_failed m)) m' ->
    queue_tasks drain m m'
| QT_dir_error m now a q e b m' : queue_dequeue (accept_of drain) (u_q (m_u m)) = Some (a, q) -> pa_type a = 2 ->
    get_or_create store now (join (pa_rel a) (pa_name a)) TDir true (fun i => i) (u_b (m_u m)) = (inl e, b) ->
    queue_tasks drain (mkm (with_b (with_q (m_u m) q) b) (m_run m) (m_wait m) (m_status m) true) m' ->
    queue_tasks drain m m'
| QT_other m a q m' : queue_dequeue (accept_of drain) (u_q (m_u m)) = Some (a, q) -> pa_type a <> 1 -> pa_type a <> 2 ->
    queue_tasks drain (mkm (with_q (m_u m) q) (m_run m) (m_wait m) (m_status m) true) m' ->
    queue_tasks drain m m'.

(** FlushAndPushManifest (516-530). *)
Definition after_flush (u : ustate) (order : list (bytes * cfile) -> list (bytes * cfile)) (b' : builder) (ids : list cid) : ustate :=
  mku b' (fcstep (u_fc u) (OFlush order)) (u_q u) (u_ids u ++ ids).

(** MaybeFlushAndPushManifest (538-549); [want]: WantManifestFlushed (532-536). *)
Definition maybe_flush (want : bool) (m m' : mstate) : Prop :=
  if want && forallb (fun r => negb (is_scanner r)) (m_run m)
  then exists order b' ids, flushes (u_b (m_u m)) b' ids /\ m' = with_u m (after_flush (m_u m) order b' ids)
  else m' = m.

(** [want1], [want2]: WantManifestFlushed in MaybeFlushAndPushManifest and when
    drain_dir_scanners is set (830).  Time passes between the two; flushing resets
    the deadline. *)
Definition want_ok (m : mstate) (want1 want2 : bool) : Prop :=
  (push = false -> want1 = false /\ want2 = false) /\
  (want1 = true -> want2 = negb (forallb (fun r => negb (is_scanner r)) (m_run m))).

Inductive mstep : mstate -> mstate -> Prop :=
(** One iteration of the loop up to GetCompletedTask (822-838).  Prioritize looks up
    assets in the builder, which may load lists; this is left out. *)
| M_queue m m1 m2 m3 want1 want2 reqs :
    m_wait m = false -> u_q (m_u m) <> [] \/ m_run m <> [] ->
    want_ok m want1 want2 -> maybe_flush want1 m m1 ->
    m2 = with_u m1 (with_q (m_u m1) (match reqs with [] => u_q (m_u m1) | _ => snd (queue_prioritize mpt reqs (u_q (m_u m1))) end)) ->
    queue_tasks want2 m2 m3 ->
    mstep m (mkm (m_u m3) (m_run m3) true (m_status m3) (m_failed m3))
(** A worker thread runs DirScannerTask::ThreadRun. *)
| M_scan m now r1 a r2 es res u :
    m_run m = r1 ++ RDir a None :: r2 -> search (join (pa_rel a) (pa_name a)) es ->
    scan_dir store clists sort now a es (m_u m) = (res, u) ->
    mstep m (mkm u (r1 ++ RDir a (Some res) :: r2) (m_wait m) (m_status m) (m_failed m))
(** The rest of the iteration for a FileChunkerTask (842-852). *)
| M_file m now r1 a r2 c ok u :
    m_wait m = true -> m_run m = r1 ++ RFile a :: r2 -> chunk (join (pa_rel a) (pa_name a)) c ->
    handle_file store now a c (m_u m) = (ok, u) ->
    mstep m (mkm u (r1 ++ r2) false ok (m_failed m || negb ok))
(** The same for a DirScannerTask (854-867). *)
| M_dir m now r1 a res r2 late ok u :
    m_wait m = true -> m_run m = r1 ++ RDir a (Some res) :: r2 ->
    handle_dir store now a res late (m_u m) = (ok, u) ->
    mstep m (mkm u (r1 ++ r2) false ok (m_failed m || negb ok)).

(** Update up to the loop (789-818): [b] is the loaded or new manifest, [st] whether
    there was one (783-803). *)
Inductive start (ops : list operation) (recursive : bool) (b : builder) (fc : fcmap) : mstate -> Prop :=
| Start_no_flush now u st : apply_operations store now ops None None recursive (mku b fc [] []) = (None, u) ->
    push = false \/ u_q u = [] -> start ops recursive b fc (mkm u [] false st false)
| Start_flush now u st order b' ids : apply_operations store now ops None None recursive (mku b fc [] []) = (None, u) ->
    push = true -> u_q u <> [] -> flushes (u_b u) b' ids ->
    start ops recursive b fc (mkm (after_flush u order b' ids) [] false st false).

Inductive msteps : mstate -> mstate -> Prop :=
| msteps_refl m : msteps m m
| msteps_step m m1 m2 : msteps m m1 -> mstep m1 m2 -> msteps m m2.

(** The loop is left (822). *)
Definition loop_done (m : mstate) : Prop := m_wait m = false /\ u_q (m_u m) = [] /\ m_run m = [].
(** GetCompletedTask waits although there are no tasks. *)
Definition hangs (m : mstate) : Prop := m_wait m = true /\ m_run m = [].

(** The end of Update (870-895): the manifest that is stored, and the ids that Prune
    is asked to keep, if it is called; [store_id]: GetManifestStoreId(). *)
Inductive finish (recursive : bool) (store_id : cid) (m : mstate) : builder -> option (list cid) -> Prop :=
| Finish b' ids : loop_done m -> flushes (u_b (m_u m)) b' ids ->
    finish recursive store_id m b' (if m_status m && recursive then Some (u_ids (m_u m) ++ ids ++ [store_id]) else None).
End Machine.

(** The operations of UpdateAll (438-455). *)
Definition update_all_ops (mtime : N) : list operation := [(KAdd, mkai [] TDir mtime 0 [])].
