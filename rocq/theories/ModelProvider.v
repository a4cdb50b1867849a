(** Model of data_store/data_provider.cc with the readers it composes
    (data_store_reader.cc, mem_data_store.cc, grpc_reader.cc).

    Calls run concurrently with other calls and with the cleanup thread.  A call
    is a nondeterministic computation over the shared cache: before every
    operation on the cache other threads may change it as the relation [env]
    allows, given the locks this call holds; cache operations and readers may
    fail at any time.  A content mutex is named by its index (GetContentMutex,
    data_provider.cc:231-235).  Offsets and sizes do not wrap (they come from
    Asset::Read and lie within a chunk). *)
From Verif Require Import Base Str ModelText ModelChunkMap.
Local Open Scope N_scope.

Definition cache := cid -> option bytes.
Inductive status := SOk | SNotFound | SErr.
Inductive fetched := FOk (b : bytes) | FNotFound | FErr.

Definition M (A : Type) : Type := cache -> A -> cache -> Prop.
Definition ret {A} (a : A) : M A := fun c r c' => r = a /\ c' = c.
Definition mbind {A B} (x : M A) (f : A -> M B) : M B := fun c b c' => exists a c1, x c a c1 /\ f a c1 b c'.
Definition pick {A} (P : A -> Prop) : M A := fun c a c' => P a /\ c' = c.
Notation "'let*' x := a 'in' b" := (mbind a (fun x => b)) (at level 200, x pattern, a at level 100, b at level 200).

(** GetByte(content_id, 0) (content_id.cc:95-98). *)
Definition mutex_of (id : cid) : N := match id with [] => 0 | b :: _ => b end.

Definition cset (c : cache) (id : cid) (v : option bytes) : cache := fun q => if list_eq_dec N.eq_dec q id then v else c q.

(** WriteLockAll (data_provider.cc:237-253): ids sorted by operator< (content_id.h:68-70,
    std::string compares unsigned bytes), each mutex once. *)
Fixpoint ins_id (x : cid) (l : list cid) : list cid :=
  match l with [] => [x] | y :: r => if sltb x y then x :: y :: r else y :: ins_id x r end.
Definition sort_ids (l : list cid) : list cid := fold_right ins_id [] l.
Fixpoint lock_loop (ids : list cid) (locked : list N) : list N :=
  match ids with
  | [] => []
  | id :: r => if existsb (N.eqb (mutex_of id)) locked then lock_loop r locked
               else mutex_of id :: lock_loop r (mutex_of id :: locked)
  end.
Definition write_lock_all (ids : list cid) : list N := lock_loop (sort_ids ids) [].
(** LockAllMutexes (data_provider.cc:304-308), kNumberOfMutexes = 256. *)
Definition lock_all_mutexes : list N := map N.of_nat (seq 0 256).

(** * The cache (writer_) *)
Section Cache.
Context (env : list N -> cache -> cache -> Prop) (faults : bool) (held : list N).

(** Get of a range (DiskDataStore, disk_data_store.cc:112-124; an empty range may
    be answered without looking). *)
Definition w_get (id : cid) (off size : nat) : M fetched := fun c r c' =>
  env held c c' /\
  ((r = FErr /\ faults = true) \/ (r = FOk [] /\ size = 0%nat) \/
   r = match c' id with None => FNotFound | Some b => FOk (firstn size (skipn off b)) end).
Definition w_get_all (id : cid) : M fetched := fun c r c' =>
  env held c c' /\ ((r = FErr /\ faults = true) \/ r = match c' id with None => FNotFound | Some b => FOk b end).
Definition w_contains (id : cid) : M bool := fun c r c' =>
  env held c c' /\ r = match c' id with None => false | Some _ => true end.
(** A failing Put may leave nothing or a truncated chunk behind. *)
Definition w_put (id : cid) (data : bytes) : M unit := fun c _ c' =>
  exists c1, env held c c1 /\
  (c' = cset c1 id (Some data) \/ (faults = true /\ (c' = c1 \/ exists k, c' = cset c1 id (Some (firstn k data))))).
Definition w_remove (id : cid) : M unit := fun c _ c' =>
  exists c1, env held c c1 /\ (c' = cset c1 id None \/ (faults = true /\ c' = c1)).
End Cache.

(** * Readers *)
Inductive rkind := KDefault | KMem | KGrpc.
Record reader := mkreader { r_kind : rkind; r_fetch : cid -> fetched -> Prop }.

(** ChunkTransferTask (data_store_reader.h:32-50); [t_out] is what has been
    written to the start of the task's buffer. *)
Record task := mktask { t_id : cid; t_off : nat; t_size : nat; t_out : bytes; t_data : bytes; t_done : bool }.
Definition set_done (t : task) (d : bool) : task := mktask (t_id t) (t_off t) (t_size t) (t_out t) (t_data t) d.
Definition set_out (t : task) (b : bytes) : task := mktask (t_id t) (t_off t) (t_size t) b (t_data t) (t_done t).
Definition set_chunk (t : task) (b : bytes) : task := mktask (t_id t) (t_off t) (t_size t) (t_out t) b (t_done t).

(** ReadDone, PrefetchDone (data_store_reader.cc:23-35). *)
Definition read_done (ts : list task) : bool := forallb (fun t => (t_size t =? 0)%nat || t_done t) ts.
Definition prefetch_done (ts : list task) : bool := forallb t_done ts.

(** DataStoreReader::Get (data_store_reader.cc:57-76). *)
Fixpoint default_list (fetch : cid -> fetched -> Prop) (ts : list task) : M (status * list task) :=
  match ts with
  | [] => ret (SOk, [])
  | t :: r =>
      if t_done t || (t_size t =? 0)%nat then let* (s, r') := default_list fetch r in ret (s, t :: r')
      else let* f := pick (fetch (t_id t)) in
           match f with
           | FOk b => let got := firstn (t_size t) (skipn (t_off t) b) in
                      if (length got =? t_size t)%nat
                      then let* (s, r') := default_list fetch r in ret (s, set_done (set_out t got) true :: r')
                      else ret (SErr, set_out t got :: r)
           | FNotFound => let* (s, r') := default_list fetch r in ret (s, t :: r')
           | FErr => ret (SErr, t :: r)
           end
  end.

(** MemDataStore::Get (mem_data_store.cc:70-102). *)
Fixpoint mem_list (fetch : cid -> fetched -> Prop) (ts : list task) : M (status * list task) :=
  match ts with
  | [] => ret (SOk, [])
  | t :: r =>
      if t_done t then let* (s, r') := mem_list fetch r in ret (s, t :: r')
      else let* f := pick (fetch (t_id t)) in
           match f with
           | FOk b =>
               let t1 := set_chunk t b in
               if (t_size t =? 0)%nat then let* (s, r') := mem_list fetch r in ret (s, set_done t1 true :: r')
               else if (length b <=? t_off t)%nat then ret (SErr, t1 :: r)
               else if (Nat.min (length b - t_off t) (t_size t) <? t_size t)%nat then ret (SErr, t1 :: r)
               else let* (s, r') := mem_list fetch r in
                    ret (s, set_done (set_out t1 (firstn (t_size t) (skipn (t_off t) b))) true :: r')
           | FNotFound => let* (s, r') := mem_list fetch r in ret (s, t :: r')
           | FErr => ret (SErr, t :: r)
           end
  end.

(** GrpcReader::Get (grpc_reader.cc:52-90): one request for all ids. *)
Fixpoint grpc_copy (ts : list task) (data : list bytes) : status * list task :=
  match ts with
  | [] => (SOk, [])
  | t :: r =>
      if t_done t then let '(s, r') := grpc_copy r data in (s, t :: r')
      else match data with
           | [] => (SErr, t :: r)     (* not reached: the number of answers was checked *)
           | b :: data' =>
               let t1 := set_chunk t b in
               if (length b <? t_off t + t_size t)%nat then (SErr, t1 :: r)
               else let '(s, r') := grpc_copy r data' in
                    (s, set_done (set_out t1 (firstn (t_size t) (skipn (t_off t) b))) true :: r')
           end
  end.
Definition undone_ids (ts : list task) : list cid := map t_id (filter (fun t => negb (t_done t)) ts).
Definition grpc_list (fetch : cid -> fetched -> Prop) (ts : list task) : M (status * list task) :=
  let* answer := pick (fun a : option (list bytes) => match a with
                        | None => True                                     (* the call failed *)
                        | Some l => Forall2 (fun id b => fetch id (FOk b)) (firstn (length l) (undone_ids ts)) (firstn (length (undone_ids ts)) l)
                        end) in
  match answer with
  | None => ret (SErr, ts)
  | Some l => if (length l =? length (undone_ids ts))%nat then ret (grpc_copy ts l) else ret (SErr, ts)
  end.

Definition reader_list (r : reader) (ts : list task) : M (status * list task) :=
  match r_kind r with
  | KDefault => default_list (r_fetch r) ts
  | KMem => mem_list (r_fetch r) ts
  | KGrpc => grpc_list (r_fetch r) ts
  end.

Section Provider.
Context (env : list N -> cache -> cache -> Prop) (faults : bool) (has_writer : bool) (readers : list reader).

(** The loop of GetFromWriter (data_provider.cc:261-300); [pre] are the tasks
    already visited. *)
Fixpoint gfw_loop (held : list N) (lock_required : bool) (pre rest : list task) : M (list task) :=
  match rest with
  | [] => ret pre
  | t :: r =>
      if t_done t then gfw_loop held lock_required (pre ++ [t]) r
      else
        let held' := if lock_required then [mutex_of (t_id t)] else held in
        if (t_size t =? 0)%nat
        then let* b := w_contains env held' (t_id t) in gfw_loop held lock_required (pre ++ [set_done t b]) r
        else let* f := w_get env faults held' (t_id t) (t_off t) (t_size t) in
             match f with
             | FOk b =>
                 if (length b =? t_size t)%nat
                 then let t1 := set_done (set_out t b) true in
                      if read_done (pre ++ t1 :: r) then ret (pre ++ t1 :: r)
                      else gfw_loop held lock_required (pre ++ [t1]) r
                 else if lock_required then gfw_loop held lock_required (pre ++ [set_out t b]) r
                      else let* _ := w_remove env faults held (t_id t) in
                           gfw_loop held lock_required (pre ++ [set_out t b]) r
             | _ => gfw_loop held lock_required (pre ++ [t]) r
             end
  end.
(** GetFromWriter (data_provider.cc:255-302): it never fails. *)
Definition get_from_writer (held : list N) (lock_required : bool) (ts : list task) : M (list task) :=
  if negb has_writer || read_done ts then ret ts else gfw_loop held lock_required [] ts.

(** data_provider.cc:151-159. *)
Fixpoint read_loop (rs : list reader) (ts : list task) : M (status * list task) :=
  match rs with
  | [] => ret (SOk, ts)
  | r :: rs' =>
      let* (s, ts1) := reader_list r ts in
      match s with
      | SOk => if prefetch_done ts1 then ret (SOk, ts1) else read_loop rs' ts1
      | _ => ret (s, ts1)
      end
  end.

(** data_provider.cc:163-172. *)
Fixpoint put_loop (held : list N) (ts : list task) : M unit :=
  match ts with
  | [] => ret tt
  | t :: r =>
      if negb (t_done t) || match t_data t with [] => true | _ => false end then put_loop held r
      else let* _ := w_put env faults held (t_id t) (t_data t) in put_loop held r
  end.

(** Get(ChunkTransferList) (data_provider.cc:129-175). *)
Definition provider_get_list (ts : list task) : M (status * list task) :=
  let* ts1 := get_from_writer [] true ts in
  if read_done ts1 then ret (SOk, ts1)
  else
    let held := write_lock_all (undone_ids ts1) in
    let* ts2 := get_from_writer held false ts1 in
    if read_done ts2 then ret (SOk, ts2)
    else
      let* (s, ts3) := read_loop readers ts2 in
      match s with
      | SOk => if has_writer then let* _ := put_loop held ts3 in ret (SOk, ts3) else ret (SOk, ts3)
      | _ => ret (s, ts3)
      end.

(** The loop over the readers of Get (data_provider.cc:102-124 and 204-218). *)
Fixpoint first_reader (held : list N) (rs : list reader) (id : cid) : M fetched :=
  match rs with
  | [] => ret FNotFound
  | r :: rs' =>
      let* f := pick (r_fetch r id) in
      match f with
      | FNotFound => first_reader held rs' id
      | FErr => ret FErr
      | FOk b => if has_writer then let* _ := w_put env faults held id b in ret (FOk b) else ret (FOk b)
      end
  end.

(** Get(content_id, data, offset, size) (data_provider.cc:74-127). *)
Definition provider_get (id : cid) (off size : nat) : M fetched :=
  let held := [mutex_of id] in
  let from_readers :=
    let* f := first_reader held readers id in
    match f with
    | FOk b => ret (FOk (if (length b <=? off)%nat then [] else firstn (Nat.min (length b - off) size) (skipn off b)))
    | _ => ret f
    end in
  if negb has_writer then from_readers
  else
    let* f := w_get env faults held id off size in            (* under the reader lock *)
    match f with
    | FOk b => ret (FOk b)
    | FErr => from_readers
    | FNotFound =>
        let* g := w_get env faults held id off size in        (* under the writer lock *)
        match g with
        | FOk b => ret (FOk b)
        | _ => from_readers
        end
    end.

(** Get(content_id, Buffer) (data_provider.cc:177-221). *)
Definition provider_get_all (id : cid) : M fetched :=
  let held := [mutex_of id] in
  if negb has_writer then first_reader held readers id
  else
    let* f := w_get_all env faults held id in
    match f with
    | FOk b => ret (FOk b)
    | FErr => first_reader held readers id
    | FNotFound =>
        let* g := w_get_all env faults held id in
        match g with
        | FOk b => ret (FOk b)
        | _ => first_reader held readers id
        end
    end.
End Provider.

(** PrefetchSize (data_provider.cc:66-72), kMaxFuseRequestSize = 2^17. *)
Definition prefetch_size (prefetch read_size : N) : N := if read_size =? 131072 then read_size + prefetch else read_size.

(** GrpcReader::Get of a range (grpc_reader.cc:37-50).  Its parameters are declared
    in the order (size, offset), but it overrides DataStoreReader::Get(id, data,
    offset, size) (data_store_reader.h:92-94): a caller's offset arrives as [size].
    Copying more bytes than the caller's buffer holds is undefined behaviour. *)
Definition grpc_get_range (content : bytes) (caller_offset caller_size : nat) : outcome bytes :=
  let size := caller_offset in
  let offset := caller_size in
  if (length content <=? offset)%nat then Ok []
  else let n := Nat.min (length content - offset) size in
       if (caller_size <? n)%nat then UB else Ok (firstn n (skipn offset content)).
