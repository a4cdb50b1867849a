(** Model of cdc_indexer/indexer.cc: Indexer::Run with any number of worker
    threads. One step of a worker is one critical section (or the work between
    two of them, which touches nothing shared).

    Simplifications: counters are unbounded (size_t in the code); a status is
    the errno it was made from, 0 is OK; the progress thread only reads and is
    left out, except that every reachable state below is one it may see; what a
    DirectoryIterator yields for an input directory is [look_dir] (C70 proves
    what that is). hash_t is a byte string. *)
From Verif Require Import Base ListX Str ModelFastcdc.
Local Open Scope N_scope.
Local Notation str := (list N).

(** IndexerConfig, indexer.h:37-68, and its default constructor, indexer.cc:362-369
    (which leaves hash_type uninitialised). *)
Inductive hash_type := HUndefined | HNull | HBlake3.
Record icfg := { read_block : N; min_chunk : N; avg_chunk : N; max_chunk : N; step_size : N;
                 threads : N; htype : hash_type }.

(** The checks in Impl::Impl, indexer.cc:126-136; [hw] is
    std::thread::hardware_concurrency(). Shifts are in size_t. *)
Definition w64 (x : N) : N := x mod 2 ^ 64.
Definition sanitize (hw : N) (c : icfg) : icfg :=
  let th := if threads c =? 0 then hw else threads c in
  let rb := if read_block c =? 0 then 4096 else read_block c in
  let av := if avg_chunk c =? 0 then 262144 else avg_chunk c in
  let mn := if (min_chunk c =? 0) || (av <? min_chunk c) then av / 2 else min_chunk c in
  let mx := if (max_chunk c =? 0) || (max_chunk c <? av) then w64 (2 * av) else max_chunk c in
  let st := if step_size c =? 0 then (if 0 <? mn then mn else 128) else step_size c in
  {| read_block := rb; min_chunk := mn; avg_chunk := av; max_chunk := mx; step_size := st;
     threads := th; htype := htype c |}.

(** fastcdc::Config as built in Worker::Worker, indexer.cc:317-320 *)
Definition cdc_cfg (c : icfg) : config :=
  {| min_size := N.to_nat (min_chunk c); avg_size := N.to_nat (avg_chunk c);
     max_size := N.to_nat (max_chunk c) |}.

(** SizeBucket, indexer.cc:222-231. The two loops, then the result. *)
Fixpoint bucket_pow (fuel : nat) (mn size b : N) : outcome N :=
  if (b <? size) && (b <? mn) && (b <? 2 ^ 63) then
    match fuel with O => OutOfFuel | S f => bucket_pow f mn size (w64 (2 * b)) end
  else Ok b.
Fixpoint bucket_step (fuel : nat) (st size b : N) : outcome N :=
  if (b <? size) && (b <? 2 ^ 63) then
    match fuel with O => OutOfFuel | S f => bucket_step f st size (w64 (b + st)) end
  else Ok b.
Definition size_bucket (c : icfg) (size : N) : outcome N :=
  do b <- bucket_pow 64 (min_chunk c) size 1024;
  do b <- bucket_step (N.to_nat size) (step_size c) size b;
  Ok (if size <=? b then b else 2 ^ 64 - 1).

(** What fopen and fread do with a file: it cannot be opened, or [content] can
    be read, followed by end of file or by a read error. *)
Inductive fbehaviour :=
| CannotOpen (e : N)
| Readable (content : bytes) (read_error : bool).

(** What opening an input as a directory gives: files to index followed by the
    iterator's final status, or a failure. *)
Inductive dbehaviour :=
| Listing (files : list str) (e : N)
| CannotList (e : N).

Record env := {
  cfg : icfg;
  gear : byte -> N;                     (* gear table of Chunker64 *)
  blake3 : bytes -> bytes;
  file_exists : str -> bool;            (* path::FileExists *)
  look_dir : str -> dbehaviour;
  look_file : str -> fbehaviour }.

(** path::ToUnix, common/path.cc:467-470 *)
Definition to_unix (p : str) : str := map (fun b => if b =? 92 then 47 else b) p.

(** absl::IsPermissionDenied(ErrnoToCanonicalStatus(e)): EPERM, EACCES, EROFS,
    ENOKEY, common/errno_mapping.cc:62-69 *)
Definition denied (e : N) : bool := (e =? 1) || (e =? 13) || (e =? 30) || (e =? 126).

(** Hash, indexer.cc:252-263; the undefined type gives an empty string. *)
Definition hash_of (en : env) (c : bytes) : bytes :=
  match htype (cfg en) with HNull => [] | HBlake3 => blake3 en c | HUndefined => [] end.

(** The blocks that fread returns, indexer.cc:344-356: full ones, then a short
    one at the end. *)
Fixpoint blocks (fuel : nat) (n : nat) (l : bytes) : list bytes :=
  match fuel, l with
  | S f, _ :: _ => firstn n l :: blocks f n (skipn n l)
  | _, _ => []
  end.

(** IndexFile, indexer.cc:333-361: the chunks passed to AddChunk, and the status
    with which it ends. On a read error the block being read is dropped, and the
    status is made from the value of ferror, which is 1. *)
Definition plan (en : env) (p : str) : outcome (list bytes * N) :=
  match look_file en p with
  | CannotOpen e => Ok ([], e)
  | Readable content err =>
      let n := N.to_nat (read_block (cfg en)) in
      let bl := blocks (length content) n content in
      if err then
        do r <- feed 64 (gear en) (cdc_cfg (cfg en)) [] (filter (fun b => (length b =? n)%nat) bl);
        Ok (fst r, 1)
      else
        do r <- chunk_stream 64 (gear en) (cdc_cfg (cfg en)) bl;
        Ok (fst r, 0)
  end.

(** OpStats without elapsed, indexer.h:90-98 *)
Record stats := { total_files : N; total_chunks : N; unique_chunks : N; total_bytes : N; unique_bytes : N }.

(** The members of Impl shared by the workers, indexer.cc:71-91. [dir] is the
    iterator when it is Valid(): the files still to come and the final status. *)
Record shared := {
  inputs : list str;
  dir : option (list str * N);
  chunks : list (bytes * N);            (* chunks_, hash -> size *)
  st : stats;
  sizes : list (N * N);                 (* chunk_sizes_, bucket -> count *)
  err : N }.                            (* result_ *)

Definition set_jobs s i d := {| inputs := i; dir := d; chunks := chunks s; st := st s; sizes := sizes s; err := err s |}.
Definition set_chunks s c := {| inputs := inputs s; dir := dir s; chunks := c; st := st s; sizes := sizes s; err := err s |}.
Definition set_st s x := {| inputs := inputs s; dir := dir s; chunks := chunks s; st := x; sizes := sizes s; err := err s |}.
Definition set_sizes s x := {| inputs := inputs s; dir := dir s; chunks := chunks s; st := st s; sizes := x; err := err s |}.
(** SetError, indexer.cc:309-315 *)
Definition set_error s e :=
  {| inputs := inputs s; dir := dir s; chunks := chunks s; st := st s; sizes := sizes s;
     err := if e =? 0 then err s else if err s =? 0 then e else err s |}.

(** The part of GetNextJob that takes inputs from the queue, indexer.cc:182-214:
    the job (if any), the error set, the remaining inputs and the iterator. *)
Fixpoint from_inputs (en : env) (ins : list str) : option str * N * list str * option (list str * N) :=
  match ins with
  | [] => (None, 0, [], None)
  | i :: r =>
      if file_exists en (to_unix i) then (Some (to_unix i), 0, r, None)
      else match look_dir en i with
           | CannotList e => if denied e then from_inputs en r else (None, e, r, None)
           | Listing (f :: fs) e => (Some f, 0, r, Some (fs, e))
           | Listing [] e => if e =? 0 then from_inputs en r else (None, e, r, None)
           end
  end.
(** The critical section of GetNextJob, indexer.cc:177-218 *)
Definition next_job (en : env) (s : shared) : option str * N * list str * option (list str * N) :=
  match dir s with
  | Some (f :: fs, e) => (Some f, 0, inputs s, Some (fs, e))
  | Some ([], e) => if e =? 0 then from_inputs en (inputs s) else (None, e, inputs s, None)
  | None => from_inputs en (inputs s)
  end.

(** Where a worker is. *)
Inductive worker :=
| WCheck                                  (* GetNextJob: HasError, :176 *)
| WLock                                   (* GetNextJob: with jobs_mutex_, :177-217 *)
| WOpen (p : str)                         (* IndexFile called, :325 *)
| WEmit (p : str) (cs : list bytes) (e : N)   (* chunks still to be added, final status *)
| WStat (p : str) (c : bytes) (new : bool) (cs : list bytes) (e : N)  (* AddChunk after :273 *)
| WSize (p : str) (c : bytes) (cs : list bytes) (e : N)               (* AddChunk after :283 *)
| WFail (p : str) (e : N)                 (* SetError, :327 *)
| WDone.

Definition len (c : bytes) : N := N.of_nat (length c).
Definition has_hash (h : bytes) (m : list (bytes * N)) : bool := existsb (fun x => seqb h (fst x)) m.

Fixpoint incr (b : N) (m : list (N * N)) : list (N * N) :=
  match m with
  | [] => [(b, 1)]
  | (k, v) :: r => if k =? b then (k, v + 1) :: r else (k, v) :: incr b r
  end.

(** AddChunk's statistics, indexer.cc:276-283 *)
Definition add_stat (x : stats) (n : N) (new : bool) : stats :=
  {| total_files := total_files x; total_chunks := total_chunks x + 1;
     unique_chunks := if new then unique_chunks x + 1 else unique_chunks x;
     total_bytes := total_bytes x + n;
     unique_bytes := if new then unique_bytes x + n else unique_bytes x |}.
(** AddFile, indexer.cc:294-297 *)
Definition add_file (x : stats) : stats :=
  {| total_files := total_files x + 1; total_chunks := total_chunks x; unique_chunks := unique_chunks x;
     total_bytes := total_bytes x; unique_bytes := unique_bytes x |}.

(** Worker::Run, indexer.cc:322-331, GetNextJob, IndexFile and AddChunk,
    :265-292, one critical section at a time. *)
Inductive act (en : env) : shared -> worker -> shared -> worker -> Prop :=
| a_check_err s : err s <> 0 -> act en s WCheck s WDone
| a_check s : err s = 0 -> act en s WCheck s WLock
| a_job s p e i d : next_job en s = (Some p, e, i, d) ->
    act en s WLock (set_jobs s i d) (WOpen p)
| a_nojob s e i d : next_job en s = (None, e, i, d) ->
    act en s WLock (set_error (set_jobs s i d) e) WDone
| a_open s p cs e : plan en p = Ok (cs, e) -> act en s (WOpen p) s (WEmit p cs e)
| a_known s p c cs e : has_hash (hash_of en c) (chunks s) = true ->
    act en s (WEmit p (c :: cs) e) s (WStat p c false cs e)
| a_new s p c cs e : has_hash (hash_of en c) (chunks s) = false ->
    act en s (WEmit p (c :: cs) e) (set_chunks s (chunks s ++ [(hash_of en c, len c)])) (WStat p c true cs e)
| a_stat s p c (new : bool) cs e :
    act en s (WStat p c new cs e) (set_st s (add_stat (st s) (len c) new))
      (if new then WSize p c cs e else WEmit p cs e)
| a_size s p c cs e b : size_bucket (cfg en) (len c) = Ok b ->
    act en s (WSize p c cs e) (set_sizes s (incr b (sizes s))) (WEmit p cs e)
| a_file s p : act en s (WEmit p [] 0) (set_st s (add_file (st s))) WCheck
| a_bad s p e : e <> 0 -> act en s (WEmit p [] e) s (WFail p e)
| a_fail s p e : act en s (WFail p e) (set_error s e) WDone.

Definition system : Type := (shared * list worker)%type.

Inductive step (en : env) : system -> system -> Prop :=
| step_at s a w b s' w' : act en s w s' w' -> step en (s, a ++ w :: b) (s', a ++ w' :: b).

(** Indexer::Run, indexer.cc:378-402: fresh statistics and [threads] workers. *)
Definition start (en : env) (ins : list str) : system :=
  ({| inputs := ins; dir := None; chunks := []; sizes := []; err := 0;
      st := {| total_files := 0; total_chunks := 0; unique_chunks := 0; total_bytes := 0; unique_bytes := 0 |} |},
   repeat WCheck (N.to_nat (threads (cfg en)))).

Inductive reach (en : env) (ins : list str) : system -> Prop :=
| r_start : reach en ins (start en ins)
| r_step a b : reach en ins a -> step en a b -> reach en ins b.

(** All workers have been joined; Run returns [err]. *)
Definition joined (y : system) : Prop := Forall (fun w => w = WDone) (snd y).
