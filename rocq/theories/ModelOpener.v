(** Model of cdc_rsync/parallel_file_opener.cc on top of common/threadpool.cc. One step per
    critical section; the worker threads and the caller interleave freely. *)
From Verif Require Import Base SpecOpener.

(** kNumQueuedTasks (parallel_file_opener.cc:31). *)
Definition num_queued : nat := N.to_nat 256.

Section Opener.
(** file_indices_.size() and the number of threads of the pool. *)
Variables size threads : nat.

(** Where the caller's thread is: in the constructor, outside, in GetNextOpenFile's loop, in
    the destructor (Shutdown waits for the threads; the completed tasks, then the map's are
    destroyed), past it; or the process has aborted. *)
Inductive phase : Type := PCtor | PIdle | PWait | PJoin | PDrop | PGone | PAborted.
(** look_ahead_index_, curr_index_, the pool's queue, the tasks being run, completed_tasks_
    and index_to_completed_tasks_; for finished tasks whether the file could be opened. *)
Record state := mks { s_phase : phase; s_look : nat; s_curr : nat; s_queue : list nat; s_run : list nat; s_comp : list (nat * bool); s_map : list (nat * bool) }.
Definition init : state := mks PCtor 0 0 [] [] [] [].

(** std::map, sorted by key. *)
Fixpoint map_set (k : nat) (v : bool) (l : list (nat * bool)) : list (nat * bool) :=
  match l with
  | [] => [(k, v)]
  | (k2, v2) :: r => if (k2 <? k)%nat then (k2, v2) :: map_set k v r
                     else if (k2 =? k)%nat then (k, v) :: r else (k, v) :: l
  end.
(** QueueNextFile (112-120). *)
Definition queue_next (s : state) : state :=
  if (size <=? s_look s)%nat then s
  else mks (s_phase s) (S (s_look s)) (s_curr s) (s_queue s ++ [s_look s]) (s_run s) (s_comp s) (s_map s).
Definition to (p : phase) (s : state) : state := mks p (s_look s) (s_curr s) (s_queue s) (s_run s) (s_comp s) (s_map s).
(** Whether the first completed task is the one for curr_index_ (97-98). *)
Definition ready (s : state) : bool := match s_map s with (k, _) :: _ => (k =? s_curr s)%nat | [] => false end.

Inductive step : state -> event -> state -> Prop :=
(** The constructor (75-84). *)
| O_ctor s : s_phase s = PCtor -> (s_look s < Nat.min num_queued size)%nat -> step s EInt (queue_next s)
| O_ctor_end s : s_phase s = PCtor -> (Nat.min num_queued size <= s_look s)%nat -> step s EInt (to PIdle s)
(** GetNextOpenFile (88-93). *)
| O_null s : s_phase s = PIdle -> (size <= s_curr s)%nat -> step s ENull s
| O_call s : s_phase s = PIdle -> (s_curr s < size)%nat -> step s ECall (to PWait (queue_next s))
(** 99-101: GetCompletedTask waits until completed_tasks_ is not empty. *)
| O_pop s k v r : s_phase s = PWait -> ready s = false -> s_comp s = (k, v) :: r ->
    step s EInt (mks PWait (s_look s) (s_curr s) (s_queue s) (s_run s) r (map_set k v (s_map s)))
(** 104-109 with ReleaseFile (61-65): *fp_ of a failed open aborts the process. *)
| O_get s k r : s_phase s = PWait -> ready s = true -> s_map s = (k, true) :: r ->
    step s (EGet k) (mks PIdle (s_look s) (S (s_curr s)) (s_queue s) (s_run s) (s_comp s) r)
| O_get_fail s k r : s_phase s = PWait -> ready s = true -> s_map s = (k, false) :: r -> step s EAbort (to PAborted s)
(** The pool's threads (threadpool.cc:100-142): take a task unless Shutdown was called, run it,
    put it on the completed queue. *)
| O_take s n q : s_queue s = n :: q -> (length (s_run s) < threads)%nat -> (s_phase s = PCtor \/ s_phase s = PIdle \/ s_phase s = PWait) ->
    step s EInt (mks (s_phase s) (s_look s) (s_curr s) q (s_run s ++ [n]) (s_comp s) (s_map s))
| O_open s r1 n r2 ok : s_run s = r1 ++ n :: r2 -> s_phase s <> PAborted ->
    step s (EOpened n ok) (mks (s_phase s) (s_look s) (s_curr s) (s_queue s) (r1 ++ r2) (s_comp s ++ [(n, ok)]) (s_map s))
(** ~ParallelFileOpener (86): ~Threadpool, Shutdown (threadpool.cc:36-53), then the map. *)
| O_destroy s : s_phase s = PIdle -> step s EDestroy (to PJoin s)
| O_joined s : s_phase s = PJoin -> s_run s = [] -> step s EInt (to PDrop s)
(** ~FileOpenTask (42-47). *)
| O_drop_comp s k r : s_phase s = PDrop -> s_comp s = (k, true) :: r ->
    step s (EClosed k) (mks PDrop (s_look s) (s_curr s) (s_queue s) (s_run s) r (s_map s))
| O_drop_map s k r : s_phase s = PDrop -> s_comp s = [] -> s_map s = (k, true) :: r ->
    step s (EClosed k) (mks PDrop (s_look s) (s_curr s) (s_queue s) (s_run s) [] r)
| O_drop_fail s k r : s_phase s = PDrop -> (s_comp s = (k, false) :: r \/ (s_comp s = [] /\ s_map s = (k, false) :: r)) -> step s EAbort (to PAborted s)
| O_gone s : s_phase s = PDrop -> s_comp s = [] -> s_map s = [] -> step s EDone (to PGone s).

Inductive run : state -> list event -> state -> Prop :=
| r_nil s : run s [] s
| r_snoc s tr s2 e s3 : run s tr s2 -> step s2 e s3 -> run s (tr ++ [e]) s3.
End Opener.
