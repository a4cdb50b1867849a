(** Model of common/threadpool.{h,cc} and common/semaphore.{h,cc} as labelled
    transition systems.  Each action is one critical section (the code between
    taking and releasing a mutex, or between waking up in Await and releasing)
    or one lock-free piece of a worker; every interleaving of actions is a run.

    Not modelled: what a task does (it ends at some point), the cancellation
    predicate handed to it, real time.  A completion callback is an event; it
    runs under completed_tasks_mutex_ and does not touch this pool. *)
From Verif Require Import Base.
Local Open Scope Z_scope.

Definition task := nat.

(** Where a worker thread is (threadpool.cc:100-142, ThreadWorkerMain). *)
Inductive wstate :=
| WLoop (finished : bool)   (* about to lock task_queue_mutex_ (105); task_finished = finished *)
| WAwait                    (* blocked in Await (119) *)
| WRun (t : task)           (* in task->ThreadRun (128) *)
| WPush (t : task)          (* about to lock completed_tasks_mutex_ (134) *)
| WExit.                    (* left the loop (120) *)

(** The pool (threadpool.h:104-116).  outstanding_task_count_ is a size_t in the
    code and an integer here: C39_outstanding_exact shows that it is never
    decremented below zero (the assert in threadpool.cc:111 never fires). *)
Record pool := mkpool {
  tp_queue : list task;        (* task_queue_ *)
  tp_outstanding : Z;          (* outstanding_task_count_ *)
  tp_shutdown : bool;          (* shutdown_ *)
  tp_joining : bool;           (* some thread is in the joining part of Shutdown *)
  tp_completed : list task;    (* completed_tasks_ *)
  tp_callback : bool;          (* on_task_completed_ is set *)
  tp_workers : list wstate }.   (* workers_ *)

(** Observable events. *)
Inductive event :=
| EQueue (t : task)             (* QueueTask(t) returned *)
| EStart (t : task)             (* a worker calls t->ThreadRun *)
| EEnd (t : task)               (* t->ThreadRun returned *)
| EDone (t : task)              (* t was put on the completed queue *)
| ECallback (t : task)          (* the completion callback got t *)
| EGet (t : task)               (* (Try)GetCompletedTask returned t *)
| ENone                         (* TryGetCompletedTask returned nullptr *)
| EWait                         (* Wait returned *)
| EAtMost (n : Z) (b : bool)    (* WaitForQueuedTasksAtMost(n) returned b *)
| ECount (n : Z)                (* NumQueuedTasks returned n *)
| EShutdown                     (* Shutdown was called and signalled *)
| EJoined (dropped : list task). (* Shutdown returned, dropping these completed tasks *)

Inductive act :=
| AQueue (t : task) | ATryGet | AGet | AWait | AAtMost (n : Z) (timeout : bool) | ACount
| ASetCallback (b : bool) | AShutdown | AJoin
| AWorker (i : nat).   (* worker thread i makes its next move *)

(** Threadpool::Threadpool (threadpool.cc:19-24). *)
Definition pool_init (n : nat) : pool :=
  mkpool [] 0 false false [] false (repeat (WLoop false) n).

Definition set_worker (p : pool) (i : nat) (w : wstate) : pool :=
  mkpool (tp_queue p) (tp_outstanding p) (tp_shutdown p) (tp_joining p) (tp_completed p) (tp_callback p)
         (firstn i (tp_workers p) ++ w :: skipn (S i) (tp_workers p)).

(** threadpool.cc:116-125: the rest of the critical section once the worker
    evaluates the Await condition: leave on shutdown, take the front of the
    queue, or block. *)
Definition take (p : pool) (i : nat) : pool * list event :=
  if tp_shutdown p then (set_worker p i WExit, [])
  else match tp_queue p with
       | t :: q => (set_worker (mkpool q (tp_outstanding p) (tp_shutdown p) (tp_joining p) (tp_completed p)
                                       (tp_callback p) (tp_workers p)) i (WRun t), [EStart t])
       | [] => (set_worker p i WAwait, [])
       end.

(** One move of worker i (threadpool.cc:100-142). *)
Definition worker_step (p : pool) (i : nat) : option (pool * list event) :=
  match nth_error (tp_workers p) i with
  | Some (WLoop fin) =>                                 (* 105-125 *)
      let o := if fin then tp_outstanding p - 1 else tp_outstanding p in   (* 110-113 *)
      Some (take (mkpool (tp_queue p) o (tp_shutdown p) (tp_joining p) (tp_completed p) (tp_callback p) (tp_workers p)) i)
  | Some WAwait =>                                      (* 119: the condition holds *)
      if tp_shutdown p || negb (match tp_queue p with [] => true | _ => false end)
      then Some (take p i) else None
  | Some (WRun t) => Some (set_worker p i (WPush t), [EEnd t])   (* 128-131 *)
  | Some (WPush t) =>                                   (* 134-140 *)
      if tp_callback p
      then Some (set_worker p i (WLoop true), [ECallback t])
      else Some (set_worker (mkpool (tp_queue p) (tp_outstanding p) (tp_shutdown p) (tp_joining p)
                                    (tp_completed p ++ [t]) (tp_callback p) (tp_workers p)) i (WLoop true), [EDone t])
  | Some WExit | None => None
  end.

Definition exited (w : wstate) : bool := match w with WExit => true | _ => false end.

(** One action; [None] = the calling thread stays blocked. *)
Definition pool_step (p : pool) (a : act) : option (pool * list event) :=
  match a with
  | AQueue t =>          (* QueueTask, threadpool.cc:55-59 *)
      Some (mkpool (tp_queue p ++ [t]) (tp_outstanding p + 1) (tp_shutdown p) (tp_joining p) (tp_completed p)
                   (tp_callback p) (tp_workers p), [EQueue t])
  | ATryGet =>           (* TryGetCompletedTask, threadpool.cc:61-71 *)
      match tp_completed p with
      | [] => Some (p, [ENone])
      | t :: c => Some (mkpool (tp_queue p) (tp_outstanding p) (tp_shutdown p) (tp_joining p) c (tp_callback p)
                               (tp_workers p), [EGet t])
      end
  | AGet =>              (* GetCompletedTask, threadpool.cc:73-83 *)
      match tp_completed p with
      | [] => None
      | t :: c => Some (mkpool (tp_queue p) (tp_outstanding p) (tp_shutdown p) (tp_joining p) c (tp_callback p)
                               (tp_workers p), [EGet t])
      end
  | AWait =>             (* Wait, threadpool.cc:28-34 *)
      if tp_outstanding p =? 0 then Some (p, [EWait]) else None
  | AAtMost n timeout => (* WaitForQueuedTasksAtMost, threadpool.cc:90-98; [timeout]: the deadline passed *)
      let cond := tp_shutdown p || (tp_outstanding p <=? n) in
      if cond || timeout then Some (p, [EAtMost n (cond && (tp_outstanding p <=? n))]) else None
  | ACount => Some (p, [ECount (tp_outstanding p)])      (* NumQueuedTasks, threadpool.h:86-89 *)
  | ASetCallback b =>    (* SetTaskCompletedCallback, threadpool.cc:85-88 *)
      Some (mkpool (tp_queue p) (tp_outstanding p) (tp_shutdown p) (tp_joining p) (tp_completed p) b (tp_workers p), [])
  | AShutdown =>         (* Shutdown, threadpool.cc:36-42; a second call returns at 40 *)
      Some (mkpool (tp_queue p) (tp_outstanding p) true (tp_joining p || negb (tp_shutdown p)) (tp_completed p)
                   (tp_callback p) (tp_workers p), [EShutdown])
  | AJoin =>             (* Shutdown, threadpool.cc:44-52: all workers joined, completed tasks dropped *)
      if tp_joining p && forallb exited (tp_workers p)
      then Some (mkpool (tp_queue p) (tp_outstanding p) (tp_shutdown p) false [] (tp_callback p) (tp_workers p),
                 [EJoined (tp_completed p)])
      else None
  | AWorker i => worker_step p i
  end.

(** A run: the actions in the order in which the threads made them. *)
Fixpoint pool_run (p : pool) (l : list act) : option (pool * list event) :=
  match l with
  | [] => Some (p, [])
  | a :: r => match pool_step p a with
              | Some (p1, e1) => match pool_run p1 r with
                                 | Some (p2, e2) => Some (p2, e1 ++ e2)
                                 | None => None
                                 end
              | None => None
              end
  end.

(** *** Semaphore (common/semaphore.cc) *)

Local Open Scope N_scope.

(** count_ (uint32_t, semaphore.h:45); the threads blocked in
    condition_.wait that have not been notified; those that were notified (or
    woke up spuriously) and still have to lock the mutex and test the
    predicate again. *)
Record sema := mksema {
  sm_count : N;
  sm_sleeping : list nat;
  sm_woken : list nat }.

(** Semaphore::Semaphore (semaphore.cc:19): int converted to uint32_t. *)
Definition sema_init (initial_count : Z) : sema :=
  mksema (Z.to_N (initial_count mod 2 ^ 32)%Z) [] [].

Inductive sact :=
| SWait (t : nat)      (* thread t calls Wait *)
| SRecheck (t : nat)   (* woken thread t gets the mutex and tests count_ > 0 *)
| SSpurious (t : nat)  (* sleeping thread t wakes up without being notified *)
| SSignal (t : nat).   (* Signal; notify_one picks sleeping thread t (any if none sleeps) *)

Inductive sevent := SReturned (t : nat) | SSignalled.

Definition remove_id (t : nat) (l : list nat) : list nat := List.remove Nat.eq_dec t l.
Definition mem_id (t : nat) (l : list nat) : bool := existsb (Nat.eqb t) l.

Definition sema_step (s : sema) (a : sact) : option (sema * list sevent) :=
  match a with
  | SWait t =>          (* semaphore.cc:23-27 *)
      if mem_id t (sm_sleeping s) || mem_id t (sm_woken s) then None   (* a blocked thread makes no calls *)
      else if 0 <? sm_count s
      then Some (mksema (sm_count s - 1) (sm_sleeping s) (sm_woken s), [SReturned t])
      else Some (mksema (sm_count s) (t :: sm_sleeping s) (sm_woken s), [])
  | SRecheck t =>       (* semaphore.cc:25: wait's loop *)
      if negb (mem_id t (sm_woken s)) then None
      else if 0 <? sm_count s
      then Some (mksema (sm_count s - 1) (sm_sleeping s) (remove_id t (sm_woken s)), [SReturned t])
      else Some (mksema (sm_count s) (t :: sm_sleeping s) (remove_id t (sm_woken s)), [])
  | SSpurious t =>
      if negb (mem_id t (sm_sleeping s)) then None
      else Some (mksema (sm_count s) (remove_id t (sm_sleeping s)) (t :: sm_woken s), [])
  | SSignal t =>        (* semaphore.cc:29-33 *)
      let c := (sm_count s + 1) mod 2 ^ 32 in
      match sm_sleeping s with
      | [] => Some (mksema c [] (sm_woken s), [SSignalled])
      | _ => if mem_id t (sm_sleeping s)
             then Some (mksema c (remove_id t (sm_sleeping s)) (t :: sm_woken s), [SSignalled])
             else None
      end
  end.

Fixpoint sema_run (s : sema) (l : list sact) : option (sema * list sevent) :=
  match l with
  | [] => Some (s, [])
  | a :: r => match sema_step s a with
              | Some (s1, e1) => match sema_run s1 r with
                                 | Some (s2, e2) => Some (s2, e1 ++ e2)
                                 | None => None
                                 end
              | None => None
              end
  end.
