(** The locking behaviour of data_store/data_provider.cc: what every thread
    locks and unlocks, and how mutexes behave. *)
From Verif Require Import Base Str ModelText ModelChunkMap ModelProvider.
Local Open Scope N_scope.

(** shutdown_mutex_, content_mutexes_[i], cleaned_mutex_ (data_provider.h:119-150). *)
Definition m_shutdown : N := 0.
Definition m_content (i : N) : N := 1 + i.
Definition m_cleaned : N := 257.

Inductive action :=
| ALock (m : N) (exclusive : bool)
| AUnlock (m : N)
| AJoin (thread : nat).      (* std::thread::join *)

(** A request of a client thread, with the data-dependent choices it makes. *)
Inductive request :=
| QGet (id : cid) (writer hit : bool)             (* Get of one chunk, both overloads *)
| QGetList (probed missing : list cid)            (* Get of a list: probed in the cache, missing afterwards *)
| QShutdown                                       (* Shutdown, from any thread but the cleaner *)
| QWaitForCleanup.                                (* WaitForCleanupAndResetForTesting *)

Definition content_of (id : cid) : N := m_content (mutex_of id).

Definition request_actions (q : request) : list action :=
  match q with
  | QGet id writer hit =>                         (* data_provider.cc:78-92, 179-194 *)
      (if writer then [ALock (content_of id) false; AUnlock (content_of id)] else []) ++
      (if writer && hit then [] else [ALock (content_of id) true; AUnlock (content_of id)])
  | QGetList probed missing =>                    (* data_provider.cc:132, 136-143 *)
      flat_map (fun id => [ALock (content_of id) false; AUnlock (content_of id)]) probed ++
      match missing with
      | [] => []
      | _ => map (fun i => ALock (m_content i) true) (write_lock_all missing) ++
             map (fun i => AUnlock (m_content i)) (write_lock_all missing)
      end
  | QShutdown => [ALock m_shutdown true; AUnlock m_shutdown; AJoin 0]     (* data_provider.cc:55-64 *)
  | QWaitForCleanup => [ALock m_cleaned true; AUnlock m_cleaned; ALock m_cleaned true; AUnlock m_cleaned]   (* 352-361: AwaitWithTimeout *)
  end.
Definition client (qs : list request) : list action := flat_map request_actions qs.

(** One iteration of the cleanup loop (data_provider.cc:316-349). *)
Definition cleanup_iteration (cleanup : bool) : list action :=
  [AUnlock m_shutdown; ALock m_shutdown true] ++                                        (* AwaitWithTimeout, 320 *)
  (if cleanup
   then map (fun i => ALock (m_content i) true) lock_all_mutexes ++                     (* 330-331 *)
        [ALock m_cleaned true; AUnlock m_cleaned] ++                                    (* 339 *)
        map (fun i => AUnlock (m_content i)) lock_all_mutexes
   else []).
Definition cleaner (iterations : list bool) : list action :=
  [ALock m_shutdown true] ++ flat_map cleanup_iteration iterations ++ [AUnlock m_shutdown].

(** * Mutexes *)
Record thread := mkthread { th_held : list (N * bool); th_prog : list action }.

Definition holds (t : thread) (m : N) : bool := existsb (fun h => fst h =? m) (th_held t).
Definition holds_exclusively (t : thread) (m : N) : bool := existsb (fun h => (fst h =? m) && snd h) (th_held t).
Definition waits_exclusively (t : thread) (m : N) : bool :=
  match th_prog t with ALock m' true :: _ => m' =? m | _ => false end.
Definition finished (t : thread) : bool := match th_prog t with [] => true | _ => false end.

Fixpoint release (m : N) (held : list (N * bool)) : list (N * bool) :=
  match held with [] => [] | h :: r => if fst h =? m then r else h :: release m r end.

(** Thread [i] takes its next action.  With [strict] a mutex is not given to a
    reader while a writer waits for it (absl::Mutex may or may not do that). *)
Definition thread_step (strict : bool) (ts : list thread) (i : nat) : option (list thread) :=
  match nth_error ts i with
  | None => None
  | Some t =>
      match th_prog t with
      | [] => None
      | ALock m w :: p =>
          let free := if w then forallb (fun u => negb (holds u m)) ts
                      else forallb (fun u => negb (holds_exclusively u m)) ts &&
                           (negb strict || forallb (fun u => negb (waits_exclusively u m)) ts) in
          if free then Some (firstn i ts ++ mkthread ((m, w) :: th_held t) p :: skipn (S i) ts) else None
      | AUnlock m :: p => Some (firstn i ts ++ mkthread (release m (th_held t)) p :: skipn (S i) ts)
      | AJoin k :: p =>
          match nth_error ts k with
          | Some u => if finished u then Some (firstn i ts ++ mkthread (th_held t) p :: skipn (S i) ts) else None
          | None => None
          end
      end
  end.

(** All threads of a data provider: the cleaner first. *)
Definition provider_threads (iterations : list bool) (clients : list (list request)) : list thread :=
  mkthread [] (cleaner iterations) :: map (fun qs => mkthread [] (client qs)) clients.

Inductive reaches (ts : list thread) : list thread -> Prop :=
| reach_start : reaches ts ts
| reach_step us i vs : reaches ts us -> thread_step false us i = Some vs -> reaches ts vs.
