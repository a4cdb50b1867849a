(** Specifications for C33 and C34. *)
From Verif Require Import Base Str ModelChunkMap.
Local Open Scope N_scope.

(** The files described by a history of calls: a map from path to size and
    chunk list. *)
Definition files := path -> option cfile.

Definition set (m : files) (p : path) (v : option cfile) : files :=
  fun q => if list_eq_dec N.eq_dec q p then v else m q.

Definition described (m : files) (o : fcop) : files :=
  match o with
  | OInit p size chunks => set m p (Some (mkcfile size chunks))
  | OAppend p l off =>
      let f := match m p with Some f => f | None => mkcfile 0 [] end in
      set m p (Some (mkcfile (c_size f) (c_chunks f ++ map (fun c => (fst c, (snd c + off) mod 2 ^ 64)) l)))
  | ORemove p => set m p None
  | OClear => fun _ => None
  | OFlush _ => m
  end.

Definition described_by (ops : list fcop) : files := fold_left described ops (fun _ => None).

(** Calls that do not flush. *)
Definition no_flush (ops : list fcop) : Prop := Forall (fun o => match o with OFlush _ => False | _ => True end) ops.

(** Every flush visits the hash map's entries in some order. *)
Definition any_order (ops : list fcop) : Prop :=
  Forall (fun o => match o with OFlush order => forall l, Permutation (order l) l | _ => True end) ops.

(** Chunk [id] lies at [off, off+size) of file [f]: it is an entry of the chunk
    list and ends where the next one begins, or at the end of the file. *)
Definition lies_at (f : cfile) (id : cid) (off : N) (end_ : N) : Prop :=
  exists n, nth_error (c_chunks f) n = Some (id, off) /\
            end_ = match nth_error (c_chunks f) (S n) with Some (_, o) => o | None => c_size f end.

(** *** The queue: two FIFO queues. *)

Record two := mktwo { urgent : list passet; normal : list passet }.

(** Append to the queue of its class. *)
Definition spec_add (a : passet) (t : two) : two :=
  match pa_deadline a with
  | Some _ => mktwo (urgent t ++ [a]) (normal t)
  | None => mktwo (urgent t) (normal t ++ [a])
  end.

(** Oldest acceptable element, urgent ones first. *)
Inductive first_match (ok : passet -> Prop) : list passet -> passet -> list passet -> Prop :=
| first_match_intro before x after :
    Forall (fun y => ~ ok y) before -> ok x -> first_match ok (before ++ x :: after) x (before ++ after).

Inductive spec_dequeue (ok : passet -> Prop) : two -> option passet -> two -> Prop :=
| deq_urgent u n a u' : first_match ok u a u' -> spec_dequeue ok (mktwo u n) (Some a) (mktwo u' n)
| deq_normal u n a n' : Forall (fun y => ~ ok y) u -> first_match ok n a n' -> spec_dequeue ok (mktwo u n) (Some a) (mktwo u n')
| deq_none u n : Forall (fun y => ~ ok y) u -> Forall (fun y => ~ ok y) n -> spec_dequeue ok (mktwo u n) None (mktwo u n).

(** A request for a queued asset that is not urgent yet moves (the first entry
    for) it to the end of the urgent queue; otherwise nothing changes. *)
Definition is_for (key : bytes * bytes) (a : passet) : Prop := pa_rel a = fst key /\ pa_name a = snd key.
Inductive spec_prioritize (key : bytes * bytes) (deadline : Z) : two -> two -> Prop :=
| prio_already u n : Exists (is_for key) u -> spec_prioritize key deadline (mktwo u n) (mktwo u n)
| prio_absent u n : Forall (fun a => ~ is_for key a) (u ++ n) -> spec_prioritize key deadline (mktwo u n) (mktwo u n)
| prio_move u n a n' :
    Forall (fun a => ~ is_for key a) u -> first_match (is_for key) n a n' ->
    spec_prioritize key deadline (mktwo u n)
      (mktwo (u ++ [mkpasset (pa_type a) (pa_rel a) (pa_name a) true (Some deadline)]) n').

(** The same history on two FIFO queues. *)
Definition acceptable (accept : option (passet -> bool)) (a : passet) : Prop :=
  match accept with Some f => f a = true | None => True end.

Inductive spec_requests (mpt : Z) : list prio_request -> two -> two -> Prop :=
| sr_nil t : spec_requests mpt [] t t
| sr_skip r reqs t t' : spec_requests mpt reqs t t' -> spec_requests mpt ((r, None) :: reqs) t t'
| sr_move received key reqs t t1 t' :
    spec_prioritize key (received + mpt) t t1 -> spec_requests mpt reqs t1 t' ->
    spec_requests mpt ((Some received, Some key) :: reqs) t t'.

Inductive spec_run (mpt : Z) : two -> list qop -> two -> list (option passet) -> Prop :=
| run_nil t : spec_run mpt t [] t []
| run_add t a ops t' out : spec_run mpt (spec_add a t) ops t' out -> spec_run mpt t (QAdd a :: ops) t' out
| run_deq t accept ops res t1 t' out :
    spec_dequeue (acceptable accept) t res t1 -> spec_run mpt t1 ops t' out ->
    spec_run mpt t (QDequeue accept :: ops) t' (res :: out)
| run_prio t reqs ops t1 t' out :
    spec_requests mpt reqs t t1 -> spec_run mpt t1 ops t' out ->
    spec_run mpt t (QPrioritize reqs :: ops) t' out.

(** Requests carry the finite time at which they were received (absl::Now()). *)
Definition finite_requests (ops : list qop) : Prop :=
  Forall (fun o => match o with QPrioritize reqs => Forall (fun r => fst r <> None) reqs | _ => True end) ops.

(** What identifies an asset. *)
Definition ident (a : passet) : N * bytes * bytes := (pa_type a, pa_rel a, pa_name a).
Definition added (ops : list qop) : list passet := flat_map (fun o => match o with QAdd a => [a] | _ => [] end) ops.
Definition returned (out : list (option passet)) : list passet :=
  flat_map (fun r => match r with Some a => [a] | None => [] end) out.
