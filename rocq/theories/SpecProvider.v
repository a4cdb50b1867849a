(** Specification for C24: chunks are content-addressed, [truth id] is the chunk
    with that id. *)
From Verif Require Import Base Str ModelText ModelChunkMap ModelProvider.
Local Open Scope N_scope.

Definition prefix (a b : bytes) : Prop := exists c, b = a ++ c.
(** Bytes [off, off+size) of a chunk, as far as they exist. *)
Definition range (b : bytes) (off size : nat) : bytes := firstn size (skipn off b).

Section Spec.
Context (truth : cid -> option bytes).

(** Every cached chunk is a prefix of the true chunk: it may be truncated. *)
Definition sound (c : cache) : Prop := forall id b, c id = Some b -> exists t, truth id = Some t /\ prefix b t.
(** Every cached chunk is the true chunk. *)
Definition intact (c : cache) : Prop := forall id b, c id = Some b -> truth id = Some b.

Definition reader_sound (r : reader) : Prop := forall id b, r_fetch r id (FOk b) -> exists t, truth id = Some t /\ prefix b t.
Definition reader_exact (r : reader) : Prop := forall id b, r_fetch r id (FOk b) -> truth id = Some b.
(** The reader has the chunk and delivers it. *)
Definition delivers (r : reader) (id : cid) : Prop := forall f, r_fetch r id f -> exists b, f = FOk b.

(** Other threads keep the cache sound (intact), and leave alone the chunks whose
    mutex this thread holds. *)
Definition respects_locks (env : list N -> cache -> cache -> Prop) : Prop :=
  forall held c c' id, env held c c' -> In (mutex_of id) held -> c' id = c id.
Definition preserves (env : list N -> cache -> cache -> Prop) (P : cache -> Prop) : Prop :=
  forall held c c', env held c c' -> P c -> P c'.

(** The same request. *)
Definition same_request (t t' : task) : Prop := t_id t = t_id t' /\ t_off t = t_off t' /\ t_size t = t_size t'.
(** The task's buffer holds the bytes requested. *)
Definition delivered (t : task) : Prop :=
  exists tr, truth (t_id t) = Some tr /\ t_out t = range tr (t_off t) (t_size t) /\ length (t_out t) = t_size t.
End Spec.
