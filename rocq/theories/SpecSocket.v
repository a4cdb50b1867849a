(** Specification for C64: what common/socket.h promises of a connection. *)
From Verif Require Import Base.
Local Notation str := (list N).

Inductive status : Type := SOk | SEof | SError.
(** What the operating system does in one call of recv() or send(): transfers at most [k]
    bytes (at least one, if there is one), is not ready, fails. Interrupted calls are
    repeated (HANDLE_EINTR) and not listed. *)
Inductive choice : Type := Take (k : nat) | Again | Fails.

(** The result of Receive on a stream [s] that ends iff [eof]; [buf] is what was written to the
    buffer, [s2] what is left of the stream. *)
Definition received (s : str) (eof : bool) (size : nat) (partial : bool) (st : status) (buf s2 : str) : Prop :=
  s = buf ++ s2 /\
  match st with
  | SOk => (partial = false -> length buf = size) /\ length buf <= size /\ (0 < size -> buf <> [])
  | SEof => buf = [] /\ s = [] /\ eof = true
  | SError => length buf < size
  end.

(** The operating system transfers something in at least [n] calls, and never fails. *)
Fixpoint transfers (cs : list choice) : nat :=
  match cs with [] => 0 | Take _ :: r => S (transfers r) | _ :: r => transfers r end.
Definition healthy (cs : list choice) : Prop := Forall (fun c => c <> Fails) cs.
(** [d] came out of the stream first. *)
Definition prefix_of (d s : str) : Prop := exists r, s = d ++ r.
