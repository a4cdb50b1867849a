(** Specification for C57: how manifests get from the workstation to the instances, as seen
    from outside. Manifest ids are numbers; 0 is the empty id (no manifest yet). *)
From Verif Require Import Base.
Local Notation str := (list N).

Inductive event : Type :=
| ESet (x : N)                     (* the workstation has a new manifest *)
| EConnect (c : nat) (i : str)     (* FUSE client number [c], of instance [i], connects *)
| EReceive (c : nat) (x : N)       (* the client receives a manifest id *)
| EApply (c : nat) (x : N)         (* ... has fetched the manifest and now serves it *)
| EApplyFail (c : nat) (x : N)     (* ... could not fetch it *)
| EAck (c : nat) (i : str) (x : N) (* the server handles the client's acknowledgement *)
| EWaitOk (i : str)                (* WaitForManifestAck(i) returns OK *)
| ERpcFail (c : nat)               (* the acknowledgement's call fails at the client *)
| ELost (c : nat)                  (* ... and the acknowledgement never reaches the server *)
| EDisconnect (c : nat)            (* the client's stream breaks *)
| EShutdown
| EEnd (c : nat)                   (* the server's call for client [c] returns *)
| EServer (c : nat) | EClient (c : nat).   (* internal steps *)

Definition sets (tr : list event) : list N := flat_map (fun e => match e with ESet x => [x] | _ => [] end) tr.
Definition received (c : nat) (tr : list event) : list N :=
  flat_map (fun e => match e with EReceive c2 x => if Nat.eqb c2 c then [x] else [] | _ => [] end) tr.
Definition applied (c : nat) (tr : list event) : list N :=
  flat_map (fun e => match e with EApply c2 x => if Nat.eqb c2 c then [x] else [] | _ => [] end) tr.
Definition acks (i : str) (tr : list event) : list N :=
  flat_map (fun e => match e with EAck _ i2 x => if list_eq_dec N.eq_dec i2 i then [x] else [] | _ => [] end) tr.
(** The manifest the workstation distributes, the one a client serves, and the one last
    acknowledged. *)
Definition current (tr : list event) : N := last (sets tr) 0%N.
Definition serves (c : nat) (tr : list event) : N := last (applied c tr) 0%N.

Inductive subseq {A} : list A -> list A -> Prop :=
| ss_nil l : subseq [] l
| ss_take x l1 l2 : subseq l1 l2 -> subseq (x :: l1) (x :: l2)
| ss_skip x l1 l2 : subseq l1 l2 -> subseq l1 (x :: l2).
(** No element equals the one before it, the first one is not [x]. *)
Fixpoint no_repeat (x : N) (l : list N) : Prop :=
  match l with [] => True | y :: r => x <> y /\ no_repeat y r end.

(** Something client [c]'s delivery still does by itself. *)
Definition moves (c : nat) (e : event) : bool :=
  match e with
  | EReceive c2 _ | EApply c2 _ | EAck c2 _ _ | EServer c2 | EClient c2 => Nat.eqb c2 c
  | _ => false
  end.
(** Client [c] has had no failure. *)
Definition failure (c : nat) (e : event) : bool :=
  match e with
  | EApplyFail c2 _ | ERpcFail c2 | ELost c2 | EDisconnect c2 => Nat.eqb c2 c
  | _ => false
  end.
Definition count (f : event -> bool) (tr : list event) : nat := length (filter f tr).
(** The server does something for client [c]. *)
Definition is_server (c : nat) (e : event) : bool := match e with EServer c2 => Nat.eqb c2 c | _ => false end.
