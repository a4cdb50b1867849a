(** What a user of the thread pool and the semaphore observes: projections of
    an event trace. *)
From Verif Require Import Base ModelThreadpool.

(** The tasks handed to QueueTask, in call order. *)
Fixpoint queued (tr : list event) : list task :=
  match tr with [] => [] | EQueue t :: r => t :: queued r | _ :: r => queued r end.
(** The tasks whose ThreadRun was called, in call order. *)
Fixpoint started (tr : list event) : list task :=
  match tr with [] => [] | EStart t :: r => t :: started r | _ :: r => started r end.
(** The tasks whose ThreadRun returned. *)
Fixpoint ended (tr : list event) : list task :=
  match tr with [] => [] | EEnd t :: r => t :: ended r | _ :: r => ended r end.
(** The tasks that were handed on, to the completed queue or to the callback. *)
Fixpoint finished (tr : list event) : list task :=
  match tr with [] => [] | EDone t :: r => t :: finished r | ECallback t :: r => t :: finished r | _ :: r => finished r end.
(** The tasks that were put on the completed queue. *)
Fixpoint completed (tr : list event) : list task :=
  match tr with [] => [] | EDone t :: r => t :: completed r | _ :: r => completed r end.
(** The tasks that left the completed queue: returned by (Try)GetCompletedTask
    or dropped by Shutdown. *)
Fixpoint retrieved (tr : list event) : list task :=
  match tr with
  | [] => [] | EGet t :: r => t :: retrieved r | EJoined d :: r => d ++ retrieved r | _ :: r => retrieved r end.
(** The tasks that (Try)GetCompletedTask returned. *)
Fixpoint got (tr : list event) : list task :=
  match tr with [] => [] | EGet t :: r => t :: got r | _ :: r => got r end.

Definition is_worker (a : act) : Prop := match a with AWorker _ => True | _ => False end.

(** Semaphore: completed Waits and Signals. *)
Fixpoint waits (tr : list sevent) : nat :=
  match tr with [] => 0 | SReturned _ :: r => S (waits r) | _ :: r => waits r end.
Fixpoint signals (tr : list sevent) : nat :=
  match tr with [] => 0 | SSignalled :: r => S (signals r) | _ :: r => signals r end.
