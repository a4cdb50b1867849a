(** Specification for C69: what is heard of a child process. *)
From Verif Require Import Base.
Local Notation str := (list N).
(** The two output streams. *)
Inductive stream : Type := StdOut | StdErr.
Definition stream_eqb (a b : stream) : bool := match a, b with StdOut, StdOut => true | StdErr, StdErr => true | _, _ => false end.
(** What happens, in order: the child writes or exits; the handler of a stream is called; Terminate is called;
    the exit is noticed (HasExited becomes true); the thread that watches the child ends. *)
Inductive event : Type :=
  | Writes (s : stream) (bs : str) | Exits (code : N)
  | Heard (s : stream) (piece : str) | Terminates | Noticed (code : N) | Ends | Silent.
Fixpoint written (s : stream) (h : list event) : str :=
  match h with
  | [] => []
  | Writes t bs :: r => if stream_eqb s t then bs ++ written s r else written s r
  | _ :: r => written s r
  end.
Fixpoint heard (s : stream) (h : list event) : str :=
  match h with
  | [] => []
  | Heard t bs :: r => if stream_eqb s t then bs ++ heard s r else heard s r
  | _ :: r => heard s r
  end.
Fixpoint pump_steps (h : list event) : nat :=
  match h with
  | [] => 0
  | (Heard _ _ | Noticed _ | Ends | Silent) :: r => S (pump_steps r)
  | _ :: r => pump_steps r
  end.
(** How much the child writes. *)
Definition volume (h : list event) : nat := length (written StdOut h) + length (written StdErr h).
