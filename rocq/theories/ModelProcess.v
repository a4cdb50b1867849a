(** Model of a child process and of the thread that watches it (common/process_win.cc:176-545). *)
From Verif Require Import Base SpecProcess.
Local Notation str := (list N).

(** The watching thread: draining one stream (IssueRead's loop), waiting (WaitForMultipleObjects), ended. *)
Inductive pump : Type := Draining (s : stream) (next : list stream) | Waiting | Stopped.
Record proc : Type := pr { p_pipe : stream -> str; p_child : option N (* exit code *); p_shut : bool; p_pump : pump; p_noticed : option N }.
(** MessagePumpThread starts: Initialize of both readers issues reads. *)
Definition proc_init : proc := pr (fun _ => []) None false (Draining StdOut [StdErr]) None.
Definition set_pipe (f : stream -> str) (s : stream) (x : str) : stream -> str := fun t => if stream_eqb t s then x else f t.
(** buffer_(4096), one byte is kept for a terminator *)
Definition max_piece : nat := 4095.

Inductive step : proc -> event -> proc -> Prop :=
  (* the child *)
  | SWrite f sh pu no s bs : step (pr f None sh pu no) (Writes s bs) (pr (set_pipe f s (f s ++ bs)) None sh pu no)
  | SExit f sh pu no c : step (pr f None sh pu no) (Exits c) (pr f (Some c) sh pu no)
  (* Terminate, ~MessagePumpThread: SetEvent(shutdown_event_), before TerminateProcess (process_win.cc:817-829) *)
  | STerm f c sh pu no : step (pr f c sh pu no) Terminates (pr f c true pu no)
  (* IssueRead: as long as there is data (process_win.cc:264-306); ReadFile gives at most the size of the buffer *)
  | SDrain f c sh s nx no a b : f s = a ++ b -> a <> [] -> length a <= max_piece ->
      step (pr f c sh (Draining s nx) no) (Heard s a) (pr (set_pipe f s b) c sh (Draining s nx) no)
  | SDrained f c sh s no : f s = [] -> step (pr f c sh (Draining s []) no) Silent (pr f c sh Waiting no)
  | SDrainNext f c sh s t nx no : f s = [] -> step (pr f c sh (Draining s (t :: nx)) no) Silent (pr f c sh (Draining t nx) no)
  (* WaitForMultipleObjects: the lowest signalled index: process, shutdown, stdout, stderr (process_win.cc:441-517) *)
  | SNoticed f c sh no : step (pr f (Some c) sh Waiting no) (Noticed c) (pr f (Some c) sh Stopped (Some c))
  | SShutdown f no : step (pr f None true Waiting no) Ends (pr f None true Stopped no)
  | SReadOut f no a b : f StdOut = a ++ b -> a <> [] -> length a <= max_piece ->
      step (pr f None false Waiting no) (Heard StdOut a) (pr (set_pipe f StdOut b) None false (Draining StdOut []) no)
  | SReadErr f no a b : f StdOut = [] -> f StdErr = a ++ b -> a <> [] -> length a <= max_piece ->
      step (pr f None false Waiting no) (Heard StdErr a) (pr (set_pipe f StdErr b) None false (Draining StdErr []) no).
Inductive run : proc -> list event -> proc -> Prop :=
  | run_nil x : run x [] x
  | run_cons x e y h z : step x e y -> run y h z -> run x (e :: h) z.
