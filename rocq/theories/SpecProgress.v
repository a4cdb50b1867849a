(** What a user sees of the progress display, said without the tracker's state. *)
From Verif Require Import Base Str ModelProgress.
Local Open Scope N_scope.

(** A file that is copied or synced, with the bytes reported and the times of the reports. *)
Inductive job :=
| Copying (start : N) (path : bytes) (size : N) (reports : list (N * N)) (done_ : N)
| Syncing (start : N) (path : bytes) (client_size server_size : N) (reports : list (N * (N * N))) (done_ : N).
Definition job_path (j : job) : bytes := match j with Copying _ p _ _ _ | Syncing _ p _ _ _ _ => p end.
(** What cdc_rsync_client.cc:657-682 and :746-760 call. *)
Definition job_calls (j : job) : list (N * call) :=
  match j with
  | Copying t0 p sz rs t1 => (t0, StartCopy p sz) :: map (fun r => (fst r, CopyProgress (snd r))) rs ++ [(t1, Finish)]
  | Syncing t0 p cs ss rs t1 => (t0, StartSync p cs ss) :: map (fun r => (fst r, SyncProgress (fst (snd r)) (snd (snd r)))) rs ++ [(t1, Finish)]
  end.
Definition sum (l : list N) : N := fold_right N.add 0 l.
(** The reports of a job add up to its sizes. *)
Definition adds_up (j : job) : Prop :=
  match j with
  | Copying _ _ sz rs _ => sum (map snd rs) = sz
  | Syncing _ _ cs ss rs _ => sum (map (fun r => fst (snd r)) rs) = cs /\ sum (map (fun r => snd (snd r)) rs) = ss
  end.
Definition copy_size (j : job) : N := match j with Copying _ _ sz _ _ => sz | _ => 0 end.
Definition client_size (j : job) : N := match j with Syncing _ _ cs _ _ _ => cs | _ => 0 end.
Definition server_size_of (j : job) : N := match j with Syncing _ _ _ ss _ _ => ss | _ => 0 end.

(** Lines that stay: ended by a line feed, not overwritten by the next. *)
Definition permanent (os : list (list printed)) : list printed := filter p_newline (concat os).
(** The total progress a line shows. *)
Definition shown_total (p : printed) : list (N * N) :=
  match p_line p with LTotal a b | LFile _ _ _ _ a b => [(a, b)] | _ => [] end.
(** Lines the rate limit applies to. *)
Definition limited (p : printed) : Prop := match p_line p with LStats _ _ _ | LDeletedPath _ _ _ => False | _ => True end.

(** What a terminal shows in a line that read |old| when |new| is written over it. *)
Definition overwrite (old new : bytes) : bytes := new ++ skipn (length new) old.
