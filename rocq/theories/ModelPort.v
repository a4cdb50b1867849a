(** Model of common/port_manager_win.cc: PortManager. The shared memory is a function from
    index to timestamp; every access to it (the reads of the scan, each
    InterlockedCompareExchange64, the InterlockedExchange64) is one step, so that any number
    of managers interleave freely. The clock may return any time but 0. Simplified: errors
    of netstat and of CreateFileMapping end ReservePort before it touches anything and are
    left out. *)
From Verif Require Import Base SpecPort.
From Verif Require ModelText.
Local Notation str := (list N).

Section Port.
(** first_port_ and last_port_ - first_port_ + 1 (port_manager_win.cc:136-149). *)
Variables first num : nat.

(** Where a manager is in ReservePort: reading the timestamps, trying the ports of the
    multimap that are left, about to take back the mark of a port in use. *)
Inductive call : Type :=
| Idle
| Reading (l r : list nat) (acc : list N)
| Trying (l r : list nat) (now : N) (rest : list (N * nat))
| Undoing (l r : list nat) (now : N) (ts : N) (i : nat) (rest : list (N * nat)).
Record state := mks { s_mem : nat -> N; s_call : nat -> call; s_reserved : nat -> list nat }.
Definition upd {A} (f : nat -> A) (k : nat) (v : A) : nat -> A := fun j => if Nat.eqb j k then v else f j.
(** The shared memory is zero-initialized (port_manager_win.cc:74-80). *)
Definition init : state := mks (fun _ => 0%N) (fun _ => Idle) (fun _ => []).

(** std::multimap::insert: behind the elements with an equal key. *)
Fixpoint mm_insert (k : N) (v : nat) (l : list (N * nat)) : list (N * nat) :=
  match l with
  | [] => [(k, v)]
  | (k2, v2) :: r => if (k2 <=? k)%N then (k2, v2) :: mm_insert k v r else (k, v) :: l
  end.
(** port_manager_win.cc:189-194. *)
Fixpoint mm_fill (n : nat) (acc : list N) (l : list (N * nat)) : list (N * nat) :=
  match acc with [] => l | t :: r => mm_fill (S n) r (mm_insert t n l) end.
Definition mem_nat (p : nat) (l : list nat) : bool := existsb (Nat.eqb p) l.

Inductive step : state -> event -> state -> Prop :=
(** netstat has run (163-182); both lists are non-empty, or it would have failed (351-354). *)
| P_begin s m l r : s_call s m = Idle -> l <> [] -> r <> [] ->
    step s (EBegin m l r) (mks (s_mem s) (upd (s_call s) m (Reading l r [])) (s_reserved s))
(** 192-194, one element. *)
| P_read s m l r acc : s_call s m = Reading l r acc -> (length acc < num)%nat ->
    step s (EInt m) (mks (s_mem s) (upd (s_call s) m (Reading l r (acc ++ [s_mem s (length acc)]))) (s_reserved s))
(** 199. *)
| P_scan s m l r acc now : s_call s m = Reading l r acc -> length acc = num -> now <> 0%N ->
    step s (EInt m) (mks (s_mem s) (upd (s_call s) m (Trying l r now (mm_fill 0 acc []))) (s_reserved s))
(** 206-207: another process changed the timestamp in the meantime. *)
| P_skip s m l r now ts i rest : s_call s m = Trying l r now ((ts, i) :: rest) -> s_mem s i <> ts ->
    step s (EInt m) (mks (s_mem s) (upd (s_call s) m (Trying l r now rest)) (s_reserved s))
(** 206-227. *)
| P_reserve s m l r now ts i rest : s_call s m = Trying l r now ((ts, i) :: rest) -> s_mem s i = ts ->
    mem_nat (first + i) l = true -> mem_nat (first + i) r = true ->
    step s (EReserved m (first + i) now) (mks (upd (s_mem s) i now) (upd (s_call s) m Idle) (upd (s_reserved s) m ((first + i) :: s_reserved s m)))
(** 206-221: the port is in use. *)
| P_occupied s m l r now ts i rest : s_call s m = Trying l r now ((ts, i) :: rest) -> s_mem s i = ts ->
    mem_nat (first + i) l && mem_nat (first + i) r = false ->
    step s (EOccupied m (first + i) now) (mks (upd (s_mem s) i now) (upd (s_call s) m (Undoing l r now ts i rest)) (s_reserved s))
(** 215, 220: InterlockedCompareExchange64(ts_ptr, now, port_timestamp): exchange and
    comparand as before. *)
| P_undo s m l r now ts i rest : s_call s m = Undoing l r now ts i rest -> s_mem s i = ts ->
    step s (EUndo m (first + i) now) (mks (upd (s_mem s) i now) (upd (s_call s) m (Trying l r now rest)) (s_reserved s))
| P_undo_none s m l r now ts i rest : s_call s m = Undoing l r now ts i rest -> s_mem s i <> ts ->
    step s (EInt m) (mks (s_mem s) (upd (s_call s) m (Trying l r now rest)) (s_reserved s))
(** 230-231. *)
| P_exhausted s m l r now : s_call s m = Trying l r now [] ->
    step s (EExhausted m) (mks (s_mem s) (upd (s_call s) m Idle) (s_reserved s))
(** 234-244; ~PortManager (151-161) releases all ports in turn. *)
| P_release s m p : s_call s m = Idle -> mem_nat p (s_reserved s m) = true ->
    step s (EReleased m p) (mks (upd (s_mem s) (p - first) 0%N) (s_call s) (upd (s_reserved s) m (filter (fun q => negb (Nat.eqb q p)) (s_reserved s m))))
(** The process is gone; another one may take the number [m]. *)
| P_crash s m : step s (ECrash m) (mks (s_mem s) (upd (s_call s) m Idle) (upd (s_reserved s) m [])).

Inductive run : state -> list event -> state -> Prop :=
| r_nil s : run s [] s
| r_snoc s tr s2 e s3 : run s tr s2 -> step s2 e s3 -> run s (tr ++ [e]) s3.
End Port.

(** ** FindAvailablePorts (port_manager_win.cc:324-358) *)
Definition str_eqb (a b : str) : bool := if list_eq_dec N.eq_dec a b then true else false.
Fixpoint is_prefix (a b : str) : bool :=
  match a, b with
  | [], _ => true
  | x :: a2, y :: b2 => (x =? y)%N && is_prefix a2 b2
  | _, [] => false
  end.
(** absl::StrContains(line, token). *)
Fixpoint contains (line token : str) : bool :=
  is_prefix token line || match line with [] => false | _ :: r => contains r token end.
(** GetNetstatFilterIp (59-70). *)
Inductive arch : Type := Windows | Linux.
Definition filter_ip (a : arch) : str :=
  match a with Windows => [49; 50; 55; 46; 48; 46; 48; 46; 49]%N | Linux => [48; 46; 48; 46; 48; 46; 48]%N end.
Definition port_token (a : arch) (p : nat) : str := filter_ip a ++ [58%N] ++ ModelText.print_dec (N.of_nat p).
Definition t_wait : str := [84; 73; 77; 69; 95; 87; 65; 73; 84]%N.
Definition occupied (a : arch) (lines : list str) (p : nat) : bool :=
  existsb (fun l => contains l (port_token a p) && negb (contains l t_wait)) lines.
Definition find_available (first num : nat) (out : str) (a : arch) : outcome (list nat) :=
  let lines := filter (fun l => contains l (filter_ip a)) (ModelText.split_at 10%N out) in
  match filter (fun p => negb (occupied a lines p)) (seq first num) with
  | [] => Fail
  | ps => Ok ps
  end.
