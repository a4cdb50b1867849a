(** Model of cdc_stream/session_manager.cc and of the session table of
    cdc_stream/multi_session.cc. *)
From Verif Require Import Base ModelPathFilter SpecSessions.
Local Notation str := (list N).

Definition str_dec : forall a b : str, {a = b} + {a <> b} := list_eq_dec N.eq_dec.
Definition seqb (a b : str) : bool := if str_dec a b then true else false.
Definition mem (i : str) (l : list str) : bool := existsb (seqb i) l.
Definition without (i : str) (l : list str) : list str := filter (fun j => negb (seqb i j)) l.

Section Manager.
(** GetMultiSessionKey (session_manager.cc:30-37): the cache directory of the source
    directory. *)
Variable key : str -> str.

(** multi_session.h:229-266: the keys of sessions_; runner_->Status() is an error;
    runner_->Shutdown() was called. *)
Record ms : Type := mkms { m_sessions : list str; m_failed : bool; m_down : bool }.
(** session_manager.h sessions_, in iteration order. *)
Definition table : Type := list (str * ms).

(** sessions_.find (session_manager.cc:157-161) *)
Fixpoint get (k : str) (t : table) : option ms :=
  match t with [] => None | (k2, m) :: r => if seqb k k2 then Some m else get k r end.
Fixpoint put (k : str) (m : ms) (t : table) : table :=
  match t with [] => [(k, m)] | (k2, m2) :: r => if seqb k k2 then (k, m) :: r else (k2, m2) :: put k m r end.
Definition erase (k : str) (t : table) : table := filter (fun e => negb (seqb k (fst e))) t.

(** MultiSession::StartSession (multi_session.cc:488-521), for the entry [k]. *)
Definition ms_start (e : env) (i : str) (k : str) (m : ms) (t : table) : answer * table :=
  if mem i (m_sessions m) then (AError, t)
  else if m_failed m then (AError, t)
  else if negb (start_ok e i) then (AError, t)
  else if m_down m then (ACrash, t)                  (* server_ is null, 158-159 *)
  else if negb (ack_ok e i) then (AError, t)
  else (AOk, put k (mkms (m_sessions m ++ [i]) (m_failed m) (m_down m)) t).

(** StopSessionInternal (session_manager.cc:180-206). *)
Fixpoint find_session (i : str) (t : table) : option (str * ms) :=
  match t with [] => None | (k, m) :: r => if mem i (m_sessions m) then Some (k, m) else find_session i r end.
Definition stop_internal (e : env) (i : str) (t : table) : answer * table :=
  match find_session i t with
  | None => (ANotFound, t)
  | Some (k, m) =>
      if negb (stop_ok e i) then (AError, t)         (* multi_session.cc:533-535 *)
      else match without i (m_sessions m) with
           | [] => (* ms->Shutdown(), multi_session.cc:457-482: no sessions left *)
               if m_failed m then (AError, put k (mkms [] (m_failed m) true) t)
               else (AOk, erase k t)
           | l => (AOk, put k (mkms l (m_failed m) (m_down m)) t)
           end
  end.

(** StartSession (61-134) *)
Definition start_session (e : env) (i dir : str) (t : table) : answer * table :=
  if negb (valid_dir e) then (AError, snd (stop_internal e i t))
  else
    let restart := match get (key dir) t with Some m => mem i (m_sessions m) | None => false end in
    match get (key dir) t, restart with
    | Some m, true =>
        if healthy e i then (AOk, t)
        else if negb (stop_ok e i) then (AError, t)
        else let m2 := mkms (without i (m_sessions m)) (m_failed m) (m_down m) in
             ms_start e i (key dir) m2 (put (key dir) m2 t)
    | _, _ =>
        let '(a, t1) := stop_internal e i t in
        match a with
        | AError | ACrash => (AError, t1)
        | AOk | ANotFound =>
            (* GetOrCreateMultiSession, 163-178 *)
            match get (key dir) t1 with
            | Some m => ms_start e i (key dir) m t1
            | None => if init_ok e then let m := mkms [] false false in ms_start e i (key dir) m (put (key dir) m t1)
                      else (AError, t1)
            end
        end
    end.

(** MatchSessions (multi_session.cc:545-557); an out-of-bounds read of the matcher (C35)
    counts as "no match". *)
Definition matches (pattern i : str) : bool :=
  match filter_is_match [{| r_type := Include; r_pattern := pattern |}; {| r_type := Exclude; r_pattern := [ch_star] |}] i with
  | Ok b => b | _ => false
  end.
Definition match_sessions (pattern : str) (t : table) : list str :=
  flat_map (fun e => filter (matches pattern) (m_sessions (snd e))) t.
(** StopSession (136-155) *)
Fixpoint stop_all (e : env) (l : list str) (t : table) : answer * table :=
  match l with
  | [] => (AOk, t)
  | i :: r => match stop_internal e i t with (AOk, t2) => stop_all e r t2 | (a, t2) => (a, t2) end
  end.
Definition stop_session (e : env) (pattern : str) (t : table) : answer * table :=
  match match_sessions pattern t with [] => (ANotFound, t) | l => stop_all e l t end.

(** MultiSession::Shutdown (multi_session.cc:457-482). *)
Fixpoint stop_each (e : env) (l : list str) : bool * list str :=
  match l with [] => (true, []) | i :: r => if stop_ok e i then stop_each e r else (false, l) end.
Definition ms_shutdown (e : env) (m : ms) : bool * ms :=
  match stop_each e (m_sessions m) with
  | (true, _) => (negb (m_failed m), mkms [] (m_failed m) true)
  | (false, l) => (false, mkms l (m_failed m) (m_down m))
  end.
(** SessionManager::Shutdown (48-59) *)
Fixpoint shutdown_loop (e : env) (t : table) : bool * table :=
  match t with
  | [] => (true, [])
  | (k, m) :: r =>
      let '(ok, m2) := ms_shutdown e m in
      if ok then let '(ok2, r2) := shutdown_loop e r in (ok2, (k, m2) :: r2) else (false, (k, m2) :: r)
  end.
Definition shutdown (e : env) (t : table) : answer * table :=
  let '(ok, t2) := shutdown_loop e t in if ok then (AOk, []) else (AError, t2).

(** The runner's thread reports an error once, and for good (multi_session.cc:174-199). *)
Definition runner_fails (k : str) (t : table) : table :=
  map (fun e => if seqb k (fst e) then (fst e, mkms (m_sessions (snd e)) true (m_down (snd e))) else e) t.

Definition perform (e : env) (o : op) (t : table) : answer * table :=
  match o with
  | Start i d => start_session e i d t
  | Stop p => stop_session e p t
  | Shutdown => shutdown e t
  | RunnerFails d => (AOk, runner_fails (key d) t)
  end.
(** A history: the service was asked for these operations, one after the other (all are
    under sessions_mutex_). *)
Inductive runs (t0 : table) : list (op * answer) -> table -> Prop :=
| h_nil : runs t0 [] t0
| h_op h t e o a t2 : runs t0 h t -> perform e o t = (a, t2) -> runs t0 (h ++ [(o, a)]) t2.
Definition history : list (op * answer) -> table -> Prop := runs [].

(** [i] is streamed from the directory with key [k]. *)
Definition streams (t : table) (i k : str) : Prop := exists m, get k t = Some m /\ In i (m_sessions m).
(** [k] has a manifest updater and server, but no session. *)
Definition idle (t : table) (k : str) : Prop := exists m, get k t = Some m /\ m_sessions m = [].
End Manager.
