(** Model of CdcFuseManager: starting and stopping the file system on the device. *)
From Verif Require Import Base SpecOutput ModelText ModelPort ModelOutput SpecFuseStart.
From Coq Require Import ZArith.
Local Open Scope N_scope.
Local Notation str := (list N).

(** fuse_stdout_, fuse_port_, fuse_not_up_to_date_, fuse_update_check_finished_, fuse_connected_ *)
Record fst_ : Type := fo { f_out : str; f_port : Z; f_old : bool; f_checked : bool; f_conn : bool }.
Definition fuse_init : fst_ := fo [] 0%Z false false false.
(** absl::StrContains *)
Definition contains (s w : str) : bool := match str_find w s with Some _ => true | None => false end.
(** ParsePort (cdc_fuse_manager.cc:41-56) *)
Definition fuse_parse (s : str) : outcome Z :=
  match str_find fport s with
  | None => Fail
  | Some i => do v <- atoi (skipn (i + length fport) s); if (v =? 0)%Z then Fail else Ok v
  end.
(** CdcFuseManager::HandleFuseStdout (cdc_fuse_manager.cc:275-303): the state afterwards (an error is returned
    before the flags are set and is only logged by the process pump, process_win.cc:230-234). None: undefined
    behaviour of atoi. *)
Definition fuse_handle (st : fst_) (data : str) : option fst_ :=
  if f_conn st then Some st
  else
    let out := f_out st ++ data in
    if contains out up_to_date then
      match fuse_parse out with
      | Ok p => Some (fo out p (f_old st) true (contains out connected_))
      | Fail => Some (fo out (f_port st) (f_old st) (f_checked st) (f_conn st))
      | _ => None
      end
    else if contains out not_up_to_date then Some (fo out (f_port st) true true (contains out connected_))
    else Some (fo out (f_port st) (f_old st) (f_checked st) (contains out connected_)).
Fixpoint fuse_all (st : fst_) (pieces : list str) : option fst_ :=
  match pieces with
  | [] => Some st
  | p :: r => match fuse_handle st p with Some st => fuse_all st r | None => None end
  end.

(** What a process does: whether it starts, what reaches the handler before the update check is noticed or the process
    exits (possibly not everything it printed, see C69), how it ends if it does ([Lost]: the pump fails). *)
Inductive ending : Type := ExitedWith (code : N) | Lost | Runs.
Record attempt : Type := att { a_starts : bool; a_seen : list str; a_end : ending }.
(** RunFuseProcess (cdc_fuse_manager.cc:160-203): needs deployment, port; or an error; or it never returns. *)
Inductive ran : Type := Ran (deploy : bool) (port : Z) (st : fst_) | RunFailed | Hangs | RunUndefined.
Definition run_fuse (a : attempt) : ran :=
  if negb (a_starts a) then RunFailed
  else match fuse_all fuse_init (a_seen a) with
       | None => RunUndefined
       | Some st =>
           if f_checked st then Ran (f_old st) (f_port st) st
           else match a_end a with
                | ExitedWith c => Ran (f_old st || negb (c =? 0)) (f_port st) st
                | Lost => RunFailed
                | Runs => Hangs
                end
       end.

(** fuse_process_ and forwarding_process_: whether they are null. *)
Record manager : Type := mgr { m_fuse : bool; m_fwd : bool }.
Inductive started : Type :=
  | Started (port : Z)   (* the remote port that is forwarded *)
  | StartError | NeverReturns
  | Crashed.             (* a null pointer is used *)

(** What happens after the last FUSE process was started: forwarding, further output, end. *)
Record rest : Type := rst { r_fwd_starts : bool; r_seen : list str; r_end : ending }.
(** RunPortForwardingProcess and WaitForFuseConnected (cdc_fuse_manager.cc:205-245). *)
Definition forward_and_wait (fuse : bool) (port : Z) (st : fst_) (r : rest) : started * manager :=
  if negb (r_fwd_starts r) then (StartError, mgr fuse true)
  else if negb fuse then (Crashed, mgr fuse true)
  else match fuse_all st (r_seen r) with
       | None => (Crashed, mgr fuse true)
       | Some st =>
           if f_conn st then (Started port, mgr fuse true)
           else match r_end r with
                | ExitedWith _ => (StartError, mgr fuse true)
                | Lost => (StartError, mgr fuse true)
                | Runs => (NeverReturns, mgr fuse true)
                end
       end.
(** CdcFuseManager::Start (cdc_fuse_manager.cc:98-158), with what the device does: first attempt, deployment,
    second attempt, the rest; the number of deployments. *)
Definition fuse_start (a : attempt) (deploy_ok : bool) (b : attempt) (r : rest) : started * manager * nat :=
  match run_fuse a with
  | RunFailed => (StartError, mgr true false, O)
  | Hangs => (NeverReturns, mgr true false, O)
  | RunUndefined => (Crashed, mgr true false, O)
  | Ran false p st => (forward_and_wait true p st r, O)
  | Ran true _ _ =>
      (* fuse_process_.reset() *)
      if negb deploy_ok then (StartError, mgr false false, 1%nat)
      else match run_fuse b with
           | RunFailed => (StartError, mgr true false, 1%nat)
           | Hangs => (NeverReturns, mgr true false, 1%nat)
           | RunUndefined => (Crashed, mgr true false, 1%nat)
           | Ran deploy p st => (forward_and_wait (negb deploy) p st r, 1%nat)
           end
  end.
(** CdcFuseManager::Stop (cdc_fuse_manager.cc:247-259); false: a null pointer is used. *)
Definition fuse_stop (m : manager) : bool := if negb (m_fuse m) then true else m_fwd m.
(** MultiSession::StartSession and ~Session (multi_session.cc:514-516, session.cc:64-70, 89-101): a session that cannot
    be started is destroyed, which stops it. *)
Definition start_session (a : attempt) (deploy_ok : bool) (b : attempt) (r : rest) : started :=
  match fuse_start a deploy_ok b r with
  | (StartError, m, _) => if fuse_stop m then StartError else Crashed
  | (x, _, _) => x
  end.
