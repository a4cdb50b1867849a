(** Model of ConfigStreamServiceImpl (cdc_stream/grpc_asset_stream_server.cc), of the client
    cdc_fuse_fs/config_stream_client.cc and of the acknowledgement in
    cdc_fuse_fs/cdc_fuse_fs.cc SetManifest, as a transition system. Every critical section of
    mutex_ is one step. The streams are lossless and ordered until they break. *)
From Verif Require Import Base SpecDist.
Local Notation str := (list N).

(** Where GetManifestId (grpc_asset_stream_server.cc:155-178) is: in WaitForUpdate; before
    Write; before reading running_; returned. *)
Inductive handler : Type := HWait | HWrite | HCheck | HDone.
(** Where the reader thread (config_stream_client.cc:56-74) is: in Read; in SetManifest,
    before the manifest is fetched (cdc_fuse_fs.cc:1532-1580); before SendManifestAck;
    waiting for its answer (config_stream_client.cc:105-117). *)
Inductive client : Type := CRead | CSet (x : N) | CAck (x : N) | CAckWait (x : N).
Record conn : Type := mkc {
  k_inst : str; k_handler : handler;
  k_local : N;                 (* local_id *)
  k_alive : bool;
  k_net : list N;              (* written, not yet read *)
  k_client : client }.
(** [s_pending]: AckManifestIdReceived calls that have not been handled: sender, whether it
    still waits, instance, id. [s_acked]: acked_manifest_ids_, newest first. *)
Record st : Type := mkst {
  s_id : N; s_running : bool; s_acked : list (str * N);
  s_conns : list conn; s_pending : list (nat * bool * str * N) }.

Definition set_nth (c : nat) (k : conn) (l : list conn) : list conn := firstn c l ++ k :: skipn (S c) l.
Definition with_conn (s : st) (c : nat) (k : conn) : st :=
  mkst (s_id s) (s_running s) (s_acked s) (set_nth c k (s_conns s)) (s_pending s).
Definition acked (i : str) (l : list (str * N)) : option N :=
  match find (fun e => if list_eq_dec N.eq_dec (fst e) i then true else false) l with Some e => Some (snd e) | None => None end.

Inductive step : st -> event -> st -> Prop :=
(** SetManifestId (204-209) *)
| D_set s x : step s (ESet x) (mkst x (s_running s) (s_acked s) (s_conns s) (s_pending s))
(** StartListeningToManifestUpdates (config_stream_client.cc:40-53) *)
| D_connect s i : step s (EConnect (length (s_conns s)) i)
    (mkst (s_id s) (s_running s) (s_acked s) (s_conns s ++ [mkc i HWait 0 true [] CRead]) (s_pending s))
(** WaitForUpdate (246-254): woken up by a new id ... *)
| D_update s c k : nth_error (s_conns s) c = Some k -> k_handler k = HWait -> s_running s = true -> k_local k <> s_id s ->
    step s (EServer c) (with_conn s c (mkc (k_inst k) HWrite (s_id s) (k_alive k) (k_net k) (k_client k)))
(** ... or by Shutdown *)
| D_stop s c k : nth_error (s_conns s) c = Some k -> k_handler k = HWait -> s_running s = false ->
    step s (EEnd c) (with_conn s c (mkc (k_inst k) HDone (s_id s) (k_alive k) (k_net k) (k_client k)))
(** Write (169); what is written to a broken stream is never read; a failure is ignored
    (170-173) *)
| D_write s c k : nth_error (s_conns s) c = Some k -> k_handler k = HWrite ->
    step s (EServer c) (with_conn s c (mkc (k_inst k) HCheck (k_local k) (k_alive k) (k_net k ++ [k_local k]) (k_client k)))
(** 174-176 *)
| D_check s c k : nth_error (s_conns s) c = Some k -> k_handler k = HCheck -> s_running s = true ->
    step s (EServer c) (with_conn s c (mkc (k_inst k) HWait (k_local k) (k_alive k) (k_net k) (k_client k)))
| D_check_stop s c k : nth_error (s_conns s) c = Some k -> k_handler k = HCheck -> s_running s = false ->
    step s (EEnd c) (with_conn s c (mkc (k_inst k) HDone (k_local k) (k_alive k) (k_net k) (k_client k)))
(** Read (config_stream_client.cc:61) *)
| D_read s c k x r : nth_error (s_conns s) c = Some k -> k_alive k = true -> k_client k = CRead -> k_net k = x :: r ->
    step s (EReceive c x) (with_conn s c (mkc (k_inst k) (k_handler k) (k_local k) (k_alive k) r (CSet x)))
(** SetManifest: the manifest is fetched and used, or not (cdc_fuse_fs.cc:1546-1579; an
    error is logged only, config_stream_client.cc:65-69) *)
| D_apply s c k x : nth_error (s_conns s) c = Some k -> k_client k = CSet x ->
    step s (EApply c x) (with_conn s c (mkc (k_inst k) (k_handler k) (k_local k) (k_alive k) (k_net k) (CAck x)))
| D_apply_fail s c k x : nth_error (s_conns s) c = Some k -> k_client k = CSet x ->
    step s (EApplyFail c x) (with_conn s c (mkc (k_inst k) (k_handler k) (k_local k) (k_alive k) (k_net k) CRead))
(** SendManifestAck (config_stream_client.cc:105-117) *)
| D_send s c k x : nth_error (s_conns s) c = Some k -> k_client k = CAck x ->
    step s (EClient c) (mkst (s_id s) (s_running s) (s_acked s)
      (set_nth c (mkc (k_inst k) (k_handler k) (k_local k) (k_alive k) (k_net k) (CAckWait x)) (s_conns s)) (s_pending s ++ [(c, true, k_inst k, x)]))
(** AckManifestIdReceived (180-188), the sender is waiting for the answer ... *)
| D_ack s c k i x p1 p2 : s_pending s = p1 ++ (c, true, i, x) :: p2 -> nth_error (s_conns s) c = Some k ->
    step s (EAck c i x) (mkst (s_id s) (s_running s) ((i, x) :: s_acked s)
      (set_nth c (mkc (k_inst k) (k_handler k) (k_local k) (k_alive k) (k_net k) CRead) (s_conns s)) (p1 ++ p2))
(** ... or not *)
| D_ack_late s c i x p1 p2 : s_pending s = p1 ++ (c, false, i, x) :: p2 ->
    step s (EAck c i x) (mkst (s_id s) (s_running s) ((i, x) :: s_acked s) (s_conns s) (p1 ++ p2))
(** The call fails at the sender; the request may still arrive later, or be lost. *)
| D_rpc_fail s c k i x p1 p2 : s_pending s = p1 ++ (c, true, i, x) :: p2 -> nth_error (s_conns s) c = Some k ->
    step s (ERpcFail c) (mkst (s_id s) (s_running s) (s_acked s)
      (set_nth c (mkc (k_inst k) (k_handler k) (k_local k) (k_alive k) (k_net k) CRead) (s_conns s)) (p1 ++ (c, false, i, x) :: p2))
| D_lost s c i x p1 p2 : s_pending s = p1 ++ (c, false, i, x) :: p2 ->
    step s (ELost c) (mkst (s_id s) (s_running s) (s_acked s) (s_conns s) (p1 ++ p2))
(** WaitForManifestAck's condition (214-217) *)
| D_wait_ok s i : acked i (s_acked s) = Some (s_id s) -> step s (EWaitOk i) s
| D_disconnect s c k : nth_error (s_conns s) c = Some k ->
    step s (EDisconnect c) (with_conn s c (mkc (k_inst k) (k_handler k) (k_local k) false (k_net k) (k_client k)))
(** Shutdown (227-233) *)
| D_shutdown s : step s EShutdown (mkst (s_id s) false (s_acked s) (s_conns s) (s_pending s)).

Definition init : st := mkst 0 true [] [] [].
Inductive run : st -> list event -> st -> Prop :=
| r_nil s : run s [] s
| r_snoc s tr s2 e s3 : run s tr s2 -> step s2 e s3 -> run s (tr ++ [e]) s3.
