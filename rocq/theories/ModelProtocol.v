(** Model of the conversation between cdc_rsync and cdc_rsync_server:
    CdcRsyncClient::Sync (cdc_rsync/cdc_rsync_client.cc) and CdcRsyncServer::Sync
    (cdc_rsync_server/cdc_rsync_server.cc) over two message pumps. *)
From Verif Require Import Base ModelCdc ModelFileDiff ModelBatch.
Local Open Scope N_scope.

(** The options that decide which messages are sent (messages.proto SetOptionsRequest;
    the others only matter for the server's plan, see below). *)
Record popts := mk_popts { o_delete : bool; o_compress : bool; o_dry_run : bool }.

(** The packets, base/message_pump.h:40-103 PacketType, with the contents that matter.
    KSigHeader (SendSignatureResponse) and KSig (AddSignaturesResponse) both have type
    kAddSignatures. *)
Inductive packet :=
| KSetOptions (o : popts)
| KAddFiles (a : addfiles)
| KFileStats
| KAddDeleted (a : addDeleted)
| KFileIndices (l : list N)
| KToggle                          (* ToggleCompressionRequest / Response *)
| KSendMissing (server_index : N)
| KRaw (b : bytes)
| KSigHeader (client_index : N)
| KSig (s : sigmsg)
| KPatch (q : request)
| KShutdown.

(** What a thread does next.  [PRecv]: ReceiveMessage or ReceiveRawData; None is an
    error (unexpected type, contents that are refused).  [PRecvAll]: the receive loops
    that end with an empty message; [stop] is None for an unexpected type and Some true
    for the empty message; [got] are the messages received so far.  [PFlush]:
    MessagePump::FlushOutgoingQueue.  [PFork i]: patch_pool.QueueTask of a PatchTask
    for file [i].  [PJoin]: patch_pool.Wait.  [PDone] returns an OK status, with what
    has been received. *)
Record presult := mk_presult {
  r_files : list addfiles;      (* AddFiles requests received by the server *)
  r_written : list (N * bytes); (* missing files received by the server *)
  r_deleted : list addDeleted;  (* AddDeletedFiles responses received by the client *)
  r_missing : list N; r_changed : list N }.
Inductive proc :=
| PSend (p : packet) (k : proc)
| PRecv (f : packet -> option proc)
| PRecvAll (stop : packet -> option bool) (got : list packet) (k : list packet -> proc)
| PFlush (k : proc)
| PFork (i : N) (k : proc)
| PJoin (k : proc)
| PDone (r : presult)
| PFailed.

Definition send_all (ps : list packet) (k : proc) : proc := fold_right PSend k ps.

(** The ends of the receive loops: HandleSendAllFiles (cdc_rsync_server.cc:489-492),
    ReceiveDeletedFiles (cdc_rsync_client.cc:571-574), ReceiveFileIndices (:601-604),
    the handler of HandleSendMissingFileData (cdc_rsync_server.cc:713-716),
    ReceiveDiffAndPatch (cdc_interface.cc:601-623: all arrays must be as long as
    the sources). *)
Definition stop_files (p : packet) : option bool :=
  match p with KAddFiles a => Some (match aq_files a, aq_dirs a with [], [] => true | _, _ => false end) | _ => None end.
Definition stop_deleted (p : packet) : option bool :=
  match p with KAddDeleted a => Some (match ad_files a, ad_dirs a with [], [] => true | _, _ => false end) | _ => None end.
Definition stop_indices (p : packet) : option bool :=
  match p with KFileIndices l => Some (match l with [] => true | _ => false end) | _ => None end.
Definition stop_raw (p : packet) : option bool :=
  match p with KRaw b => Some (match b with [] => true | _ => false end) | _ => None end.
Definition stop_patch (p : packet) : option bool :=
  match p with
  | KPatch q =>
      if negb ((length (rq_sources q) =? length (rq_offsets q))%nat && (length (rq_sources q) =? length (rq_sizes q))%nat) then None
      else Some (match rq_sources q with [] => true | _ => false end)
  | _ => None
  end.

(** The contents of the packets that have been received. *)
Definition files_of (ps : list packet) : list addfiles := flat_map (fun p => match p with KAddFiles a => [a] | _ => [] end) ps.
Definition deleted_of (ps : list packet) : list addDeleted := flat_map (fun p => match p with KAddDeleted a => [a] | _ => [] end) ps.
Definition indices_of (ps : list packet) : list N := flat_map (fun p => match p with KFileIndices l => l | _ => [] end) ps.
Definition raw_of (ps : list packet) : bytes := flat_map (fun p => match p with KRaw b => b | _ => [] end) ps.
Definition patches_of (ps : list packet) : list request := flat_map (fun p => match p with KPatch q => [q] | _ => [] end) ps.

(** ** The client *)

(** ReceiveSignatureAndCreateAndSendDiff (cdc_interface.cc:508-581) as far as the
    conversation is concerned: it sends patch commands and receives signatures, in an
    order that depends on the data and on timing.  A non-blocking receive that finds a
    packet is a receive; one that finds none is nothing. *)
Inductive job :=
| JSend (q : request) (j : job)
| JRecv (f : sigmsg -> job)
| JDone.
Fixpoint run_job (j : job) (k : proc) : proc :=
  match j with
  | JSend q j => PSend (KPatch q) (run_job j k)
  | JRecv f => PRecv (fun p => match p with KSig s => Some (run_job (f s) k) | _ => None end)
  | JDone => k
  end.

Section Client.
Variable opts : popts.
Variable batches : list addfiles.           (* what FindAndSendAllSourceFiles sends, including the empty last message *)
Variable num_files : nat.                   (* files_.size() *)
Variable content : N -> option bytes.       (* contents by client index; None: the file cannot be opened *)
Variable raw_size : nat.                    (* kBufferSize, cdc_rsync_client.cc:650 *)
Variable diff_job : N -> job.               (* by client index *)

(** StartCompressionStream (cdc_rsync_client.cc:767-797; RedirectOutput flushes once
    more) and StopCompressionStream (:799-822) *)
Definition start_compression (k : proc) : proc := if o_compress opts then PSend KToggle (PFlush (PFlush k)) else k.
Definition recv_toggle (k : proc) : proc := PRecv (fun p => match p with KToggle => Some k | _ => None end).
Definition stop_compression (k : proc) : proc := if o_compress opts then PFlush (PFlush (recv_toggle k)) else k.

(** The packets for one file: StreamReadFileContents with SendRawData as handler
    (cdc_rsync_client.cc:667-681). *)
Definition raw_packets (c : bytes) : outcome (list packet) :=
  do r <- stream_read (list packet) raw_size c
            (fun pos st b => Ok (pos, st ++ [KRaw (match b with Some b => b | None => [] end)])) (S (length c)) 0%nat [];
  Ok (snd r).

(** SendMissingFiles, cdc_rsync_client.cc:624-693 *)
Fixpoint send_missing (server_index : N) (l : list N) (k : proc) : proc :=
  match l with
  | [] => k
  | i :: l =>
      PSend (KSendMissing server_index)
        (match content i with
         | None => PFailed
         | Some c => match raw_packets c with
                     | Ok ps => send_all ps (send_missing (server_index + 1) l k)
                     | _ => PFailed
                     end
         end)
  end.
Definition client_missing (missing : list N) (k : proc) : proc :=
  if (match missing with [] => true | _ => false end) || o_dry_run opts then k
  else start_compression (send_missing 0 missing (stop_compression k)).

(** ReceiveSignaturesAndSendDelta, cdc_rsync_client.cc:695-765 *)
Fixpoint send_delta (l : list N) (k : proc) : proc :=
  match l with
  | [] => k
  | i :: l =>
      PRecv (fun p =>
        match p with
        | KSigHeader ci =>
            if ci =? i then
              match content i with Some _ => Some (run_job (diff_job i) (send_delta l k)) | None => None end
            else None
        | _ => None
        end)
  end.
Definition client_changed (changed : list N) (k : proc) : proc :=
  if (match changed with [] => true | _ => false end) || o_dry_run opts then k
  else start_compression (send_delta changed (stop_compression k)).

(** ReceiveFileIndices, cdc_rsync_client.cc:590-622 *)
Definition receive_file_indices (k : list N -> proc) : proc :=
  PRecvAll stop_indices [] (fun got =>
    let l := indices_of got in if existsb (fun i => N.of_nat num_files <=? i) l then PFailed else k l).

(** ReceiveDeletedFiles, cdc_rsync_client.cc:559-588 *)
Definition receive_deleted_files (k : list addDeleted -> proc) : proc :=
  PRecvAll stop_deleted [] (fun got => k (deleted_of got)).

(** Sync, cdc_rsync_client.cc:389-444 *)
Definition client : proc :=
  PSend (KSetOptions opts) (send_all (map KAddFiles batches)
    (PRecv (fun p => match p with
     | KFileStats =>
         let rest (del : list addDeleted) :=
           receive_file_indices (fun missing => client_missing missing
             (receive_file_indices (fun changed => client_changed changed
               (PSend KShutdown (PRecv (fun p => match p with
                  | KShutdown => Some (PDone (mk_presult [] [] del missing changed))
                  | _ => None end)))))) in
         Some (if o_delete opts then receive_deleted_files rest else rest [])
     | _ => None end))).
End Client.

(** ** The server *)

(** What the server computes from the options and the files of the client
    (DiffFiles, cdc_rsync_server.cc:513-538): the extraneous files and directories in
    the order in which they are removed, client indices of missing and changed files. *)
Record plan := mk_plan { pl_deleted : list (bytes * bool); pl_missing : list N; pl_changed : list N }.

Section Server.
Variable make_plan : popts -> list addfiles -> plan.
Variable threshold : N.                     (* FileDeleterAndSender's request_size_threshold_ *)
Variable signature : N -> list sigmsg.      (* CreateAndSendSignature's messages, including the empty last one, by client index *)

(** HandleSendMissingFileData, cdc_rsync_server.cc:644-767 *)
Fixpoint recv_missing (server_index : N) (l : list N) (acc : list (N * bytes)) (k : list (N * bytes) -> proc) : proc :=
  match l with
  | [] => k acc
  | i :: l =>
      PRecv (fun p => match p with
        | KSendMissing j =>
            if j =? server_index then
              Some (PRecvAll stop_raw [] (fun got => recv_missing (server_index + 1) l (acc ++ [(i, raw_of got)]) k))
            else None
        | _ => None end)
  end.
Definition expect_toggle (o : popts) (k : proc) : proc := if o_compress o then PRecv (fun p => match p with KToggle => Some k | _ => None end) else k.
Definition send_toggle (o : popts) (k : proc) : proc := if o_compress o then PSend KToggle k else k.
Definition server_missing (o : popts) (missing : list N) (k : list (N * bytes) -> proc) : proc :=
  if o_dry_run o then k []
  else match missing with [] => k [] | _ => expect_toggle o (recv_missing 0 missing [] (fun w => send_toggle o (k w))) end.

(** SyncChangedFiles, cdc_rsync_server.cc:769-869: the main thread.  The pools are
    drained after the last file (:834-838); the finalizer threads do not talk. *)
Fixpoint send_signatures (l : list N) (k : proc) : proc :=
  match l with
  | [] => k
  | i :: l =>
      PSend (KSigHeader i) (send_all (map KSig (signature i))
        (PFork i (match l with [] => PJoin k | _ => send_signatures l k end)))
  end.
Definition server_changed (o : popts) (changed : list N) (k : proc) : proc :=
  if o_dry_run o then k
  else match changed with [] => k | _ => expect_toggle o (send_signatures changed (send_toggle o k)) end.

(** SendFileIndices, cdc_rsync_server.cc:602-642 *)
Definition send_file_indices_then (l : list N) (k : proc) : proc := send_all (map KFileIndices (send_file_indices l)) k.

(** Sync, cdc_rsync_server.cc:326-396 *)
Definition server : proc :=
  PRecv (fun p => match p with
    | KSetOptions o => Some (
        PRecvAll stop_files [] (fun got =>
          let pl := make_plan o (files_of got) in
          PSend KFileStats (
            (if o_delete o then send_all (map KAddDeleted (fds_flush (report_all threshold (pl_deleted pl) fds_init))) else (fun k => k))
            (send_file_indices_then (pl_missing pl)
              (server_missing o (pl_missing pl) (fun written =>
                (send_file_indices_then (pl_changed pl)
                  (server_changed o (pl_changed pl)
                    (PRecv (fun p => match p with
                       | KShutdown => Some (PSend KShutdown (PDone (mk_presult (files_of got) written [] (pl_missing pl) (pl_changed pl))))
                       | _ => None end))))))))))
    | _ => None end).
End Server.

(** ** The connection *)

(** One direction: outgoing_packets_ of the sender, packets in the socket, and
    incoming_packets_ of the receiver (message_pump.cc; its threads are modelled in
    ModelPump, here every packet moves in one step).  [ch_sending]: what
    outgoing_packets_byte_size_ counts. *)
Record chan := mk_chan { ch_out : list packet; ch_wire : list packet; ch_in : list packet }.
Definition no_packets : chan := mk_chan [] [] [].

Section Net.
Variable size : packet -> N.                (* serialized size with header *)
Variable cap_out cap_wire cap_in : N.       (* kInOutBufferSize, socket buffers, kInOutBufferSize *)

Definition total (l : list packet) : N := fold_right (fun p n => size p + n) 0 l.

(** QueuePacket, message_pump.cc:165-189 *)
Definition ch_send (p : packet) (c : chan) : option chan :=
  if total (ch_out c) <? cap_out then Some (mk_chan (ch_out c ++ [p]) (ch_wire c) (ch_in c)) else None.
(** ThreadSenderMain (:395-430): the packet is counted until it has been handed to the
    socket, which takes it when it has room. *)
Definition ch_to_wire (c : chan) : option chan :=
  match ch_out c with
  | p :: out => if total (ch_wire c) <? cap_wire then Some (mk_chan out (ch_wire c ++ [p]) (ch_in c)) else None
  | [] => None
  end.
(** ThreadReceiverMain (:432-470) *)
Definition ch_to_in (c : chan) : option chan :=
  match ch_wire c with
  | p :: w => if total (ch_in c) <? cap_in then Some (mk_chan (ch_out c) w (ch_in c ++ [p])) else None
  | [] => None
  end.
(** DequeuePacket, message_pump.cc:253-277 *)
Definition ch_recv (c : chan) : option (packet * chan) :=
  match ch_in c with p :: i => Some (p, mk_chan (ch_out c) (ch_wire c) i) | [] => None end.

(** The client (one thread), the server's main thread, the server's patcher thread
    with its queue of tasks, and what the tasks have received. *)
Record net := mk_net {
  n_client : proc; n_server : proc;
  n_tasks : list (N * list packet); n_patched : list (N * list packet);
  n_c2s : chan; n_s2c : chan }.

(** One step of a thread that sends on [snd] and receives on [rcv]. *)
Definition thread_step (p : proc) (snd rcv : chan) : option (proc * chan * chan) :=
  match p with
  | PSend m k => match ch_send m snd with Some s => Some (k, s, rcv) | None => None end
  | PRecv f =>
      match ch_recv rcv with
      | Some (m, r) => Some (match f m with Some k => k | None => PFailed end, snd, r)
      | None => None
      end
  | PRecvAll stop got k =>
      match ch_recv rcv with
      | Some (m, r) =>
          Some (match stop m with
                | Some true => k got
                | Some false => PRecvAll stop (got ++ [m]) k
                | None => PFailed
                end, snd, r)
      | None => None
      end
  | PFlush k => match ch_out snd with [] => Some (k, snd, rcv) | _ => None end
  | _ => None
  end.

Inductive actor := AClient | AServer | APatcher | AWire1 | AWire2 | AWire3 | AWire4.

Definition step (a : actor) (s : net) : option net :=
  match a with
  | AClient =>
      match thread_step (n_client s) (n_c2s s) (n_s2c s) with
      | Some (p, c, d) => Some (mk_net p (n_server s) (n_tasks s) (n_patched s) c d)
      | None => None
      end
  | AServer =>
      match n_server s with
      | PFork i k => Some (mk_net (n_client s) k (n_tasks s ++ [(i, [])]) (n_patched s) (n_c2s s) (n_s2c s))
      | PJoin k => match n_tasks s with [] => Some (mk_net (n_client s) k [] (n_patched s) (n_c2s s) (n_s2c s)) | _ => None end
      | p => match thread_step p (n_s2c s) (n_c2s s) with
             | Some (p, d, c) => Some (mk_net (n_client s) p (n_tasks s) (n_patched s) c d)
             | None => None
             end
      end
  | APatcher =>
      match n_tasks s, ch_recv (n_c2s s) with
      | (i, got) :: ts, Some (m, c) =>
          match stop_patch m with
          | Some true => Some (mk_net (n_client s) (n_server s) ts (n_patched s ++ [(i, got)]) c (n_s2c s))
          | Some false => Some (mk_net (n_client s) (n_server s) ((i, got ++ [m]) :: ts) (n_patched s) c (n_s2c s))
          | None => None   (* the task fails; here the patcher stops, the theorems show that this does not happen *)
          end
      | _, _ => None
      end
  | AWire1 => match ch_to_wire (n_c2s s) with Some c => Some (mk_net (n_client s) (n_server s) (n_tasks s) (n_patched s) c (n_s2c s)) | None => None end
  | AWire2 => match ch_to_in (n_c2s s) with Some c => Some (mk_net (n_client s) (n_server s) (n_tasks s) (n_patched s) c (n_s2c s)) | None => None end
  | AWire3 => match ch_to_wire (n_s2c s) with Some c => Some (mk_net (n_client s) (n_server s) (n_tasks s) (n_patched s) (n_c2s s) c) | None => None end
  | AWire4 => match ch_to_in (n_s2c s) with Some c => Some (mk_net (n_client s) (n_server s) (n_tasks s) (n_patched s) (n_c2s s) c) | None => None end
  end.

(** Runs of [n] steps. *)
Inductive runs : nat -> net -> net -> Prop :=
| runs_0 s : runs 0 s s
| runs_S n a s s1 s2 : step a s = Some s1 -> runs n s1 s2 -> runs (S n) s s2.

(** Both sides have returned OK, no packet is left. *)
Definition finished (s : net) : Prop :=
  (exists r, n_client s = PDone r) /\ (exists r, n_server s = PDone r) /\ n_tasks s = [] /\ n_c2s s = no_packets /\ n_s2c s = no_packets.
Definition stuck (s : net) : Prop := forall a, step a s = None.
End Net.
