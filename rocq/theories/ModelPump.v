(** Model of cdc_rsync/base/message_pump.cc: packet framing and the pump's
    threads as a transition system. *)
From Verif Require Import Base.
Local Open Scope N_scope.

(** message_pump.cc:30, 33, 36 *)
Definition kInOutBufferSize : N := 1024 * 1024 * 8.
Definition kHeaderSize : N := 4.
Definition kMaxPacketSize : N := 256 * 256 * 256 - 1.
(** message_pump.h:40-103: number of packet types. *)
Definition kCount : N := 12.

Definition blen (b : bytes) : N := N.of_nat (length b).

(** A packet as seen by the users of the pump: type and payload. *)
Definition packet := (N * bytes)%type.

(** message_pump.cc:39-59 CreateSerializedPacket followed by appending the
    payload (133-143 SendRawData, 145-163 SendMessage; protobuf serialisation
    itself is not modelled, the payload is the serialised message). *)
Definition serialize (p : packet) : outcome bytes :=
  let size := blen (snd p) in
  if kMaxPacketSize <? size then Fail
  else Ok (fst p :: N.land size 255 :: N.land (N.shiftr size 8) 255
             :: N.land (N.shiftr size 16) 255 :: snd p).

(** message_pump.cc:279-315 ThreadDoReceivePacket on the bytes available in the
    socket.  [NeedMore]: Socket::Receive blocks until all requested bytes are
    there. *)
Inductive received :=
| NeedMore
| Invalid
| Got (p : packet) (rest : bytes).

Definition receive_packet (wire : bytes) : received :=
  match wire with
  | h0 :: h1 :: h2 :: h3 :: rest =>
      let size := N.lor (N.lor h1 (N.shiftl h2 8)) (N.shiftl h3 16) in
      if kCount <=? h0 then Invalid
      else if kMaxPacketSize <? size then Invalid
      else if blen rest <? size then NeedMore
      else Got (h0, firstn (N.to_nat size) rest) (skipn (N.to_nat size) rest)
  | _ => NeedMore
  end.

(** ** Threads.  One direction of a connection: the sending half of one pump,
    the byte stream of the socket, the receiving half of the peer's pump.  All
    accesses to the queues are under outgoing_mutex_ / incoming_mutex_, so one
    critical section is one transition. *)

(** Program counter of ThreadSenderMain (message_pump.cc:394-432). *)
Inductive sender_pc :=
| SWait                       (* 400-404: waiting for a packet *)
| SPopped (b : bytes)         (* 410-412 done, packet not sent yet *)
| SSent (size : N)            (* 416 done, byte size not decreased yet *)
| SStopped.                   (* loop left *)

Record sender := mk_sender {
  s_queue : list bytes;       (* outgoing_packets_ *)
  s_size : N;                 (* outgoing_packets_byte_size_ *)
  s_pc : sender_pc;
  s_send_error : bool;        (* send_error_ *)
  s_recv_error : bool;        (* receive_error_ of the same pump *)
  s_accepted : list packet;   (* history: SendMessage calls that returned OK *)
  s_written : list packet     (* history: packets completely written *)
}.

(** Program counter of ThreadReceiverMain (message_pump.cc:434-471). *)
Inductive receiver_pc :=
| RWait                       (* 437-446 *)
| RReady                      (* past the size check, receiving *)
| RGot (p : packet)           (* 450 done, packet not queued yet *)
| RStopped.

Record receiver := mk_receiver {
  r_queue : list packet;      (* incoming_packets_ *)
  r_size : N;                 (* incoming_packets_byte_size_ *)
  r_pc : receiver_pc;
  r_recv_error : bool;        (* receive_error_ *)
  r_send_error : bool;        (* send_error_ of the same pump *)
  r_returned : list packet    (* history: packets handed to the callers *)
}.

Record pump := mk_pump { p_snd : sender; p_wire : bytes; p_rcv : receiver }.

Definition pump_init : pump :=
  mk_pump (mk_sender [] 0 SWait false false [] [])
          []
          (mk_receiver [] 0 RWait false false []).

Inductive label :=
| LQueue (p : packet)         (* a caller in SendRawData/SendMessage *)
| LFlush                      (* a caller in FlushOutgoingQueue *)
| LPop | LSend | LSendFail (n : nat) | LDec   (* sender thread *)
| LPeerRecvError              (* the sender's own receive thread fails *)
| LWait | LRecv | LRecvFail | LPush           (* receiver thread *)
| LPeerSendError              (* the receiver's own send thread fails *)
| LDequeue.                   (* a caller in ReceiveRawData/ReceiveMessage *)

(** What a caller or thread observes; [Blocked] means the step is not enabled
    (the mutex condition is false or the thread is elsewhere). *)
Inductive event :=
| Blocked | Silent | ReturnOk | ReturnError | ReturnPacket (p : packet).

Definition pkt_size (p : packet) : N := kHeaderSize + blen (snd p).

Definition step_snd (s : sender) (w : bytes) (l : label) : sender * bytes * event :=
  match l with
  | LQueue p =>
      match serialize p with
      | Ok b =>
          (* 165-187 QueuePacket *)
          if (s_size s <? kInOutBufferSize) || s_send_error s || s_recv_error s then
            if s_send_error s || s_recv_error s then (s, w, ReturnError)
            else (mk_sender (s_queue s ++ [b]) (s_size s + blen b) (s_pc s)
                    (s_send_error s) (s_recv_error s) (s_accepted s ++ [p]) (s_written s), w, ReturnOk)
          else (s, w, Blocked)
      | _ => (s, w, ReturnError)    (* 41-43 *)
      end
  | LFlush =>
      (* 358-364 FlushOutgoingQueue: the method returns void *)
      if (s_size s =? 0) || s_send_error s || s_recv_error s then (s, w, ReturnOk)
      else (s, w, Blocked)
  | LPop =>
      match s_pc s, s_queue s with
      | SWait, b :: q =>
          (mk_sender q (s_size s) (SPopped b) (s_send_error s) (s_recv_error s)
             (s_accepted s) (s_written s), w, Silent)
      | _, _ => (s, w, Blocked)
      end
  | LSend =>
      match s_pc s with
      | SPopped b =>
          if s_recv_error s then
            (* 190-194: eat the packet *)
            (mk_sender (s_queue s) (s_size s) (SSent (blen b)) (s_send_error s) (s_recv_error s)
               (s_accepted s) (s_written s), w, Silent)
          else
            (* 203-204 Socket::Send; the history records the packet by its
               position in the accepted list *)
            (mk_sender (s_queue s) (s_size s) (SSent (blen b)) (s_send_error s) (s_recv_error s)
               (s_accepted s) (firstn (S (length (s_written s))) (s_accepted s)), w ++ b, Silent)
      | _ => (s, w, Blocked)
      end
  | LSendFail n =>
      (* 417-426: Socket::Send fails after n bytes of the packet *)
      match s_pc s with
      | SPopped b =>
          if s_recv_error s then (s, w, Blocked)
          else if (n <? length b)%nat then
            (mk_sender (s_queue s) (s_size s) SStopped true (s_recv_error s)
               (s_accepted s) (s_written s), w ++ firstn n b, Silent)
          else (s, w, Blocked)
      | _ => (s, w, Blocked)
      end
  | LDec =>
      (* 428-430 *)
      match s_pc s with
      | SSent size =>
          (mk_sender (s_queue s) (s_size s - size) SWait (s_send_error s) (s_recv_error s)
             (s_accepted s) (s_written s), w, Silent)
      | _ => (s, w, Blocked)
      end
  | LPeerRecvError =>
      (mk_sender (s_queue s) (s_size s) (s_pc s) (s_send_error s) true
         (s_accepted s) (s_written s), w, Silent)
  | _ => (s, w, Blocked)
  end.

Definition step_rcv (r : receiver) (w : bytes) (l : label) : receiver * bytes * event :=
  match l with
  | LWait =>
      match r_pc r with
      | RWait =>
          if r_size r <? kInOutBufferSize then
            (mk_receiver (r_queue r) (r_size r) RReady (r_recv_error r) (r_send_error r) (r_returned r), w, Silent)
          else (r, w, Blocked)
      | _ => (r, w, Blocked)
      end
  | LRecv =>
      match r_pc r with
      | RReady =>
          match receive_packet w with
          | NeedMore => (r, w, Blocked)
          | Invalid =>
              (mk_receiver (r_queue r) (r_size r) RStopped true (r_send_error r) (r_returned r), w, Silent)
          | Got p w' =>
              (mk_receiver (r_queue r) (r_size r) (RGot p) (r_recv_error r) (r_send_error r) (r_returned r), w', Silent)
          end
      | _ => (r, w, Blocked)
      end
  | LRecvFail =>
      (* 451-460: the socket reports an error, e.g. connection closed *)
      match r_pc r with
      | RReady =>
          (mk_receiver (r_queue r) (r_size r) RStopped true (r_send_error r) (r_returned r), w, Silent)
      | _ => (r, w, Blocked)
      end
  | LPush =>
      (* 467-469 *)
      match r_pc r with
      | RGot p =>
          (mk_receiver (r_queue r ++ [p]) (r_size r + pkt_size p) RWait
             (r_recv_error r) (r_send_error r) (r_returned r), w, Silent)
      | _ => (r, w, Blocked)
      end
  | LPeerSendError =>
      (mk_receiver (r_queue r) (r_size r) (r_pc r) (r_recv_error r) true (r_returned r), w, Silent)
  | LDequeue =>
      (* 253-277 DequeuePacket *)
      match r_queue r with
      | [] => if r_send_error r || r_recv_error r then (r, w, ReturnError) else (r, w, Blocked)
      | p :: q =>
          if r_send_error r then (r, w, ReturnError)
          else (mk_receiver q (r_size r - pkt_size p) (r_pc r) (r_recv_error r) (r_send_error r)
                  (r_returned r ++ [p]), w, ReturnPacket p)
      end
  | _ => (r, w, Blocked)
  end.

Definition is_sender_label (l : label) : bool :=
  match l with
  | LQueue _ | LFlush | LPop | LSend | LSendFail _ | LDec | LPeerRecvError => true
  | _ => false
  end.

Definition pump_step (st : pump) (l : label) : pump * event :=
  if is_sender_label l then
    let '(s, w, e) := step_snd (p_snd st) (p_wire st) l in (mk_pump s w (p_rcv st), e)
  else
    let '(r, w, e) := step_rcv (p_rcv st) (p_wire st) l in (mk_pump (p_snd st) w r, e).

(** An execution: any schedule; each element says which caller/thread tries to
    take its next critical section. *)
Fixpoint pump_run (st : pump) (ls : list label) : pump * list event :=
  match ls with
  | [] => (st, [])
  | l :: r =>
      let '(st1, e) := pump_step st l in
      let '(st2, es) := pump_run st1 r in (st2, e :: es)
  end.
