(** Model of cdc_rsync/zstd_stream.cc, cdc_rsync_server/unzstd_stream.cc and of the part of
    cdc_rsync/base/message_pump.cc that reads from a decompressor. *)
From Verif Require Import Base SpecZstd ModelPump.
Local Notation str := (list N).

(** * ZstdStream *)
Section Sender.
Variable K : codec.
Variable cap : nat.    (* ZSTD_CStreamInSize(), the capacity of in_buffer_ *)

(** zstd_stream.cc:166-167 *)
Definition loop_finished (m : mode) (input : str) (pos : nat) (remaining_is_0 : bool) : bool :=
  match m with MContinue => (pos =? length input)%nat | MFlush | MEnd => remaining_is_0 end.
(** The loop 150-168: all outputs were sent. *)
Inductive loop_ok (m : mode) : cctx K -> str -> str -> cctx K -> Prop :=
| lo_done c i n o f c2 : comp K c m i n o f c2 -> loop_finished m i n f = true -> loop_ok m c i o c2
| lo_more c i n o f c2 o2 c3 : comp K c m i n o f c2 -> loop_finished m i n f = false -> loop_ok m c2 (skipn n i) o2 c3 -> loop_ok m c i (o ++ o2) c3.
(** ... or zstd failed (154-158), or Send failed (161-162) after some of its bytes. *)
Inductive loop_fail (m : mode) : cctx K -> str -> str -> Prop :=
| lf_comp c i : loop_fail m c i []
| lf_send c i n o f c2 k : comp K c m i n o f c2 -> loop_fail m c i (firstn k o)
| lf_more c i n o f c2 o2 : comp K c m i n o f c2 -> loop_finished m i n f = false -> loop_fail m c2 (skipn n i) o2 -> loop_fail m c i (o ++ o2).

(** What the (only) caller is doing: in Write with [left] of [whole] still to copy, in
    Finish. *)
Inductive zcall : Type := Idle | Writing (whole left : str) | Finishing.
Record zs : Type := mkz {
  z_ctx : cctx K; z_buf : str;              (* cctx_, in_buffer_ *)
  z_shutdown : bool; z_last : bool; z_sent : bool; z_ok : bool;   (* shutdown_, last_chunk_, last_chunk_sent_, status_.ok() *)
  z_thread : bool;                          (* the compressor thread is in its loop *)
  z_ctor : bool;                            (* the constructor has not assigned status_ yet *)
  z_call : zcall; z_finish_called : bool;
  z_wire : str }.                           (* bytes sent to the socket *)

(** 32-39, 92-121: Initialize has started the thread; the constructor still has to assign
    its result to status_. *)
Definition z_init : zs := mkz (c_init K) [] false false false true true true Idle false [].
Definition z_started : zs := mkz (c_init K) [] false false false true true false Idle false [].

Definition with_call (s : zs) (c : zcall) : zs :=
  mkz (z_ctx s) (z_buf s) (z_shutdown s) (z_last s) (z_sent s) (z_ok s) (z_thread s) (z_ctor s) c (z_finish_called s) (z_wire s).
Definition is_full (s : zs) : bool := (length (z_buf s) =? cap)%nat.

(** One critical section of mutex_ is one step.  The client calls Finish once and nothing
    but the destructor after it (cdc_rsync_client.cc:804-815). *)
Inductive zstep : zs -> zevent -> zs -> Prop :=
(* the assignment in the constructor, 36-37 (Initialize succeeded) *)
| Z_ctor s : z_ctor s = true -> zstep s ESilent
    (mkz (z_ctx s) (z_buf s) (z_shutdown s) (z_last s) (z_sent s) true (z_thread s) false (z_call s) (z_finish_called s) (z_wire s))
(* Write, 56-58 *)
| Z_write_error s d : z_ctor s = false -> z_call s = Idle -> z_finish_called s = false -> z_shutdown s = false -> z_ok s = false -> zstep s (EWriteError d) s
| Z_write_nothing s : z_ctor s = false -> z_call s = Idle -> z_finish_called s = false -> z_shutdown s = false -> z_ok s = true -> zstep s (EWriteOk []) s
| Z_write s d : z_ctor s = false -> z_call s = Idle -> z_finish_called s = false -> z_shutdown s = false -> z_ok s = true -> d <> [] ->
    zstep s ESilent (with_call s (Writing d d))
(* the loop of Write, 62-78 *)
| Z_write_fails s d l : z_call s = Writing d l -> z_shutdown s = true \/ z_ok s = false -> zstep s (EWriteError d) (with_call s Idle)
| Z_copy s d l e : z_call s = Writing d l -> z_shutdown s = false -> z_ok s = true -> (length (z_buf s) < cap)%nat ->
    let k := Nat.min (length l) (cap - length (z_buf s)) in
    e = match skipn k l with [] => EWriteOk d | _ => ESilent end ->
    zstep s e (mkz (z_ctx s) (z_buf s ++ firstn k l) (z_shutdown s) (z_last s) (z_sent s) (z_ok s) (z_thread s) (z_ctor s)
                 (match skipn k l with [] => Idle | l2 => Writing d l2 end) (z_finish_called s) (z_wire s))
(* Finish, 82-87 *)
| Z_finish_error s : z_ctor s = false -> z_call s = Idle -> z_finish_called s = false -> z_shutdown s = false -> z_ok s = false -> zstep s EFinishError
    (mkz (z_ctx s) (z_buf s) (z_shutdown s) (z_last s) (z_sent s) (z_ok s) (z_thread s) (z_ctor s) Idle true (z_wire s))
| Z_finish s : z_ctor s = false -> z_call s = Idle -> z_finish_called s = false -> z_shutdown s = false -> z_ok s = true -> zstep s ESilent
    (mkz (z_ctx s) (z_buf s) (z_shutdown s) true false (z_ok s) (z_thread s) (z_ctor s) Finishing true (z_wire s))
(* 90-93 *)
| Z_finish_return s : z_call s = Finishing -> z_shutdown s = true \/ z_sent s = true \/ z_ok s = false ->
    zstep s (if z_shutdown s then EFinishError else if z_ok s then EFinishOk else EFinishError) (with_call s Idle)
(* ThreadCompressorMain, one iteration (126-178); [flush]: the wait timed out *)
| Z_thread s flush m o c2 : z_thread s = true -> z_shutdown s = false -> flush = negb (z_last s || is_full s) ->
    m = (if z_last s then MEnd else if flush then MFlush else MContinue) ->
    loop_ok m (z_ctx s) (z_buf s) o c2 ->
    zstep s (if flush then EFlushed else ESilent)
      (mkz c2 [] (z_shutdown s) (if z_last s then false else z_last s) (if z_last s then true else z_sent s) (z_ok s) true (z_ctor s)
         (z_call s) (z_finish_called s) (z_wire s ++ o))
| Z_thread_fails s flush m o c2 : z_thread s = true -> z_shutdown s = false -> flush = negb (z_last s || is_full s) ->
    m = (if z_last s then MEnd else if flush then MFlush else MContinue) ->
    loop_fail m (z_ctx s) (z_buf s) o ->
    zstep s ESilent (mkz c2 (z_buf s) (z_shutdown s) (z_last s) (z_sent s) false false (z_ctor s) (z_call s) (z_finish_called s) (z_wire s ++ o))
(* the destructor, 41-53 *)
| Z_shutdown s : z_ctor s = false -> z_call s = Idle -> zstep s ESilent
    (mkz (z_ctx s) (z_buf s) true (z_last s) (z_sent s) (z_ok s) false (z_ctor s) (z_call s) (z_finish_called s) (z_wire s)).

(** Executions and the events seen. *)
Inductive zrun (s0 : zs) : list zevent -> zs -> Prop :=
| zr_nil : zrun s0 [] s0
| zr_step tr s e s2 : zrun s0 tr s -> zstep s e s2 -> zrun s0 (tr ++ [e]) s2.
End Sender.

(** * UnzstdStream and MessagePump::ThreadDoReceive

    The socket as the list of what consecutive calls of Receive with allow_partial_read
    return; Receive without it takes bytes across them. *)
Section Receiver.
Variable K : codec.

Record reader : Type := mkreader { r_ctx : dctx K; r_in : str }.    (* dctx_, input_ from pos *)
Inductive read_result : Type :=
| RRead (data : str) (eof : bool) (r : reader) (socket : list str)
| RBlocked | RError | RFuel.
(** UnzstdStream::Read (unzstd_stream.cc:33-74); [room]: output.size - output.pos. *)
Fixpoint read_loop (fuel : nat) (r : reader) (socket : list str) (room : nat) (acc : str) : read_result :=
  match fuel, room with
  | _, O => RRead acc false r socket
  | O, _ => RFuel
  | S fuel, _ =>
      match decomp K (r_ctx r) (r_in r) room with
      | None => RError
      | Some (n, o, eof, d2) =>
          let inp := skipn n (r_in r) in
          if eof then match inp with [] => RRead (acc ++ o) true (mkreader d2 inp) socket | _ => RError end
          else if (match inp with [] => true | _ => false end) && (length o <? room)%nat then
            match socket with
            | [] => RBlocked
            | c :: socket2 => read_loop fuel (mkreader d2 c) socket2 (room - length o) (acc ++ o)
            end
          else read_loop fuel (mkreader d2 inp) socket (room - length o) (acc ++ o)
      end
  end.
Definition read (r : reader) (socket : list str) (size : nat) : read_result := read_loop (length socket + 2) r socket size [].

(** Socket::Receive without partial reads. *)
Fixpoint take (socket : list str) (size : nat) : option (str * list str) :=
  match size, socket with
  | O, _ => Some ([], socket)
  | _, [] => None
  | _, c :: s2 =>
      if (length c <=? size)%nat then match take s2 (size - length c) with Some (d, s3) => Some (c ++ d, s3) | None => None end
      else Some (firstn size c, skipn size c :: s2)
  end.

(** input_reader_ and the socket. *)
Record conn : Type := mkconn { n_reader : option reader; n_socket : list str }.
Inductive recv_result (A : Type) : Type := Received (a : A) (n : conn) | Waiting | Failed.
Arguments Received {A}. Arguments Waiting {A}. Arguments Failed {A}.
(** ThreadDoReceive (message_pump.cc:317-356). *)
Definition do_receive (n : conn) (size : nat) : recv_result str :=
  if (size =? 0)%nat then Received [] n
  else
    let plain socket := match take socket size with Some (d, s2) => Received d (mkconn None s2) | None => Waiting end in
    match n_reader n with
    | None => plain (n_socket n)
    | Some r =>
        match read r (n_socket n) size with
        | RRead data eof r2 s2 =>
            if eof && (0 <? length data)%nat && (length data <? size)%nat then Failed
            else if (length data =? size)%nat then Received data (mkconn (if eof then None else Some r2) s2)
            else plain s2
        | RBlocked => Waiting
        | RError | RFuel => Failed
        end
    end.
(** ThreadDoReceivePacket (279-315) and the server's Thread_OnPackageReceived
    (cdc_rsync_server.cc:888-895, RedirectInput, message_pump.cc:366-376). *)
Definition kToggleCompression : N := 3.
Definition do_receive_packet (n : conn) : recv_result packet :=
  match do_receive n 4 with
  | Received [h0; h1; h2; h3] n1 =>
      let size := N.lor (N.lor h1 (N.shiftl h2 8)) (N.shiftl h3 16) in
      if (kCount <=? h0)%N then Failed
      else if (kMaxPacketSize <? size)%N then Failed
      else match do_receive n1 (N.to_nat size) with
           | Received data n2 =>
               Received (h0, data)
                 (if (h0 =? kToggleCompression)%N
                  then mkconn (match n_reader n2 with None => Some (mkreader (d_init K) []) | r => r end) (n_socket n2)
                  else n2)
           | Waiting => Waiting
           | Failed => Failed
           end
  | Received _ _ => Failed
  | Waiting => Waiting
  | Failed => Failed
  end.
Fixpoint receive_packets (k : nat) (n : conn) : recv_result (list packet) :=
  match k with
  | O => Received [] n
  | S k => match do_receive_packet n with
           | Received p n2 => match receive_packets k n2 with Received ps n3 => Received (p :: ps) n3 | Waiting => Waiting | Failed => Failed end
           | Waiting => Waiting
           | Failed => Failed
           end
  end.
End Receiver.
Arguments Received {K A}. Arguments Waiting {K A}. Arguments Failed {K A}.
