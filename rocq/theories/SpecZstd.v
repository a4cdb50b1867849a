(** Specification for C55: what zstd promises, and what the compressed connection is to
    deliver. *)
From Verif Require Import Base.
Local Notation str := (list N).

(** * zstd, as its documentation describes the streaming API

    [dec w]: the data in the compressed bytes [w] of one frame so far, and whether the
    frame is complete (then, what follows it). *)
Inductive dstatus : Type := Open | Done (rest : str) | Bad.
(** ZSTD_e_continue, ZSTD_e_flush, ZSTD_e_end *)
Inductive mode : Type := MContinue | MFlush | MEnd.
Record codec : Type := mkcodec {
  dec : str -> str * dstatus;
  (* ZSTD_compressStream2: context, mode, input; consumed, output, nothing remains; new
     context.  Worker threads make it nondeterministic. *)
  cctx : Type; c_init : cctx;
  comp : cctx -> mode -> str -> nat -> str -> bool -> cctx -> Prop;
  (* ZSTD_decompressStream: context, input, room; consumed, output, frame complete and
     flushed (return value 0); None: error *)
  dctx : Type; d_init : dctx;
  decomp : dctx -> str -> nat -> option (nat * str * bool * dctx) }.

(** Is a call with this input finished (zstd_stream.cc:166-167)? *)
Definition finished (m : mode) (input : str) (n : nat) (none_remains : bool) : bool :=
  match m with MContinue => (n =? length input)%nat | _ => none_remains end.

Record laws (K : codec) : Type := mklaws {
  (* the meaning of compressed bytes *)
  dec_nil : dec K [] = ([], Open);
  dec_done : forall w x r u, dec K w = (x, Done r) -> dec K (w ++ u) = (x, Done (r ++ u));
  dec_open : forall w x u, dec K w = (x, Open) -> exists y, fst (dec K (w ++ u)) = x ++ y;
  dec_bad : forall w x u, dec K w = (x, Bad) -> snd (dec K (w ++ u)) = Bad;
  (* the compressor has consumed [x] and produced [w] *)
  c_inv : cctx K -> str -> str -> Prop;
  c_start : c_inv (c_init K) [] [];
  c_prefix : forall c x w, c_inv c x w -> exists y, x = fst (dec K w) ++ y /\ snd (dec K w) = Open;
  c_step : forall c x w m i n o f c2, c_inv c x w -> comp K c m i n o f c2 ->
    (n <= length i)%nat /\ (m = MEnd /\ f = true \/ c_inv c2 (x ++ firstn n i) (w ++ o));
  c_flush : forall c x w i n o c2, c_inv c x w -> comp K c MFlush i n o true c2 -> n = length i /\ dec K (w ++ o) = (x ++ i, Open);
  c_end : forall c x w i n o c2, c_inv c x w -> comp K c MEnd i n o true c2 -> n = length i /\ dec K (w ++ o) = (x ++ i, Done []);
  (* flushing nothing at the start of the next frame produces nothing *)
  c_ended : cctx K -> Prop;
  c_end_ended : forall c x w i n o c2, c_inv c x w -> comp K c MEnd i n o true c2 -> c_ended c2;
  c_ended_step : forall c n o f c2, c_ended c -> comp K c MFlush [] n o f c2 -> o = [] /\ n = 0%nat /\ c_ended c2;
  (* the calls make progress *)
  c_total : forall c m i, exists n o f c2, comp K c m i n o f c2;
  c_rank : cctx K -> mode -> str -> nat;
  c_progress : forall c m i n o f c2, comp K c m i n o f c2 -> finished m i n f = false -> (c_rank c2 m (skipn n i) < c_rank c m i)%nat;
  (* the decompressor has consumed [v] and produced [y] *)
  d_inv : dctx K -> str -> str -> Prop;
  d_start : d_inv (d_init K) [] [];
  d_step : forall d v y i later x room, d_inv d v y -> dec K (v ++ i ++ later) = (x, Done []) -> (0 < room)%nat ->
    exists n o e d2, decomp K d i room = Some (n, o, e, d2) /\ (n <= length i)%nat /\ (length o <= room)%nat /\
      d_inv d2 (v ++ firstn n i) (y ++ o) /\ (exists z, x = y ++ o ++ z) /\
      (e = true <-> dec K (v ++ firstn n i) = (y ++ o, Done [])) /\
      (e = false -> (length o < room)%nat -> n = length i /\ fst (dec K (v ++ i)) = y ++ o) }.

(** * The sending side: calls and what they returned *)
Inductive zevent : Type :=
| EWriteOk (data : str) | EWriteError (data : str) | EFinishOk | EFinishError
| EFlushed                     (* no data for a while: the compressor was flushed *)
| ESilent.
Fixpoint written_data (tr : list zevent) : str :=
  match tr with [] => [] | EWriteOk d :: r => d ++ written_data r | _ :: r => written_data r end.
(** Including the data of failed calls. *)
Fixpoint attempted_data (tr : list zevent) : str :=
  match tr with [] => [] | EWriteOk d :: r | EWriteError d :: r => d ++ attempted_data r | _ :: r => attempted_data r end.
(** A call returned; the compressor's wait for data timed out. *)
Definition completion (e : zevent) : bool := match e with EWriteOk _ | EWriteError _ | EFinishOk | EFinishError => true | _ => false end.
Definition is_flushed (e : zevent) : bool := match e with EFlushed => true | _ => false end.

(** * The receiving side: packets and their bytes

    A packet: a type, and up to 2^24-1 bytes; on the wire the type, the size in three
    bytes, little endian, and the bytes. *)
Definition pkt : Type := (N * str)%type.
Definition good_packet (p : pkt) : Prop := (fst p < 12)%N /\ (N.of_nat (length (snd p)) < 2 ^ 24)%N.
Definition framed (p : pkt) : str :=
  let n := N.of_nat (length (snd p)) in
  [fst p; n mod 256; (n / 256) mod 256; n / 65536]%N ++ snd p.
Definition framed_all (ps : list pkt) : str := concat (map framed ps).
(** The packet that announces compressed data has type 3. *)
Definition plain (p : pkt) : Prop := good_packet p /\ fst p <> 3%N.

(** [arrives K ps socket]: the sender sent the packets [ps], some of them compressed; the
    bytes arrive as the list [socket] of what consecutive calls of Receive can return.  No
    such piece contains both the end of compressed data and what follows it. *)
Inductive arrives (K : codec) : list pkt -> list str -> Prop :=
| ar_raw ps cs : Forall plain ps -> concat cs = framed_all ps -> arrives K ps cs
| ar_compressed ps toggle zs w cs rest cs2 :
    Forall plain ps -> good_packet toggle -> fst toggle = 3%N -> Forall plain zs -> dec K w = (framed_all zs, Done []) ->
    concat cs = framed_all (ps ++ [toggle]) ++ w -> arrives K rest cs2 -> arrives K (ps ++ [toggle] ++ zs ++ rest) (cs ++ cs2).
