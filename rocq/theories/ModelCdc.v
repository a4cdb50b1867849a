(** Model of cdc_rsync/base/cdc_interface.cc: signature, diff and patch of one
    file.  Message transport is the in-order, exactly-once delivery proved for
    the pump (C07); here a channel is the list of messages sent. *)
From Verif Require Import Base ModelFastcdc.
Local Open Scope N_scope.

Definition blen (b : bytes) : N := N.of_nat (length b).
(** uint32_t / uint64_t arithmetic *)
Definition u32 (x : N) : N := x mod 2 ^ 32.
Definition u64 (x : N) : N := x mod 2 ^ 64.

(** cdc_interface.cc:52-100 *)
Definition kCombinedChunkSizeThreshold : N := 64 * 1024.
Definition kMaxNumHashTasks : N := 64.
Definition kMinNumChunksPerBatch : N := 8 * 1024 * 1024 / (8 * 1024).
Definition kPatchRequestSizeThreshold : N := 65536.
(** cdc_interface.cc:239-240 *)
Definition kPatchMetadataSize : N := 1 + 8 + 4.

(** messages.proto:142-150 AddSignaturesResponse; [sm_hashes] is the packed
    hash string cut into its 16-byte hashes. *)
Record sigmsg := mk_sigmsg { sm_sizes : list N; sm_hashes : list N }.
Definition empty_sigmsg := mk_sigmsg [] [].

(** messages.proto:153-175 AddPatchCommandsRequest: parallel arrays. *)
Definition SOURCE_DATA : N := 0.
Definition SOURCE_BASIS_FILE : N := 1.
Record request := mk_request {
  rq_sources : list N; rq_offsets : list N; rq_sizes : list N; rq_data : bytes }.
Definition empty_request := mk_request [] [] [] [].

(** path.cc:769-800 StreamReadFileContents: reads the file from position [pos]
    in blocks; the handler may use (and must restore) the file position; it
    gets [Some block] for data and [None] for the end-of-file call.  The file
    does not change and fread does not fail while it is read. *)
Section Stream.
Variable S : Type.
Variable iobuf : nat.
Variable file : bytes.
Variable handler : nat -> S -> option bytes -> outcome (nat * S).
Fixpoint stream_read (fuel : nat) (pos : nat) (st : S) : outcome (nat * S) :=
  match fuel with
  | O => OutOfFuel
  | Datatypes.S f =>
      let block := firstn iobuf (skipn pos file) in
      let pos := (pos + length block)%nat in
      do ps <- (match block with [] => Ok (pos, st) | _ => handler pos st (Some block) end);
      if (length block =? iobuf)%nat then stream_read f (fst ps) (snd ps)
      else handler (fst ps) (snd ps) None
  end.
End Stream.

(** util.cc:150-163 Util::IsExecutable *)
Definition starts_with (p d : bytes) : bool :=
  if list_eq_dec N.eq_dec (firstn (length p) d) p then true else false.
Definition is_executable (data : bytes) : bool :=
  if (length data <? 4)%nat then false
  else starts_with [127; 69; 76; 70] data || starts_with [35; 33; 47] data || starts_with [77; 90] data.

Section Cdc.
Variable hash : bytes -> N.           (* 109-118 ComputeHash *)
Variable w : nat.
Variable gear : byte -> N.
Variable cfg : config.
Variable iobuf : nat.                 (* 50 kFileIoBufferSize *)

(** ** Server: 405-506 CreateAndSendSignature *)

Record sg := mk_sg {
  sg_buf : bytes;             (* chunker buffer *)
  sg_pending : list bytes;    (* chunks queued in hash_pool_ and not retrieved;
                                 one worker, so they complete in this order *)
  sg_num : N;                 (* num_hash_tasks *)
  sg_resp : sigmsg;
  sg_out : list sigmsg;       (* messages sent *)
  sg_tick : nat               (* number of TryGetCompletedTask calls so far *)
}.

(** Scheduling: has the worker completed a task at the k-th poll? *)
Variable completed : nat -> bool.

(** 140-144 AppendHash *)
Definition append_hash (r : sigmsg) (c : bytes) : sigmsg :=
  mk_sigmsg (sm_sizes r ++ [u32 (blen c)]) (sm_hashes r ++ [hash c]).

(** 449-458 *)
Fixpoint collect (fuel : nat) (s : sg) : outcome sg :=
  match fuel with
  | O => OutOfFuel
  | S f =>
      let take c rest tick :=
        collect f (mk_sg (sg_buf s) rest (sg_num s - 1) (append_hash (sg_resp s) c) (sg_out s) tick) in
      if kMaxNumHashTasks <=? sg_num s then
        match sg_pending s with
        | [] => OutOfFuel             (* GetCompletedTask would block forever *)
        | c :: rest => take c rest (sg_tick s)
        end
      else
        match sg_pending s with
        | c :: rest =>
            if completed (sg_tick s) then take c rest (S (sg_tick s))
            else Ok (mk_sg (sg_buf s) (sg_pending s) (sg_num s) (sg_resp s) (sg_out s) (S (sg_tick s)))
        | [] => Ok (mk_sg (sg_buf s) [] (sg_num s) (sg_resp s) (sg_out s) (S (sg_tick s)))
        end
  end.

(** 443-471 read_handler *)
Definition sg_handler (pos : nat) (s : sg) (block : option bytes) : outcome (nat * sg) :=
  let data := match block with Some b => b | None => [] end in
  do r <- process w gear cfg (sg_buf s) data;
  let '(cs, buf) := r in
  let s := mk_sg buf (sg_pending s ++ cs) (sg_num s + N.of_nat (length cs)) (sg_resp s) (sg_out s) (sg_tick s) in
  do s <- collect (S (length (sg_pending s))) s;
  if kMinNumChunksPerBatch <=? N.of_nat (length (sm_sizes (sg_resp s))) then
    Ok (pos, mk_sg (sg_buf s) (sg_pending s) (sg_num s) empty_sigmsg (sg_out s ++ [sg_resp s]) (sg_tick s))
  else Ok (pos, s).

(** 405-506.  SendMessage does not fail. *)
Definition create_signature (file : bytes) : outcome (list sigmsg) :=
  do ps <- stream_read sg iobuf file sg_handler (S (length file)) 0%nat
             (mk_sg [] [] 0 empty_sigmsg [] 0%nat);
  let s := snd ps in
  (* 479 *)
  do r <- process w gear cfg (sg_buf s) [];
  (* 482-488: all tasks complete, then all are retrieved *)
  let resp := fold_left append_hash (sg_pending s ++ fst r) (sg_resp s) in
  (* 491-503 *)
  Ok (sg_out s ++ (match sm_sizes resp with [] => [] | _ => [resp] end) ++ [empty_sigmsg]).

(** ** Client: 508-581 ReceiveSignatureAndCreateAndSendDiff *)

(** 155-235 ServerChunkReceiver *)
Record rx := mk_rx {
  rx_map : list (N * N);      (* chunk_offsets_; insert does not overwrite *)
  rx_off : N;                 (* curr_offset_ *)
  rx_all : bool;              (* all_chunks_received_ *)
  rx_msgs : list sigmsg;      (* messages not received yet *)
  rx_tick : nat               (* number of CanReceive calls so far *)
}.

Fixpoint lookup (h : N) (m : list (N * N)) : option N :=
  match m with
  | [] => None
  | (k, o) :: m => if k =? h then Some o else lookup h m
  end.

(** std::unordered_map::insert keeps the existing entry. *)
Definition map_insert (h o : N) (m : list (N * N)) : list (N * N) :=
  match lookup h m with Some _ => m | None => m ++ [(h, o)] end.

Fixpoint insert_chunks (m : list (N * N)) (off : N) (hs ss : list N) : list (N * N) * N :=
  match hs, ss with
  | h :: hs, s :: ss => insert_chunks (map_insert h off m) (u64 (off + s)) hs ss
  | _, _ => (m, off)
  end.

(** Scheduling: is a message available at the k-th CanReceive call? *)
Variable available : nat -> bool.

(** 168-214 Receive *)
Definition rx_receive (block : bool) (r : rx) : outcome rx :=
  if rx_all r then Ok r
  else
    let ready := block || available (rx_tick r) in
    let r := if block then r else mk_rx (rx_map r) (rx_off r) (rx_all r) (rx_msgs r) (S (rx_tick r)) in
    if negb ready then Ok r
    else
      match rx_msgs r with
      | [] => if block then Fail else Ok r
      | m :: ms =>
          if negb (length (sm_hashes m) =? length (sm_sizes m))%nat then Fail
          else match sm_sizes m with
          | [] => Ok (mk_rx (rx_map r) (rx_off r) true ms (rx_tick r))
          | _ =>
              let '(mp, off) := insert_chunks (rx_map r) (rx_off r) (sm_hashes m) (sm_sizes m) in
              Ok (mk_rx mp off false ms (rx_tick r))
          end
      end.

(** 237-398 PatchSender *)
Record ps := mk_ps {
  ps_req : request;           (* request_ *)
  ps_reqsz : N;               (* request_size_ *)
  ps_off : N;                 (* file_offset_ *)
  ps_idx : nat;               (* curr_chunk_idx_ *)
  ps_out : list request       (* messages sent *)
}.

(** request_.set_sizes(last_idx, request_.sizes(last_idx) + size) *)
Definition grow_last (l : list N) (size : N) : list N :=
  removelast l ++ [u32 (last l 0 + size)].

(** 372-388 OnChunkAdded *)
Definition on_chunk_added (p : ps) (size : N) : ps :=
  let off := u64 (ps_off p + size) in
  if kPatchRequestSizeThreshold <? ps_reqsz p then
    mk_ps empty_request 0 off (ps_idx p) (ps_out p ++ [ps_req p])
  else mk_ps (ps_req p) (ps_reqsz p) off (ps_idx p) (ps_out p).

(** 321-339 AddExistingChunk *)
Definition add_existing (p : ps) (offset size : N) : ps :=
  let q := ps_req p in
  let p :=
    if negb (length (rq_sources q) =? 0)%nat
       && (last (rq_sources q) 0 =? SOURCE_BASIS_FILE)
       && (u64 (last (rq_offsets q) 0 + last (rq_sizes q) 0) =? offset)
       && (last (rq_sizes q) 0 <? kCombinedChunkSizeThreshold) then
      mk_ps (mk_request (rq_sources q) (rq_offsets q) (grow_last (rq_sizes q) size) (rq_data q))
            (ps_reqsz p) (ps_off p) (ps_idx p) (ps_out p)
    else
      mk_ps (mk_request (rq_sources q ++ [SOURCE_BASIS_FILE]) (rq_offsets q ++ [offset])
                        (rq_sizes q ++ [size]) (rq_data q))
            (ps_reqsz p + kPatchMetadataSize) (ps_off p) (ps_idx p) (ps_out p) in
  on_chunk_added p size.

(** fseek64 + fread of exactly [size] bytes; fails on a short read or an offset
    that is negative as int64_t. *)
Definition file_read (file : bytes) (offset size : N) : outcome bytes :=
  if 2 ^ 63 <=? offset then Fail
  else if size =? 0 then Ok []
  else if blen file <? offset + size then Fail
  else Ok (firstn (N.to_nat size) (skipn (N.to_nat offset) file)).

(** 341-370 AddNewChunk on [file]; [pos] is the file position, which is saved
    and restored (360-363). *)
Definition add_new (file : bytes) (pos : nat) (p : ps) (size : N) : outcome (nat * ps) :=
  let q := ps_req p in
  let '(q, reqsz) :=
    if negb (length (rq_sources q) =? 0)%nat && (last (rq_sources q) 0 =? SOURCE_DATA) then
      (mk_request (rq_sources q) (rq_offsets q) (grow_last (rq_sizes q) size) (rq_data q), ps_reqsz p)
    else
      (mk_request (rq_sources q ++ [SOURCE_DATA]) (rq_offsets q ++ [blen (rq_data q)])
                  (rq_sizes q ++ [size]) (rq_data q), ps_reqsz p + kPatchMetadataSize) in
  let prev_offset := pos in
  do d <- file_read file (ps_off p) size;
  let pos := (N.to_nat (ps_off p) + length d)%nat in
  let pos := prev_offset in
  Ok (pos, on_chunk_added
             (mk_ps (mk_request (rq_sources q) (rq_offsets q) (rq_sizes q) (rq_data q ++ d))
                    (reqsz + size) (ps_off p) (ps_idx p) (ps_out p)) size).

(** 253-288 TryAddChunks *)
Fixpoint try_add (fuel : nat) (file : bytes) (chunks : list (N * N)) (r : rx)
    (pos : nat) (p : ps) : outcome (nat * ps) :=
  match nth_error chunks (ps_idx p) with
  | None => Ok (pos, p)
  | Some (h, size) =>
      match fuel with
      | O => OutOfFuel
      | S f =>
          match lookup h (rx_map r), rx_all r with
          | None, false => Ok (pos, p)
          | o, _ =>
              do pp <- (match o with
                        | Some off => Ok (pos, add_existing p off size)
                        | None => add_new file pos p size
                        end);
              let '(pos, p) := pp in
              let p := mk_ps (ps_req p) (ps_reqsz p) (ps_off p) (S (ps_idx p)) (ps_out p) in
              if rx_all r then Ok (pos, p) else try_add f file chunks r pos p
          end
      end
  end.

(** 291-310 Flush: the messages sent in total. *)
Definition ps_flush (p : ps) : list request :=
  ps_out p ++ (if 0 <? ps_reqsz p then [ps_req p; empty_request] else [ps_req p]).

Record cl := mk_cl { cl_buf : bytes; cl_chunks : list (N * N); cl_rx : rx; cl_ps : ps }.

(** 539-560: do { Receive; TryAddChunks } while (...) *)
Fixpoint diff_loop (fuel : nat) (file : bytes) (eof : bool) (pos : nat) (c : cl) : outcome (nat * cl) :=
  match fuel with
  | O => OutOfFuel
  | S f =>
      do r <- rx_receive eof (cl_rx c);
      do pp <- try_add (length (cl_chunks c)) file (cl_chunks c) r pos (cl_ps c);
      let '(pos, p) := pp in
      let c := mk_cl (cl_buf c) (cl_chunks c) r p in
      if eof && (negb (rx_all r) || (ps_idx p <? length (cl_chunks c))%nat)
      then diff_loop f file eof pos c
      else Ok (pos, c)
  end.

(** 518-521 chunk_handler *)
Definition client_chunk (c : bytes) : N * N := (hash c, u32 (blen c)).

(** 527-563 read_handler *)
Definition diff_handler (file : bytes) (pos : nat) (c : cl) (block : option bytes) : outcome (nat * cl) :=
  let data := match block with Some b => b | None => [] end in
  do r <- process w gear cfg (cl_buf c) data;
  let '(cs, buf) := r in
  do r <- (match block with None => process w gear cfg buf [] | Some _ => Ok ([], buf) end);
  let '(cs2, buf) := r in
  let chunks := cl_chunks c ++ map client_chunk (cs ++ cs2) in
  let eof := match block with None => true | Some _ => false end in
  diff_loop (S (length (rx_msgs (cl_rx c)) + length chunks)) file eof pos
    (mk_cl buf chunks (cl_rx c) (cl_ps c)).

(** 508-581.  [sigs] are the messages the server sends. *)
Definition create_diff (file : bytes) (sigs : list sigmsg) : outcome (list request) :=
  do pc <- stream_read cl iobuf file (diff_handler file) (S (length file)) 0%nat
             (mk_cl [] [] (mk_rx [] 0 false sigs 0%nat) (mk_ps empty_request 0 0 0%nat []));
  Ok (ps_flush (cl_ps (snd pc))).

(** ** Server: 583-668 ReceiveDiffAndPatch *)

(** State of the patch loop: output file, *is_executable, first_chunk. *)
Record pt := mk_pt { pt_out : bytes; pt_exec : bool; pt_first : bool }.

(** 630-652: the bytes of one command.  request.data()[chunk_offset] is only
    defined inside the string; the C++ check is on uint64_t. *)
Definition chunk_bytes (basis data : bytes) (source offset size : N) : outcome bytes :=
  if source =? SOURCE_BASIS_FILE then file_read basis offset size
  else if blen data <? u64 (offset + size) then Fail
  else if blen data <? offset + size then UB
  else Ok (firstn (N.to_nat size) (skipn (N.to_nat offset) data)).

(** 625-663 *)
Fixpoint patch_commands (basis data : bytes) (srcs offs szs : list N) (t : pt) : outcome pt :=
  match srcs, offs, szs with
  | s :: srcs, o :: offs, z :: szs =>
      do d <- chunk_bytes basis data s o z;
      let t :=
        if pt_first t && (0 <? z) then mk_pt (pt_out t) (is_executable d) false else t in
      patch_commands basis data srcs offs szs (mk_pt (pt_out t ++ d) (pt_exec t) (pt_first t))
  | _, _, _ => Ok t
  end.

(** 601-664; ReceiveMessage fails when the messages run out. *)
Fixpoint patch_loop (basis : bytes) (reqs : list request) (t : pt) : outcome pt :=
  match reqs with
  | [] => Fail
  | q :: reqs =>
      if negb ((length (rq_sources q) =? length (rq_offsets q))%nat
               && (length (rq_sources q) =? length (rq_sizes q))%nat) then Fail
      else match rq_sources q with
      | [] => Ok t
      | _ =>
          do t <- patch_commands basis (rq_data q) (rq_sources q) (rq_offsets q) (rq_sizes q) t;
          patch_loop basis reqs t
      end
  end.

(** Result: patched file and *is_executable. *)
Definition patch (basis : bytes) (reqs : list request) : outcome (bytes * bool) :=
  do t <- patch_loop basis reqs (mk_pt [] false true);
  Ok (pt_out t, pt_exec t).

End Cdc.
