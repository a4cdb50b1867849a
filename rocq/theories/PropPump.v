(** Theorems about the message pump (properties C06, C07, C08). *)
From Verif Require Import Base ListX ModelPump SpecPump ProofPump.
Local Open Scope N_scope.

(** *** C06: framing *)

(** Any sequence of well-typed packets with payloads up to 2^24-1 bytes can be
    written, and reading the stream back packet by packet gives the same
    sequence and consumes every byte. *)
Theorem C06_stream_roundtrip : forall ps, Forall valid_packet ps ->
  exists w, ser_all ps = Ok w /\ decode_all (length w) w = Some ps.
Proof.
  intros ps F. destruct (decode_encode ps F) as (w & E & H). exists w. split; [exact E|]. now apply H.
Qed.

(** One packet followed by anything: exactly that packet is taken. *)
Theorem C06_packet_roundtrip : forall p b rest, fst p < 12 -> serialize p = Ok b ->
  receive_packet (b ++ rest) = Got p rest.
Proof. exact receive_serialized. Qed.

(** While only part of a packet has arrived, the receiver waits. *)
Theorem C06_incomplete_packet_not_decoded : forall p b n, fst p < 12 -> serialize p = Ok b ->
  (n < length b)%nat -> receive_packet (firstn n b) = NeedMore.
Proof. exact receive_partial. Qed.

Theorem C06_too_big_rejected : forall p, 2 ^ 24 - 1 < blen (snd p) <-> serialize p = Fail.
Proof.
  intros p. split; [apply serialize_too_big|]. intros E. unfold serialize in E.
  change (2 ^ 24 - 1) with kMaxPacketSize.
  destruct (N.ltb_spec kMaxPacketSize (blen (snd p))); [assumption|discriminate].
Qed.

Theorem C06_unknown_type_rejected : forall t h1 h2 h3 rest, 12 <= t ->
  receive_packet (t :: h1 :: h2 :: h3 :: rest) = Invalid.
Proof. exact invalid_type_rejected. Qed.

Example C06_example :
  ser_all [(3, [7; 8]); (11, []); (0, [255])] =
    Ok [3; 2; 0; 0; 7; 8; 11; 0; 0; 0; 0; 1; 0; 0; 255] /\
  decode_all 15 [3; 2; 0; 0; 7; 8; 11; 0; 0; 0; 0; 1; 0; 0; 255] =
    Some [(3, [7; 8]); (11, []); (0, [255])].
Proof. split; reflexivity. Qed.

(** *** C07: delivery *)

(** For every schedule, what ReceiveMessage has returned is a prefix of what
    SendMessage has accepted. *)
Theorem C07_in_order_exactly_once : forall ls st es,
  Forall typed_label ls -> pump_run pump_init ls = (st, es) ->
  prefix (received_ok es) (sent_ok ls es).
Proof.
  intros ls st es F E. pose proof (inv_run ls pump_init F inv_init) as I.
  pose proof (run_history ls pump_init) as H. rewrite E in *. cbn [fst] in I.
  destruct H as (H1 & H2). cbn in H1, H2.
  destruct (i_wire _ I) as (ws & pa & _ & W2 & _).
  destruct (i_queue _ I) as (d & pe & Ea & _ & (t & Ed) & _).
  rewrite <- H1, <- H2, Ea, Ed, W2. eexists. rewrite <- !app_assoc. reflexivity.
Qed.

(** When Flush returns and no error has occurred on this pump, all packets
    accepted so far have left it: each is either already taken from the socket
    by the peer or completely contained in the bytes in the socket. *)
Theorem C07_flush_means_written : forall ls st es,
  Forall typed_label ls -> pump_run pump_init ls = (st, es) ->
  snd (pump_step st LFlush) = ReturnOk ->
  s_send_error (p_snd st) = false -> s_recv_error (p_snd st) = false ->
  exists taken in_socket,
    sent_ok ls es = received_ok es ++ taken ++ in_socket /\
    decode_all (length (p_wire st)) (p_wire st) = Some in_socket /\
    taken = r_queue (p_rcv st) ++ got (r_pc (p_rcv st)).
Proof.
  intros ls st es F E HF Hse Hre. pose proof (inv_run ls pump_init F inv_init) as I.
  pose proof (run_history ls pump_init) as H. rewrite E in *. cbn [fst] in I.
  destruct H as (H1 & H2). cbn in H1, H2.
  destruct (i_wire _ I) as (ws & pa & W1 & W2 & W3).
  destruct (i_queue _ I) as (d & pe & Ea & Em & _ & Ew).
  specialize (Em Hse). specialize (Ew Hre Hse). pose proof (i_size _ I Hse) as Isz.
  pose proof (Forall_wire _ I ws W2) as Fw. pose proof (i_sent _ I) as Isn.
  assert (s_size (p_snd st) = 0).
  { unfold pump_step in HF. cbn [is_sender_label step_snd] in HF. rewrite Hse, Hre, !orb_false_r in HF.
    destruct (N.eqb_spec (s_size (p_snd st)) 0); [assumption|discriminate]. }
  assert (pe = []).
  { destruct pe as [|p pe]; [reflexivity|]. exfalso.
    pose proof (i_ok _ I) as Fo. rewrite Ea in Fo. apply Forall_app in Fo. destruct Fo as (_ & Fo). inversion Fo; subst.
    destruct (pkt_ok_bound p ltac:(assumption)) as (_ & Hb).
    destruct (s_pc (p_snd st)) eqn:Epc; cbn [inflight inflight_size app map] in *;
      try (destruct (s_queue (p_snd st)); [discriminate|]; cbn [total_bytes] in *);
      injection Em; intros; subst; lia. }
  subst pe. rewrite app_nil_r in Ea.
  assert (pa = []) by (destruct W3 as [->|(? & ? & ? & ? & ? & X)]; [reflexivity|congruence]). subst pa.
  rewrite app_nil_r in W1.
  exists (r_queue (p_rcv st) ++ got (r_pc (p_rcv st))), ws.
  split; [|split; [|reflexivity]].
  - rewrite <- H1, <- H2, Ea, <- Ew, W2, <- !app_assoc. reflexivity.
  - rewrite W1. now apply decode_wire.
Qed.

(** Nothing gets stuck: as long as no error occurs, every step the threads or
    a reading caller can take makes progress towards delivery ([measure]
    decreases), and when none can be taken everything sent was received. *)
Theorem C07_progress : forall ls st es,
  Forall typed_label ls -> pump_run pump_init ls = (st, es) -> no_errors st ->
  (forall l, progress_label l ->
     let '(st', e) := pump_step st l in
     no_errors st' /\ (e = Blocked /\ st' = st \/ e <> Blocked /\ (measure st' < measure st)%nat)) /\
  ((forall l, progress_label l -> snd (pump_step st l) = Blocked) ->
     received_ok es = sent_ok ls es).
Proof.
  intros ls st es F E N. pose proof (inv_run ls pump_init F inv_init) as I.
  pose proof (run_history ls pump_init) as H. rewrite E in *. cbn [fst] in I.
  destruct H as (H1 & H2). cbn in H1, H2. split.
  - intros l Hl. pose proof (progress_step st l I N Hl) as P. destruct (pump_step st l) as [st' e].
    destruct P as (P1 & _ & P2). auto.
  - intros HB. rewrite <- H1, <- H2. now apply progress_quiescent.
Qed.

(** Consequence: from every error-free reachable state there is a schedule
    after which every accepted packet has been returned. *)
Theorem C07_delivery_possible : forall ls st es,
  Forall typed_label ls -> pump_run pump_init ls = (st, es) -> no_errors st ->
  exists more st' es', Forall progress_label more /\ pump_run st more = (st', es') /\
    received_ok (es ++ es') = sent_ok ls es.
Proof.
  intros ls st es F E N. pose proof (inv_run ls pump_init F inv_init) as I.
  pose proof (run_history ls pump_init) as H. rewrite E in *. cbn [fst] in I.
  destruct H as (H1 & H2). cbn in H1, H2. rewrite <- H1.
  assert (G : forall k st, (measure st < k)%nat -> inv st -> no_errors st ->
     exists more st' es', Forall progress_label more /\ pump_run st more = (st', es') /\
       r_returned (p_rcv st) ++ received_ok es' = s_accepted (p_snd st)).
  { clear. induction k as [|k IH]; intros st Hm I N; [lia|].
    assert (D : (exists l, progress_label l /\ snd (pump_step st l) <> Blocked) \/
                (forall l, progress_label l -> snd (pump_step st l) = Blocked)).
    { assert (Dl : forall L, (exists l, In l L /\ snd (pump_step st l) <> Blocked) \/
                (forall l, In l L -> snd (pump_step st l) = Blocked)).
      { induction L as [|a L [(l & Hl & Hb)|Hn]].
        - right. intros l [].
        - left. exists l. simpl. auto.
        - assert (Dec : snd (pump_step st a) = Blocked \/ snd (pump_step st a) <> Blocked)
            by (destruct (snd (pump_step st a)); [left; reflexivity|right; discriminate..]).
          destruct Dec as [Db|Db].
          + right. intros l [<-|Hl]; auto.
          + left. exists a. simpl. auto. }
      apply Dl. }
    destruct D as [(l & Hl & Hb)|Hq].
    - pose proof (progress_step st l I N Hl) as P.
      assert (Ht : typed_label l) by (repeat (destruct Hl as [<-|Hl]; [exact Logic.I|]); destruct Hl).
      pose proof (inv_step st l Ht I) as I1. pose proof (step_history st l) as Hh.
      destruct (pump_step st l) as [st1 e] eqn:Es. cbn [fst snd] in *.
      destruct P as (N1 & A1 & [(Eb & _)|(_ & Hlt)]); [congruence|].
      destruct Hh as (_ & Hr).
      destruct (IH st1 ltac:(lia) I1 N1) as (more & st' & es' & Fm & Er & Eq).
      exists (l :: more), st', (e :: es'). split; [now constructor|]. split.
      + cbn [pump_run]. rewrite Es, Er. reflexivity.
      + rewrite A1, Hr, <- app_assoc in Eq. rewrite <- Eq. f_equal. destruct e; reflexivity.
    - exists [], st, []. split; [constructor|]. split; [reflexivity|]. cbn. rewrite app_nil_r.
      now apply progress_quiescent. }
  destruct (G (S (measure st)) st ltac:(lia) I N) as (more & st' & es' & Fm & Er & Eq).
  exists more, st', es'. split; [exact Fm|]. split; [exact Er|].
  rewrite <- Eq, H2. clear. induction es as [|e es IH]; [reflexivity|].
  destruct e; cbn; rewrite ?IH; reflexivity.
Qed.

(** A blocked SendMessage or Flush is never stuck by itself: some step of the
    sending thread is possible. *)
Theorem C07_blocked_caller_not_stuck : forall ls st es l,
  Forall typed_label ls -> pump_run pump_init ls = (st, es) ->
  (l = LFlush \/ exists p, l = LQueue p) -> snd (pump_step st l) = Blocked ->
  exists t, (t = LPop \/ t = LSend \/ t = LDec) /\ snd (pump_step st t) = Silent.
Proof.
  intros ls st es l F E Hl HB. pose proof (inv_run ls pump_init F inv_init) as I. rewrite E in I. cbn [fst] in I.
  assert (B : s_send_error (p_snd st) = false /\ s_size (p_snd st) <> 0).
  { unfold pump_step in HB. destruct Hl as [->|(p & ->)]; cbn [is_sender_label step_snd] in HB.
    - destruct (N.eqb_spec (s_size (p_snd st)) 0); [discriminate|].
      destruct (s_send_error (p_snd st)); [discriminate|]. auto.
    - destruct (serialize p); try discriminate.
      destruct (N.ltb_spec (s_size (p_snd st)) kInOutBufferSize);
      destruct (s_send_error (p_snd st)), (s_recv_error (p_snd st)); cbn in HB; try discriminate.
      split; [reflexivity|]. unfold kInOutBufferSize in *. lia. }
  destruct B as (B1 & B2). pose proof (i_size _ I B1) as Isz.
  destruct (s_pc (p_snd st)) eqn:Epc.
  - destruct (s_queue (p_snd st)) eqn:Eq; [cbn in Isz; lia|].
    exists LPop. split; [auto|]. unfold pump_step. cbn. rewrite Epc, Eq. reflexivity.
  - exists LSend. split; [auto|]. unfold pump_step. cbn. rewrite Epc. destruct (s_recv_error (p_snd st)); reflexivity.
  - exists LDec. split; [auto|]. unfold pump_step. cbn. rewrite Epc. reflexivity.
  - rewrite (i_stop _ I Epc) in B1. discriminate.
Qed.

(** Two packets sent, the receiver reads the first while the second is still
    in flight. *)
Example C07_example :
  let ls := [LQueue (1, [5]); LQueue (2, []); LPop; LWait; LSend; LRecv; LPush; LDec; LDequeue; LPop; LFlush] in
  let '(st, es) := pump_run pump_init ls in
  received_ok es = [(1, [5])] /\ sent_ok ls es = [(1, [5]); (2, [])] /\ no_errors st /\
  snd (pump_step st LFlush) = Blocked.
Proof. cbv. repeat split; reflexivity. Qed.

Example C07_flush_example :
  let ls := [LQueue (1, [5]); LQueue (2, []); LPop; LSend; LDec; LPop; LSend; LDec] in
  let '(st, es) := pump_run pump_init ls in
  no_errors st /\ snd (pump_step st LFlush) = ReturnOk /\ p_wire st = [1; 1; 0; 0; 5; 2; 0; 0; 0].
Proof. cbv. repeat split; reflexivity. Qed.

(** FlushOutgoingQueue has no result: it also returns when the connection is
    broken and an accepted packet was never written. *)
Theorem C07_flush_success_refuted :
  exists ls st es, Forall typed_label ls /\ pump_run pump_init ls = (st, es) /\
    sent_ok ls es = [(1, [5])] /\ snd (pump_step st LFlush) = ReturnOk /\ p_wire st = [] /\
    received_ok es = [].
Proof.
  exists [LQueue (1, [5]); LPop; LSendFail 0]. eexists. eexists. split.
  - repeat constructor.
  - split; [reflexivity|]. repeat split; reflexivity.
Qed.

(** *** C08: bounded memory, errors last *)
Theorem C08_outgoing_bounded : forall ls st es,
  Forall typed_label ls -> pump_run pump_init ls = (st, es) ->
  (s_send_error (p_snd st) = false ->
     s_size (p_snd st) = total_bytes (s_queue (p_snd st)) + inflight_size (s_pc (p_snd st))) /\
  s_size (p_snd st) < 8 * 1024 * 1024 + (4 + 2 ^ 24).
Proof.
  intros ls st es F E. pose proof (inv_run ls pump_init F inv_init) as I. rewrite E in I. cbn [fst] in I.
  split; [apply (i_size _ I)|]. pose proof (i_bound _ I). unfold kInOutBufferSize in *. lia.
Qed.

Theorem C08_incoming_bounded : forall ls st es,
  Forall typed_label ls -> pump_run pump_init ls = (st, es) ->
  r_size (p_rcv st) = total_packets (r_queue (p_rcv st)) /\
  total_packets (r_queue (p_rcv st)) < 8 * 1024 * 1024 + (4 + 2 ^ 24).
Proof.
  intros ls st es F E. pose proof (inv_run ls pump_init F inv_init) as I. rewrite E in I. cbn [fst] in I.
  pose proof (i_rsize _ I) as H. split; [exact H|]. rewrite <- H. pose proof (i_rbound _ I). unfold kInOutBufferSize in *. lia.
Qed.

(** A receive error reaches the caller only when every packet that arrived
    before it has been returned; unconditional unless this pump also had a
    send error. *)
Theorem C08_receive_error_last : forall ls st es,
  Forall typed_label ls -> pump_run pump_init ls = (st, es) ->
  snd (pump_step st LDequeue) = ReturnError -> r_send_error (p_rcv st) = false ->
  r_queue (p_rcv st) = [] /\ r_pc (p_rcv st) = RStopped /\
  exists unread w tail, s_written (p_snd st) = received_ok es ++ unread /\
    ser_all unread = Ok w /\ p_wire st = w ++ tail /\ receive_packet tail = NeedMore.
Proof.
  intros ls st es F E HD Hse. pose proof (inv_run ls pump_init F inv_init) as I.
  pose proof (run_history ls pump_init) as H. rewrite E in *. cbn [fst] in I.
  destruct H as (H1 & H2). cbn in H1, H2.
  unfold pump_step in HD. cbn [is_sender_label step_rcv] in HD. rewrite Hse in HD.
  destruct (r_queue (p_rcv st)) eqn:Eq; [|discriminate]. cbn [orb] in HD.
  destruct (r_recv_error (p_rcv st)) eqn:Ee; [|discriminate].
  pose proof (proj1 (i_rerr _ I) Ee) as Epc. split; [reflexivity|]. split; [exact Epc|].
  destruct (i_wire _ I) as (ws & pa & W1 & W2 & W3). rewrite Eq, Epc in W2. cbn [app got] in W2.
  exists ws, (concat (map ser ws)), pa. split; [now rewrite <- H2|].
  split; [apply ser_all_concat; eapply Forall_wire; [exact I|]; rewrite Eq, Epc; exact W2|].
  split; [exact W1|].
  destruct W3 as [->|(p & n & Hp & -> & Hn & _)]; [reflexivity|].
  rewrite (receive_partial p); [reflexivity|apply Hp|now apply pkt_ok_ser|exact Hn].
Qed.

Example C08_error_last_example :
  let ls := [LQueue (1, [5]); LPop; LSend; LWait; LRecv; LPush; LWait; LRecvFail] in
  let '(st, es) := pump_run pump_init ls in
  snd (pump_step st LDequeue) = ReturnPacket (1, [5]) /\
  snd (pump_step (fst (pump_step st LDequeue)) LDequeue) = ReturnError.
Proof. cbv. split; reflexivity. Qed.

(** The same does not hold for send errors: as soon as this pump failed to
    send, packets that were already received are withheld. *)
Theorem C08_send_error_last_refuted :
  exists ls st es p, Forall typed_label ls /\ pump_run pump_init ls = (st, es) /\
    r_queue (p_rcv st) = [p] /\ snd (pump_step st LDequeue) = ReturnError.
Proof.
  exists [LQueue (1, [5]); LPop; LSend; LWait; LRecv; LPush; LPeerSendError].
  eexists. eexists. exists (1, [5]). split; [repeat constructor|].
  split; [vm_compute; reflexivity|]. split; reflexivity.
Qed.

(** Errors are reported and stay: once sending or receiving has failed, in every
    continuation no SendMessage call is accepted or blocks, and Flush does not
    block either. *)
Theorem C08_send_after_error : forall ls st es more st' es' p,
  Forall typed_label ls -> pump_run pump_init ls = (st, es) ->
  s_send_error (p_snd st) = true \/ s_recv_error (p_snd st) = true ->
  pump_run st more = (st', es') ->
  snd (pump_step st' (LQueue p)) = ReturnError /\ snd (pump_step st' LFlush) = ReturnOk /\
  sent_ok more es' = [].
Proof.
  intros ls st es more st' es' p _ _ H. revert st st' es' H.
  assert (Q : forall st p, s_send_error (p_snd st) = true \/ s_recv_error (p_snd st) = true ->
      snd (pump_step st (LQueue p)) = ReturnError /\ snd (pump_step st LFlush) = ReturnOk).
  { intros st q H. unfold pump_step. cbn [is_sender_label step_snd].
    assert (B : s_send_error (p_snd st) || s_recv_error (p_snd st) = true) by (destruct H as [-> | ->]; [reflexivity|apply orb_true_r]).
    rewrite <- !orb_assoc, B, !orb_true_r. destruct (serialize q); auto. }
  assert (S : forall st l st' e, pump_step st l = (st', e) -> s_send_error (p_snd st) = true \/ s_recv_error (p_snd st) = true ->
      s_send_error (p_snd st') = true \/ s_recv_error (p_snd st') = true).
  { intros [[sq ss spc se sr sa sw] w [rq rs rpc re rse rr]] l st1 e E H. unfold pump_step in E. cbn in H.
    destruct l; cbn in E;
      repeat match type of E with context [match ?x with _ => _ end] => lazymatch x with context [match _ with _ => _ end] => fail | _ => destruct x; try discriminate end end; inversion E; subst; cbn; try solve [destruct H; discriminate]; auto. }
  induction more as [|l more IH]; intros st st' es' H E; cbn in E.
  - inversion E; subst. destruct (Q st' p H). auto.
  - destruct (pump_step st l) as [st1 e] eqn:E1. destruct (pump_run st1 more) as [st2 es2] eqn:E2. inversion E; subst.
    destruct (IH st1 st' es2 (S _ _ _ _ E1 H) E2) as (A & B & C). split; [exact A|]. split; [exact B|].
    destruct l; cbn [sent_ok]; auto. destruct (Q st p0 H) as (Q1 & _). rewrite E1 in Q1. cbn in Q1. subst e. exact C.
Qed.

Print Assumptions C08_send_after_error.
Print Assumptions C06_stream_roundtrip.
Print Assumptions C06_too_big_rejected.
Print Assumptions C06_incomplete_packet_not_decoded.
Print Assumptions C07_in_order_exactly_once.
Print Assumptions C07_flush_means_written.
Print Assumptions C07_progress.
Print Assumptions C07_delivery_possible.
Print Assumptions C07_blocked_caller_not_stuck.
Print Assumptions C08_outgoing_bounded.
Print Assumptions C08_incoming_bounded.
Print Assumptions C08_receive_error_last.
