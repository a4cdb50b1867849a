(** C55: the compressed connection (cdc_rsync/zstd_stream.cc,
    cdc_rsync_server/unzstd_stream.cc, MessagePump::ThreadDoReceive). *)
From Verif Require Import Base ListX ModelPump SpecZstd ModelZstd ProofZstd ProofZstdToy.
Local Notation str := (list N).

(** When Finish returns OK, what is on the wire is one complete compressed frame of all
    data written, and no call of Write has failed. *)
Theorem C55_finish : forall K (L : laws K) cap, (0 < cap)%nat -> forall tr s, zrun K cap (z_init K) tr s -> In EFinishOk tr ->
  dec K (z_wire K s) = (written_data tr, Done []) /\ attempted_data tr = written_data tr.
Proof.
  intros K L cap P tr s R HI. pose proof (inv_run K L cap P tr s R) as I. pose proof (i_ok K L cap s tr I HI) as Sn. pose proof (i_data K L cap s tr I) as D. rewrite Sn in D.
  split; [apply D|]. apply (i_noerr K L cap s tr I). auto.
Qed.
(** At every time, whatever failed, the wire holds a prefix of the data. *)
Theorem C55_prefix : forall K (L : laws K) cap, (0 < cap)%nat -> forall tr s, zrun K cap (z_init K) tr s ->
  exists y, attempted_data tr ++ (match z_call K s with Writing whole _ => whole | _ => [] end) = fst (dec K (z_wire K s)) ++ y.
Proof. intros K L cap P tr s R. exact (wire_prefix K L cap s tr (inv_run K L cap P tr s R)). Qed.
(** If less than a buffer of data comes in 500 ms, everything written so far becomes
    readable. *)
Theorem C55_auto_flush : forall K (L : laws K) cap, (0 < cap)%nat -> forall tr s s2, zrun K cap (z_init K) tr s -> zstep K cap s EFlushed s2 ->
  z_call K s2 = Idle -> z_finish_called K s2 = false -> dec K (z_wire K s2) = (written_data tr, Open).
Proof. intros K L cap P tr s s2 R St. exact (flushed_data K L cap s tr s2 (inv_run K L cap P tr s R) St). Qed.

(** From the constructor's return on: an error is final. *)
Theorem C55_error_sticky : forall K (L : laws K) cap, (0 < cap)%nat -> forall tr1 e tr2 s, zrun K cap (z_started K) (tr1 ++ e :: tr2) s ->
  ((exists d, e = EWriteError d) \/ e = EFinishError) -> (forall d, ~ In (EWriteOk d) tr2) /\ ~ In EFinishOk tr2.
Proof. intros K L cap P tr1 e tr2 s R E. exact (error_sticky K L cap P tr1 e tr2 s R E). Qed.
(** No call hangs: as long as it has not returned, the caller or the compressor thread can
    go on, and the call takes at most [2 n + 3] steps besides time-outs, where [n] is the
    number of bytes still to copy. *)
Theorem C55_calls_return : forall K (L : laws K) cap, (0 < cap)%nat -> forall tr s, zrun K cap (z_started K) tr s -> z_call K s <> Idle ->
  (exists e s2, zstep K cap s e s2 /\ e <> EFlushed) /\
  (forall tr2 s2, zrun K cap s tr2 s2 -> forallb (fun e => negb (completion e)) tr2 = true ->
     (length (filter (fun e => negb (is_flushed e)) tr2) <= 2 * (match z_call K s with Writing _ l => length l | _ => 0 end) + 3)%nat).
Proof.
  intros K L cap P tr s R N. destruct (run_started K L cap P tr s R) as (I & J). split; [exact (enabled K L cap P s tr I J N)|].
  intros tr2 s2 R2 F. destruct (call_returns K L cap P tr s tr2 s2 R N R2 F) as (_ & _ & M). unfold mu, to_copy in M.
  destruct (is_full K cap s), (z_last K s), (z_thread K s), (z_call K s); lia.
Qed.

(** ** The receiver *)

(** All packets come out, in order, compressed or not, however the bytes are cut into
    pieces, as long as no piece spans the end of compressed data; then the receiver waits
    for more. *)
Theorem C55_packets : forall K (L : laws K) ps socket, arrives K ps socket ->
  exists n, receive_packets K (length ps) (mkconn K None socket) = Received ps n /\ do_receive_packet K n = Waiting.
Proof. intros K L ps socket A. apply (packets_arrive K L ps socket A (mkconn K None ([] ++ socket))). constructor. reflexivity. Qed.

(** Both together: packets written through the stream, a successful Finish. *)
Theorem C55_end_to_end : forall K (L : laws K) cap, (0 < cap)%nat -> forall tr s toggle zs socket,
  zrun K cap (z_init K) tr s -> In EFinishOk tr -> written_data tr = framed_all zs -> Forall plain zs -> good_packet toggle -> fst toggle = 3%N ->
  concat socket = framed toggle ++ z_wire K s ->
  exists n, receive_packets K (S (length zs)) (mkconn K None socket) = Received (toggle :: zs) n /\ do_receive_packet K n = Waiting.
Proof.
  intros K L cap P tr s toggle zs socket R HI W F Gt T E. destruct (C55_finish K L cap P tr s R HI) as (D & _). rewrite W in D.
  assert (A : arrives K ([] ++ [toggle] ++ zs ++ []) (socket ++ [])).
  { eapply (ar_compressed K [] toggle zs _ socket [] []); [constructor|exact Gt|exact T|exact F|exact D| |].
    - rewrite E. unfold framed_all. cbn [app map concat]. now rewrite app_nil_r.
    - constructor; [constructor|reflexivity]. }
  rewrite !app_nil_r in A. exact (C55_packets K L (toggle :: zs) socket A).
Qed.

(** ** Examples *)
Local Definition w3 : str := [5; 6; 7]%N.
(** Write of three bytes with a buffer of two, then Finish. *)
Example zstd_run : exists s, zrun toy 2 (z_init toy) [ESilent; ESilent; ESilent; ESilent; EWriteOk w3; ESilent; ESilent; EFinishOk] s /\
  z_wire toy s = [1; 5; 1; 6; 1; 7; 0]%N.
Proof.
  change [ESilent; ESilent; ESilent; ESilent; EWriteOk w3; ESilent; ESilent; EFinishOk] with ((((((((([] ++ [ESilent]) ++ [ESilent]) ++ [ESilent]) ++ [ESilent]) ++ [EWriteOk w3]) ++ [ESilent]) ++ [ESilent]) ++ [EFinishOk])).
  eexists. split.
  - econstructor. econstructor. econstructor. econstructor. econstructor. econstructor. econstructor. econstructor. constructor.
    + apply Z_ctor. reflexivity.
    + apply (Z_write toy 2 _ w3); cbn; auto. discriminate.
    + eapply (Z_copy toy 2 _ w3 w3); cbn; auto.
    + eapply (Z_thread toy 2 _ false MContinue [] [5; 6]%N); cbn; auto. eapply (lo_done toy MContinue [] [5; 6]%N 2 [] false [5; 6]%N); [repeat split|reflexivity].
    + eapply (Z_copy toy 2 _ w3 [7]%N); cbn; auto.
    + eapply Z_finish; cbn; auto.
    + eapply (Z_thread toy 2 _ false MEnd [1; 5; 1; 6; 1; 7; 0]%N []); cbn; auto. eapply (lo_done toy MEnd [5; 6]%N [7]%N 1 _ true []); [repeat split|reflexivity].
    + eapply (Z_finish_return toy 2 (mkz toy [] [] false false true true true false Finishing true [1; 5; 1; 6; 1; 7; 0]%N)); cbn; auto.
  - reflexivity.
Qed.
(** A packet of type 2, the announcement, a compressed packet of type 5, and one
    uncompressed again; the compressed data comes in two pieces. *)
Local Definition p2 : pkt := (2, [9])%N.
Local Definition p3 : pkt := (3, [])%N.
Local Definition p5 : pkt := (5, [8])%N.
Example zstd_arrives : arrives toy [p2; p3; p5; p2] [framed p2 ++ framed p3 ++ [1; 5; 1]; [1; 1; 0; 1; 0; 1; 8; 0]; framed p2]%N.
Proof.
  assert (G : forall p, In p [p2; p5] -> plain p) by (intros p [<-|[<-|[]]]; repeat split; try reflexivity; discriminate).
  apply (ar_compressed toy [p2] p3 [p5] [1; 5; 1; 1; 1; 0; 1; 0; 1; 8; 0]%N [framed p2 ++ framed p3 ++ [1; 5; 1]; [1; 1; 0; 1; 0; 1; 8; 0]]%N [p2] [framed p2]).
  - constructor; [apply G; cbn; auto|constructor].
  - split; reflexivity.
  - reflexivity.
  - constructor; [apply G; cbn; auto|constructor].
  - reflexivity.
  - reflexivity.
  - constructor; [constructor; [apply G; cbn; auto|constructor]|reflexivity].
Qed.

(** ** Two defects *)

(** When a piece contains the end of the compressed data and the beginning of what follows,
    the receiver fails, although every byte is right.  (The server answers the client's
    request without having seen the end of the compressed data, so that the client's next
    packet may arrive together with it.) *)
Theorem C55_overread_refuted : exists K (L : laws K) cs w, dec K w = (framed_all [p5], Done []) /\
  concat cs = framed_all [p2; p3] ++ w ++ framed_all [p2] /\ exists n, receive_packets K 3 (mkconn K None cs) = Received [p2; p3; p5] n /\ do_receive_packet K n = Failed.
Proof.
  exists toy, toy_laws, [framed p2 ++ framed p3 ++ [1; 5; 1; 1; 1; 0; 1; 0; 1; 8]; [0] ++ framed p2]%N, [1; 5; 1; 1; 1; 0; 1; 0; 1; 8; 0]%N.
  split; [reflexivity|]. split; [reflexivity|]. vm_compute. eexists. split; reflexivity.
Qed.
(** The constructor assigns status_ after it has started the compressor thread: if that
    thread fails in between, the error is lost, and a later Write of more than a buffer
    never returns. *)
Theorem C55_lost_error_hang_refuted : exists K (L : laws K) cap tr s, (0 < cap)%nat /\ zrun K cap (z_init K) tr s /\ z_call K s <> Idle /\ ~ exists e s2, zstep K cap s e s2.
Proof.
  exists toy, toy_laws, 2%nat, (((([] ++ [ESilent]) ++ [ESilent]) ++ [ESilent]) ++ [ESilent]), (mkz toy [] [5; 6]%N false false false true false false (Writing w3 [7]%N) false []).
  split; [lia|]. split; [|split; [discriminate|]].
  - econstructor; [econstructor; [econstructor; [econstructor; [constructor|]|]|]|].
    + eapply (Z_thread_fails toy 2 _ true MFlush [] []); cbn; auto. apply lf_comp.
    + apply Z_ctor. reflexivity.
    + apply (Z_write toy 2 _ w3); cbn; auto. discriminate.
    + eapply (Z_copy toy 2 (mkz toy [] [] false false false true false false (Writing w3 w3) false []) w3 w3); cbn; auto.
  - intros (e & s2 & H). inversion H; subst; cbn in *; try discriminate; try lia.
Qed.
