From Verif Require Import Base ListX ModelPump SpecPump.
Local Open Scope N_scope.

Arguments N.add : simpl never.
Arguments N.mul : simpl never.
Arguments N.sub : simpl never.
Arguments N.ltb : simpl never.
Arguments N.leb : simpl never.
Arguments N.eqb : simpl never.

(** ** Framing *)
Lemma land_255 x : N.land x 255 = x mod 256.
Proof. change 255 with (N.ones 8). rewrite N.land_ones. reflexivity. Qed.

Lemma lor_add_shift a b k : a < 2 ^ k -> N.lor a (N.shiftl b k) = a + b * 2 ^ k.
Proof.
  intros H. rewrite <- N.shiftl_mul_pow2. symmetry.
  rewrite N.add_nocarry_lxor; [rewrite N.lxor_lor; [reflexivity|]|].
  - apply N.bits_inj. intros i. rewrite N.land_spec, N.bits_0.
    destruct (N.lt_ge_cases i k).
    + rewrite N.shiftl_spec_low by assumption. apply andb_false_r.
    + destruct (N.eq_dec a 0) as [Ea|Ea]; [subst a; now rewrite N.bits_0|].
      rewrite N.bits_above_log2; [reflexivity|].
      eapply N.lt_le_trans; [apply (proj1 (N.log2_lt_pow2 a k (proj1 (N.neq_0_lt_0 a) Ea))); exact H|assumption].
  - apply N.bits_inj. intros i. rewrite N.land_spec, N.bits_0.
    destruct (N.lt_ge_cases i k).
    + rewrite N.shiftl_spec_low by assumption. apply andb_false_r.
    + destruct (N.eq_dec a 0) as [Ea|Ea]; [subst a; now rewrite N.bits_0|].
      rewrite N.bits_above_log2; [reflexivity|].
      eapply N.lt_le_trans; [apply (proj1 (N.log2_lt_pow2 a k (proj1 (N.neq_0_lt_0 a) Ea))); exact H|assumption].
Qed.

Lemma size_roundtrip n : n <= 2 ^ 24 - 1 ->
  N.lor (N.lor (N.land n 255) (N.shiftl (N.land (N.shiftr n 8) 255) 8))
        (N.shiftl (N.land (N.shiftr n 16) 255) 16) = n.
Proof.
  intros H. change (2 ^ 24 - 1) with 16777215 in H.
  rewrite !land_255, !N.shiftr_div_pow2.
  change (2 ^ 8) with 256. change (2 ^ 16) with 65536.
  pose proof (N.mod_lt n 256 ltac:(lia)). pose proof (N.mod_lt (n / 256) 256 ltac:(lia)).
  pose proof (N.mod_lt (n / 65536) 256 ltac:(lia)).
  rewrite (lor_add_shift _ _ 8) by (change (2 ^ 8) with 256; lia).
  change (2 ^ 8) with 256.
  rewrite (lor_add_shift _ _ 16) by (change (2 ^ 16) with 65536; lia).
  change (2 ^ 16) with 65536.
  pose proof (N.div_mod n 256 ltac:(lia)).
  pose proof (N.div_mod (n / 256) 256 ltac:(lia)).
  assert (E : n / 256 / 256 = n / 65536) by (rewrite N.div_div by lia; reflexivity).
  assert (n / 65536 < 256) by (apply N.div_lt_upper_bound; lia).
  rewrite (N.mod_small (n / 65536)) by assumption. lia.
Qed.

Lemma serialize_ok p : valid_packet p -> exists b, serialize p = Ok b /\ blen b = 4 + blen (snd p).
Proof.
  intros (_ & H). unfold serialize. change (2 ^ 24 - 1) with kMaxPacketSize in H.
  destruct (N.ltb_spec kMaxPacketSize (blen (snd p))); [lia|].
  eexists; split; [reflexivity|]. unfold blen. cbn [length]. lia.
Qed.

Lemma serialize_inv p b : serialize p = Ok b ->
  blen (snd p) <= 2 ^ 24 - 1 /\ blen b = 4 + blen (snd p).
Proof.
  unfold serialize. destruct (N.ltb_spec kMaxPacketSize (blen (snd p))) as [|H]; [discriminate|].
  intros E; inversion E; subst. split; [exact H|]. unfold blen. cbn [length]. lia.
Qed.

Theorem serialize_too_big p : 2 ^ 24 - 1 < blen (snd p) -> serialize p = Fail.
Proof.
  intros H. unfold serialize. change (2 ^ 24 - 1) with kMaxPacketSize in H.
  apply N.ltb_lt in H. rewrite H. reflexivity.
Qed.

Theorem receive_serialized p b rest : fst p < 12 -> serialize p = Ok b ->
  receive_packet (b ++ rest) = Got p rest.
Proof.
  intros Ht H. destruct (serialize_inv p b H) as (Hs & _). unfold serialize in H.
  destruct (kMaxPacketSize <? blen (snd p)) eqn:El; [discriminate|]. inversion H; subst b. clear H.
  cbn [app receive_packet]. rewrite size_roundtrip by assumption.
  unfold kCount. destruct (N.leb_spec 12 (fst p)); [lia|]. rewrite El.
  unfold blen at 1. rewrite app_length.
  destruct (N.ltb_spec (N.of_nat (length (snd p) + length rest)) (blen (snd p))); [unfold blen in *; lia|].
  unfold blen. rewrite Nat2N.id, firstn_app_exact, skipn_app_exact. destruct p; reflexivity.
Qed.

(** A proper prefix of a serialised packet never decodes to a packet. *)
Lemma receive_partial p b n : fst p < 12 -> serialize p = Ok b -> (n < length b)%nat ->
  receive_packet (firstn n b) = NeedMore.
Proof.
  intros Ht H Hn. destruct (serialize_inv p b H) as (Hs & _). unfold serialize in H.
  destruct (kMaxPacketSize <? blen (snd p)) eqn:El; [discriminate|]. inversion H; subst b. clear H.
  destruct n as [|[|[|[|n]]]]; try reflexivity.
  cbn [firstn receive_packet]. rewrite size_roundtrip by assumption.
  unfold kCount. destruct (N.leb_spec 12 (fst p)); [lia|]. rewrite El.
  cbn [length] in Hn. unfold blen at 1. rewrite firstn_length.
  destruct (N.ltb_spec (N.of_nat (Nat.min n (length (snd p)))) (blen (snd p))); [reflexivity|].
  unfold blen in *. lia.
Qed.

Fixpoint ser_all (ps : list packet) : outcome bytes :=
  match ps with
  | [] => Ok []
  | p :: ps => do b <- serialize p; do r <- ser_all ps; Ok (b ++ r)
  end.

Lemma ser_all_length ps : forall w, ser_all ps = Ok w -> (length ps <= length w)%nat.
Proof.
  induction ps as [|p ps IH]; cbn [ser_all]; intros w H.
  - simpl. lia.
  - destruct (serialize p) as [b| | |] eqn:E; try discriminate. cbn [bind] in H.
    destruct (ser_all ps) as [r| | |] eqn:E2; try discriminate. cbn [bind] in H. inversion H; subst.
    apply serialize_inv in E. destruct E as (_ & E). unfold blen in E.
    specialize (IH r eq_refl). rewrite app_length. cbn [length]. lia.
Qed.

Theorem decode_encode ps : Forall valid_packet ps -> exists w, ser_all ps = Ok w /\
  forall fuel, (length w <= fuel)%nat -> decode_all fuel w = Some ps.
Proof.
  induction 1 as [|p ps Hp F IH].
  - exists []. split; [reflexivity|]. intros [|f] _; reflexivity.
  - destruct (serialize_ok p Hp) as (b & Eb & Hb). destruct IH as (w & Ew & Hw).
    exists (b ++ w). cbn [ser_all]. rewrite Eb, Ew. split; [reflexivity|].
    intros fuel Hf. rewrite app_length in Hf.
    assert (Hne : (4 <= length b)%nat) by (unfold blen in Hb; lia).
    destruct fuel as [|f]; [lia|].
    cbn [decode_all]. destruct (b ++ w) as [|x y] eqn:E; [destruct b; simpl in *; [lia|discriminate]|].
    rewrite <- E. rewrite (receive_serialized p) by (try assumption; apply Hp).
    rewrite Hw by lia. reflexivity.
Qed.

Theorem invalid_type_rejected t h1 h2 h3 rest : 12 <= t ->
  receive_packet (t :: h1 :: h2 :: h3 :: rest) = Invalid.
Proof. intros H. cbn [receive_packet]. unfold kCount. apply N.leb_le in H. rewrite H. reflexivity. Qed.

(** ** Invariant of all executions *)
Definition ser (p : packet) : bytes := match serialize p with Ok b => b | _ => [] end.

Definition inflight (pc : sender_pc) : list bytes :=
  match pc with SPopped b => [b] | _ => [] end.
Definition inflight_size (pc : sender_pc) : N :=
  match pc with SPopped b => blen b | SSent n => n | _ => 0 end.
Definition got (pc : receiver_pc) : list packet :=
  match pc with RGot p => [p] | _ => [] end.

Definition pkt_ok (p : packet) : Prop := fst p < 12 /\ exists b, serialize p = Ok b.

Record inv (st : pump) : Prop := {
  i_ok : Forall pkt_ok (s_accepted (p_snd st));
  (* queued packets are a suffix of the accepted ones *)
  i_queue : exists done_ pend, s_accepted (p_snd st) = done_ ++ pend /\
      (s_send_error (p_snd st) = false ->
        map ser pend = inflight (s_pc (p_snd st)) ++ s_queue (p_snd st)) /\
      prefix (s_written (p_snd st)) done_ /\
      (s_recv_error (p_snd st) = false -> s_send_error (p_snd st) = false -> s_written (p_snd st) = done_);
  (* byte counter *)
  i_size : s_send_error (p_snd st) = false ->
      s_size (p_snd st) = total_bytes (s_queue (p_snd st)) + inflight_size (s_pc (p_snd st));
  i_bound : s_size (p_snd st) < kInOutBufferSize + 4 + 2 ^ 24;
  i_serr : s_send_error (p_snd st) = true -> s_pc (p_snd st) = SStopped;
  i_stop : s_pc (p_snd st) = SStopped -> s_send_error (p_snd st) = true;
  i_sent : forall n, s_pc (p_snd st) = SSent n -> n <= s_size (p_snd st);
  (* bytes on the wire *)
  i_wire : exists ws partial, p_wire st = concat (map ser ws) ++ partial /\
      s_written (p_snd st) = r_returned (p_rcv st) ++ r_queue (p_rcv st) ++ got (r_pc (p_rcv st)) ++ ws /\
      (partial = [] \/ exists p n, pkt_ok p /\ partial = firstn n (ser p) /\ (n < length (ser p))%nat /\
          s_send_error (p_snd st) = true);
  i_rsize : r_size (p_rcv st) = total_packets (r_queue (p_rcv st));
  i_rbound : r_size (p_rcv st) < kInOutBufferSize + 4 + 2 ^ 24;
  i_ready : (r_pc (p_rcv st) = RReady \/ exists p, r_pc (p_rcv st) = RGot p) ->
      r_size (p_rcv st) < kInOutBufferSize;
  i_rerr : r_recv_error (p_rcv st) = true <-> r_pc (p_rcv st) = RStopped
}.

Lemma inv_init : inv pump_init.
Proof.
  constructor; cbn.
  - constructor.
  - exists [], []. repeat split; auto. exists []. reflexivity.
  - reflexivity.
  - reflexivity.
  - discriminate.
  - discriminate.
  - discriminate.
  - exists [], []. repeat split; auto.
  - reflexivity.
  - reflexivity.
  - reflexivity.
  - split; discriminate.
Qed.

Lemma total_bytes_app a b : total_bytes (a ++ b) = total_bytes a + total_bytes b.
Proof. induction a as [|x a IH]; cbn [app total_bytes]; lia. Qed.
Lemma total_packets_app a b : total_packets (a ++ b) = total_packets a + total_packets b.
Proof. induction a as [|x a IH]; cbn [app total_packets]; lia. Qed.

Lemma pkt_ok_ser p : pkt_ok p -> serialize p = Ok (ser p).
Proof. intros (_ & b & E). unfold ser. rewrite E. reflexivity. Qed.

Lemma pkt_ok_bound p : pkt_ok p -> blen (snd p) <= 2 ^ 24 - 1 /\ blen (ser p) = 4 + blen (snd p).
Proof. intros H. apply serialize_inv. now apply pkt_ok_ser. Qed.

Lemma blen_app a b : blen (a ++ b) = blen a + blen b.
Proof. unfold blen. rewrite app_length. lia. Qed.

Lemma prefix_refl {A} (l : list A) : prefix l l.
Proof. exists []. now rewrite app_nil_r. Qed.

Lemma prefix_trans_app {A} (l m t : list A) : prefix l m -> prefix l (m ++ t).
Proof. intros (x & ->). exists (x ++ t). now rewrite app_assoc. Qed.

Lemma Forall_pkt ws : Forall pkt_ok ws -> concat (map ser ws) = [] -> ws = [].
Proof.
  intros F E. destruct ws as [|p ws]; [reflexivity|].
  inversion F; subst. cbn [map concat] in E. apply app_eq_nil in E. destruct E as (E & _).
  destruct (pkt_ok_bound p ltac:(assumption)) as (_ & Hb). rewrite E in Hb. unfold blen in Hb. simpl length in Hb. lia.
Qed.

Lemma inv_step st l : typed_label l -> inv st -> inv (fst (pump_step st l)).
Proof.
  intros Ht I. unfold pump_step. destruct st as [s w r].
  destruct s as [q sz pc se re acc wr], r as [rq rsz rpc rre rse ret].
  pose proof (i_ok _ I) as Iok. pose proof (i_queue _ I) as Iq. pose proof (i_size _ I) as Isz.
  pose proof (i_bound _ I) as Ib. pose proof (i_serr _ I) as Ise. pose proof (i_stop _ I) as Ist.
  pose proof (i_sent _ I) as Isn. pose proof (i_wire _ I) as Iw. pose proof (i_rsize _ I) as Irs.
  pose proof (i_rbound _ I) as Irb. pose proof (i_ready _ I) as Ird. pose proof (i_rerr _ I) as Irr.
  cbn [p_snd p_wire p_rcv s_queue s_size s_pc s_send_error s_recv_error s_accepted s_written
       r_queue r_size r_pc r_recv_error r_send_error r_returned] in *.
  destruct l as [p| | | |n| | | | | | | |]; cbn [is_sender_label step_snd step_rcv p_snd p_wire p_rcv s_queue s_size s_pc
      s_send_error s_recv_error s_accepted s_written
      r_queue r_size r_pc r_recv_error r_send_error r_returned].
  - (* LQueue *)
    destruct (serialize p) as [b| | |] eqn:Es; try exact I.
    destruct ((sz <? kInOutBufferSize) || se || re) eqn:Ec; [|exact I].
    destruct (se || re) eqn:Eer; [exact I|]. apply orb_false_iff in Eer. destruct Eer; subst se re.
    rewrite !orb_false_r in Ec. apply N.ltb_lt in Ec.
    assert (Hp : pkt_ok p) by (split; [exact Ht|eauto]).
    pose proof (pkt_ok_ser p Hp) as Eser. rewrite Es in Eser. injection Eser as Eb.
    pose proof (pkt_ok_bound p Hp) as (Hb1 & Hb2). rewrite <- Eb in Hb2.
    cbn [fst]. constructor; cbn.
    + apply Forall_app. split; [assumption|]. now constructor.
    + destruct Iq as (d & pe & Ea & Em & Epr & Ew). exists d, (pe ++ [p]).
      split; [now rewrite Ea, app_assoc|]. split; [|now auto].
      intros _. rewrite map_app, (Em eq_refl). cbn [map]. now rewrite <- Eb, app_assoc.
    + intros _. rewrite total_bytes_app, Isz by reflexivity. cbn [total_bytes]. lia.
    + change (2 ^ 24 - 1) with 16777215 in Hb1. change (2 ^ 24) with 16777216 in *. lia.
    + discriminate.
    + exact Ist.
    + intros n En. specialize (Isn n En). lia.
    + exact Iw.
    + exact Irs.
    + exact Irb.
    + exact Ird.
    + exact Irr.
  - (* LFlush *) destruct ((sz =? 0) || se || re); exact I.
  - (* LPop *)
    destruct pc; try exact I. destruct q as [|b q]; [exact I|]. cbn [fst].
    constructor; cbn; auto.
    + intros H. specialize (Isz H). cbn [total_bytes inflight_size] in Isz. lia.
    + intros H. specialize (Ise H). discriminate.
    + discriminate.
    + discriminate.
  - (* LSend *)
    destruct pc as [|b| |]; try exact I.
    destruct se; [specialize (Ise eq_refl); discriminate|].
    destruct Iq as (d & pe & Ea & Em & Epr & Ew). specialize (Em eq_refl). cbn [inflight app] in Em.
    destruct pe as [|p pe]; [discriminate|]. cbn [map] in Em. injection Em as Eb Em.
    assert (Hp : pkt_ok p). { rewrite Ea in Iok. apply Forall_app in Iok. destruct Iok as (_ & Iok). now inversion Iok. }
    specialize (Isz eq_refl). cbn [inflight_size] in Isz.
    destruct re.
    + cbn [fst]. constructor; cbn; auto.
      * exists (d ++ [p]), pe. rewrite <- app_assoc. repeat split; auto.
        -- now apply prefix_trans_app.
        -- discriminate.
      * discriminate.
      * discriminate.
      * intros n En. injection En as <-. lia.
    + specialize (Ew eq_refl eq_refl). subst wr.
      assert (Ef : firstn (S (length d)) acc = d ++ [p]).
      { rewrite Ea. change (d ++ p :: pe) with (d ++ [p] ++ pe). rewrite app_assoc.
        replace (S (length d)) with (length (d ++ [p])) by (rewrite app_length; simpl; lia).
        apply firstn_app_exact. }
      cbn [fst]. rewrite Ef. constructor; cbn; auto.
      * exists (d ++ [p]), pe. rewrite <- app_assoc. repeat split; auto. apply prefix_refl.
      * discriminate.
      * discriminate.
      * intros n En. injection En as <-. lia.
      * destruct Iw as (ws & pa & E1 & E2 & E3). destruct E3 as [->|(? & ? & ? & ? & ? & X)]; [|discriminate].
        exists (ws ++ [p]), []. rewrite E1, E2, app_nil_r, map_app, concat_app. cbn [map concat]. rewrite !app_nil_r, Eb, <- !app_assoc. auto.
  - (* LSendFail *)
    destruct pc as [|b| |]; try exact I. destruct re; [exact I|].
    destruct (n <? length b)%nat eqn:En; [|exact I]. apply Nat.ltb_lt in En.
    destruct se; [specialize (Ise eq_refl); discriminate|].
    destruct Iq as (d & pe & Ea & Em & Epr & Ew). specialize (Em eq_refl). cbn [inflight app] in Em.
    destruct pe as [|p pe]; [discriminate|]. cbn [map] in Em. injection Em as Eb Em.
    assert (Hp : pkt_ok p). { rewrite Ea in Iok. apply Forall_app in Iok. destruct Iok as (_ & Iok). now inversion Iok. }
    cbn [fst]. constructor; cbn; auto.
    + exists d, (p :: pe). repeat split; auto; discriminate.
    + discriminate.
    + discriminate.
    + destruct Iw as (ws & pa & E1 & E2 & E3). destruct E3 as [->|(? & ? & ? & ? & ? & X)]; [|discriminate].
      exists ws, (firstn n b). rewrite E1, app_nil_r. repeat split; auto.
      right. exists p, n. subst b. auto.
  - (* LDec *)
    destruct pc as [| |n|]; try exact I.
    destruct se; [specialize (Ise eq_refl); discriminate|].
    cbn [fst]. constructor; cbn; auto.
    + intros _. specialize (Isz eq_refl). cbn [inflight_size] in Isz. lia.
    + lia.
    + discriminate.
    + discriminate.
    + discriminate.
  - (* LPeerRecvError *)
    cbn [fst]. constructor; cbn; auto.
    destruct Iq as (d & pe & Ea & Em & Epr & Ew). exists d, pe. repeat split; auto. discriminate.
  - (* LWait *)
    destruct rpc; try exact I. destruct (N.ltb_spec rsz kInOutBufferSize); [|exact I].
    cbn [fst]. constructor; cbn; auto. split; intros X; [apply Irr in X; discriminate|discriminate].
  - (* LRecv *)
    destruct rpc; try exact I.
    assert (Hf : rre = false) by (destruct rre; [discriminate (proj1 Irr eq_refl)|reflexivity]).
    destruct (receive_packet w) as [| |p w'] eqn:Er; [exact I| |].
    + cbn [fst]. constructor; cbn; auto. split; auto.
    + destruct Iw as (ws & pa & E1 & E2 & E3). cbn [got app] in E2.
      assert (Fws : Forall pkt_ok ws).
      { destruct Iq as (d & pe & Ea & _ & (t & Ed) & _). rewrite Ea, Ed, E2 in Iok.
        repeat (apply Forall_app in Iok; destruct Iok as (Iok & ?)).
        repeat match goal with H : Forall pkt_ok (_ ++ _) |- _ => apply Forall_app in H; destruct H end. assumption. }
      destruct ws as [|p0 ws].
      * exfalso. cbn in E1. subst w. destruct E3 as [->|(p1 & n & Hp1 & -> & Hn & _)]; [discriminate|].
        rewrite (receive_partial p1) in Er; [discriminate|apply Hp1|now apply pkt_ok_ser|assumption].
      * inversion Fws; subst. cbn [map concat] in Er. rewrite <- app_assoc in Er.
        rewrite (receive_serialized p0) in Er; [|apply H1|now apply pkt_ok_ser].
        injection Er as <- <-. cbn [fst]. constructor; cbn; auto.
        -- exists ws, pa. repeat split; auto.
        -- split; discriminate.
  - (* LRecvFail *)
    destruct rpc; try exact I. cbn [fst]. constructor; cbn; auto. split; auto.
  - (* LPush *)
    destruct rpc as [| |p|]; try exact I.
    assert (Hp : pkt_ok p).
    { destruct Iw as (ws & pa & E1 & E2 & E3). cbn [got] in E2.
      destruct Iq as (d & pe & Ea & _ & (t & Ed) & _). rewrite Ea, Ed, E2 in Iok.
      repeat match goal with H : Forall pkt_ok (_ ++ _) |- _ => apply Forall_app in H; destruct H end.
      now inversion H3. }
    pose proof (pkt_ok_bound p Hp) as (Hb1 & _).
    assert (Hlt : rsz < kInOutBufferSize) by (apply Ird; eauto).
    cbn [fst]. constructor; cbn; auto.
    + destruct Iw as (ws & pa & E1 & E2 & E3). cbn [got] in E2.
      exists ws, pa. rewrite <- app_assoc. auto.
    + rewrite total_packets_app. cbn [total_packets]. unfold pkt_size, kHeaderSize. lia.
    + unfold pkt_size, kHeaderSize. change (2 ^ 24 - 1) with 16777215 in Hb1. change (2 ^ 24) with 16777216. lia.
    + intros [X|(? & X)]; discriminate.
    + split; intros X; [apply Irr in X; discriminate|discriminate].
  - (* LPeerSendError *)
    cbn [fst]. constructor; cbn; auto.
  - (* LDequeue *)
    destruct rq as [|p rq]; [destruct (rse || rre); exact I|].
    destruct rse; [exact I|]. cbn [total_packets] in Irs. unfold pkt_size, kHeaderSize.
    cbn [fst]. constructor; cbn; auto.
    + destruct Iw as (ws & pa & E1 & E2 & E3). exists ws, pa. rewrite <- app_assoc. auto.
    + lia.
    + lia.
    + intros X. specialize (Ird X). lia.
Qed.

Lemma inv_run ls : forall st, Forall typed_label ls -> inv st -> inv (fst (pump_run st ls)).
Proof.
  induction ls as [|l ls IH]; intros st F I; cbn [pump_run]; [exact I|].
  inversion F; subst. pose proof (inv_step st l H1 I) as I1.
  destruct (pump_step st l) as [st1 e]. specialize (IH st1 H2 I1).
  destruct (pump_run st1 ls) as [st2 es]. exact IH.
Qed.

(** ** The histories are the observable events *)
Lemma step_history st l :
  let '(st', e) := pump_step st l in
  s_accepted (p_snd st') = s_accepted (p_snd st) ++ sent_ok [l] [e] /\
  r_returned (p_rcv st') = r_returned (p_rcv st) ++ received_ok [e].
Proof.
  unfold pump_step. destruct st as [s w r].
  destruct l; cbn [is_sender_label step_snd step_rcv p_snd p_wire p_rcv];
    repeat match goal with
    | |- context [match ?x with _ => _ end] =>
        match x with
        | serialize _ => destruct x
        | s_pc _ => destruct x
        | s_queue _ => destruct x
        | r_pc _ => destruct x
        | r_queue _ => destruct x
        | receive_packet _ => destruct x
        | (_ || _)%bool => destruct x
        | s_recv_error _ => destruct x
        | r_send_error _ => destruct x
        | (_ <? _)%nat => destruct x
        | (_ <? _) => destruct x
        end
    end; cbn; rewrite ?app_nil_r; auto.
Qed.

Lemma run_history ls : forall st,
  let '(st', es) := pump_run st ls in
  s_accepted (p_snd st') = s_accepted (p_snd st) ++ sent_ok ls es /\
  r_returned (p_rcv st') = r_returned (p_rcv st) ++ received_ok es.
Proof.
  induction ls as [|l ls IH]; intros st; cbn [pump_run].
  - cbn. rewrite !app_nil_r. auto.
  - pose proof (step_history st l) as H. destruct (pump_step st l) as [st1 e].
    specialize (IH st1). destruct (pump_run st1 ls) as [st2 es].
    destruct H as (H1 & H2), IH as (I1 & I2). rewrite I1, I2, H1, H2, <- !app_assoc. split.
    + f_equal. destruct l, e; reflexivity.
    + f_equal. destruct e; reflexivity.
Qed.

Lemma decode_wire ws : Forall pkt_ok ws -> forall fuel, (length (concat (map ser ws)) <= fuel)%nat ->
  decode_all fuel (concat (map ser ws)) = Some ws.
Proof.
  intros F. assert (F' : Forall valid_packet ws).
  { eapply Forall_impl; [|exact F]. intros p Hp. split; [apply Hp|]. now apply pkt_ok_bound. }
  destruct (decode_encode ws F') as (w & E & H).
  assert (Ew : w = concat (map ser ws)).
  { clear H F'. revert w E. induction F as [|p ps Hp F IH]; cbn [ser_all map concat]; intros w E.
    - now inversion E.
    - rewrite (pkt_ok_ser p Hp) in E. cbn [bind] in E. destruct (ser_all ps); try discriminate.
      cbn [bind] in E. inversion E; subst. f_equal. now apply IH. }
  subst w. exact H.
Qed.

Lemma Forall_wire st : inv st -> forall ws, s_written (p_snd st) =
    r_returned (p_rcv st) ++ r_queue (p_rcv st) ++ got (r_pc (p_rcv st)) ++ ws -> Forall pkt_ok ws.
Proof.
  intros I ws E. destruct (i_queue _ I) as (d & pe & Ea & _ & (t & Ed) & _).
  pose proof (i_ok _ I) as H. rewrite Ea, Ed, E in H.
  repeat match goal with H : Forall pkt_ok (_ ++ _) |- _ => apply Forall_app in H; destruct H end. assumption.
Qed.

Definition no_errors (st : pump) : Prop :=
  s_send_error (p_snd st) = false /\ s_recv_error (p_snd st) = false /\
  r_send_error (p_rcv st) = false /\ r_recv_error (p_rcv st) = false.

Definition progress_label (l : label) : Prop :=
  In l [LPop; LSend; LDec; LWait; LRecv; LPush; LDequeue].

Definition measure (st : pump) : nat :=
  8 * length (s_queue (p_snd st))
  + (match s_pc (p_snd st) with SPopped _ => 7 | SSent _ => 1 | _ => 0 end)
  + 4 * (length (s_written (p_snd st)) - length (r_returned (p_rcv st))
         - length (r_queue (p_rcv st)) - length (got (r_pc (p_rcv st))))
  + (match r_pc (p_rcv st) with RGot _ => 3 | RWait => 1 | _ => 0 end)
  + length (r_queue (p_rcv st)).

Lemma progress_step st l : inv st -> no_errors st -> progress_label l ->
  let '(st', e) := pump_step st l in
  no_errors st' /\ s_accepted (p_snd st') = s_accepted (p_snd st) /\
  (e = Blocked /\ st' = st \/ e <> Blocked /\ (measure st' < measure st)%nat).
Proof.
  intros I (E1 & E2 & E3 & E4) Hl.
  pose proof (i_wire _ I) as Iw. pose proof (i_queue _ I) as Iq. pose proof (Forall_wire _ I) as Fw.
  destruct st as [[q sz pc se re acc wr] w [rq rsz rpc rre rse ret]].
  cbn [p_snd p_wire p_rcv s_queue s_size s_pc s_send_error s_recv_error s_accepted s_written
       r_queue r_size r_pc r_recv_error r_send_error r_returned] in *. subst se re rse rre.
  destruct Iw as (ws & pa & W1 & W2 & W3). specialize (Fw ws W2).
  assert (pa = []) by (destruct W3 as [->|(? & ? & ? & ? & ? & X)]; [reflexivity|discriminate]). subst pa. clear W3.
  rewrite app_nil_r in W1.
  assert (Lw : length wr = (length ret + length rq + length (got rpc) + length ws)%nat) by (subst wr; rewrite !app_length; lia).
  unfold no_errors, measure.
  repeat (destruct Hl as [<-|Hl]); [..|destruct Hl];
    unfold pump_step; cbn [is_sender_label step_snd step_rcv p_snd p_wire p_rcv s_queue s_size s_pc s_send_error s_recv_error s_accepted s_written
       r_queue r_size r_pc r_recv_error r_send_error r_returned].
  - destruct pc; try (cbn; repeat split; auto; fail). destruct q as [|b q]; cbn; repeat split; auto.
    right. split; [discriminate|]. lia.
  - destruct pc as [|b| |]; try (cbn; repeat split; auto; fail).
    destruct Iq as (d & pe & Ea & Em & Epr & Ew). specialize (Em eq_refl). specialize (Ew eq_refl eq_refl).
    cbn [inflight app] in Em. destruct pe as [|p pe]; [discriminate|].
    cbn; repeat split; auto. right. split; [discriminate|]. change (match acc with [] => [] | a :: l => a :: firstn (length wr) l end) with (firstn (S (length wr)) acc).
    rewrite firstn_length_le; [lia|]. rewrite Ea, app_length, <- Ew. simpl length. lia.
  - destruct pc; try (cbn; repeat split; auto; fail). cbn; repeat split; auto. right. split; [discriminate|]. lia.
  - destruct rpc; try (cbn; repeat split; auto; fail). destruct (rsz <? kInOutBufferSize); cbn; repeat split; auto.
    right. split; [discriminate|]. lia.
  - destruct rpc; try (cbn; repeat split; auto; fail).
    destruct ws as [|p ws].
    + cbn in W1. subst w. cbn. repeat split; auto.
    + inversion Fw; subst. cbn [map concat].
      rewrite (receive_serialized p); [|apply H1|now apply pkt_ok_ser].
      cbn [got] in *. cbn [length] in *. rewrite Lw. cbn. repeat split; auto.
      right. split; [discriminate|]. rewrite ?app_length in *; cbn [length] in *. lia.
  - destruct rpc as [| |p|]; try (cbn; repeat split; auto; fail).
    cbn [got] in *. cbn [length] in *. cbn. repeat split; auto. right. split; [discriminate|].
    rewrite app_length; cbn [length]. lia.
  - destruct rq as [|p rq]; cbn [orb] in *; [cbn; repeat split; auto|].
    cbn [got length] in *. cbn. repeat split; auto. right. split; [discriminate|]. rewrite app_length. cbn [length]. lia.
Qed.

Lemma progress_quiescent st : inv st -> no_errors st ->
  (forall l, progress_label l -> snd (pump_step st l) = Blocked) ->
  r_returned (p_rcv st) = s_accepted (p_snd st).
Proof.
  intros I (E1 & E2 & E3 & E4) HB.
  pose proof (HB LPop ltac:(cbv; tauto)) as B1. pose proof (HB LSend ltac:(cbv; tauto)) as B2.
  pose proof (HB LDec ltac:(cbv; tauto)) as B3. pose proof (HB LWait ltac:(cbv; tauto)) as B4.
  pose proof (HB LRecv ltac:(cbv; tauto)) as B5. pose proof (HB LPush ltac:(cbv; tauto)) as B6.
  pose proof (HB LDequeue ltac:(cbv; tauto)) as B7. clear HB.
  pose proof (i_wire _ I) as Iw. pose proof (i_queue _ I) as Iq. pose proof (Forall_wire _ I) as Fw.
  pose proof (i_stop _ I) as Ist. pose proof (i_rerr _ I) as Irr. pose proof (i_rsize _ I) as Irs.
  destruct st as [[q sz pc se re acc wr] w [rq rsz rpc rre rse ret]].
  unfold pump_step in *. cbn [is_sender_label step_snd step_rcv p_snd p_wire p_rcv s_queue s_size s_pc s_send_error s_recv_error s_accepted s_written
       r_queue r_size r_pc r_recv_error r_send_error r_returned] in *. subst se re rse rre.
  destruct pc; try discriminate; [|discriminate (Ist eq_refl)].
  destruct q as [|b q]; [|discriminate].
  destruct rq as [|p rq]; [|discriminate]. cbn in Irs. subst rsz.
  destruct rpc; [discriminate| |discriminate|discriminate (proj2 Irr eq_refl)].
  destruct Iq as (d & pe & Ea & Em & Epr & Ew). specialize (Em eq_refl). specialize (Ew eq_refl eq_refl).
  cbn in Em. destruct pe; [|discriminate].
  destruct Iw as (ws & pa & W1 & W2 & W3). specialize (Fw ws W2).
  assert (pa = []) by (destruct W3 as [->|(? & ? & ? & ? & ? & X)]; [reflexivity|discriminate]). subst pa.
  rewrite app_nil_r in W1. destruct ws as [|p ws].
  - cbn in W2. rewrite app_nil_r in *. congruence.
  - inversion Fw; subst. cbn [map concat] in B5.
    rewrite (receive_serialized p) in B5; [discriminate|apply H1|now apply pkt_ok_ser].
Qed.

Lemma ser_all_concat ws : Forall pkt_ok ws -> ser_all ws = Ok (concat (map ser ws)).
Proof.
  induction 1 as [|p ps Hp F IH]; [reflexivity|]. cbn [ser_all map concat].
  rewrite (pkt_ok_ser p Hp), IH. reflexivity.
Qed.
