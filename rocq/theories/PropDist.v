(** C57: distribution of manifests (cdc_stream/grpc_asset_stream_server.cc
    ConfigStreamServiceImpl, cdc_fuse_fs/config_stream_client.cc, and SetManifest's
    acknowledgement). *)
From Verif Require Import Base ListX SpecDist ModelDist ProofDist.
From Coq Require Import Lia.
Local Notation str := (list N).

(** A client receives manifests in the order in which they were set, starting with the one
    current when it connects; none is made up or sent twice in a row, nor the empty id
    first. *)
Theorem C57_received : forall tr s c i, run init tr s -> In (EConnect c i) tr ->
  exists tr1 tr2, tr = tr1 ++ EConnect c i :: tr2 /\ subseq (received c tr) (current tr1 :: sets tr2) /\ no_repeat 0 (received c tr) /\ subseq (applied c tr) (received c tr).
Proof.
  intros tr s c i R H. pose proof (inv_run _ _ R) as V. destruct (connected _ _ _ _ V H) as (k & E & I & Ci). destruct (ci_seq _ _ _ _ Ci) as (tr1 & tr2 & Et & S). exists tr1, tr2. rewrite I in Et.
  split; [exact Et|]. split; [exact (subseq_l _ _ _ S)|]. split; [exact (no_repeat_app _ _ _ (ci_rep _ _ _ _ Ci))|exact (subseq_l _ _ _ (ci_app _ _ _ _ Ci))].
Qed.
(** When nothing more happens for a connected client, it has received the current manifest,
    and if it had no failure it serves it. *)
Theorem C57_converges : forall tr s c i, run init tr s -> In (EConnect c i) tr -> ~ In (EDisconnect c) tr -> ~ In EShutdown tr ->
  (forall e s2, step s e s2 -> moves c e = false) ->
  last (received c tr) 0%N = current tr /\ ((forall e, In e tr -> failure c e = false) -> serves c tr = current tr).
Proof.
  intros tr s c i R H Nd Ns Q. pose proof (inv_run _ _ R) as V. destruct (connected _ _ _ _ V H) as (k & E & I & Ci). destruct (quiet_state _ _ _ _ V E Q Nd Ns) as (Kc & Kn & Kh & Kl).
  assert (La : last (received c tr) 0%N = current tr). { pose proof (ci_last _ _ _ _ Ci) as L. unfold written in L. rewrite Kh, Kn in L. cbn [app] in L. rewrite app_nil_r in L. rewrite L by discriminate. rewrite Kl. apply V. }
  split; [exact La|]. intros Nf. apply not_failed in Nf. pose proof (ci_all _ _ _ _ Ci Nf) as Al. unfold setting in Al. rewrite Kc, app_nil_r in Al. unfold serves. now rewrite Al.
Qed.
(** ... and that point is reached: while no new manifest is set, only boundedly many steps
    are left for the client. *)
Theorem C57_converges_bounded : forall tr s c i, run init tr s -> In (EConnect c i) tr ->
  exists n, forall tr2 s2, run s tr2 s2 -> sets tr2 = [] -> (count (moves c) tr2 <= n)%nat.
Proof.
  intros tr s c i R H. pose proof (inv_run _ _ R) as V. exists (mu c s). intros tr2 s2 R2 N2.
  destruct (mu_run c s tr2 s2 R2 (v_owner _ _ V _ _ H eq_refl) N2) as (_ & M). lia.
Qed.
(** WaitForManifestAck returns OK only if the last acknowledgement of the instance is for
    the current manifest; every acknowledgement was sent by a client of the instance that
    had switched to that manifest. *)
Theorem C57_wait_ok : forall tr s i s2, run init tr s -> step s (EWaitOk i) s2 ->
  acks i tr <> [] /\ last (acks i tr) 0%N = current tr /\ forall x, In x (acks i tr) -> exists c, In (EConnect c i) tr /\ In (EApply c x) tr.
Proof.
  intros tr s i s2 R S. pose proof (inv_run _ _ R) as V. inversion S; subst. match goal with A : acked i _ = _ |- _ => rewrite (v_acked _ _ V) in A; rename A into A0 end. rewrite (v_id _ _ V) in A0.
  split; [intros X; rewrite X in A0; discriminate|]. split; [destruct (acks i tr) eqn:X; [discriminate|]; congruence|].
  intros x HI. unfold acks in HI. apply in_flat_map in HI. destruct HI as (e & He & Hx). destruct e; try destruct Hx. destruct (list_eq_dec N.eq_dec i0 i) as [->|]; [|destruct Hx]. destruct Hx as [<-|[]].
  destruct (v_acks _ _ V _ _ _ He) as (A & B). exists c. split; assumption.
Qed.
(** If no manifest is set twice and the instance has had one client only, that client then
    serves the current manifest. *)
Theorem C57_wait_ok_serves : forall tr s i s2 c, run init tr s -> step s (EWaitOk i) s2 -> NoDup (0%N :: sets tr) ->
  (forall c2, In (EConnect c2 i) tr <-> c2 = c) -> serves c tr = current tr.
Proof.
  intros tr s i s2 c R S Nd One. destruct (C57_wait_ok tr s i s2 R S) as (Ne & La & Al).
  assert (HI : In (current tr) (acks i tr)). { rewrite <- La. destruct (acks i tr) as [|y l]; [contradiction|]. destruct (snoc_inv (y :: l)) as [X|(l2 & x & X)]; [discriminate|]. rewrite X, last_snoc. apply in_app_iff. right. now left. }
  destruct (Al _ HI) as (c2 & Hc & Ha). apply One in Hc as Ec. subst c2. destruct (C57_received tr s c i R Hc) as (tr1 & tr2 & Et & Sr & _ & Sa).
  assert (Hin : In (current tr) (applied c tr)). { unfold applied. apply in_flat_map. exists (EApply c (current tr)). split; [exact Ha|]. rewrite Nat.eqb_refl. now left. }
  pose proof (subseq_trans _ _ _ Sa Sr) as Ss. unfold serves.
  assert (Es : sets tr = sets tr1 ++ sets tr2) by (rewrite Et, sets_app; reflexivity).
  assert (Cu : current tr = last (current tr1 :: sets tr2) 0%N). { unfold current at 1. rewrite Es, last_app_default. fold (current tr1). destruct (sets tr2) as [|y l] eqn:X; [reflexivity|]. change (last (current tr1 :: y :: l) 0%N) with (last (y :: l) 0%N). apply last_default. discriminate. }
  destruct (snoc_inv (current tr1 :: sets tr2)) as [X|(l & x & X)]; [discriminate|]. rewrite X in Ss, Cu. rewrite last_snoc in Cu. rewrite Cu in *. apply (subseq_last_unique _ l); [exact Ss| |exact Hin].
  assert (Ndl : NoDup (current tr1 :: sets tr2)).
  { rewrite Es in Nd. unfold current. destruct (snoc_inv (sets tr1)) as [Y|(l1 & z & Y)]; rewrite Y in *.
    - cbn in *. exact Nd.
    - rewrite last_snoc. inversion Nd as [|? ? _ Nd2]; subst. rewrite <- app_assoc in Nd2. cbn in Nd2. clear - Nd2. induction l1 as [|q l1 IH]; [exact Nd2|]. inversion Nd2; subst. auto. }
  rewrite X in Ndl. apply NoDup_remove_2 in Ndl. rewrite app_nil_r in Ndl. exact Ndl.
Qed.
(** If the instance's only client had no failure, then once nothing more happens for it
    WaitForManifestAck returns OK. *)
Theorem C57_wait_returns : forall tr s c i, run init tr s -> (forall c2, In (EConnect c2 i) tr <-> c2 = c) -> ~ In EShutdown tr -> (forall e, In e tr -> failure c e = false) ->
  current tr <> 0%N -> (forall e s2, step s e s2 -> moves c e = false) -> exists s2, step s (EWaitOk i) s2.
Proof.
  intros tr s c i R One Ns Nf Nz Q. pose proof (inv_run _ _ R) as V. assert (Hc : In (EConnect c i) tr) by now apply One. destruct (connected _ _ _ _ V Hc) as (k & E & I & Ci).
  assert (Nd : ~ In (EDisconnect c) tr) by (intros X; pose proof (Nf _ X) as Y; cbn in Y; rewrite Nat.eqb_refl in Y; discriminate).
  destruct (quiet_state _ _ _ _ V E Q Nd Ns) as (Kc & _). destruct (C57_converges tr s c i R Hc Nd Ns Q) as (_ & Sv). specialize (Sv Nf). pose proof (proj2 (not_failed c tr) Nf) as Fl.
  pose proof (ci_acks _ _ _ _ Ci Fl) as Ak. unfold acking in Ak. rewrite Kc, app_nil_r in Ak.
  assert (Ea : acks i tr = applied c tr). { rewrite <- Ak. apply acks_acks_by. intros c2 i2 x HI. destruct (v_acks _ _ V _ _ _ HI) as (A & _). split; [intros ->; now apply One|]. intros ->. exact (owner_one _ _ _ _ _ V A Hc). }
  exists s. constructor. rewrite (v_acked _ _ V), Ea, (v_id _ _ V). unfold serves in Sv. destruct (applied c tr) as [|y l]; [cbn in Sv; congruence|]. now rewrite Sv.
Qed.
(** After Shutdown the server sends every client at most one more manifest and its call
    returns. *)
Theorem C57_shutdown : forall tr s c i, run init tr s -> In (EConnect c i) tr -> In EShutdown tr -> ~ In (EEnd c) tr ->
  (exists e s2, step s e s2 /\ (e = EServer c \/ e = EEnd c)) /\ forall tr2 s2, run s tr2 s2 -> (count (is_server c) tr2 <= 1)%nat.
Proof.
  intros tr s c i R H Hs Ne. pose proof (inv_run _ _ R) as V. destruct (connected _ _ _ _ V H) as (k & E & _ & Ci).
  assert (Rn : s_running s = false) by (destruct (s_running s) eqn:X; [|reflexivity]; exfalso; apply (v_run _ _ V) in X; contradiction). split.
  - destruct (k_handler k) eqn:Kh.
    + do 2 eexists. split; [exact (D_stop s c k E Kh Rn)|auto].
    + do 2 eexists. split; [exact (D_write s c k E Kh)|auto].
    + do 2 eexists. split; [exact (D_check_stop s c k E Kh Rn)|auto].
    + exfalso. apply Ne. now apply (ci_done _ _ _ _ Ci).
  - intros tr2 s2 R2. destruct (sm_run c s tr2 s2 R2 Rn) as (_ & M). unfold sm in M at 2. rewrite E in M. destruct (k_handler k); lia.
Qed.

(** ** Refuted *)
(** The server's call for a client does not end when the client is gone, only at Shutdown:
    every reconnect leaves one more thread behind. *)
Theorem C57_handlers_end_refuted : forall tr s c, run init tr s -> ~ In EShutdown tr -> ~ In (EEnd c) tr.
Proof. intros tr s c R N H. exact (N (v_end _ _ (inv_run _ _ R) _ H)). Qed.

Definition ex_i : str := [103%N].
Ltac go := eapply run_cons; [|].
Definition k1 h l n cl := mkc ex_i h l true n cl.
(** One manifest delivered and acknowledged. *)
Definition ex_deliver (x : N) : list event := [EServer 0; EServer 0; EServer 0; EReceive 0 x; EApply 0 x; EClient 0; EAck 0 ex_i x].
Lemma run_app s t1 s2 t2 s3 : run s t1 s2 -> run s2 t2 s3 -> run s (t1 ++ t2) s3.
Proof. intros A B. induction B as [|s2 tr s4 e s5 R IH St]; [now rewrite app_nil_r|]. rewrite app_assoc. exact (r_snoc _ _ _ _ _ (IH A) St). Qed.
Lemma ex_delivered l x ac : l <> x -> run (mkst x true ac [k1 HWait l [] CRead] []) (ex_deliver x) (mkst x true ((ex_i, x) :: ac) [k1 HWait x [] CRead] []).
Proof.
  intros Ne. unfold ex_deliver.
  go; [exact (D_update (mkst x true ac [k1 HWait l [] CRead] []) 0 (k1 HWait l [] CRead) eq_refl eq_refl eq_refl Ne)|].
  go; [exact (D_write (mkst x true ac [k1 HWrite x [] CRead] []) 0 (k1 HWrite x [] CRead) eq_refl eq_refl)|].
  go; [exact (D_check (mkst x true ac [k1 HCheck x [x] CRead] []) 0 (k1 HCheck x [x] CRead) eq_refl eq_refl eq_refl)|].
  go; [exact (D_read (mkst x true ac [k1 HWait x [x] CRead] []) 0 (k1 HWait x [x] CRead) x [] eq_refl eq_refl eq_refl eq_refl)|].
  go; [exact (D_apply (mkst x true ac [k1 HWait x [] (CSet x)] []) 0 (k1 HWait x [] (CSet x)) x eq_refl eq_refl)|].
  go; [exact (D_send (mkst x true ac [k1 HWait x [] (CAck x)] []) 0 (k1 HWait x [] (CAck x)) x eq_refl eq_refl)|].
  go; [exact (D_ack (mkst x true ac [k1 HWait x [] (CAckWait x)] [(0%nat, true, ex_i, x)]) 0 (k1 HWait x [] (CAckWait x)) ex_i x [] [] eq_refl eq_refl)|]. apply r_nil.
Qed.
Definition ex_start : list event := [EConnect 0 ex_i; ESet 5].
Lemma ex_started : run init ex_start (mkst 5 true [] [k1 HWait 0 [] CRead] []).
Proof. go; [exact (D_connect init ex_i)|]. go; [exact (D_set (mkst 0 true [] [k1 HWait 0 [] CRead] []) 5)|]. apply r_nil. Qed.

(** After a session has been restarted, WaitForManifestAck can return OK although the new
    client has not even received a manifest: the old client's acknowledgement counts. *)
Theorem C57_stale_ack_refuted : exists tr s s2 i, run init tr s /\ In (EConnect 1 i) tr /\ received 1 tr = [] /\ step s (EWaitOk i) s2 /\ current tr = 5%N.
Proof.
  exists (ex_start ++ ex_deliver 5 ++ [EDisconnect 0; EConnect 1 ex_i]). do 2 eexists. exists ex_i. split; [|split; [|split; [|split]]].
  - eapply run_app; [exact ex_started|]. eapply run_app; [apply ex_delivered; discriminate|]. go; [eapply D_disconnect with (k := (k1 HWait 5 [] CRead)); first [reflexivity|cbn; discriminate]|]. go; [match goal with |- step ?s _ _ => exact (D_connect s ex_i) end|]. apply r_nil.
  - cbn. tauto.
  - reflexivity.
  - apply D_wait_ok. reflexivity.
  - reflexivity.
Qed.
(** If a directory changes and changes back, WaitForManifestAck can return OK while the
    client serves the intermediate state. *)
Theorem C57_change_back_refuted : exists tr s s2 i, run init tr s /\ (forall c, In (EConnect c i) tr <-> c = 0%nat) /\ (forall e, In e tr -> failure 0 e = false) /\
  step s (EWaitOk i) s2 /\ current tr = 5%N /\ serves 0 tr = 6%N.
Proof.
  exists (ex_start ++ ex_deliver 5 ++ [ESet 6; EServer 0; EServer 0; EServer 0; EReceive 0 6; EApply 0 6; ESet 5]). do 2 eexists. exists ex_i. split; [|split; [|split; [|split; [|split]]]].
  - eapply run_app; [exact ex_started|]. eapply run_app; [apply ex_delivered; discriminate|].
    go; [eapply (D_set _ 6)|]. go; [eapply D_update with (k := (k1 HWait 5 [] CRead)); first [reflexivity|cbn; discriminate]|]. go; [eapply D_write with (k := (k1 HWrite 6 [] CRead)); first [reflexivity|cbn; discriminate]|].
    go; [eapply D_check with (k := (k1 HCheck 6 [6%N] CRead)); first [reflexivity|cbn; discriminate]|]. go; [eapply D_read with (k := (k1 HWait 6 [6%N] CRead)); first [reflexivity|cbn; discriminate]|].
    go; [eapply D_apply with (k := (k1 HWait 6 [] (CSet 6))); first [reflexivity|cbn; discriminate]|]. go; [eapply (D_set _ 5)|]. apply r_nil.
  - intros c. cbn. split; [|intros ->; now left]. intuition (try discriminate). congruence.
  - intros e H. cbn in H. intuition (subst; reflexivity).
  - apply D_wait_ok. reflexivity.
  - reflexivity.
  - reflexivity.
Qed.
(** A client that once could not fetch a manifest is not told about it again: unless
    another manifest is set, it goes on without it for ever. *)
Definition stuck (s : st) : Prop :=
  s_id s = 5%N /\ filter (from 0) (s_pending s) = [] /\ exists h al, nth_error (s_conns s) 0 = Some (mkc ex_i h 5 al [] CRead) /\ (h = HWait \/ h = HDone).
Lemma stuck_step s e s2 : stuck s -> step s e s2 -> (forall x, sets [e] = [x] -> x = 5%N) -> stuck s2 /\ applied 0 [e] = [].
Proof.
  intros (Id & P & h & al & E & Hh) S Hs.
  assert (Oth : forall c k k2, nth_error (s_conns s) c = Some k -> c <> 0%nat -> nth_error (set_nth c k2 (s_conns s)) 0 = Some (mkc ex_i h 5 al [] CRead)) by (intros c k k2 Ec Nc; rewrite nth_set_other; [exact E|auto|apply nth_error_Some; congruence]).
  assert (Same : forall k k2 al2, nth_error (s_conns s) 0 = Some k -> k2 = mkc ex_i h 5 al2 [] CRead -> nth_error (set_nth 0 k2 (s_conns s)) 0 = Some (mkc ex_i h 5 al2 [] CRead)) by (intros k k2 al2 Ec ->; apply nth_set_same; apply nth_error_Some; congruence).
  destruct S as [s x|s i|s c k Ek Kh R Ne|s c k Ek Kh R|s c k Ek Kh|s c k Ek Kh R|s c k Ek Kh R|s c k x r Ek Ka Kc Kn|s c k x Ek Kc|s c k x Ek Kc|s c k x Ek Kc|s c k i x p1 p2 Pe Ek|s c i x p1 p2 Pe|s c k i x p1 p2 Pe Ek|s c i x p1 p2 Pe|s i A|s c k Ek|s];
    unfold stuck, with_conn; cbn [s_id s_pending s_conns].
  - split; [|reflexivity]. split; [apply Hs; reflexivity|]. split; [exact P|]. exists h, al. auto.
  - split; [|reflexivity]. split; [exact Id|]. split; [exact P|]. exists h, al. split; [|exact Hh]. rewrite nth_error_app1; [exact E|]. apply nth_error_Some. congruence.
  - split; [|reflexivity]. split; [exact Id|]. split; [exact P|]. destruct c as [|c]; [exfalso; rewrite E in Ek; inversion Ek; subst; apply Ne; symmetry; exact Id|]. exists h, al. split; [apply (Oth _ k); auto|exact Hh].
  - split; [|reflexivity]. split; [exact Id|]. split; [exact P|]. destruct c as [|c]; [|exists h, al; split; [apply (Oth _ k); auto|exact Hh]]. rewrite E in Ek. inversion Ek; subst. exists HDone, al. split; [|now right]. rewrite nth_set_same; [cbn; now rewrite Id|]. apply nth_error_Some. congruence.
  - split; [|reflexivity]. split; [exact Id|]. split; [exact P|]. destruct c as [|c]; [exfalso; rewrite E in Ek; inversion Ek; subst; cbn in Kh; destruct Hh; congruence|]. exists h, al. split; [apply (Oth _ k); auto|exact Hh].
  - split; [|reflexivity]. split; [exact Id|]. split; [exact P|]. destruct c as [|c]; [exfalso; rewrite E in Ek; inversion Ek; subst; cbn in Kh; destruct Hh; congruence|]. exists h, al. split; [apply (Oth _ k); auto|exact Hh].
  - split; [|reflexivity]. split; [exact Id|]. split; [exact P|]. destruct c as [|c]; [exfalso; rewrite E in Ek; inversion Ek; subst; cbn in Kh; destruct Hh; congruence|]. exists h, al. split; [apply (Oth _ k); auto|exact Hh].
  - split; [|reflexivity]. split; [exact Id|]. split; [exact P|]. destruct c as [|c]; [exfalso; rewrite E in Ek; inversion Ek; subst; discriminate|]. exists h, al. split; [apply (Oth _ k); auto|exact Hh].
  - destruct c as [|c]; [exfalso; rewrite E in Ek; inversion Ek; subst; discriminate|]. split; [|reflexivity]. split; [exact Id|]. split; [exact P|]. exists h, al. split; [apply (Oth _ k); auto|exact Hh].
  - destruct c as [|c]; [exfalso; rewrite E in Ek; inversion Ek; subst; discriminate|]. split; [|reflexivity]. split; [exact Id|]. split; [exact P|]. exists h, al. split; [apply (Oth _ k); auto|exact Hh].
  - destruct c as [|c]; [exfalso; rewrite E in Ek; inversion Ek; subst; discriminate|]. split; [|reflexivity]. split; [exact Id|]. split; [rewrite filter_app, P; reflexivity|]. exists h, al. split; [apply (Oth _ k); auto|exact Hh].
  - destruct c as [|c]; [exfalso; rewrite Pe, filter_app in P; apply app_eq_nil in P; destruct P as (_ & P); discriminate|]. split; [|reflexivity]. split; [exact Id|].
    rewrite Pe, filter_app in P. cbn [filter from Nat.eqb] in P. split; [rewrite filter_app; exact P|]. exists h, al. split; [apply (Oth _ k); auto|exact Hh].
  - destruct c as [|c]; [exfalso; rewrite Pe, filter_app in P; apply app_eq_nil in P; destruct P as (_ & P); discriminate|]. split; [|reflexivity]. split; [exact Id|].
    rewrite Pe, filter_app in P. cbn [filter from Nat.eqb] in P. split; [rewrite filter_app; exact P|]. exists h, al. auto.
  - destruct c as [|c]; [exfalso; rewrite Pe, filter_app in P; apply app_eq_nil in P; destruct P as (_ & P); discriminate|]. split; [|reflexivity]. split; [exact Id|].
    rewrite Pe, filter_app in P. cbn [filter from Nat.eqb] in P. split; [rewrite filter_app; exact P|]. exists h, al. split; [apply (Oth _ k); auto|exact Hh].
  - destruct c as [|c]; [exfalso; rewrite Pe, filter_app in P; apply app_eq_nil in P; destruct P as (_ & P); discriminate|]. split; [|reflexivity]. split; [exact Id|].
    rewrite Pe, filter_app in P. cbn [filter from Nat.eqb] in P. split; [rewrite filter_app; exact P|]. exists h, al. auto.
  - split; [|reflexivity]. split; [exact Id|]. split; [exact P|]. exists h, al. auto.
  - split; [|reflexivity]. split; [exact Id|]. split; [exact P|]. destruct c as [|c]; [|exists h, al; split; [apply (Oth _ k); auto|exact Hh]]. rewrite E in Ek. inversion Ek; subst. exists h, false. split; [|exact Hh]. apply nth_set_same. apply nth_error_Some. congruence.
  - split; [|reflexivity]. split; [exact Id|]. split; [exact P|]. exists h, al. auto.
Qed.
Lemma stuck_run s tr s2 : run s tr s2 -> stuck s -> (forall x, In x (sets tr) -> x = 5%N) -> stuck s2 /\ applied 0 tr = [].
Proof.
  induction 1 as [s|s tr s2 e s3 R IH St]; intros K Hs; [auto|]. rewrite sets_app in Hs. destruct (IH K) as (K2 & A); [intros x HI; apply Hs; apply in_app_iff; now left|].
  destruct (stuck_step _ _ _ K2 St) as (K3 & A2); [intros x Ex; apply Hs; apply in_app_iff; right; rewrite Ex; now left|]. split; [exact K3|]. rewrite applied_app, A, A2. reflexivity.
Qed.
Theorem C57_retry_refuted : exists tr s i, run init tr s /\ In (EConnect 0 i) tr /\ ~ In (EDisconnect 0) tr /\ current tr = 5%N /\ In (EApplyFail 0 5) tr /\
  forall tr2 s2, run s tr2 s2 -> (forall x, In x (sets tr2) -> x = 5%N) -> serves 0 (tr ++ tr2) = 0%N.
Proof.
  exists (ex_start ++ [EServer 0; EServer 0; EServer 0; EReceive 0 5; EApplyFail 0 5]), (mkst 5 true [] [k1 HWait 5 [] CRead] []), ex_i. split; [|split; [|split; [|split; [|split]]]].
  - eapply run_app; [exact ex_started|]. go; [eapply D_update with (k := (k1 HWait 0 [] CRead)); first [reflexivity|cbn; discriminate]|]. go; [eapply D_write with (k := (k1 HWrite 5 [] CRead)); first [reflexivity|cbn; discriminate]|].
    go; [eapply D_check with (k := (k1 HCheck 5 [5%N] CRead)); first [reflexivity|cbn; discriminate]|]. go; [eapply D_read with (k := (k1 HWait 5 [5%N] CRead)); first [reflexivity|cbn; discriminate]|].
    go; [eapply D_apply_fail with (k := (k1 HWait 5 [] (CSet 5))); first [reflexivity|cbn; discriminate]|]. apply r_nil.
  - now left.
  - cbn. intuition discriminate.
  - reflexivity.
  - cbn. tauto.
  - intros tr2 s2 R2 Hs. destruct (stuck_run _ _ _ R2) as (_ & A); [|exact Hs|unfold serves; rewrite applied_app, A; reflexivity].
    split; [reflexivity|]. split; [reflexivity|]. exists HWait, true. split; [reflexivity|now left].
Qed.

(** ** Examples *)
Example ex_run : run init (ex_start ++ ex_deliver 5) (mkst 5 true [(ex_i, 5%N)] [k1 HWait 5 [] CRead] []).
Proof. eapply run_app; [exact ex_started|]. apply ex_delivered. discriminate. Qed.
(** This state is quiet, so C57_converges and C57_wait_returns apply to it. *)
Example ex_quiet : forall e s2, step (mkst 5 true [(ex_i, 5%N)] [k1 HWait 5 [] CRead] []) e s2 -> moves 0 e = false.
Proof.
  intros e s2 S. inversion S; subst; cbn in *; auto; try (destruct c as [|[|c]]; cbn in *; try discriminate; try reflexivity; match goal with H : Some _ = Some _ |- _ => inversion H; subst end; cbn in *; congruence); try (destruct p1; discriminate).
Qed.
Example ex_wait : exists s2, step (mkst 5 true [(ex_i, 5%N)] [k1 HWait 5 [] CRead] []) (EWaitOk ex_i) s2.
Proof.
  apply (C57_wait_returns (ex_start ++ ex_deliver 5) _ 0 ex_i ex_run).
  - intros c. cbn. split; [|intros ->; now left]. intuition (try discriminate). congruence.
  - cbn. intuition discriminate.
  - intros e H. cbn in H. intuition (subst; reflexivity).
  - discriminate.
  - exact ex_quiet.
Qed.
