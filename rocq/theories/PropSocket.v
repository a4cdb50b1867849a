(** C64: sockets. *)
From Verif Require Import Base SpecSocket ModelSocket.
From Coq Require Import Lia Arith.
Local Notation str := (list N).

Lemma fin : forall (got s2 : str) size partial (H : Prop) (Q : Prop),
  size - length got = 0 ->
  length got < size \/ (got = [] /\ size = 0) \/ (partial = false /\ length got <= size /\ 0 < size) ->
  exists d, got = got ++ d /\ s2 = d ++ s2 /\
  ((partial = false -> length got = size) /\ length got <= size /\ (0 < size -> got <> [])) /\ (H -> SOk = SError -> Q).
Proof.
  intros got s2 size partial H Q E Hl. exists []. rewrite app_nil_r.
  split; [reflexivity|]. split; [reflexivity|]. split; [|intros; discriminate].
  split; [intros; destruct Hl as [Hl|[[-> ->]|Hl]]; cbn in *; lia|].
  split; [destruct Hl as [Hl|[[-> ->]|Hl]]; cbn in *; lia|].
  intros Hs Hb. rewrite Hb in *; cbn in *. lia.
Qed.

Lemma receive_loop_spec : forall cs s eof size partial got st b s2 r,
  length got < size \/ (got = [] /\ size = 0) \/ (partial = false /\ length got <= size /\ 0 < size) ->
  (partial = true -> got = []) ->
  receive_loop cs s eof size partial got = Some (st, b, s2, r) ->
  exists d, b = got ++ d /\ s = d ++ s2 /\
  match st with
  | SOk => (partial = false -> length b = size) /\ length b <= size /\ (0 < size -> b <> [])
  | SEof => b = [] /\ s = [] /\ eof = true
  | SError => length b < size
  end /\ (healthy cs -> st = SError -> eof = true /\ s2 = [] /\ b <> [] /\ partial = false).
Proof.
  induction cs as [|c cs IH]; intros s eof size partial got st b s2 r Hlen Hp H; cbn in H.
  - destruct (size - length got) eqn:E; [|discriminate]. inversion H; subst.
    apply fin; [exact E|exact Hlen].
  - destruct (size - length got) as [|n] eqn:E.
    + inversion H; subst. apply fin; [exact E|exact Hlen].
    + destruct c as [k| |].
      * unfold os_recv in H. destruct s as [|x s'] eqn:Es.
        -- destruct eof; [|discriminate]. destruct got as [|y got'].
           ++ inversion H; subst. exists []. split; [reflexivity|]. split; [reflexivity|]. split; [auto|]. intros _ X; discriminate X.
           ++ inversion H; subst. exists []. rewrite app_nil_r.
              split; [reflexivity|]. split; [reflexivity|]. split; [lia|].
              intros _ _. split; [reflexivity|]. split; [reflexivity|]. split; [discriminate|].
              destruct partial; [discriminate (Hp eq_refl)|reflexivity].
        -- set (m := Nat.max 1 (Nat.min k (S n))) in *.
           assert (Hm : 1 <= m <= S n) by (unfold m; lia).
           destruct (firstn m (x :: s')) as [|y d'] eqn:Ed.
           ++ destruct m; [lia|]. discriminate.
           ++ assert (Hsp : x :: s' = (y :: d') ++ skipn m (x :: s')) by (rewrite <- Ed; symmetry; apply firstn_skipn).
              assert (Hld : length (y :: d') <= m) by (rewrite <- Ed, firstn_length; lia).
              destruct partial.
              ** inversion H; subst. exists (y :: d'). split; [reflexivity|]. split; [exact Hsp|].
                 split; [|intros; discriminate].
                 split; [discriminate|]. split; [rewrite app_length; lia|].
                 intros _ Hc. apply app_eq_nil in Hc. destruct Hc; discriminate.
              ** apply IH in H.
                 --- destruct H as (d & Hb & Hs & Hst & Hh).
                     exists ((y :: d') ++ d). split; [rewrite Hb, app_assoc; reflexivity|].
                     split; [rewrite <- app_assoc, <- Hs; exact Hsp|]. split.
                     +++ destruct st; auto. destruct Hst as (Hb0 & _). rewrite Hb0 in Hb.
                         symmetry in Hb. apply app_eq_nil in Hb. destruct Hb as (Hb & _).
                         apply app_eq_nil in Hb. destruct Hb; discriminate.
                     +++ intros Hhe. apply Hh. exact (Forall_inv_tail Hhe).
                 --- right; right. split; [reflexivity|]. rewrite app_length. lia.
                 --- discriminate.
      * cbn in H. apply IH in H; [|exact Hlen|exact Hp]. destruct H as (d & Hb & Hs & Hst & Hh).
        exists d. split; [exact Hb|]. split; [exact Hs|]. split; [exact Hst|].
        intros Hhe. apply Hh. exact (Forall_inv_tail Hhe).
      * cbn in H. inversion H; subst. exists []. rewrite app_nil_r.
        split; [reflexivity|]. split; [reflexivity|]. split; [lia|].
        intros Hhe. exfalso. apply (Forall_inv Hhe). reflexivity.
Qed.

(** ServerSocket::Receive does what socket.h says, whatever the operating system does: the bytes
    come out in order and none is lost, OK without allow_partial_read means all bytes, the end of
    the stream is reported as such only when nothing was read. *)
Theorem C64_server_receive : forall cs s eof size partial st buf s2 cs2,
  server_receive cs s eof size partial = Some (st, buf, s2, cs2) ->
  received s eof size partial st buf s2.
Proof.
  intros. apply receive_loop_spec in H.
  - destruct H as (d & -> & Hs & Hst & _). split; [exact Hs|exact Hst].
  - cbn. destruct size; [right; left|left]; auto; lia.
  - reflexivity.
Qed.
(** An error without a failing call means that the peer closed in the middle of a message. *)
Theorem C64_server_receive_error : forall cs s eof size partial buf s2 cs2,
  healthy cs ->
  server_receive cs s eof size partial = Some (SError, buf, s2, cs2) ->
  eof = true /\ s = buf /\ buf <> [] /\ length s < size /\ partial = false.
Proof.
  intros cs s eof size partial buf s2 cs2 Hh H. apply receive_loop_spec in H.
  - destruct H as (d & -> & Hs & Hst & Hx). destruct (Hx Hh eq_refl) as (He & H2 & Hb & Hpp). subst s2.
    rewrite app_nil_r in Hs. subst d. cbn in *. repeat split; auto.
  - cbn. destruct size; [right; left|left]; auto; lia.
  - reflexivity.
Qed.

Lemma receive_loop_progress : forall cs s eof size partial got,
  healthy cs -> size - length got <= transfers cs -> (size - length got <= length s \/ eof = true) ->
  exists x, receive_loop cs s eof size partial got = Some x.
Proof.
  induction cs as [|c cs IH]; intros s eof size partial got Hh Ht Hs; cbn in *.
  - destruct (size - length got); [eauto|lia].
  - destruct (size - length got) as [|n] eqn:E; [eauto|].
    destruct c as [k| |].
    + unfold os_recv. destruct s as [|x s'].
      * destruct Hs as [Hs| ->]; [cbn in Hs; lia|]. destruct got; eauto.
      * set (m := Nat.max 1 (Nat.min k (S n))).
        assert (Hm : 1 <= m <= S n) by (unfold m; lia). clearbody m.
        destruct (firstn m (x :: s')) as [|y d'] eqn:Ed; [destruct got; eauto|].
        destruct partial; [eauto|]. apply IH.
        -- exact (Forall_inv_tail Hh).
        -- rewrite app_length. cbn [length]. lia.
        -- destruct Hs as [Hs|Hs]; [left|right; exact Hs]. rewrite app_length.
           assert (Hl : length (y :: d') + length (skipn m (x :: s')) = length (x :: s'))
             by (rewrite <- Ed, <- app_length, firstn_skipn; reflexivity).
           lia.
    + cbn. apply IH; [exact (Forall_inv_tail Hh)|lia|rewrite E; exact Hs].
    + exfalso. exact (Forall_inv Hh eq_refl).
Qed.
(** Receive returns once the bytes are there, or the peer has closed. *)
Theorem C64_server_receive_returns : forall cs s eof size partial,
  healthy cs -> size <= transfers cs -> (size <= length s \/ eof = true) ->
  exists st buf s2 cs2, server_receive cs s eof size partial = Some (st, buf, s2, cs2).
Proof.
  intros. destruct (receive_loop_progress cs s eof size partial [] H) as [[[[a b] c] d] E]; cbn; rewrite ?Nat.sub_0_r; auto.
  unfold server_receive. eauto.
Qed.
(** ... and then with exactly those bytes. *)
Theorem C64_server_receive_exact : forall cs s eof size,
  healthy cs -> size <= transfers cs -> size <= length s ->
  exists cs2, server_receive cs s eof size false = Some (SOk, firstn size s, skipn size s, cs2).
Proof.
  intros cs s eof size Hh Ht Hs.
  destruct (C64_server_receive_returns cs s eof size false Hh Ht (or_introl Hs)) as (st & b & s2 & cs2 & E).
  exists cs2. pose proof (C64_server_receive _ _ _ _ _ _ _ _ _ E) as (Hsp & Hst).
  destruct st.
  - destruct Hst as (Hl & _). specialize (Hl eq_refl). subst s size.
    rewrite E. rewrite firstn_app, skipn_app, firstn_all, skipn_all, Nat.sub_diag. cbn. rewrite app_nil_r. reflexivity.
  - destruct Hst as (-> & -> & _). cbn in Hs. replace size with 0 in * by lia.
    unfold server_receive in E. destruct cs; cbn in E; discriminate.
  - apply C64_server_receive_error in E; [|exact Hh]. lia.
Qed.
Example C64_receive_example :
  server_receive [Again; Take 2; Again; Take 7] [1;2;3;4;5]%N false 4 false = Some (SOk, [1;2;3;4]%N, [5]%N, []) /\
  server_receive [Take 2; Take 7] [1;2;3]%N true 4 false = None /\
  server_receive [Take 2; Take 7; Take 1] [1;2;3]%N true 4 false = Some (SError, [1;2;3]%N, [], []) /\
  server_receive [Take 2] [] true 4 false = Some (SEof, [], [], []).
Proof. repeat split. Qed.

Lemma recv_all_spec : forall cs s eof n x s2 r, 0 < n ->
  os_recv_all cs s eof n = Some (x, s2, r) ->
  match x with
  | RData d => s = d ++ s2 /\ length d <= n /\ (d = [] -> s = [] /\ eof = true)
  | RAgain => False
  | RError => s2 = s /\ ~ healthy cs
  end.
Proof.
  induction cs as [|c cs IH]; intros s eof n x s2 r Hn H; cbn [os_recv_all] in H; [discriminate|].
  destruct c as [k| |].
  - set (m := Nat.max 1 (Nat.min k n)) in *. assert (Hm : 1 <= m <= n) by (unfold m; lia). clearbody m.
    destruct (m <=? length s) eqn:El.
    + apply Nat.leb_le in El. injection H as <- <- <-. 
      rewrite firstn_skipn, firstn_length.
      split; [reflexivity|]. split; [lia|]. intros Hd.
      apply (f_equal (@length N)) in Hd. rewrite firstn_length in Hd. cbn in Hd. lia.
    + apply Nat.leb_gt in El. destruct eof; [|discriminate]. inversion H; subst. rewrite app_nil_r.
      split; [reflexivity|]. split; [lia|]. auto.
  - apply IH in H; auto. destruct x; auto. destruct H as (-> & H). split; auto.
    intros Hh. apply H. exact (Forall_inv_tail Hh).
  - inversion H; subst. split; [reflexivity|]. intros Hh. exact (Forall_inv Hh eq_refl).
Qed.
(** ClientSocket::Receive: what OK and EOF promise holds as well, and the bytes reported are
    exactly the bytes taken from the stream unless it reports an error ... *)
Theorem C64_client_receive : forall cs s eof size partial st buf taken s2 cs2,
  client_receive cs s eof size partial = Some (st, buf, taken, s2, cs2) ->
  received s eof size partial st taken s2 /\ (st <> SError -> buf = taken) /\ (st = SError -> buf = []).
Proof.
  intros cs s eof size partial st buf taken s2 cs2 H. unfold client_receive in H.
  destruct size as [|n].
  { inversion H; subst. unfold received; cbn. repeat split; auto; try lia; try discriminate. }
  unfold received.
  assert (G : forall x r, (match x with
    | RData d => s = d ++ s2 /\ length d <= S n /\ (d = [] -> s = [] /\ eof = true)
    | _ => s2 = s end) -> (match x with
      | RAgain => Some (SError, [], [], s2, r)
      | RError => Some (SError, [], [], s2, r)
      | RData [] => Some (SEof, [], [], s2, r)
      | RData d => if negb (length d =? S n) && negb partial then Some (SError, [], d, s2, r) else Some (SOk, d, d, s2, r)
      end) = Some (st, buf, taken, s2, cs2) -> (s = taken ++ s2 /\
  match st with
  | SOk => (partial = false -> length taken = S n) /\ length taken <= S n /\ (0 < S n -> taken <> [])
  | SEof => taken = [] /\ s = [] /\ eof = true
  | SError => length taken < S n
  end) /\ (st <> SError -> buf = taken) /\ (st = SError -> buf = [])).
  { clear H. intros x r Hx H. destruct x as [d| |].
    - destruct Hx as (Hs & Hl & Hd). destruct d as [|y d].
      + inversion H; subst. destruct (Hd eq_refl) as (Hd1 & Hd2). cbn in Hd1.
        split; [split; [reflexivity|]|split; [reflexivity|intros; discriminate]]. auto.
      + destruct (length (y :: d) =? S n) eqn:El.
        * apply Nat.eqb_eq in El. cbn [negb andb] in H. inversion H; subst.
          split; [split; [reflexivity|]|split; [reflexivity|intros; discriminate]].
          split; [auto|]. split; [lia|discriminate].
        * apply Nat.eqb_neq in El. destruct partial; cbn [negb andb] in H; inversion H; subst.
          -- split; [split; [reflexivity|]|split; [reflexivity|intros; discriminate]].
             split; [discriminate|]. split; [lia|discriminate].
          -- split; [split; [reflexivity|lia]|]. split; [intros X; congruence|reflexivity].
    - subst s2. inversion H; subst. split; [split; [reflexivity|cbn; lia]|]. split; [intros X; congruence|reflexivity].
    - subst s2. inversion H; subst. split; [split; [reflexivity|cbn; lia]|]. split; [intros X; congruence|reflexivity]. }
  destruct partial.
  - destruct cs as [|c cs']; [discriminate|].
    destruct (os_recv c s eof (S n)) as [[x s3]|] eqn:Eo; [|discriminate].
    assert (s3 = s2) as -> by (destruct x as [[|y d]| |]; [inversion H|destruct (negb (length (y :: d) =? S n) && negb true) in H; inversion H|inversion H|inversion H]; reflexivity).
    apply (G x cs'); [|exact H].
    destruct c as [k| |]; cbn [os_recv] in Eo.
    + destruct s as [|y s'].
      * destruct eof; [|discriminate]. inversion Eo; subst. split; [reflexivity|]. split; [cbn; lia|auto].
      * set (m := Nat.max 1 (Nat.min k (S n))) in *. assert (Hm : 1 <= m <= S n) by (unfold m; lia). clearbody m.
        inversion Eo; subst. rewrite firstn_skipn. split; [reflexivity|]. split; [rewrite firstn_length; lia|].
        intros Hd. destruct m; [lia|discriminate].
    + inversion Eo; subst. reflexivity.
    + inversion Eo; subst. reflexivity.
  - destruct (os_recv_all cs s eof (S n)) as [[[x s3] r]|] eqn:Eo; [|discriminate].
    assert (s3 = s2) as -> by (destruct x as [[|y d]| |]; [inversion H|destruct (negb (length (y :: d) =? S n) && negb false) in H; inversion H|inversion H|inversion H]; reflexivity).
    apply (G x r); [|exact H]. apply recv_all_spec in Eo; [|lia]. destruct x; auto; [contradiction|apply Eo].
Qed.
(** A call that transfers something is no error if a part is allowed, or if it transfers all. *)
Theorem C64_client_receive_ok : forall k cs s eof size partial,
  partial = true \/ size <= k -> size <= length s ->
  exists buf s2 cs2, client_receive (Take k :: cs) s eof size partial = Some (SOk, buf, buf, s2, cs2).
Proof.
  intros k cs s eof size partial Hk Hs. unfold client_receive. destruct size as [|n]; [eauto|].
  destruct partial.
  - cbn [os_recv]. destruct s as [|y s']; [cbn in Hs; lia|].
    set (m := Nat.max 1 (Nat.min k (S n))). assert (Hm : 1 <= m) by (unfold m; lia). clearbody m.
    destruct m as [|m]; [lia|]. cbn [firstn]. rewrite andb_false_r. eauto.
  - destruct Hk as [Hk|Hk]; [discriminate|]. cbn [os_recv_all].
    rewrite Nat.min_r, Nat.max_r by lia. rewrite (proj2 (Nat.leb_le _ _) Hs).
    destruct s as [|y s']; [cbn in Hs; lia|]. cbn [firstn].
    cbn [length] in *. rewrite firstn_length, Nat.min_l by lia. rewrite Nat.eqb_refl. cbn. eauto.
Qed.
(** ... while an error may swallow bytes: a caller that tries again after "Partial read" has lost
    its place in the stream. *)
Theorem C64_client_receive_error_loses_refuted :
  exists cs s eof size buf taken s2 cs2,
    healthy cs /\ eof = false /\ size <= length s /\
    client_receive cs s eof size false = Some (SError, buf, taken, s2, cs2) /\ buf = [] /\ taken <> [].
Proof.
  exists [Take 2], [1;2;3]%N, false, 3, [], [1;2]%N, [3]%N, [].
  split; [repeat constructor; discriminate|]. split; [reflexivity|]. split; [cbn; lia|].
  split; [reflexivity|]. split; [reflexivity|discriminate].
Qed.

(** What is received, in one piece or in many, is a prefix of the stream. *)
Theorem C64_server_receives_prefix : forall reqs cs s eof l s2 cs2,
  server_receives cs s eof reqs = Some (l, s2, cs2) ->
  s = concat (map snd l) ++ s2.
Proof.
  induction reqs as [|[size partial] reqs IH]; intros cs s eof l s2 cs2 H; cbn in H.
  - inversion H; subst. reflexivity.
  - destruct (server_receive cs s eof size partial) as [[[[st b] s3] r]|] eqn:E; [|discriminate].
    apply C64_server_receive in E. destruct E as (Hs & _).
    destruct st.
    + destruct (server_receives r s3 eof reqs) as [[[l' s4] r2]|] eqn:E2; [|discriminate].
      inversion H; subst. apply IH in E2. cbn. rewrite <- app_assoc, <- E2. reflexivity.
    + inversion H; subst. cbn. rewrite app_nil_r. reflexivity.
    + inversion H; subst. cbn. rewrite app_nil_r. reflexivity.
Qed.
Theorem C64_client_receives_prefix : forall reqs cs s eof l s2 cs2,
  client_receives cs s eof reqs = Some (l, s2, cs2) ->
  prefix_of (concat (map snd l)) s.
Proof.
  unfold prefix_of.
  induction reqs as [|[size partial] reqs IH]; intros cs s eof l s2 cs2 H; cbn in H.
  - inversion H; subst. exists s2. reflexivity.
  - destruct (client_receive cs s eof size partial) as [[[[[st b] t] s3] r]|] eqn:E; [|discriminate].
    apply C64_client_receive in E. destruct E as ((Hs & _) & H1 & H2).
    destruct st.
    + destruct (client_receives r s3 eof reqs) as [[[l' s4] r2]|] eqn:E2; [|discriminate].
      inversion H; subst. apply IH in E2. destruct E2 as (q & ->). cbn.
      rewrite (H1 ltac:(discriminate)). exists q. rewrite <- app_assoc. reflexivity.
    + inversion H; subst. cbn. rewrite app_nil_r. rewrite (H1 ltac:(discriminate)). eauto.
    + inversion H; subst. cbn. rewrite app_nil_r. rewrite (H2 eq_refl). cbn. eauto.
Qed.

Lemma server_send_spec : forall cs d st o r,
  server_send cs d = Some (st, o, r) ->
  (st = SOk -> o = d) /\ prefix_of o d /\ st <> SEof /\ (healthy cs -> st = SOk).
Proof.
  induction cs as [|c cs IH]; intros d st o r H.
  - destruct d; cbn in H; [|discriminate]. inversion H; subst.
    split; [reflexivity|]. split; [exists []; reflexivity|]. split; [discriminate|reflexivity].
  - destruct d as [|x d]; cbn [server_send os_send length] in H.
    + inversion H; subst.
      split; [reflexivity|]. split; [exists []; reflexivity|]. split; [discriminate|reflexivity].
    + destruct c as [k| |].
      * cbn [os_send] in H. set (m := Nat.max 1 (Nat.min k (S (length d)))) in *. clearbody m.
        destruct (server_send cs (skipn m (x :: d))) as [[[st' o'] r2]|] eqn:E; [|discriminate].
        inversion H; subst. apply IH in E. destruct E as (H1 & (q & Hq) & H3 & H4).
        split; [intros Hst; rewrite (H1 Hst); apply firstn_skipn|].
        split; [exists q; rewrite <- app_assoc, <- Hq; symmetry; apply firstn_skipn|].
        split; [exact H3|]. intros Hh. apply H4. exact (Forall_inv_tail Hh).
      * apply IH in H. destruct H as (H1 & H2 & H3 & H4). repeat split; auto. intros Hh. apply H4. exact (Forall_inv_tail Hh).
      * inversion H; subst. split; [discriminate|]. split; [exists (x :: d); reflexivity|].
        split; [discriminate|]. intros Hh. exfalso. exact (Forall_inv Hh eq_refl).
Qed.
(** ServerSocket::Send: OK means that every byte went out, in order; an error, that a prefix did. *)
Theorem C64_server_send : forall cs d st out cs2,
  server_send cs d = Some (st, out, cs2) ->
  (st = SOk -> out = d) /\ prefix_of out d /\ (healthy cs -> st = SOk).
Proof. intros. apply server_send_spec in H. destruct H as (H1 & H2 & _ & H4). auto. Qed.
Theorem C64_server_send_returns : forall cs d,
  healthy cs -> length d <= transfers cs ->
  exists cs2, server_send cs d = Some (SOk, d, cs2).
Proof.
  assert (G : forall cs d, healthy cs -> length d <= transfers cs -> exists x, server_send cs d = Some x).
  { induction cs as [|c cs IH]; intros d Hh Ht.
    - destruct d; cbn in *; [eauto|lia].
    - destruct d as [|x d]; cbn [server_send]; [eauto|]. destruct c as [k| |].
      + cbn [os_send]. set (m := Nat.max 1 (Nat.min k (length (x :: d)))).
        assert (Hm : 1 <= m) by (unfold m; lia). clearbody m.
        destruct (IH (skipn m (x :: d))) as [[[a b] r] E].
        * exact (Forall_inv_tail Hh).
        * rewrite skipn_length. cbn [transfers length] in *. lia.
        * rewrite E. eauto.
      + apply IH; [exact (Forall_inv_tail Hh)|exact Ht].
      + exfalso. exact (Forall_inv Hh eq_refl). }
  intros cs d Hh Ht. destruct (G cs d Hh Ht) as [[[st o] r] E]. exists r.
  pose proof (server_send_spec _ _ _ _ _ E) as (H1 & _ & _ & H4). specialize (H4 Hh). subst st.
  rewrite (H1 eq_refl) in E. exact E.
Qed.

(** ClientSocket::Send promises the same, but takes a short count of send() for success. *)
Theorem C64_client_send_refuted :
  ~ (forall cs d out cs2, healthy cs -> client_send cs d = Some (SOk, out, cs2) -> out = d).
Proof.
  intros H. specialize (H [Take 2] [1;2;3]%N [1;2]%N []).
  assert (Hh : healthy [Take 2]) by (constructor; [discriminate|constructor]).
  discriminate (H Hh eq_refl).
Qed.
(** It holds where send() on a blocking socket accepts everything, as Windows and Linux do
    unless a signal arrives. *)
Theorem C64_client_send_partial : forall k cs d st out cs2,
  length d <= k ->
  client_send (Take k :: cs) d = Some (st, out, cs2) -> st = SOk /\ out = d.
Proof.
  intros k cs d st out cs2 Hk H. destruct d as [|x d]; cbn [client_send] in H.
  - inversion H; auto.
  - cbn [os_send] in H. rewrite Nat.min_r, Nat.max_r in H by (cbn [length] in *; lia).
    rewrite firstn_all in H. inversion H; auto.
Qed.

(** End to end: messages sent through a ServerSocket are received, with requests of their
    sizes, as they were, however both sides' calls are split. *)
Lemma server_sends_ok : forall ds cs o r, server_sends cs ds = Some (SOk, o, r) -> o = concat ds.
Proof.
  induction ds as [|d ds IH]; intros cs o r H; cbn in H.
  - inversion H; reflexivity.
  - destruct (server_send cs d) as [[[st o'] c2]|] eqn:E; [|discriminate].
    destruct st; [|inversion H|inversion H].
    destruct (server_sends c2 ds) as [[[st2 o2] c3]|] eqn:E2; [|discriminate].
    inversion H; subst. apply server_send_spec in E. destruct E as (E & _). rewrite (E eq_refl).
    apply IH in E2. subst. reflexivity.
Qed.
Lemma app_len_inj : forall (a b c d : str), a ++ b = c ++ d -> length a = length c -> a = c /\ b = d.
Proof.
  induction a as [|x a IH]; intros b c d H Hl; destruct c as [|y c]; cbn in *; try lia.
  - auto.
  - inversion H; subst. destruct (IH b c d H2 ltac:(lia)) as (-> & ->). auto.
Qed.
Lemma client_receives_exact : forall ds cs l s2 r eof e,
  client_receives cs (concat ds ++ e) eof (map (fun d => (length d, false)) ds) = Some (l, s2, r) ->
  Forall (fun x => fst x = SOk) l ->
  map snd l = ds /\ s2 = e.
Proof.
  induction ds as [|d ds IH]; intros cs l s2 r eof e Hr Hok; cbn in Hr.
  - inversion Hr; subst. auto.
  - destruct (client_receive cs ((d ++ concat ds) ++ e) eof (length d) false) as [[[[[st b] t] s3] c2]|] eqn:E; [|discriminate].
    apply C64_client_receive in E. destruct E as ((Hsp & Hst) & H1 & _).
    destruct st.
    + destruct (client_receives c2 s3 eof (map (fun d => (length d, false)) ds)) as [[[l' s4] r2]|] eqn:E2; [|discriminate].
      inversion Hr; subst. rewrite (H1 ltac:(discriminate)) in *. destruct Hst as (Hl & _). specialize (Hl eq_refl).
      rewrite <- app_assoc in Hsp. destruct (app_len_inj _ _ _ _ Hsp ltac:(lia)) as (-> & <-).
      destruct (IH _ _ _ _ _ _ E2 (Forall_inv_tail Hok)) as (<- & ->). auto.
    + inversion Hr; subst. discriminate (Forall_inv Hok).
    + inversion Hr; subst. discriminate (Forall_inv Hok).
Qed.
Theorem C64_end_to_end_client : forall ds cs_s out r_s cs l s2 r eof,
  server_sends cs_s ds = Some (SOk, out, r_s) ->
  client_receives cs out eof (map (fun d => (length d, false)) ds) = Some (l, s2, r) ->
  Forall (fun x => fst x = SOk) l ->
  map snd l = ds /\ s2 = [].
Proof.
  intros ds cs_s out r_s cs l s2 r eof Hs Hr Hok. apply server_sends_ok in Hs. subst out.
  rewrite <- (app_nil_r (concat ds)) in Hr. exact (client_receives_exact _ _ _ _ _ _ _ Hr Hok).
Qed.
Theorem C64_end_to_end_server : forall ds cs eof,
  healthy cs -> length (concat ds) <= transfers cs ->
  exists cs2, server_receives cs (concat ds) eof (map (fun d => (length d, false)) ds)
              = Some (map (fun d => (SOk, d)) ds, [], cs2).
Proof.
  assert (R : forall cs s eof size got st b s2 r, healthy cs ->
     receive_loop cs s eof size false got = Some (st, b, s2, r) ->
     healthy r /\ (transfers cs <= transfers r + (size - length got))).
  { induction cs as [|c cs IH]; intros s eof size got st b s2 r Hh H; cbn in H.
    - destruct (size - length got) eqn:E; [|discriminate]. inversion H; subst. split; [exact Hh|cbn; lia].
    - destruct (size - length got) as [|n] eqn:E.
      + inversion H; subst. split; [exact Hh|lia].
      + pose proof (Forall_inv_tail Hh) as Hh'. destruct c as [k| |]; cbn [transfers].
        * unfold os_recv in H. destruct s as [|x s'].
          -- destruct eof; [|discriminate]. destruct got; inversion H; subst; split; auto; lia.
          -- set (m := Nat.max 1 (Nat.min k (S n))) in *. assert (Hm : 1 <= m) by (unfold m; lia). clearbody m.
             destruct (firstn m (x :: s')) as [|y d'] eqn:Ed; [destruct got; inversion H; subst; split; auto; lia|].
             apply IH in H; auto. destruct H as (H1 & H2). split; [exact H1|].
             rewrite app_length in H2. cbn [length] in H2. lia.
        * cbn in H. apply IH in H; auto. rewrite E in H. exact H.
        * exfalso. exact (Forall_inv Hh eq_refl). }
  induction ds as [|d ds IH]; intros cs eof Hh Ht; cbn.
  - eauto.
  - cbn in Ht. rewrite app_length in Ht.
    destruct (C64_server_receive_exact cs (d ++ concat ds) eof (length d) Hh) as (c2 & E); [lia|rewrite app_length; lia|].
    rewrite E. destruct (R _ _ _ _ _ _ _ _ _ Hh E) as (Hh2 & Ht2). cbn [length] in Ht2.
    rewrite firstn_app, skipn_app, firstn_all, skipn_all, Nat.sub_diag. cbn [firstn skipn app]. rewrite app_nil_r.
    destruct (IH c2 eof Hh2) as (c3 & E3); [lia|]. rewrite E3. eauto.
Qed.
Example C64_end_to_end_example :
  server_sends [Take 1; Again; Take 9; Take 1; Take 9] [[1;2;3]; []; [4;5]]%N = Some (SOk, [1;2;3;4;5]%N, []) /\
  server_receives [Take 2; Again; Take 9; Take 1; Take 1; Take 1] [1;2;3;4;5]%N false [(3, false); (0, false); (2, false)]
    = Some ([(SOk, [1;2;3]); (SOk, []); (SOk, [4;5])]%N, [], [Take 1]) /\
  client_receives [Take 3; Take 9] [1;2;3;4;5]%N false [(3, false); (0, false); (2, false)]
    = Some ([(SOk, [1;2;3]); (SOk, []); (SOk, [4;5])]%N, [], []).
Proof. repeat split. Qed.
