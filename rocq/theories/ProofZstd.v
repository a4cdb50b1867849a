(** Proofs for C55. *)
From Verif Require Import Base ListX ModelPump SpecZstd ModelZstd.
From Verif Require ProofPump.
Local Notation str := (list N).

Lemma written_app a b : written_data (a ++ b) = written_data a ++ written_data b.
Proof. induction a as [|e a IH]; [reflexivity|]. cbn [app written_data]. destruct e; rewrite IH; rewrite ?app_assoc; reflexivity. Qed.

Section Sending.
Variable K : codec.
Variable L : laws K.
Variable cap : nat.
Hypothesis cap_pos : (0 < cap)%nat.

(** What was copied into the stream. *)
Definition copied (s : zs K) (tr : list zevent) (x : str) : Prop :=
  match z_call K s with
  | Writing w l => exists a, w = a ++ l /\ x = written_data tr ++ a
  | _ => x = written_data tr
  end.

Lemma prefix_of_partial w u x st : dec K (w ++ u) = (x, st) -> st <> Bad -> forall k, exists y, x = fst (dec K (w ++ firstn k u)) ++ y.
Proof.
  intros D N k. rewrite <- (firstn_skipn k u), app_assoc in D. destruct (dec K (w ++ firstn k u)) as (x1 & s1) eqn:E. destruct s1 as [|r|].
  - destruct (dec_open K L _ _ (skipn k u) E) as (y & Y). rewrite D in Y. exists y. exact Y.
  - rewrite (dec_done K L _ _ _ (skipn k u) E) in D. injection D as <- _. exists []. now rewrite app_nil_r.
  - pose proof (dec_bad K L _ _ (skipn k u) E) as B. rewrite D in B. contradiction.
Qed.
Lemma open_prefix c x w : c_inv K L c x w -> exists y, dec K w = (y, Open) /\ exists z, x = y ++ z.
Proof. intros I. destruct (c_prefix K L c x w I) as (y & E & O). destruct (dec K w) as (a & b). cbn in *. subst b. exists a. split; [reflexivity|]. exists y. exact E. Qed.

Lemma loop_ok_inv m c i o c2 : loop_ok K m c i o c2 -> forall x w, c_inv K L c x w ->
  match m with
  | MContinue => c_inv K L c2 (x ++ i) (w ++ o)
  | MFlush => c_inv K L c2 (x ++ i) (w ++ o) /\ dec K (w ++ o) = (x ++ i, Open)
  | MEnd => c_ended K L c2 /\ dec K (w ++ o) = (x ++ i, Done [])
  end.
Proof.
  induction 1 as [c i n o f c2 C F|c i n o f c2 o2 c3 C F _ IH]; intros x w I.
  - destruct (c_step K L _ _ _ _ _ _ _ _ _ I C) as (Ln & N). destruct m; cbn in F.
    + apply Nat.eqb_eq in F. subst n. destruct N as [(N & _)|N]; [discriminate|]. now rewrite firstn_all in N.
    + subst f. destruct (c_flush K L _ _ _ _ _ _ _ I C) as (-> & D). destruct N as [(N & _)|N]; [discriminate|]. rewrite firstn_all in N. auto.
    + subst f. destruct (c_end K L _ _ _ _ _ _ _ I C) as (_ & D). split; [exact (c_end_ended K L _ _ _ _ _ _ _ I C)|exact D].
  - destruct (c_step K L _ _ _ _ _ _ _ _ _ I C) as (Ln & N). assert (N' : c_inv K L c2 (x ++ firstn n i) (w ++ o)).
    { destruct N as [(-> & ->)|N]; [discriminate|exact N]. }
    specialize (IH _ _ N'). assert (E1 : (x ++ firstn n i) ++ skipn n i = x ++ i) by (rewrite <- app_assoc, firstn_skipn; reflexivity). rewrite E1, <- app_assoc in IH. exact IH.
Qed.
Lemma loop_fail_inv m c i o : loop_fail K m c i o -> forall x w, c_inv K L c x w -> exists y, x ++ i = fst (dec K (w ++ o)) ++ y.
Proof.
  induction 1 as [c i|c i n o f c2 k C|c i n o f c2 o2 C F _ IH]; intros x w I.
  - rewrite app_nil_r. destruct (c_prefix K L c x w I) as (y & E & _). exists (y ++ i). rewrite app_assoc, <- E. reflexivity.
  - destruct (c_step K L _ _ _ _ _ _ _ _ _ I C) as (Ln & [(-> & ->)|N]).
    + destruct (c_end K L _ _ _ _ _ _ _ I C) as (_ & D). apply (prefix_of_partial w o _ _ D). discriminate.
    + destruct (open_prefix _ _ _ N) as (y & D & (z & E)). destruct (prefix_of_partial w o _ _ D ltac:(discriminate) k) as (t & T).
      exists (t ++ z ++ skipn n i). rewrite <- (firstn_skipn n i) at 1. rewrite app_assoc, E, T, <- !app_assoc. reflexivity.
  - destruct (c_step K L _ _ _ _ _ _ _ _ _ I C) as (Ln & N). assert (N' : c_inv K L c2 (x ++ firstn n i) (w ++ o)).
    { destruct N as [(-> & ->)|N]; [discriminate|exact N]. }
    destruct (IH _ _ N') as (y & Y). exists y. rewrite app_assoc, <- Y, <- app_assoc, firstn_skipn. reflexivity.
Qed.
Lemma loop_ok_ended c o c2 : loop_ok K MFlush c [] o c2 -> c_ended K L c -> o = [] /\ c_ended K L c2.
Proof.
  remember [] as i eqn:Ei. remember MFlush as m eqn:Em. intros H. revert Ei Em. induction H as [c i n o f c2 C F|c i n o f c2 o2 c3 C F _ IH]; intros -> -> E.
  - destruct (c_ended_step K L _ _ _ _ _ E C) as (-> & -> & E2). auto.
  - destruct (c_ended_step K L _ _ _ _ _ E C) as (-> & -> & E2). destruct (IH eq_refl eq_refl E2) as (-> & E3). auto.
Qed.
Lemma loop_fail_ended c o : loop_fail K MFlush c [] o -> c_ended K L c -> o = [].
Proof.
  remember [] as i eqn:Ei. remember MFlush as m eqn:Em. intros H. revert Ei Em. induction H as [c i|c i n o f c2 k C|c i n o f c2 o2 C F _ IH]; intros -> -> E.
  - reflexivity.
  - destruct (c_ended_step K L _ _ _ _ _ E C) as (-> & _ & _). apply firstn_nil.
  - destruct (c_ended_step K L _ _ _ _ _ E C) as (-> & -> & E2). rewrite (IH eq_refl eq_refl E2). reflexivity.
Qed.


(** The invariant. *)
Definition ongoing (s : zs K) : str := match z_call K s with Writing w _ => w | _ => [] end.
Record inv (s : zs K) (tr : list zevent) : Prop := mkinv {
  i_buf : (length (z_buf K s) <= cap)%nat;
  i_left : forall w l, z_call K s = Writing w l -> l <> [] /\ z_finish_called K s = false;
  i_ctor : z_ctor K s = true -> z_call K s = Idle /\ z_shutdown K s = false;
  i_called : z_last K s = true \/ z_sent K s = true -> z_finish_called K s = true;
  i_one : z_last K s = true -> z_sent K s = false;
  i_down : z_shutdown K s = true \/ z_ok K s = false -> z_thread K s = false;
  i_ok : In EFinishOk tr -> z_sent K s = true;
  i_noerr : z_thread K s = true \/ z_sent K s = true -> attempted_data tr = written_data tr;
  i_data :
    if z_sent K s then dec K (z_wire K s) = (written_data tr, Done []) /\ z_buf K s = [] /\ (z_thread K s = true -> c_ended K L (z_ctx K s))
    else if z_thread K s then exists x y, copied s tr x /\ c_inv K L (z_ctx K s) y (z_wire K s) /\ x = y ++ z_buf K s
    else exists y, attempted_data tr ++ ongoing s = fst (dec K (z_wire K s)) ++ y }.

Lemma inv_init : inv (z_init K) [].
Proof.
  constructor; cbn.
  - lia.
  - discriminate.
  - auto.
  - intros [X|X]; discriminate.
  - discriminate.
  - intros [X|X]; discriminate.
  - tauto.
  - reflexivity.
  - exists [], []. split; [reflexivity|]. split; [apply c_start|reflexivity].
Qed.
Lemma written_snoc tr e : written_data (tr ++ [e]) = written_data tr ++ match e with EWriteOk d => d | _ => [] end.
Proof. rewrite written_app. destruct e; cbn [written_data]; rewrite ?app_nil_r; reflexivity. Qed.
Lemma attempted_snoc tr e : attempted_data (tr ++ [e]) = attempted_data tr ++ match e with EWriteOk d | EWriteError d => d | _ => [] end.
Proof. induction tr as [|a tr IH]; cbn [app attempted_data]; [destruct e; cbn; rewrite ?app_nil_r; reflexivity|]. destruct a; rewrite IH, ?app_assoc; reflexivity. Qed.
Lemma copied_prefix s tr x : copied s tr x -> exists y, written_data tr ++ ongoing s = x ++ y.
Proof.
  unfold copied, ongoing. destruct (z_call K s) as [|w l|].
  - intros ->. exists []. now rewrite !app_nil_r.
  - intros (a & -> & ->). exists l. now rewrite <- app_assoc.
  - intros ->. exists []. now rewrite !app_nil_r.
Qed.

Lemma inv_step s tr e s2 : inv s tr -> zstep K cap s e s2 -> inv s2 (tr ++ [e]).
Proof.
  intros I H. destruct I as [Ib Il Ict Ic Io Id Iok Ine D].
  assert (Old : e <> EFinishOk -> In EFinishOk (tr ++ [e]) -> z_sent K s = true).
  { intros Ne HI. apply in_app_or in HI. destruct HI as [HI|[HI|[]]]; [auto|contradiction]. }
  pose proof (written_snoc tr e) as Ws. pose proof (attempted_snoc tr e) as As.
  destruct H as [s C|s d C Ca F Sd O|s C Ca F Sd O|s d C Ca F Sd O Nd|s d l Ca Why|s d l e Ca Sd O Room k Ee|s C Ca F Sd O|s C Ca F Sd O|s Ca Why|s flush m o c2 T Sd Fl M Lo|s flush m o c2 T Sd Fl M Lo|s C Ca].
  - (* constructor *) rewrite app_nil_r in Ws, As. constructor; cbn.
    + exact Ib.
    + exact Il.
    + discriminate.
    + exact Ic.
    + exact Io.
    + intros [X|X]; [|discriminate]. apply Id. now left.
    + apply Old. discriminate.
    + rewrite Ws, As. auto.
    + unfold copied, ongoing in *. cbn. rewrite Ws, As. exact D.
  - (* Write: error *) rewrite app_nil_r in Ws. assert (T : z_thread K s = false) by (apply Id; now right). constructor; auto.
    + apply Old. discriminate.
    + intros [X|X]; [congruence|rewrite Ic in F by auto; discriminate].
    + unfold copied, ongoing in *. rewrite Ca in *. rewrite Ws, As, T in *. destruct (z_sent K s); [exact D|]. destruct D as (y & D). exists (y ++ d). rewrite app_nil_r in *. rewrite D. now rewrite <- app_assoc.
  - rewrite app_nil_r in Ws, As. constructor; auto.
    + apply Old. discriminate.
    + rewrite Ws, As. auto.
    + unfold copied, ongoing in *. rewrite Ws, As. exact D.
  - rewrite app_nil_r in Ws, As. assert (S0 : z_sent K s = false) by (destruct (z_sent K s); [|reflexivity]; rewrite Ic in F by auto; discriminate). constructor; cbn.
    + exact Ib.
    + intros w l E. inversion E; subst. auto.
    + congruence.
    + exact Ic.
    + exact Io.
    + exact Id.
    + apply Old. discriminate.
    + rewrite Ws, As. auto.
    + unfold copied, ongoing in *. cbn. rewrite Ca, S0 in D. rewrite S0, Ws, As. destruct (z_thread K s).
      * destruct D as (x & y & -> & I & E). exists (written_data tr), y. split; [exists []; now rewrite app_nil_r|auto].
      * destruct D as (y & D). exists (y ++ d). rewrite app_nil_r in D. rewrite D. now rewrite <- app_assoc.
  - (* Write fails *) rewrite app_nil_r in Ws. destruct (Il _ _ Ca) as (Nl & F). assert (T : z_thread K s = false) by (apply Id; exact Why).
    assert (S0 : z_sent K s = false) by (destruct (z_sent K s); [|reflexivity]; rewrite Ic in F by auto; discriminate). constructor; cbn.
    + exact Ib.
    + discriminate.
    + intros C. destruct (Ict C). auto.
    + exact Ic.
    + exact Io.
    + exact Id.
    + apply Old. discriminate.
    + intros [X|X]; congruence.
    + unfold copied, ongoing in *. cbn. rewrite Ca, S0, T in D. rewrite S0, T, As, app_nil_r. exact D.
  - (* copy *) destruct (Il _ _ Ca) as (Nl & F). assert (Cc : z_ctor K s = false) by (destruct (z_ctor K s); [destruct (Ict eq_refl); congruence|reflexivity]).
    assert (S0 : z_sent K s = false) by (destruct (z_sent K s); [|reflexivity]; rewrite Ic in F by auto; discriminate).
    assert (Ne : e <> EFinishOk) by (subst e; destruct (skipn k l); discriminate).
    constructor; cbn.
    + rewrite app_length, firstn_length. unfold k. lia.
    + intros w l2 E. destruct (skipn k l) eqn:X; [discriminate|]. inversion E; subst. split; [discriminate|exact F].
    + congruence.
    + exact Ic.
    + exact Io.
    + exact Id.
    + intros HI. exact (Old Ne HI).
    + intros T. rewrite Ws, As, (Ine T). subst e. destruct (skipn k l); reflexivity.
    + unfold copied, ongoing in *. cbn. rewrite Ca, S0 in D. rewrite S0, Ws, As. destruct (z_thread K s).
      * destruct D as (x & y & (a & -> & ->) & I & E). exists (written_data tr ++ a ++ firstn k l), y. split; [|split; [exact I|rewrite app_assoc, E, <- app_assoc; reflexivity]].
        subst e. destruct (skipn k l) as [|c r] eqn:X.
        -- rewrite <- (firstn_skipn k l) at 2. now rewrite X, app_nil_r.
        -- rewrite app_nil_r. exists (a ++ firstn k l). split; [rewrite <- app_assoc; f_equal; rewrite <- X; symmetry; apply firstn_skipn|reflexivity].
      * destruct D as (y & D). exists y. subst e. destruct (skipn k l) as [|c r] eqn:X; [rewrite app_nil_r; exact D|rewrite app_nil_r; exact D].
  - rewrite app_nil_r in Ws, As. assert (T : z_thread K s = false) by (apply Id; now right). constructor; cbn.
    + exact Ib.
    + discriminate.
    + congruence.
    + auto.
    + exact Io.
    + exact Id.
    + apply Old. discriminate.
    + rewrite Ws, As. auto.
    + unfold copied, ongoing in *. cbn. rewrite Ca, T in *. rewrite Ws, As. exact D.
  - (* Finish called *) rewrite app_nil_r in Ws, As. assert (S0 : z_sent K s = false) by (destruct (z_sent K s); [|reflexivity]; rewrite Ic in F by auto; discriminate). constructor; cbn.
    + exact Ib.
    + discriminate.
    + congruence.
    + auto.
    + reflexivity.
    + exact Id.
    + intros HI. apply Old in HI; congruence.
    + rewrite Ws, As. intros [X|X]; [auto|discriminate].
    + unfold copied, ongoing in *. cbn. rewrite Ca, S0 in D. rewrite Ws, As. exact D.
  - (* Finish returns *) assert (Wn : written_data (tr ++ [if z_shutdown K s then EFinishError else if z_ok K s then EFinishOk else EFinishError]) = written_data tr) by (rewrite Ws; destruct (z_shutdown K s), (z_ok K s); apply app_nil_r).
    assert (An : attempted_data (tr ++ [if z_shutdown K s then EFinishError else if z_ok K s then EFinishOk else EFinishError]) = attempted_data tr) by (rewrite As; destruct (z_shutdown K s), (z_ok K s); apply app_nil_r).
    constructor; cbn.
    + exact Ib.
    + discriminate.
    + intros C. destruct (Ict C). auto.
    + exact Ic.
    + exact Io.
    + exact Id.
    + intros HI. destruct (z_shutdown K s) eqn:Sd; [apply Old; [discriminate|exact HI]|]. destruct (z_ok K s) eqn:O; [|apply Old; [discriminate|exact HI]]. destruct Why as [X|[X|X]]; [discriminate|exact X|discriminate].
    + rewrite Wn, An. auto.
    + unfold copied, ongoing in *. cbn. rewrite Ca in D. rewrite Wn, An. exact D.
  - (* thread *) assert (Wn : written_data (tr ++ [if flush then EFlushed else ESilent]) = written_data tr) by (rewrite Ws; destruct flush; apply app_nil_r).
    assert (An : attempted_data (tr ++ [if flush then EFlushed else ESilent]) = attempted_data tr) by (rewrite As; destruct flush; apply app_nil_r).
    assert (Ne : (if flush then EFlushed else ESilent) <> EFinishOk) by (destruct flush; discriminate).
    constructor; cbn.
    + lia.
    + exact Il.
    + exact Ict.
    + destruct (z_last K s) eqn:La; [intros _; apply Ic; now left|exact Ic].
    + destruct (z_last K s) eqn:La; [discriminate|congruence].
    + intros Hd. apply Id in Hd. congruence.
    + intros HI. apply (Old Ne) in HI. destruct (z_last K s); [reflexivity|exact HI].
    + intros _. rewrite Wn, An. auto.
    + unfold copied, ongoing in *. cbn. rewrite Wn. rewrite T in D. destruct (z_sent K s) eqn:Sn.
      * assert (La : z_last K s = false) by (destruct (z_last K s); [specialize (Io eq_refl); congruence|reflexivity]). rewrite La in *. destruct D as (D & Bu & En).
        assert (Fu : is_full K cap s = false) by (unfold is_full; rewrite Bu; apply Nat.eqb_neq; cbn; lia). rewrite Fu in Fl. cbn in Fl. subst flush m. rewrite Bu in Lo.
        destruct (loop_ok_ended _ _ _ Lo (En eq_refl)) as (-> & E2). rewrite app_nil_r. auto.
      * destruct D as (x & y & Cx & I & E). pose proof (loop_ok_inv _ _ _ _ _ Lo _ _ I) as R. destruct (z_last K s) eqn:La.
        -- subst m. destruct R as (E2 & R). rewrite <- E in R. split; [|auto]. rewrite R. f_equal. destruct (z_call K s) as [|w l|] eqn:Cl; auto. destruct (Il _ _ eq_refl) as (_ & X). rewrite Ic in X by auto. discriminate.
        -- exists x, (y ++ z_buf K s). split; [exact Cx|]. split; [|rewrite app_nil_r; exact E]. subst m. destruct flush; [apply R|exact R].
  - (* thread fails *) rewrite app_nil_r in Ws, As. constructor; cbn.
    + exact Ib.
    + exact Il.
    + exact Ict.
    + exact Ic.
    + exact Io.
    + reflexivity.
    + apply Old. discriminate.
    + rewrite Ws, As. intros _. apply Ine. now left.
    + unfold ongoing in *. cbn. rewrite T in D. rewrite Ws, As. destruct (z_sent K s) eqn:Sn.
      * assert (La : z_last K s = false) by (destruct (z_last K s); [specialize (Io eq_refl); congruence|reflexivity]). rewrite La in *. destruct D as (D & Bu & En).
        assert (Fu : is_full K cap s = false) by (unfold is_full; rewrite Bu; apply Nat.eqb_neq; cbn; lia). rewrite Fu in Fl. cbn in Fl. subst flush m. rewrite Bu in Lo.
        rewrite (loop_fail_ended _ _ Lo (En eq_refl)), app_nil_r. split; [exact D|]. split; [exact Bu|discriminate].
      * destruct D as (x & y & Cx & I & E). destruct (loop_fail_inv _ _ _ _ Lo _ _ I) as (z & Z). rewrite <- E in Z. destruct (copied_prefix _ _ _ Cx) as (t & P). unfold ongoing in P. rewrite (Ine (or_introl T)), P, Z, <- app_assoc. eauto.
  - (* shutdown *) rewrite app_nil_r in Ws, As. constructor; cbn.
    + exact Ib.
    + exact Il.
    + congruence.
    + exact Ic.
    + exact Io.
    + reflexivity.
    + apply Old. discriminate.
    + rewrite Ws, As. intros [X|X]; [discriminate|auto].
    + unfold ongoing in *. cbn. rewrite Ca in *. rewrite Ws, As. destruct (z_sent K s) eqn:Sn; [destruct D as (D & Bu & _); split; [exact D|]; split; [exact Bu|discriminate]|].
      destruct (z_thread K s) eqn:T; [|exact D]. destruct D as (x & y & Cx & I & E). destruct (c_prefix K L _ _ _ I) as (t & P & _). unfold copied in Cx. rewrite Ca in Cx. subst x.
      rewrite (Ine (or_introl eq_refl)), app_nil_r, E, P, <- app_assoc. eauto.
Qed.
Lemma inv_run tr s : zrun K cap (z_init K) tr s -> inv s tr.
Proof. induction 1 as [|tr s e s2 _ IH St]; [apply inv_init|]. exact (inv_step _ _ _ _ IH St). Qed.

(** Flushes. *)
Lemma flushed_data s tr s2 : inv s tr -> zstep K cap s EFlushed s2 -> z_call K s2 = Idle -> z_finish_called K s2 = false ->
  dec K (z_wire K s2) = (written_data tr, Open).
Proof.
  intros I H Ca F. remember EFlushed as e eqn:Ee. destruct H as [s C|s d C Ca' F' Sd O|s C Ca' F' Sd O|s d C Ca' F' Sd O Nd|s d l Ca' Why|s d l e Ca' Sd O Room k Ee'|s C Ca' F' Sd O|s C Ca' F' Sd O|s Ca' Why|s flush m o c2 T Sd Fl M Lo|s flush m o c2 T Sd Fl M Lo|s C Ca']; try discriminate.
  - subst e. destruct (skipn k l); discriminate.
  - destruct (z_shutdown K s), (z_ok K s); discriminate.
  - destruct flush; [|discriminate]. cbn in Ca, F |- *.
    assert (La : z_last K s = false) by (destruct (z_last K s); [discriminate|reflexivity]).
    assert (Sn : z_sent K s = false) by (destruct (z_sent K s) eqn:X; [|reflexivity]; rewrite (i_called s tr I) in F by auto; discriminate).
    pose proof (i_data s tr I) as D. rewrite Sn, T in D. destruct D as (x & y & Cx & Ci & E). rewrite La in M. subst m.
    pose proof (loop_ok_inv _ _ _ _ _ Lo _ _ Ci) as (_ & R). rewrite <- E in R. unfold copied in Cx. rewrite Ca in Cx. subst x. exact R.
Qed.
(** What is on the wire is always a prefix. *)
Lemma wire_prefix s tr : inv s tr -> exists y, attempted_data tr ++ ongoing s = fst (dec K (z_wire K s)) ++ y.
Proof.
  intros I. pose proof (i_data s tr I) as D. destruct (z_sent K s) eqn:Sn.
  - destruct D as (D & _). rewrite D, (i_noerr s tr I) by auto. cbn [fst]. eauto.
  - destruct (z_thread K s) eqn:T; [|exact D]. destruct D as (x & y & Cx & Ci & E). destruct (c_prefix K L _ _ _ Ci) as (t & P & _). destruct (copied_prefix _ _ _ Cx) as (u & U).
    rewrite (i_noerr s tr I), U, E, P, <- !app_assoc by auto. eauto.
Qed.


(** ** After the constructor has returned *)
Lemma inv_started : inv (z_started K) [].
Proof.
  constructor; cbn.
  - lia.
  - discriminate.
  - discriminate.
  - intros [X|X]; discriminate.
  - discriminate.
  - intros [X|X]; discriminate.
  - tauto.
  - reflexivity.
  - exists [], []. split; [reflexivity|]. split; [apply c_start|reflexivity].
Qed.
Record inv2 (s : zs K) : Prop := mkinv2 {
  j_ctor : z_ctor K s = false;
  j_dead : z_thread K s = false -> z_ok K s = false \/ z_shutdown K s = true;
  j_down : z_shutdown K s = true -> z_call K s = Idle;
  j_fin : z_call K s = Finishing -> z_last K s = true \/ z_sent K s = true;
  j_writing : forall w l, z_call K s = Writing w l -> z_last K s = false }.
Lemma inv2_started : inv2 (z_started K).
Proof. constructor; cbn; try discriminate; auto. Qed.
Lemma inv2_step s tr e s2 : inv s tr -> inv2 s -> zstep K cap s e s2 -> inv2 s2.
Proof.
  intros I [Jc Jd Js Jf Jw] H. destruct H as [s C|s d C Ca F Sd O|s C Ca F Sd O|s d C Ca F Sd O Nd|s d l Ca Why|s d l e Ca Sd O Room k Ee|s C Ca F Sd O|s C Ca F Sd O|s Ca Why|s flush m o c2 T Sd Fl M Lo|s flush m o c2 T Sd Fl M Lo|s C Ca].
  - congruence.
  - constructor; auto.
  - constructor; auto.
  - constructor; cbn; auto; try congruence. intros w l _. destruct (z_last K s) eqn:La; [|reflexivity]. rewrite (i_called s tr I) in F by auto. discriminate.
  - constructor; cbn; auto; try discriminate.
  - constructor; cbn; auto.
    + intros X. congruence.
    + destruct (skipn k l); discriminate.
    + intros w l2 _. exact (Jw _ _ Ca).
  - constructor; cbn; auto; try discriminate.
  - constructor; cbn; auto; try discriminate. congruence.
  - constructor; cbn; auto; try discriminate.
  - constructor; cbn; auto; try discriminate.
    + intros X. specialize (Jf X). destruct (z_last K s); auto.
    + intros w l X. specialize (Jw w l X). destruct (z_last K s); auto.
  - constructor; cbn; auto.
  - constructor; cbn; auto.
Qed.
Lemma run_started tr s : zrun K cap (z_started K) tr s -> inv s tr /\ inv2 s.
Proof.
  induction 1 as [|tr s e s2 _ IH St]; [split; [apply inv_started|apply inv2_started]|]. destruct IH as (I & J). split; [exact (inv_step _ _ _ _ I St)|exact (inv2_step _ _ _ _ I J St)].
Qed.

(** Errors stay. *)
Definition failed_state (s : zs K) : Prop := z_ok K s = false /\ z_ctor K s = false /\ z_call K s = Idle.
Lemma error_event s tr e s2 : inv s tr -> inv2 s -> zstep K cap s e s2 -> ((exists d, e = EWriteError d) \/ e = EFinishError) -> failed_state s2.
Proof.
  intros I [Jc Jd Js Jf Jw] H E. destruct H as [s C|s d C Ca F Sd O|s C Ca F Sd O|s d C Ca F Sd O Nd|s d l Ca Why|s d l e Ca Sd O Room k Ee|s C Ca F Sd O|s C Ca F Sd O|s Ca Why|s flush m o c2 T Sd Fl M Lo|s flush m o c2 T Sd Fl M Lo|s C Ca];
    try (destruct E as [(x & E)|E]; discriminate).
  - repeat split; auto.
  - repeat split; cbn; auto. destruct Why as [X|X]; [|exact X]. rewrite (Js X) in Ca. discriminate.
  - subst e. destruct E as [(x & E)|E]; destruct (skipn k l); discriminate.
  - repeat split; cbn; auto.
  - repeat split; cbn; auto. destruct (z_shutdown K s) eqn:X; [rewrite (Js eq_refl) in Ca; discriminate|]. destruct (z_ok K s); [|reflexivity]. destruct E as [(x & E)|E]; discriminate.
  - destruct E as [(x & E)|E]; destruct flush; discriminate.
Qed.
Lemma failed_step s e s2 : failed_state s -> zstep K cap s e s2 -> failed_state s2 /\ (forall d, e <> EWriteOk d) /\ e <> EFinishOk.
Proof.
  intros (O & C & Ca) H. destruct H; try congruence.
  - repeat split; auto; discriminate.
  - repeat split; auto; discriminate.
  - repeat split; cbn; auto; destruct flush; discriminate.
  - repeat split; auto; discriminate.
  - repeat split; auto; discriminate.
Qed.
Lemma zrun_app s0 tr1 tr2 s2 : zrun K cap s0 (tr1 ++ tr2) s2 -> exists s1, zrun K cap s0 tr1 s1 /\ zrun K cap s1 tr2 s2.
Proof.
  revert s2. induction tr2 as [|e tr2 IH] using rev_ind; intros s2 H.
  - rewrite app_nil_r in H. exists s2. split; [exact H|constructor].
  - rewrite app_assoc in H. inversion H as [X|tr s e' s2' R St X]; [destruct (tr1 ++ tr2); discriminate|]. apply app_inj_tail in X. destruct X as (-> & ->).
    destruct (IH _ R) as (s1 & R1 & R2). exists s1. split; [exact R1|]. econstructor; eauto.
Qed.
Lemma failed_run s tr s2 : failed_state s -> zrun K cap s tr s2 -> failed_state s2 /\ (forall d, ~ In (EWriteOk d) tr) /\ ~ In EFinishOk tr.
Proof.
  intros F H. induction H as [|tr s1 e s2 _ IH St]; [split; [exact F|]; split; [intros d []|intros []]|].
  destruct IH as (F1 & N1 & N2). destruct (failed_step _ _ _ F1 St) as (F2 & M1 & M2). split; [exact F2|]. split.
  - intros d HI. apply in_app_or in HI. destruct HI as [HI|[HI|[]]]; [exact (N1 d HI)|exact (M1 d HI)].
  - intros HI. apply in_app_or in HI. destruct HI as [HI|[HI|[]]]; [exact (N2 HI)|exact (M2 HI)].
Qed.
Lemma error_sticky tr1 e tr2 s : zrun K cap (z_started K) (tr1 ++ e :: tr2) s -> ((exists d, e = EWriteError d) \/ e = EFinishError) ->
  (forall d, ~ In (EWriteOk d) tr2) /\ ~ In EFinishOk tr2.
Proof.
  intros H E. change (e :: tr2) with ([e] ++ tr2) in H. rewrite app_assoc in H. destruct (zrun_app _ _ _ _ H) as (s1 & R1 & R2).
  inversion R1 as [X|tr s0 e' s1' R St X]; [destruct tr1; discriminate|]. apply app_inj_tail in X. destruct X as (-> & ->). subst s1'.
  destruct (run_started _ _ R) as (I & J). exact (proj2 (failed_run _ _ _ (error_event _ _ _ _ I J St E) R2)).
Qed.

(** ** Calls return *)
Lemma loop_total m : forall c i, exists o c2, loop_ok K m c i o c2.
Proof.
  intros c i. remember (c_rank K L c m i) as r eqn:Er. revert c i Er. induction r as [r IH] using lt_wf_ind. intros c i ->.
  destruct (c_total K L c m i) as (n & o & f & c2 & C). destruct (loop_finished m i n f) eqn:F.
  - exists o, c2. econstructor; eauto.
  - destruct (IH (c_rank K L c2 m (skipn n i)) (c_progress K L _ _ _ _ _ _ _ C F) c2 (skipn n i) eq_refl) as (o2 & c3 & H). exists (o ++ o2), c3. econstructor 2; eauto.
Qed.
Lemma enabled s tr : inv s tr -> inv2 s -> z_call K s <> Idle -> exists e s2, zstep K cap s e s2 /\ e <> EFlushed.
Proof.
  intros I [Jc Jd Js Jf Jw] N. assert (Sd : z_shutdown K s = false) by (destruct (z_shutdown K s); [rewrite Js in N by reflexivity; contradiction|reflexivity]).
  destruct (z_ok K s) eqn:O.
  2:{ destruct (z_call K s) as [|w l|] eqn:Ca; [contradiction| |].
      - eexists _, _. split; [eapply Z_write_fails; eauto|discriminate].
      - eexists _, _. split; [eapply Z_finish_return; eauto|]. rewrite Sd, O. discriminate. }
  assert (T : z_thread K s = true) by (destruct (z_thread K s); [reflexivity|]; destruct (Jd eq_refl); congruence).
  destruct (z_call K s) as [|w l|] eqn:Ca; [contradiction| |].
  - destruct (Nat.lt_ge_cases (length (z_buf K s)) cap) as [R|R].
    + eexists _, _. split; [eapply Z_copy; eauto|]. destruct (skipn _ l); discriminate.
    + assert (Fu : is_full K cap s = true) by (pose proof (i_buf s tr I); unfold is_full; apply Nat.eqb_eq; lia).
      destruct (loop_total (if z_last K s then MEnd else MContinue) (z_ctx K s) (z_buf K s)) as (o & c2 & Lo).
      eexists _, _. split; [eapply (Z_thread K cap s false _ o c2 T Sd); [rewrite Fu, orb_true_r; reflexivity|reflexivity|exact Lo]|]. discriminate.
  - destruct (z_last K s) eqn:La.
    + destruct (loop_total MEnd (z_ctx K s) (z_buf K s)) as (o & c2 & Lo).
      eexists _, _. split; [eapply (Z_thread K cap s false _ o c2 T Sd); [rewrite La; reflexivity|rewrite La; reflexivity|exact Lo]|]. discriminate.
    + destruct (Jf eq_refl) as [X|X]; [discriminate|]. eexists _, _. split; [eapply Z_finish_return; eauto|]. rewrite Sd, O. discriminate.
Qed.
Definition to_copy (s : zs K) : nat := match z_call K s with Writing _ l => length l | _ => 0 end.
Definition mu (s : zs K) : nat := 2 * to_copy s + (if is_full K cap s then 1 else 0) + (if z_last K s then 1 else 0) + (if z_thread K s then 1 else 0).
Lemma mu_step s tr e s2 : inv s tr -> inv2 s -> z_call K s <> Idle -> zstep K cap s e s2 -> completion e = false ->
  z_call K s2 <> Idle /\ (mu s2 + (match e with EFlushed => 0 | _ => 1 end) <= mu s)%nat.
Proof.
  intros I [Jc Jd Js Jf Jw] N H Nc. destruct H as [s C|s d C Ca F Sd O|s C Ca F Sd O|s d C Ca F Sd O Nd|s d l Ca Why|s d l e Ca Sd O Room k Ee|s C Ca F Sd O|s C Ca F Sd O|s Ca Why|s flush m o c2 T Sd Fl M Lo|s flush m o c2 T Sd Fl M Lo|s C Ca];
    try discriminate; try congruence.
  - unfold mu, to_copy, is_full. cbn. rewrite Ca. assert (Nf : (length (z_buf K s) =? cap)%nat = false) by (apply Nat.eqb_neq; lia). rewrite Nf.
    destruct (skipn k l) as [|x r] eqn:X; [subst e; discriminate|]. subst e. split; [discriminate|]. pose proof (f_equal (@length BinNums.N) X) as Y. rewrite skipn_length in Y.
    destruct (i_left s tr I _ _ Ca) as (Nl & _). assert (Pl : (0 < length l)%nat) by (destruct l; [contradiction|cbn; lia]). unfold k in Y. cbn [length] in Y |- *. destruct (length (z_buf K s ++ firstn k l) =? cap)%nat; lia.
  - destruct (z_shutdown K s), (z_ok K s); discriminate.
  - cbn [z_call]. split; [exact N|]. unfold mu, to_copy, is_full. cbn. rewrite T. unfold is_full in Fl. replace (match cap with 0%nat => true | S _ => false end) with false by (destruct cap; [lia|reflexivity]).
    destruct (z_last K s), (length (z_buf K s) =? cap)%nat; cbn in Fl; subst flush; lia.
  - cbn [z_call]. split; [exact N|]. unfold mu, to_copy, is_full. cbn. rewrite T. lia.
Qed.
Lemma call_returns tr s tr2 s2 : zrun K cap (z_started K) tr s -> z_call K s <> Idle -> zrun K cap s tr2 s2 -> forallb (fun e => negb (completion e)) tr2 = true ->
  zrun K cap (z_started K) (tr ++ tr2) s2 /\ z_call K s2 <> Idle /\ (mu s2 + length (filter (fun e => negb (is_flushed e)) tr2) <= mu s)%nat.
Proof.
  intros R N H. induction H as [|tr2 s1 e s2 _ IH St]; intros F.
  - rewrite app_nil_r. split; [exact R|]. split; [exact N|cbn; lia].
  - rewrite forallb_app in F. apply andb_prop in F. destruct F as (F1 & F2). cbn in F2. rewrite andb_true_r in F2. apply negb_true_iff in F2. destruct (IH F1) as (R1 & N1 & M1).
    destruct (run_started _ _ R1) as (I & J). destruct (mu_step _ _ _ _ I J N1 St F2) as (N2 & M2). split; [rewrite app_assoc; econstructor; eauto|]. split; [exact N2|].
    rewrite filter_app, app_length. destruct e; cbn in *; try discriminate; lia.
Qed.
End Sending.

(** * The receiving side *)
Section Receiving.
Variable K : codec.
Variable L : laws K.

(** The reader has still [x] to give; [cs] is the rest of the frame. *)
Definition gives (r : reader K) (cs : list str) (x : str) : Prop :=
  exists v y, d_inv K L (r_ctx K r) v y /\ dec K (v ++ r_in K r ++ concat cs) = (y ++ x, Done []).

Lemma read_loop_spec : forall fuel r cs c3 room acc x, gives r cs x -> (length cs + 2 <= fuel)%nat ->
  (exists r2 cs2, read_loop K fuel r (cs ++ c3) room acc = RRead K (acc ++ firstn room x) false r2 (cs2 ++ c3) /\ gives r2 cs2 (skipn room x) /\ (room <= length x)%nat)
  \/ (exists r2 cs2, read_loop K fuel r (cs ++ c3) room acc = RRead K (acc ++ x) true r2 (cs2 ++ c3) /\ concat cs2 = [] /\ (length x <= room)%nat /\ (0 < room)%nat).
Proof.
  induction fuel as [|fuel IH]; intros r cs c3 room acc x G Lf; [lia|].
  destruct (Nat.eq_dec room 0) as [->|P].
  { left. exists r, cs. cbn. rewrite app_nil_r. split; [reflexivity|]. split; [exact G|lia]. }
  destruct G as (v & y & Di & E). destruct (d_step K L _ _ _ _ _ _ room Di E ltac:(lia)) as (n & o & e & d2 & C & Ln & Lo & Di2 & (z & Z) & Ee & Ne).
  apply app_inv_head in Z. subst x. destruct room as [|room]; [lia|]. cbn [read_loop]. rewrite C. destruct e.
  - destruct Ee as (Ee & _). specialize (Ee eq_refl). rewrite <- (firstn_skipn n (r_in K r)), <- app_assoc, app_assoc in E. rewrite (dec_done K L _ _ _ (skipn n (r_in K r) ++ concat cs) Ee) in E.
    injection E as E1 E2. apply app_inv_head in E1. assert (z = []) as ->.
    { apply (f_equal (@length N)) in E1. rewrite !app_length in E1. destruct z; [reflexivity|cbn in E1; lia]. }
    apply app_eq_nil in E2. destruct E2 as (E2 & E3). rewrite E2. right. exists (mkreader K d2 []), cs. rewrite app_nil_r. repeat split; [exact E3|exact Lo|lia].
  - destruct (length o <? S room)%nat eqn:Lt.
    + apply Nat.ltb_lt in Lt. destruct (Ne eq_refl Lt) as (-> & Fd). rewrite skipn_all. rewrite firstn_all in *. cbn [andb].
      destruct cs as [|c cs].
      { exfalso. cbn [concat] in E. rewrite app_nil_r in E. rewrite E in Fd. cbn [fst] in Fd. rewrite <- (app_nil_r (y ++ o)), app_assoc in Fd. apply app_inv_head in Fd. subst z. rewrite app_nil_r in E. assert (false = true) by (apply Ee; exact E). discriminate. }
      cbn [app]. assert (G2 : gives (mkreader K d2 c) cs z).
      { exists (v ++ r_in K r), (y ++ o). split; [exact Di2|]. cbn [r_in]. cbn [concat] in E. rewrite <- !app_assoc. exact E. }
      cbn [length] in Lf. destruct (IH _ _ c3 (S room - length o)%nat (acc ++ o) _ G2 ltac:(lia)) as [(r2 & cs2 & R & G3 & Le)|(r2 & cs2 & R & Cn & Le & Pr)].
      * left. exists r2, cs2. split; [rewrite R; f_equal; rewrite firstn_app, <- app_assoc; f_equal; f_equal; symmetry; apply firstn_all2; lia|]. split; [rewrite skipn_app, (skipn_all2 o) by lia; exact G3|rewrite app_length; lia].
      * right. exists r2, cs2. split; [rewrite R, <- app_assoc; reflexivity|]. split; [exact Cn|]. rewrite app_length. lia.
    + apply Nat.ltb_ge in Lt. assert (Eo : length o = S room) by lia. rewrite andb_false_r. left. exists (mkreader K d2 (skipn n (r_in K r))), cs.
      replace (S room - length o)%nat with 0%nat by lia. assert (Rl : read_loop K fuel (mkreader K d2 (skipn n (r_in K r))) (cs ++ c3) 0 (acc ++ o) = RRead K (acc ++ o) false (mkreader K d2 (skipn n (r_in K r))) (cs ++ c3)) by (destruct fuel; reflexivity).
      rewrite Rl. split; [f_equal; rewrite <- Eo, firstn_app, firstn_all, Nat.sub_diag, app_nil_r; reflexivity|]. split; [|rewrite app_length; lia].
      exists (v ++ firstn n (r_in K r)), (y ++ o). split; [exact Di2|]. cbn [r_in]. rewrite <- Eo, skipn_app, skipn_all, Nat.sub_diag. cbn [app skipn].
      rewrite <- !app_assoc. rewrite (app_assoc (firstn n (r_in K r))), firstn_skipn. exact E.
Qed.

Lemma take_spec : forall cs c3 a b, concat cs = a ++ b -> exists cs2, take (cs ++ c3) (length a) = Some (a, cs2 ++ c3) /\ concat cs2 = b.
Proof.
  induction cs as [|c cs IH]; intros c3 a b E.
  - destruct a; [|discriminate]. cbn in E. subst b. exists []. destruct c3; split; reflexivity.
  - cbn [concat] in E. destruct a as [|h a].
    { exists (c :: cs). split; [reflexivity|exact E]. }
    cbn [app take length]. destruct (length c <=? S (length a))%nat eqn:Le.
    + apply Nat.leb_le in Le. assert (Ea : h :: a = c ++ skipn (length c) (h :: a)).
      { rewrite <- (firstn_skipn (length c) (h :: a)) at 1. f_equal. apply (f_equal (firstn (length c))) in E. rewrite firstn_app, firstn_all, Nat.sub_diag, app_nil_r in E.
        rewrite firstn_app in E. replace (length c - length (h :: a))%nat with 0%nat in E by (cbn [length]; lia). cbn [firstn] in E. rewrite app_nil_r in E. symmetry. exact E. }
      rewrite Ea in E. rewrite <- app_assoc in E. apply app_inv_head in E. destruct (IH c3 _ _ E) as (cs2 & T & Cb). exists cs2. split; [|exact Cb].
      replace (S (length a) - length c)%nat with (length (skipn (length c) (h :: a))) by (rewrite skipn_length; reflexivity). rewrite T. f_equal. f_equal. symmetry. exact Ea.
    + apply Nat.leb_gt in Le. exists (skipn (S (length a)) c :: cs). split.
      * f_equal. f_equal. apply (f_equal (firstn (length (h :: a)))) in E. rewrite !firstn_app, firstn_all, !Nat.sub_diag in E. cbn [firstn] in E. rewrite app_nil_r in E.
        replace (length (h :: a) - length c)%nat with 0%nat in E by (cbn [length]; lia). rewrite app_nil_r in E. exact E.
      * cbn [concat]. apply (f_equal (skipn (length (h :: a)))) in E. rewrite !skipn_app, skipn_all, Nat.sub_diag in E. replace (length (h :: a) - length c)%nat with 0%nat in E by (cbn [length]; lia). exact E.
Qed.
Lemma take_short : forall cs n, (length (concat cs) < n)%nat -> take cs n = None.
Proof.
  induction cs as [|c cs IH]; intros n Ln; [destruct n; [cbn in Ln; lia|reflexivity]|]. cbn [concat] in Ln. rewrite app_length in Ln. destruct n as [|n]; [lia|]. cbn [take].
  rewrite (proj2 (Nat.leb_le _ _)) by lia. rewrite IH by lia. reflexivity.
Qed.

Lemma receive_raw cs c3 a b : concat cs = a ++ b -> exists cs2, do_receive K (mkconn K None (cs ++ c3)) (length a) = Received a (mkconn K None (cs2 ++ c3)) /\ concat cs2 = b.
Proof.
  intros E. unfold do_receive. destruct (length a =? 0)%nat eqn:Z.
  - apply Nat.eqb_eq in Z. destruct a; [|discriminate]. exists cs. split; [reflexivity|exact E].
  - cbn [n_reader n_socket]. destruct (take_spec cs c3 a b E) as (cs2 & -> & Cb). eauto.
Qed.
Lemma receive_frame r cs c3 a b : gives r cs (a ++ b) -> (0 < length a)%nat ->
  (exists r2 cs2, do_receive K (mkconn K (Some r) (cs ++ c3)) (length a) = Received a (mkconn K (Some r2) (cs2 ++ c3)) /\ gives r2 cs2 b)
  \/ (exists cs2, do_receive K (mkconn K (Some r) (cs ++ c3)) (length a) = Received a (mkconn K None (cs2 ++ c3)) /\ concat cs2 = [] /\ b = []).
Proof.
  intros G P. unfold do_receive. rewrite (proj2 (Nat.eqb_neq _ _)) by lia. cbn [n_reader n_socket]. unfold read.
  destruct (read_loop_spec (length (cs ++ c3) + 2) r cs c3 (length a) [] _ G ltac:(rewrite app_length; lia)) as [(r2 & cs2 & R & G2 & _)|(r2 & cs2 & R & Cn & Le & _)]; rewrite R.
  - left. exists r2, cs2. rewrite skipn_app, skipn_all, Nat.sub_diag in G2. rewrite firstn_app, firstn_all, Nat.sub_diag, app_nil_r. cbn [andb app]. rewrite Nat.eqb_refl. auto.
  - rewrite app_length in Le. assert (b = []) as -> by (destruct b; [reflexivity|cbn in Le; lia]). right. exists cs2. rewrite app_nil_r in *. cbn [app]. rewrite Nat.ltb_irrefl, andb_false_r, Nat.eqb_refl. auto.
Qed.
Lemma receive_end r cs c3 n : gives r cs [] -> (0 < n)%nat -> exists cs2, concat cs2 = [] /\ do_receive K (mkconn K (Some r) (cs ++ c3)) n = do_receive K (mkconn K None (cs2 ++ c3)) n.
Proof.
  intros G P. unfold do_receive. rewrite (proj2 (Nat.eqb_neq _ _)) by lia. cbn [n_reader n_socket]. unfold read.
  destruct (read_loop_spec (length (cs ++ c3) + 2) r cs c3 n [] _ G ltac:(rewrite app_length; lia)) as [(r2 & cs2 & _ & _ & Le)|(r2 & cs2 & R & Cn & _ & _)]; [cbn in Le; lia|].
  rewrite R. cbn [app length]. exists cs2. split; [exact Cn|]. cbn [andb Nat.ltb Nat.leb]. destruct n; [lia|]. reflexivity.
Qed.

(** Packets *)
Lemma framed_shape p : good_packet p -> exists h1 h2 h3, framed p = [fst p; h1; h2; h3] ++ snd p /\ N.to_nat (N.lor (N.lor h1 (N.shiftl h2 8)) (N.shiftl h3 16)) = length (snd p) /\
    (kMaxPacketSize <? N.lor (N.lor h1 (N.shiftl h2 8)) (N.shiftl h3 16))%N = false /\ (kCount <=? fst p)%N = false.
Proof.
  intros (T & S). set (n := N.of_nat (length (snd p))) in *.
  exists (n mod 256)%N, ((n / 256) mod 256)%N, (n / 65536)%N. split; [reflexivity|].
  assert (X : (n <= 2 ^ 24 - 1)%N) by (change (2 ^ 24)%N with 16777216%N in *; lia).
  pose proof (ProofPump.size_roundtrip n X) as R. rewrite !ProofPump.land_255, !N.shiftr_div_pow2 in R. change (2 ^ 8)%N with 256%N in R. change (2 ^ 16)%N with 65536%N in R.
  rewrite (N.mod_small (n / 65536)) in R by (apply N.div_lt_upper_bound; [lia|]; change (2 ^ 24)%N with 16777216%N in *; lia). rewrite R.
  split; [unfold n; apply Nnat.Nat2N.id|]. split; [apply N.ltb_ge; exact X|apply N.leb_gt; exact T].
Qed.
Definition new_reader : reader K := mkreader K (d_init K) [].
Lemma packet_raw p cs c3 b : good_packet p -> concat cs = framed p ++ b ->
  exists cs2, do_receive_packet K (mkconn K None (cs ++ c3)) = Received p (mkconn K (if (fst p =? 3)%N then Some new_reader else None) (cs2 ++ c3)) /\ concat cs2 = b.
Proof.
  intros Gp E. destruct (framed_shape p Gp) as (h1 & h2 & h3 & Sh & Sz & B1 & B2). rewrite Sh, <- app_assoc in E.
  destruct (receive_raw _ c3 _ _ E) as (cs1 & R1 & C1). destruct (receive_raw _ c3 _ _ C1) as (cs2 & R2 & C2). exists cs2. split; [|exact C2].
  unfold do_receive_packet. change 4%nat with (length [fst p; h1; h2; h3]). rewrite R1, B2, B1, Sz, R2. cbn [n_reader n_socket]. unfold kToggleCompression. destruct p as (t & d). cbn [fst snd]. destruct (t =? 3)%N; reflexivity.
Qed.
Lemma packet_frame p r cs c3 b : plain p -> gives r cs (framed p ++ b) ->
  (exists r2 cs2, do_receive_packet K (mkconn K (Some r) (cs ++ c3)) = Received p (mkconn K (Some r2) (cs2 ++ c3)) /\ gives r2 cs2 b)
  \/ (exists cs2, do_receive_packet K (mkconn K (Some r) (cs ++ c3)) = Received p (mkconn K None (cs2 ++ c3)) /\ concat cs2 = [] /\ b = []).
Proof.
  intros (Gp & Nt) G. destruct (framed_shape p Gp) as (h1 & h2 & h3 & Sh & Sz & B1 & B2). rewrite Sh, <- app_assoc in G. unfold do_receive_packet. change 4%nat with (length [fst p; h1; h2; h3]).
  assert (Tg : (fst p =? kToggleCompression)%N = false) by (apply N.eqb_neq; exact Nt).
  destruct (receive_frame r cs c3 _ _ G ltac:(cbn; lia)) as [(r1 & cs1 & R1 & G1)|(cs1 & R1 & C1 & Nl)]; rewrite R1, B2, B1, Sz, Tg.
  - destruct (Nat.eq_dec (length (snd p)) 0) as [Z|Z].
    + unfold do_receive at 1. rewrite Z. cbn [Nat.eqb]. left. exists r1, cs1. destruct p as (t & d). cbn [fst snd] in *. destruct d; [|discriminate]. split; [reflexivity|exact G1].
    + destruct (receive_frame r1 cs1 c3 _ _ G1 ltac:(lia)) as [(r2 & cs2 & R2 & G2)|(cs2 & R2 & C2 & Nb)]; rewrite R2.
      * left. exists r2, cs2. destruct p. split; [reflexivity|exact G2].
      * right. exists cs2. destruct p. split; [reflexivity|auto].
  - apply app_eq_nil in Nl. destruct Nl as (Np & ->). rewrite Np. cbn [length]. unfold do_receive at 1. cbn [Nat.eqb]. right. exists cs1. destruct p as (t & d). cbn [fst snd] in *. subst d. auto.
Qed.
(** The reader has ended, or is about to. *)
Inductive after (c3 : list str) : conn K -> Prop :=
| af_none cs : concat cs = [] -> after c3 (mkconn K None (cs ++ c3))
| af_end r cs : gives r cs [] -> after c3 (mkconn K (Some r) (cs ++ c3)).
Lemma packet_after c3 n : after c3 n -> exists cs, concat cs = [] /\ do_receive_packet K n = do_receive_packet K (mkconn K None (cs ++ c3)).
Proof.
  intros [cs E|r cs G]; [exists cs; auto|]. destruct (receive_end r cs c3 4 G ltac:(lia)) as (cs2 & E & R). exists cs2. split; [exact E|]. unfold do_receive_packet. rewrite R. reflexivity.
Qed.
Lemma receive_packets_app : forall a b n pa n1, receive_packets K a n = Received pa n1 -> receive_packets K (a + b) n =
  match receive_packets K b n1 with Received pb n2 => Received (pa ++ pb) n2 | Waiting => Waiting | Failed => Failed end.
Proof.
  induction a as [|a IH]; intros b n pa n1 H; cbn in H.
  - injection H as <- <-. cbn. destruct (receive_packets K b n); reflexivity.
  - cbn [receive_packets Nat.add]. destruct (do_receive_packet K n) as [p n2| |] eqn:E; try discriminate. destruct (receive_packets K a n2) as [ps n3| |] eqn:E2; try discriminate. injection H as <- <-.
    rewrite (IH b _ _ _ E2). destruct (receive_packets K b n3); reflexivity.
Qed.
Lemma packets_raw : forall ps cs c3 b, Forall plain ps -> concat cs = framed_all ps ++ b ->
  exists cs2, receive_packets K (length ps) (mkconn K None (cs ++ c3)) = Received ps (mkconn K None (cs2 ++ c3)) /\ concat cs2 = b.
Proof.
  induction ps as [|p ps IH]; intros cs c3 b F E; [exists cs; auto|]. inversion F as [|? ? (Gp & Nt) F2]; subst. unfold framed_all in E. cbn [map concat] in E. rewrite <- app_assoc in E.
  destruct (packet_raw p cs c3 _ Gp E) as (cs1 & R1 & C1). destruct (IH cs1 c3 b F2 C1) as (cs2 & R2 & C2). exists cs2. split; [|exact C2]. cbn [receive_packets length]. rewrite R1.
  rewrite (proj2 (N.eqb_neq _ _) Nt), R2. reflexivity.
Qed.
Lemma framed_not_nil p b : framed p ++ b <> [].
Proof. discriminate. Qed.
Lemma packets_frame : forall ps r cs c3, Forall plain ps -> gives r cs (framed_all ps) ->
  exists n, receive_packets K (length ps) (mkconn K (Some r) (cs ++ c3)) = Received ps n /\ after c3 n.
Proof.
  induction ps as [|p ps IH]; intros r cs c3 F G; [eexists; split; [reflexivity|constructor; exact G]|]. inversion F as [|? ? Gp F2]; subst. unfold framed_all in G. cbn [map concat] in G.
  cbn [receive_packets length]. destruct (packet_frame p r cs c3 _ Gp G) as [(r2 & cs2 & R & G2)|(cs2 & R & C & Nb)]; rewrite R.
  - destruct (IH r2 cs2 c3 F2 G2) as (n & R2 & A). rewrite R2. eauto.
  - destruct ps as [|q ps]; [|discriminate]. cbn. eexists. split; [reflexivity|]. constructor. exact C.
Qed.
Lemma receive_empty n : (0 < n)%nat -> forall cs, concat cs = [] -> do_receive K (mkconn K None cs) n = Waiting.
Proof.
  intros P cs E. unfold do_receive. rewrite (proj2 (Nat.eqb_neq _ _)) by lia. cbn [n_reader n_socket]. rewrite take_short; [reflexivity|]. rewrite E. exact P.
Qed.
(** From any state in which what is before [cs] has been read. *)
Lemma packets_arrive ps cs : arrives K ps cs -> forall n, after cs n -> exists n2, receive_packets K (length ps) n = Received ps n2 /\ do_receive_packet K n2 = Waiting.
Proof.
  assert (First : forall n c3 k (qs : list packet), after c3 n -> (forall cs1, concat cs1 = [] -> exists n2, receive_packets K (S k) (mkconn K None (cs1 ++ c3)) = Received qs n2 /\ do_receive_packet K n2 = Waiting) ->
     exists n2, receive_packets K (S k) n = Received qs n2 /\ do_receive_packet K n2 = Waiting).
  { intros n c3 k qs A H. destruct (packet_after c3 n A) as (cs1 & E & R). destruct (H cs1 E) as (n3 & R2 & W). exists n3. split; [|exact W]. rewrite <- R2. cbn [receive_packets]. rewrite R. reflexivity. }
  intros H. induction H as [ps cs F E|ps toggle zs w cs rest cs2 F Gt T Fz D E _ IH]; intros n A.
  - destruct ps as [|p ps].
    + exists n. split; [reflexivity|]. destruct (packet_after cs n A) as (cs1 & E1 & R). rewrite R. unfold do_receive_packet. rewrite receive_empty; [reflexivity|lia|]. rewrite concat_app, E1, E. reflexivity.
    + apply (First n cs (length ps) (p :: ps) A). intros cs1 E1.
      assert (E2 : concat (cs1 ++ cs) = framed_all (p :: ps) ++ []) by (rewrite concat_app, E1, E, app_nil_r; reflexivity).
      destruct (packets_raw (p :: ps) (cs1 ++ cs) [] [] F E2) as (cs2 & R & C). rewrite !app_nil_r in R. eexists. split; [exact R|]. unfold do_receive_packet. rewrite receive_empty; [reflexivity|lia|exact C].
  - assert (Main : forall cs1, concat cs1 = [] -> exists n2, receive_packets K (length (ps ++ [toggle] ++ zs ++ rest)) (mkconn K None (cs1 ++ cs ++ cs2)) = Received (ps ++ [toggle] ++ zs ++ rest) n2 /\ do_receive_packet K n2 = Waiting).
    { intros cs1 E1. rewrite (app_assoc cs1 cs cs2). unfold framed_all in E. rewrite map_app, concat_app in E. cbn [map concat] in E. rewrite app_nil_r, <- app_assoc in E.
      assert (E2 : concat (cs1 ++ cs) = framed_all ps ++ framed toggle ++ w) by (rewrite concat_app, E1; exact E).
      destruct (packets_raw ps (cs1 ++ cs) cs2 _ F E2) as (cs3 & R3 & C3). destruct (packet_raw toggle cs3 cs2 w Gt C3) as (cs4 & R4 & C4). rewrite T in R4. cbn [N.eqb Pos.eqb] in R4.
      assert (G : gives new_reader cs4 (framed_all zs)). { exists [], []. split; [apply d_start|]. cbn [r_in new_reader app]. rewrite C4. exact D. }
      destruct (packets_frame zs new_reader cs4 cs2 Fz G) as (n5 & R5 & A5). destruct (IH n5 A5) as (n6 & R6 & W). exists n6. split; [|exact W].
      rewrite !app_length. rewrite (receive_packets_app _ _ _ _ _ R3). cbn [length Nat.add receive_packets]. rewrite R4. rewrite (receive_packets_app _ _ _ _ _ R5), R6. reflexivity. }
    assert (Ln : exists k, length (ps ++ [toggle] ++ zs ++ rest) = S k) by (exists (length ps + length (zs ++ rest))%nat; rewrite !app_length; cbn [length]; lia).
    destruct Ln as (k & Lk). rewrite Lk in *. exact (First n (cs ++ cs2) k _ A Main).
Qed.
End Receiving.
