(** Proofs for C18: the run that does not end well, and files that are small enough. *)
From Verif Require Import Base ListX ModelFastcdc SpecFastcdc ProofFastcdc ModelCdc SpecCdc ModelFileDiff ModelBatch SpecBatch PropCdc PropBatch ModelProtocol SpecProtocol ProofProtocol ProofProtocolRun.
Local Open Scope N_scope.

Section Bad.
Variable size : packet -> N.
Variable cap_out cap_wire cap_in : N.
Hypothesis Pos : 0 < cap_out /\ 0 < cap_wire /\ 0 < cap_in.
Hypothesis Sz : forall p, 1 <= size p.
Notation step := (step size cap_out cap_wire cap_in).
Notation reach := (reach size cap_out cap_wire cap_in).
Notation stuck := (stuck size cap_out cap_wire cap_in).
Notation total := (total size).

Lemma total_length l : N.of_nat (length l) <= total l.
Proof. induction l as [|p l IH]; [cbn; lia|]. rewrite total_cons. cbn [length]. specialize (Sz p). lia. Qed.

(** Both sides send and nobody receives. *)
Definition queue_ok (c : chan) : Prop :=
  N.of_nat (length (ch_out c)) <= cap_out /\ N.of_nat (length (ch_wire c)) <= cap_wire /\ N.of_nat (length (ch_in c)) <= cap_in.
Definition in_flight (c : chan) : nat := (length (ch_out c) + length (ch_wire c) + length (ch_in c))%nat.
Variables (q : packet) (g : packet) (c0 m0 : proc) (n : nat).
Hypothesis Big : cap_out + cap_wire + cap_in < N.of_nat n.
Definition both_send (s : net) : Prop :=
  exists a b ps, n_client s = send_all (repeat q a) c0 /\ n_server s = send_all (repeat g b) m0 /\ n_tasks s = [] /\ n_patched s = ps /\
    queue_ok (n_c2s s) /\ queue_ok (n_s2c s) /\ (a + in_flight (n_c2s s) = n)%nat /\ (b + in_flight (n_s2c s) = n)%nat.
Definition togo (c : chan) : nat := (3 * n - (length (ch_out c) + 2 * length (ch_wire c) + 3 * length (ch_in c)))%nat.
Definition left_over (s : net) : nat := (togo (n_c2s s) + togo (n_s2c s))%nat.

Lemma some_left a c : queue_ok c -> (a + in_flight c = n)%nat -> exists a', a = S a'.
Proof. intros (A & B & C) E. unfold in_flight in E. destruct a; [lia|eauto]. Qed.

Lemma both_send_step act s s' : both_send s -> step act s = Some s' -> both_send s' /\ (left_over s' < left_over s)%nat.
Proof.
  intros (a & b & ps & Ec & Es & Et & Ep & Q1 & Q2 & N1 & N2) E.
  destruct (some_left a _ Q1 N1) as (a' & ->). destruct (some_left b _ Q2 N2) as (b' & ->).
  destruct s as [cl sv ts pa c d]. cbn [n_client n_server n_tasks n_patched n_c2s n_s2c] in *. subst cl sv ts pa.
  assert (Snd : forall p x y, queue_ok x -> ch_send size cap_out p x = Some y -> queue_ok y /\ in_flight y = S (in_flight x) /\ (in_flight y <= n -> togo y < togo x)%nat).
  { intros p [o wi i] y (A & B & C) H. unfold ch_send in H. cbn [ch_out ch_wire ch_in] in *. destruct (N.ltb_spec (total o) cap_out) as [L|]; [|discriminate]. inversion H; subst; clear H.
    pose proof (total_length o). unfold queue_ok, in_flight, togo. cbn [ch_out ch_wire ch_in]. rewrite app_length. cbn [length]. repeat split; lia. }
  assert (Wi : forall x y, queue_ok x -> ch_to_wire size cap_wire x = Some y -> queue_ok y /\ in_flight y = in_flight x /\ (in_flight y <= n -> togo y < togo x)%nat).
  { intros [o wi i] y (A & B & C) H. unfold ch_to_wire in H. cbn [ch_out ch_wire ch_in] in *. destruct o as [|p o]; [discriminate|]. destruct (N.ltb_spec (total wi) cap_wire) as [L|]; [|discriminate]. inversion H; subst; clear H.
    pose proof (total_length wi). unfold queue_ok, in_flight, togo. cbn [ch_out ch_wire ch_in length] in *. rewrite app_length. cbn [length]. repeat split; lia. }
  assert (In' : forall x y, queue_ok x -> ch_to_in size cap_in x = Some y -> queue_ok y /\ in_flight y = in_flight x /\ (in_flight y <= n -> togo y < togo x)%nat).
  { intros [o wi i] y (A & B & C) H. unfold ch_to_in in H. cbn [ch_out ch_wire ch_in] in *. destruct wi as [|p wi]; [discriminate|]. destruct (N.ltb_spec (total i) cap_in) as [L|]; [|discriminate]. inversion H; subst; clear H.
    pose proof (total_length i). unfold queue_ok, in_flight, togo. cbn [ch_out ch_wire ch_in length] in *. rewrite app_length. cbn [length]. repeat split; lia. }
  destruct act; cbn in E; try discriminate.
  - destruct (ch_send size cap_out q c) as [y|] eqn:H; [|discriminate]. inversion E; subst; clear E. destruct (Snd _ _ _ Q1 H) as (A & B & C).
    split; [exists a', (S b'), ps; repeat (split; [reflexivity || assumption|]); cbn [n_c2s n_s2c]; lia|]. unfold left_over. cbn [n_c2s n_s2c]. specialize (C ltac:(lia)). lia.
  - destruct (ch_send size cap_out g d) as [y|] eqn:H; [|discriminate]. inversion E; subst; clear E. destruct (Snd _ _ _ Q2 H) as (A & B & C).
    split; [exists (S a'), b', ps; repeat (split; [reflexivity || assumption|]); cbn [n_c2s n_s2c]; lia|]. unfold left_over. cbn [n_c2s n_s2c]. specialize (C ltac:(lia)). lia.
  - destruct (ch_to_wire size cap_wire c) as [y|] eqn:H; [|discriminate]. inversion E; subst; clear E. destruct (Wi _ _ Q1 H) as (A & B & C).
    split; [exists (S a'), (S b'), ps; repeat (split; [reflexivity || assumption|]); cbn [n_c2s n_s2c]; lia|]. unfold left_over. cbn [n_c2s n_s2c]. specialize (C ltac:(lia)). lia.
  - destruct (ch_to_in size cap_in c) as [y|] eqn:H; [|discriminate]. inversion E; subst; clear E. destruct (In' _ _ Q1 H) as (A & B & C).
    split; [exists (S a'), (S b'), ps; repeat (split; [reflexivity || assumption|]); cbn [n_c2s n_s2c]; lia|]. unfold left_over. cbn [n_c2s n_s2c]. specialize (C ltac:(lia)). lia.
  - destruct (ch_to_wire size cap_wire d) as [y|] eqn:H; [|discriminate]. inversion E; subst; clear E. destruct (Wi _ _ Q2 H) as (A & B & C).
    split; [exists (S a'), (S b'), ps; repeat (split; [reflexivity || assumption|]); cbn [n_c2s n_s2c]; lia|]. unfold left_over. cbn [n_c2s n_s2c]. specialize (C ltac:(lia)). lia.
  - destruct (ch_to_in size cap_in d) as [y|] eqn:H; [|discriminate]. inversion E; subst; clear E. destruct (In' _ _ Q2 H) as (A & B & C).
    split; [exists (S a'), (S b'), ps; repeat (split; [reflexivity || assumption|]); cbn [n_c2s n_s2c]; lia|]. unfold left_over. cbn [n_c2s n_s2c]. specialize (C ltac:(lia)). lia.
Qed.

Lemma stuck_dec s : {a & {s1 | step a s = Some s1}} + {stuck s}.
Proof.
  assert (D : forall a, {s1 | step a s = Some s1} + {step a s = None}) by (intros a; destruct (step a s); [left; eauto|right; reflexivity]).
  destruct (D AClient) as [H|H1]; [left; eauto|]. destruct (D AServer) as [H|H2]; [left; eauto|]. destruct (D APatcher) as [H|H3]; [left; eauto|].
  destruct (D AWire1) as [H|H4]; [left; eauto|]. destruct (D AWire2) as [H|H5]; [left; eauto|]. destruct (D AWire3) as [H|H6]; [left; eauto|]. destruct (D AWire4) as [H|H7]; [left; eauto|].
  right. intros []; assumption.
Qed.

Lemma both_send_stuck : forall k s, (left_over s < k)%nat -> both_send s -> exists t, reach s t /\ stuck t /\ both_send t.
Proof.
  induction k as [|k IH]; intros s L B; [lia|]. destruct (stuck_dec s) as [(a & s1 & E)|St].
  - destruct (both_send_step a s s1 B E) as (B1 & L1). destruct (IH s1) as (t & R & H); [lia|exact B1|]. exists t. split; [eapply reach_step; eassumption|exact H].
  - exists s. split; [apply reach_refl|auto].
Qed.
Lemma both_send_not_finished s : both_send s -> ~ finished s.
Proof.
  intros (a & b & ps & Ec & Es & Et & Ep & Q1 & Q2 & N1 & N2) ((r & F) & _). destruct (some_left a _ Q1 N1) as (a' & ->). rewrite Ec in F. discriminate.
Qed.
Lemma both_send_start ps : both_send (quiet (send_all (repeat q n) c0) (send_all (repeat g n) m0) [] ps).
Proof. exists n, n, ps. unfold quiet, queue_ok, in_flight. cbn. repeat split; lia. Qed.
End Bad.

(** ** Files that are small enough *)
Lemma total_sigs size ms : (forall m, size (KSig m) <= 24 * (1 + N.of_nat (length (sm_sizes m)))) -> Forall (fun m => sm_sizes m <> []) ms ->
  total size (map KSig ms) <= 48 * N.of_nat (length (concat (map sm_sizes ms))).
Proof.
  intros H F. induction F as [|m ms Hm F IH]; [cbn; lia|]. cbn [map concat]. rewrite total_cons, app_length. specialize (H m). destruct (sm_sizes m); [easy|]. cbn [length] in *. lia.
Qed.
Lemma total_prefix size l1 l2 l : l = l1 ++ l2 -> total size l1 <= total size l.
Proof. intros ->. rewrite total_app. lia. Qed.
Lemma concat_length_min (m : nat) : forall (cs : list bytes), (forall pre c post, cs = pre ++ c :: post -> post <> [] -> (m <= length c)%nat) -> (m * length cs <= length (concat cs) + m)%nat.
Proof.
  induction cs as [|c cs IH]; intros H; [cbn; lia|]. cbn [concat length]. rewrite app_length. destruct cs as [|c' cs].
  - cbn. lia.
  - specialize (H [] c (c' :: cs) eq_refl) as Hc. specialize (Hc ltac:(discriminate)).
    assert (IH' : (m * length (c' :: cs) <= length (concat (c' :: cs)) + m)%nat) by (apply IH; intros pre x post E N; apply (H (c :: pre) x post); [cbn; now rewrite E|exact N]).
    cbn [concat length] in *. lia.
Qed.

Lemma signature_fits hash w gear cfg iobuf size cap completed file : params_ok w cfg iobuf -> (1 <= min_size cfg)%nat ->
  (forall m, size (KSig m) <= 24 * (1 + N.of_nat (length (sm_sizes m)))) ->
  48 * (blen file / N.of_nat (min_size cfg) + 1) < cap ->
  exists sigs, create_signature hash w gear cfg iobuf completed file = Ok sigs /\ fits size cap (map KSig sigs).
Proof.
  intros P M H L. destruct (chunks_of_exists w gear cfg) with (file := file) as (cs & Hcs); [apply P|apply P|].
  destruct (C09_signature_lists_every_chunk hash w gear cfg iobuf P completed file cs Hcs) as (batches & E & (D1 & D2 & D3)).
  exists (batches ++ [empty_sigmsg]). split; [exact E|]. intros l1 p l2 El.
  assert (Lt : total size l1 <= total size (map KSig batches)).
  { rewrite map_app in El. cbn [map] in El. destruct (exists_last (l := p :: l2)) as (l2' & z & Ez); [discriminate|]. rewrite Ez in El. rewrite app_assoc in El. apply app_inj_tail in El. destruct El as (El & _). now apply (total_prefix size l1 l2'). }
  pose proof (total_sigs size batches H) as T. rewrite D1, map_length in T.
  assert (Fn : Forall (fun m => sm_sizes m <> []) batches) by (eapply Forall_impl; [|exact D3]; now intros x (? & _)). specialize (T Fn).
  assert (Ch : chunking w gear cfg file cs) by (apply chunks_of_chunking; [apply P|apply P|exact Hcs]).
  destruct (chunking_sizes w gear cfg) with (data := file) (cs := cs) as (_ & Smin); [apply P|apply P|exact Ch|].
  pose proof (concat_length_min (min_size cfg) cs Smin) as Lc. destruct Hcs as (_ & Ec). rewrite Ec in Lc.
  assert (Ln : N.of_nat (length cs) <= blen file / N.of_nat (min_size cfg) + 1).
  { unfold blen in *. destruct (N.le_gt_cases (N.of_nat (length cs)) (N.of_nat (length file) / N.of_nat (min_size cfg) + 1)) as [|G]; [assumption|].
    pose proof (N.mul_succ_div_gt (N.of_nat (length file)) (N.of_nat (min_size cfg))) as X. nia. }
  eapply N.le_lt_trans; [exact Lt|]. eapply N.le_lt_trans; [exact T|]. eapply N.le_lt_trans; [|exact L]. apply N.mul_le_mono_l. exact Ln.
Qed.
