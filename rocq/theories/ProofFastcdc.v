(** Proofs about the fastcdc model. *)
From Verif Require Import Base ListX ModelFastcdc SpecFastcdc.

(** ** Bits *)
Lemma size_le_iff h s : (N.size h <= s)%N <-> (h < 2 ^ s)%N.
Proof.
  split; intros H.
  - eapply N.lt_le_trans; [apply N.size_gt|]. apply N.pow_le_mono_r; lia.
  - destruct (N.eq_dec h 0) as [->|Hz]; [simpl; lia|].
    rewrite N.size_log2 by assumption.
    apply N.le_succ_l, N.log2_lt_pow2; lia.
Qed.

Lemma land_mask_zero (w s h : N) :
  (s <= w)%N -> (h < 2 ^ w)%N ->
  (N.land h (2 ^ w - 2 ^ s) = 0 <-> h < 2 ^ s)%N.
Proof.
  intros Hs Hh.
  assert (E : (2 ^ w - 2 ^ s = N.shiftl (N.ones (w - s)) s)%N).
  { rewrite N.shiftl_mul_pow2, N.ones_equiv, <- N.sub_1_r, N.mul_sub_distr_r, <- N.pow_add_r.
    replace (w - s + s)%N with w by lia. lia. }
  rewrite E. split; intros H.
  - apply size_le_iff. destruct (N.le_gt_cases (N.size h) s) as [|Hgt]; [assumption|exfalso].
    assert (Hz : h <> 0%N) by (intros ->; simpl in Hgt; lia).
    rewrite N.size_log2 in Hgt by assumption.
    assert (B : N.testbit (N.land h (N.shiftl (N.ones (w - s)) s)) (N.log2 h) = true).
    { rewrite N.land_spec, N.bit_log2 by assumption. simpl.
      rewrite N.shiftl_spec_high' by lia.
      apply N.ones_spec_low.
      assert (N.log2 h < w)%N by (apply N.log2_lt_pow2; lia). lia. }
    rewrite H in B. rewrite N.bits_0 in B. discriminate.
  - apply N.bits_inj. intros i. rewrite N.land_spec, N.bits_0.
    destruct (N.lt_ge_cases i s) as [Hi|Hi].
    + rewrite N.shiftl_spec_low by assumption. apply andb_false_r.
    + destruct (N.eq_dec h 0) as [->|Hz]; [reflexivity|].
      rewrite N.bits_above_log2; [reflexivity|].
      apply N.log2_lt_pow2 in H; lia.
Qed.

Section Proofs.
Variable w : nat.
Variable gear : byte -> N.
Variable cfg : config.
Hypothesis Hw : 1 <= w.
Hypothesis Hcfg : wf_config cfg.

Notation M := (modulus w).
Notation thr := (threshold w cfg).
Notation H_at := (hash_at w gear cfg).
Notation fcb := (find_chunk_boundary w gear cfg).

Lemma M_pos : (0 < M)%N.
Proof. unfold modulus. apply N.neq_0_lt_0, N.pow_nonzero. lia. Qed.

Lemma hash_step_lt h b : (hash_step w gear h b < M)%N.
Proof. unfold hash_step. apply N.mod_lt. pose proof M_pos. lia. Qed.

Lemma ghf_lt l : forall h, (h < M)%N -> (gear_hash_from w gear h l < M)%N.
Proof.
  induction l as [|b l IH]; intros h Hh; [exact Hh|].
  unfold gear_hash_from in *. cbn [fold_left]. apply IH. apply (hash_step_lt h b).
Qed.

Lemma hash_at_lt data i : (H_at data i < M)%N.
Proof. apply ghf_lt. pose proof M_pos. unfold modulus in *. lia. Qed.

Lemma warm_ok data n i h :
  i + n <= length data ->
  warm w gear data n i h = Ok (gear_hash_from w gear h (firstn n (skipn i data))).
Proof.
  revert i h; induction n as [|n IH]; intros i h Hl; [reflexivity|].
  cbn [warm]. destruct (nth_error_lt_Some data i) as [b Hb]; [lia|].
  rewrite Hb, IH by lia. rewrite (firstn_skipn_S _ _ _ _ Hb). reflexivity.
Qed.

Lemma size_le_w h : (h < M)%N -> (N.size h <= N.of_nat w)%N.
Proof. intros Hh. now apply size_le_iff. Qed.

Lemma shrink_mask_ok h : (h < M)%N ->
  forall k fuel, (N.of_nat k <= N.size h)%N -> w - k <= fuel ->
  shrink_mask w fuel h (M - 2 ^ N.of_nat k)%N = Ok (M - 2 ^ N.size h)%N.
Proof.
  intros Hh k fuel. revert k. induction fuel as [|f IH]; intros k Hk Hf.
  - pose proof (size_le_w h Hh). assert (E : N.size h = N.of_nat k) by lia.
    cbn [shrink_mask].
    rewrite <- E.
    destruct (N.eqb_spec (N.land h (M - 2 ^ N.size h)) 0) as [|Hne]; [reflexivity|].
    exfalso; apply Hne. unfold modulus. apply land_mask_zero; [lia|exact Hh|apply N.size_gt].
  - cbn [shrink_mask].
    destruct (N.eqb_spec (N.land h (M - 2 ^ N.of_nat k)) 0) as [Hz|Hz].
    + unfold modulus in Hz. apply land_mask_zero in Hz; [|pose proof (size_le_w h Hh); lia|exact Hh].
      apply size_le_iff in Hz. assert (N.size h = N.of_nat k) as -> by lia. reflexivity.
    + pose proof (size_le_w h Hh) as Hsw.
      assert (Hlt : (N.of_nat k < N.size h)%N).
      { apply N.lt_nge. intros Hc. apply Hz. unfold modulus.
        apply land_mask_zero; [lia|exact Hh|]. now apply size_le_iff. }
      assert (E : ((2 * (M - 2 ^ N.of_nat k)) mod M = M - 2 ^ N.of_nat (S k))%N).
      { assert (P : (2 ^ N.of_nat (S k) <= M)%N).
        { unfold modulus. apply N.pow_le_mono_r; lia. }
        assert (Q : (2 ^ N.of_nat (S k) = 2 * 2 ^ N.of_nat k)%N).
        { rewrite Nat2N.inj_succ, N.pow_succ_r'. reflexivity. }
        assert (0 < 2 ^ N.of_nat k)%N by (apply N.neq_0_lt_0, N.pow_nonzero; lia).
        replace (2 * (M - 2 ^ N.of_nat k))%N with ((M - 2 ^ N.of_nat (S k)) + 1 * M)%N by lia.
        rewrite N.mod_add by lia. apply N.mod_small. lia. }
      rewrite E. apply IH; lia.
Qed.

(** Generic correctness of the search loop. *)
Definition best (m i r : nat) (s : N) (H : nat -> N) : Prop :=
  m <= r < i /\ s = N.size (H r) /\
  (forall j, m <= j < i -> (s <= N.size (H j))%N) /\
  (forall j, r < j < i -> (s < N.size (H j))%N).

Lemma search_ok data (H : nat -> N) m len :
  len <= length data ->
  (forall j, (H j < M)%N) ->
  (forall j b, m <= j < len -> nth_error data j = Some b ->
      H (S j) = hash_step w gear (H j) b) ->
  forall n i rc_len s,
  n + i = len -> m <= i -> (s <= N.of_nat w)%N ->
  (forall j, m <= j < i -> (thr < H j)%N) ->
  ((i = m /\ s = N.of_nat w) \/ best m i rc_len s H) ->
  exists r, search w gear cfg data n i (H i) rc_len (M - 2 ^ s)%N = Ok r /\
    m <= r <= len /\
    ((r < len /\ (H r <= thr)%N /\ forall j, m <= j < r -> (thr < H j)%N) \/
     ((forall j, m <= j < len -> (thr < H j)%N) /\
      (forall j, m <= j <= r -> (N.size (H r) <= N.size (H j))%N) /\
      (forall j, r < j <= len -> (N.size (H r) < N.size (H j))%N))).
Proof.
  intros Hlen HM Hrec n. induction n as [|n IH]; intros i rc s Hn Hi Hs Hthr Hbest.
  - assert (i = len) as -> by lia. cbn [search].
    destruct (N.eqb_spec (N.land (H len) (M - 2 ^ s)) 0) as [Hz|Hz].
    + exists len. split; [reflexivity|]. split; [lia|]. right.
      unfold modulus in Hz. apply land_mask_zero in Hz; [|assumption|apply HM].
      apply size_le_iff in Hz.
      split; [exact Hthr|]. split; [|lia].
      intros j Hj. destruct (Nat.eq_dec j len) as [->|]; [lia|].
      destruct Hbest as [[? ?]|(Hr & Hsz & Hall & _)]; [lia|].
      specialize (Hall j). lia.
    + assert (Hlt : (s < N.size (H len))%N).
      { apply N.lt_nge. intros Hc. apply Hz. unfold modulus.
        apply land_mask_zero; [assumption|apply HM|]. now apply size_le_iff. }
      destruct Hbest as [[? ->]|(Hr & Hsz & Hall & Hafter)].
      { pose proof (size_le_w (H len) (HM len)). lia. }
      exists rc. split; [reflexivity|]. split; [lia|]. right.
      split; [exact Hthr|]. split.
      * intros j Hj. specialize (Hall j). lia.
      * intros j Hj. destruct (Nat.eq_dec j len) as [->|]; [lia|]. specialize (Hafter j). lia.
  - cbn [search]. destruct (nth_error_lt_Some data i) as [b Hb]; [lia|]. rewrite Hb.
    rewrite <- (Hrec i b) by (try assumption; lia).
    destruct (N.eqb_spec (N.land (H i) (M - 2 ^ s)) 0) as [Hz|Hz].
    + unfold modulus in Hz. apply land_mask_zero in Hz; [|assumption|apply HM].
      apply size_le_iff in Hz.
      destruct (N.leb_spec (H i) thr) as [Hle|Hgt].
      * exists i. split; [reflexivity|]. split; [lia|]. left. split; [lia|]. split; assumption.
      * assert (Hsm : shrink_mask w w (H i) (tmax w) = Ok (M - 2 ^ N.size (H i))%N).
        { change (tmax w) with (M - 2 ^ N.of_nat 0)%N. apply shrink_mask_ok; [apply HM|lia|lia]. }
        rewrite Hsm. cbn [bind].
        apply IH; [lia|lia| | |].
        -- apply size_le_w, HM.
        -- intros j Hj. destruct (Nat.eq_dec j i) as [->|]; [assumption|apply Hthr; lia].
        -- right. split; [lia|]. split; [reflexivity|]. split; [|lia].
           intros j Hj. destruct (Nat.eq_dec j i) as [->|]; [lia|].
           destruct Hbest as [[? ?]|(Hr & Hsz & Hall & _)]; [lia|]. specialize (Hall j). lia.
    + assert (Hlt : (s < N.size (H i))%N).
      { apply N.lt_nge. intros Hc. apply Hz. unfold modulus.
        apply land_mask_zero; [assumption|apply HM|]. now apply size_le_iff. }
      destruct Hbest as [[? ->]|(Hr & Hsz & Hall & Hafter)].
      { pose proof (size_le_w (H i) (HM i)). lia. }
      apply IH; [lia|lia|assumption| |].
      * intros j Hj. destruct (Nat.eq_dec j i) as [->|]; [|apply Hthr; lia].
        assert (thr < H rc)%N by (apply Hthr; lia).
        assert (H rc < 2 ^ s)%N by (apply size_le_iff; lia).
        assert (~ (H i < 2 ^ s)%N) by (rewrite <- size_le_iff; lia). lia.
      * right. split; [lia|]. split; [assumption|]. split.
        -- intros j Hj. destruct (Nat.eq_dec j i) as [->|]; [lia|]. apply Hall; lia.
        -- intros j Hj. destruct (Nat.eq_dec j i) as [->|]; [lia|]. apply Hafter; lia.
Qed.

Lemma hash_at_S data j b :
  min_size cfg <= j -> nth_error data j = Some b ->
  H_at data (S j) = hash_step w gear (H_at data j) b.
Proof.
  intros Hj Hb. unfold hash_at. rewrite (firstn_S_snoc _ _ _ Hb).
  assert (j < length data) by (apply nth_error_Some; congruence).
  rewrite skipn_app, firstn_length.
  replace (min_size cfg - w - Nat.min j (length data)) with 0 by lia.
  cbn [skipn]. unfold gear_hash_from. rewrite fold_left_app. reflexivity.
Qed.

Lemma lz_le a b : (a < M)%N -> (b < M)%N ->
  (N.size a <= N.size b)%N -> leading_zeros w b <= leading_zeros w a.
Proof. unfold leading_zeros. lia. Qed.

Lemma lz_lt a b : (a < M)%N -> (b < M)%N ->
  (N.size a < N.size b)%N -> leading_zeros w b < leading_zeros w a.
Proof.
  intros Ha Hb Hl. pose proof (size_le_w _ Ha). pose proof (size_le_w _ Hb).
  unfold leading_zeros. lia.
Qed.

Theorem fcb_ok data :
  exists r, fcb data = Ok r /\ is_boundary w gear cfg thr data r.
Proof.
  unfold find_chunk_boundary, is_boundary.
  destruct (Nat.leb_spec (length data) (min_size cfg)) as [Hle|Hgt].
  { eexists; split; reflexivity. }
  destruct Hcfg as (C1 & C2 & C3).
  set (len := Nat.min (length data) (max_size cfg)).
  set (i0 := if w <? min_size cfg then min_size cfg - w else 0).
  assert (Hi0 : i0 = min_size cfg - w).
  { subst i0. destruct (Nat.ltb_spec w (min_size cfg)); lia. }
  rewrite warm_ok by lia. cbn [bind].
  assert (EH : gear_hash_from w gear (tmax w) (firstn (min_size cfg - i0) (skipn i0 data)) =
               H_at data (min_size cfg)).
  { unfold hash_at. rewrite Hi0. rewrite firstn_skipn_comm.
    replace (min_size cfg - w + (min_size cfg - (min_size cfg - w))) with (min_size cfg) by lia.
    reflexivity. }
  rewrite EH.
  destruct (search_ok data (H_at data) (min_size cfg) len) with
    (n := len - min_size cfg) (i := min_size cfg) (rc_len := len) (s := N.of_nat w)
    as (r & Hr & Hb & Hcase); try (subst len; lia).
  - apply hash_at_lt.
  - intros j b Hj Hnb. apply hash_at_S; [lia|assumption].
  - exists r. unfold modulus in Hr. rewrite N.sub_diag in Hr. split; [exact Hr|].
    split; [exact Hb|].
    destruct Hcase as [Hc|(Hc1 & Hc2 & Hc3)]; [left; exact Hc|right].
    split; [exact Hc1|]. split; intros j Hj.
    + apply lz_le; try apply hash_at_lt. auto.
    + apply lz_lt; try apply hash_at_lt. auto.
Qed.

Lemma thr_lt_max : min_size cfg = 0 -> (thr < tmax w)%N.
Proof.
  intros Hm. destruct Hcfg as (C1 & C2 & C3).
  unfold threshold, tmax.
  assert (2 <= M)%N.
  { unfold modulus. change 2%N with (2 ^ 1)%N at 1. apply N.pow_le_mono_r; lia. }
  apply N.div_lt; lia.
Qed.

Lemma boundary_pos data r :
  data <> [] -> is_boundary w gear cfg thr data r -> 1 <= r.
Proof.
  intros Hne. unfold is_boundary. destruct Hcfg as (C1 & C2 & C3).
  assert (1 <= length data) by (destruct data; [congruence|simpl; lia]).
  destruct (Nat.leb_spec (length data) (min_size cfg)); [lia|].
  intros (Hb & Hcase). destruct r as [|r]; [exfalso|lia].
  assert (Hm : min_size cfg = 0) by lia.
  assert (E : H_at data 0 = tmax w).
  { unfold hash_at. rewrite firstn_O, skipn_nil. reflexivity. }
  destruct Hcase as [(_ & Hle & _)|(_ & _ & Hafter)].
  - rewrite E in Hle. pose proof (thr_lt_max Hm). lia.
  - specialize (Hafter 1 ltac:(lia)). rewrite E in Hafter.
    assert (leading_zeros w (tmax w) = 0).
    { unfold leading_zeros.
      assert (~ (N.size (tmax w) <= N.of_nat w - 1)%N); [|lia].
      rewrite size_le_iff. unfold tmax, modulus.
      replace (N.of_nat w) with (N.succ (N.of_nat w - 1)) at 1 by lia.
      rewrite N.pow_succ_r'.
      assert (0 < 2 ^ (N.of_nat w - 1))%N by (apply N.neq_0_lt_0, N.pow_nonzero; lia). lia. }
    lia.
Qed.

Lemma boundary_unique data r1 r2 :
  is_boundary w gear cfg thr data r1 -> is_boundary w gear cfg thr data r2 -> r1 = r2.
Proof.
  unfold is_boundary. destruct (_ <=? _); [congruence|].
  intros (B1 & C1) (B2 & C2).
  destruct (Nat.lt_trichotomy r1 r2) as [Hlt|[|Hlt]]; [exfalso|assumption|exfalso].
  - destruct C1 as [(L1 & T1 & _)|(A1 & P1 & Q1)].
    + destruct C2 as [(_ & _ & T2)|(A2 & _)].
      * specialize (T2 r1); lia.
      * specialize (A2 r1); lia.
    + destruct C2 as [(L2 & T2 & _)|(A2 & P2 & Q2)].
      * specialize (A1 r2); lia.
      * specialize (Q1 r2); specialize (P2 r1); lia.
  - destruct C2 as [(L1 & T1 & _)|(A1 & P1 & Q1)].
    + destruct C1 as [(_ & _ & T2)|(A2 & _)].
      * specialize (T2 r2); lia.
      * specialize (A2 r2); lia.
    + destruct C1 as [(L2 & T2 & _)|(A2 & P2 & Q2)].
      * specialize (A1 r1); lia.
      * specialize (Q1 r1); specialize (P2 r2); lia.
Qed.

Lemma fcb_bounds data r :
  data <> [] -> fcb data = Ok r ->
  1 <= r <= length data /\ r <= max_size cfg /\
  (min_size cfg <= r \/ r = length data).
Proof.
  intros Hne E. destruct (fcb_ok data) as (r' & E' & Hb).
  assert (r' = r) by congruence; subst r'.
  pose proof (boundary_pos data r Hne Hb).
  unfold is_boundary in Hb. destruct Hcfg as (C1 & C2 & C3).
  destruct (Nat.leb_spec (length data) (min_size cfg)); [lia|].
  destruct Hb as (Hb & _). lia.
Qed.

(** The boundary depends on the first [max_size] bytes only. *)
Lemma hash_at_firstn data i n : i <= n -> H_at (firstn n data) i = H_at data i.
Proof. intros H. unfold hash_at. rewrite firstn_firstn, Nat.min_l by lia. reflexivity. Qed.

Lemma fcb_firstn data n :
  max_size cfg <= n -> fcb (firstn n data) = fcb data.
Proof.
  intros Hn. destruct (fcb_ok data) as (r & E & Hb).
  destruct (fcb_ok (firstn n data)) as (r' & E' & Hb').
  rewrite E, E'. f_equal. eapply boundary_unique; [exact Hb'|]. clear E E' Hb'.
  destruct Hcfg as (C1 & C2 & C3).
  unfold is_boundary in *. rewrite firstn_length.
  destruct (Nat.leb_spec (length data) (min_size cfg)).
  - replace (Nat.min n (length data)) with (length data) by lia.
    destruct (Nat.leb_spec (length data) (min_size cfg)); lia.
  - destruct (Nat.leb_spec (Nat.min n (length data)) (min_size cfg)); [|].
    + (* n >= max >= min, so max = min = n *)
      destruct Hb as (Hb & _). lia.
    + replace (Nat.min (Nat.min n (length data)) (max_size cfg))
        with (Nat.min (length data) (max_size cfg)) by lia.
      destruct Hb as (Hb & Hc). split; [exact Hb|].
      destruct Hc as [(A & B & C)|(A & B & C)]; [left|right].
      * split; [exact A|]. rewrite hash_at_firstn by lia. split; [exact B|].
        intros j Hj. rewrite hash_at_firstn by lia. auto.
      * split; [|split]; intros j Hj; rewrite ?hash_at_firstn by lia; auto.
Qed.

Lemma fcb_app data x :
  max_size cfg <= length data -> fcb (data ++ x) = fcb data.
Proof.
  intros H. rewrite <- (fcb_firstn (data ++ x) (length data)) by assumption.
  rewrite firstn_app, firstn_all, Nat.sub_diag, firstn_O, app_nil_r. reflexivity.
Qed.

(** ** The chunking loop *)
Notation drain := (drain w gear cfg).

(** Canonical chunking as a relation: repeatedly cut at the boundary. *)
Inductive chunking : bytes -> list bytes -> Prop :=
| chunking_nil : chunking [] []
| chunking_cons data r cs :
    data <> [] -> fcb data = Ok r -> chunking (skipn r data) cs ->
    chunking data (firstn r data :: cs).

Lemma chunking_det data cs1 cs2 : chunking data cs1 -> chunking data cs2 -> cs1 = cs2.
Proof.
  intros H; revert cs2; induction H as [|data r cs Hne E H IH]; intros cs2 H2.
  - inversion H2; congruence.
  - inversion H2 as [|data' r' cs' Hne' E' H']; subst; [congruence|].
    assert (r' = r) by congruence; subst. f_equal. auto.
Qed.

Lemma drain_eof fuel buf :
  length buf <= fuel -> exists cs, drain fuel true buf = Ok (cs, []) /\ chunking buf cs.
Proof.
  revert buf; induction fuel as [|f IH]; intros buf Hf.
  - destruct buf; [|simpl in Hf; lia]. destruct Hcfg as (C1 & C2 & C3).
    cbn [ModelFastcdc.drain length].
    destruct (Nat.leb_spec (max_size cfg) 0); [lia|]. simpl.
    exists []. split; constructor.
  - cbn [ModelFastcdc.drain].
    destruct buf as [|b buf].
    + destruct Hcfg as (C1 & C2 & C3). cbn [length].
      destruct (Nat.leb_spec (max_size cfg) 0); [lia|]. simpl.
      exists []. split; constructor.
    + set (d := b :: buf) in *. assert (Hne : d <> []) by discriminate.
      replace (0 <? length d) with true by reflexivity.
      rewrite andb_true_r, orb_true_r.
      destruct (fcb_ok d) as (r & E & _). rewrite E. cbn [bind].
      destruct (fcb_bounds d r Hne E) as (Hr & _).
      destruct (IH (skipn r d)) as (cs & Ed & Hcs).
      { pose proof (skipn_lt d r Hr). lia. }
      rewrite Ed. cbn [bind fst snd]. exists (firstn r d :: cs). split; [reflexivity|].
      now constructor.
Qed.

(** Without end-of-file, the emitted chunks are the ones the canonical chunking
    of any continuation starts with. *)
Lemma drain_more fuel buf :
  length buf <= fuel -> exists cs rest, drain fuel false buf = Ok (cs, rest) /\
    concat cs ++ rest = buf /\ length rest < max_size cfg /\
    (forall x tl, chunking (rest ++ x) tl -> chunking (buf ++ x) (cs ++ tl)).
Proof.
  revert buf; induction fuel as [|f IH]; intros buf Hf.
  - destruct buf; [|simpl in Hf; lia]. destruct Hcfg as (C1 & C2 & C3).
    cbn [ModelFastcdc.drain length].
    destruct (Nat.leb_spec (max_size cfg) 0); [lia|]. simpl.
    exists [], []. repeat split; auto; lia.
  - cbn [ModelFastcdc.drain]. rewrite andb_false_r, orb_false_r.
    destruct (Nat.leb_spec (max_size cfg) (length buf)) as [Hge|Hlt].
    + assert (Hne : buf <> []).
      { destruct Hcfg as (C1 & C2 & C3). intros ->. simpl in Hge. lia. }
      destruct (fcb_ok buf) as (r & E & _). rewrite E. cbn [bind].
      destruct (fcb_bounds buf r Hne E) as (Hr & _).
      destruct (IH (skipn r buf)) as (cs & rest & Ed & Hc & Hrest & Hcont).
      { pose proof (skipn_lt buf r Hr). lia. }
      rewrite Ed. cbn [bind fst snd]. exists (firstn r buf :: cs), rest.
      split; [reflexivity|]. split; [|split; [exact Hrest|]].
      * cbn [concat]. rewrite <- app_assoc, Hc. apply firstn_skipn.
      * intros x tl Htl. cbn [app].
        replace (firstn r buf) with (firstn r (buf ++ x)).
        2:{ rewrite firstn_app. replace (r - length buf) with 0 by lia.
            rewrite firstn_O, app_nil_r. reflexivity. }
        constructor.
        -- destruct buf; [congruence|discriminate].
        -- rewrite fcb_app by assumption. exact E.
        -- rewrite skipn_app. replace (r - length buf) with 0 by lia. cbn [skipn]. auto.
    + exists [], buf. repeat split; auto.
Qed.

Lemma process_eof buf : exists cs,
  process w gear cfg buf [] = Ok (cs, []) /\ chunking buf cs.
Proof.
  unfold process. rewrite app_nil_r. destruct buf as [|b buf].
  - exists []. split; constructor.
  - apply drain_eof. lia.
Qed.

Lemma process_more buf b block : exists cs rest,
  process w gear cfg buf (b :: block) = Ok (cs, rest) /\
  concat cs ++ rest = buf ++ b :: block /\ length rest < max_size cfg /\
  (forall x tl, chunking (rest ++ x) tl -> chunking (buf ++ (b :: block) ++ x) (cs ++ tl)).
Proof.
  unfold process. 
  destruct (drain_more (length (buf ++ b :: block)) (buf ++ b :: block)) as (cs & rest & E & Hc & Hr & Hx); [lia|].
  exists cs, rest. split.
  - destruct (buf ++ b :: block) eqn:Eb; [destruct buf; discriminate|]. exact E.
  - split; [exact Hc|]. split; [exact Hr|]. intros x tl H. rewrite app_assoc. now apply Hx.
Qed.

(** [feed] from the empty buffer on non-empty blocks. *)
Lemma feed_more blocks : Forall (fun b => b <> []) blocks ->
  forall buf, length buf < max_size cfg -> exists cs rest,
  feed w gear cfg buf blocks = Ok (cs, rest) /\
  concat cs ++ rest = buf ++ concat blocks /\ length rest < max_size cfg /\
  (forall x tl, chunking (rest ++ x) tl -> chunking (buf ++ concat blocks ++ x) (cs ++ tl)).
Proof.
  induction 1 as [|block blocks Hne Hall IH]; intros buf Hbuf.
  - exists [], buf. simpl. rewrite app_nil_r. repeat split; auto.
  - destruct block as [|b block]; [congruence|].
    cbn [feed].
    destruct (process_more buf b block) as (cs1 & r1 & E1 & C1 & L1 & K1).
    rewrite E1. cbn [bind fst snd].
    destruct (IH r1 L1) as (cs2 & r2 & E2 & C2 & L2 & K2). rewrite E2. cbn [bind fst snd].
    exists (cs1 ++ cs2), r2. split; [reflexivity|]. split; [|split; [exact L2|]].
    + cbn [concat]. rewrite concat_app, <- app_assoc, C2, app_assoc, C1, <- app_assoc. reflexivity.
    + intros x tl Htl. cbn [concat]. rewrite <- !app_assoc.
      apply K1. apply K2. exact Htl.
Qed.

Lemma feed_app buf b1 b2 :
  feed w gear cfg buf (b1 ++ b2) =
  (do r1 <- feed w gear cfg buf b1;
   do r2 <- feed w gear cfg (snd r1) b2;
   Ok (fst r1 ++ fst r2, snd r2)).
Proof.
  revert buf; induction b1 as [|b b1 IH]; intros buf.
  - cbn [app feed bind fst snd]. destruct (feed w gear cfg buf b2) as [[? ?]| | |]; reflexivity.
  - cbn [app feed]. destruct (process w gear cfg buf b) as [[c1 r1]| | |]; try reflexivity.
    cbn [bind fst snd]. rewrite IH.
    destruct (feed w gear cfg r1 b1) as [[c2 r2]| | |]; try reflexivity. cbn [bind fst snd].
    destruct (feed w gear cfg r2 b2) as [[c3 r3]| | |]; try reflexivity. cbn [bind fst snd].
    rewrite app_assoc. reflexivity.
Qed.

Theorem chunk_stream_ok blocks : Forall (fun b => b <> []) blocks ->
  exists cs, chunk_stream w gear cfg blocks = Ok (cs, []) /\ chunking (concat blocks) cs.
Proof.
  intros Hall. unfold chunk_stream. rewrite feed_app.
  destruct (feed_more blocks Hall []) as (cs & rest & E & C & L & K).
  { destruct Hcfg as (C1 & C2 & C3). simpl. lia. }
  rewrite E. cbn [bind fst snd feed].
  destruct (process_eof rest) as (cs2 & E2 & K2). rewrite E2. cbn [bind fst snd].
  exists (cs ++ cs2 ++ []). rewrite app_nil_r. split; [reflexivity|].
  specialize (K [] cs2). rewrite !app_nil_r in K. apply K. exact K2.
Qed.

Lemma chunking_concat data cs : chunking data cs -> concat cs = data.
Proof.
  induction 1 as [|data r cs Hne E H IH]; [reflexivity|].
  cbn [concat]. rewrite IH. apply firstn_skipn.
Qed.

Lemma chunking_sizes data cs : chunking data cs ->
  Forall (fun c => 1 <= length c <= max_size cfg) cs /\
  (forall pre c post, cs = pre ++ c :: post -> post <> [] -> min_size cfg <= length c).
Proof.
  induction 1 as [|data r cs Hne E H (IH1 & IH2)].
  - split; [constructor|]. intros pre c post Heq. destruct pre; discriminate.
  - destruct (fcb_bounds data r Hne E) as (Hr & Hmax & Hmin).
    assert (L : length (firstn r data) = r) by (rewrite firstn_length; lia).
    split.
    + constructor; [lia|assumption].
    + intros [|c0 pre] c post Heq Hpost; inversion Heq; subst.
      * destruct Hmin as [|Hlen]; [lia|]. subst r. rewrite skipn_all in H.
        inversion H; subst; congruence.
      * eapply IH2; eauto.
Qed.

(** Every prefix of the chunks is a cut; after a cut, the remaining chunks are
    the chunking of the remaining data. *)
Lemma chunking_suffix data pre cs :
  chunking data (pre ++ cs) -> chunking (skipn (length (concat pre)) data) cs.
Proof.
  revert data; induction pre as [|c pre IH]; intros data H.
  - exact H.
  - inversion H as [|d r cs' Hne E Hc]; subst.
    destruct (fcb_bounds data r Hne E) as (Hr & _).
    cbn [concat]. rewrite app_length, firstn_length, Nat.min_l by lia.
    apply IH in Hc. rewrite skipn_skipn in Hc. rewrite Nat.add_comm. exact Hc.
Qed.

Theorem chunking_resync p1 p2 s pre1 pre2 t1 t2 :
  chunking (p1 ++ s) (pre1 ++ t1) -> concat pre1 = p1 ->
  chunking (p2 ++ s) (pre2 ++ t2) -> concat pre2 = p2 ->
  t1 = t2.
Proof.
  intros H1 E1 H2 E2. apply chunking_suffix in H1, H2.
  rewrite E1 in H1. rewrite E2 in H2.
  rewrite skipn_app, skipn_all, Nat.sub_diag in H1.
  rewrite skipn_app, skipn_all, Nat.sub_diag in H2.
  eapply chunking_det; eauto.
Qed.

(** ** Locality of the hash *)
Lemma ghf_closed l : forall h,
  (gear_hash_from w gear h l = if (length l =? 0)%nat then h
     else (h * 2 ^ N.of_nat (length l) + gear_sum gear l) mod M)%N.
Proof.
  induction l as [|b l IH]; intros h; [reflexivity|].
  unfold gear_hash_from in *. cbn [fold_left]. rewrite IH.
  pose proof M_pos as HM. fold M.
  cbn [length Nat.eqb gear_sum].
  destruct l as [|b' l'].
  - cbn [length Nat.eqb gear_sum]. f_equal. simpl N.of_nat. rewrite N.pow_0_r. lia.
  - set (l := b' :: l') in *. replace (length l =? 0) with false by reflexivity.
    rewrite <- N.add_mod_idemp_l by lia.
    rewrite N.mul_mod_idemp_l by lia.
    rewrite N.add_mod_idemp_l by lia.
    rewrite Nat2N.inj_succ, N.pow_succ_r'. f_equal. lia.
Qed.

Lemma gear_sum_app l1 l2 :
  gear_sum gear (l1 ++ l2) = (gear_sum gear l1 * 2 ^ N.of_nat (length l2) + gear_sum gear l2)%N.
Proof.
  induction l1 as [|b l1 IH]; [reflexivity|].
  cbn [app gear_sum]. rewrite IH, app_length, Nat2N.inj_add, N.pow_add_r. lia.
Qed.

Lemma ghf_window h1 h2 p1 p2 l :
  w <= length l ->
  gear_hash_from w gear h1 (p1 ++ l) = gear_hash_from w gear h2 (p2 ++ l).
Proof.
  intros Hl. rewrite !ghf_closed, !app_length.
  assert (Hz : forall n, (n + length l =? 0)%nat = false) by (intros; apply Nat.eqb_neq; lia).
  rewrite !Hz, !gear_sum_app, !Nat2N.inj_add, !N.pow_add_r.
  assert (E : exists k, (2 ^ N.of_nat (length l) = k * M)%N).
  { exists (2 ^ N.of_nat (length l - w))%N. unfold modulus. rewrite <- N.pow_add_r. f_equal. lia. }
  destruct E as (k & ->). pose proof M_pos.
  assert (R : forall a b c, ((a * (b * (k * M)) + (c * (k * M) + gear_sum gear l)) mod M = gear_sum gear l mod M)%N).
  { intros a b c. replace (a * (b * (k * M)) + (c * (k * M) + gear_sum gear l))%N
      with (gear_sum gear l + (a * b * k + c * k) * M)%N by lia.
    apply N.mod_add. lia. }
  rewrite !R. reflexivity.
Qed.

Theorem hash_at_window d1 d2 i1 i2 :
  min_size cfg <= i1 <= length d1 -> min_size cfg <= i2 <= length d2 ->
  w <= i1 -> w <= i2 ->
  skipn (i1 - w) (firstn i1 d1) = skipn (i2 - w) (firstn i2 d2) ->
  H_at d1 i1 = H_at d2 i2.
Proof.
  intros B1 B2 W1 W2 E.
  assert (S : forall (d : bytes) i, min_size cfg <= i <= length d -> w <= i ->
    exists p, skipn (min_size cfg - w) (firstn i d) = p ++ skipn (i - w) (firstn i d)).
  { intros d i B W. exists (firstn (i - w - (min_size cfg - w)) (skipn (min_size cfg - w) (firstn i d))).
    replace (skipn (i - w) (firstn i d)) with
      (skipn (i - w - (min_size cfg - w)) (skipn (min_size cfg - w) (firstn i d))).
    - symmetry; apply firstn_skipn.
    - rewrite skipn_skipn. f_equal. lia. }
  destruct (S d1 i1 B1 W1) as (p1 & E1). destruct (S d2 i2 B2 W2) as (p2 & E2).
  unfold hash_at. rewrite E1, E2, E. apply ghf_window.
  rewrite skipn_length, firstn_length. lia.
Qed.

(** ** Link to the specification *)
Lemma thr_eq : thr = ((2 ^ N.of_nat w - 1) / (N.of_nat (avg_size cfg - min_size cfg) + 1))%N.
Proof. unfold threshold, tmax, modulus. f_equal. lia. Qed.

Lemma chunking_spec data cs : chunking data cs -> is_chunking w gear cfg cs /\ concat cs = data.
Proof.
  intros H. split; [|eapply chunking_concat; eauto].
  induction H as [|data r cs Hne E H IH]; intros pre c post Heq.
  - destruct pre; discriminate.
  - destruct pre as [|c0 pre]; inversion Heq; subst.
    + pose proof (chunking_concat _ _ H) as Hc. rewrite Hc.
      destruct (fcb_bounds data r Hne E) as (Hr & _).
      split.
      * intros Hn. apply (f_equal (@length _)) in Hn. rewrite firstn_length in Hn. simpl in Hn. lia.
      * rewrite firstn_skipn, firstn_length, Nat.min_l, <- thr_eq by lia.
        destruct (fcb_ok data) as (r' & E' & Hb). congruence.
    + apply (IH pre c post). reflexivity.
Qed.

Lemma spec_chunking cs : is_chunking w gear cfg cs -> chunking (concat cs) cs.
Proof.
  induction cs as [|c cs IH]; intros H; [constructor|].
  destruct (H [] c cs eq_refl) as (Hne & Hb). rewrite <- thr_eq in Hb.
  cbn [concat].
  assert (G : chunking (c ++ concat cs) (firstn (length c) (c ++ concat cs) :: cs));
    [|rewrite firstn_app_exact in G; exact G].
  constructor.
  - destruct c; [congruence|discriminate].
  - destruct (fcb_ok (c ++ concat cs)) as (r & E & Hr). rewrite E. f_equal.
    eapply boundary_unique; eauto.
  - rewrite skipn_app_exact. apply IH. intros pre c' post Heq.
    apply (H (c :: pre) c' post). simpl. congruence.
Qed.

Lemma chunking_total data : exists cs, chunking data cs.
Proof. destruct (process_eof data) as (cs & _ & H). eauto. Qed.

(** Everything about an arbitrary sequence of Process calls. *)
Lemma feed_all blocks : forall buf, length buf < max_size cfg ->
  exists css tl rest,
    feed w gear cfg buf blocks = Ok (concat css ++ tl, rest) /\
    length rest < max_size cfg /\
    Forall2 (fun s cs => chunking s cs) (fst (split_streams buf blocks)) css /\
    concat tl ++ rest = snd (split_streams buf blocks) /\
    (forall x t, chunking (rest ++ x) t -> chunking (snd (split_streams buf blocks) ++ x) (tl ++ t)).
Proof.
  assert (Gen : forall cur pre buf,
    length buf < max_size cfg ->
    (forall x t, chunking (buf ++ x) t -> chunking (cur ++ x) (pre ++ t)) ->
    concat pre ++ buf = cur ->
    exists cs css tl rest,
      feed w gear cfg buf blocks = Ok (cs, rest) /\
      pre ++ cs = concat css ++ tl /\
      length rest < max_size cfg /\
      Forall2 (fun s cs => chunking s cs) (fst (split_streams cur blocks)) css /\
      concat tl ++ rest = snd (split_streams cur blocks) /\
      (forall x t, chunking (rest ++ x) t -> chunking (snd (split_streams cur blocks) ++ x) (tl ++ t))).
  { induction blocks as [|block blocks IH]; intros cur pre buf Hb Hcont Hcat.
    - exists [], [], pre, buf. cbn [feed split_streams fst snd concat app]. rewrite app_nil_r.
      repeat split; auto.
    - destruct block as [|b block].
      + cbn [feed]. destruct (process_eof buf) as (cs & E & Hcs). rewrite E. cbn [bind fst snd].
        destruct (IH [] [] []) as (cs' & css & tl & rest & E' & Hpre & L & F & C & K).
        { destruct Hcfg as (C1 & C2 & C3). simpl. lia. }
        { auto. }
        { reflexivity. }
        rewrite E'. cbn [bind fst snd].
        exists (cs ++ cs'), ((pre ++ cs) :: css), tl, rest.
        split; [reflexivity|]. split.
        { cbn [concat]. simpl in Hpre. rewrite <- !app_assoc, Hpre. reflexivity. }
        split; [exact L|]. cbn [split_streams fst snd]. split; [|split; assumption].
        constructor; [|exact F].
        specialize (Hcont [] cs). rewrite !app_nil_r in Hcont. auto.
      + cbn [feed]. destruct (process_more buf b block) as (cs1 & r1 & E1 & C1 & L1 & K1).
        rewrite E1. cbn [bind fst snd].
        destruct (IH (cur ++ b :: block) (pre ++ cs1) r1 L1) as (cs' & css & tl & rest & E' & Hpre & L & F & C & K).
        { intros x t Ht. rewrite <- !app_assoc. apply Hcont. apply K1. exact Ht. }
        { rewrite concat_app, <- app_assoc, C1, app_assoc, Hcat. reflexivity. }
        rewrite E'. cbn [bind fst snd].
        exists (cs1 ++ cs'), css, tl, rest. split; [reflexivity|].
        rewrite app_assoc. repeat split; auto. }
  intros buf Hb. destruct (Gen buf [] buf Hb) as (cs & css & tl & rest & E & Hpre & R); auto.
  exists css, tl, rest. simpl in Hpre. rewrite <- Hpre. auto.
Qed.

Lemma split_streams_concat blocks : forall cur,
  concat (fst (split_streams cur blocks)) ++ snd (split_streams cur blocks) = cur ++ concat blocks.
Proof.
  induction blocks as [|[|b block] blocks IH]; intros cur.
  - simpl. now rewrite app_nil_r.
  - cbn [split_streams fst snd concat]. rewrite <- app_assoc. rewrite IH. reflexivity.
  - cbn [split_streams]. rewrite IH. cbn [concat]. now rewrite app_assoc.
Qed.

Theorem feed_concat blocks : exists cs rest,
  feed w gear cfg [] blocks = Ok (cs, rest) /\ concat cs ++ rest = concat blocks /\
  length rest < max_size cfg.
Proof.
  destruct (feed_all blocks []) as (css & tl & rest & E & L & F & C & _).
  { destruct Hcfg as (C1 & C2 & C3). simpl. lia. }
  exists (concat css ++ tl), rest. split; [exact E|]. split; [|exact L].
  rewrite concat_app, <- app_assoc, C.
  change (concat blocks) with ([] ++ concat blocks). rewrite <- split_streams_concat. f_equal.
  clear - F Hw Hcfg. induction F as [|s cs ss css H F IH]; [reflexivity|].
  cbn [concat]. rewrite concat_app, IH. f_equal. now apply chunking_concat.
Qed.

Theorem feed_streams blocks : exists css tl rest,
  feed w gear cfg [] blocks = Ok (concat css ++ tl, rest) /\
  Forall2 (fun s cs => is_chunking w gear cfg cs /\ concat cs = s)
     (fst (split_streams [] blocks)) css /\
  concat tl ++ rest = snd (split_streams [] blocks).
Proof.
  destruct (feed_all blocks []) as (css & tl & rest & E & L & F & C & _).
  { destruct Hcfg as (C1 & C2 & C3). simpl. lia. }
  exists css, tl, rest. split; [exact E|]. split; [|exact C].
  eapply Forall2_impl; [|exact F]. intros s cs H. now apply chunking_spec.
Qed.

Theorem is_chunking_unique cs1 cs2 :
  is_chunking w gear cfg cs1 -> is_chunking w gear cfg cs2 -> concat cs1 = concat cs2 -> cs1 = cs2.
Proof.
  intros H1 H2 E. apply spec_chunking in H1, H2. rewrite E in H1.
  eapply chunking_det; eauto.
Qed.

Theorem chunk_stream_same blocks1 blocks2 :
  Forall (fun b => b <> []) blocks1 -> Forall (fun b => b <> []) blocks2 ->
  concat blocks1 = concat blocks2 ->
  exists cs, chunk_stream w gear cfg blocks1 = Ok (cs, []) /\
             chunk_stream w gear cfg blocks2 = Ok (cs, []).
Proof.
  intros F1 F2 E.
  destruct (chunk_stream_ok blocks1 F1) as (cs1 & E1 & H1).
  destruct (chunk_stream_ok blocks2 F2) as (cs2 & E2 & H2).
  rewrite E in H1. exists cs1. split; [exact E1|].
  rewrite (chunking_det _ _ _ H1 H2). exact E2.
Qed.

Theorem chunk_stream_spec blocks : Forall (fun b => b <> []) blocks ->
  exists cs, chunk_stream w gear cfg blocks = Ok (cs, []) /\
    is_chunking w gear cfg cs /\ concat cs = concat blocks /\
    Forall (fun c => 1 <= length c <= max_size cfg) cs /\
    (forall pre c post, cs = pre ++ c :: post -> post <> [] -> min_size cfg <= length c).
Proof.
  intros F. destruct (chunk_stream_ok blocks F) as (cs & E & H).
  exists cs. split; [exact E|]. destruct (chunking_spec _ _ H). destruct (chunking_sizes _ _ H). auto.
Qed.

(** Early chunks do not depend on data that comes later. *)
Theorem feed_prefix blocks more cs rest :
  feed w gear cfg [] blocks = Ok (cs, rest) ->
  exists cs' rest', feed w gear cfg [] (blocks ++ more) = Ok (cs ++ cs', rest').
Proof.
  intros E. rewrite feed_app, E. cbn [bind fst snd].
  destruct (feed_concat blocks) as (cs0 & rest0 & E0 & _ & L). assert (rest0 = rest) by congruence; subst.
  destruct (feed_all more rest L) as (css & tl & rest' & E' & _). rewrite E'. cbn [bind fst snd]. eauto.
Qed.

Theorem resync cs1 cs2 pre1 pre2 t1 t2 :
  is_chunking w gear cfg cs1 -> is_chunking w gear cfg cs2 ->
  cs1 = pre1 ++ t1 -> cs2 = pre2 ++ t2 -> concat t1 = concat t2 -> t1 = t2.
Proof.
  intros H1 H2 -> -> E. apply is_chunking_unique; [| |exact E].
  - intros pre c post ->. apply (H1 (pre1 ++ pre) c post). now rewrite <- app_assoc.
  - intros pre c post ->. apply (H2 (pre2 ++ pre) c post). now rewrite <- app_assoc.
Qed.

Theorem resync_streams blocks1 blocks2 pre1 pre2 t1 t2 :
  Forall (fun b => b <> []) blocks1 -> Forall (fun b => b <> []) blocks2 ->
  chunk_stream w gear cfg blocks1 = Ok (pre1 ++ t1, []) ->
  chunk_stream w gear cfg blocks2 = Ok (pre2 ++ t2, []) ->
  concat t1 = concat t2 -> t1 = t2.
Proof.
  intros F1 F2 E1 E2.
  destruct (chunk_stream_spec blocks1 F1) as (cs1 & E1' & H1 & _).
  destruct (chunk_stream_spec blocks2 F2) as (cs2 & E2' & H2 & _).
  assert (cs1 = pre1 ++ t1) by congruence. assert (cs2 = pre2 ++ t2) by congruence.
  intros E. exact (resync cs1 cs2 pre1 pre2 t1 t2 H1 H2 H H0 E).
Qed.
End Proofs.
