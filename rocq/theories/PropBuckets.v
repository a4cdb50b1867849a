(** C72: the chunk size distribution shown and saved by cdc_indexer. *)
From Verif Require Import Base ListX Str ModelFastcdc SpecFastcdc ModelIndexer SpecIndexer ProofIndexer PropIndexer ModelBuckets SpecBuckets ProofBuckets.
From Coq Require Import Sorting.Sorted.
Local Open Scope N_scope.

(** Every chunk is counted in the smallest class that holds it. *)
Theorem C72_bucket : forall c size, roomy c -> size <= 2 ^ 62 ->
  exists b, size_bucket c size = Ok b /\ class_of c size b.
Proof.
  intros c size (Hm & Hs & _) Hz.
  destruct (size_bucket_ok c size) as (b & E); [split; [lia|]; apply (N.le_trans _ (2 ^ 62)); [lia|discriminate]|].
  exists b. split; [exact E|]. unfold size_bucket in E.
  destruct (bucket_pow 64 (min_chunk c) size 1024) as [b1| | |] eqn:E1; try discriminate. cbn [bind] in E.
  destruct (bucket_step (N.to_nat size) (step_size c) size b1) as [b2| | |] eqn:E2; try discriminate. cbn [bind] in E.
  destruct (pow_class (min_chunk c) (step_size c) ltac:(lia) size Hz 64 1024 b1) as (C1 & L1 & D1);
    [constructor| |exact E1|].
  { intros x Cx Lx. pose proof (cl_pos _ _ _ Cx). lia. }
  destruct (step_class (min_chunk c) (step_size c) ltac:(lia) size Hz ltac:(lia) _ b1 b2 C1 L1 D1 E2) as (C2 & L2 & D2).
  destruct (N.leb_spec size b2); [|lia]. injection E as <-.
  split; [exact C2|]. split; [exact D2|]. intros b' C' L'.
  destruct (N.le_gt_cases b2 b') as [|G]; [assumption|]. specialize (L2 b' C' G). lia.
Qed.

Lemma class_bound c size b : roomy c -> size <= 2 ^ 62 -> class_of c size b -> b <= 2 ^ 63.
Proof.
  intros (Hm & Hs & _) Hz (C & L & M). assert (W : 2 ^ 62 + 2 ^ 62 = 2 ^ 63 /\ 1024 <= 2 ^ 63) by (split; [reflexivity|discriminate]).
  inversion C as [|b0 C0 L0 E|b0 C0 L0 E].
  - lia.
  - lia.
  - destruct (N.le_gt_cases size b0) as [Q|Q].
    + specialize (M b0 C0 Q). lia.
    + lia.
Qed.

Lemma count_tally f l b : count_at b (map (fun s : N => (f s, 1)) l) = count (fun s => f s =? b) l.
Proof.
  unfold count_at, count. induction l as [|s l IH]; [reflexivity|]. cbn [map sum filter fst snd].
  destruct (f s =? b); cbn [length]; lia.
Qed.

Lemma count_le p q l : (forall s, In s l -> p s = true -> q s = true) -> count p l <= count q l.
Proof.
  unfold count. induction l as [|s l IH]; intros H; [cbn; lia|]. cbn [filter].
  assert (IH' := IH (fun x I => H x (or_intror I))).
  pose proof (H s (or_introl eq_refl)) as Hs. destruct (p s), (q s); cbn [length]; lia || discriminate (Hs eq_refl).
Qed.
Lemma count_ext p q l : (forall s, In s l -> p s = q s) -> count p l = count q l.
Proof. intros H. apply N.le_antisymm; apply count_le; intros s I E; [rewrite <- H|rewrite H]; auto. Qed.

Lemma count_pos p l : 1 <= count p l <-> exists s, In s l /\ p s = true.
Proof.
  unfold count. split.
  - intros H. destruct (filter p l) as [|s r] eqn:E; [cbn in H; lia|].
    exists s. apply filter_In. rewrite E. left. reflexivity.
  - intros (s & I & E). assert (F : In s (filter p l)) by (apply filter_In; auto).
    destruct (filter p l); [destruct F|cbn [length]; lia].
Qed.

Section Dist.
Variables (c : icfg) (f : N -> N) (l : list N) (m : list (N * N)).
Hypothesis Hr : roomy c.
Hypothesis Hd : distribution c f l m.

Lemma keys k : In k (map fst m) <-> exists s, In s l /\ f s = k.
Proof.
  destruct Hd as (_ & D & P & C). split.
  - intros I. apply in_map_iff in I as ([k' v] & E & I). cbn [fst] in E. subst k'.
    assert (X : 1 <= count_at k m).
    { rewrite <- (lookup_count k m D). unfold lookup. destruct (find (fun x => fst x =? k) m) as [[k' v']|] eqn:F.
      - apply find_some in F as [F _]. exact (P _ _ F).
      - apply (find_none _ _ F) in I. cbn [fst] in I. rewrite N.eqb_refl in I. discriminate. }
    rewrite C in X. apply count_pos in X as (s & Is & E). exists s. split; [exact Is|]. apply N.eqb_eq. exact E.
  - intros (s & I & E). destruct (in_dec N.eq_dec k (map fst m)) as [|Q]; [assumption|exfalso].
    assert (X : count_at k m = 0).
    { rewrite <- (lookup_count k m D). unfold lookup. destruct (find (fun x => fst x =? k) m) as [[k' v']|] eqn:F; [|reflexivity].
      apply find_some in F as [F F']. cbn [fst] in F'. apply N.eqb_eq in F'. subst k'. elim Q. apply in_map_iff. exists (k, v'). auto. }
    assert (1 <= count (fun s => f s =? k) l) by (apply count_pos; exists s; split; [exact I|apply N.eqb_eq, E]).
    rewrite <- C in H. lia.
Qed.

Lemma key_class k : In k (map fst m) -> class (min_chunk c) (step_size c) k /\ k <= 2 ^ 63.
Proof.
  intros I. apply keys in I as (s & I & <-). destruct Hd as (F & _). destruct (F s I) as (B & K).
  split; [exact (proj1 K)|]. exact (class_bound c s _ Hr B K).
Qed.

Lemma rows_total (r : list N) : NoDup r -> (forall s, In s l -> In (f s) r) ->
  lookups r m = N.of_nat (length l) /\ sum snd m = N.of_nat (length l).
Proof.
  intros D I. destruct Hd as (_ & Dm & _ & C).
  assert (A : lookups r m = sum (fun b => count_at b m) r).
  { rewrite lookups_sum. apply sum_ext. intros b _. apply lookup_count, Dm. }
  assert (B : sum (fun b => count_at b m) r = N.of_nat (length l)).
  { rewrite (sum_ext _ (fun b => count_at b (map (fun s => (f s, 1)) l)) r).
    - rewrite count_rows by exact D. rewrite sum_map. cbn [fst snd]. clear - I.
      induction l as [|s l' IH]; [reflexivity|]. cbn [sum length].
      destruct (in_dec N.eq_dec (f s) r) as [|Q]; [|elim Q; apply I; left; reflexivity].
      rewrite IH; [lia|]. intros x Ix. apply I. right. exact Ix.
    - intros b _. rewrite C, count_tally. reflexivity. }
  split; [congruence|]. rewrite <- B, count_rows by exact D. apply sum_ext. intros [k v] Ie. cbn [fst snd].
  destruct (in_dec N.eq_dec k r) as [|Q]; [reflexivity|]. elim Q.
  assert (K : In k (map fst m)) by (apply in_map_iff; exists (k, v); auto).
  apply keys in K as (s & Is & <-). apply I, Is.
Qed.
End Dist.

Lemma sorted_nodup l : StronglySorted N.lt l -> NoDup l.
Proof.
  induction 1 as [|x l S IH F]; constructor; [|exact IH]. intros I.
  apply (proj1 (Forall_forall _ _) F) in I. lia.
Qed.
Lemma sorted_app a b : StronglySorted N.lt a -> StronglySorted N.lt b -> (forall x y, In x a -> In y b -> x < y) ->
  StronglySorted N.lt (a ++ b).
Proof.
  intros Sa Sb H. induction Sa as [|x a Sa IH F]; [exact Sb|]. cbn [app]. constructor.
  - apply IH. intros u v Iu. apply H. right. exact Iu.
  - apply Forall_forall. intros y I. apply in_app_or in I as [I|I].
    + exact (proj1 (Forall_forall _ _) F y I).
    + apply H; [left; reflexivity|exact I].
Qed.

Lemma map_fst_lookup m r : map fst (map (fun b => (b, lookup b m)) r) = r.
Proof. induction r as [|b r IH]; [reflexivity|]. cbn [map fst]. rewrite IH. reflexivity. Qed.

(** The rows shown are all classes from the smallest to the largest one used,
    each with the number of chunks in it; together these are all chunks, so the
    assertion holds; the scale is the largest number. *)
Theorem C72_show : forall c f l m, roomy c -> distribution c f l m ->
  (exists s, In s l /\ f s <= 2 ^ 31) ->
  exists t a z b, show_chunk_sizes c m = Ok t /\ chunk_size_buckets c m 0 0 = Ok b /\
    In a (map f l) /\ In z (map f l) /\ classes_between c a z (map fst t) /\
    (forall s, In s l -> In (f s) (map fst t)) /\
    (forall k n, In (k, n) t -> n = count (fun s => f s =? k) l) /\
    sum snd t = N.of_nat (length l) /\ total_count b = N.of_nat (length l) /\ found_all b = true /\
    (forall k n, In (k, n) t -> n <= max_count b) /\ In (max_count b) (map snd t).
Proof.
  intros c f l m Hr Hd (s0 & I0 & L0).
  pose proof Hr as (Hm & Hs & _). pose proof Hd as (_ & Dm & Pm & Cm).
  unfold show_chunk_sizes, chunk_size_buckets.
  change (0 <? 0) with false. cbv iota. cbv zeta.
  destruct (scan_spec 0 0 m {| lo := 2 ^ 31; hi := 0; most := 0; outside := 0; total := 0 |}) as (A1 & A2 & A3 & A4 & A5).
  fold (scan_map 0 0 m) in A1, A2, A3, A4, A5. cbn [lo hi most outside total] in A1, A2, A3, A4, A5.
  set (x := scan_map 0 0 m) in *. clearbody x.
  pose proof (min_in m (2 ^ 31)) as (M1 & M2 & M3). cbv zeta in M1, M2, M3. rewrite <- A1 in M1, M2, M3.
  pose proof (max_in fst m) as (X1 & X2). cbv zeta in X1, X2. rewrite <- A2 in X1, X2.
  pose proof (max_in snd m) as (Y1 & Y2). cbv zeta in Y1, Y2. rewrite <- A3 in Y1, Y2.
  assert (K0 : In (f s0) (map fst m)) by (apply (keys c f l m Hd); eauto).
  assert (Nm : m <> []) by (intros ->; destruct K0).
  destruct X2 as [X2|(eh & Ih & Eh)]; [contradiction|]. destruct Y2 as [Y2|(em & Im & Em)]; [contradiction|].
  apply in_map_iff in K0 as (e0 & E0 & K0).
  assert (Lo : In (lo x) (map fst m)).
  { destruct M3 as [M3|(e & Ie & Ee)].
    - specialize (M1 e0 K0). rewrite E0 in M1. assert (lo x = f s0) by lia. rewrite H, <- E0. apply in_map, K0.
    - rewrite Ee. apply in_map, Ie. }
  assert (Hi : In (hi x) (map fst m)) by (rewrite Eh; apply in_map, Ih).
  destruct (key_class c f l m Hr Hd _ Lo) as (Clo & _). destruct (key_class c f l m Hr Hd _ Hi) as (Chi & Bhi).
  assert (Lh : lo x <= hi x) by (pose proof (M1 e0 K0); pose proof (X1 e0 K0); lia).
  destruct (rows_pow (min_chunk c) (step_size c) ltac:(lia) (hi x) Bhi Chi 64 (lo x) Clo Lh) as (l1 & s' & P1 & S1 & C1 & B1 & D1 & R1).
  { pose proof (cl_pos _ _ _ Clo). change (2 ^ N.of_nat 64) with (2 * 2 ^ 63). assert (0 < 2 ^ 63) by reflexivity. nia. }
  rewrite P1. cbn [bind fst snd].
  replace (hi x <? 0) with false by (symmetry; apply N.ltb_ge; lia). cbv iota.
  assert (Q : exists l2, step_rows (S (S (N.to_nat (hi x / step_size c)))) (step_size c) s' (hi x) = Ok l2 /\
    StronglySorted N.lt l2 /\ forall y, In y l2 <-> class (min_chunk c) (step_size c) y /\ s' <= y <= hi x).
  { destruct (N.le_gt_cases (min_chunk c) s') as [G|G].
    - apply (rows_step (min_chunk c) (step_size c) ltac:(lia) (hi x) Bhi ltac:(lia)); [exact C1|exact G|].
      pose proof (N.mul_succ_div_gt (hi x) (step_size c) ltac:(lia)).
      rewrite !Nat2N.inj_succ, N2Nat.id. nia.
    - destruct D1 as [D1|D1]; [lia|].
      destruct (N.lt_ge_cases s' (2 ^ 63)) as [T|T]; [|assert (2 ^ 62 < 2 ^ 63) by reflexivity; lia].
      exists [s']. rewrite <- D1. split; [|split].
      + apply (rows_end (min_chunk c)); [lia|exact C1|exact G|exact T|lia].
      + constructor; constructor.
      + intros y. cbn [In]. split; [intros [<-|[]]; split; [exact C1|lia]|]. intros (_ & ?). left. lia. }
  destruct Q as (l2 & P2 & S2 & R2). rewrite P2. cbn [bind rows].
  set (r := l1 ++ l2).
  assert (Sr : StronglySorted N.lt r).
  { apply sorted_app; [exact S1|exact S2|]. intros u v Iu Iv. apply R1 in Iu. apply R2 in Iv. lia. }
  assert (Rr : forall y, In y r <-> class (min_chunk c) (step_size c) y /\ lo x <= y <= hi x).
  { intros y. unfold r. rewrite in_app_iff, R1, R2. 
    split.
    - intros [(? & ?)|(? & ?)]; (split; [assumption|lia]).
    - intros (Cy & ?). destruct (N.lt_ge_cases y s'); [left|right]; (split; [exact Cy|lia]). }
  clearbody r. clear l1 l2 P1 P2 S1 S2 R1 R2 D1.
  assert (Fr : forall s, In s l -> In (f s) r).
  { intros s I. assert (K : In (f s) (map fst m)) by (apply (keys c f l m Hd); eauto).
    apply Rr. split; [exact (proj1 (key_class c f l m Hr Hd _ K))|].
    apply in_map_iff in K as (e & <- & K). pose proof (M1 e K); pose proof (X1 e K). lia. }
  destruct (rows_total c f l m Hd r (sorted_nodup r Sr) Fr) as (T1 & T2).
  eexists _, (lo x), (hi x), _. split; [reflexivity|]. split; [reflexivity|].
  rewrite map_fst_lookup. cbn [total_count found_all max_count].
  assert (Hin : forall k n, In (k, n) (map (fun b => (b, lookup b m)) r) -> n = count_at k m).
  { intros k n I. apply in_map_iff in I as (b & E & _). injection E as <- <-. apply lookup_count, Dm. }
  split. { apply (keys c f l m Hd) in Lo as (s & I & <-). apply in_map, I. }
  split. { apply (keys c f l m Hd) in Hi as (s & I & <-). apply in_map, I. }
  split; [split; assumption|]. split; [exact Fr|].
  split. { intros k n I. rewrite <- Cm. apply Hin, I. }
  split. { rewrite sum_map. cbn [snd]. rewrite <- lookups_sum. exact T1. }
  split; [lia|]. split. { rewrite A4, A5, T1, T2. apply N.eqb_eq.
    rewrite (sum_ext _ (fun _ => 0) m). { clear. assert (sum (fun _ : N * N => 0) m = 0); [induction m; cbn [sum]; lia|lia]. }
    intros e _. destruct (N.ltb_spec (fst e) 0); [lia|]. reflexivity. }
  split.
  { intros k n I. rewrite (Hin k n I). rewrite <- (lookup_count k m Dm). unfold lookup.
    destruct (find (fun x => fst x =? k) m) as [e|] eqn:F; [|lia]. apply find_some in F as [F _]. apply Y1, F. }
  rewrite Em. apply in_map_iff. exists (fst em, lookup (fst em) m). cbn [snd]. split.
  - destruct em as [k v]. cbn [fst snd]. unfold lookup. clear - Dm Im. induction m as [|[k' v'] m' IH]; [destruct Im|].
    cbn [find fst]. cbn [map fst] in Dm. inversion Dm as [|? ? Nk D']; subst. destruct Im as [E|Im].
    + injection E as -> ->. rewrite N.eqb_refl. reflexivity.
    + destruct (N.eqb_spec k' k) as [->|Ne]; [|exact (IH D' Im)]. elim Nk. apply in_map_iff. exists (k, v). auto.
  - apply (in_map (fun b => (b, lookup b m))). apply Rr.
    assert (K : In (fst em) (map fst m)) by (apply in_map, Im).
    split; [exact (proj1 (key_class c f l m Hr Hd _ K))|]. pose proof (M1 em Im); pose proof (X1 em Im). lia.
Qed.

Lemma class_pow mn st i : 1024 * 2 ^ N.of_nat i <= mn -> class mn st (1024 * 2 ^ N.of_nat i).
Proof.
  induction i as [|i IH]; intros L.
  - change (1024 * 2 ^ N.of_nat 0) with 1024. constructor.
  - rewrite Nat2N.inj_succ, N.pow_succ_r' in *. 
    assert (0 < 2 ^ N.of_nat i) by (apply N.neq_0_lt_0, N.pow_nonzero; discriminate).
    replace (1024 * (2 * 2 ^ N.of_nat i)) with (2 * (1024 * 2 ^ N.of_nat i)) by lia.
    apply c_double; [apply IH; lia|lia].
Qed.

Lemma dist_rest m below r : dist_columns false below 0 m r = map (fun b => (b, lookup b m)) r.
Proof.
  induction r as [|b r IH]; [reflexivity|]. cbn [dist_columns map]. rewrite IH. f_equal. f_equal.
  destruct r; lia.
Qed.

(** The columns of the results file. If the minimum chunk size is a power of
    two (of at least 1 KB) and the maximum is a class: the columns are the
    classes from the minimum to the maximum; the first counts the chunks up to
    the minimum, the others those of their class; together these are all unique
    chunks, and the assertion holds. *)
Theorem C72_results_partial : forall c f l m x i, roomy c -> distribution c f l m ->
  min_chunk c = 1024 * 2 ^ N.of_nat i -> class (min_chunk c) (step_size c) (max_chunk c) ->
  min_chunk c <= max_chunk c -> (forall s, In s l -> s <= max_chunk c) ->
  unique_chunks x = N.of_nat (length l) -> l <> [] ->
  exists t b, results_columns c x m = Ok t /\ classes_between c (min_chunk c) (max_chunk c) (map fst t) /\
    (forall k n, In (k, n) t -> n = if k =? min_chunk c then count (fun s => s <=? min_chunk c) l
                                    else count (fun s => f s =? k) l) /\
    sum snd t = unique_chunks x /\
    chunk_size_buckets c m (min_chunk c) (max_chunk c) = Ok b /\ found_all b = true.
Proof.
  intros c f l m x i Hr Hd Hmn Hmx Hle Hl Hu Nl.
  pose proof Hr as (Hm & Hs & Hx). pose proof Hd as (Fm & Dm & Pm & Cm).
  assert (Cmn : class (min_chunk c) (step_size c) (min_chunk c)) by (pose proof (class_pow (min_chunk c) (step_size c) i) as Q; rewrite <- Hmn in Q; apply Q, N.le_refl).
  assert (Fle : forall s, In s l -> f s <= max_chunk c) by (intros s I; apply (Fm s I); [exact Hmx|exact (Hl s I)]).
  unfold results_columns, chunk_size_buckets. cbv zeta.
  destruct (scan_spec (min_chunk c) (max_chunk c) m {| lo := 2 ^ 31; hi := 0; most := 0; outside := 0; total := 0 |}) as (_ & A2 & _ & A4 & A5).
  fold (scan_map (min_chunk c) (max_chunk c) m) in A2, A4, A5. cbn [lo hi most outside total] in A2, A4, A5.
  set (y := scan_map (min_chunk c) (max_chunk c) m) in *. clearbody y.
  pose proof (max_in fst m) as (X1 & X2). cbv zeta in X1, X2. rewrite <- A2 in X1, X2.
  pose proof (cl_pos _ _ _ Cmn) as Pmn.
  replace (0 <? min_chunk c) with true by (symmetry; apply N.ltb_lt; lia). cbv iota.
  assert (Hhi : hi y <= max_chunk c).
  { destruct X2 as [->|(e & I & ->)]; [cbn in A2; lia|].
    assert (K : In (fst e) (map fst m)) by (apply in_map, I). apply (keys c f l m Hd) in K as (s & Is & <-). apply Fle, Is. }
  cbn [pow_rows]. replace (min_chunk c <? N.min (min_chunk c) (hi y)) with false by (symmetry; apply N.ltb_ge; lia).
  cbn [bind fst snd app].
  assert (HM : (if hi y <? max_chunk c then max_chunk c else hi y) = max_chunk c) by (destruct (N.ltb_spec (hi y) (max_chunk c)); lia).
  rewrite HM.
  destruct (rows_step (min_chunk c) (step_size c) ltac:(lia) (max_chunk c)
    ltac:(apply (N.le_trans _ (2 ^ 62)); [lia|discriminate]) ltac:(lia)
    (S (S (N.to_nat (max_chunk c / step_size c)))) (min_chunk c) Cmn (N.le_refl _)) as (r & P & Sr & Rr).
  { pose proof (N.mul_succ_div_gt (max_chunk c) (step_size c) ltac:(lia)).
    rewrite !Nat2N.inj_succ, N2Nat.id. nia. }
  rewrite P. cbn [bind rows].
  destruct (N.eqb_spec (unique_chunks x) 0) as [Z|Z]; [destruct l; [contradiction|cbn in Hu; lia]|].
  assert (Ab : count_if (fun k => max_chunk c <? k) m = 0).
  { rewrite count_if_sum. rewrite (sum_ext _ (fun _ => 0) m); [clear; induction m; cbn [sum]; lia|].
    intros e I. specialize (X1 e I). destruct (N.ltb_spec (max_chunk c) (fst e)); lia. }
  rewrite Ab.
  set (bl := count_if (fun k => k <? min_chunk c) m).
  destruct r as [|b r].
  { exfalso. apply (Rr (min_chunk c)). split; [exact Cmn|lia]. }
  assert (Eb : b = min_chunk c).
  { inversion Sr as [|? ? _ Fb]; subst. assert (I : In (min_chunk c) (b :: r)) by (apply Rr; split; [exact Cmn|lia]).
    destruct I as [->|I]; [reflexivity|]. apply (proj1 (Forall_forall _ _) Fb) in I.
    assert (J : In b (b :: r)) by (left; reflexivity). apply Rr in J. lia. }
  subst b. cbn [dist_columns]. rewrite dist_rest.
  eexists _, _. split; [reflexivity|].
  assert (Em : map fst ((min_chunk c, lookup (min_chunk c) m + bl) :: map (fun b => (b, lookup b m)) r) = min_chunk c :: r).
  { cbn [map fst]. rewrite map_fst_lookup. reflexivity. }
  rewrite Em. split; [split; [exact Sr|exact Rr]|].
  (* chunks below the minimum *)
  assert (Low : forall k, count_at k m = sum (fun s => if f s =? k then 1 else 0) l).
  { intros k. rewrite Cm, <- count_tally. unfold count_at. rewrite sum_map. reflexivity. }
  assert (Tm : forall g : N -> N, sum (fun e => snd e * g (fst e)) m = sum (fun s => g (f s)) l).
  { intros g. destruct (rows_total c f l m Hd (map fst m) Dm) as (_ & _).
    { intros s I. apply (keys c f l m Hd). eauto. }
    transitivity (sum (fun k => count_at k m * g k) (map fst m)).
    - rewrite sum_map. apply sum_ext. intros [k v] I. cbn [fst snd]. f_equal.
      rewrite <- (lookup_count k m Dm). unfold lookup.
      clear - Dm I. induction m as [|[k' v'] m' IH]; [destruct I|].
      cbn [find fst]. cbn [map fst] in Dm. inversion Dm as [|? ? Nk D']; subst. destruct I as [E|I].
      + injection E as -> ->. rewrite N.eqb_refl. reflexivity.
      + destruct (N.eqb_spec k' k) as [->|Ne]; [|exact (IH D' I)]. elim Nk. apply in_map_iff. exists (k, v). auto.
    - rewrite (sum_ext _ (fun k => sum (fun s => if f s =? k then 1 else 0) l * g k) (map fst m)); [|intros k _; rewrite Low; reflexivity].
      assert (Fin : forall s, In s l -> In (f s) (map fst m)) by (intros s I; apply (keys c f l m Hd); eauto).
      clear - Dm Fin. induction l as [|s l' IH]; cbn [sum].
      + clear. induction (map fst m) as [|k r IH]; cbn [sum]; lia.
      + rewrite <- IH by (intros s' I; apply Fin; right; exact I).
        assert (X : forall r, NoDup r -> In (f s) r -> sum (fun k => ((if f s =? k then 1 else 0) + sum (fun s => if f s =? k then 1 else 0) l') * g k) r
          = g (f s) + sum (fun k => sum (fun s => if f s =? k then 1 else 0) l' * g k) r).
        { clear. induction r as [|k r IH]; intros D I; [destruct I|]. cbn [sum]. inversion D as [|? ? Nk D']; subst.
          destruct (N.eqb_spec (f s) k) as [<-|Ne].
          - assert (Y : sum (fun k => ((if f s =? k then 1 else 0) + sum (fun s => if f s =? k then 1 else 0) l') * g k) r
              = sum (fun k => sum (fun s => if f s =? k then 1 else 0) l' * g k) r).
            { apply sum_ext. intros k Ik. destruct (N.eqb_spec (f s) k) as [<-|]; [contradiction|]. lia. }
            rewrite Y. lia.
          - destruct I as [I|I]; [congruence|]. rewrite (IH D' I). lia. }
        apply X; [exact Dm|]. apply Fin. left. reflexivity. }
  assert (Hbl : lookup (min_chunk c) m + bl = count (fun s => s <=? min_chunk c) l).
  { unfold bl. rewrite count_if_sum, (lookup_count _ m Dm).
    pose proof (Tm (fun k => if k <=? min_chunk c then 1 else 0)) as Q.
    transitivity (sum (fun s => if f s <=? min_chunk c then 1 else 0) l).
    - rewrite <- Q. unfold count_at. clear. induction m as [|[k v] m' IH]; [reflexivity|]. cbn [sum fst snd].
      rewrite <- IH. destruct (N.eqb_spec k (min_chunk c)), (N.ltb_spec k (min_chunk c)), (N.leb_spec k (min_chunk c)); lia.
    - assert (G : forall s, In s l -> (f s <=? min_chunk c) = (s <=? min_chunk c)).
      { intros s I. destruct (Fm s I) as (_ & _ & Ls & Ms). specialize (Ms _ Cmn).
        destruct (N.leb_spec (f s) (min_chunk c)), (N.leb_spec s (min_chunk c)); try reflexivity; try lia. }
      unfold count. clear - G. induction l as [|s l' IH]; [reflexivity|]. cbn [sum filter].
      rewrite (G s (or_introl eq_refl)), IH by (intros; apply G; right; assumption).
      destruct (s <=? min_chunk c); cbn [length]; lia. }
  split.
  { intros k n [E|I].
    - injection E as <- <-. rewrite N.eqb_refl. exact Hbl.
    - apply in_map_iff in I as (b & E & I). injection E as <- <-.
      destruct (N.eqb_spec b (min_chunk c)) as [->|Ne].
      + exfalso. apply sorted_nodup in Sr. inversion Sr; contradiction.
      + rewrite (lookup_count _ m Dm). apply Cm. }
  (* everything is counted *)
  assert (Tot : sum (fun k => lookup k m) (min_chunk c :: r) + bl = N.of_nat (length l)).
  { rewrite (sum_ext _ (fun k => count_at k m) (min_chunk c :: r)) by (intros k _; apply lookup_count, Dm).
    rewrite count_rows by (apply sorted_nodup, Sr).
    unfold bl. rewrite count_if_sum.
    transitivity (sum snd m).
    - assert (G : forall e, In e m -> In (fst e) (min_chunk c :: r) <-> min_chunk c <= fst e).
      { intros e I. rewrite Rr. assert (K : In (fst e) (map fst m)) by (apply in_map, I).
        pose proof (proj1 (key_class c f l m Hr Hd _ K)). specialize (X1 e I). split; [lia|]. intros; split; [assumption|lia]. }
      clear - G. induction m as [|e m' IH]; [reflexivity|]. cbn [sum].
      rewrite <- IH by (intros; apply G; right; assumption). specialize (G e (or_introl eq_refl)).
      destruct (in_dec N.eq_dec (fst e) (min_chunk c :: r)) as [I|I], (N.ltb_spec (fst e) (min_chunk c)) as [L|L]; try lia.
      + apply G in I. lia.
      + elim I. apply G, L.
    - refine (proj2 (rows_total c f l m Hd (map fst m) Dm _)). intros s I. apply (keys c f l m Hd). eauto. }
  split. { cbn [sum snd] in *. rewrite sum_map. cbn [snd]. rewrite Hu, <- Tot. cbn [sum]. lia. }
  split; [reflexivity|]. cbn [found_all]. apply N.eqb_eq. rewrite A5, A4, lookups_sum.
  destruct (rows_total c f l m Hd (map fst m) Dm) as (_ & T2).
  { intros s I. apply (keys c f l m Hd). eauto. }
  rewrite T2, <- Tot. unfold bl. rewrite count_if_sum.
  match goal with |- context [_ + (0 + sum ?g m)] => rewrite (sum_ext g (fun e => if fst e <? min_chunk c then snd e else 0) m) end; [lia|].
  intros e I. specialize (X1 e I). destruct (N.ltb_spec (max_chunk c) (fst e)); [lia|]. rewrite andb_false_r. lia.
Qed.

(** With an average chunk size that is a power of two from 2 KB to 2^60 bytes
    and the other sizes left to their defaults, the conditions above hold. *)
Lemma class_steps mn st b k : class mn st b -> mn <= b -> class mn st (b + N.of_nat k * st).
Proof.
  intros C L. induction k as [|k IH]; [rewrite N.mul_0_l, N.add_0_r; exact C|].
  rewrite Nat2N.inj_succ, N.mul_succ_l, N.add_assoc. apply c_step; [exact IH|lia].
Qed.
Theorem C72_default_sizes : forall i hw rb th h, (i <= 49)%nat ->
  let c := sanitize hw (main_cfg 0 (1024 * 2 ^ N.of_nat (S i)) 0 rb th h) in
  roomy c /\ min_chunk c = 1024 * 2 ^ N.of_nat i /\ max_chunk c = 1024 * 2 ^ N.of_nat (S (S i)) /\
  class (min_chunk c) (step_size c) (max_chunk c) /\
  step_size c = N.max (min_chunk c / 4) 1024.
Proof.
  intros i hw rb th h Hi. cbv zeta.
  assert (Hp : 1 <= 2 ^ N.of_nat i <= 2 ^ 49).
  { split; [assert (2 ^ N.of_nat i <> 0) by (apply N.pow_nonzero; discriminate); lia|]. apply N.pow_le_mono_r; lia. }
  assert (W : 2 ^ 62 = 8192 * 2 ^ 49 /\ 2 ^ 64 = 32768 * 2 ^ 49) by (split; reflexivity).
  rewrite !Nat2N.inj_succ, !N.pow_succ_r'.
  assert (E2 : exists q, 2 ^ N.of_nat i = q /\ (q = 1 \/ q = 2 \/ exists r, q = 4 * r)).
  { destruct i as [|[|i]]; eexists; (split; [reflexivity|]); [left; reflexivity|right; left; reflexivity|right; right].
    exists (2 ^ N.of_nat i). rewrite !Nat2N.inj_succ, !N.pow_succ_r'. lia. }
  pose proof (fun st => class_pow (1024 * 2 ^ N.of_nat i) st i (N.le_refl _)) as Cp.
  destruct E2 as (q & Eq & Hq). rewrite Eq in *. clear Eq.
  set (p49 := 2 ^ 49) in *. clearbody p49.
  set (c := sanitize _ _).
  assert (Ec : min_chunk c = 1024 * q /\ max_chunk c = 1024 * (2 * (2 * q)) /\ step_size c = N.max (1024 * q / 4) 1024).
  { unfold c, sanitize, main_cfg. cbn [read_block min_chunk avg_chunk max_chunk step_size threads htype]. cbv zeta.
    change (0 =? 0) with true. cbv iota.
    assert (D : 1024 * (2 * q) / 2 = 1024 * q) by (replace (1024 * (2 * q)) with (1024 * q * 2) by lia; apply N.div_mul; discriminate).
    assert (M : w64 (2 * (1024 * (2 * q))) = 1024 * (2 * (2 * q))) by (unfold w64; rewrite N.mod_small; lia).
    rewrite D, M.
    destruct (N.eqb_spec (1024 * (2 * q)) 0); [lia|].
    destruct (N.eqb_spec (1024 * q) 0); [lia|]. destruct (N.ltb_spec (1024 * (2 * q)) (1024 * q)); [lia|].
    destruct (N.eqb_spec (1024 * (2 * (2 * q))) 0); [lia|]. destruct (N.ltb_spec (1024 * (2 * (2 * q))) (1024 * (2 * q))); [lia|].
    cbn [orb]. destruct (N.eqb_spec (N.max (1024 * q / 4) 1024) 0); [lia|]. auto. }
  destruct Ec as (E1 & E2 & E3). rewrite E1, E2, E3. clearbody c.
  assert (D4 : 1024 * q / 4 = 256 * q) by (replace (1024 * q) with (256 * q * 4) by lia; apply N.div_mul; discriminate).
  rewrite D4.
  split. { unfold roomy. rewrite E1, E2, E3, D4. lia. }
  split; [reflexivity|]. split; [lia|]. split; [|reflexivity].
  pose proof (Cp (N.max (256 * q) 1024)) as Cq. clear Cp.
  destruct Hq as [->|[->|(r & ->)]].
  - exact (class_steps _ _ _ 3 Cq (N.le_refl _)).
  - exact (class_steps _ _ _ 6 Cq (N.le_refl _)).
  - pose proof (class_steps _ _ _ 12 Cq (N.le_refl _)) as X.
    replace (1024 * (2 * (2 * (4 * r)))) with (1024 * (4 * r) + N.of_nat 12 * N.max (256 * (4 * r)) 1024) by lia. exact X.
Qed.

(** What the indexer counts is such a distribution: after a run that returned
    OK (with a hash that does not collide on the chunks), the map describes the
    sizes of the different chunks. *)
Lemma incr_keys b m : NoDup (map fst m) -> NoDup (map fst (incr b m)) /\ forall k, In k (map fst (incr b m)) <-> k = b \/ In k (map fst m).
Proof.
  intros D. assert (K : forall k, In k (map fst (incr b m)) <-> k = b \/ In k (map fst m)).
  { intros k. clear D. induction m as [|[k' v] m IH]; cbn [incr map fst In]; [intuition|].
    destruct (N.eqb_spec k' b) as [->|Ne]; cbn [map fst In]; [intuition|]. rewrite IH. intuition. }
  split; [|exact K]. induction m as [|[k' v] m IH]; cbn [incr map fst]; [repeat constructor; intros []|].
  cbn [map fst] in D. inversion D as [|? ? Nk D']; subst.
  destruct (N.eqb_spec k' b) as [->|Ne]; cbn [map fst]; constructor; auto.
  - intros I.
    assert (Q : forall m k, In k (map fst (incr b m)) -> k = b \/ In k (map fst m)).
    { clear. induction m as [|[k' v] m IH]; intros k; cbn [incr map fst In]; [intuition|].
      destruct (N.eqb_spec k' b) as [->|Ne]; cbn [map fst In]; [intuition|]. intros [H|H]; [auto|]. apply IH in H. intuition. }
    apply Q in I as [I|I]; [congruence|contradiction].
  - apply IH; [exact D'|]. intros k. clear. induction m as [|[k'' v''] m IH]; cbn [incr map fst In]; [intuition|].
    destruct (N.eqb_spec k'' b) as [->|Ne]; cbn [map fst In]; [intuition|]. rewrite IH. intuition.
Qed.
Lemma incr_pos b m : (forall k v, In (k, v) m -> 1 <= v) -> forall k v, In (k, v) (incr b m) -> 1 <= v.
Proof.
  induction m as [|[k' v'] m IH]; intros P k v; cbn [incr].
  - intros [E|[]]. injection E as <- <-. lia.
  - destruct (k' =? b).
    + intros [E|I]; [injection E as <- <-; lia|]. apply (P k). right. exact I.
    + intros [E|I]; [injection E as <- <-; apply (P k'); left; reflexivity|].
      apply (IH (fun k v I => P k v (or_intror I)) k v I).
Qed.

Lemma reach_map en ins y : reach en ins y -> NoDup (map fst (sizes (fst y))) /\ forall k v, In (k, v) (sizes (fst y)) -> 1 <= v.
Proof.
  induction 1 as [|x y R IH S]; [split; [constructor|intros k v []]|].
  destruct S as [s a w b s' w' A]. cbn [fst] in *.
  destruct A; cbn [sizes set_jobs set_error set_chunks set_st set_sizes]; try exact IH.
  destruct IH as [D P]. split; [apply incr_keys, D|exact (incr_pos b0 _ P)].
Qed.

Theorem C72_indexer_counts : forall en hw c ins y cut,
  configured en hw c -> errno_set en -> 1 <= threads (cfg en) -> roomy (cfg en) ->
  reach en ins y -> joined y -> err (fst y) = 0 ->
  (forall p, In p (files_of en ins) -> cuts en p (cut p)) ->
  let all := concat (map cut (files_of en ins)) in
  (forall a b, In a all -> In b all -> digest en a = digest en b -> a = b) ->
  let l := map (fun x : bytes => N.of_nat (length x)) (distinct all) in
  exists f, distribution (cfg en) f l (sizes (fst y)) /\ (forall s, In s l -> s <= max_chunk (cfg en)) /\
    unique_chunks (st (fst y)) = N.of_nat (length l).
Proof.
  intros en hw c ins y cut Hc Her T Hr R J E Hcut all Hinj l.
  destruct (C71_unique en hw c ins y cut Hc Her T R J E Hcut Hinj) as (U1 & _ & U3).
  fold all in U1, U3.
  destruct (configured_ok en hw c Hc) as (Wf & _ & _).
  assert (Len : forall s, In s l -> s <= max_chunk (cfg en)).
  { intros s I. apply in_map_iff in I as (x & <- & I). unfold distinct in I. apply nodup_In in I.
    unfold all in I. apply in_concat in I as (cs & Ics & Ix). apply in_map_iff in Ics as (p & <- & Ip).
    destruct (Hcut p Ip) as (content & _ & _ & K). apply in_split in Ix as (pre & post & Ex).
    destruct (K pre x post Ex) as (_ & B). unfold is_boundary in B. cbv zeta in B.
    unfold wf_config in Wf. cbn [cdc_cfg min_size avg_size max_size] in *.
    destruct (Nat.leb_spec (length (x ++ concat post)) (N.to_nat (min_chunk (cfg en)))) as [L|L]; [lia|].
    destruct B as (B & _). lia. }
  exists (fun s => match size_bucket (cfg en) s with Ok b => b | _ => 0 end).
  split; [|split; [exact Len|unfold l; rewrite map_length; exact U1]].
  split.
  { intros s I. pose proof (Len s I) as Ls. destruct Hr as (Hm & Hs & Hx). split; [lia|].
    destruct (C72_bucket (cfg en) s) as (b & -> & K); [split; [exact Hm|split; assumption]|lia|exact K]. }
  destruct (reach_map en ins y R) as (D & P). split; [exact D|]. split; [exact P|].
  intros b. rewrite U3. unfold l. clear - Hr Len. unfold count. fold l in Len.
  assert (Ok' : forall x, In x (distinct all) -> exists b, size_bucket (cfg en) (N.of_nat (length x)) = Ok b).
  { intros x I. destruct (C72_bucket (cfg en) (N.of_nat (length x)) Hr) as (b' & K & _); [|eauto].
    destruct Hr as (_ & _ & Hx). specialize (Len (N.of_nat (length x)) (in_map _ _ _ I)). lia. }
  clear Len. induction (distinct all) as [|x r IH]; [reflexivity|]. cbn [sum map filter].
  rewrite IH by (intros; apply Ok'; right; assumption).
  destruct (Ok' x (or_introl eq_refl)) as (b' & K). rewrite K. destruct (b' =? b); cbn [length]; lia.
Qed.

(** Refuted: the columns of the results file count every unique chunk once.
    - A minimum chunk size that is no power of two (here 3000): the columns are
      not the classes, and the chunks are in none of them.
    - A maximum that is no class (here 5000): chunks in the class above it are
      counted twice.
    - Nothing indexed: division by zero. *)
Definition f_of (c : icfg) (s : N) : N := match size_bucket c s with Ok b => b | _ => 0 end.
Definition stat1 (n : N) : stats := {| total_files := 1; total_chunks := n; unique_chunks := n; total_bytes := 0; unique_bytes := 0 |}.
Lemma one_chunk c s b : roomy c -> s <= 2 ^ 62 -> size_bucket c s = Ok b -> distribution c (f_of c) [s] [(b, 1)].
Proof.
  intros Hr Hs E. split; [|split; [|split]].
  - intros s' [<-|[]]. split; [exact Hs|]. unfold f_of. destruct (C72_bucket c s Hr Hs) as (b' & E' & K).
    rewrite E'. exact K.
  - repeat constructor. intros [].
  - intros k v [H|[]]. injection H as <- <-. lia.
  - intros k. unfold count_at, count, f_of. cbn [sum fst snd filter]. rewrite E. destruct (b =? k); reflexivity.
Qed.

Theorem C72_results_min_refuted : exists c m t s, c = sanitize 1 (main_cfg 3000 5000 9000 0 1 HBlake3) /\
  main_ok c /\ roomy c /\ s <= max_chunk c /\ distribution c (f_of c) [s] m /\
  results_columns c (stat1 1) m = Ok t /\ (forall k n, In (k, n) t -> n = 0) /\
  exists b, chunk_size_buckets c m (min_chunk c) (max_chunk c) = Ok b /\ found_all b = false.
Proof.
  eexists _, [(4096, 1)], _, 4000. split; [reflexivity|].
  split. { split; [reflexivity|]. split; [reflexivity|]. split; [reflexivity|]. discriminate. }
  assert (Hr : roomy (sanitize 1 (main_cfg 3000 5000 9000 0 1 HBlake3))).
  { split; [discriminate|]. split; [split; discriminate|discriminate]. }
  split; [exact Hr|]. split; [discriminate|].
  split; [apply one_chunk; [exact Hr|discriminate|vm_compute; reflexivity]|].
  split; [vm_compute; reflexivity|].
  split. { intros k n H. repeat (destruct H as [H|H]; [injection H as <- <-; reflexivity|]). destruct H. }
  eexists. split; [vm_compute; reflexivity|reflexivity].
Qed.

Theorem C72_results_max_refuted : exists c m t s, c = sanitize 1 (main_cfg 2048 4096 5000 0 1 HBlake3) /\
  main_ok c /\ roomy c /\ s <= max_chunk c /\ distribution c (f_of c) [s] m /\
  results_columns c (stat1 1) m = Ok t /\ sum snd t = 2 /\
  exists b, chunk_size_buckets c m (min_chunk c) (max_chunk c) = Ok b /\ found_all b = false.
Proof.
  eexists _, [(5120, 1)], _, 4500. split; [reflexivity|].
  split. { split; [reflexivity|]. split; [reflexivity|]. split; [reflexivity|]. discriminate. }
  assert (Hr : roomy (sanitize 1 (main_cfg 2048 4096 5000 0 1 HBlake3))).
  { split; [discriminate|]. split; [split; discriminate|discriminate]. }
  split; [exact Hr|]. split; [discriminate|].
  split; [apply one_chunk; [exact Hr|discriminate|vm_compute; reflexivity]|].
  split; [vm_compute; reflexivity|]. split; [reflexivity|].
  eexists. split; [vm_compute; reflexivity|reflexivity].
Qed.

Theorem C72_results_empty_refuted : exists c, c = sanitize 1 (main_cfg 0 262144 0 0 1 HBlake3) /\ main_ok c /\ roomy c /\
  distribution c (f_of c) [] [] /\ results_columns c (stat1 0) [] = UB.
Proof.
  eexists. split; [reflexivity|].
  split. { split; [reflexivity|]. split; [reflexivity|]. split; [reflexivity|]. discriminate. }
  split. { split; [discriminate|]. split; [split; discriminate|discriminate]. }
  split. { split; [intros s []|]. split; [constructor|]. split; [intros k v []|]. reflexivity. }
  vm_compute. reflexivity.
Qed.

(** Cases for the theorems above: the default sizes, one chunk of 300000 bytes. *)
Example C72_example : let c := sanitize 1 (main_cfg 0 262144 0 0 1 HBlake3) in
  roomy c /\ distribution c (f_of c) [300000] [(327680, 1)] /\
  (exists t, results_columns c (stat1 1) [(327680, 1)] = Ok t /\ sum snd t = 1 /\ length t = 13%nat) /\
  show_chunk_sizes c [(327680, 1); (1024, 2)] = Ok [(1024, 2); (2048, 0); (4096, 0); (8192, 0); (16384, 0);
    (32768, 0); (65536, 0); (131072, 0); (163840, 0); (196608, 0); (229376, 0); (262144, 0); (294912, 0); (327680, 1)].
Proof.
  cbv zeta. assert (Hr : roomy (sanitize 1 (main_cfg 0 262144 0 0 1 HBlake3))).
  { split; [discriminate|]. split; [split; discriminate|discriminate]. }
  split; [exact Hr|]. split; [apply one_chunk; [exact Hr|discriminate|vm_compute; reflexivity]|].
  split; [eexists; split; [vm_compute; reflexivity|split; reflexivity]|]. vm_compute. reflexivity.
Qed.
