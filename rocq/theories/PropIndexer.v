(** C71: indexing files with several threads (cdc_indexer), for every schedule. *)
From Verif Require Import Base ListX Str ModelFastcdc SpecFastcdc ProofFastcdc PropFastcdc ModelIndexer SpecIndexer ProofIndexer.
Local Open Scope N_scope.
Local Notation str := (list N).

Lemma joined_over y : joined y -> forall A (f : worker -> list A) g, f WDone = [] -> over f g (snd y) = 0.
Proof.
  intros J A f g H. unfold over. destruct y as [s ws]. unfold joined in J. cbn [snd] in *.
  induction J as [|w ws -> _ IH]; cbn [sum]; [reflexivity|]. rewrite H, IH. reflexivity.
Qed.

Lemma reach_length en ins y : reach en ins y -> length (snd y) = N.to_nat (threads (cfg en)).
Proof.
  induction 1 as [|x y R IH S]; [apply repeat_length|]. destruct S. cbn [snd] in *.
  rewrite app_length in *. exact IH.
Qed.

Lemma joined_stop en ins y log fin bad : reach en ins y -> joined y -> 1 <= threads (cfg en) ->
  inv en ins y log fin bad -> err (fst y) = 0 ->
  bad = [] /\ (forall f : str -> N, sum f (files_of en ins) = sum f fin) /\
  (forall i, In i ins -> input_ok en i).
Proof.
  intros R J T V E. pose proof (reach_length _ _ _ R) as L.
  assert (Dn : In WDone (snd y)).
  { destruct (snd y) as [|w ws] eqn:Ey; [cbn in L; lia|]. unfold joined in J. rewrite Ey in J.
    left. exact (eq_sym (eq_sym (Forall_inv J))). }
  destruct (v_stop _ _ _ _ _ _ V Dn) as [X|[X1 X2]]; [congruence|].
  destruct (v_err0 _ _ _ _ _ _ V E) as [B O]. split; [exact B|]. split.
  - intros f. rewrite (v_files _ _ _ _ _ _ V f), (joined_over y J) by reflexivity.
    unfold remaining. rewrite X1, X2, B. cbn. lia.
  - intros i I. destruct (O i I) as [Y|[Y|Y]]; auto.
    + rewrite X1 in Y. destruct Y.
    + rewrite X2 in Y. destruct Y.
Qed.

Lemma NoDup_map_inj {A B} (f : A -> B) l : (forall x y, In x l -> In y l -> f x = f y -> x = y) -> NoDup l -> NoDup (map f l).
Proof.
  intros H N. induction N as [|x l Nx N IH]; cbn [map]; constructor.
  - intros I. apply in_map_iff in I as (y & E & I). assert (y = x) by (apply H; [right; exact I|left; reflexivity|exact E]).
    subst y. contradiction.
  - apply IH. intros a b Ia Ib. apply H; right; assumption.
Qed.

(** The configuration in effect: what is given is kept as far as it is
    consistent, the rest has the documented defaults. *)
Theorem C71_config : forall hw c, avg_chunk c < 2 ^ 63 -> let d := sanitize hw c in
  1 <= avg_chunk d /\ min_chunk d <= avg_chunk d <= max_chunk d /\ 1 <= read_block d /\ 1 <= step_size d /\
  avg_chunk d = (if avg_chunk c =? 0 then 256 * 1024 else avg_chunk c) /\
  (1 <= min_chunk c <= avg_chunk d -> min_chunk d = min_chunk c) /\
  (~ 1 <= min_chunk c <= avg_chunk d -> min_chunk d = avg_chunk d / 2) /\
  (avg_chunk d <= max_chunk c -> max_chunk d = max_chunk c) /\
  (max_chunk c < avg_chunk d -> max_chunk d = 2 * avg_chunk d) /\
  (read_block d = if read_block c =? 0 then 4096 else read_block c) /\
  (threads d = if threads c =? 0 then hw else threads c) /\ htype d = htype c /\
  (1 <= step_size c -> step_size d = step_size c) /\
  (step_size c = 0 -> 1 <= min_chunk d -> step_size d = min_chunk d).
Proof.
  intros hw c Ha d. unfold d, sanitize. cbv zeta. cbn [read_block min_chunk avg_chunk max_chunk step_size threads htype].
  change (256 * 1024) with 262144.
  set (av := if avg_chunk c =? 0 then 262144 else avg_chunk c).
  assert (Av : 1 <= av < 2 ^ 63).
  { unfold av. destruct (N.eqb_spec (avg_chunk c) 0); [split; [lia|reflexivity]|lia]. }
  clearbody av.
  assert (W : w64 (2 * av) = 2 * av) by (unfold w64; apply N.mod_small; change (2 ^ 64) with (2 * 2 ^ 63); lia).
  rewrite W. assert (Dv : av / 2 <= av) by (apply N.div_le_upper_bound; lia).
  destruct (N.eqb_spec (min_chunk c) 0), (N.ltb_spec av (min_chunk c)), (N.eqb_spec (max_chunk c) 0), (N.ltb_spec (max_chunk c) av),
    (N.eqb_spec (read_block c) 0), (N.eqb_spec (step_size c) 0); cbn [orb];
    repeat match goal with |- context [0 <? ?x] => destruct (N.ltb_spec 0 x) end;
    repeat (split; [first [reflexivity|lia]|]); lia.
Qed.

(** When Run returns OK: every file of every input has been counted once, and
    the totals are those of the files cut by the chunking rule, whatever the
    number of threads, the schedule and the size of the blocks read. *)
Theorem C71_totals : forall en hw c ins y cut,
  configured en hw c -> errno_set en -> 1 <= threads (cfg en) ->
  reach en ins y -> joined y -> err (fst y) = 0 ->
  (forall p, In p (files_of en ins) -> cuts en p (cut p)) ->
  let all := concat (map cut (files_of en ins)) in
  total_files (st (fst y)) = N.of_nat (length (files_of en ins)) /\
  total_chunks (st (fst y)) = N.of_nat (length all) /\
  total_bytes (st (fst y)) = N.of_nat (length (concat all)) /\
  unique_chunks (st (fst y)) = N.of_nat (length (distinct (map (digest en) all))) /\
  sum snd (sizes (fst y)) = unique_chunks (st (fst y)).
Proof.
  intros en hw c ins y cut Hc Her T R J E Hcut all. change (digest en) with (hash_of en).
  destruct (inv_reach en Her ins y R) as (log & fin & bad & V).
  destruct (joined_stop _ _ _ _ _ _ R J T V E) as (-> & F & _).
  assert (Pl : forall p, In p (files_of en ins) -> pl en p = cut p).
  { intros p I. destruct (Hcut p I) as (content & Hf & Hr). unfold pl.
    rewrite (plan_good en hw c p (cut p) Hc); [reflexivity|exists content; exact Hf|exists content; auto]. }
  assert (L : forall g : bytes -> N, sum g log = sum g all).
  { intros g. pose proof (v_chunks _ _ _ _ _ _ V g) as C.
    rewrite !(joined_over y J) in C by reflexivity. cbn [sum] in C.
    unfold all. rewrite sum_concat, sum_map. rewrite <- (F (fun p => sum g (pl en p))) in C.
    rewrite (sum_ext _ (fun p => sum g (pl en p)) (files_of en ins)).
    - lia.
    - intros p I. rewrite Pl by exact I. reflexivity. }
  assert (Lin : forall x, In x log <-> In x all).
  { intros x. rewrite <- !eqs_in, L. reflexivity. }
  pose proof (v_total _ _ _ _ _ _ V) as V1. pose proof (v_bytes _ _ _ _ _ _ V) as V2.
  pose proof (v_unique _ _ _ _ _ _ V) as V3. pose proof (v_sum _ _ _ _ _ _ V) as V4.
  rewrite (joined_over y J) in V1, V2, V3, V4 by reflexivity.
  split. { rewrite (v_done _ _ _ _ _ _ V), <- F. apply sum_one. }
  split. { rewrite <- sum_one, <- L. lia. }
  split.
  { assert (forall l : list bytes, N.of_nat (length (concat l)) = sum len l) as ->.
    { clear. induction l as [|x l IH]; [reflexivity|]. cbn [concat sum]. rewrite app_length, Nat2N.inj_add, IH. reflexivity. }
    rewrite <- L. lia. }
  split; [|lia].
  rewrite N.add_0_r in V3. rewrite V3, sum_one. f_equal.
  rewrite <- (map_length fst). apply Permutation_length, NoDup_Permutation.
  - exact (v_nodup _ _ _ _ _ _ V).
  - apply NoDup_nodup.
  - intros h. unfold distinct. rewrite nodup_In, (v_hash _ _ _ _ _ _ V), !in_map_iff.
    split; intros (x & Ex & I); exists x; (split; [exact Ex|]); apply Lin; exact I.
Qed.

(** If moreover no two different chunks have the same hash: the unique chunks
    and bytes are those of the different chunks, and the size distribution
    counts each of them once, in its bucket. *)
Theorem C71_unique : forall en hw c ins y cut,
  configured en hw c -> errno_set en -> 1 <= threads (cfg en) ->
  reach en ins y -> joined y -> err (fst y) = 0 ->
  (forall p, In p (files_of en ins) -> cuts en p (cut p)) ->
  let all := concat (map cut (files_of en ins)) in
  (forall a b, In a all -> In b all -> digest en a = digest en b -> a = b) ->
  unique_chunks (st (fst y)) = N.of_nat (length (distinct all)) /\
  unique_bytes (st (fst y)) = N.of_nat (length (concat (distinct all))) /\
  forall b, count_at b (sizes (fst y)) =
    sum (fun x => match size_bucket (cfg en) (N.of_nat (length x)) with
                  | Ok b' => if b' =? b then 1 else 0 | _ => 0 end) (distinct all).
Proof.
  intros en hw c ins y cut Hc Her T R J E Hcut all Hinj. change (digest en) with (hash_of en) in Hinj.
  destruct (inv_reach en Her ins y R) as (log & fin & bad & V).
  destruct (joined_stop _ _ _ _ _ _ R J T V E) as (-> & F & _).
  assert (Pl : forall p, In p (files_of en ins) -> pl en p = cut p).
  { intros p I. destruct (Hcut p I) as (content & Hf & Hr). unfold pl.
    rewrite (plan_good en hw c p (cut p) Hc); [reflexivity|exists content; exact Hf|exists content; auto]. }
  assert (L : forall g : bytes -> N, sum g log = sum g all).
  { intros g. pose proof (v_chunks _ _ _ _ _ _ V g) as C.
    rewrite !(joined_over y J) in C by reflexivity. cbn [sum] in C.
    unfold all. rewrite sum_concat, sum_map. rewrite <- (F (fun p => sum g (pl en p))) in C.
    rewrite (sum_ext _ (fun p => sum g (pl en p)) (files_of en ins)).
    - lia.
    - intros p I. rewrite Pl by exact I. reflexivity. }
  assert (Lin : forall x, In x log <-> In x all).
  { intros x. rewrite <- !eqs_in, L. reflexivity. }
  assert (Pm : Permutation (chunks (fst y)) (map (fun x => (hash_of en x, len x)) (distinct all))).
  { apply NoDup_Permutation.
    - exact (NoDup_map_inv _ _ (v_nodup _ _ _ _ _ _ V)).
    - apply NoDup_map_inj; [|apply NoDup_nodup].
      intros a b Ia Ib Eab. unfold distinct in Ia, Ib. rewrite nodup_In in Ia, Ib.
      apply Hinj; auto. congruence.
    - intros [h n]. rewrite in_map_iff. split.
      + intros I. destruct (v_len _ _ _ _ _ _ V h n I) as (x & Ix & Eh & El).
        exists x. split; [congruence|]. unfold distinct. apply nodup_In, Lin, Ix.
      + intros (x & Ex & Ix). injection Ex as <- <-. unfold distinct in Ix. rewrite nodup_In in Ix.
        assert (Ih : In (hash_of en x) (map fst (chunks (fst y)))).
        { apply (v_hash _ _ _ _ _ _ V), in_map_iff. exists x. split; [reflexivity|apply Lin, Ix]. }
        apply in_map_iff in Ih as ([h n] & Eh & I). cbn [fst] in Eh. subst h.
        destruct (v_len _ _ _ _ _ _ V _ n I) as (x' & Ix' & Eh & El).
        assert (x' = x) by (apply Hinj; auto; apply Lin; exact Ix'). subst x'. rewrite El. exact I. }
  pose proof (v_unique _ _ _ _ _ _ V) as V3. pose proof (v_ubytes _ _ _ _ _ _ V) as V4.
  pose proof (v_sizes _ _ _ _ _ _ V) as V5.
  rewrite (joined_over y J) in V3, V4 by reflexivity. rewrite N.add_0_r in V3, V4.
  split. { rewrite V3, (sum_perm _ _ _ Pm), sum_map. apply sum_one. }
  split.
  { rewrite V4, (sum_perm _ _ _ Pm), sum_map. cbn [snd].
    generalize (distinct all). intros l. induction l as [|x l IH]; [reflexivity|].
    cbn [concat sum]. rewrite app_length, Nat2N.inj_add, <- IH. reflexivity. }
  intros b. specialize (V5 b). rewrite (joined_over y J) in V5 by reflexivity.
  rewrite N.add_0_r in V5. rewrite V5, (sum_perm _ _ _ Pm), sum_map. reflexivity.
Qed.

(** Run returns OK exactly if every input is a file or a directory that can be
    listed (or may not be read), and every file can be opened and read to the
    end; otherwise the error is that of one of them. *)
Theorem C71_status : forall en hw c ins y,
  configured en hw c -> errno_set en -> 1 <= threads (cfg en) ->
  reach en ins y -> joined y ->
  (err (fst y) = 0 <-> Forall (input_ok en) ins /\ Forall (file_ok en) (files_of en ins)) /\
  (err (fst y) <> 0 -> cause en ins (err (fst y))).
Proof.
  intros en hw c ins y Hc Her T R J.
  destruct (inv_reach en Her ins y R) as (log & fin & bad & V).
  assert (C : err (fst y) <> 0 -> cause en ins (err (fst y))) by exact (v_err1 _ _ _ _ _ _ V).
  split; [|exact C]. split.
  - intros E. destruct (joined_stop _ _ _ _ _ _ R J T V E) as (-> & F & O).
    split; [apply Forall_forall; exact O|]. apply Forall_forall. intros p I.
    apply eqs_in in I. rewrite F in I. apply eqs_in in I.
    pose proof (proj1 (Forall_forall _ _) (v_fin _ _ _ _ _ _ V) p I) as (cs & P).
    apply (plan_status en p cs 0 Her P). reflexivity.
  - intros [Hi Hf]. destruct (N.eq_dec (err (fst y)) 0) as [Z|Z]; [exact Z|exfalso].
    destruct (C Z) as [i l I Ex El|i I Ex El Np|p I Ef|p content I Ef _].
    + destruct (proj1 (Forall_forall _ _) Hi i I) as [X|X]; [congruence|]. rewrite El in X. contradiction.
    + destruct (proj1 (Forall_forall _ _) Hi i I) as [X|X]; [congruence|]. rewrite El in X. contradiction.
    + destruct (proj1 (Forall_forall _ _) Hf p I) as (x & X). congruence.
    + destruct (proj1 (Forall_forall _ _) Hf p I) as (x & X). congruence.
Qed.

(** Run always returns: no schedule is infinite, and while a worker has not
    ended some worker can go on. *)
Definition wm (en : env) (w : worker) : nat :=
  match w with
  | WDone => 0
  | WCheck => 2
  | WLock => 1
  | WOpen p => 4 + 4 * length (pl en p)
  | WEmit _ cs _ => 3 + 4 * length cs
  | WStat _ _ _ cs _ => 6 + 4 * length cs
  | WSize _ _ cs _ => 5 + 4 * length cs
  | WFail _ _ => 1
  end.
Definition jm (en : env) (p : str) : N := N.of_nat (5 + 4 * length (pl en p)).
Definition measure (en : env) (y : system) : nat :=
  N.to_nat (sum (jm en) (remaining en (fst y)) + sum (fun w => N.of_nat (wm en w)) (snd y)).

Lemma from_jobs en ins j e r d : from_inputs en ins = (j, e, r, d) -> forall f : str -> N,
  match j with Some p => f p | None => 0 end + sum f (dir_files d) + sum f (files_of en r) <= sum f (files_of en ins).
Proof.
  revert j e r d. induction ins as [|i ins IH]; intros j e r d H f.
  - cbn in H. injection H as <- <- <- <-. cbn. lia.
  - cbn [from_inputs] in H. change (to_unix i) with (with_slashes i) in H. rewrite files_cons, sum_app. unfold input_files.
    destruct (file_exists en (with_slashes i)).
    + injection H as <- <- <- <-. cbn [sum dir_files]. lia.
    + destruct (look_dir en i) as [[|g gs] ed|ed].
      * destruct (ed =? 0).
        -- specialize (IH _ _ _ _ H f). cbn [sum]. lia.
        -- injection H as <- <- <- <-. cbn [sum dir_files]. lia.
      * injection H as <- <- <- <-. cbn [sum dir_files]. lia.
      * destruct (denied ed).
        -- specialize (IH _ _ _ _ H f). cbn [sum]. lia.
        -- injection H as <- <- <- <-. cbn [sum dir_files]. lia.
Qed.

Lemma next_jobs en s j e r d : next_job en s = (j, e, r, d) -> forall f : str -> N,
  match j with Some p => f p | None => 0 end + sum f (dir_files d) + sum f (files_of en r) <= sum f (remaining en s).
Proof.
  intros H f. unfold next_job in H. unfold remaining. rewrite sum_app.
  destruct (dir s) as [[[|g gs] ed]|].
  - destruct (ed =? 0).
    + pose proof (from_jobs _ _ _ _ _ _ H f). cbn [sum dir_files]. lia.
    + injection H as <- <- <- <-. cbn [sum dir_files]. lia.
  - injection H as <- <- <- <-. cbn [sum dir_files]. lia.
  - pose proof (from_jobs _ _ _ _ _ _ H f). cbn [sum dir_files]. lia.
Qed.

Lemma step_measure en x y : step en x y -> (measure en y < measure en x)%nat.
Proof.
  intros [s a w b s' w' A]. unfold measure. cbn [fst snd]. rewrite !sum_app. cbn [sum].
  set (sa := sum _ a). set (sb := sum _ b). clearbody sa sb.
  destruct A; try (cbn [wm]; unfold remaining in *; cbn [dir inputs set_chunks set_st set_sizes set_error] in *; lia).
  - pose proof (next_jobs _ _ _ _ _ _ H (jm en)) as X. unfold remaining at 1. cbn [dir inputs set_jobs].
    rewrite sum_app. unfold jm in X at 1. cbn [wm]. lia.
  - pose proof (next_jobs _ _ _ _ _ _ H (jm en)) as X. unfold remaining at 1. cbn [dir inputs set_jobs set_error].
    rewrite sum_app. cbn [wm]. cbv beta iota in X. lia.
  - cbn [wm]. unfold pl. rewrite H. lia.
  - cbn [wm length]. lia.
  - unfold remaining; cbn [dir inputs set_chunks wm length]. lia.
  - unfold remaining; cbn [dir inputs set_st]. destruct new; cbn [wm]; lia.
Qed.

Theorem C71_no_infinite_run : forall en x, Acc (fun b a => step en a b) x.
Proof.
  intros en x. remember (measure en x) as n eqn:E. revert x E.
  induction n as [n IH] using lt_wf_ind. intros x ->. constructor. intros y S.
  exact (IH _ (step_measure en x y S) y eq_refl).
Qed.

Theorem C71_no_deadlock : forall en hw c ins x, configured en hw c ->
  reach en ins x -> joined x \/ exists y, step en x y.
Proof.
  intros en hw c ins [s ws] Hc R.
  destruct (Forall_Exists_dec (fun w => w = WDone) ltac:(intros []; (left; reflexivity) || (right; discriminate)) ws) as [J|X].
  - left. exact J.
  - right. apply Exists_exists in X as (w & I & Nd). apply in_split in I as (a & b & ->).
    assert (exists s' w', act en s w s' w') as (s' & w' & A).
    { destruct w as [| |p|p [|ch cs] e|p ch new cs e|p ch cs e|p e|].
      - destruct (N.eq_dec (err s) 0); eexists _, _; [eapply a_check|eapply a_check_err]; assumption.
      - destruct (next_job en s) as [[[[p|] e] i] d] eqn:Jb; eexists _, _; [eapply a_job|eapply a_nojob]; exact Jb.
      - destruct (plan_ok en hw c p Hc) as (cs & e & P). eexists _, _. eapply a_open, P.
      - destruct (N.eq_dec e 0) as [->|Ne]; eexists _, _; [eapply a_file|eapply a_bad; exact Ne].
      - destruct (has_hash (hash_of en ch) (chunks s)) eqn:K; eexists _, _; [eapply a_known|eapply a_new]; exact K.
      - eexists _, _. eapply a_stat.
      - destruct (size_bucket_ok (cfg en) (len ch)) as (b' & K); [apply (configured_ok en hw c Hc)|].
        eexists _, _. eapply a_size, K.
      - eexists _, _. eapply a_fail.
      - contradiction. }
    exists (s', a ++ w' :: b). constructor. exact A.
Qed.

(** At any time during the run the counters are consistent: no more unique
    than total, no more files, chunks or bytes than there are (failing files
    count up to the error), and they never decrease. *)
Theorem C71_progress_consistent : forall en ins x, errno_set en -> reach en ins x ->
  total_files (st (fst x)) <= N.of_nat (length (files_of en ins)) /\
  sum snd (sizes (fst x)) <= unique_chunks (st (fst x)) /\
  unique_chunks (st (fst x)) <= N.of_nat (length (chunks (fst x))) /\
  forall y, step en x y ->
    total_files (st (fst x)) <= total_files (st (fst y)) /\ total_chunks (st (fst x)) <= total_chunks (st (fst y)) /\
    total_bytes (st (fst x)) <= total_bytes (st (fst y)) /\ unique_chunks (st (fst x)) <= unique_chunks (st (fst y)) /\
    unique_bytes (st (fst x)) <= unique_bytes (st (fst y)) /\ total_chunks (st (fst y)) <= total_chunks (st (fst x)) + 1.
Proof.
  intros en ins x Her R. destruct (inv_reach en Her ins x R) as (log & fin & bad & V).
  split. { rewrite (v_done _ _ _ _ _ _ V), <- sum_one. pose proof (v_files _ _ _ _ _ _ V (fun _ => 1)). lia. }
  split.
  { pose proof (v_unique _ _ _ _ _ _ V) as V1. pose proof (v_sum _ _ _ _ _ _ V) as V2.
    assert (over unstat_new (fun _ => 1) (snd x) <= over unsized (fun _ => 1) (snd x)); [|lia].
    unfold over. apply sum_le. intros w _. destruct w as [| | | |? ? [|] ? ?| | |]; cbn [unstat_new unsized sum]; lia. }
  split. { rewrite <- sum_one. pose proof (v_unique _ _ _ _ _ _ V). lia. }
  intros y [s a w b s' w' A]. cbn [fst].
  destruct A; cbn [st set_jobs set_error set_chunks set_st set_sizes add_stat add_file total_files total_chunks
    unique_chunks total_bytes unique_bytes]; try (destruct new); repeat split; lia.
Qed.

(** Never more unique than total, in any state a progress report may show. *)
Theorem C71_unique_le_total : forall en ins x, errno_set en -> reach en ins x ->
  unique_chunks (st (fst x)) <= total_chunks (st (fst x)) /\
  unique_bytes (st (fst x)) <= total_bytes (st (fst x)).
Proof.
  intros en ins x _ R. induction R as [|x y R IH S].
  - cbn. split; lia.
  - destruct S as [s a w b s' w' A]. cbn [fst] in *.
    destruct A; cbn [st set_jobs set_error set_chunks set_st set_sizes add_stat add_file total_files total_chunks
      unique_chunks total_bytes unique_bytes]; try (destruct new); lia.
Qed.

(** With "--hash null" there is at most one unique chunk. *)
Theorem C71_null_hash : forall en hw c ins y cut,
  configured en hw c -> errno_set en -> 1 <= threads (cfg en) -> htype (cfg en) = HNull ->
  reach en ins y -> joined y -> err (fst y) = 0 ->
  (forall p, In p (files_of en ins) -> cuts en p (cut p)) ->
  unique_chunks (st (fst y)) = (if concat (map cut (files_of en ins)) then 0 else 1).
Proof.
  intros en hw c ins y cut Hc Her T Hn R J E Hcut.
  destruct (C71_totals en hw c ins y cut Hc Her T R J E Hcut) as (_ & _ & _ & U & _). rewrite U.
  assert (Hh : forall x, digest en x = []) by (intros x; unfold digest; rewrite Hn; reflexivity).
  generalize (concat (map cut (files_of en ins))). intros l.
  assert (G : forall l, map (digest en) l = repeat [] (length l)).
  { intros l0. induction l0 as [|x l0 IH]; [reflexivity|]. cbn [map length repeat]. rewrite Hh, IH. reflexivity. }
  rewrite G. destruct l as [|x l]; [reflexivity|]. cbn [length].
  unfold distinct. induction (length l) as [|n IH]; [reflexivity|].
  remember (S n) as m. cbn [repeat nodup]. destruct (in_dec bytes_dec [] (repeat [] m)) as [I|I].
  - exact IH.
  - exfalso. apply I. rewrite Heqm. left. reflexivity.
Qed.

(** Refuted: a run that returns OK has counted every file. If the number of
    threads is not given and std::thread::hardware_concurrency() returns 0 (it
    may), no worker is started and Run returns OK at once. *)
Definition ex_cfg : icfg := {| read_block := 2; min_chunk := 0; avg_chunk := 4; max_chunk := 0; step_size := 0; threads := 0; htype := HBlake3 |}.
Definition ex_env (hw : N) : env :=
  {| cfg := sanitize hw ex_cfg; gear := fun b => b; blake3 := fun c => c;
     file_exists := fun p => seqb p [102]; look_dir := fun p => if seqb p [100] then Listing [[100; 47; 103]] 0 else CannotList 2;
     look_file := fun p => if seqb p [102] then Readable [1; 2; 3] false else if seqb p [100; 47; 103] then Readable [1; 2; 3] false else CannotOpen 2 |}.

Theorem C71_no_threads_refuted : exists en hw c ins y, configured en hw c /\ errno_set en /\
  reach en ins y /\ joined y /\ err (fst y) = 0 /\ files_of en ins <> [] /\ total_files (st (fst y)) = 0.
Proof.
  exists (ex_env 0), 0, ex_cfg, [[102]], (start (ex_env 0) [[102]]).
  split; [repeat split; reflexivity || discriminate|].
  split. { split; intros p e; cbn.
    - destruct (seqb p [100]); [discriminate|]. intros H. injection H as <-. discriminate.
    - destruct (seqb p [102]); [discriminate|]. destruct (seqb p [100; 47; 103]); [discriminate|].
      intros H. injection H as <-. discriminate. }
  split; [constructor|]. split; [constructor|]. split; [reflexivity|]. split; [discriminate|reflexivity].
Qed.

(** A case for the theorems above: one file and one directory with a file of
    the same content, a run of one thread to the end. *)
Lemma fw en ins s w s' w' : reach en ins (s, [w]) -> act en s w s' w' -> reach en ins (s', [w']).
Proof. intros R A. eapply r_step; [exact R|exact (step_at en s [] w [] s' w' A)]. Qed.
(** Every readable file has its cut. *)
Theorem C71_cuts_exist : forall en hw c p content, configured en hw c -> look_file en p = Readable content false ->
  exists cs, plan en p = Ok (cs, 0) /\ cuts en p cs /\ forall cs', cuts en p cs' -> cs' = cs.
Proof.
  intros en hw c p content Hc Ef. destruct (configured_ok en hw c Hc) as (Wf & Rb & _).
  unfold plan. rewrite Ef.
  destruct (blocks_spec (N.to_nat (read_block (cfg en))) ltac:(lia) (length content) content (le_n _)) as [E F].
  destruct (chunk_stream_spec 64 (gear en) (cdc_cfg (cfg en)) ltac:(lia) Wf _ F) as (cs' & E1 & H1 & H2 & _).
  exists cs'. split; [rewrite E1; reflexivity|]. rewrite E in H2.
  assert (C : cuts en p cs') by (exists content; auto).
  split; [exact C|]. intros cs'' C''.
  pose proof (plan_good en hw c p cs' Hc (ex_intro _ content Ef) C) as X1.
  pose proof (plan_good en hw c p cs'' Hc (ex_intro _ content Ef) C'') as X2.
  rewrite X1 in X2. congruence.
Qed.

Example C71_example : exists y, configured (ex_env 1) 1 ex_cfg /\ errno_set (ex_env 1) /\
  reach (ex_env 1) [[102]; [100]] y /\ joined y /\ err (fst y) = 0 /\ 1 <= threads (cfg (ex_env 1)) /\
  files_of (ex_env 1) [[102]; [100]] = [[102]; [100; 47; 103]] /\
  (forall p, In p (files_of (ex_env 1) [[102]; [100]]) -> cuts (ex_env 1) p [[1; 2]; [3]]) /\
  total_files (st (fst y)) = 2 /\ total_bytes (st (fst y)) = 6 /\ unique_bytes (st (fst y)) = 3.
Proof.
  assert (R : exists s, reach (ex_env 1) [[102]; [100]] (s, [WDone]) /\ err s = 0 /\ total_files (st s) = 2 /\
    total_bytes (st s) = 6 /\ unique_bytes (st s) = 3).
  { set (en := ex_env 1). set (ins := [[102]; [100]]).
    pose proof (r_start en ins) as R. unfold start in R.
    change (N.to_nat (threads (cfg en))) with 1%nat in R. cbn [repeat] in R.
    eapply fw in R; [|eapply a_check; reflexivity].
    eapply fw in R; [|eapply a_job; vm_compute; reflexivity].
    eapply fw in R; [|eapply a_open; vm_compute; reflexivity].
    eapply fw in R; [|eapply a_new; vm_compute; reflexivity].
    eapply fw in R; [|eapply a_stat].
    eapply fw in R; [|eapply a_size; vm_compute; reflexivity].
    eapply fw in R; [|eapply a_new; vm_compute; reflexivity].
    eapply fw in R; [|eapply a_stat].
    eapply fw in R; [|eapply a_size; vm_compute; reflexivity].
    eapply fw in R; [|eapply a_file].
    eapply fw in R; [|eapply a_check; reflexivity].
    eapply fw in R; [|eapply a_job; vm_compute; reflexivity].
    eapply fw in R; [|eapply a_open; vm_compute; reflexivity].
    eapply fw in R; [|eapply a_known; vm_compute; reflexivity].
    eapply fw in R; [|eapply a_stat].
    eapply fw in R; [|eapply a_known; vm_compute; reflexivity].
    eapply fw in R; [|eapply a_stat].
    eapply fw in R; [|eapply a_file].
    eapply fw in R; [|eapply a_check; reflexivity].
    eapply fw in R; [|eapply a_nojob; vm_compute; reflexivity].
    eexists. split; [exact R|]. vm_compute. auto. }
  destruct R as (s & R & E1 & E2 & E3 & E4).
  exists (s, [WDone]). 
  split; [repeat split; reflexivity || discriminate|].
  split. { split; intros p e; cbn.
    - destruct (seqb p [100]); [discriminate|]. intros H. injection H as <-. discriminate.
    - destruct (seqb p [102]); [discriminate|]. destruct (seqb p [100; 47; 103]); [discriminate|].
      intros H. injection H as <-. discriminate. }
  split; [exact R|]. split; [repeat constructor|]. split; [exact E1|]. split; [vm_compute; discriminate|].
  split; [reflexivity|]. split; [|auto].
  intros p [<-|[<-|[]]].
  - destruct (C71_cuts_exist (ex_env 1) 1 ex_cfg [102] [1; 2; 3]) as (cs & P & C & _);
      [repeat split; reflexivity || discriminate|reflexivity|].
    assert (X : plan (ex_env 1) [102] = Ok ([[1; 2]; [3]], 0)) by (vm_compute; reflexivity).
    rewrite X in P. injection P as <-. exact C.
  - destruct (C71_cuts_exist (ex_env 1) 1 ex_cfg [100; 47; 103] [1; 2; 3]) as (cs & P & C & _);
      [repeat split; reflexivity || discriminate|reflexivity|].
    assert (X : plan (ex_env 1) [100; 47; 103] = Ok ([[1; 2]; [3]], 0)) by (vm_compute; reflexivity).
    rewrite X in P. injection P as <-. exact C.
Qed.
