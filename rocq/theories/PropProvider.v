(** C24, C25: the data provider (data_store/data_provider.cc). *)
From Verif Require Import Base ListX Str ModelText ModelChunkMap ModelProvider SpecProvider ProofProvider ModelLocks ProofLocks.
Local Open Scope N_scope.

(** * C24: the right bytes *)

(** Reading a list of chunk ranges.  Cache entries may be truncated, cache
    operations may fail, readers may deliver truncated chunks, and other threads
    may do anything that leaves cached chunks prefixes of the true chunks.  Then,
    whatever the call returns, every range marked as done was filled with
    exactly the requested bytes, and the cache is as sound as before. *)
Theorem C24_list_bytes : forall (truth : cid -> option bytes) (env : list N -> cache -> cache -> Prop) faults has_writer readers ts (c : cache) s ts' (c' : cache),
  preserves env (sound truth) -> Forall (reader_sound truth) readers -> sound truth c ->
  Forall (fun t => t_done t = false /\ t_data t = []) ts ->
  provider_get_list env faults has_writer readers ts c (s, ts') c' ->
  Forall2 same_request ts ts' /\
  (forall t, In t ts' -> t_done t = true -> t_size t <> 0%nat -> delivered truth t) /\ sound truth c'.
Proof.
  intros truth env faults hw readers ts c s ts' c' He Hr Hc Init H.
  set (good := fun id b => exists t, truth id = Some t /\ prefix b t).
  apply (get_list_inv truth good ltac:(auto) env faults hw) in H; auto.
  - destruct H as (I & O & G & _). split; [|split; [|exact I]].
    + eapply Forall2_weaken; [|exact G]. intros ? ? (S & _). exact S.
    + intros t It. rewrite Forall_forall in O. exact (proj1 (O t It)).
  - intros _ id b k (t & T & (x & E)). exists t. split; auto. exists (skipn k b ++ x). rewrite app_assoc, firstn_skipn. exact E.
  - intros r Ir id b Hf. rewrite Forall_forall in Hr. exact (Hr r Ir id b Hf).
  - eapply Forall_impl; [|exact Init]. intros t (D & N). split; [congruence|]. intros C. contradiction.
Qed.

(** If it succeeds, every range was read whose chunk some reader has. *)
Theorem C24_list_complete : forall (truth : cid -> option bytes) (env : list N -> cache -> cache -> Prop) faults has_writer readers ts (c : cache) ts' (c' : cache),
  preserves env (sound truth) -> Forall (reader_sound truth) readers -> sound truth c ->
  Forall (fun t => t_done t = false /\ t_data t = []) ts ->
  provider_get_list env faults has_writer readers ts c (SOk, ts') c' ->
  forall n t, nth_error ts n = Some t -> t_size t <> 0%nat -> (exists r, In r readers /\ delivers r (t_id t)) ->
  exists t', nth_error ts' n = Some t' /\ same_request t t' /\ t_done t' = true /\ delivered truth t'.
Proof.
  intros truth env faults hw readers ts c ts' c' He Hr Hc Init H n t En Sz Del.
  set (good := fun id b => exists t, truth id = Some t /\ prefix b t).
  apply (get_list_inv truth good ltac:(auto) env faults hw) in H; auto.
  - destruct H as (_ & O & G & D). specialize (D eq_refl). pose proof (Forall2_and_ _ _ _ _ G D) as F. clear G D.
    revert n En. induction F as [|x y l l' (G & D) F IH]; intros n En; [destruct n; discriminate|].
    inversion O as [|? ? Oy O']; subst. inversion Init; subst. destruct n as [|n].
    + inversion En; subst. exists y. split; [reflexivity|]. destruct G as (S & _). specialize (D Del Sz). split; [exact S|]. split; [exact D|].
      apply Oy; auto. destruct S as (_ & _ & S). congruence.
    + apply IH; auto.
  - intros _ id b k (x & T & (y & E)). exists x. split; auto. exists (skipn k b ++ y). rewrite app_assoc, firstn_skipn. exact E.
  - intros r Ir id b Hf. rewrite Forall_forall in Hr. exact (Hr r Ir id b Hf).
  - eapply Forall_impl; [|exact Init]. intros x (D & N). split; [congruence|]. intros C. contradiction.
Qed.

(** What it caches is the true chunk (no cache operation failed half-way). *)
Theorem C24_caches_true_chunks : forall (truth : cid -> option bytes) (env : list N -> cache -> cache -> Prop) has_writer readers ts (c : cache) s ts' (c' : cache),
  preserves env (intact truth) -> Forall (reader_exact truth) readers -> intact truth c ->
  Forall (fun t => t_done t = false /\ t_data t = []) ts ->
  provider_get_list env false has_writer readers ts c (s, ts') c' -> intact truth c'.
Proof.
  intros truth env hw readers ts c s ts' c' He Hr Hc Init H.
  set (good := fun id b => truth id = Some b : Prop).
  assert (Hg : forall id b, good id b -> exists t, truth id = Some t /\ prefix b t).
  { intros id b G. exists b. split; auto. exists []. now rewrite app_nil_r. }
  apply (get_list_inv truth good Hg env false hw) in H; auto.
  - exact (proj1 H).
  - discriminate.
  - intros r Ir id b Hf. rewrite Forall_forall in Hr. exact (Hr r Ir id b Hf).
  - eapply Forall_impl; [|exact Init]. intros t (D & N). split; [congruence|]. intros C. contradiction.
Qed.

(** A missing or truncated cache entry is detected, fetched again and replaced by
    the complete chunk (readers that hand over whole chunks). *)
Theorem C24_truncated_entry_is_replaced : forall (truth : cid -> option bytes) (env : list N -> cache -> cache -> Prop) readers ts (c : cache) ts' (c' : cache) t,
  (forall held (c c' : cache), env held c c' -> c' (t_id t) = c (t_id t)) ->
  Forall (fun r => reader_exact truth r /\ r_kind r <> KDefault) readers ->
  Forall (fun t => t_done t = false /\ t_data t = []) ts ->
  In t ts -> t_size t <> 0%nat ->
  (forall b, c (t_id t) = Some b -> (length b < t_off t + t_size t)%nat) ->
  (exists r, In r readers /\ delivers r (t_id t)) -> truth (t_id t) <> Some [] ->
  provider_get_list env false true readers ts c (SOk, ts') c' -> c' (t_id t) = truth (t_id t).
Proof.
  intros truth env readers ts c ts' c' t He Hr Init It Sz Sh Del NE H. rewrite Forall_forall in Hr.
  eapply (refetch truth env readers (t_id t) t ts c SOk ts' c'); eauto.
  - eapply Forall_impl; [|exact Init]. intros ? (? & ?). auto.
  - unfold shortv. destruct (c (t_id t)) as [b|] eqn:C; auto. specialize (Sh b eq_refl). unfold range. rewrite firstn_length, skipn_length. lia.
Qed.

(** No other cache entry is touched. *)
Theorem C24_other_chunks_untouched : forall (env : list N -> cache -> cache -> Prop) faults has_writer readers ts (c : cache) s ts' (c' : cache) q,
  (forall held (c c' : cache), env held c c' -> c' q = c q) -> ~ In q (map t_id ts) ->
  provider_get_list env faults has_writer readers ts c (s, ts') c' -> c' q = c q.
Proof. intros. eapply frame_list; eauto. Qed.

(** The call holds the mutexes of all chunks it may write. *)
Theorem C24_locks_cover : forall ids id, In id ids -> In (mutex_of id) (write_lock_all ids).
Proof. intros ids id H. apply write_lock_all_spec. eauto. Qed.

(** Reading a range of one chunk: with an intact cache and exact readers the
    result is the range, and the cache stays intact. *)
Theorem C24_range_bytes_partial : forall (truth : cid -> option bytes) (env : list N -> cache -> cache -> Prop) has_writer readers id off size (c : cache) b (c' : cache),
  preserves env (intact truth) -> Forall (reader_exact truth) readers -> intact truth c -> size <> 0%nat ->
  provider_get env false has_writer readers id off size c (FOk b) c' ->
  (exists tr, truth id = Some tr /\ b = range tr off size) /\ intact truth c'.
Proof.
  intros truth env hw readers id off size c b c' He Hr Hc Sz H.
  apply (provider_get_inv (fun i x => truth i = Some x) env false hw) in H; auto.
  - destruct H as (I & B). split; [|exact I]. destruct (B b eq_refl) as [(_ & ?)|(e & E & ->)]; [contradiction|]. eauto.
  - discriminate.
  - intros r Ir i x Hf. rewrite Forall_forall in Hr. exact (Hr r Ir i x Hf).
Qed.

(** Whatever happened to the cache, the bytes are a prefix of the range. *)
Theorem C24_range_prefix : forall (truth : cid -> option bytes) (env : list N -> cache -> cache -> Prop) faults has_writer readers id off size (c : cache) b (c' : cache),
  preserves env (sound truth) -> Forall (reader_sound truth) readers -> sound truth c -> size <> 0%nat ->
  provider_get env faults has_writer readers id off size c (FOk b) c' ->
  (exists tr, truth id = Some tr /\ prefix b (range tr off size)) /\ sound truth c'.
Proof.
  intros truth env faults hw readers id off size c b c' He Hr Hc Sz H.
  apply (provider_get_inv (fun i x => exists t, truth i = Some t /\ prefix x t) env faults hw) in H; auto.
  - destruct H as (I & B). split; [|exact I]. destruct (B b eq_refl) as [(_ & ?)|(e & (t & T & P) & ->)]; [contradiction|].
    exists t. split; auto. now apply range_is_prefix.
  - intros _ i x k (t & T & (y & E)). exists t. split; auto. exists (skipn k x ++ y). rewrite app_assoc, firstn_skipn. exact E.
  - intros r Ir i x Hf. rewrite Forall_forall in Hr. exact (Hr r Ir i x Hf).
Qed.

(** Reading a whole chunk. *)
Theorem C24_whole_chunk_partial : forall (truth : cid -> option bytes) (env : list N -> cache -> cache -> Prop) has_writer readers id (c : cache) b (c' : cache),
  preserves env (intact truth) -> Forall (reader_exact truth) readers -> intact truth c ->
  provider_get_all env false has_writer readers id c (FOk b) c' -> truth id = Some b /\ intact truth c'.
Proof.
  intros truth env hw readers id c b c' He Hr Hc H.
  apply (provider_get_all_inv (fun i x => truth i = Some x) env false hw) in H; auto.
  - destruct H as (I & B). split; [now apply B|exact I].
  - discriminate.
  - intros r Ir i x Hf. rewrite Forall_forall in Hr. exact (Hr r Ir i x Hf).
Qed.

(** Not-found is reported only when every reader said so: an error of a reader is
    never turned into not-found. *)
Theorem C24_not_found_is_true : forall (env : list N -> cache -> cache -> Prop) faults has_writer readers id off size (c c' : cache),
  provider_get env faults has_writer readers id off size c FNotFound c' \/
  provider_get_all env faults has_writer readers id c FNotFound c' ->
  forall r, In r readers -> r_fetch r id FNotFound.
Proof.
  intros env faults hw readers id off size c c' H.
  set (fr := fun c1 => exists c2, first_reader env faults hw [mutex_of id] readers id c1 FNotFound c2).
  assert (X : forall c1, fr c1 -> forall r, In r readers -> r_fetch r id FNotFound).
  { intros c1 (c2 & F). eapply first_reader_not_found; eauto. }
  assert (Y : forall c1 (k : bytes -> M fetched), (forall b c2 c3, k b c2 FNotFound c3 -> False) ->
    mbind (first_reader env faults hw [mutex_of id] readers id) (fun f => match f with FOk b => k b | _ => ret f end) c1 FNotFound c' -> fr c1).
  { intros c1 k Hk (f & c2 & F & R). exists c2. destruct f; [exfalso; eapply Hk; exact R|exact F|destruct R; discriminate]. }
  assert (Z : forall c1 (b : bytes), ret (FOk b) c1 FNotFound c' -> False) by (intros ? ? (E & _); discriminate).
  destruct H as [H|H]; [unfold provider_get in H|unfold provider_get_all in H]; destruct (negb hw).
  - apply Y in H; [eapply X; eauto|]. intros b ? ? (E & _). discriminate.
  - destruct H as (f & c1 & _ & H). destruct f as [b| |]; [exfalso; eapply Z; eauto| |apply Y in H; [eapply X; eauto|intros ? ? ? (E & _); discriminate]].
    destruct H as (g & c2 & _ & H). destruct g as [b| |]; [exfalso; eapply Z; eauto|apply Y in H; [eapply X; eauto|intros ? ? ? (E & _); discriminate]..].
  - eapply X; exists c'; exact H.
  - destruct H as (f & c1 & _ & H). destruct f as [b| |]; [exfalso; eapply Z; eauto| |eapply X; exists c'; exact H].
    destruct H as (g & c2 & _ & H). destruct g as [b| |]; [exfalso; eapply Z; eauto|eapply X; exists c'; exact H..].
Qed.

(** ** Findings *)
Definition idc : cid := [7].
Definition tru : cid -> option bytes := fun id => if list_eq_dec N.eq_dec id idc then Some [1; 2; 3; 4] else None.
Definition mem_reader : reader := mkreader KMem (fun id f => f = match tru id with Some b => FOk b | None => FNotFound end).
Definition quiet : list N -> cache -> cache -> Prop := fun _ c c' => c' = c.

Lemma mem_reader_exact : reader_exact tru mem_reader.
Proof. intros id b H. cbn in H. destruct (tru id); inversion H; reflexivity. Qed.
Lemma quiet_preserves P : preserves quiet P.
Proof. intros held c c' -> H. exact H. Qed.

(** Reading one range or one chunk returns a truncated entry as success: only the
    list version compares the sizes.  A Put that fails half-way (the failure is
    only logged) is enough to get there. *)
Theorem C24_truncated_entry_refuted :
  exists c1, (exists c0, (forall id, c0 id = None) /\ provider_get_all quiet true true [mem_reader] idc c0 (FOk [1; 2; 3; 4]) c1) /\
    provider_get quiet true true [mem_reader] idc 0 4 c1 (FOk [1; 2]) c1 /\
    provider_get_all quiet true true [mem_reader] idc c1 (FOk [1; 2]) c1.
Proof.
  set (c0 := (fun _ => None) : cache). exists (cset c0 idc (Some [1; 2])). split; [|split].
  - exists c0. split; [reflexivity|]. unfold provider_get_all. cbn [negb].
    exists FNotFound, c0. split; [split; [reflexivity|right; reflexivity]|].
    exists FNotFound, c0. split; [split; [reflexivity|right; reflexivity]|].
    cbn [first_reader]. exists (FOk [1; 2; 3; 4]), c0. split; [split; [reflexivity|reflexivity]|].
    exists tt, (cset c0 idc (Some [1; 2])). split; [|split; reflexivity].
    exists c0. split; [reflexivity|]. right. split; [reflexivity|]. right. exists 2%nat. reflexivity.
  - unfold provider_get. cbn [negb]. eexists _, _. split; [split; [reflexivity|right; right; reflexivity]|]. cbn. split; reflexivity.
  - unfold provider_get_all. cbn [negb]. eexists _, _. split; [split; [reflexivity|right; reflexivity]|]. cbn. split; reflexivity.
Qed.

(** A list with prefetch requests only fetches nothing. *)
Theorem C24_prefetch_only_does_nothing : forall (env : list N -> cache -> cache -> Prop) faults has_writer readers ts (c : cache) s ts' (c' : cache),
  Forall (fun t => t_size t = 0%nat) ts -> provider_get_list env faults has_writer readers ts c (s, ts') c' -> s = SOk /\ ts' = ts /\ c' = c.
Proof.
  intros env faults hw readers ts c s ts' c' F H.
  assert (R : read_done ts = true).
  { unfold read_done. apply forallb_forall. intros t It. rewrite Forall_forall in F. now rewrite (F t It). }
  unfold provider_get_list, get_from_writer in H. rewrite R, orb_true_r in H. destruct H as (a & c1 & (-> & ->) & H). rewrite R in H.
  destruct H as (E & ->). inversion E; auto.
Qed.

(** GrpcReader's range read has its last two parameters swapped: it returns the
    wrong bytes, and overruns the caller's buffer when the offset is larger than
    the size. *)
Theorem C24_grpc_range_refuted :
  grpc_get_range [1; 2; 3; 4; 5] 1 3 = Ok [4] /\ range [1; 2; 3; 4; 5] 1 3 = [2; 3; 4] /\
  grpc_get_range [1; 2; 3; 4; 5] 3 1 = UB.
Proof. repeat split; reflexivity. Qed.

(** A truncated entry of two bytes: bytes 1..3 are asked for, the entry is
    replaced. *)
Example C24_example :
  let c0 := cset (fun _ => None) idc (Some [1; 2]) in
  let t := mktask idc 1 3 [] [] false in
  sound tru c0 /\ delivers mem_reader idc /\
  exists c', provider_get_list quiet false true [mem_reader] [t] c0 (SOk, [mktask idc 1 3 [2; 3; 4] [1; 2; 3; 4] true]) c' /\
             c' idc = Some [1; 2; 3; 4].
Proof.
  cbv zeta. set (c0 := cset (fun _ => None) idc (Some [1; 2])). split; [|split].
  - intros id b H. unfold c0, cset in H. destruct (list_eq_dec N.eq_dec id idc) as [->|]; [|discriminate]. inversion H; subst.
    exists [1; 2; 3; 4]. split; [reflexivity|]. exists [3; 4]. reflexivity.
  - intros f H. cbn in H. rewrite H. eexists. reflexivity.
  - set (c1 := cset c0 idc None). exists (cset c1 idc (Some [1; 2; 3; 4])). split; [|reflexivity].
    unfold provider_get_list, get_from_writer. cbn [negb orb read_done forallb t_size t_done Nat.eqb andb].
    exists [mktask idc 1 3 [2] [] false], c0. split.
    { cbn [gfw_loop t_done t_size Nat.eqb]. exists (FOk [2]), c0. split; [split; [reflexivity|right; right; reflexivity]|]. cbn. split; reflexivity. }
    cbn [read_done forallb t_size t_done Nat.eqb orb andb].
    exists [mktask idc 1 3 [2] [] false], c1. split.
    { cbn [gfw_loop t_done t_size Nat.eqb]. exists (FOk [2]), c0. split; [split; [reflexivity|right; right; reflexivity]|]. cbn.
      exists tt, c1. split; [exists c0; split; [reflexivity|left; reflexivity]|]. split; reflexivity. }
    cbn [read_done forallb t_size t_done Nat.eqb orb andb].
    exists (SOk, [mktask idc 1 3 [2; 3; 4] [1; 2; 3; 4] true]), c1. split.
    { cbn [read_loop]. exists (SOk, [mktask idc 1 3 [2; 3; 4] [1; 2; 3; 4] true]), c1. split; [|split; reflexivity].
      unfold reader_list. cbn [r_kind mem_reader mem_list t_done]. exists (FOk [1; 2; 3; 4]), c1. split; [split; [reflexivity|reflexivity]|].
      cbn. exists (SOk, []), c1. split; [split; reflexivity|]. split; reflexivity. }
    cbn [put_loop t_done negb orb t_data]. exists tt, (cset c1 idc (Some [1; 2; 3; 4])). split; [|split; reflexivity].
    exists tt, (cset c1 idc (Some [1; 2; 3; 4])). split; [|split; reflexivity]. exists c1. split; [reflexivity|left; reflexivity].
Qed.

(** * C25: no deadlock *)

(** Any number of client threads with any requests, and the cleanup thread with
    any number of iterations.  In every reachable state either all threads are
    finished or some thread can go on, even if a waiting writer keeps readers
    out. *)
Theorem C25_no_deadlock : forall iterations clients us,
  reaches (provider_threads iterations clients) us ->
  (forall t, In t us -> finished t = true) \/ exists i vs, thread_step true us i = Some vs.
Proof.
  intros its cl us R. pose proof (reaches_wf _ _ R (provider_wf its cl)) as W.
  destruct (existsb (fun t => negb (finished t)) us) eqn:E.
  - right. apply progress; auto. apply existsb_exists in E. destruct E as (t & It & F). exists t. split; auto. now apply negb_true_iff.
  - left. intros t It. apply not_false_iff_true. intros F. rewrite (proj2 (existsb_exists _ _)) in E; [discriminate|]. exists t. rewrite F. auto.
Qed.

(** Every step uses up one action, so every schedule ends, with all threads
    finished. *)
Theorem C25_every_schedule_ends : forall strict ts i us, thread_step strict ts i = Some us -> remaining ts = S (remaining us).
Proof. exact step_remaining. Qed.

Theorem C25_all_requests_complete : forall iterations clients us,
  reaches (provider_threads iterations clients) us ->
  exists vs, reaches us vs /\ forall t, In t vs -> finished t = true.
Proof.
  intros its cl us R. remember (remaining us) as n eqn:En. revert us R En.
  induction n as [|n IH]; intros us R En.
  - destruct (C25_no_deadlock _ _ _ R) as [F|(i & vs & S)]; [exists us; split; [constructor|auto]|]. apply step_remaining in S. lia.
  - destruct (C25_no_deadlock _ _ _ R) as [F|(i & vs & S)]; [exists us; split; [constructor|auto]|].
    pose proof (step_remaining _ _ _ _ S) as Sr. apply strict_step in S.
    destruct (IH vs) as (ws & Rw & Fw); [econstructor; eauto|lia|]. exists ws. split; auto.
    clear - S Rw. induction Rw as [|xs j ys Rx IHx Sx]; [eapply reach_step; [constructor|exact S]|eapply reach_step; eauto].
Qed.

(** Mutual exclusion: while a thread holds a mutex exclusively, nobody else holds
    it.  Together with C24_locks_cover this is what C24 assumes about other
    threads ([respects_locks]). *)
Theorem C25_mutual_exclusion : forall iterations clients us i j t u m,
  reaches (provider_threads iterations clients) us ->
  nth_error us i = Some t -> nth_error us j = Some u -> i <> j -> holds_exclusively t m = true -> holds u m = false.
Proof. intros its cl us i j t u m R. exact (reaches_exclusive _ _ R (provider_exclusive its cl) i j t u m). Qed.

(** Each mutex is taken once, in increasing order. *)
Theorem C25_lock_order : forall ids, StronglySorted N.lt (write_lock_all ids).
Proof. intros. apply write_lock_all_spec. Qed.

(** Two clients locking overlapping sets given in opposite orders, a cleanup and
    a shutdown. *)
Example C25_example :
  write_lock_all [[9; 1]; [3]; [9; 0]; [5]] = [3; 5; 9] /\
  exists us, reaches (provider_threads [true; false] [[QGetList [[9]; [3]] [[9]; [3]]]; [QGetList [] [[3]; [9]]; QShutdown]]) us /\
    existsb (fun t => negb (finished t)) us = true.
Proof. split; [vm_compute; reflexivity|]. eexists. split; [apply reach_start|]. vm_compute. reflexivity. Qed.

(** Without sorting, two clients can block each other: the order matters. *)
Example C25_unsorted_would_deadlock :
  let a := [ALock 1 true; ALock 2 true; AUnlock 1; AUnlock 2] in
  let b := [ALock 2 true; ALock 1 true; AUnlock 1; AUnlock 2] in
  exists us, reaches [mkthread [] []; mkthread [] a; mkthread [] b] us /\
    existsb (fun t => negb (finished t)) us = true /\ forall i, thread_step false us i = None.
Proof.
  cbv zeta. eexists. split; [|split].
  - eapply (reach_step _ _ 2). eapply (reach_step _ _ 1). apply reach_start. reflexivity. reflexivity.
  - reflexivity.
  - intros [|[|[|i]]]; try reflexivity. cbn. unfold thread_step. destruct i; reflexivity.
Qed.

Print Assumptions C24_list_bytes.
Print Assumptions C24_list_complete.
Print Assumptions C24_caches_true_chunks.
Print Assumptions C24_truncated_entry_is_replaced.
Print Assumptions C24_other_chunks_untouched.
Print Assumptions C24_range_bytes_partial.
Print Assumptions C25_no_deadlock.
Print Assumptions C25_all_requests_complete.
Print Assumptions C25_mutual_exclusion.
