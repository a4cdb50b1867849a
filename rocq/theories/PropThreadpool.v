(** C39, C40: the thread pool and the semaphore (common/threadpool.cc,
    common/semaphore.cc), for every number of workers and every interleaving. *)
From Verif Require Import Base ListX ModelThreadpool SpecThreadpool ProofThreadpool.
Local Open Scope Z_scope.

(** Every queued task is run at most once, nothing else is run, and tasks are
    started in the order in which they were queued, with any number of workers.
    ThreadRun returns at most once per start and a task is handed on at most
    once, after it ended. *)
Theorem C39_at_most_once : forall n l p tr,
  pool_run (pool_init n) l = Some (p, tr) ->
  (exists rest, queued tr = started tr ++ rest) /\
  (exists running, Permutation (started tr) (ended tr ++ running)) /\
  (exists held, Permutation (started tr) (finished tr ++ held)) /\
  (NoDup (queued tr) -> NoDup (started tr) /\ NoDup (ended tr) /\ NoDup (finished tr)).
Proof.
  intros n l p tr H. apply reach_Inv in H. destruct H as [A B C D E F].
  split; [eauto|]. split; [eauto|]. split; [eauto|]. intros N. rewrite A in N.
  apply NoDup_app_iff in N. destruct N as (N & _). split; auto. split.
  - eapply Permutation_NoDup in N; [|exact B]. apply NoDup_app_iff in N. tauto.
  - eapply Permutation_NoDup in N; [|exact C]. apply NoDup_app_iff in N. tauto.
Qed.

(** When Wait returns, every task queued before has ended and has been handed
    on, as often as it was queued (whatever else runs concurrently). *)
Theorem C39_wait : forall n l p tr p' e,
  pool_run (pool_init n) l = Some (p, tr) ->
  pool_step p AWait = Some (p', e) ->
  Permutation (queued tr) (ended tr) /\ Permutation (queued tr) (finished tr).
Proof.
  intros n l p tr p' e H W. apply reach_Inv in H. destruct H as [A B C D E F]. cbn in W.
  destruct (tp_outstanding p =? 0) eqn:Z; [|discriminate]. apply Z.eqb_eq in Z.
  pose proof (pends_nonneg (tp_workers p)).
  assert (Q : tp_queue p = []) by (apply length_zero_iff_nil; lia).
  assert (P : pends (tp_workers p) = 0) by lia. destruct (pends_zero _ P) as (P1 & P2).
  rewrite Q, app_nil_r in A. rewrite P2, app_nil_r in B. rewrite P1, app_nil_r in C. rewrite A. auto.
Qed.

(** Without a completion callback and without Shutdown, what (Try)GetCompletedTask
    returned is a prefix of the tasks handed on, in that order, and the rest is
    still waiting to be fetched; so right after Wait, fetching until nullptr
    returns all remaining tasks. *)
Theorem C39_completed_retrievable : forall n l p tr,
  pool_run (pool_init n) l = Some (p, tr) ->
  ~ In AShutdown l -> ~ In (ASetCallback true) l ->
  finished tr = got tr ++ tp_completed p /\
  exists l' p' e, pool_run p l' = Some (p', e) /\ Forall (eq ATryGet) l' /\ got (tr ++ e) = finished tr /\ tp_completed p' = [].
Proof.
  intros n l p tr H NS NC.
  assert (X : forall l p0 p tr, pool_run p0 l = Some (p, tr) -> tp_shutdown p0 = false -> tp_joining p0 = false -> tp_callback p0 = false ->
     ~ In AShutdown l -> ~ In (ASetCallback true) l -> finished tr = completed tr /\ retrieved tr = got tr).
  { clear. induction l as [|a l IH]; intros p0 p tr; cbn [pool_run].
    - intros [= <- <-]. auto.
    - destruct (pool_step p0 a) as [[p1 e1]|] eqn:E1; [|discriminate].
      destruct (pool_run p1 l) as [[p2 e2]|] eqn:E2; [|discriminate]. intros [= <- <-] S J C NS NC.
      assert (K : tp_shutdown p1 = false /\ tp_joining p1 = false /\ tp_callback p1 = false /\ finished e1 = completed e1 /\ retrieved e1 = got e1).
      { destruct a as [t| | | |k tmo| |b| | |i]; cbn [pool_step] in E1.
        - inversion E1; subst; auto.
        - destruct (tp_completed p0); inversion E1; subst; auto.
        - destruct (tp_completed p0); inversion E1; subst; auto.
        - destruct (_ =? _); inversion E1; subst; auto.
        - cbn zeta in E1. destruct (_ || tmo); inversion E1; subst; auto.
        - inversion E1; subst; auto.
        - inversion E1; subst. destruct b; [exfalso; apply NC; now left|auto].
        - exfalso; apply NS; now left.
        - rewrite J in E1. discriminate.
        - unfold worker_step in E1. rewrite ?C in E1. destruct (nth_error _ i) as [[fin| |t|t|]|]; try discriminate.
          + unfold take in E1. cbn [tp_shutdown] in E1. rewrite S in E1. cbn [tp_queue] in E1.
            destruct (tp_queue p0); inversion E1; subst; cbn; auto.
          + rewrite S in E1. unfold take in E1. rewrite S in E1. destruct (tp_queue p0); cbn in E1; inversion E1; subst; cbn; auto.
          + inversion E1; subst; auto.
          + inversion E1; subst; auto. }
      destruct K as (K1 & K2 & K3 & K4 & K5). cbn in NS, NC.
      destruct (IH _ _ _ E2) as (G1 & G2); auto.
      rewrite finished_app, completed_app, retrieved_app, got_app. split; congruence. }
  destruct (X _ _ _ _ H) as (X1 & X2); auto.
  pose proof (reach_Inv _ _ _ _ H) as [_ _ _ _ _ F]. rewrite X1, F, X2. split; [reflexivity|].
  assert (G : forall c p, tp_completed p = c -> exists p' e, pool_run p (repeat ATryGet (length c)) = Some (p', e) /\ got e = c /\ tp_completed p' = []).
  { clear. induction c as [|t c IH]; intros p Hc; cbn [length repeat pool_run].
    - exists p, []. auto.
    - cbn [pool_step]. rewrite Hc.
      match goal with |- context [pool_run ?q _] => destruct (IH q eq_refl) as (p' & e & A & B & C) end.
      rewrite A. exists p', ([EGet t] ++ e). cbn. rewrite B. auto. }
  destruct (G _ p eq_refl) as (p' & e & A & B & C). exists (repeat ATryGet (length (tp_completed p))), p', e.
  split; auto. split; [apply Forall_forall; intros x I; apply repeat_spec in I; auto|]. rewrite got_app, B. auto.
Qed.

(** With a single worker tasks are completed in FIFO order. *)
Theorem C39_single_worker_fifo : forall l p tr,
  pool_run (pool_init 1) l = Some (p, tr) ->
  exists rest, queued tr = finished tr ++ rest.
Proof.
  intros l p tr H. pose proof (run_keep _ _ _ _ H) as (K & _). apply reach_Inv in H. destruct H as [A B C D E F].
  rewrite A, D by exact K. rewrite <- app_assoc. eauto.
Qed.

(** The outstanding count is never negative (so the size_t never wraps and the
    assert never fires), covers every task that was queued but not handed on,
    and exceeds that number by at most one per worker (a worker that has handed
    on its task but not yet come back for the next one). *)
Theorem C39_outstanding_exact : forall n l p tr,
  pool_run (pool_init n) l = Some (p, tr) ->
  let unfinished := Z.of_nat (length (queued tr)) - Z.of_nat (length (finished tr)) in
  0 <= unfinished <= tp_outstanding p /\ tp_outstanding p <= unfinished + Z.of_nat n.
Proof.
  intros n l p tr H. pose proof (run_keep _ _ _ _ H) as (K & _). cbn in K. rewrite repeat_length in K.
  apply reach_Inv in H. destruct H as [A B C D E F]. cbn zeta.
  apply Permutation_length in C. rewrite app_length in C. rewrite A, app_length, C, E. rewrite <- K.
  assert (W : forall l, Z.of_nat (length (flat_map holds l)) <= pends l <= Z.of_nat (length (flat_map holds l)) + Z.of_nat (length l)).
  { induction l0 as [|w l0 IH]; [cbn; lia|]. cbn [flat_map pends fold_right]. change (fold_right _ 0 l0) with (pends l0).
    rewrite app_length. cbn [length]. destruct w as [[]| | | |]; cbn [holds pend length]; lia. }
  specialize (W (tp_workers p)). lia.
Qed.

(** Wait always gets to return: as long as nobody calls Shutdown or queues more,
    the workers can make only finitely many moves, in whatever order, and once
    they cannot move any more Wait returns (tasks end by assumption). *)
Theorem C39_wait_returns : forall n l p tr,
  (0 < n)%nat -> pool_run (pool_init n) l = Some (p, tr) -> ~ In AShutdown l ->
  exists bound, forall l' p' e, Forall is_worker l' -> pool_run p l' = Some (p', e) ->
    (length l' <= bound)%nat /\
    ((forall i, pool_step p' (AWorker i) = None) -> pool_step p' AWait = Some (p', [EWait])).
Proof.
  intros n l p tr Hn H NS. exists (work p). intros l' p' e Hw R.
  split; [pose proof (worker_run_length _ _ _ _ Hw R); lia|]. intros St.
  pose proof (run_keep _ _ _ _ H) as (K & _ & KS). cbn in K. rewrite repeat_length in K.
  pose proof (run_keep _ _ _ _ R) as (K' & _ & KS').
  assert (S' : tp_shutdown p' = false).
  { rewrite KS', KS; auto. intros I. rewrite Forall_forall in Hw. apply Hw in I. exact I. }
  destruct (stuck_idle p') as (Q & P); auto; [lia|eapply run_exit; [eapply run_exit; [apply init_exit|exact H]|exact R]|].
  assert (I : Inv p' (tr ++ e)). { eapply run_Inv; [eapply reach_Inv; exact H|exact R]. }
  destruct I as [_ _ _ _ E _]. cbn [pool_step]. rewrite E, Q, P. reflexivity.
Qed.

(** After Shutdown was signalled no further task is started; the workers make
    finitely many moves and then Shutdown returns. *)
Theorem C39_shutdown : forall n l p tr,
  pool_run (pool_init n) l = Some (p, tr) -> tp_shutdown p = true ->
  exists bound, forall l' p' e, pool_run p l' = Some (p', e) ->
  started e = [] /\
  (Forall is_worker l' -> (length l' <= bound)%nat /\
    ((forall i, pool_step p' (AWorker i) = None) -> tp_joining p' = true ->
     exists p'', pool_step p' AJoin = Some (p'', [EJoined (tp_completed p')]))).
Proof.
  intros n l p tr H Sd. exists (work p). intros l' p' e R. split; [apply (run_shutdown _ _ _ _ Sd R)|]. intros Hw.
  split; [pose proof (worker_run_length _ _ _ _ Hw R); lia|]. intros St J.
  pose proof (run_keep _ _ _ _ R) as (_ & KS & _). cbn [pool_step]. rewrite J, (stuck_exited p'); auto. cbn. eauto.
Qed.

(** But a Wait that overlaps or follows a Shutdown while tasks are queued never
    returns, nor does WaitForQueuedTasksAtMost(0) return true: the tasks are
    never run and never discounted. *)
Theorem C39_wait_after_shutdown_hangs : forall n l p tr l' p' e,
  pool_run (pool_init n) l = Some (p, tr) ->
  tp_shutdown p = true -> tp_queue p <> [] ->
  pool_run p l' = Some (p', e) ->
  ~ In EWait e /\ ~ In (EAtMost 0 true) e.
Proof.
  intros n l p tr l' p' e H Sd Q R. apply reach_Inv in H. revert p tr p' e H Sd Q R.
  induction l' as [|a l' IH]; intros p tr p' e I Sd Q; cbn [pool_run].
  - intros [= <- <-]. auto.
  - destruct (pool_step p a) as [[p1 e1]|] eqn:E1; [|discriminate].
    destruct (pool_run p1 l') as [[p2 e2]|] eqn:E2; [|discriminate]. intros [= <- <-].
    destruct (step_shutdown _ _ _ _ Sd E1) as (_ & q & Hq). destruct (step_keep _ _ _ _ E1) as (_ & K).
    assert (O : 0 < tp_outstanding p).
    { destruct I as [_ _ _ _ E _]. pose proof (pends_nonneg (tp_workers p)). destruct (tp_queue p); [congruence|]. cbn [length] in E. lia. }
    destruct (IH p1 (tr ++ e1) p2 e2) as (A & B); auto.
    { eapply step_Inv; eauto. } { destruct K as [K|(? & K)]; congruence. } { rewrite Hq. destruct (tp_queue p); [congruence|discriminate]. }
    rewrite !in_app_iff.
    assert (N : ~ In EWait e1 /\ ~ In (EAtMost 0 true) e1); [|tauto].
    destruct a as [t| | | |k tmo| |b| | |i]; cbn [pool_step] in E1.
    + inversion E1; subst; cbn; intuition discriminate.
    + destruct (tp_completed p); inversion E1; subst; cbn; intuition discriminate.
    + destruct (tp_completed p); inversion E1; subst; cbn; intuition discriminate.
    + destruct (tp_outstanding p =? 0) eqn:Z; [lia|discriminate].
    + cbn zeta in E1. destruct (_ || tmo); inversion E1; subst. rewrite Sd. cbn. split; [intuition discriminate|].
      intros [C|[]]. inversion C as [[C1 C2]]. lia.
    + inversion E1; subst; cbn; intuition discriminate.
    + inversion E1; subst; cbn; intuition discriminate.
    + inversion E1; subst; cbn; intuition discriminate.
    + destruct (_ && _); inversion E1; subst; cbn; intuition discriminate.
    + unfold worker_step in E1. destruct (nth_error _ i) as [[fin| |t|t|]|]; try discriminate.
      * unfold take in E1. cbn [tp_shutdown] in E1. rewrite Sd in E1. inversion E1; subst; cbn; auto.
      * unfold take in E1. rewrite Sd in E1. inversion E1; subst; cbn; auto.
      * inversion E1; subst; cbn; intuition discriminate.
      * destruct (tp_callback p); inversion E1; subst; cbn; intuition discriminate.
Qed.

(** WaitForQueuedTasksAtMost reports truthfully, timeout or not. *)
Theorem C39_at_most_truthful : forall p k timeout p' b,
  pool_step p (AAtMost k timeout) = Some (p', [EAtMost k b]) -> (b = true <-> tp_outstanding p <= k).
Proof.
  intros p k tmo p' b. cbn. destruct (_ || tmo); [|discriminate]. intros [= <- <-].
  rewrite andb_true_iff, orb_true_iff, Z.leb_le. tauto.
Qed.

(** Example: two workers, three tasks, task 8 finishing first; all is retrieved. *)
Example C39_example : exists p,
  pool_run (pool_init 2)
    [AQueue 7%nat; AWorker 0; AQueue 8%nat; AQueue 9%nat; AWorker 1; AWorker 1; AWorker 1; AWorker 1; AWorker 0; AWorker 1;
     AWorker 0; AWorker 1; ATryGet; AWorker 1; AWorker 0; AWait; AGet; ATryGet; ATryGet] =
  Some (p, [EQueue 7; EStart 7; EQueue 8; EQueue 9; EStart 8; EEnd 8; EDone 8; EStart 9; EEnd 7; EEnd 9; EDone 7; EDone 9;
            EGet 8; EWait; EGet 7; EGet 9; ENone]%nat).
Proof. eexists. vm_compute. reflexivity. Qed.

(** Example: Shutdown with a queued task leaves a state in which Wait hangs. *)
Example C39_hang_example : exists p,
  pool_run (pool_init 1) [AQueue 7%nat; AShutdown; AWorker 0; AJoin] = Some (p, [EQueue 7%nat; EShutdown; EJoined []]) /\
  pool_step p AWait = None /\ tp_queue p <> [].
Proof. eexists. vm_compute. split; [reflexivity|]. split; [reflexivity|discriminate]. Qed.

Local Open Scope N_scope.

(** C40.  Completed Waits never exceed the initial count plus the Signals so far,
    whatever the threads do (counts below 2^32). *)
Theorem C40_semaphore_bound : forall initial l s tr,
  (0 <= initial < 2 ^ 31)%Z ->
  sema_run (sema_init initial) l = Some (s, tr) ->
  Z.to_N initial + N.of_nat (signals tr) < 2 ^ 32 ->
  N.of_nat (waits tr) <= Z.to_N initial + N.of_nat (signals tr) /\
  sm_count s + N.of_nat (waits tr) = Z.to_N initial + N.of_nat (signals tr).
Proof.
  intros i l s tr Hi R L.
  assert (I : SInv (Z.to_N i) (sema_init i) []).
  { split; cbn; [rewrite Z.mod_small by lia; lia|constructor|congruence]. }
  pose proof (sema_run_Inv _ _ _ _ _ _ I L R) as [A _ _]. cbn [app] in A. split; [lia|exact A].
Qed.

(** No lost wake-up: when no woken thread is still on its way, a thread stays
    blocked in Wait only if the count is zero; and a woken thread that finds the
    count positive returns. *)
Theorem C40_no_lost_wakeup : forall initial l s tr,
  (0 <= initial < 2 ^ 31)%Z ->
  sema_run (sema_init initial) l = Some (s, tr) ->
  Z.to_N initial + N.of_nat (signals tr) < 2 ^ 32 ->
  (sm_sleeping s <> [] -> sm_count s <= N.of_nat (length (sm_woken s))) /\
  (sm_sleeping s <> [] -> sm_woken s = [] -> sm_count s = 0 /\
     N.of_nat (waits tr) = Z.to_N initial + N.of_nat (signals tr)) /\
  (forall t, In t (sm_woken s) -> 0 < sm_count s ->
     exists s', sema_step s (SRecheck t) = Some (s', [SReturned t])).
Proof.
  intros i l s tr Hi R L.
  assert (I : SInv (Z.to_N i) (sema_init i) []).
  { split; cbn; [rewrite Z.mod_small by lia; lia|constructor|congruence]. }
  pose proof (sema_run_Inv _ _ _ _ _ _ I L R) as [A B C]. cbn [app] in A.
  split; [exact C|]. split.
  - intros H W. specialize (C H). rewrite W in C. cbn in C. lia.
  - intros t Ht Hc. cbn. apply mem_In in Ht. rewrite Ht. cbn. apply N.ltb_lt in Hc. rewrite Hc. eauto.
Qed.

(** Example: count 1, three waiters, two signals, one spurious wake-up. *)
Example C40_example : exists s,
  sema_run (sema_init 1) [SWait 1; SWait 2; SWait 3; SSpurious 3; SRecheck 3; SSignal 2; SSignal 3; SWait 4; SRecheck 3; SRecheck 2]%nat =
  Some (s, [SReturned 1; SSignalled; SSignalled; SReturned 4; SReturned 3]%nat) /\ sm_sleeping s = [2]%nat /\ sm_count s = 0.
Proof. eexists. vm_compute. auto. Qed.

Print Assumptions C39_at_most_once.
Print Assumptions C39_wait.
Print Assumptions C39_completed_retrievable.
Print Assumptions C39_single_worker_fifo.
Print Assumptions C39_outstanding_exact.
Print Assumptions C39_wait_returns.
Print Assumptions C39_shutdown.
Print Assumptions C39_wait_after_shutdown_hangs.
Print Assumptions C39_at_most_truthful.
Print Assumptions C40_semaphore_bound.
Print Assumptions C40_no_lost_wakeup.
