(** C60: ParallelFileOpener. The caller and the pool's threads interleave freely. *)
From Verif Require Import Base SpecOpener ModelOpener ProofOpener.
From Coq Require Import Lia.

(** The files are returned in the order of file_indices, none twice, and only after they were
    opened. *)
Theorem C60_in_order : forall size threads tr s, run size threads init tr s ->
  gets tr = seq 0 (length (gets tr)) /\ (length (gets tr) <= size)%nat /\ (forall n, In (EGet n) tr -> In (EOpened n true) tr).
Proof.
  intros size threads tr s R. pose proof (run_inv _ _ _ _ R) as V. split; [|split].
  - rewrite (v_gets _ _ V) at 2. rewrite seq_length. apply (v_gets _ _ V).
  - pose proof (sizes _ _ V). pose proof (proj1 (look_size _ _ _ _ R)). lia.
  - intros n H. assert (G : In n (gets tr)) by (apply in_flat_map; exists (EGet n); split; [exact H|now left]). assert (O : In n (opens tr)) by (eapply Permutation_in; [apply Permutation_sym, (v_opens _ _ V)|apply in_app_iff; now left]). apply in_flat_map in O. destruct O as (e & He & O). destruct e as [m b| | | | | | | |]; try destruct O. destruct b; [|destruct O]. destruct O as [-> |[]]. exact He.
Qed.
(** nullptr is returned only after all files were. *)
Theorem C60_null : forall size threads tr s, run size threads init (tr ++ [ENull]) s -> gets tr = seq 0 size.
Proof.
  intros size threads tr s R. destruct (run_snoc_inv _ _ _ _ _ R) as (s2 & R2 & S). pose proof (run_inv _ _ _ _ R2) as V. pose proof (null_at _ _ _ _ R ltac:(apply in_app_iff; right; now left)) as N1. assert (E : s = s2) by (inversion S; reflexivity). subst s2. rewrite (v_gets _ _ V). f_equal. pose proof (sizes _ _ V). pose proof (proj1 (look_size _ _ _ _ R2)). rewrite (v_gets _ _ V), seq_length in H. lia.
Qed.
(** No more than 256 files are open ahead of the caller (257 while a call is waiting). *)
Theorem C60_ahead : forall size threads tr s, run size threads init tr s -> ~ In EAbort tr ->
  (length (opens tr) <= size)%nat /\ (length (opens tr) <= length (gets tr) + 256 + if waiting tr then 1 else 0)%nat.
Proof.
  intros size threads tr s R A. pose proof (run_inv _ _ _ _ R) as V. pose proof (opens_size _ _ _ _ R) as O. destruct (look_size _ _ _ _ R) as (L1 & L2). split; [lia|]. rewrite (v_gets _ _ V), seq_length.
  change 256%nat with num_queued. destruct L2 as [L2|P]; [lia|]. exfalso. apply A. clear - R P. remember init as s0 eqn:E. induction R as [s0|s0 tr s2 e s3 R IH S]; subst; [discriminate P|]. apply in_app_iff.
  destruct S; cbn in P; try (left; apply IH; congruence); try discriminate P; try (right; now left). destruct (queue_next_same size s) as (Q & _). left. apply IH; congruence.
Qed.
(** A call ends: until then there is always something to do, and after at most 771 steps of the
    threads and the caller it has returned (or the process has aborted, see below). *)
Theorem C60_returns : forall size threads, (1 <= threads)%nat ->
  (forall tr s, run size threads init tr s -> waiting tr = true -> exists e s2, step size threads s e s2)
  /\ (forall tr1 tr2 s, run size threads init (tr1 ++ ECall :: tr2) s -> (forall e, In e tr2 -> match e with EGet _ | ENull | EAbort => False | _ => True end) -> (length tr2 <= 771)%nat).
Proof.
  intros size threads T. split; [intros tr s; now apply wait_enabled|]. intros tr1 tr2 s R H. pose proof (proj2 (wait_bound _ _ _ _ _ R H)). change 771%nat with (3 * S num_queued)%nat. lia.
Qed.
(** Every file that was opened is closed by the destructor unless the caller got it; no file is
    opened twice or both closed and handed over. *)
Theorem C60_all_closed : forall size threads tr s, run size threads init tr s ->
  NoDup (opens tr) /\ NoDup (gets tr ++ closes tr) /\ (In EDone tr -> Permutation (opens tr) (gets tr ++ closes tr)).
Proof.
  intros size threads tr s R. split; [exact (opens_nodup _ _ _ _ R)|]. split; [|intros D; exact (proj1 (done_all _ _ _ _ R D))]. pose proof (NoDup_all _ _ (run_inv _ _ _ _ R)) as ND. unfold all in ND. rewrite app_assoc in ND. revert ND. generalize (gets tr ++ closes tr). intros l. induction l as [|x l IH]; intros ND; [constructor|]. inversion ND; subst. constructor; [intros X; apply H1; apply in_app_iff; now left|auto].
Qed.
(** If all files can be opened the process does not abort. *)
Theorem C60_abort_only : forall size threads tr s, run size threads init tr s -> In EAbort tr -> exists n, In (EOpened n false) tr.
Proof. exact abort_failed. Qed.
(** The callers (cdc_rsync_client.cc:672-675, 749-752) expect nullptr for a file which could
    not be opened and report an error then. But a StatusOr holding an error is dereferenced. Once a file could not be opened, no call returns nullptr,
    the file is never returned and the destructor does not complete: the process aborts. *)
Theorem C60_open_error_refuted : forall size threads tr s n, run size threads init tr s -> In (EOpened n false) tr ->
  ~ In ENull tr /\ ~ In (EGet n) tr /\ ~ In EDone tr.
Proof.
  intros size threads tr s n R F. destruct (failed_not_get _ _ _ _ _ R F) as (G & L & C). split; [|split].
  - intros H. pose proof (null_at _ _ _ _ R H). lia.
  - intros H. apply G. apply in_flat_map. exists (EGet n). split; [exact H|now left].
  - intros H. destruct (done_all _ _ _ _ R H) as (_ & Co & Ma). apply (p_fail _ _ _ (run_ph _ _ _ _ R)) in F. rewrite Co, Ma in F. destruct F as [[]|[]].
Qed.

Ltac le := vm_compute; lia.
Ltac nxt H t := let H2 := fresh in match type of H with run ?z ?th ?s0 ?tr ?s2 => eassert (H2 : step z th s2 _ _) by t; let H3 := fresh in pose proof (r_snoc _ _ _ _ _ _ _ H H2) as H3; clear H H2; rename H3 into H end;
  match type of H with run ?z ?th ?s0 ?tr ?s2 => let s3 := eval vm_compute in s2 in let tr2 := eval cbv [app] in tr in change (run z th s0 tr2 s3) in H end.
(** Examples: three files and two threads, opened out of order; the third is closed by the
    destructor. *)
Definition ex_tr : list event := [EInt; EInt; EInt; EInt; EInt; EInt; EOpened 1 true; ECall; EInt; EInt; EOpened 0 true; EInt; EGet 0; EOpened 2 true; ECall; EGet 1; EDestroy; EInt; EClosed 2; EDone].
Example C60_example : exists s, run 3 2 init ex_tr s.
Proof.
  eexists. unfold ex_tr. pose proof (r_nil 3 2 init) as H. change init with (mks PCtor 0 0 [] [] [] []) in H at 2.
  nxt H ltac:(apply O_ctor; [reflexivity|le]).
  nxt H ltac:(apply O_ctor; [reflexivity|le]).
  nxt H ltac:(apply O_ctor; [reflexivity|le]).
  nxt H ltac:(apply O_ctor_end; [reflexivity|le]).
  nxt H ltac:(eapply O_take; [reflexivity|le|right; left; reflexivity]).
  nxt H ltac:(eapply O_take; [reflexivity|le|right; left; reflexivity]).
  nxt H ltac:(eapply (O_open _ _ _ [0%nat] 1 [] true); [reflexivity|discriminate]).
  nxt H ltac:(apply O_call; [reflexivity|le]).
  nxt H ltac:(eapply O_pop; reflexivity).
  nxt H ltac:(eapply O_take; [reflexivity|le|right; right; reflexivity]).
  nxt H ltac:(eapply (O_open _ _ _ [] 0 [2%nat] true); [reflexivity|discriminate]).
  nxt H ltac:(eapply O_pop; reflexivity).
  nxt H ltac:(eapply O_get; reflexivity).
  nxt H ltac:(eapply (O_open _ _ _ [] 2 [] true); [reflexivity|discriminate]).
  nxt H ltac:(apply O_call; [reflexivity|le]).
  nxt H ltac:(eapply O_get; reflexivity).
  nxt H ltac:(apply O_destroy; reflexivity).
  nxt H ltac:(apply O_joined; reflexivity).
  nxt H ltac:(eapply O_drop_comp; reflexivity).
  nxt H ltac:(eapply O_gone; reflexivity).
  exact H.
Qed.
(** One file which cannot be opened. *)
Example C60_open_error_case : exists s, run 1 1 init [EInt; EInt; ECall; EInt; EOpened 0 false; EInt; EAbort] s /\ s_phase s = PAborted.
Proof.
  eexists. pose proof (r_nil 1 1 init) as H. change init with (mks PCtor 0 0 [] [] [] []) in H at 2.
  nxt H ltac:(apply O_ctor; [reflexivity|le]).
  nxt H ltac:(apply O_ctor_end; [reflexivity|le]).
  nxt H ltac:(apply O_call; [reflexivity|le]).
  nxt H ltac:(eapply O_take; [reflexivity|le|right; right; reflexivity]).
  nxt H ltac:(eapply (O_open _ _ _ [] 0 [] false); [reflexivity|discriminate]).
  nxt H ltac:(eapply O_pop; reflexivity).
  nxt H ltac:(eapply O_get_fail; reflexivity).
  split; [exact H|reflexivity].
Qed.
