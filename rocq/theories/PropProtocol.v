(** Theorems about the conversation of client and server (C18). *)
From Verif Require Import Base ListX ModelFastcdc ModelCdc SpecCdc ModelFileDiff ModelBatch SpecBatch PropCdc PropBatch ModelProtocol SpecProtocol ProofProtocol ProofProtocolRun ProofProtocolBad.
Local Open Scope N_scope.

(** C18.  Client and server start with empty connections.  If the file list ends with
    its empty message, the plan is one the client can follow, the files named in the
    plan can be opened and every changed file can be synced without waiting in a
    circle, then whatever the capacities of the queues and whatever the order in which
    threads and connections take their steps: no run has more than [n] steps, and a
    run that cannot go on has finished on both sides and both agree about the result.
    In particular no side waits forever and no packet is left over. *)
Theorem C18_sync_completes : forall size cap_out cap_wire cap_in,
  0 < cap_out -> 0 < cap_wire -> 0 < cap_in ->
  forall opts batches files num_files content raw_size diff_job make_plan threshold signature reqs,
  let pl := make_plan opts files in
  files_end_empty batches files -> good_plan num_files pl -> (1 <= raw_size)%nat ->
  (o_dry_run opts = false ->
     (forall i, In i (pl_missing pl) -> content i <> None) /\
     (forall i, In i (pl_changed pl) -> content i <> None /\ syncs size cap_out (diff_job i) (signature i) (reqs i))) ->
  exists n, forall k s,
    runs size cap_out cap_wire cap_in k
      (mk_net (client opts batches num_files content raw_size diff_job) (server make_plan threshold signature) [] [] no_packets no_packets) s ->
    (k <= n)%nat /\ (stuck size cap_out cap_wire cap_in s -> agreed opts files pl content reqs s).
Proof.
  intros size cap_out cap_wire cap_in P1 P2 P3 opts batches files num_files content raw_size diff_job make_plan threshold signature reqs pl Hf Hp Hr Hd.
  destruct (sync_run size cap_out cap_wire cap_in (conj P1 (conj P2 P3)) opts batches files num_files content raw_size diff_job make_plan threshold signature reqs Hf Hp Hr) as (t & (n & R) & A).
  - intros D. apply (Hd D).
  - intros D. apply (Hd D).
  - exists n. intros k s K.
    destruct (decided size cap_out cap_wire cap_in n _ t R (agreed_stuck size cap_out cap_wire cap_in opts files content make_plan reqs t A)) with (k := k) (u := s) as (B & C).
    + exists false. split; [apply patient_server|reflexivity].
    + exact K.
    + split; [exact B|]. intros St. rewrite (C St). exact A.
Qed.
Print Assumptions C18_sync_completes.

(** The condition on changed files holds if the file on the server is not too large:
    a signature message has a header of 4 bytes, two tags with lengths of at most 10
    bytes and, per chunk, 16 bytes of hash and at most 3 bytes of size, and a chunk has
    at least kMinChunkSize bytes, except for the last. *)
Theorem C18_moderate_files_sync : forall hash w gear cfg iobuf size cap completed basis,
  params_ok w cfg iobuf -> (1 <= min_size cfg)%nat ->
  (forall m, size (KSig m) <= 24 * (1 + N.of_nat (length (sm_sizes m)))) ->
  48 * (N.of_nat (length basis) / N.of_nat (min_size cfg) + 1) < cap ->
  exists sigs, create_signature hash w gear cfg iobuf completed basis = Ok sigs /\
    forall j early late, converses j sigs early late -> ends_empty (early ++ late) -> syncs size cap j sigs (early ++ late).
Proof.
  intros hash w gear cfg iobuf size cap completed basis P M H L.
  destruct (signature_fits hash w gear cfg iobuf size cap completed basis P M H L) as (sigs & E & F). exists sigs. split; [exact E|].
  intros j early late C En. exists early, late. auto.
Qed.
Print Assumptions C18_moderate_files_sync.

(** With the parameters of the program this is true for basis files of up to 700 MB. *)
Corollary C18_production_limit : forall hash w gear completed basis size,
  (1 <= w)%nat -> (forall m, size (KSig m) <= 24 * (1 + N.of_nat (length (sm_sizes m)))) ->
  N.of_nat (length basis) <= 700 * 1000 * 1000 ->
  exists sigs, create_signature hash w gear rsync_config kFileIoBufferSize completed basis = Ok sigs /\
    forall j early late, converses j sigs early late -> ends_empty (early ++ late) -> syncs size (8 * 1024 * 1024) j sigs (early ++ late).
Proof.
  intros hash w gear completed basis size Hw Hs L. apply C18_moderate_files_sync; [|unfold rsync_config; cbn [min_size]; lia|exact Hs|].
  - destruct rsync_config_ok as (A & B & C & D). split; [exact Hw|]. split; [exact A|]. split; [exact D|exact B].
  - unfold rsync_config. cbn [min_size]. rewrite N2Nat.id. pose proof (N.div_mod (N.of_nat (length basis)) 4096 ltac:(discriminate)). pose proof (N.mod_lt (N.of_nat (length basis)) 4096 ltac:(discriminate)). lia.
Qed.

(** For larger files it may fail: the server sends all signatures of a file before it
    queues the task that receives the patch commands (cdc_rsync_server.cc:825-832),
    while the client sends patch commands as soon as it recognizes chunks.  Whatever
    the capacities, there is a changed file with which no run ever finishes, although
    all other conditions of C18_sync_completes are met. *)
Definition many_patches (n : nat) (q : request) (j : job) : job := Nat.iter n (JSend q) j.
Fixpoint many_signatures (n : nat) (j : job) : job := match n with O => j | S n => JRecv (fun _ => many_signatures n j) end.
Definition one_patch : request := mk_request [SOURCE_BASIS_FILE] [0] [4096] [].
Definition one_sig : sigmsg := mk_sigmsg [4096] [7].

Lemma run_many_patches n q j k : run_job (many_patches n q j) k = send_all (repeat (KPatch q) n) (run_job j k).
Proof. induction n as [|n IH]; [reflexivity|]. cbn. f_equal. exact IH. Qed.
Lemma finishes_last : finishes (JSend ModelCdc.empty_request JDone) [ModelCdc.empty_request].
Proof. repeat constructor. Qed.
Lemma converses_sigs sigs j l : finishes j l -> converses (many_signatures (length sigs) j) sigs [] l.
Proof. intros F. induction sigs as [|s sigs IH]; [now constructor|]. cbn. constructor. exact IH. Qed.
Lemma converses_many n q s sigs j l : converses j (s :: sigs) [] l -> converses (many_patches n q j) (s :: sigs) (repeat q n) l.
Proof. intros C. induction n as [|n IH]; [exact C|]. cbn. now constructor. Qed.
Lemma map_repeat {A B} (f : A -> B) x n : map f (repeat x n) = repeat (f x) n.
Proof. induction n as [|n IH]; [reflexivity|]. cbn. now rewrite IH. Qed.
Lemma send_all_app l l' k : send_all (l ++ l') k = send_all l (send_all l' k).
Proof. unfold send_all. apply fold_right_app. Qed.

Theorem C18_sync_completes_refuted : forall size cap_out cap_wire cap_in,
  0 < cap_out -> 0 < cap_wire -> 0 < cap_in -> (forall p, 1 <= size p) ->
  exists opts batches files num_files content raw_size diff_job make_plan threshold signature early late,
  let pl := make_plan opts files in
  files_end_empty batches files /\ good_plan num_files pl /\ (1 <= raw_size)%nat /\ pl_missing pl = [] /\ o_dry_run opts = false /\
  (forall i, In i (pl_changed pl) -> content i <> None /\ converses (diff_job i) (signature i) early late /\ ends_empty (early ++ late)) /\
  exists n, forall k s,
    runs size cap_out cap_wire cap_in k
      (mk_net (client opts batches num_files content raw_size diff_job) (server make_plan threshold signature) [] [] no_packets no_packets) s ->
    (k <= n)%nat /\ ~ finished s.
Proof.
  intros size cap_out cap_wire cap_in P1 P2 P3 Sz. set (n := S (N.to_nat (cap_out + cap_wire + cap_in))).
  set (sigs := repeat one_sig n ++ [empty_sigmsg]).
  set (j := many_patches n one_patch (many_signatures (length sigs) (JSend ModelCdc.empty_request JDone))).
  exists (mk_popts false false false), [mk_addfiles [] [([97], 0%Z, 5)] []; mk_addfiles [] [] []], [mk_addfiles [] [([97], 0%Z, 5)] []], 1%nat, (fun _ => Some [1]), 1%nat,
    (fun _ => j), (fun _ _ => mk_plan [] [] [0]), 10, (fun _ => sigs), (repeat one_patch n), [ModelCdc.empty_request].
  cbn zeta. split; [exists (mk_addfiles [] [] []); split; [reflexivity|]; split; [split; reflexivity|]; apply Forall_cons; [left; discriminate|apply Forall_nil]|]. split; [repeat split; try constructor; try constructor; exists [], []; repeat split; constructor|].
  split; [lia|]. split; [reflexivity|]. split; [reflexivity|]. split.
  - intros i _. split; [discriminate|]. split.
    + unfold j, sigs, n. cbn [repeat app]. apply converses_many. apply converses_sigs. exact finishes_last.
    + exists (repeat one_patch n), ModelCdc.empty_request. split; [reflexivity|]. split; [repeat split|]. apply Forall_forall. intros x Ix. apply repeat_spec in Ix. subst. split; [discriminate|]. split; reflexivity.
  - assert (Pos : 0 < cap_out /\ 0 < cap_wire /\ 0 < cap_in) by auto.
    assert (Rm : exists c0 m0, reach size cap_out cap_wire cap_in
      (quiet (client (mk_popts false false false) [mk_addfiles [] [([97], 0%Z, 5)] []; mk_addfiles [] [] []] 1 (fun _ => Some [1]) 1 (fun _ => j)) (server (fun _ _ => mk_plan [] [] [0]) 10 (fun _ => sigs)) [] [])
      (quiet (send_all (repeat (KPatch one_patch) n) c0) (send_all (repeat (KSig one_sig) n) m0) [] [])).
    { do 2 eexists. unfold client, server. eapply reach_trans; [apply c_to_s; [exact Pos|reflexivity]|].
      cbn [map send_all fold_right]. eapply reach_trans; [eapply (c_all _ _ _ _ Pos stop_files [KAddFiles _] (KAddFiles _)); [repeat constructor|reflexivity]|].
      cbn [app]. eapply reach_trans; [apply s_to_c; [exact Pos|reflexivity]|]. cbn [o_delete pl_deleted pl_missing pl_changed]. cbn beta iota zeta.
      eapply reach_trans; [apply indices_run; [exact Pos|constructor]|]. cbn [client_missing server_missing orb o_dry_run].
      eapply reach_trans; [apply indices_run; [exact Pos|repeat constructor; lia]|]. cbn [client_changed server_changed orb o_dry_run start_compression expect_toggle o_compress send_delta send_signatures].
      cbv [client_changed server_changed orb o_dry_run start_compression expect_toggle o_compress]. cbn [send_delta send_signatures].
      eapply reach_trans; [apply s_to_c; [exact Pos|reflexivity]|]. unfold j at 1. rewrite run_many_patches. replace (map KSig sigs) with (repeat (KSig one_sig) n ++ [KSig empty_sigmsg]) by (unfold sigs; rewrite (map_app KSig), map_repeat; reflexivity). rewrite send_all_app. apply reach_refl. }
    destruct Rm as (c0 & m0 & Rm).
    destruct (both_send_stuck size cap_out cap_wire cap_in Pos Sz (KPatch one_patch) (KSig one_sig) c0 m0 n) with (k := S (left_over n (quiet (send_all (repeat (KPatch one_patch) n) c0) (send_all (repeat (KSig one_sig) n) m0) [] [])))
      (s := quiet (send_all (repeat (KPatch one_patch) n) c0) (send_all (repeat (KSig one_sig) n) m0) [] []) as (t & Rt & St & Bt).
    + unfold n. lia.
    + lia.
    + apply (both_send_start size cap_out cap_wire cap_in Pos Sz). unfold n. lia.
    + destruct (reach_trans _ _ _ _ _ _ _ Rm Rt) as (N & R). exists N. intros k s K.
      destruct (all_runs size cap_out cap_wire cap_in N _ t R St) with (k := k) (u := s) as (A & B).
      * exists false. split; [apply patient_server|reflexivity].
      * exact K.
      * split; [exact A|]. intros F.
        assert (Sf : stuck size cap_out cap_wire cap_in s) by (destruct s as [c m ts ps x y]; destruct F as ((r1 & F1) & (r2 & F2) & F3 & F4 & F5); cbn in *; subst; intros []; reflexivity).
        rewrite (runs_stuck _ _ _ _ _ _ _ B Sf) in F. revert F. assert (Big : cap_out + cap_wire + cap_in < N.of_nat n) by (unfold n; lia). intros F. eapply (both_send_not_finished size cap_out cap_wire cap_in); eassumption.
Qed.
Print Assumptions C18_sync_completes_refuted.

(** The hypotheses of C18_sync_completes can be met: one file to delete, one missing
    file, one changed file; queues of a single packet. *)
Definition ex_files : list addfiles := [mk_addfiles [97; 47] [([98], 5%Z, 3); ([99], 6%Z, 2)] []].
Definition ex_plan : plan := mk_plan [([120], false)] [1] [0].
Definition ex_sigs : list sigmsg := [one_sig; empty_sigmsg].
Definition ex_job : job := JRecv (fun _ => JSend one_patch (JRecv (fun _ => JSend ModelCdc.empty_request JDone))).
Example C18_hypotheses_met :
  let size := fun _ => 1 in
  files_end_empty (ex_files ++ [mk_addfiles [] [] []]) ex_files /\ good_plan 2 ex_plan /\
  syncs size 1 ex_job ex_sigs [one_patch; ModelCdc.empty_request].
Proof.
  cbn zeta. split; [exists (mk_addfiles [] [] []); split; [reflexivity|]; split; [split; reflexivity|]; unfold ex_files; repeat (apply Forall_cons; [first [left; discriminate|right; discriminate]|]); apply Forall_nil|]. split.
  - split; [repeat constructor|]. split; [repeat constructor|]. exists [[120]], []. split; [|split; [constructor|reflexivity]]. constructor; [|constructor].
    split; [discriminate|]. split; [|split; [|reflexivity]].
    + intros (l1 & x & y & l2 & E & A & B). destruct l1 as [|? [|? ?]]; discriminate.
    + intros l b E. destruct l as [|? [|? ?]]; inversion E; subst; intros [H|H]; discriminate.
  - exists [one_patch], [ModelCdc.empty_request]. split; [unfold ex_job, ex_sigs; repeat constructor|]. split; [reflexivity|]. split; [exists [one_patch], ModelCdc.empty_request; split; [reflexivity|]; split; [repeat split|]; apply Forall_cons; [split; [discriminate|split; reflexivity]|apply Forall_nil]|].
    right. intros l1 p l2 E. destruct l1 as [|x [|y l1]]; try discriminate. cbn. lia.
Qed.
