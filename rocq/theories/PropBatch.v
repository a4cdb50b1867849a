(** C14: batched lists survive the trip (file_finder_and_sender.cc,
    file_deleter_and_sender.cc, cdc_rsync_server.cc, cdc_rsync_client.cc). *)
From Verif Require Import Base ListX Str ModelPath SpecPath ProofPath PropPath ModelFileDiff ModelBatch SpecBatch ProofBatch.
Local Open Scope N_scope.

(** The file list.  For every set of sources, filter and batch limit: the
    client's search ends normally; whatever is sent later, the server's loop
    consumes exactly the messages of the list; the server ends up with exactly
    the files and directories that passed the filter, in the order found, under
    their path relative to the base directory with forward slashes, with their
    time and size, numbered from 0; and the client's own list holds the same
    files at the same positions.  Only the last message is empty. *)
Theorem C14_file_list : forall sep included threshold srcs later,
  separator sep ->
  Forall (fun src => Forall (proper (fst src)) (snd src)) srcs ->
  exists s server_files server_dirs,
    send_all_files sep included threshold srcs = Ok s /\
    handle_send_all_files (ff_out s ++ later) [] [] = Ok (server_files, server_dirs, later) /\
    map (fun f => (fi_path f, fi_mtime f, fi_size f)) server_files =
      map (fun x => (fix_seps (rel_dir x) ++ fd_name (snd x), fd_mtime (snd x), fd_size (snd x)))
          (kept_files included (entries srcs)) /\
    map di_path server_dirs =
      map (fun x => fix_seps (rel_dir x) ++ fd_name (snd x)) (kept_dirs included (entries srcs)) /\
    (forall i f, nth_error server_files i = Some f -> fi_index f = N.of_nat i mod 2 ^ 32) /\
    (forall i d, nth_error server_dirs i = Some d -> di_index d = N.of_nat i mod 2 ^ 32) /\
    map (fun c => (cf_path c, cf_size c)) (ff_files s) =
      map (fun x => (fd_dir (snd x) ++ fd_name (snd x), fd_size (snd x))) (kept_files included (entries srcs)) /\
    (exists msgs eof, ff_out s = msgs ++ [eof] /\ empty_request eof /\ Forall (fun q => ~ empty_request q) msgs).
Proof.
  intros sep included threshold srcs later Hs P.
  destruct (find_sources_Inv sep included threshold srcs [] ffs_init (init_Inv included) P) as (s0 & E0 & I0).
  cbn [app] in I0. apply send_Inv in I0. pose proof (send_empty s0) as (Em & _).
  set (s1 := ffs_send s0) in *. destruct I0 as [A B C D E F G].
  apply Forall_app in F. destruct F as (F1 & _).
  destruct (receive_spec (ff_req s1) later (ff_out s1) Em [] [] E F1) as (fs & ds & R & R1 & R2 & R3 & R4);
    [intros [|i] f; discriminate|intros [|i] f; discriminate|].
  rewrite flat_map_app in A, B. cbn [flat_map] in A, B. destruct Em as (Em1 & Em2).
  unfold msg_files at 2 in A. rewrite Em1 in A. cbn in A. rewrite app_nil_r in A.
  unfold msg_dirs at 2 in B. rewrite Em2 in B. cbn in B. rewrite app_nil_r in B.
  exists (ffs_flush s0), fs, ds. unfold send_all_files. rewrite E0. cbn [bind].
  split; [reflexivity|]. unfold ffs_flush. fold s1. cbn [ff_out ff_files].
  split. { rewrite <- app_assoc. exact R. }
  split. { rewrite A in R1. exact R1. }
  split. { rewrite B in R2. exact R2. }
  split. { intros i f Hf. now apply R3. }
  split. { intros i f Hf. now apply R4. }
  split. { rewrite C, map_map. reflexivity. }
  exists (ff_out s1), (ff_req s1). split; [reflexivity|]. split; [split; assumption|assumption].
Qed.

(** So an index in a message from the server denotes the client's file with the
    same relative path and size (below 2^32 files, paths below 4 GB). *)
Theorem C14_index_denotes_same_file : forall sep included threshold srcs later s server_files server_dirs f,
  separator sep ->
  Forall (fun src => Forall (proper (fst src)) (snd src)) srcs ->
  Forall (fun src => blen (fst src) < 2 ^ 32) srcs ->
  send_all_files sep included threshold srcs = Ok s ->
  handle_send_all_files (ff_out s ++ later) [] [] = Ok (server_files, server_dirs, later) ->
  N.of_nat (length server_files) <= 2 ^ 32 ->
  In f server_files ->
  exists c, nth_error (ff_files s) (N.to_nat (fi_index f)) = Some c /\
    fi_path f = fix_seps (skipn (N.to_nat (cf_base_len c)) (cf_path c)) /\ fi_size f = cf_size c.
Proof.
  intros sep included threshold srcs later s fs ds f Hs P Pb E R L I.
  destruct (C14_file_list sep included threshold srcs later Hs P) as (s' & fs' & ds' & E' & R' & A & _ & X & _ & C & _).
  rewrite E in E'. inversion E'; subst s'. rewrite R in R'. inversion R'; subst fs' ds'. clear E' R'.
  assert (Cf : ff_files s = map cfile_of (kept_files included (entries srcs))).
  { destruct (find_sources_Inv sep included threshold srcs [] ffs_init (init_Inv included) P) as (s0 & E0 & I0).
    unfold send_all_files in E. rewrite E0 in E. cbn in E. inversion E. apply send_Inv in I0. destruct I0. exact I_cfiles. }
  apply In_nth_error in I. destruct I as (i & Hi). pose proof (X i f Hi) as Xi.
  assert (Li : (i < length fs)%nat) by (apply nth_error_Some; congruence).
  assert (Ei : fi_index f = N.of_nat i). { rewrite Xi. apply N.mod_small. change (2^32) with 4294967296 in *. lia. }
  pose proof (map_nth_error (fun f => (fi_path f, fi_mtime f, fi_size f)) i fs Hi) as M. rewrite A in M.
  destruct (nth_error (kept_files included (entries srcs)) i) as [x|] eqn:Ex.
  2:{ apply nth_error_None in Ex. rewrite (proj2 (nth_error_None _ _)) in M; [discriminate|]. now rewrite map_length. }
  rewrite (map_nth_error _ _ _ Ex) in M. inversion M as [[M1 M2 M3]]. clear M.
  exists (cfile_of x). rewrite Ei, Nnat.Nat2N.id, Cf. split; [now apply map_nth_error|].
  cbn [cfile_of cf_path cf_size cf_base_len]. split; [|reflexivity].
  apply nth_error_In in Ex. unfold kept_files in Ex. apply filter_In in Ex. destruct Ex as (Ex & _).
  unfold entries in Ex. apply in_flat_map in Ex. destruct Ex as ((b & l) & Hsrc & Hx). apply in_map_iff in Hx.
  destruct Hx as (g & Gx & Gi). cbn [fst snd] in *. subst x. cbn [fst snd] in *.
  rewrite Forall_forall in P, Pb. specialize (P _ Hsrc). specialize (Pb _ Hsrc). cbn [fst snd] in *. rewrite Forall_forall in P. specialize (P _ Gi).
  destruct P as (Db & (rel & Er & Dr) & Nn & Sn).
  assert (Eb : N.to_nat (u32 (blen b)) = length b). { unfold u32, blen in *. rewrite N.mod_small by assumption. lia. }
  rewrite Eb. unfold rel_dir. cbn [fst snd]. rewrite Er, <- !app_assoc, !skipn_app_exact. unfold fix_seps. rewrite map_app. f_equal.
  clear -Sn. induction (fd_name g) as [|y n IH]; [reflexivity|]. cbn. inversion Sn; subst. rewrite <- IH by assumption.
  destruct (N.eqb_spec y backslash) as [->|]; [exfalso; apply H1; now right|reflexivity].
Qed.

(** The deletion list: the client reports exactly the relative paths that the
    server deleted, in the order in which they were deleted (files first), for
    every batch limit; the loop consumes exactly the messages of the list and
    only the last one is empty. *)
Theorem C14_deletion_list : forall threshold files dirs later,
  Forall clean_path files -> Forall clean_path dirs ->
  let deleted := map (fun p => (p, false)) files ++ map (fun p => (p, true)) dirs in
  let msgs := fds_flush (report_all threshold deleted fds_init) in
  receive_deleted (msgs ++ later) = Ok (deleted, later) /\
  exists ms eof, msgs = ms ++ [eof] /\ empty_response eof /\ Forall (fun q => ~ empty_response q) ms.
Proof.
  intros threshold files dirs later Cf Cd deleted msgs.
  assert (I : DInv deleted (report_all threshold deleted fds_init)).
  { apply (report_all_DInv threshold deleted []).
    - constructor; [reflexivity|constructor].
    - unfold deleted. apply Forall_app. rewrite !Forall_map. split; assumption.
    - intros l1 p l2 E. cbn [app]. unfold deleted in E. clear -E. revert l1 E. induction files as [|f files IH]; intros l1 E; cbn in E.
      + exfalso. assert (H : In (p, false) (map (fun p => (p, true)) dirs)) by (rewrite E; apply in_or_app; right; now left).
        apply in_map_iff in H. destruct H as (? & H & _). discriminate.
      + destruct l1 as [|x l1]; [constructor|]. inversion E; subst. constructor; [reflexivity|]. now apply IH. }
  destruct (fds_send_DInv _ _ I) as ([A B] & Em). unfold msgs, fds_flush. split.
  - rewrite <- app_assoc. cbn [app]. rewrite receive_deleted_spec by assumption.
    rewrite flat_map_app in A. cbn [flat_map] in A. destruct Em as (E1 & E2). unfold msg_del at 2 in A. rewrite E1, E2 in A.
    cbn in A. rewrite app_nil_r in A. now rewrite A.
  - eexists _, _. split; [reflexivity|]. split; assumption.
Qed.

(** Index lists: the client gets the same list, provided every index denotes
    one of its files, and an error otherwise; every message but the last one
    holds 1 to 4000 indices. *)
Theorem C14_index_list : forall num_files idx later,
  (Forall (fun i => i < N.of_nat num_files) idx ->
   receive_indices num_files (send_file_indices idx ++ later) [] = Ok (idx, later)) /\
  (Exists (fun i => N.of_nat num_files <= i) idx ->
   receive_indices num_files (send_file_indices idx ++ later) [] = Fail) /\
  exists ms, send_file_indices idx = ms ++ [[]] /\ Forall (fun m => m <> [] /\ (length m <= 4000)%nat) ms.
Proof.
  intros n idx later. unfold send_file_indices.
  assert (B1 : (1 <= kMaxBatchSize)%nat). { apply Nat.leb_le. vm_compute. reflexivity. }
  destruct (send_indices_spec kMaxBatchSize idx B1 []) as (ms & E & C & F). { cbn [length]. lia. }
  cbn [app] in C. rewrite E. rewrite <- app_assoc. cbn [app].
  assert (Fn : Forall (fun m => m <> []) ms). { eapply Forall_impl; [|exact F]. now intros m (? & _). }
  rewrite (receive_indices_spec n later ms Fn []). cbn [app]. rewrite C.
  split; [|split].
  - intros H. destruct (existsb _ idx) eqn:X; [|reflexivity]. apply existsb_exists in X. destruct X as (i & Hi & Li).
    rewrite Forall_forall in H. specialize (H i Hi). lia.
  - intros H. apply Exists_exists in H. destruct H as (i & Hi & Li).
    rewrite (proj2 (existsb_exists _ _)); [reflexivity|]. exists i. split; [assumption|]. lia.
  - exists ms. split; [reflexivity|exact F].
Qed.

(** Batches stay small: a message exceeds the limit by at most one entry, so
    with the default limit of 10000 bytes and path names of up to 16 MB minus
    the limit it always fits a packet (C06). *)
Theorem C14_batches_bounded : forall sep included threshold srcs s M,
  Forall (fun src => Forall (proper (fst src)) (snd src)) srcs ->
  (forall x, In x (entries srcs) -> included (rel_path x) = true ->
     blen (rel_dir x) + blen (fd_name (snd x)) + 16 <= M) ->
  send_all_files sep included threshold srcs = Ok s ->
  Forall (fun q => request_size q <= threshold + M) (ff_out s).
Proof.
  intros sep included t srcs s M P Hm E. unfold send_all_files in E.
  destruct (find_sources sep included t ffs_init srcs) as [s0| | |] eqn:E0; try discriminate. cbn in E. inversion E; subst; clear E.
  assert (I : BInv t M s0).
  { eapply find_sources_BInv; [|exact Hm|exact P|exact E0]. constructor; cbn; auto; [right; split; reflexivity|unfold blen; cbn; lia]. }
  assert (I1 : BInv t M (ffs_send s0)).
  { destruct I as [A B C D]. apply send_BInv; auto. destruct B as [B|B]; [lia|]. rewrite A, request_size_empty; [lia|assumption]. }
  unfold ffs_flush. cbn [ff_out]. destruct I1 as [A B C D]. apply Forall_app. split; [exact D|]. constructor; [|constructor].
  pose proof (send_empty s0) as (Em & _). rewrite request_size_empty by exact Em. lia.
Qed.

(** A concrete case: base directory "s/", files "s/a", "s/d/b", directory "s/d"
    from a client using backslashes, batch limit 20. *)
Definition ex_srcs : list (bytes * list found) :=
  [([115; 92], [mk_found [115; 92] [97] 5 7 false; mk_found [115; 92] [100] 0 0 true;
                mk_found [115; 92; 100; 92] [98] 6 8 false])].
Example C14_example :
  Forall (fun src => Forall (proper (fst src)) (snd src)) ex_srcs /\
  (exists s, send_all_files backslash (fun _ => true) 20 ex_srcs = Ok s /\ length (ff_out s) = 3%nat /\
     exists fs ds, handle_send_all_files (ff_out s) [] [] = Ok (fs, ds, []) /\
       map fi_path fs = [[97]; [100; 47; 98]] /\ map fi_index fs = [0; 1] /\ map di_path ds = [[100]]) /\
  clean_path [100; 47; 98] /\
  fds_flush (report_all 1000 [([100; 47; 98], false); ([101], false); ([100], true)] fds_init) =
    [mk_addDeleted [100; 47] [[98]] []; mk_addDeleted [] [[101]] [[100]]; mk_addDeleted [] [] []] /\
  length (send_file_indices (map N.of_nat (seq 0 4001))) = 3%nat.
Proof.
  split.
  { assert (S : separator 92) by (now right).
    assert (D : dir_prefix [115; 92]). { right. exists [115], 92. auto. }
    assert (Nq : forall c, c <> 47 -> c <> 92 -> no_seps [c]). { intros c A B. constructor; [|constructor]. intros [H|H]; [now apply A|now apply B]. }
    assert (D0 : dir_prefix []) by (now left).
    assert (D1 : dir_prefix [100; 92]). { right. exists [100], 92. auto. }
    constructor; [|constructor]. cbn [fst snd].
    constructor; [|constructor; [|constructor; [|constructor]]];
      (split; [exact D|]); (split; [|split; [discriminate|apply Nq; discriminate]]).
    - exists []. auto.
    - exists []. auto.
    - exists [100; 92]. auto. }
  split.
  { eexists. split; [vm_compute; reflexivity|]. split; [reflexivity|]. eexists _, _. split; [vm_compute; reflexivity|]. repeat split. }
  split.
  { split; [discriminate|]. split; [|split; [|reflexivity]].
    - intros (l1 & a & b & l2 & E & A & B). destruct l1 as [|? [|? [|? [|? ?]]]]; cbn in E; inversion E; subst.
      + destruct A; discriminate.
      + destruct B; discriminate.
    - intros l b E. destruct l as [|? [|? [|? [|? ?]]]]; inversion E; subst; intros [H|H]; discriminate. }
  split; vm_compute; reflexivity.
Qed.

Print Assumptions C14_file_list.
Print Assumptions C14_index_denotes_same_file.
Print Assumptions C14_deletion_list.
Print Assumptions C14_index_list.
Print Assumptions C14_batches_bounded.
