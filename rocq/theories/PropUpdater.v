(** C30-C32: updating the manifest (manifest/manifest_updater.cc). *)
From Verif Require Import Base ListX Str ModelText ModelPath SpecPath ModelCdc ModelChunkMap ModelProvider ModelAsset SpecAsset ModelFileDiff SpecFileDiff ProofFileDiff
  ModelManifest SpecManifest ProofManifest ProofTree PropManifest ProofFlush PropFlush ProofAtDir ModelUpdater SpecUpdater
  ProofUpdater ProofUpdEffect ProofUpdScan ProofUpdApply ProofUpdMachine ProofUpdRun ProofUpdTerm.
From Coq Require Import Permutation.
Local Open Scope N_scope.

(** The manifest that ManifestBuilder::Flush makes, and FlushedContentIds. *)
Section Flushing.
Context (store : cid -> option (list asset)) (put : list asset -> option cid) (put_chunks : list cref -> option cid) (put_root : asset -> option cid)
  (sort_desc : list asset -> list asset) (max_size : N).
Definition flushing (b b' : builder) (ids : list cid) : Prop :=
  exists now fuel id log, flush store now put put_chunks put_root sort_desc max_size fuel b = Ok (id, b', log) /\
    separate store (b_lists b) (root_of now b) log /\ ids = map snd log ++ [id].
End Flushing.

(** Without unsaved changes the lists in memory do not matter. *)
Lemma saved_node store L : forall root, all_saved store L root -> forall p, node store L root p = node store (fun _ => None) root p.
Proof.
  intros root A p. revert root A. induction p as [|n p IH]; intros root A; [reflexivity|]. cbn [node]. destruct (type_eqb (a_type root) TDir) eqn:T; [|reflexivity].
  assert (Td : a_type root = TDir) by (destruct (a_type root); try discriminate; reflexivity).
  assert (E : children store L root = children store (fun _ => None) root).
  { unfold children. f_equal. assert (B : forall x, In x (a_ind root) -> listed store L x = stored store x) by (intros x I; exact (A [] root x eq_refl Td I)).
    clear A. induction (a_ind root) as [|x l IHl]; [reflexivity|]. cbn [flat_map]. f_equal; [apply B; now left|]. apply IHl. intros y I. apply B. now right. }
  rewrite <- E. destruct (find (fun c => name_eqb (a_name c) n) (children store L root)) as [c|] eqn:F; [|reflexivity]. apply IH.
  intros q d x N Tq I. apply (A (n :: q) d x); auto. cbn [node]. now rewrite T, F.
Qed.

Section C30.
(** The data store returns what was put into it. *)
Context (store : cid -> option (list asset)) (truth : cid -> option bytes) (clists : cid -> option (list cref)) (store_root : cid -> option asset)
  (put : list asset -> option cid) (put_chunks : list cref -> option cid) (put_root : asset -> option cid)
  (sort_desc : list asset -> list asset) (max_size : N).
Context (Hput : forall l id, put l = Some id -> store id = Some l) (Hputc : forall l id, put_chunks l = Some id -> clists id = Some l)
  (Hputr : forall r id, put_root r = Some id -> store_root id = Some r) (Hsortd : forall l, Permutation l (sort_desc l)).
Notation fl := (flushing store put put_chunks put_root sort_desc max_size).

Lemma flushing_good : flush_good store clists truth fl.
Proof.
  intros b b' ids (now & fuel & id & log & F & Sep & ->) R T.
  assert (T' : btidy store now b) by (unfold btidy in *; now rewrite (root_now b now R)).
  destruct (flush_facts store truth clists store_root put put_chunks put_root sort_desc max_size Hput Hputc Hputr Hsortd now fuel b id b' log T' F Sep)
    as (_ & S & Tb & Sv & _ & R' & O & V).
  rewrite (root_now b now R) in O. rewrite (root_now b' now R') in O, Sv. unfold btidy in Tb. rewrite (root_now b' now R') in Tb.
  split; [exact R'|]. split; [exact Tb|]. split; [|split; [|split]].
  - intros p. specialize (S p). unfold bview in *. now rewrite (root_now b now R), (root_now b' now R') in S.
  - intros p d x N Td I. exact (Sv p d x N Td I).
  - intros p x (d & N & Td & I). destruct (O p d x N Td I) as [X|X]; [left; exact X|right]. apply in_or_app. left. apply in_map_iff. exists (Some p, x). auto.
  - intros p j Vj. unfold bview in *. rewrite (root_now b now R), (root_now b' now R') in V. destruct (V p j Vj) as [X|X]; [left; exact X|right].
    intros x I. apply in_or_app. left. apply in_map_iff. exists (@None path, x). auto.
Qed.

Context (sort : list ainfo -> list ainfo) (Hsort : sorts ai_path sort).

(** Comparing a directory of the manifest with what is in the source directory
    finds exactly the differences, for any listing with distinct proper names, and
    does not change the manifest. *)
Theorem C30_compare : forall now D a es s ops ids s',
  Forall good_name D -> join (pa_rel a) (pa_name a) = pstr D -> btidy store now (u_b s) ->
  (forall p d id, node store (b_lists (u_b s)) (root_of now (u_b s)) p = Some d -> a_type d = TDir -> In id (a_ind d) -> listed store (b_lists (u_b s)) id = stored store id) ->
  (forall p, bview store now (u_b s) p <> None -> Forall good_name p) ->
  NoDup (map se_name es) -> (forall e, In e es -> good_name (se_name e)) ->
  scan_dir store clists sort now a (Some es) s = (Some (ops, ids), s') ->
  differences (bview store now (u_b s)) D es ops /\ (forall p, bview store now (u_b s') p = bview store now (u_b s) p).
Proof.
  intros now D a es s ops ids s' GD J T Sv Nm Nd Ge E.
  destruct (scan_eff store clists sort Hsort now D a es s ops ids s' GD J T) as (Df & _ & B & _); auto.
  - intros d id N Td I. eapply Sv; eassumption.
  - split; [exact Df|]. intros p. apply (be_view _ _ _ _ _ _ B).
Qed.

(** The source directory does not change while it is read. *)
Context (src : path -> option snode) (Hsrc : source_tree src)
  (search : bytes -> option (list sentry) -> Prop) (chunk : bytes -> option chunked -> Prop)
  (Hsearch : reads_dirs search src) (Hchunk : reads_files truth clists chunk src).

(** UpdateAll: whatever the old manifest was, whatever the order in which the threads
    run, assets are prioritized and intermediate manifests are flushed: if no task
    failed, the manifest that is stored in the end has exactly the files and
    directories of the source, with their times, modes and contents. *)
Theorem C30_update_all : forall push max_queued mpt b fc m0 mt m now fuel id b' log,
  src [] = Some (SDir mt) -> btidy store 0 b -> (forall p, bview store 0 b p <> None -> Forall good_name p) -> b_lists b = (fun _ => None) ->
  trustworthy truth clists (bview store 0 b) src ->
  start store fl push (update_all_ops mt) true b fc m0 ->
  msteps store clists sort search chunk fl push max_queued mpt m0 m -> loop_done m -> m_failed m = false ->
  flush store now put put_chunks put_root sort_desc max_size fuel (u_b (m_u m)) = Ok (id, b', log) ->
  separate store (b_lists (u_b (m_u m))) (root_of now (u_b (m_u m))) log ->
  exists b2, load_manifest store_root id = Some b2 /\ manifest_matches truth clists (bview store 0 b2) src /\ btidy store 0 b2.
Proof.
  intros push mq mpt b fc m0 mt m now fuel id b' log Sr T Nm Nl Tr St Ru Ld Nf F Sep. pose proof flushing_good as Fg.
  assert (I0 : inv store clists truth src m0) by (eapply inv_start; eassumption).
  assert (I : m_failed m = true \/ inv store clists truth src m) by (eapply run_inv; eassumption). destruct I as [X|I]; [congruence|].
  destruct (inv_done store clists truth src m I Ld) as (M & T1 & R1 & _).
  assert (T' : btidy store now (u_b (m_u m))) by (unfold btidy in *; now rewrite (root_now _ now R1)).
  destruct (flush_facts store truth clists store_root put put_chunks put_root sort_desc max_size Hput Hputc Hputr Hsortd now fuel _ id b' log T' F Sep) as ((b2 & L & S & Tb) & _).
  assert (R2 : b_root b2 <> None) by (unfold load_manifest in L; destruct (store_root id); inversion L; discriminate).
  exists b2. split; [exact L|]. split.
  - intros p. specialize (S p). unfold bview in S. rewrite (root_now _ now R1), (root_now _ now R2) in S. exact (matches_same store clists truth _ _ _ S (M p)).
  - unfold btidy in *. now rewrite (root_now b2 now R2) in Tb.
Qed.

(** C32: the ids that Prune keeps include the stored manifest, every asset list that
    it refers to and that can be read, and every chunk list of its files -- of files
    all of whose chunk lists can be read --, if no task failed. *)
Theorem C32_keep_referenced_partial : forall push max_queued mpt b fc m0 mt m sid b' K,
  src [] = Some (SDir mt) -> btidy store 0 b -> (forall p, bview store 0 b p <> None -> Forall good_name p) -> b_lists b = (fun _ => None) ->
  trustworthy truth clists (bview store 0 b) src ->
  start store fl push (update_all_ops mt) true b fc m0 ->
  msteps store clists sort search chunk fl push max_queued mpt m0 m -> m_failed m = false ->
  finish fl true sid m b' (Some K) ->
  In sid K /\ exists id b2, In id K /\ load_manifest store_root id = Some b2 /\ b_root b2 = b_root b' /\
  (forall p d x, node store (b_lists b2) (root_of 0 b2) p = Some d -> a_type d = TDir -> In x (a_ind d) -> store x <> None -> In x K) /\
  (forall p n i, bview store 0 b2 (p ++ [n]) = Some i -> i_type i = TFile -> (forall x, In x (map snd (fp_ind (i_file i))) -> clists x <> None) ->
     incl (map snd (fp_ind (i_file i))) K).
Proof.
  intros push mq mpt b fc m0 mt m sid b' K Sr T Nm Nl Tr St Ru Nf Fi. pose proof flushing_good as Fg.
  pose proof (update_all store clists truth sort Hsort src Hsrc search chunk fl push mq mpt Hsearch Hchunk Fg b fc m0 mt m sid b' (Some K) Sr T Nm Tr Nl St Ru Fi Nf) as X.
  destruct X as (_ & _ & Ke).
  assert (I0 : inv store clists truth src m0) by (eapply inv_start; eassumption).
  assert (I : m_failed m = true \/ inv store clists truth src m) by (eapply run_inv; eassumption). destruct I as [Xf|I]; [congruence|].
  inversion Fi as [b1 ids Ld F E1 E2]. subst b1. destruct (m_status m && true); [|discriminate]. inversion E2.
  split; [rewrite !in_app_iff; right; right; now left|].
  destruct (inv_done store clists truth src m I Ld) as (_ & T1 & R1 & _). destruct F as (now & fuel & id & log & F & Sep & ->).
  assert (T' : btidy store now (u_b (m_u m))) by (unfold btidy in *; now rewrite (root_now _ now R1)).
  destruct (flush_facts store truth clists store_root put put_chunks put_root sort_desc max_size Hput Hputc Hputr Hsortd now fuel _ id _ _ T' F Sep) as (_ & _ & _ & Sa & _).
  unfold flush in F. apply bind_ok in F. destruct F as ([root' s] & F1 & F2). destruct (put_root root') as [rid|] eqn:P; [|discriminate]. inversion F2; subst rid b' log.
  exists id, (mkb (Some root') (fun _ => None)). split; [rewrite !in_app_iff; right; left; right; now left|]. split; [unfold load_manifest; now rewrite (Hputr _ _ P)|].
  split; [reflexivity|]. cbn [root_of b_root b_lists] in *.
  assert (Nc := saved_node store (fst s) root' Sa). rewrite H0. split.
  - intros p d x N Td Ix Sx. apply (proj1 (Ke p)); [|exact Sx]. exists d. rewrite <- Nc in N. auto.
  - intros p n i V Ti Ar x Ix. unfold bview, view in V. cbn [root_of b_root b_lists] in V. rewrite <- Nc in V. exact (proj2 (Ke p) n i x V Ti Ar Ix).
Qed.
(** C44: a manifest that is stored while the update is still running is honest: what
    is not marked as in progress, and is not in a directory that is marked as in
    progress, is exactly what is in the source.  This includes the paths at which
    there is nothing. *)
Theorem C44_intermediate_manifest : forall push max_queued mpt b fc m0 mt m now fuel id b' log,
  src [] = Some (SDir mt) -> btidy store 0 b -> (forall p, bview store 0 b p <> None -> Forall good_name p) -> b_lists b = (fun _ => None) ->
  trustworthy truth clists (bview store 0 b) src ->
  start store fl push (update_all_ops mt) true b fc m0 ->
  msteps store clists sort search chunk fl push max_queued mpt m0 m -> m_failed m = false ->
  flush store now put put_chunks put_root sort_desc max_size fuel (u_b (m_u m)) = Ok (id, b', log) ->
  separate store (b_lists (u_b (m_u m))) (root_of now (u_b (m_u m))) log ->
  exists b2, load_manifest store_root id = Some b2 /\
    forall p, (forall q r i, p = q ++ r -> bview store 0 b2 q = Some i -> i_progress i = false) ->
      entry_matches truth clists (bview store 0 b2 p) (src p).
Proof.
  intros push mq mpt b fc m0 mt m now fuel id b' log Sr T Nm Nl Tr St Ru Nf F Sep. pose proof flushing_good as Fg.
  assert (I0 : inv store clists truth src m0) by (eapply inv_start; eassumption).
  assert (I : m_failed m = true \/ inv store clists truth src m) by (eapply run_inv; eassumption). destruct I as [X|I]; [congruence|].
  destruct I as (ps & _ & C). pose proof (c_root _ _ _ _ _ _ _ _ C) as R1. pose proof (c_tidy _ _ _ _ _ _ _ _ C) as T1.
  assert (T' : btidy store now (u_b (m_u m))) by (unfold btidy in *; now rewrite (root_now _ now R1)).
  destruct (flush_facts store truth clists store_root put put_chunks put_root sort_desc max_size Hput Hputc Hputr Hsortd now fuel _ id b' log T' F Sep) as ((b2 & L & S & _) & _).
  assert (R2 : b_root b2 <> None) by (unfold load_manifest in L; destruct (store_root id); inversion L; discriminate).
  exists b2. split; [exact L|]. intros p Hp.
  assert (Sm : forall q, same_entry truth clists (bview store 0 (u_b (m_u m)) q) (bview store 0 b2 q)).
  { intros q. specialize (S q). unfold bview in S. now rewrite (root_now _ now R1), (root_now _ now R2) in S. }
  assert (Mark : forall k q r, In (k, q) ps -> p = q ++ r -> False).
  { intros k q r Iq E. destruct (c_type _ _ _ _ _ _ _ _ C k q Iq) as (i & V & Pg & _). specialize (Sm q). rewrite V in Sm.
    destruct (bview store 0 b2 q) as [j|] eqn:Ej; [|destruct Sm]. destruct Sm as (_ & _ & _ & _ & Pj & _). rewrite (Hp q r j E Ej) in Pj. congruence. }
  destruct (c_all _ _ _ _ _ _ _ _ C p) as [(D & ID & Pr & _)|[X|X]].
  - apply is_prefix_spec in Pr. destruct Pr as (r & E). destruct (Mark 2 D r ID E).
  - apply in_map_iff in X. destruct X as ([k q] & <- & Iq). destruct (Mark k q [] Iq (eq_sym (app_nil_r q))).
  - exact (matches_same store clists truth _ _ _ (Sm p) X).
Qed.
End C30.

(** * C31: Update does not run forever *)
Section C31.
Context (store : cid -> option (list asset)) (clists : cid -> option (list cref)) (sort : list ainfo -> list ainfo) (Hsort : sorts ai_path sort).
Context (search : bytes -> option (list sentry) -> Prop) (chunk : bytes -> option chunked -> Prop) (flushes : builder -> builder -> list cid -> Prop).
Context (push : bool) (max_queued : nat) (mpt : Z).
Notation step := (mstep store clists sort search chunk flushes push max_queued mpt).

Inductive nsteps : nat -> mstate -> mstate -> Prop :=
| nsteps_0 m : nsteps 0 m m
| nsteps_S n m m1 m2 : nsteps n m m1 -> step m1 m2 -> nsteps (S n) m m2.

(** If every listing of a source directory has at most [w] entries, with proper
    names, and directories are nested at most [h] deep, then no run has infinitely
    many steps: for any operations to start with, any failures, any interleaving of
    the threads, and even if the source changes all the time. *)
Theorem C31_bounded_steps : forall w h recursive ops b fc m0,
  (forall p es, Forall good_name p -> search (pstr p) (Some es) -> (length es <= w)%nat /\
     forall e, In e es -> good_name (se_name e) /\ (se_dir e = true -> (length p < h)%nat)) ->
  (forall k ai, In (k, ai) ops -> exists P, Forall good_name P /\ ai_path ai = pstr P /\ (ai_type ai = TDir -> (length P <= h)%nat)) ->
  start store flushes push ops recursive b fc m0 ->
  exists bound, forall n m, nsteps n m0 m -> (n <= bound)%nat.
Proof.
  intros w h rec ops b fc m0 Hb Ho St.
  assert (T0 : tinv h m0).
  { assert (X : forall now u, apply_operations store now ops None None rec (mku b fc [] []) = (None, u) -> Forall (key_ok h) (map pkey (u_q u))).
    { intros now u E. assert (Fo : Forall (op_good None) ops).
      { apply Forall_forall. intros [k ai] Io. unfold op_good. cbn [fst snd]. destruct (Ho k ai Io) as (Q & G & A & _). destruct k; eauto. }
      destruct (ops_queue store w h now None None rec ops _ None u Fo E) as (l & P & I & _).
      - rewrite P. cbn [app u_q map]. apply Forall_forall. intros k Ik. apply in_map_iff in Ik. destruct Ik as (ai & <- & Ia). apply I in Ia. unfold news in Ia. apply in_flat_map in Ia.
        destruct Ia as ([k ai'] & Io & Ia). assert (ai' = ai) by (destruct k; cbn in Ia; intuition). subst ai'. destruct (Ho k ai Io) as (Q & G & A & L). exists Q. split; [exact G|]. split; [exact A|].
        unfold akey. cbn [fst]. destruct (ai_type ai); cbn; intros X; try discriminate. now apply L. }
    destruct St as [now u st E Hp|now u st order b' ids E Hp Hq Fl]; (split; [|constructor]); unfold keys; cbn [m_u m_run map after_flush u_q]; rewrite app_nil_r; eauto. }
  exists (mu w h m0). intros n m R.
  assert (X : tinv h m /\ (mu w h m + n <= mu w h m0)%nat); [|lia].
  induction R as [m|n m m1 m2 R IH Sp]; [split; [exact T0|lia]|]. destruct (IH St T0) as (T1 & L1).
  destruct (tinv_step store clists sort Hsort search chunk flushes push max_queued mpt w h Hb m1 m2 Sp T1) as (T2 & L2). split; [exact T2|lia].
Qed.

(** As long as Update has not left the loop and does not wait for a task when there
    is none, it goes on, whatever WantManifestFlushed and the queue of prioritized
    assets are: reading a directory or a file has some result. *)
Theorem C31_progress : forall m,
  (forall s, exists es, search s es) -> (forall s, exists c, chunk s c) ->
  ~ loop_done m -> ~ hangs m ->
  (m_wait m = true /\ exists m', step m m') \/
  (m_wait m = false /\ forall want1 want2 reqs, want_ok push m want1 want2 ->
     (want1 = true -> exists b' ids, flushes (u_b (m_u m)) b' ids) ->
     exists m1 m3, maybe_flush flushes want1 m m1 /\
       queue_tasks store max_queued want2 (with_u m1 (with_q (m_u m1) (match reqs with [] => u_q (m_u m1) | _ => snd (queue_prioritize mpt reqs (u_q (m_u m1))) end))) m3 /\
       step m (mkm (m_u m3) (m_run m3) true (m_status m3) (m_failed m3))).
Proof.
  intros m Hs Hc Nd Nh. destruct (m_wait m) eqn:W; [left|right]; (split; [reflexivity|]).
  - destruct (m_run m) as [|r rs] eqn:R; [elim Nh; split; assumption|]. destruct r as [a|a [res|]].
    + destruct (Hc (join (pa_rel a) (pa_name a))) as (c & Cc). destruct (handle_file store 0 a c (m_u m)) as [ok u] eqn:E.
      eexists. eapply (M_file _ _ _ _ _ _ _ _ _ m 0 [] a rs c ok u); eauto.
    + destruct (handle_dir store 0 a res false (m_u m)) as [ok u] eqn:E. eexists. eapply (M_dir _ _ _ _ _ _ _ _ _ m 0 [] a res rs false ok u); eauto.
    + destruct (Hs (join (pa_rel a) (pa_name a))) as (es & Se). destruct (scan_dir store clists sort 0 a es (m_u m)) as [res u] eqn:E.
      eexists. eapply (M_scan _ _ _ _ _ _ _ _ _ m 0 [] a rs es res u); eauto.
  - intros w1 w2 reqs Wok Fl.
    assert (F1 : exists m1, maybe_flush flushes w1 m m1).
    { unfold maybe_flush. destruct (w1 && _) eqn:X; [|eauto]. apply andb_true_iff in X. destruct X as (X & _). destruct (Fl X) as (b' & ids & F). exists (with_u m (after_flush (m_u m) (fun l => l) b' ids)). eauto. }
    destruct F1 as (m1 & F1). set (m2 := with_u m1 (with_q (m_u m1) (match reqs with [] => u_q (m_u m1) | _ => snd (queue_prioritize mpt reqs (u_q (m_u m1))) end))).
    assert (Q : forall drain n m, (length (u_q (m_u m)) <= n)%nat -> exists m', queue_tasks store max_queued drain m m').
    { clear. intros drain n. induction n as [|n IH]; intros m L.
      - exists m. apply QT_stop. left. destruct (u_q (m_u m)); [reflexivity|cbn in L; lia].
      - destruct (queue_dequeue (accept_of drain) (u_q (m_u m))) as [[a q]|] eqn:D; [|exists m; apply QT_stop; auto].
        assert (Lq : (length q <= n)%nat). { apply dequeue_perm in D. apply Permutation_length in D. cbn in D. lia. }
        destruct (N.eq_dec (pa_type a) 1) as [T1|N1].
        + destruct (IH (mkm (with_q (m_u m) q) (m_run m ++ [RFile a]) (m_wait m) (m_status m) (m_failed m)) Lq) as (m' & X). exists m'. eapply QT_file; eauto.
        + destruct (N.eq_dec (pa_type a) 2) as [T2|N2].
          * destruct (get_or_create store 0 (join (pa_rel a) (pa_name a)) TDir true (fun i => i) (u_b (m_u m))) as [[e|c] b] eqn:E.
            -- destruct (IH (mkm (with_b (with_q (m_u m) q) b) (m_run m) (m_wait m) (m_status m) true) Lq) as (m' & X). exists m'. eapply QT_dir_error; eauto.
            -- destruct (IH (mkm (with_b (with_q (m_u m) q) b) (m_run m ++ [RDir a None]) (m_wait m) (m_status m) (m_failed m)) Lq) as (m' & X). exists m'. eapply QT_dir; eauto.
          * destruct (IH (mkm (with_q (m_u m) q) (m_run m) (m_wait m) (m_status m) true) Lq) as (m' & X). exists m'. eapply QT_other; eauto. }
    destruct (Q w2 _ m2 (le_n _)) as (m3 & Q3). exists m1, m3. split; [exact F1|]. split; [exact Q3|]. eapply M_queue; eauto.
    destruct (u_q (m_u m)) eqn:Eq; [|left; discriminate]. right. intros R. apply Nd. repeat split; auto.
Qed.

(** The only ways to wait for a task when there is none: queued assets could not be
    turned into tasks, or -- only with a push handler -- WantManifestFlushed became
    true between its two uses while only directories were queued and no task was in
    the pool.  So without a push handler Update returns. *)
Lemma queue_empty drain m m' : (0 < max_queued)%nat -> queue_tasks store max_queued drain m m' -> m_run m' = [] -> m_failed m' = false ->
  m' = m /\ queue_dequeue (accept_of drain) (u_q (m_u m)) = None.
Proof.
  intros Pm. induction 1 as [m St|m a q m' De Ta Q IH|m now a q c b m' De Ta Ec Q IH|m now a q e b m' De Ta Ec Q IH|m a q m' De T1 T2 Q IH]; intros R F.
  - split; [reflexivity|]. destruct St as [St|St]; [exact St|]. rewrite R in St. cbn in St. lia.
  - destruct (IH R F) as (-> & _). cbn in R. destruct (m_run m); discriminate.
  - destruct (IH R F) as (-> & _). cbn in R. destruct (m_run m); discriminate.
  - destruct (IH R F) as (-> & _). discriminate.
  - destruct (IH R F) as (-> & _). discriminate.
Qed.
Lemma dequeue_none drain q : queue_dequeue (accept_of drain) q = None -> q <> [] -> drain = true /\ Forall (fun a => pa_type a = 2) q.
Proof.
  intros D N. induction q as [|a q IH]; [easy|]. destruct drain; cbn in D; [|discriminate]. destruct (N.eqb_spec (pa_type a) 2) as [E|E]; cbn in D; [|discriminate].
  split; [reflexivity|]. constructor; [exact E|]. destruct q as [|x q]; [constructor|]. destruct (queue_dequeue (accept_of true) (x :: q)) as [[? ?]|] eqn:Dq; unfold accept_of in Dq; rewrite Dq in D; [discriminate|].
  apply IH; [reflexivity|discriminate].
Qed.

Theorem C31_hang_only_partial : forall m m', (0 < max_queued)%nat -> step m m' -> hangs m' ->
  m_failed m' = true \/ (push = true /\ m_run m = [] /\ u_q (m_u m) <> [] /\ Forall (fun a => pa_type a = 2) (u_q (m_u m'))).
Proof.
  intros m m' Pm St (W & R). destruct (m_failed m') eqn:Fa; [now left|right].
  destruct St as [m m1 m2 m3 w1 w2 reqs Wt Hw Wok Mf E2 Qt|m now r1 a r2 es res u Er Se Sd|m now r1 a r2 ck ok u Wt Er Ch Hf|m now r1 a res r2 late ok u Wt Er Hd]; try discriminate.
  - cbn [m_run m_failed] in R, Fa. destruct (queue_empty w2 m2 m3 Pm Qt R Fa) as (-> & D).
    assert (R1 : m_run m = [] /\ Permutation (map pkey (u_q (m_u m2))) (map pkey (u_q (m_u m)))).
    { assert (A : m_run m1 = m_run m /\ u_q (m_u m1) = u_q (m_u m)) by (unfold maybe_flush in Mf; destruct (w1 && _); [destruct Mf as (o & b' & ids & _ & ->)|subst]; auto).
      destruct A as (A & B). subst m2. cbn [with_u m_run m_u with_q u_q] in *. rewrite <- A. split; [exact R|]. rewrite <- B. destruct reqs; [reflexivity|apply prioritize_perm]. }
    destruct R1 as (R1 & P). destruct Hw as [Hw|Hw]; [|contradiction].
    assert (Nq : u_q (m_u m2) <> []). { intros X. rewrite X in P. apply Permutation_nil in P. apply Hw. now apply map_eq_nil in P. }
    destruct (dequeue_none _ _ D Nq) as (-> & Fd). split; [|auto]. destruct Wok as (Wp & _). destruct push; [reflexivity|]. destruct (Wp eq_refl). discriminate.
  - cbn [m_run] in R. destruct r1; discriminate.
Qed.
End C31.

(** * A run: the source has a directory d and a file f *)
Definition ex_src (p : path) : option snode :=
  match p with [] => Some (SDir 5) | [[100]] => Some (SDir 6) | [[102]] => Some (SFile 7 [1; 2]) | _ => None end.
Definition ex_entries : list sentry := [mksentry [102] 7 2 false; mksentry [100] 6 0 true].
Definition ex_search (s : bytes) (r : option (list sentry)) : Prop := r = match s with [] => Some ex_entries | [100] => Some [] | _ => None end.
Definition ex_chunked : chunked := mkchunked 2 [mkref 0 [5]] false.
Definition ex_chunk (s : bytes) (r : option chunked) : Prop := r = Some ex_chunked.
Definition ex_truth (id : cid) : option bytes := match id with [5] => Some [1; 2] | _ => None end.
Definition ex_none {A B} (_ : A) : option B := None.
Definition ex_sort : list ainfo -> list ainfo := stable_sort ai_path.

Definition asset_dec : forall a b : asset, {a = b} + {a <> b}.
Proof.
  fix F 1. intros [n i ds ids] [n' i' ds' ids']. assert (C : forall x y : cid, {x = y} + {x <> y}) by (apply list_eq_dec, N.eq_dec).
  destruct (C n n') as [->|]; [|right; congruence]. destruct (info_dec i i') as [->|]; [|right; congruence].
  destruct (list_eq_dec C ids ids') as [->|]; [|right; congruence].
  destruct (list_eq_dec F ds ds') as [->|]; [left; reflexivity|right; congruence].
Defined.

Lemma msteps_cons store clists sort search chunk fl push mq mpt m m1 m2 :
  mstep store clists sort search chunk fl push mq mpt m m1 -> msteps store clists sort search chunk fl push mq mpt m1 m2 -> msteps store clists sort search chunk fl push mq mpt m m2.
Proof. intros A B. induction B as [m1|m1 m3 m4 B IH C]; [eapply msteps_step; [apply msteps_refl|exact A]|]. eapply msteps_step; [apply IH; exact A|exact C]. Qed.

Definition ex_dir (n : bytes) (mt : N) : info := mkinfo TDir mt 493 (mkfp 0 [] []) [] false.
Definition ex_root : asset :=
  Asset [] (ex_dir [] 5) [Asset [100] (ex_dir [100] 6) [] []; Asset [102] (mkinfo TFile 7 420 (mkfp 2 [mkref 0 [5]] []) [] false) [] []] [].
Definition ex_put_root (r : asset) : option cid := if asset_dec r ex_root then Some [9] else None.
Definition ex_store_root (id : cid) : option asset := match id with [9] => Some ex_root | _ => None end.
Definition ex_fl := flushing ex_none ex_none ex_none ex_put_root (fun l => l) 0.
Definition ex_b : builder := mkb None (fun _ => None).

Ltac run_task := vm_compute; reflexivity.
Ltac tidy_state := match goal with |- msteps _ _ _ _ _ _ _ _ _ ?m _ => let m' := eval vm_compute in m in change m with m' end.
Example C30_example_run : exists m0 m b' log,
  start ex_none ex_fl false (update_all_ops 5) true ex_b fcmap_init m0 /\
  msteps ex_none ex_none ex_sort ex_search ex_chunk ex_fl false 2 0%Z m0 m /\ loop_done m /\ m_failed m = false /\
  flush ex_none 1 ex_none ex_none ex_put_root (fun l => l) 0 3 (u_b (m_u m)) = Ok ([9], b', log) /\
  separate ex_none (b_lists (u_b (m_u m))) (root_of 1 (u_b (m_u m))) log.
Proof.
  eexists _, _, _, _. split; [eapply (Start_no_flush _ _ _ _ _ _ _ 1 _ true); [run_task|now left]|]. split.
  { tidy_state. eapply msteps_cons.
    { eapply (M_queue _ _ _ _ _ _ _ _ _ _ _ _ _ false false []); [reflexivity|left; discriminate|split; [auto|discriminate]|reflexivity|reflexivity|].
      eapply (QT_dir _ _ _ _ 1); [run_task|reflexivity|run_task|]. apply QT_stop. left. reflexivity. }
    tidy_state. eapply msteps_cons. { eapply (M_scan _ _ _ _ _ _ _ _ _ _ 1 []); [reflexivity|reflexivity|run_task]. }
    tidy_state. eapply msteps_cons. { eapply (M_dir _ _ _ _ _ _ _ _ _ _ 1 [] _ _ _ false); [reflexivity|reflexivity|run_task]. }
    tidy_state. eapply msteps_cons.
    { eapply (M_queue _ _ _ _ _ _ _ _ _ _ _ _ _ false false []); [reflexivity|left; discriminate|split; [auto|discriminate]|reflexivity|reflexivity|].
      eapply (QT_dir _ _ _ _ 1); [run_task|reflexivity|run_task|]. eapply QT_file; [run_task|reflexivity|]. apply QT_stop. left. reflexivity. }
    tidy_state. eapply msteps_cons. { eapply (M_file _ _ _ _ _ _ _ _ _ _ 1 [RDir _ None]); [reflexivity|reflexivity|reflexivity|run_task]. }
    tidy_state. eapply msteps_cons. { eapply (M_scan _ _ _ _ _ _ _ _ _ _ 1 []); [reflexivity|reflexivity|run_task]. }
    tidy_state. eapply msteps_cons.
    { eapply (M_queue _ _ _ _ _ _ _ _ _ _ _ _ _ false false []); [reflexivity|right; discriminate|split; [auto|discriminate]|reflexivity|reflexivity|].
      apply QT_stop. left. reflexivity. }
    tidy_state. eapply msteps_cons. { eapply (M_dir _ _ _ _ _ _ _ _ _ _ 1 [] _ _ _ false); [reflexivity|reflexivity|run_task]. }
    tidy_state. apply msteps_refl. }
  split; [repeat split|]. split; [reflexivity|]. split; [run_task|].
  constructor; intros; contradiction.
Qed.

(** The other hypotheses of C30_update_all and C32 hold for this run. *)
Lemma ex_src_paths p : ex_src p <> None -> p = [] \/ p = [[100]] \/ p = [[102]].
Proof. unfold ex_src. intros H. repeat (match type of H with match ?x with _ => _ end <> _ => destruct x; auto; try (now elim H) end). Qed.
Lemma ex_source : source_tree ex_src.
Proof.
  constructor.
  - exists 5. reflexivity.
  - intros p H. apply ex_src_paths in H. destruct H as [->|[->| ->]]; repeat constructor; try discriminate; cbn; intuition discriminate.
  - intros p n H. apply ex_src_paths in H. destruct H as [H|[H|H]]; [destruct p; discriminate| |]; (destruct p as [|m p]; [exists 5; reflexivity|destruct p; discriminate]).
Qed.
Lemma ex_src_dir p mt : ex_src p = Some (SDir mt) -> p = [] /\ mt = 5 \/ p = [[100]] /\ mt = 6.
Proof. unfold ex_src. intros H. repeat (match type of H with match ?x with _ => _ end = _ => destruct x; try discriminate H end); inversion H; auto. Qed.
Lemma ex_src_file p mt c : ex_src p = Some (SFile mt c) -> p = [[102]] /\ mt = 7 /\ c = [1; 2].
Proof. unfold ex_src. intros H. repeat (match type of H with match ?x with _ => _ end = _ => destruct x; try discriminate H end); inversion H; auto. Qed.
Lemma ex_src_child n : ex_src [n] <> None -> n = [100] \/ n = [102].
Proof. intros H. apply ex_src_paths in H. destruct H as [H|[H|H]]; inversion H; auto. Qed.
Lemma ex_reads_dirs : reads_dirs ex_search ex_src.
Proof.
  intros p mt es S Se. apply ex_src_dir in S. destruct S as [(-> & ->)|(-> & ->)]; unfold ex_search in Se; cbn in Se; inversion Se; subst es; clear Se.
  - split; [cbn; repeat constructor; cbn; intuition discriminate|]. split.
    + intros e [<-|[<-|[]]]; eexists; (split; [reflexivity|cbn; auto]).
    + intros n H. apply ex_src_child in H. cbn. destruct H as [->| ->]; auto.
  - split; [constructor|]. split; [easy|]. intros n H. now elim H.
Qed.
Lemma ex_reads_files : reads_files ex_truth ex_none ex_chunk ex_src.
Proof.
  intros p mt c k S Ck. apply ex_src_file in S. destruct S as (-> & -> & ->). inversion Ck; subst k. split; [|reflexivity].
  exists [[1; 2]], []. cbn [ex_chunked ck_size ck_refs fp_chunks fp_ind fp_size]. split; [apply (layout_cons ex_truth (mkref 0 [5]) [] [1; 2] []); [reflexivity|constructor]|].
  split; [constructor|]. split; [reflexivity|]. split; [reflexivity|reflexivity].
Qed.
Lemma ex_put r id : ex_put_root r = Some id -> ex_store_root id = Some r.
Proof. unfold ex_put_root. destruct (asset_dec r ex_root) as [->|]; [|discriminate]. intros H. inversion H. reflexivity. Qed.
Lemma ex_nodes now p d : node ex_none (fun _ => None) (new_asset now [] TDir) p = Some d -> p = [] /\ d = new_asset now [] TDir.
Proof. destruct p as [|n p]; intros H; [inversion H; auto|discriminate]. Qed.
Lemma ex_tidy : btidy ex_none 0 ex_b /\ (forall p, bview ex_none 0 ex_b p <> None -> Forall good_name p) /\ trustworthy ex_truth ex_none (bview ex_none 0 ex_b) ex_src.
Proof.
  split; [split; [reflexivity|]; constructor|split].
  - intros p d N _. apply ex_nodes in N. destruct N as (-> & ->). constructor.
  - intros p d N _. apply ex_nodes in N. destruct N as (-> & ->). constructor.
  - intros p q d e id N _ _ _ I _. apply ex_nodes in N. destruct N as (-> & ->). destruct I.
  - intros p d id c r e id' N _ I. apply ex_nodes in N. destruct N as (-> & ->). destruct I.
  - intros [|n p] H; [constructor|now elim H].
  - intros [|n p] i mt c V S; [discriminate S|discriminate V].
Qed.
Example C30_example_result : manifest_matches ex_truth ex_none (bview ex_none 0 (mkb (Some ex_root) (fun _ => None))) ex_src.
Proof.
  destruct C30_example_run as (m0 & m & b' & log & St & Ru & Ld & Nf & F & Sep). destruct ex_tidy as (T & Nm & Tr).
  destruct (C30_update_all ex_none ex_truth ex_none ex_store_root ex_none ex_none ex_put_root (fun l => l) 0 (fun _ _ X => False_ind _ ltac:(discriminate X)) (fun _ _ X => False_ind _ ltac:(discriminate X)) ex_put
    (fun l => Permutation_refl l) ex_sort (stable_sort_sorts ai_path) ex_src ex_source ex_search ex_chunk ex_reads_dirs ex_reads_files false 2%nat 0%Z ex_b fcmap_init m0 5 m 1 3%nat [9] b' log eq_refl T Nm eq_refl Tr St Ru Ld Nf F Sep)
    as (b2 & L & M & _). inversion L; subst b2. exact M.
Qed.

(** C44: the manifest that is stored after the root directory has been read.  d and f
    are marked as in progress, the root directory is not. *)
Definition mid_root : asset :=
  Asset [] (mkinfo TDir 5 493 (mkfp 0 [] []) [] false)
    [Asset [100] (mkinfo TDir 6 493 (mkfp 0 [] []) [] true) [] []; Asset [102] (mkinfo TFile 7 493 (mkfp 2 [] []) [] true) [] []] [].
Definition mid_put (r : asset) : option cid := if asset_dec r mid_root then Some [9] else None.
Definition mid_fl := flushing ex_none ex_none ex_none mid_put (fun l => l) 0.
Example C44_example : exists m0 m b' log,
  start ex_none mid_fl false (update_all_ops 5) true ex_b fcmap_init m0 /\
  msteps ex_none ex_none ex_sort ex_search ex_chunk mid_fl false 2 0%Z m0 m /\ m_failed m = false /\
  flush ex_none 1 ex_none ex_none mid_put (fun l => l) 0 3 (u_b (m_u m)) = Ok ([9], b', log) /\
  separate ex_none (b_lists (u_b (m_u m))) (root_of 1 (u_b (m_u m))) log.
Proof.
  eexists _, _, _, _. split; [eapply (Start_no_flush _ _ _ _ _ _ _ 1 _ true); [run_task|now left]|]. split.
  { tidy_state. eapply msteps_cons.
    { eapply (M_queue _ _ _ _ _ _ _ _ _ _ _ _ _ false false []); [reflexivity|left; discriminate|split; [auto|discriminate]|reflexivity|reflexivity|].
      eapply (QT_dir _ _ _ _ 1); [run_task|reflexivity|run_task|]. apply QT_stop. left. reflexivity. }
    tidy_state. eapply msteps_cons. { eapply (M_scan _ _ _ _ _ _ _ _ _ _ 1 []); [reflexivity|reflexivity|run_task]. }
    tidy_state. eapply msteps_cons. { eapply (M_dir _ _ _ _ _ _ _ _ _ _ 1 [] _ _ _ false); [reflexivity|reflexivity|run_task]. }
    tidy_state. apply msteps_refl. }
  split; [reflexivity|]. split; [run_task|].
  constructor; intros; contradiction.
Qed.

(** * Without the provisos the claims are false *)

(** C30: a file that has the same time and size is kept although its chunk list
    cannot be read; the comment in the code (manifest_updater.cc:276-284) says
    otherwise.  The file stays without contents. *)
Definition lost_file : info := mkinfo TFile 7 420 (mkfp 2 [] [(0, [8])]) [] false.
Definition lost_b : builder := mkb (Some (Asset [] (ex_dir [] 5) [Asset [102] lost_file [] []] [])) (fun _ => None).
Theorem C30_lost_chunk_list_refuted : exists ai ids s',
  scan_dir ex_none ex_none ex_sort 1 (mkpasset 2 [] [] false None) (Some [mksentry [102] 7 2 false]) (mku lost_b fcmap_init [] []) = (Some ([(KKeep, ai)], ids), s') /\
  ai_path ai = [102] /\ ai_chunks ai = [] /\ bview ex_none 1 lost_b [[102]] = Some lost_file /\
  (forall content, ~ describes ex_truth ex_none (i_file lost_file) content).
Proof.
  eexists _, _, _. split; [vm_compute; reflexivity|]. split; [reflexivity|]. split; [reflexivity|]. split; [vm_compute; reflexivity|].
  intros c (d & i & _ & I & _). cbn [lost_file i_file fp_ind] in I. inversion I; subst. discriminate.
Qed.

(** C30: when a directory vanishes, the chunks of the files in it stay known. *)
Definition gone_fc : fcmap := fcrun [OInit [100; 47; 102] 2 [([5], 0)]; OFlush (fun l => l)].
Definition gone_b : builder :=
  mkb (Some (Asset [] (ex_dir [] 5) [Asset [100] (ex_dir [100] 6) [Asset [102] (mkinfo TFile 7 420 (mkfp 2 [mkref 0 [5]] []) [] false) [] []] []] [])) (fun _ => None).
Theorem C30_deleted_directory_chunks_refuted : exists ops ids s1 s2,
  scan_dir ex_none ex_none ex_sort 1 (mkpasset 2 [] [] false None) (Some []) (mku gone_b gone_fc [] []) = (Some (ops, ids), s1) /\
  handle_dir ex_none 1 (mkpasset 2 [] [] false None) (Some (ops, ids)) false s1 = (true, s2) /\
  bview ex_none 1 (u_b s2) [[100]; [102]] = None /\
  ModelChunkMap.find_chunk (fcstep (u_fc s2) (OFlush (fun l => l))) [5] = Ok (Some ([100; 47; 102], 0, 2)).
Proof. eexists _, _, _, _. split; [vm_compute; reflexivity|]. split; [vm_compute; reflexivity|]. split; vm_compute; reflexivity. Qed.

(** C31: Update hangs if WantManifestFlushed becomes true between its two uses while
    only directories are queued.  The source has a directory d. *)
Definition dir_search (s : bytes) (r : option (list sentry)) : Prop := r = match s with [] => Some [mksentry [100] 6 0 true] | _ => Some [] end.
Definition any_put (_ : asset) : option cid := Some [9].
Definition any_fl := flushing ex_none ex_none ex_none any_put (fun l => l) 0.
Theorem C31_hang_refuted : exists m0 m,
  start ex_none any_fl true (update_all_ops 5) true ex_b fcmap_init m0 /\
  msteps ex_none ex_none ex_sort dir_search ex_chunk any_fl true 2 0%Z m0 m /\ m_failed m = false /\ hangs m /\
  forall m', ~ mstep ex_none ex_none ex_sort dir_search ex_chunk any_fl true 2 0%Z m m'.
Proof.
  eexists _, _. split.
  { eapply (Start_flush _ _ _ _ _ _ _ 1 _ true (fun l => l)); [run_task|reflexivity|vm_compute; discriminate|]. exists 1, 3%nat, [9], []. split; [run_task|]. split; [|reflexivity]. constructor; intros; contradiction. }
  split.
  { tidy_state. eapply msteps_cons.
    { eapply (M_queue _ _ _ _ _ _ _ _ _ _ _ _ _ false false []); [reflexivity|left; discriminate|split; [auto|discriminate]|reflexivity|reflexivity|].
      eapply (QT_dir _ _ _ _ 1); [run_task|reflexivity|run_task|]. apply QT_stop. left. reflexivity. }
    tidy_state. eapply msteps_cons. { eapply (M_scan _ _ _ _ _ _ _ _ _ _ 1 []); [reflexivity|reflexivity|run_task]. }
    tidy_state. eapply msteps_cons. { eapply (M_dir _ _ _ _ _ _ _ _ _ _ 1 [] _ _ _ false); [reflexivity|reflexivity|run_task]. }
    tidy_state. eapply msteps_cons.
    { eapply (M_queue _ _ _ _ _ _ _ _ _ _ _ _ _ false true []); [reflexivity|left; discriminate|split; [discriminate|discriminate]|reflexivity|reflexivity|].
      apply QT_stop. left. reflexivity. }
    tidy_state. apply msteps_refl. }
  split; [reflexivity|]. split; [split; reflexivity|].
  intros m' St. inversion St; subst; cbn [m_run m_wait] in *; try discriminate; destruct r1; discriminate.
Qed.

(** C32: a scan fails, but the last task succeeds.  Then Prune is called, and does not
    keep the asset list of the directory that could not be read, to which the
    manifest still refers. *)
Definition one_list (id : cid) : option (list asset) := match id with [1] => Some [Asset [120] (mkinfo TFile 7 420 (mkfp 2 [mkref 0 [5]] []) [] false) [] []] | _ => None end.
Definition kept_b : builder := mkb (Some (Asset [] (ex_dir [] 5) [Asset [100] (ex_dir [100] 6) [] [[1]]] [])) (fun _ => None).
Definition fail_search (s : bytes) (r : option (list sentry)) : Prop := r = match s with [] => Some ex_entries | _ => None end.
Definition list_fl := flushing one_list ex_none ex_none any_put (fun l => l) 0.
Lemma finish_some (fl : builder -> builder -> list cid -> Prop) sid m b' ids : m_status m = true -> loop_done m -> fl (u_b (m_u m)) b' ids -> finish fl true sid m b' (Some (u_ids (m_u m) ++ ids ++ [sid])).
Proof. intros S L F. pose proof (Finish fl true sid m b' ids L F) as X. rewrite S in X. exact X. Qed.
Theorem C32_prune_after_failure_refuted : exists m0 m b' K,
  start one_list list_fl false (update_all_ops 5) true kept_b fcmap_init m0 /\
  msteps one_list ex_none ex_sort fail_search ex_chunk list_fl false 2 0%Z m0 m /\ finish list_fl true [7] m b' (Some K) /\
  (exists d, node one_list (b_lists b') (root_of 0 b') [[100]] = Some d /\ a_type d = TDir /\ In [1] (a_ind d)) /\ one_list [1] <> None /\ ~ In [1] K.
Proof.
  eexists _, _, _, [[9]; [7]]. split; [eapply (Start_no_flush _ _ _ _ _ _ _ 1 _ true); [run_task|now left]|]. split.
  { tidy_state. eapply msteps_cons.
    { eapply (M_queue _ _ _ _ _ _ _ _ _ _ _ _ _ false false []); [reflexivity|left; discriminate|split; [auto|discriminate]|reflexivity|reflexivity|].
      eapply (QT_dir _ _ _ _ 1); [run_task|reflexivity|run_task|]. apply QT_stop. left. reflexivity. }
    tidy_state. eapply msteps_cons. { eapply (M_scan _ _ _ _ _ _ _ _ _ _ 1 []); [reflexivity|reflexivity|run_task]. }
    tidy_state. eapply msteps_cons. { eapply (M_dir _ _ _ _ _ _ _ _ _ _ 1 [] _ _ _ false); [reflexivity|reflexivity|run_task]. }
    tidy_state. eapply msteps_cons.
    { eapply (M_queue _ _ _ _ _ _ _ _ _ _ _ _ _ false false []); [reflexivity|left; discriminate|split; [auto|discriminate]|reflexivity|reflexivity|].
      eapply (QT_dir _ _ _ _ 1); [run_task|reflexivity|run_task|]. eapply QT_file; [run_task|reflexivity|]. apply QT_stop. left. reflexivity. }
    tidy_state. eapply msteps_cons. { eapply (M_scan _ _ _ _ _ _ _ _ _ _ 1 []); [reflexivity|reflexivity|run_task]. }
    tidy_state. eapply msteps_cons. { eapply (M_dir _ _ _ _ _ _ _ _ _ _ 1 [] _ _ _ false); [reflexivity|reflexivity|run_task]. }
    tidy_state. eapply msteps_cons.
    { eapply (M_queue _ _ _ _ _ _ _ _ _ _ _ _ _ false false []); [reflexivity|right; discriminate|split; [auto|discriminate]|reflexivity|reflexivity|].
      apply QT_stop. left. reflexivity. }
    tidy_state. eapply msteps_cons. { eapply (M_file _ _ _ _ _ _ _ _ _ _ 1 []); [reflexivity|reflexivity|reflexivity|run_task]. }
    tidy_state. apply msteps_refl. }
  split.
  { match goal with |- finish _ _ _ ?m ?b _ => refine (finish_some list_fl [7] m b [[9]] _ _ _) end; [reflexivity|repeat split|]. exists 1, 3%nat, [9], []. split; [run_task|]. split; [|reflexivity]. constructor; intros; contradiction. }
  split; [eexists; split; [vm_compute; reflexivity|split; [reflexivity|now left]]|]. split; [discriminate|]. vm_compute. intuition discriminate.
Qed.

(** The bounds of C31_bounded_steps hold for the first example. *)
Example C31_example_bounded : forall m0, start ex_none ex_fl false (update_all_ops 5) true ex_b fcmap_init m0 ->
  exists bound, forall n m, nsteps ex_none ex_none ex_sort ex_search ex_chunk ex_fl false 2 0%Z n m0 m -> (n <= bound)%nat.
Proof.
  intros m0 St. eapply (C31_bounded_steps ex_none ex_none ex_sort (stable_sort_sorts ai_path) ex_search ex_chunk ex_fl false 2 0%Z 2 1); [| |exact St].
  - intros p es G Se. unfold ex_search in Se. destruct p as [|n p].
    + cbn in Se. inversion Se; subst es. split; [cbn; lia|]. intros e [<-|[<-|[]]]; (split; [split; [discriminate|cbn; intuition discriminate]|cbn; lia]).
    + destruct (pstr (n :: p)) as [|x l] eqn:E; [exfalso; now apply (pstr_nonempty (n :: p) G)|].
      assert (es = []). { repeat (match type of Se with Some _ = match ?z with _ => _ end => destruct z; try discriminate Se end); now inversion Se. }
      subst es. split; [cbn; lia|easy].
  - intros k ai [E|[]]. inversion E; subst. exists []. repeat split; [constructor|cbn; lia].
Qed.
