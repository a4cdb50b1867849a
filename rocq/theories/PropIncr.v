(** C50: updating the manifest from reported changes. *)
From Verif Require Import Base ListX Str ModelText ModelPath SpecPath ModelCdc ModelChunkMap ModelProvider ModelAsset SpecAsset ModelFileDiff SpecFileDiff
  ModelManifest SpecManifest ProofManifest ProofTree PropManifest ProofAtDir ProofFlush PropFlush ModelUpdater SpecUpdater ProofUpdater ProofUpdEffect ProofUpdScan ProofUpdApply ProofUpdMachine ProofUpdRun PropUpdater
  SpecWatch ProofIncr ProofIncrRun.
From Coq Require Import Permutation.
Local Open Scope N_scope.

Section C50.
(** The data store returns what was put into it. *)
Context (store : cid -> option (list asset)) (truth : cid -> option bytes) (clists : cid -> option (list cref)) (store_root : cid -> option asset)
  (put : list asset -> option cid) (put_chunks : list cref -> option cid) (put_root : asset -> option cid)
  (sort_desc : list asset -> list asset) (max_size : N).
Context (Hput : forall l id, put l = Some id -> store id = Some l) (Hputc : forall l id, put_chunks l = Some id -> clists id = Some l)
  (Hputr : forall r id, put_root r = Some id -> store_root id = Some r) (Hsortd : forall l, Permutation l (sort_desc l)).
Notation fl := (flushing store put put_chunks put_root sort_desc max_size).

Lemma flushing_keeps : flush_keeps store fl.
Proof.
  intros b b' ids (now & fuel & id & log & F & Sep & ->) R T Sa. assert (T' : btidy store now b) by (unfold btidy in *; now rewrite (root_now b now R)).
  destruct (flush_facts store truth clists store_root put put_chunks put_root sort_desc max_size Hput Hputc Hputr Hsortd now fuel b id b' log T' F Sep) as (_ & _ & _ & _ & K & R' & _).
  unfold stored_all in *. rewrite (root_now b now R), (root_now b' now R') in K. auto.
Qed.

(** Who loads the flushed manifest gets the same tree. *)
Lemma flush_loaded now fuel b id b' log : flush store now put put_chunks put_root sort_desc max_size fuel b = Ok (id, b', log) ->
  separate store (b_lists b) (root_of now b) log -> b_root b <> None -> btidy store 0 b -> stored_all store b ->
  exists b2, load_manifest store_root id = Some b2 /\ b_root b2 <> None /\ b_lists b2 = (fun _ => None) /\ btidy store 0 b2 /\ stored_all store b2 /\
    same_tree truth clists (bview store 0 b) (bview store 0 b2).
Proof.
  intros F Sep R T Sa. assert (T' : btidy store now b) by (unfold btidy in *; now rewrite (root_now b now R)).
  destruct (flush_facts store truth clists store_root put put_chunks put_root sort_desc max_size Hput Hputc Hputr Hsortd now fuel b id b' log T' F Sep) as ((b2 & L & S & Tb) & _ & _ & Sv & K & R' & _).
  assert (E : exists root, b_root b' = Some root /\ b2 = mkb (Some root) (fun _ => None)).
  { unfold flush in F. apply bind_ok in F. destruct F as ([root s] & _ & F). destruct (put_root root) as [rid|] eqn:P; [|discriminate]. inversion F; subst.
    exists root. split; [reflexivity|]. unfold load_manifest in L. rewrite (Hputr _ _ P) in L. now inversion L. }
  destruct E as (root & Er & ->). exists (mkb (Some root) (fun _ => None)).
  split; [exact L|]. split; [discriminate|]. split; [reflexivity|]. split; [exact Tb|]. split.
  - rewrite (root_now b now R) in K. specialize (K Sa). unfold stored_all, root_of in *. cbn [b_root b_lists] in *. rewrite Er in *.
    intros p d id0 N. rewrite <- (saved_node store (b_lists b') root Sv p) in N. exact (K p d id0 N).
  - intros p. specialize (S p). unfold bview in *. rewrite (root_now b now R) in S. exact S.
Qed.

Context (sort : list ainfo -> list ainfo) (src : path -> option snode) (Hsrc : source_tree src).
Context (search : bytes -> option (list sentry) -> Prop) (chunk : bytes -> option chunked -> Prop).

(** Reading the file at [q] succeeds and yields its content in chunks. *)
Definition reads_file (q : path) : Prop := forall mt c r, src q = Some (SFile mt c) -> chunk (pstr q) r ->
  exists k, r = Some k /\ describes truth clists (mkfp (ck_size k) (ck_refs k) []) c /\ ck_exec k = is_executable c.

(** The last Update left a manifest [b] in the store.  Update is called with operations
    that are true of the source, in any order and with either separator.  When it is
    done and the new manifest is loaded: every path that was right before, and every
    path that the operations tell about, is right -- if it is a file, provided that it
    could be read; no entry is marked as in progress; and entries that no operation
    concerns are as before. *)
Theorem C50_incremental_update : forall push max_queued mpt ops b fc m0 m now fuel id b' log,
  true_of src ops -> b_root b <> None -> btidy store 0 b -> in_store store (b_lists b) (root_of 0 b) ->
  (forall q i, bview store 0 b q = Some i -> i_progress i = false) ->
  start store fl push ops false b fc m0 ->
  msteps store clists sort search chunk fl push max_queued mpt m0 m -> loop_done m ->
  flush store now put put_chunks put_root sort_desc max_size fuel (u_b (m_u m)) = Ok (id, b', log) ->
  separate store (b_lists (u_b (m_u m))) (root_of now (u_b (m_u m))) log ->
  exists b2, load_manifest store_root id = Some b2 /\
    b_root b2 <> None /\ btidy store 0 b2 /\ in_store store (b_lists b2) (root_of 0 b2) /\
    (forall q, entry_matches truth clists (bview store 0 b q) (src q) \/ told src ops q -> reads_file q ->
       entry_matches truth clists (bview store 0 b2 q) (src q)) /\
    (forall q i, bview store 0 b2 q = Some i -> i_progress i = false) /\
    (forall q, (forall o, In o ops -> ~ concerns o q) -> same_entry truth clists (bview store 0 b q) (bview store 0 b2 q)).
Proof.
  intros push mq mpt ops b fc m0 m now fuel id b' log Tr R T Sa Pg St Ru (Lw & Lq & Lr) F Sep.
  assert (Fg : flush_good store clists truth fl) by (apply (flushing_good store truth clists store_root put put_chunks put_root sort_desc max_size); assumption).
  pose proof flushing_keeps as Fk.
  set (wanted := fun q => (entry_matches truth clists (bview store 0 b q) (src q) \/ told src ops q) /\ reads_file q).
  set (still := fun q => forall o, In o ops -> ~ concerns o q).
  assert (Hread : forall q mt c r, wanted q -> src q = Some (SFile mt c) -> chunk (pstr q) r ->
    exists k, r = Some k /\ describes truth clists (mkfp (ck_size k) (ck_refs k) []) c /\ ck_exec k = is_executable c) by (intros q mt c r (_ & W); apply W).
  assert (I0 : finv store clists truth src wanted still (bview store 0 b) m0).
  { eapply (fin_start store clists truth src Hsrc fl push Fg Fk wanted still (bview store 0 b) b fc m0 ops); auto. intros q (W & _). exact W. }
  assert (I : finv store clists truth src wanted still (bview store 0 b) m).
  { eapply fin_run; eassumption. }
  destruct I as (ps & P & C). unfold keys in P. rewrite Lq, Lr in P. cbn in P. apply Permutation_nil in P. apply map_eq_nil in P. subst ps. destruct C as [A B S _ _ _ G H K].
  destruct (flush_loaded now fuel (u_b (m_u m)) id b' log F Sep A B S) as (b2 & L & R2 & _ & T2 & S2 & Sm).
  exists b2. repeat (split; [assumption|]). split; [|split].
  - intros q W Rd. destruct (G q (conj W Rd)) as [[]|X]. exact (matches_same store clists truth _ _ _ (Sm q) X).
  - intros q j V. pose proof (Sm q) as Sq. rewrite V in Sq. destruct (bview store 0 (u_b (m_u m)) q) as [i|] eqn:Vi; [|destruct Sq]. destruct Sq as (_ & _ & _ & _ & S5 & _).
    destruct (i_progress j) eqn:Pj; [|reflexivity]. destruct (H q i Vi). congruence.
  - intros q W. destruct (K q W) as (_ & X). eapply same_trans; [exact X|apply Sm].
Qed.

(** Manifests stored while Update is running: what is not marked as in progress is
    right. *)
Theorem C50_intermediate_manifest : forall push max_queued mpt ops b fc m0 m now fuel id b' log,
  true_of src ops -> b_root b <> None -> btidy store 0 b -> in_store store (b_lists b) (root_of 0 b) ->
  (forall q i, bview store 0 b q = Some i -> i_progress i = false) ->
  start store fl push ops false b fc m0 ->
  msteps store clists sort search chunk fl push max_queued mpt m0 m ->
  flush store now put put_chunks put_root sort_desc max_size fuel (u_b (m_u m)) = Ok (id, b', log) ->
  separate store (b_lists (u_b (m_u m))) (root_of now (u_b (m_u m))) log ->
  exists b2, load_manifest store_root id = Some b2 /\
    forall q, entry_matches truth clists (bview store 0 b q) (src q) \/ told src ops q -> reads_file q ->
      (forall i, bview store 0 b2 q = Some i -> i_progress i = false) -> entry_matches truth clists (bview store 0 b2 q) (src q).
Proof.
  intros push mq mpt ops b fc m0 m now fuel id b' log Tr R T Sa Pg St Ru F Sep.
  assert (Fg : flush_good store clists truth fl) by (apply (flushing_good store truth clists store_root put put_chunks put_root sort_desc max_size); assumption).
  pose proof flushing_keeps as Fk.
  set (wanted := fun q => (entry_matches truth clists (bview store 0 b q) (src q) \/ told src ops q) /\ reads_file q).
  assert (Hread : forall q mt c r, wanted q -> src q = Some (SFile mt c) -> chunk (pstr q) r ->
    exists k, r = Some k /\ describes truth clists (mkfp (ck_size k) (ck_refs k) []) c /\ ck_exec k = is_executable c) by (intros q mt c r (_ & W); apply W).
  assert (I0 : finv store clists truth src wanted (fun _ => False) (bview store 0 b) m0).
  { eapply (fin_start store clists truth src Hsrc fl push Fg Fk wanted (fun _ => False) (bview store 0 b) b fc m0 ops); auto; try easy. intros q (W & _). exact W. }
  assert (I : finv store clists truth src wanted (fun _ => False) (bview store 0 b) m) by (eapply fin_run; eassumption).
  destruct I as (ps & _ & [A B S _ _ Ty G H K]).
  destruct (flush_loaded now fuel (u_b (m_u m)) id b' log F Sep A B S) as (b2 & L & _ & _ & _ & _ & Sm).
  exists b2. split; [exact L|]. intros q W Rd Np. destruct (G q (conj W Rd)) as [I|X]; [|exact (matches_same store clists truth _ _ _ (Sm q) X)].
  exfalso. destruct (Ty q I) as (i & mt & c & V & _ & _ & _ & Pi). pose proof (Sm q) as Sq. rewrite V in Sq. destruct (bview store 0 b2 q) as [j|] eqn:Vj; [|destruct Sq].
  destruct Sq as (_ & _ & _ & _ & S5 & _). specialize (Np j eq_refl). congruence.
Qed.

(** Applying the operations does not fail, and Update then never waits for a task when
    there is none: together with C31_bounded_steps and C31_progress it returns. *)
Lemma deletes_succeed now : forall ops last s, b_root (u_b s) <> None -> btidy store now (u_b s) -> in_store store (b_lists (u_b s)) (root_of now (u_b s)) ->
  (forall o, In o ops -> exists P, names_path (ai_path (snd o)) P) -> exists s', apply_deletes store now ops last s = (None, s').
Proof.
  induction ops as [|[k ai] ops IH]; intros last s R T S F; [cbn; eauto|].
  assert (F' : forall o, In o ops -> exists P, names_path (ai_path (snd o)) P) by (intros o I; apply F; now right).
  destruct k; cbn [apply_deletes]; auto. set (s1 := with_fc s (ORemove (ai_path ai))).
  destruct (match last with Some d => inside d (ai_path ai) | None => false end); [apply IH; auto|].
  destruct (delete_asset store now (ai_path ai) (u_b s1)) as [r b] eqn:E. destruct (F _ (or_introl eq_refl)) as (P & HP). cbn [snd] in HP.
  pose proof (C28_delete store now _ (u_b s1) _ _ T E) as (T1 & _ & X). cbv zeta in X. destruct r as [e|].
  - exfalso. rewrite (names_split _ _ HP) in X. destruct X as ([X|(_ & X)] & _); [now apply HP in X|]. apply X. intros p d id N Td I. right. exact (S p d id N Td I).
  - rewrite (names_del _ _ _ P) in E by exact HP. apply delete_eff in E; auto; [|apply HP]. destruct E as (_ & Be). apply IH; cbn [u_b with_b]; auto; [exact (be_root _ _ _ _ _ _ Be)|].
    intros p d id N Td I. destruct (be_own _ _ _ _ _ _ Be id p) as (d' & N' & Td' & I'); [exists d; auto|]. exact (S p d' id N' Td' I').
Qed.
Lemma updates_succeed now : forall ops s, b_root (u_b s) <> None -> btidy store now (u_b s) -> in_store store (b_lists (u_b s)) (root_of now (u_b s)) ->
  (forall o, In o ops -> exists P, names_path (ai_path (snd o)) P /\ says src P o) -> exists s', apply_updates store now ops None None false s = (None, s').
Proof.
  induction ops as [|[k ai] ops IH]; intros s R T S F; [cbn; eauto|].
  assert (F' : forall o, In o ops -> exists P, names_path (ai_path (snd o)) P /\ says src P o) by (intros o I; apply F; now right).
  destruct (F _ (or_introl eq_refl)) as (P & HP & Sy). cbn [snd] in HP.
  assert (Go : news_op (k, ai) = true -> exists c b, get_or_create store now (ai_path ai) (ai_type ai) true (set_fields false ai) (u_b s) = (inr c, b) /\
    b_root b <> None /\ btidy store now b /\ in_store store (b_lists b) (root_of now b)).
  { intros Nw. assert (Ty : ai_type ai = TFile \/ ai_type ai = TDir).
    { unfold says, news_op in *. cbn [fst snd] in *. destruct k, (src P) as [[]|]; try discriminate; try contradiction; destruct Sy; auto. }
    assert (Hf : forall i, i_type (set_fields false ai i) = i_type i) by (intros; apply set_fields_type).
    destruct (get_or_create store now (ai_path ai) (ai_type ai) true (set_fields false ai) (u_b s)) as [r b] eqn:E.
    pose proof (C28_create store now _ _ _ _ _ _ _ T Hf E) as (_ & _ & X). cbv zeta in X. destruct r as [e|c].
    - exfalso. rewrite (names_split _ _ HP) in X. destruct X as ([X|(_ & X)] & _).
      + unfold create_result in X. destruct P as [|n P]; [now apply HP|]. assert (Fo : (true && negb (type_eqb (ai_type ai) TUnknown)) = true) by (destruct Ty as [-> | ->]; reflexivity).
        rewrite Fo in X. cbn [negb] in X. rewrite andb_false_r in X. destruct (kept _ _ _); [discriminate|]. destruct (bview store now (u_b s) (n :: P)); [discriminate|]. destruct Ty as [Ty|Ty]; rewrite Ty in X; discriminate.
      + apply X. intros p d id N Td I. right. exact (S p d id N Td I).
    - exists c, b. split; [reflexivity|]. rewrite (names_goc _ _ _ P) in E by exact HP. apply create_eff in E; auto; [|apply HP]. destruct E as (Be & _). split; [exact (be_root _ _ _ _ _ _ Be)|]. split; [exact (be_tidy _ _ _ _ _ _ Be)|].
      intros p d id N Td I. destruct (be_own _ _ _ _ _ _ Be id p) as (d' & N' & Td' & I'); [exists d; auto|]. exact (S p d' id N' Td' I'). }
  destruct k; cbn [apply_updates]; auto.
  - destruct (Go eq_refl) as (c & b & -> & R1 & T1 & S1). apply IH; auto; destruct (in_progress_after store now false ai b); auto.
  - destruct (Go eq_refl) as (c & b & -> & R1 & T1 & S1). apply IH; auto; destruct (in_progress_after store now false ai b); auto.
Qed.
Theorem C50_operations_apply : forall now ops b fc,
  true_of src ops -> b_root b <> None -> btidy store 0 b -> in_store store (b_lists b) (root_of 0 b) ->
  exists u, apply_operations store now ops None None false (mku b fc [] []) = (None, u).
Proof.
  intros now ops b fc [_ Tr] R T S. assert (T' : btidy store now b) by (unfold btidy in *; now rewrite (root_now b now R)).
  assert (S' : in_store store (b_lists b) (root_of now b)) by (now rewrite (root_now b now R)).
  assert (Nm : forall o, In o ops -> exists P, names_path (ai_path (snd o)) P) by (intros o I; destruct (Tr o I) as (P & H & _); eauto).
  destruct (deletes_succeed now ops None (mku b fc [] []) R T' S' Nm) as (s1 & E1).
  destruct (deletes_flat store now ops None (mku b fc [] []) s1 R T' Nm ltac:(discriminate) E1) as (R1 & T1 & _ & _ & O1).
  destruct (updates_succeed now ops s1 R1 T1) as (u & E2); auto.
  { intros p d id N Td I. destruct (O1 id p) as (d' & N' & Td' & I'); [exists d; auto|]. exact (S' p d' id N' Td' I'). }
  exists u. unfold apply_operations. now rewrite E1.
Qed.

Theorem C50_never_hangs : forall push max_queued mpt ops b fc m0 m, (0 < max_queued)%nat ->
  true_of src ops -> b_root b <> None -> btidy store 0 b -> in_store store (b_lists b) (root_of 0 b) ->
  (forall q i, bview store 0 b q = Some i -> i_progress i = false) ->
  start store fl push ops false b fc m0 ->
  msteps store clists sort search chunk fl push max_queued mpt m0 m -> ~ hangs m.
Proof.
  intros push mq mpt ops b fc m0 m Pm Tr R T Sa Pg St Ru.
  assert (Fg : flush_good store clists truth fl) by (apply (flushing_good store truth clists store_root put put_chunks put_root sort_desc max_size); assumption).
  pose proof flushing_keeps as Fk.
  set (no := fun _ : path => False). assert (Hread : forall q mt c r, no q -> src q = Some (SFile mt c) -> chunk (pstr q) r ->
    exists k, r = Some k /\ describes truth clists (mkfp (ck_size k) (ck_refs k) []) c /\ ck_exec k = is_executable c) by (intros q mt c r []).
  assert (I0 : finv store clists truth src no no (bview store 0 b) m0).
  { eapply (fin_start store clists truth src Hsrc fl push Fg Fk no no (bview store 0 b) b fc m0 ops); auto; intros q []. }
  destruct Ru as [m|m m1 m2 Ru Sp]; [destruct St; intros (X & _); discriminate|].
  assert (I : finv store clists truth src no no (bview store 0 b) m1) by (eapply fin_run; eassumption).
  intros (W & E). destruct Sp as [m1 m3 m4 m5 w1 w2 reqs Wt Hw Wok Mf E2 Qt|m1 t r1 a r2 es res u Er Se Sd|m1 t r1 a r2 ck ok u Wt Er Ch Hf|m1 t r1 a res r2 late ok u Wt Er Hd]; try discriminate.
  2:{ cbn [m_run] in E. destruct r1; discriminate. }
  cbn [m_run] in E.
  assert (I4 : finv store clists truth src no no (bview store 0 b) m4 /\ m_run m4 = m_run m1 /\ Permutation (map pkey (u_q (m_u m4))) (map pkey (u_q (m_u m1)))).
  { destruct I as (ps & P & C).
    assert (A : m_run m3 = m_run m1 /\ u_q (m_u m3) = u_q (m_u m1) /\ fcore store clists truth src no no (bview store 0 b) (u_b (m_u m3)) ps).
    { unfold maybe_flush in Mf. destruct (w1 && _); [|subst m3; auto]. destruct Mf as (o & b1 & ids & Fl & ->). cbn. repeat (split; [reflexivity|]). eapply fcore_flush; eassumption. }
    destruct A as (A & B & C'). assert (Pq : Permutation (map pkey (u_q (m_u m4))) (map pkey (u_q (m_u m1)))).
    { subst m4. cbn [with_u m_run m_u with_q u_q]. rewrite <- B. destruct reqs; [reflexivity|apply prioritize_perm]. }
    split; [|split; [subst m4; exact A|exact Pq]]. exists ps. split; [unfold keys in *; rewrite Pq; subst m4; cbn [with_u m_run]; rewrite A; exact P|subst m4; exact C']. }
  destruct I4 as (I4 & Er & Pq).
  assert (Run : forall x y, queue_tasks store mq w2 x y -> (length (m_run x) <= length (m_run y))%nat).
  { clear. induction 1; cbn [m_run] in *; try rewrite app_length in *; cbn in *; lia. }
  destruct Qt as [x Stop|x a q y De Ta Q|x t a q c b0 y De Ta Ec Q|x t a q e b0 y De Ta Ec Q|x a q y De T1 T2 Q].
  - destruct Stop as [D|D]; [|rewrite E in D; cbn in D; lia].
    destruct Hw as [Hw|Hw]; [|congruence].
    assert (Nq : u_q (m_u x) <> []). { intros X. rewrite X in Pq. apply Permutation_nil in Pq. apply Hw. now apply map_eq_nil in Pq. }
    destruct (dequeue_none _ _ D Nq) as (_ & Fd). destruct I4 as (ps & P & _). destruct (u_q (m_u x)) as [|a q] eqn:Eq; [easy|].
    inversion Fd as [|? ? Ta _]; subst. assert (X : In (pkey a) (map key1 ps)) by (eapply Permutation_in; [exact P|]; unfold keys; rewrite Eq; now left).
    apply in_map_iff in X. destruct X as (z & Ez & _). unfold key1, pkey in Ez. congruence.
  - apply Run in Q. rewrite E in Q. cbn [m_run] in Q. rewrite app_length in Q. cbn in Q. lia.
  - apply Run in Q. rewrite E in Q. cbn [m_run] in Q. rewrite app_length in Q. cbn in Q. lia.
  - destruct I4 as (ps & P & _). assert (X : In (pkey a) (map key1 ps)) by (eapply Permutation_in; [exact P|]; unfold keys; apply in_or_app; left; apply in_map; eapply Permutation_in; [symmetry; apply (dequeue_perm _ _ _ _ De)|now left]).
    apply in_map_iff in X. destruct X as (z & Ez & _). unfold key1, pkey in Ez. congruence.
  - destruct I4 as (ps & P & _). assert (X : In (pkey a) (map key1 ps)) by (eapply Permutation_in; [exact P|]; unfold keys; apply in_or_app; left; apply in_map; eapply Permutation_in; [symmetry; apply (dequeue_perm _ _ _ _ De)|now left]).
    apply in_map_iff in X. destruct X as (z & Ez & _). unfold key1, pkey in Ez. congruence.
Qed.
End C50.
