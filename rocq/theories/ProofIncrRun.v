(** Runs of Update that do not scan directories. *)
From Verif Require Import Base ListX Str ModelText ModelPath SpecPath ModelCdc ModelChunkMap ModelProvider ModelAsset SpecAsset ModelFileDiff SpecFileDiff
  ModelManifest SpecManifest ProofManifest ProofTree PropManifest ProofAtDir ModelUpdater SpecUpdater ProofUpdater ProofUpdEffect ProofUpdScan ProofUpdApply ProofUpdMachine ProofUpdRun
  SpecWatch ProofIncr.
From Coq Require Import Permutation.
Local Open Scope N_scope.

Section IncrRun.
Context (store : cid -> option (list asset)) (clists : cid -> option (list cref)) (truth : cid -> option bytes) (sort : list ainfo -> list ainfo).
Context (src : path -> option snode) (Hsrc : source_tree src).
Context (search : bytes -> option (list sentry) -> Prop) (chunk : bytes -> option chunked -> Prop) (flushes : builder -> builder -> list cid -> Prop).
Context (push : bool) (max_queued : nat) (mpt : Z).
Context (Hflush : flush_good store clists truth flushes).
Notation bv := (bview store 0).
Definition stored_all (b : builder) : Prop := in_store store (b_lists b) (root_of 0 b).
Definition flush_keeps : Prop := forall b b' ids, flushes b b' ids -> b_root b <> None -> btidy store 0 b -> stored_all b -> stored_all b'.
Context (Hkeeps : flush_keeps).
Context (wanted still : path -> Prop) (old : path -> option info).
Context (Hread : forall q mt c r, wanted q -> src q = Some (SFile mt c) -> chunk (pstr q) r ->
  exists k, r = Some k /\ describes truth clists (mkfp (ck_size k) (ck_refs k) []) c /\ ck_exec k = is_executable c).

Definition key1 (P : path) : N * bytes := (1, pstr P).
Record fcore (b : builder) (ps : list path) : Prop := {
  f_root : b_root b <> None;
  f_tidy : btidy store 0 b;
  f_store : stored_all b;
  f_good : forall P, In P ps -> Forall good_name P;
  f_nodup : NoDup ps;
  f_file : forall P, In P ps -> exists i mt c, bv b P = Some i /\ src P = Some (SFile mt c) /\ i_type i = TFile /\ i_mtime i = mt /\ i_progress i = true;
  f_all : forall q, wanted q -> In q ps \/ entry_matches truth clists (bv b q) (src q);
  f_progress : forall q i, bv b q = Some i -> i_progress i = true -> In q ps;
  f_still : forall q, still q -> ~ In q ps /\ same_entry truth clists (old q) (bv b q) }.
Definition finv (m : mstate) : Prop := exists ps, Permutation (keys m) (map key1 ps) /\ fcore (u_b (m_u m)) ps.

Lemma fcore_perm b ps ps' : Permutation ps ps' -> fcore b ps -> fcore b ps'.
Proof.
  intros P [A B S C D E F G H]. assert (X : forall q, In q ps <-> In q ps') by (intros q; split; apply Permutation_in; [exact P|now symmetry]).
  constructor; auto.
  - intros q I. apply C. now apply X.
  - now rewrite <- P.
  - intros q I. apply E. now apply X.
  - intros q W. rewrite <- X. auto.
  - intros q i V Pg. rewrite <- X. eauto.
  - intros q W. rewrite <- X. auto.
Qed.

Lemma same_trans o1 o2 o3 : same_entry truth clists o1 o2 -> same_entry truth clists o2 o3 -> same_entry truth clists o1 o3.
Proof.
  unfold same_entry, same_info. destruct o1, o2, o3; try tauto. intros (A & B & C & D & E & F & G) (A' & B' & C' & D' & E' & F' & G').
  repeat (split; [congruence|]). auto.
Qed.
Lemma same_refl o : same_entry truth clists o o.
Proof. destruct o; cbn; [|exact I]. unfold same_info. repeat (split; [reflexivity|]). auto. Qed.

Lemma fcore_flush b b' ids ps : flushes b b' ids -> fcore b ps -> fcore b' ps.
Proof.
  intros Fl [A B S C D E F G H]. destruct (Hflush _ _ _ Fl A B) as (R' & T' & Sm & _). constructor; auto.
  - eapply Hkeeps; eassumption.
  - intros P I. destruct (E P I) as (i & mt & c & V & X & Y & Z & W). pose proof (Sm P) as Sp. rewrite V in Sp. destruct (bv b' P) as [j|]; [|destruct Sp].
    destruct Sp as (S1 & S2 & _ & _ & S5 & _). exists j, mt, c. repeat (split; [congruence|]). congruence.
  - intros q W. destruct (F q W) as [X|X]; [now left|right]. exact (matches_same store clists truth _ _ _ (Sm q) X).
  - intros q j V Pj. pose proof (Sm q) as Sq. rewrite V in Sq. destruct (bv b q) as [i|] eqn:Vi; [|destruct Sq]. destruct Sq as (_ & _ & _ & _ & S5 & _). apply (G q i Vi). congruence.
  - intros q W. destruct (H q W) as (X & Y). split; [exact X|]. eapply same_trans; [exact Y|apply Sm].
Qed.

Lemma fin_queue drain m m' : queue_tasks store max_queued drain m m' -> finv m -> finv m'.
Proof.
  assert (Ty : forall m a q, finv m -> queue_dequeue (accept_of drain) (u_q (m_u m)) = Some (a, q) -> pa_type a = 1).
  { intros m0 a q (ps & P & _) De. assert (I : In (pkey a) (map key1 ps)).
    { eapply Permutation_in; [exact P|]. unfold keys. apply in_or_app. left. apply in_map. eapply Permutation_in; [symmetry; apply (dequeue_perm _ _ _ _ De)|now left]. }
    apply in_map_iff in I. destruct I as (x & E & _). unfold key1, pkey in E. congruence. }
  induction 1 as [m St|m a q m' De Ta Q IH|m now a q c b m' De Ta Ec Q IH|m now a q e b m' De Ta Ec Q IH|m a q m' De T1 T2 Q IH]; intros I;
    try (pose proof (Ty _ _ _ I De); congruence).
  - exact I.
  - apply IH. destruct I as (ps & P & C). exists ps. split; [|exact C]. unfold keys in *. cbn [m_u m_run with_q u_q].
    rewrite <- P. rewrite map_app. cbn [map rkey]. rewrite (Permutation_map pkey (dequeue_perm _ _ _ _ De)). cbn [map app].
    replace (1, join (pa_rel a) (pa_name a)) with (pkey a) by (unfold pkey; now rewrite Ta). rewrite app_assoc. symmetry. apply Permutation_cons_append.
Qed.

Lemma existing_found now P f b i r b' : Forall good_name P -> btidy store 0 b -> b_root b <> None -> stored_all b -> (forall i, i_type (f i) = i_type i) ->
  bv b P = Some i -> i_type i = TFile -> get_or_create store now (pstr P) TFile false f b = (r, b') -> exists c, r = inr c.
Proof.
  intros G T R Sa Hf V Ti E. assert (T' : btidy store now b) by now apply tidy_now.
  destruct (C28_create store now _ _ _ _ _ _ _ T' Hf E) as (_ & _ & X). cbv zeta in X. destruct r as [e|c]; [|eauto]. exfalso. destruct X as ([X|(_ & X)] & _).
  - rewrite pstr_split in X by exact G. assert (V' : bview store now b P = Some i) by (now rewrite bv_now).
    assert (K : kept (bview store now b) P TFile = true) by (apply (kept_view _ _ _ i); auto).
    unfold create_result in X. destruct P as [|n P].
    + rewrite bv_now in V' by exact R. destruct T as (T & _). unfold bview, view in V. cbn in V. inversion V; subst i. unfold a_type in T. congruence.
    + rewrite K in X. destruct (blocked (bview store now b) (n :: P)) eqn:B; [|discriminate]. unfold blocked in B. apply existsb_exists in B. destruct B as (q & Iq & Oq).
      unfold parents in Iq. apply in_map_iff in Iq. destruct Iq as (k & <- & Ik). apply in_seq in Ik.
      assert (Dq : is_dir (bview store now b (firstn k (n :: P))) = false) by (destruct (bview store now b (firstn k (n :: P))) as [j|]; [|reflexivity]; cbn in *; now destruct (type_eqb (i_type j) TDir)).
      rewrite <- (firstn_skipn k (n :: P)) in V'. unfold bview in V', Dq. rewrite (view_below store _ _ _ _ Dq) in V'; [discriminate|].
      intros Z. apply (f_equal (@length _)) in Z. rewrite skipn_length in Z. cbn [length] in *. lia.
  - apply X. intros p d id N Td I. right. rewrite (root_now b now R) in N. exact (Sa p d id N Td I).
Qed.

Lemma owns_store b b' : (forall id p, owned store (b_lists b') (root_of 0 b') id p -> owned store (b_lists b) (root_of 0 b) id p) -> stored_all b -> stored_all b'.
Proof. intros O S p d id N Td I. destruct (O id p) as (d' & N' & Td' & I'); [exists d; auto|]. exact (S p d' id N' Td' I'). Qed.

Lemma fcore_file now a P ck s ok s' ps : fcore (u_b s) (P :: ps) -> join (pa_rel a) (pa_name a) = pstr P -> chunk (pstr P) ck ->
  handle_file store now a ck s = (ok, s') -> fcore (u_b s') ps /\ u_q s' = u_q s.
Proof.
  intros [R T S G Nd Ty Al Pg St] J Rd E.
  destruct (Ty P (or_introl eq_refl)) as (i & mt & c & V & Sp & Ti & Tm & Pi). assert (GP : Forall good_name P) by (apply G; now left).
  unfold handle_file in E. rewrite J in E.
  match type of E with context [get_or_create _ _ _ _ _ ?ff _] => set (f := ff) in E end.
  assert (Hf : forall j, i_type (f j) = i_type j) by (intros j; unfold f; destruct ck; reflexivity).
  assert (Hp : forall j, i_progress (f j) = false) by (intros j; unfold f; destruct ck; reflexivity).
  destruct (get_or_create store now (pstr P) TFile false f (u_b s)) as [r b] eqn:Ec.
  destruct (existing_found now P f (u_b s) i r b GP T R S Hf V Ti Ec) as (cr & ->).
  assert (Es : u_b s' = b /\ u_q s' = u_q s) by (destruct ck; inversion E; split; reflexivity). destruct Es as (-> & Eq). split; [|exact Eq]. clear E.
  destruct (create_existing store now P TFile false f (u_b s) cr b i) as (R' & T' & V' & _ & O'); auto.
  inversion Nd as [|x y Np Nd']; subst.
  assert (Vo : forall q, q <> P -> bv b q = bv (u_b s) q) by (intros q N; rewrite V', peq_neq by exact N; reflexivity).
  constructor; auto.
  - eapply owns_store; eassumption.
  - intros Q I. apply G. now right.
  - intros Q I. rewrite Vo; [apply Ty; now right|]. intros ->. easy.
  - intros q W. destruct (list_eq_dec (list_eq_dec N.eq_dec) q P) as [->|N].
    + right. destruct (Hread P _ c ck W Sp Rd) as (k & -> & De & Ex). rewrite V', peq_refl, Sp. cbn. rewrite Ti, Ex. auto 6.
    + rewrite Vo by exact N. destruct (Al q W) as [[X|X]|X]; [congruence|now left|now right].
  - intros q j Vq Pq. destruct (list_eq_dec (list_eq_dec N.eq_dec) q P) as [->|N].
    + rewrite V', peq_refl in Vq. inversion Vq; subst j. rewrite Hp in Pq. discriminate.
    + rewrite Vo in Vq by exact N. destruct (Pg q j Vq Pq) as [X|X]; [congruence|exact X].
  - intros q W. destruct (St q W) as (X & Y). split; [intros Z; apply X; now right|]. rewrite Vo; [exact Y|]. intros ->. apply X. now left.
Qed.

Lemma fin_step m m' : mstep store clists sort search chunk flushes push max_queued mpt m m' -> finv m -> finv m'.
Proof.
  intros St I0. pose proof I0 as (ps & P & C).
  assert (Nd : forall r1 a x r2, m_run m = r1 ++ RDir a x :: r2 -> False).
  { intros r1 a x r2 Er. assert (I : In (2, join (pa_rel a) (pa_name a)) (map key1 ps)).
    { eapply Permutation_in; [exact P|]. unfold keys. rewrite Er. apply in_or_app. right. apply in_map_iff. exists (RDir a x). split; [reflexivity|]. apply in_elt. }
    apply in_map_iff in I. destruct I as (y & E & _). discriminate. }
  destruct St as [m m1 m2 m3 w1 w2 reqs Wt Hw Wok Mf E2 Qt|m now r1 a r2 es res u Er Se Sd|m now r1 a r2 ck ok u Wt Er Ch Hf|m now r1 a res r2 late ok u Wt Er Hd];
    try (exfalso; eapply Nd; exact Er).
  - assert (I1 : finv m1).
    { unfold maybe_flush in Mf. destruct (w1 && forallb (fun r => negb (is_scanner r)) (m_run m)) eqn:W; [|subst m1; exact I0].
      destruct Mf as (order & b' & ids & Fl & ->). exists ps. split; [exact P|]. cbn [with_u m_u after_flush u_b m_run]. eapply fcore_flush; eassumption. }
    assert (I2 : finv m2).
    { destruct I1 as (ps1 & P1 & C1). subst m2. exists ps1. split; [|exact C1]. unfold keys in *. cbn [with_u m_u with_q u_q m_run].
      rewrite <- P1. apply Permutation_app_tail. destruct reqs as [|r reqs]; [reflexivity|]. apply prioritize_perm. }
    destruct (fin_queue w2 m2 m3 Qt I2) as (ps3 & P3 & C3). exists ps3. split; [exact P3|exact C3].
  - assert (P' : Permutation ((1, join (pa_rel a) (pa_name a)) :: (map pkey (u_q (m_u m)) ++ map rkey (r1 ++ r2))) (map key1 ps)).
    { rewrite <- P. unfold keys. rewrite Er, !map_app. cbn [map rkey]. rewrite !app_assoc. apply Permutation_middle. }
    apply perm_map_cons in P'. destruct P' as (Q & ps' & Px & Ex & Pr). unfold key1 in Ex. inversion Ex as [J].
    rewrite <- J in Ch. destruct (fcore_file now a Q ck (m_u m) ok u ps') as (C' & Uq); auto; [eapply fcore_perm; eassumption|].
    exists ps'. split; [|exact C']. unfold keys. cbn [m_u m_run]. rewrite Uq. exact Pr.
Qed.
Lemma fin_run m m' : msteps store clists sort search chunk flushes push max_queued mpt m m' -> finv m -> finv m'.
Proof. induction 1 as [m|m m1 m2 S IH St]; intros I; [exact I|]. eapply fin_step; eauto. Qed.

Lemma fin_done m rec sid b' keep : finv m -> finish flushes rec sid m b' keep ->
  b_root b' <> None /\ btidy store 0 b' /\ stored_all b' /\ (forall q, wanted q -> entry_matches truth clists (bv b' q) (src q)) /\
  (forall q i, bv b' q = Some i -> i_progress i = false) /\ (forall q, still q -> same_entry truth clists (old q) (bv b' q)).
Proof.
  intros (ps & P & C) [b1 ids (_ & Q & R) Fl]. unfold keys in P. rewrite Q, R in P. cbn in P. apply Permutation_nil in P. apply map_eq_nil in P. subst ps.
  destruct (fcore_flush _ _ _ _ Fl C) as [A B S _ _ _ F G H]. repeat (split; [assumption|]). split; [|split].
  - intros q W. destruct (F q W) as [[]|X]. exact X.
  - intros q i V. destruct (i_progress i) eqn:E; [|reflexivity]. now destruct (G q i V E).
  - intros q W. apply (H q W).
Qed.

(** The start: the operations are applied to a manifest without unfinished entries. *)
Lemma existsb_del ops q : existsb (is_del q) ops = true -> exists o, In o ops /\ fst o = KDelete /\ is_prefix (opath o) q = true.
Proof. intros E. apply existsb_exists in E. destruct E as (o & I & X). exists o. unfold is_del in X. destruct (fst o) eqn:K; try discriminate. auto. Qed.

Lemma fin_start b fc m0 ops : true_of src ops -> b_root b <> None -> btidy store 0 b -> stored_all b -> old = bv b ->
  (forall q i, bv b q = Some i -> i_progress i = false) ->
  (forall q, wanted q -> entry_matches truth clists (bv b q) (src q) \/ told src ops q) ->
  (forall q, still q -> forall o, In o ops -> ~ concerns o q) ->
  start store flushes push ops false b fc m0 -> finv m0.
Proof.
  intros [Once Tr] R T Sa Eold Pg Wt Stl St.
  assert (Nm : forall o, In o ops -> exists P, names_path (ai_path (snd o)) P) by (intros o I; destruct (Tr o I) as (P & H & _); eauto).
  assert (Op : forall o, In o ops -> names_path (ai_path (snd o)) (opath o) /\ says src (opath o) o).
  { intros o I. destruct (Tr o I) as (P & H & Sy). unfold opath. now rewrite (names_split _ _ H). }
  assert (Ndp : NoDup (map opath ops)).
  { clear - Once Op. induction ops as [|o ops IH]; [constructor|]. cbn in *. inversion Once as [|x y Ni Nd]; subst. constructor; [|apply IH; auto].
    intros I. apply in_map_iff in I. destruct I as (o' & E & I'). apply Ni. apply in_map_iff. exists o'. split; [|exact I'].
    destruct (Op o (or_introl eq_refl)) as ((_ & _ & A) & _). destruct (Op o' (or_intror I')) as ((_ & _ & B) & _). rewrite A, B. congruence. }
  assert (X : forall now u, apply_operations store now ops None None false (mku b fc [] []) = (None, u) -> exists ps, Permutation (map pkey (u_q u)) (map key1 ps) /\ fcore (u_b u) ps).
  { intros now u E. unfold apply_operations in E. set (s0 := mku b fc [] []) in *.
    destruct (apply_deletes store now ops None s0) as [[e|] s1] eqn:Ed; [discriminate|].
    destruct (deletes_flat store now ops None s0 s1) as (R1 & T1 & V1 & Q1 & O1); auto.
    { now apply tidy_now. } { discriminate. }
    set (vd := bview store now (u_b s1)).
    assert (Vd : forall q, vd q = if existsb (is_del q) ops then None else bv b q) by (intros q; unfold vd; rewrite V1; cbn [u_b s0]; now rewrite bv_now).
    assert (Pvd : forall q i, vd q = Some i -> i_progress i = false) by (intros q i; rewrite Vd; destruct (existsb (is_del q) ops); [discriminate|apply Pg]).
    destruct (updates_flat store now src Hsrc ops [] s1 u vd) as (R2 & T2 & J & Q2 & O2); auto.
    { constructor; cbn; try easy.
      - intros q _. fold vd. destruct (src q) as [[]|]; auto.
      - intros q i V P. unfold vd in Pvd. rewrite (Pvd q i V) in P. discriminate. }
    { rewrite Q1. reflexivity. }
    cbn [app] in J, Q2. exists (map opath (filter file_op ops)). split; [rewrite map_map; exact Q2|].
    assert (Bu : forall q, bv (u_b u) q = bview store now (u_b u) q) by (intros q; symmetry; now apply bv_now).
    assert (InF : forall P, In P (map opath (filter file_op ops)) -> exists o, In o ops /\ file_op o = true /\ opath o = P).
    { intros P I. apply in_map_iff in I. destruct I as (o & Eo & I). apply filter_In in I. exists o. tauto. }
    assert (FIn : forall o, In o ops -> file_op o = true -> In (opath o) (map opath (filter file_op ops))).
    { intros o I F. apply in_map. apply filter_In. auto. }
    assert (Fn : forall o, file_op o = true -> news_op o = true /\ ai_type (snd o) = TFile).
    { intros o F. unfold file_op in F. apply andb_true_iff in F. destruct F as (F1 & F2). apply type_eqb_eq in F2. auto. }
    assert (Sn : forall o, In o ops -> news_op o = true -> match src (opath o) with Some (SDir mt) => ai_type (snd o) = TDir /\ ai_mtime (snd o) = mt | Some (SFile mt c) => ai_type (snd o) = TFile /\ ai_mtime (snd o) = mt | None => False end).
    { intros o I N. destruct (Op o I) as (_ & Sy). unfold says, news_op in *. destruct (fst o), (src (opath o)) as [[]|]; try discriminate; auto. }
    constructor.
    - exact R2.
    - now apply (tidy_now store (u_b u) now R2).
    - apply (owns_store b); [|exact Sa]. intros id p O. apply (own_now store b now id p R). apply O1. apply O2. apply own_now; auto.
    - intros P I. destruct (InF P I) as (o & Io & _ & <-). destruct (Op o Io) as ((_ & G & _) & _). exact G.
    - clear - Ndp. induction ops as [|o l IH]; [constructor|]. cbn in *. inversion Ndp as [|x y Ni Nd]; subst. destruct (file_op o); [|auto]. cbn. constructor; [|auto].
      intros I. apply Ni. apply in_map_iff in I. destruct I as (o' & E & I). apply filter_In in I. apply in_map_iff. exists o'. tauto.
    - intros P I. destruct (InF P I) as (o & Io & Fo & <-). destruct (Fn o Fo) as (No & To). destruct (ao_op _ _ _ _ _ J o Io No) as (i & Vi & Ti & Mi & Pi). rewrite <- Bu in Vi.
      pose proof (Sn o Io No) as Z. destruct (src (opath o)) as [[mt|mt c]|]; [destruct Z; congruence| |destruct Z].
      exists i, mt, c. rewrite To in *. destruct Z as (_ & Z). repeat (split; [congruence|]). exact Pi.
    - (* the wanted paths *)
      intros q W. rewrite Bu.
      destruct (existsb (fun o => news_op o && path_eqb (opath o) q) ops) eqn:Eq.
      + apply existsb_exists in Eq. destruct Eq as (o & Io & Eq). apply andb_true_iff in Eq. destruct Eq as (No & Eq). apply path_eqb_eq in Eq. subst q.
        destruct (ao_op _ _ _ _ _ J o Io No) as (i & Vi & Ti & Mi & Pi). pose proof (Sn o Io No) as Z.
        destruct (src (opath o)) as [[mt|mt c]|] eqn:So; [right| |destruct Z].
        * rewrite Vi. cbn. destruct Z as (Z1 & Z2). rewrite Z1 in *. repeat (split; [congruence|]). exact Pi.
        * left. destruct Z as (Z1 & Z2). apply FIn; [exact Io|]. unfold file_op. now rewrite No, Z1.
      + right. assert (Nq : forall o, In o ops -> news_op o = true -> opath o <> q).
        { intros o I N Eo. assert (Y : existsb (fun o => news_op o && path_eqb (opath o) q) ops = true); [|congruence]. apply existsb_exists. exists o. split; [exact I|]. rewrite N, Eo. now apply path_eqb_eq. }
        pose proof (ao_rest _ _ _ _ _ J q Nq) as Rq. destruct (Wt q W) as [M|M].
        * (* it matched before *)
          assert (Keep : src q <> None -> vd q = bv b q).
          { intros Sq. rewrite Vd. destruct (existsb (is_del q) ops) eqn:Dq; [|reflexivity]. exfalso. apply existsb_del in Dq. destruct Dq as (o & Io & Ko & Po).
            destruct (Op o Io) as (_ & Sy). unfold says in Sy. rewrite Ko in Sy. destruct (src (opath o)) as [x|] eqn:So; [destruct Sy|]. apply is_prefix_spec in Po. destruct Po as (r & ->). apply Sq. now apply src_none. }
          destruct (src q) as [[mt|mt c]|] eqn:Sq.
          -- rewrite Keep in Rq by discriminate. destruct Rq as [Rq|(Rq & _)]; [rewrite Rq; exact M|]. exfalso. unfold entry_matches in M. destruct (bv b q) as [i|]; [|destruct M]. destruct M as (M & _). cbn in Rq. rewrite M in Rq. discriminate.
          -- rewrite Keep in Rq by discriminate. rewrite Rq. exact M.
          -- assert (bv b q = None) by (unfold entry_matches in M; destruct (bv b q); [destruct M|reflexivity]).
             assert (vd q = None) by (rewrite Vd; destruct (existsb (is_del q) ops); [reflexivity|assumption]). destruct Rq as [Rq|Rq]; rewrite Rq; [rewrite H0|]; exact I.
        * destruct M as [(o & Io & Ko & Hq)|(Sq & o & P & Io & HP & Pq & Ko)].
          -- exfalso. apply (Nq o Io); [unfold news_op; destruct Ko as [-> | ->]; reflexivity|]. now apply names_split.
          -- rewrite Sq in *. assert (EP : opath o = P) by (now apply names_split). destruct Ko as [Ko|(Ne & Tf)].
             ++ assert (vd q = None). { rewrite Vd. replace (existsb (is_del q) ops) with true; [reflexivity|]. symmetry. apply existsb_exists. exists o. split; [exact Io|]. unfold is_del. rewrite Ko. unfold op_path. fold (opath o). now rewrite EP. }
                destruct Rq as [Rq|Rq]; rewrite Rq; [rewrite H|]; exact I.
             ++ destruct (Op o Io) as (_ & Sy). rewrite EP in Sy. unfold says in Sy.
                destruct (fst o) eqn:Ko; [| |destruct (src P) as [x|] eqn:So; [destruct Sy|]|destruct (src P) as [[]|]; destruct Sy].
                ** rewrite (ao_file _ _ _ _ _ J q o Sq Io); [exact I| |now rewrite EP|now rewrite EP]. unfold file_op, news_op. now rewrite Ko, Tf.
                ** rewrite (ao_file _ _ _ _ _ J q o Sq Io); [exact I| |now rewrite EP|now rewrite EP]. unfold file_op, news_op. now rewrite Ko, Tf.
                ** assert (vd q = None). { rewrite Vd. replace (existsb (is_del q) ops) with true; [reflexivity|]. symmetry. apply existsb_exists. exists o. split; [exact Io|]. unfold is_del. rewrite Ko. unfold op_path. fold (opath o). now rewrite EP. }
                   destruct Rq as [Rq|Rq]; rewrite Rq; [rewrite H|]; exact I.
    - intros q i V P. rewrite Bu in V. destruct (ao_progress _ _ _ _ _ J q i V P) as (o & Io & Fo & <-). now apply FIn.
    - intros q W. assert (Nc : forall o, In o ops -> is_prefix (opath o) q = false /\ is_prefix q (opath o) = false).
      { intros o Io. destruct (Op o Io) as (HP & _). split; apply Bool.not_true_is_false; intros Z; apply (Stl q W o Io); exists (opath o); auto. }
      split.
      + intros I. destruct (InF q I) as (o & Io & _ & <-). destruct (Nc o Io) as (Z & _). rewrite prefix_refl in Z. discriminate.
      + rewrite Eold, Bu. rewrite (ao_frame _ _ _ _ _ J) by (intros o Io _; now apply Nc). rewrite Vd. replace (existsb (is_del q) ops) with false; [apply same_refl|].
        symmetry. apply Bool.not_true_is_false. intros Z. apply existsb_del in Z. destruct Z as (o & Io & _ & Z). destruct (Nc o Io). congruence. }
  destruct St as [now u st E Hp|now u st order b' ids E Hp Hq Fl]; destruct (X now u E) as (ps & P & C); exists ps.
  - split; [|exact C]. unfold keys. cbn [m_u m_run map]. now rewrite app_nil_r.
  - split; [unfold keys; cbn [m_u m_run map after_flush u_q]; now rewrite app_nil_r|]. cbn [m_u after_flush u_b]. eapply fcore_flush; eassumption.
Qed.
End IncrRun.
