(** Runs of Update. *)
From Verif Require Import Base ListX Str ModelText ModelPath SpecPath ModelCdc ModelChunkMap ModelProvider ModelAsset SpecAsset ModelFileDiff SpecFileDiff
  ModelManifest SpecManifest ProofManifest ProofTree PropManifest ProofAtDir ModelUpdater SpecUpdater ProofUpdater ProofUpdEffect ProofUpdScan ProofUpdApply ProofUpdMachine.
From Coq Require Import Permutation.
Local Open Scope N_scope.

(** * The queue *)
Lemma dequeue_perm acc q a q' : queue_dequeue acc q = Some (a, q') -> Permutation q (a :: q').
Proof.
  revert a q'. induction q as [|x q IH]; intros a q' E; [discriminate|]. cbn in E. destruct (match acc with Some f => negb (f x) | None => false end).
  - destruct (queue_dequeue acc q) as [[a0 r]|]; [|discriminate]. inversion E; subst. rewrite (IH _ _ eq_refl). apply perm_swap.
  - inversion E; subst. reflexivity.
Qed.
Lemma prio_perm key d q : forall pre post, Permutation (map pkey (prio_scan key d pre post q)) (map pkey (pre ++ post ++ q)).
Proof.
  induction q as [|x q IH]; intros pre post; cbn [prio_scan].
  { now rewrite app_nil_r. }
  destruct (seqb (pa_rel x) (fst key) && seqb (pa_name x) (snd key)).
  - destruct (infinite (pa_deadline x)); [|reflexivity]. rewrite !map_app. apply Permutation_app_head. cbn [map]. rewrite map_app. unfold pkey at 1. cbn [pa_type pa_rel pa_name]. fold (pkey x).
    apply Permutation_middle.
  - destruct (match post with [] => infinite (pa_deadline x) | _ => true end).
    + rewrite IH. now rewrite <- app_assoc.
    + rewrite IH. rewrite <- !app_assoc. rewrite !map_app. apply Permutation_app_head. cbn [map app]. rewrite Permutation_middle. reflexivity.
Qed.
Lemma prioritize_perm mpt reqs : forall q, Permutation (map pkey (snd (queue_prioritize mpt reqs q))) (map pkey q).
Proof.
  unfold queue_prioritize. cbn [snd]. induction reqs as [|r reqs IH]; intros q; [reflexivity|]. cbn [fold_left]. rewrite IH. unfold prioritize_one. destruct (snd r); [|reflexivity].
  apply (prio_perm _ _ q [] []).
Qed.

Definition rkey (r : running) : N * bytes := match r with RFile a => (1, join (pa_rel a) (pa_name a)) | RDir a _ => (2, join (pa_rel a) (pa_name a)) end.
Definition keys (m : mstate) : list (N * bytes) := map pkey (u_q (m_u m)) ++ map rkey (m_run m).
Definition fkey (x : N * path) : N * bytes := (fst x, pstr (snd x)).

Lemma perm_map_cons {A B} (f : A -> B) k l ps : Permutation (k :: l) (map f ps) -> exists x ps', Permutation ps (x :: ps') /\ f x = k /\ Permutation l (map f ps').
Proof.
  intros P. assert (I : In k (map f ps)) by (eapply Permutation_in; [exact P|now left]). apply in_map_iff in I. destruct I as (x & E & I).
  apply in_split in I. destruct I as (p1 & p2 & ->). exists x, (p1 ++ p2). split; [symmetry; apply Permutation_middle|]. split; [exact E|].
  rewrite map_app in P. cbn [map] in P. rewrite E in P. rewrite map_app. apply Permutation_cons_app_inv in P. exact P.
Qed.

Definition scanned_in (run : list running) (D : path) (o : scan) : Prop :=
  exists a, In (RDir a (Some (Some o))) run /\ join (pa_rel a) (pa_name a) = pstr D /\ Forall good_name D.

Section Run.
Context (store : cid -> option (list asset)) (clists : cid -> option (list cref)) (truth : cid -> option bytes) (sort : list ainfo -> list ainfo) (Hsort : sorts ai_path sort).
Context (src : path -> option snode) (Hsrc : source_tree src).
Context (search : bytes -> option (list sentry) -> Prop) (chunk : bytes -> option chunked -> Prop) (flushes : builder -> builder -> list cid -> Prop).
Context (push : bool) (max_queued : nat) (mpt : Z).
Context (Hsearch : reads_dirs search src) (Hchunk : reads_files truth clists chunk src) (Hflush : flush_good store clists truth flushes).
Notation core := (core store clists truth src).

Definition inv (m : mstate) : Prop := exists ps, Permutation (keys m) (map fkey ps) /\ core (u_b (m_u m)) (fun x => In x (u_ids (m_u m))) ps (scanned_in (m_run m)).

(** The path of a directory in the pool is not in the pool a second time. *)
Lemma once b kp D ps sc r1 r2 q : core b kp ((2, D) :: ps) sc -> Permutation (q ++ map rkey (r1 ++ r2)) (map fkey ps) -> forall ops, ~ scanned_in (r1 ++ r2) D ops.
Proof.
  intros C P ops (a & I & J & G). assert (X : In (2, pstr D) (map fkey ps)).
  { eapply Permutation_in; [exact P|]. apply in_or_app. right. apply in_map_iff. exists (RDir a (Some (Some ops))). cbn. now rewrite J. }
  apply in_map_iff in X. destruct X as ([k Q] & E & IQ). unfold fkey in E. cbn in E. inversion E; subst k.
  assert (Q = D) by (apply pstr_inj; [eapply (c_good _ _ _ _ _ _ _ _ C); right; exact IQ|exact G|congruence]). subst Q.
  pose proof (c_nodup _ _ _ _ _ _ _ _ C) as Nd. cbn in Nd. inversion Nd as [|x y Ni _]; subst. apply Ni. apply in_map_iff. exists (2, D). auto.
Qed.

Lemma inv_queue drain m m' : queue_tasks store max_queued drain m m' -> inv m -> m_failed m' = true \/ inv m'.
Proof.
  induction 1 as [m St|m a q m' De Ta Q IH|m now a q c b m' De Ta Ec Q IH|m now a q e b m' De Ta Ec Q IH|m a q m' De T1 T2 Q IH]; intros (ps & P & C).
  - right. exists ps. auto.
  - apply IH. exists ps. cbn [m_u m_run keys with_q u_q u_b]. unfold keys in *. cbn [m_u m_run with_q u_q]. split.
    + rewrite <- P. rewrite map_app. cbn [map rkey]. rewrite (Permutation_map pkey (dequeue_perm _ _ _ _ De)). cbn [map app].
      replace (1, join (pa_rel a) (pa_name a)) with (pkey a) by (unfold pkey; now rewrite Ta). rewrite app_assoc. symmetry. apply Permutation_cons_append.
    + eapply core_perm; [reflexivity| |exact C]. intros D ops. unfold scanned_in. split; intros (x & I & J); exists x; (split; [|exact J]); rewrite in_app_iff in *; cbn in *; intuition discriminate.
  - apply IH. unfold keys in *. cbn [m_u m_run with_q with_b u_q u_b] in *. rewrite (Permutation_map pkey (dequeue_perm _ _ _ _ De)) in P. cbn [map app] in P.
    pose proof (perm_map_cons _ _ _ _ P) as (x & ps' & Px & Ex & Pr). destruct x as [k D]. unfold fkey, pkey in Ex. cbn in Ex. rewrite Ta in Ex. inversion Ex as [[Ek EJ]]. subst k.
    assert (ID : In (2, D) ps) by (eapply Permutation_in; [symmetry; exact Px|now left]).
    exists ps. split.
    + unfold keys. cbn [m_u m_run with_q with_b u_q u_b]. rewrite <- P. rewrite map_app. cbn [map rkey]. replace (2, join (pa_rel a) (pa_name a)) with (pkey a) by (unfold pkey; now rewrite Ta). rewrite app_assoc. symmetry. apply Permutation_cons_append.
    + cbn [m_u u_b with_b m_run]. rewrite <- EJ in Ec. eapply core_open in Ec; [|exact C|exact ID].
      eapply core_perm; [reflexivity| |exact Ec]. intros D' ops. unfold scanned_in. split; intros (x & I & J); exists x; (split; [|exact J]); rewrite in_app_iff in *; cbn in *; intuition discriminate.
  - left. clear - Q. cbn in Q. remember (mkm _ _ _ _ true) as m0 eqn:E0. assert (F : m_failed m0 = true) by (now rewrite E0). clear E0. induction Q; auto.
  - left. clear - Q. cbn in Q. remember (mkm _ _ _ _ true) as m0 eqn:E0. assert (F : m_failed m0 = true) by (now rewrite E0). clear E0. induction Q; auto.
Qed.

(** The entry of a task in the pool. *)
Lemma task_entry m r1 r r2 ps : Permutation (keys m) (map fkey ps) -> m_run m = r1 ++ r :: r2 ->
  exists P ps', Permutation ps ((fst (rkey r), P) :: ps') /\ snd (rkey r) = pstr P /\ Permutation (map pkey (u_q (m_u m)) ++ map rkey (r1 ++ r2)) (map fkey ps').
Proof.
  intros P E. unfold keys in P. rewrite E in P. rewrite map_app in P. cbn [map] in P.
  assert (P' : Permutation (rkey r :: (map pkey (u_q (m_u m)) ++ map rkey (r1 ++ r2))) (map fkey ps)).
  { rewrite <- P, map_app. rewrite !app_assoc. apply Permutation_middle. }
  apply perm_map_cons in P'. destruct P' as ([k Q] & ps' & Px & Ex & Pr). exists Q, ps'. destruct (rkey r) as [k0 s0]. unfold fkey in Ex. cbn in Ex. inversion Ex; subst. auto.
Qed.
Lemma scanned_mid r1 r r2 D ops : scanned_in (r1 ++ r2) D ops -> scanned_in (r1 ++ r :: r2) D ops.
Proof. intros (a & I & J). exists a. split; [|exact J]. rewrite in_app_iff in *. cbn. tauto. Qed.
Lemma scanned_inv r1 r r2 D ops : scanned_in (r1 ++ r :: r2) D ops -> scanned_in (r1 ++ r2) D ops \/ exists a, r = RDir a (Some (Some ops)) /\ join (pa_rel a) (pa_name a) = pstr D /\ Forall good_name D.
Proof.
  intros (a & I & J & G). rewrite in_app_iff in I. cbn in I. destruct I as [I|[I|I]]; [left|right; eauto 6|left]; exists a; rewrite in_app_iff; auto.
Qed.

Lemma inv_step m m' : mstep store clists sort search chunk flushes push max_queued mpt m m' -> inv m -> m_failed m' = true \/ inv m'.
Proof.
  intros St (ps & P & C). destruct St as [m m1 m2 m3 w1 w2 reqs Wt Hw Wok Mf E2 Qt|m now r1 a r2 es res u Er Se Sd|m now r1 a r2 ck ok u Wt Er Ch Hf|m now r1 a res r2 late ok u Wt Er Hd].
  - (* queue *)
    assert (I1 : inv m1).
    { unfold maybe_flush in Mf. destruct (w1 && forallb (fun r => negb (is_scanner r)) (m_run m)) eqn:W; [|subst m1; exists ps; auto].
      destruct Mf as (order & b' & ids & Fl & ->). apply andb_true_iff in W. destruct W as (_ & W).
      exists ps. split; [exact P|]. cbn [with_u m_u after_flush u_b m_run].
      destruct (Hflush _ _ _ Fl (c_root _ _ _ _ _ _ _ _ C) (c_tidy _ _ _ _ _ _ _ _ C)) as (R' & T' & Sm & Cl & Fo & Fv).
      eapply core_kp; [|eapply core_flush; [exact C| |exact R'|exact T'|exact Sm|exact Cl|exact Fo|exact Fv]]; [intros x [X|X]; apply in_or_app; auto|].
      intros D ops (a & I & _). rewrite forallb_forall in W. specialize (W _ I). discriminate. }
    assert (I2 : inv m2).
    { destruct I1 as (ps1 & P1 & C1). subst m2. exists ps1. split; [|exact C1]. unfold keys in *. cbn [with_u m_u with_q u_q m_run].
      rewrite <- P1. apply Permutation_app_tail. destruct reqs as [|r reqs]; [reflexivity|]. apply prioritize_perm. }
    destruct (inv_queue w2 m2 m3 Qt I2) as [F|(ps3 & P3 & C3)]; [left; exact F|right]. exists ps3. split; [exact P3|exact C3].
  - (* scan *)
    destruct (task_entry m r1 _ r2 ps P Er) as (D & ps' & Pp & Jd & Pr). cbn [rkey fst snd] in Pp, Jd.
    assert (C' : core (u_b (m_u m)) (fun x => In x (u_ids (m_u m))) ((2, D) :: ps') (scanned_in (m_run m))) by (eapply core_perm; [exact Pp|intros; reflexivity|exact C]).
    assert (ID : In (2, D) ((2, D) :: ps')) by now left.
    assert (Same : forall x, keys (mkm u (r1 ++ RDir a x :: r2) (m_wait m) (m_status m) (m_failed m)) = map pkey (u_q u) ++ map rkey (m_run m)).
    { intros x. unfold keys. cbn [m_u m_run]. rewrite Er, !map_app. reflexivity. }
    assert (Nsc : forall o, ~ scanned_in (m_run m) D o).
    { intros o X. rewrite Er in X. apply scanned_inv in X. destruct X as [X|(a0 & X & _)]; [|discriminate]. eapply once; [exact C'|exact Pr|exact X]. }
    assert (Sc0 : forall x D' o, (forall z, x <> Some (Some z)) -> (scanned_in (r1 ++ RDir a x :: r2) D' o <-> scanned_in (m_run m) D' o)).
    { intros x D' o Nx. rewrite Er. split; intros X; apply scanned_inv in X; (destruct X as [X|(a0 & X & _)]; [now apply scanned_mid|inversion X; subst; first [now apply Nx in H1|exfalso; eapply Nx; reflexivity]]). }
    right. destruct es as [es|]; cbn [scan_dir] in Sd.
    2:{ inversion Sd; subst res u. exists ps. split; [rewrite Same; exact P|]. cbn [m_u m_run]. eapply core_perm; [reflexivity| |exact C]. intros D' o. symmetry. apply Sc0. discriminate. }
    destruct res as [[ops ids]|].
    + destruct (c_type _ _ _ _ _ _ _ _ C' 2 D ID) as (i & V & _ & [(X & _)|(_ & mt & S & _)]); [discriminate|]. rewrite Jd in Se.
      pose proof (Hsearch D mt es S Se) as Ld.
      destruct (core_scanned store clists truth sort Hsort src Hsrc now a D es (m_u m) ops ids u _ _ _ C' ID Nsc Jd Ld Sd) as (Cn & Uq & Ui).
      exists ((2, D) :: ps'). split; [rewrite Same, Uq; unfold keys in P; rewrite P; now apply Permutation_map|]. cbn [m_u m_run]. rewrite Ui.
      eapply core_perm; [reflexivity| |exact Cn]. intros D' o. rewrite Er. split.
      * intros [X|(-> & ->)].
        -- apply scanned_inv in X. destruct X as [X|(a0 & X & _)]; [now apply scanned_mid|discriminate].
        -- exists a. split; [rewrite in_app_iff; right; now left|]. split; [exact Jd|]. exact (c_good _ _ _ _ _ _ _ _ C' 2 D ID).
      * intros X. apply scanned_inv in X. destruct X as [X|(a0 & X & J0 & G0)]; [left; now apply scanned_mid|right]. inversion X; subst. split; [|reflexivity].
        apply pstr_inj; [exact G0|exact (c_good _ _ _ _ _ _ _ _ C' 2 D ID)|congruence].
    + assert (u = m_u m).
      { unfold scan_dir in Sd. match type of Sd with (let (_, _) := ?z in _) = _ => destruct z as [[[[man i0]|e0] root] L] end; [discriminate|]. now inversion Sd. }
      subst u. exists ps. split; [rewrite Same; exact P|]. cbn [m_u m_run]. eapply core_perm; [reflexivity| |exact C]. intros D' o. symmetry. apply Sc0. discriminate.
  - (* file *)
    destruct ok; [|left; cbn; apply orb_true_r]. right.
    destruct (task_entry m r1 _ r2 ps P Er) as (F & ps' & Pp & Jd & Pr). cbn [rkey fst snd] in Pp, Jd.
    assert (C' : core (u_b (m_u m)) (fun x => In x (u_ids (m_u m))) ([] ++ (1, F) :: ps') (scanned_in (r1 ++ r2))).
    { eapply core_perm; [exact Pp| |exact C]. intros D' o. rewrite Er. split; [|apply scanned_mid]. intros X. apply scanned_inv in X. destruct X as [X|(a0 & X & _)]; [exact X|discriminate]. }
    destruct (core_file store clists truth src now a F ck (m_u m) true u _ [] ps' _ C' Jd) as (Cn & Uq & Ui); auto.
    + intros mt c k S ->. rewrite Jd in Ch. exact (Hchunk F mt c k S Ch).
    + exists ps'. split; [unfold keys; cbn [m_u m_run]; rewrite Uq; exact Pr|cbn [m_u m_run]; rewrite Ui; exact Cn].
  - (* directory *)
    destruct ok; [|left; cbn; apply orb_true_r]. right.
    destruct res as [[ops ids]|].
    2:{ exfalso. unfold handle_dir in Hd. destruct (apply_operations _ _ _ _ _ _ _) as [[e|] s1] in Hd; [discriminate|].
        match type of Hd with (let (_, _) := ?z in _) = _ => destruct z as [[rr root] L] end. discriminate. }
    destruct (task_entry m r1 _ r2 ps P Er) as (D & ps' & Pp & Jd & Pr). cbn [rkey fst snd] in Pp, Jd.
    assert (C' : core (u_b (m_u m)) (fun x => In x (u_ids (m_u m))) ([] ++ (2, D) :: ps') (scanned_in (m_run m))) by (eapply core_perm; [exact Pp|intros; reflexivity|exact C]).
    assert (GD : Forall good_name D) by (apply (c_good _ _ _ _ _ _ _ _ C' 2 D); now left).
    assert (Sd : scanned_in (m_run m) D (ops, ids)) by (exists a; split; [rewrite Er, in_app_iff; right; now left|auto]).
    destruct (c_scan _ _ _ _ _ _ _ _ C' D (ops, ids) Sd) as (_ & Kd & es & L & Df). cbn [fst snd] in Kd, Df.
    assert (On : forall o, ~ scanned_in (r1 ++ r2) D o) by (eapply once; [exact C'|exact Pr]).
    destruct (core_dir store clists truth src Hsrc now a D es ops ids late (m_u m) true u _ [] ps' _ (scanned_in (r1 ++ r2)) C' Kd Jd L Df) as (Cn & Ui & Pq); auto.
    + intros D' o X. split; [rewrite Er; now apply scanned_mid|]. intros ->. exact (On o X).
    + intros D' o X N. rewrite Er in X. apply scanned_inv in X. destruct X as [X|(a0 & X & J0 & G0)]; [exact X|]. exfalso. inversion X; subst. apply N. apply pstr_inj; auto. congruence.
    + cbn [app] in Cn. eexists. split; [|cbn [m_u m_run]; rewrite Ui; eapply core_kp; [|exact Cn]; intros x [X|X]; apply in_or_app; auto]. unfold keys. cbn [m_u m_run]. rewrite Pq. rewrite (map_app fkey), <- Pr. rewrite <- !app_assoc. apply Permutation_app_head. apply Permutation_app_comm.
Qed.

(** A failure is not forgotten. *)
Lemma queue_failed drain m m' : queue_tasks store max_queued drain m m' -> m_failed m = true -> m_failed m' = true.
Proof. induction 1; auto. Qed.
Lemma step_failed m m' : mstep store clists sort search chunk flushes push max_queued mpt m m' -> m_failed m = true -> m_failed m' = true.
Proof.
  intros St F. destruct St as [m m1 m2 m3 w1 w2 reqs Wt Hw Wok Mf E2 Qt|m now r1 a r2 es res u Er Se Sd|m now r1 a r2 ck ok u Wt Er Ch Hf|m now r1 a res r2 late ok u Wt Er Hd]; cbn [m_failed]; try (now rewrite F); auto.
  eapply queue_failed; [exact Qt|]. subst m2. cbn [with_u m_failed]. unfold maybe_flush in Mf. destruct (w1 && _); [|congruence]. destruct Mf as (o & b' & ids & _ & ->). exact F.
Qed.
Lemma run_inv m m' : msteps store clists sort search chunk flushes push max_queued mpt m m' -> inv m -> m_failed m' = true \/ inv m'.
Proof.
  induction 1 as [m|m m1 m2 S IH St]; intros I; [now right|]. destruct (IH I) as [F|I1]; [left; eapply step_failed; eassumption|eapply inv_step; eassumption].
Qed.

(** Nothing is left to do. *)
Lemma inv_done m : inv m -> loop_done m -> manifest_matches truth clists (bview store 0 (u_b (m_u m))) src /\ btidy store 0 (u_b (m_u m)) /\ b_root (u_b (m_u m)) <> None /\
  forall q, kept_at store clists (u_b (m_u m)) (fun x => In x (u_ids (m_u m))) q.
Proof.
  intros (ps & P & C) (_ & Q & R). unfold keys in P. rewrite Q, R in P. cbn in P. apply Permutation_nil in P. apply map_eq_nil in P. subst ps.
  split; [|split; [apply C|split; [apply C|]]]; intros q; [|destruct (c_kept _ _ _ _ _ _ _ _ C q) as [(D & [] & _)|X]; exact X]. destruct (c_all _ _ _ _ _ _ _ _ C q) as [(D & [] & _)|[[]|X]]. exact X.
Qed.

(** The first operation: the root directory. *)
Lemma inv_start b fc m0 mt : src [] = Some (SDir mt) -> btidy store 0 b -> (forall p, bview store 0 b p <> None -> Forall good_name p) ->
  trustworthy truth clists (bview store 0 b) src -> b_lists b = (fun _ => None) ->
  start store flushes push (update_all_ops mt) true b fc m0 -> inv m0.
Proof.
  intros Sr T Nm Tr Nl St.
  assert (X : forall now u, apply_operations store now (update_all_ops mt) None None true (mku b fc [] []) = (None, u) -> Permutation (map pkey (u_q u)) [(2, [])] /\ core (u_b u) (fun x => In x (u_ids u)) [(2, [])] (fun _ _ => False)).
  { intros now u E. unfold apply_operations, update_all_ops in E. cbn [apply_deletes apply_updates ai_path ai_type] in E. cbn [u_b] in E.
    match type of E with context [get_or_create _ _ _ _ _ ?ff _] => set (f := ff) in E end.
    destruct (get_or_create store now [] TDir true f b) as [[e|c] b1] eqn:Ec; [discriminate|].
    cbn in E. inversion E; subst u. clear E. cbn [u_q u_b u_ids enqueue with_b]. split; [reflexivity|].
    change (@nil N) with (pstr []) in Ec. set (b0 := mkb (Some (root_of now b)) (b_lists b)).
    change (get_or_create store now (pstr []) TDir true f b0 = (inr c, b1)) in Ec.
    assert (Q : b_root b0 <> None /\ btidy store 0 b0 /\ (forall p, bview store 0 b0 p <> None -> Forall good_name p) /\ trustworthy truth clists (bview store 0 b0) src).
    { split; [discriminate|]. unfold b0, btidy, bview. cbn [root_of b_root b_lists]. destruct (b_root b) as [r|] eqn:Rb.
      - assert (X : root_of now b = root_of 0 b) by (unfold root_of; now rewrite Rb). rewrite X. auto.
      - assert (X : forall t, root_of t b = new_asset t [] TDir) by (intros t; unfold root_of; now rewrite Rb).
        assert (Nd : forall t p d, node store (b_lists b) (new_asset t [] TDir) p = Some d -> p = [] /\ d = new_asset t [] TDir) by (intros t [|n p] d E; [inversion E; auto|discriminate]).
        rewrite X. split; [split; [reflexivity|]|split].
        + constructor.
          * intros p d E _. apply Nd in E. destruct E as (-> & ->). constructor.
          * intros p d E _. apply Nd in E. destruct E as (-> & ->). constructor.
          * intros p q d d' id E _ _ _ I _. apply Nd in E. destruct E as (-> & ->). destruct I.
          * intros p d id c0 r d' id' E _ I. apply Nd in E. destruct E as (-> & ->). destruct I.
        + intros [|n p] E; [constructor|]. now elim E.
        + intros [|n p] i mt' c' E S; [rewrite Sr in S; discriminate|discriminate]. }
    destruct Q as (R & T0 & Nm0 & Tr0). clear T Nm Tr. assert (Nl0 : b_lists b0 = (fun _ => None)) by exact Nl. clearbody b0. clear Nl St b. rename b0 into b, T0 into T, Nm0 into Nm, Tr0 into Tr, Nl0 into Nl.
    assert (Cl : forall p, clean_at store b 0 p) by (intros p d id _ _ _; unfold listed; now rewrite Nl).
    assert (Hf : forall i, i_type (f i) = i_type i) by reflexivity.
    assert (V0 : exists i, bview store 0 b [] = Some i /\ i_type i = TDir).
    { exists (a_info (root_of 0 b)). split; [reflexivity|]. apply T. }
    destruct V0 as (i & V & Ti).
    destruct (create_existing store now [] TDir true f b c b1 i) as (R1 & T1 & V1 & C1 & O1); auto.
    assert (V1' : forall q, q <> [] -> bview store 0 b1 q = bview store 0 b q) by (intros q N; rewrite V1, peq_neq by exact N; reflexivity).
    constructor.
    - exact R1.
    - exact T1.
    - intros p Hp. destruct p as [|n p]; [constructor|]. rewrite V1' in Hp by discriminate. auto.
    - intros k P [E|[]]. inversion E. constructor.
    - cbn. constructor; [easy|constructor].
    - intros D k P [E|[]] [E'|[]] _. congruence.
    - intros k P [E|[]]. inversion E; subst. rewrite V1, peq_refl. eexists. split; [reflexivity|]. split; [reflexivity|]. right. split; [reflexivity|]. exists mt. rewrite Hf. split; [exact Sr|]. split; [exact Ti|reflexivity].
    - intros q. destruct q as [|n q]; [right; left; now left|]. left. exists []. split; [now left|]. split; [reflexivity|discriminate].
    - intros D q [E|[]] _ N. inversion E; subst D. rewrite V1' by exact N. intros j mt' c' E1 E2 E3 E4 E5. exact (Tr q j mt' c' E1 E2 E3 E4 E5).
    - intros D q _ _ _. apply C1; [|apply Cl]. intros Pq. destruct q; [reflexivity|discriminate].
    - intros D ops [].
    - intros q. left. exists []. split; [now left|reflexivity]. }
  destruct St as [now u st E Hp|now u st order b' ids E Hp Hq Fl].
  - destruct (X now u E) as (P & C). exists [(2, [])]. split.
    + unfold keys. cbn [m_u m_run map]. rewrite app_nil_r. exact P.
    + eapply core_perm; [reflexivity| |exact C]. intros D ops. cbn [m_run]. split; [easy|]. intros (a & [] & _).
  - destruct (X now u E) as (P & C). exists [(2, [])]. split.
    + unfold keys. cbn [m_u m_run map after_flush u_q]. rewrite app_nil_r. exact P.
    + cbn [m_u after_flush u_b m_run]. destruct (Hflush _ _ _ Fl (c_root _ _ _ _ _ _ _ _ C) (c_tidy _ _ _ _ _ _ _ _ C)) as (R' & T' & Sm & Cl' & Fo & Fv).
      eapply core_perm; [reflexivity| |eapply core_kp; [|eapply core_flush; [exact C|auto|exact R'|exact T'|exact Sm|exact Cl'|exact Fo|exact Fv]]]; [|intros x [Z|Z]; apply in_or_app; auto]. intros D ops. split; [easy|]. intros (a & [] & _).
Qed.

(** UpdateAll from the start to the end. *)
Lemma update_all b fc m0 mt m sid b' keep : src [] = Some (SDir mt) -> btidy store 0 b -> (forall p, bview store 0 b p <> None -> Forall good_name p) ->
  trustworthy truth clists (bview store 0 b) src -> b_lists b = (fun _ => None) ->
  start store flushes push (update_all_ops mt) true b fc m0 -> msteps store clists sort search chunk flushes push max_queued mpt m0 m ->
  finish flushes true sid m b' keep -> m_failed m = false -> manifest_matches truth clists (bview store 0 b') src /\ btidy store 0 b' /\
  match keep with Some K => forall q, kept_at store clists b' (fun x => In x K) q | None => True end.
Proof.
  intros Sr T Nm Tr Cl St Ru Fi Nf. assert (I0 : inv m0) by (eapply inv_start; eassumption). assert (I : m_failed m = true \/ inv m) by (eapply run_inv; eassumption). destruct I as [F|I]; [congruence|].
  destruct Fi as [b' ids Ld Fl]. destruct (inv_done m I Ld) as (M & T1 & R1 & Ke). destruct (Hflush _ _ _ Fl R1 T1) as (R' & T' & Sm & _ & Fo & Fv). split; [|split; [exact T'|]].
  2:{ destruct (m_status m && true); [|exact Logic.I]. intros q. destruct (Ke q) as (K1 & K2). split.
      - intros id O S. rewrite !in_app_iff. destruct (Fo q id O) as [X|X]; [left; auto|auto].
      - intros n j x V Tj Ar Ix. rewrite !in_app_iff. destruct (Fv _ j V) as [(i & Vi & Ei)|X]; [left|right; left; now apply X].
        assert (Sq := Sm (q ++ [n])). rewrite Vi, V in Sq. destruct Sq as (A & _). apply (K2 n i x); auto; [congruence| |now rewrite <- Ei].
        intros y Iy. apply Ar. now rewrite Ei. }
  intros p. exact (matches_same store clists truth _ _ _ (Sm p) (M p)).
Qed.
End Run.
