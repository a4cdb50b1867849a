(** Proofs for C18: a run that ends well. *)
From Verif Require Import Base ListX ModelCdc ModelFileDiff ModelBatch SpecBatch ProofBatch PropBatch ModelProtocol SpecProtocol ProofProtocol.
Local Open Scope N_scope.

Section Run.
Variable size : packet -> N.
Variable cap_out cap_wire cap_in : N.
Hypothesis Pos : 0 < cap_out /\ 0 < cap_wire /\ 0 < cap_in.
Notation step := (step size cap_out cap_wire cap_in).
Notation reach := (reach size cap_out cap_wire cap_in).
Notation total := (total size).

Definition at_out (l : list packet) : chan := mk_chan l [] [].
Definition quiet (c m : proc) (ts ps : list (N * list packet)) : net := mk_net c m ts ps no_packets no_packets.

Lemma ltb0 cap : 0 < cap -> (0 <? cap) = true.
Proof. intros. now apply N.ltb_lt. Qed.
Lemma o0 : (0 <? cap_out) = true. Proof. apply ltb0, Pos. Qed.
Lemma w0 : (0 <? cap_wire) = true. Proof. apply ltb0, Pos. Qed.
Lemma i0 : (0 <? cap_in) = true. Proof. apply ltb0, Pos. Qed.

Ltac work := cbv [ModelProtocol.step n_client n_server n_tasks n_patched n_c2s n_s2c thread_step ch_send ch_to_wire ch_to_in ch_recv ch_out ch_wire ch_in ModelProtocol.total no_packets at_out]; cbn [fold_right app].
Ltac go a := eapply (reach_step _ _ _ _ a); [work; rewrite ?o0, ?w0, ?i0; reflexivity|].

(** The client sends, the server's main thread receives. *)
Lemma c_to_s p c f k ts ps : f p = Some k -> reach (quiet (PSend p c) (PRecv f) ts ps) (quiet c k ts ps).
Proof. intros E. unfold quiet. go AClient. go AWire1. go AWire2. go AServer. cbn. rewrite E. apply reach_refl. Qed.
Lemma c_to_s_all p c stop got k b ts ps : stop p = Some b -> reach (quiet (PSend p c) (PRecvAll stop got k) ts ps) (quiet c (if b then k got else PRecvAll stop (got ++ [p]) k) ts ps).
Proof. intros E. unfold quiet. go AClient. go AWire1. go AWire2. go AServer. cbn. rewrite E. destruct b; apply reach_refl. Qed.
(** The other way round. *)
Lemma s_to_c p m f k ts ps : f p = Some k -> reach (quiet (PRecv f) (PSend p m) ts ps) (quiet k m ts ps).
Proof. intros E. unfold quiet. go AServer. go AWire3. go AWire4. go AClient. cbn. rewrite E. apply reach_refl. Qed.
Lemma s_to_c_all p m stop got k b ts ps : stop p = Some b -> reach (quiet (PRecvAll stop got k) (PSend p m) ts ps) (quiet (if b then k got else PRecvAll stop (got ++ [p]) k) m ts ps).
Proof. intros E. unfold quiet. go AServer. go AWire3. go AWire4. go AClient. cbn. rewrite E. destruct b; apply reach_refl. Qed.
Lemma c_flush c m ts ps : reach (quiet (PFlush c) m ts ps) (quiet c m ts ps).
Proof. unfold quiet. go AClient. apply reach_refl. Qed.
(** The client sends, the patcher receives. *)
Lemma c_to_p q c m i got b ts ps : stop_patch (KPatch q) = Some b ->
  reach (quiet (PSend (KPatch q) c) m ((i, got) :: ts) ps) (if b then quiet c m ts (ps ++ [(i, got)]) else quiet c m ((i, got ++ [KPatch q]) :: ts) ps).
Proof.
  intros E. unfold quiet. go AClient. go AWire1. go AWire2.
  destruct b; (eapply (reach_step _ _ _ _ APatcher); [work; rewrite E; reflexivity|]); apply reach_refl.
Qed.

Lemma c_all stop : forall l eof c got k ts ps, Forall (fun p => stop p = Some false) l -> stop eof = Some true ->
  reach (quiet (send_all (l ++ [eof]) c) (PRecvAll stop got k) ts ps) (quiet c (k (got ++ l)) ts ps).
Proof.
  induction l as [|p l IH]; intros eof c got k ts ps F E.
  - cbn [app send_all fold_right]. rewrite app_nil_r. exact (c_to_s_all eof c stop got k true ts ps E).
  - inversion F; subst. cbn [app send_all fold_right]. eapply reach_trans; [apply (c_to_s_all _ _ _ _ _ false); assumption|]. cbn beta iota.
    replace (got ++ p :: l) with ((got ++ [p]) ++ l) by (rewrite <- app_assoc; reflexivity). now apply IH.
Qed.
Lemma s_all stop : forall l eof m got k ts ps, Forall (fun p => stop p = Some false) l -> stop eof = Some true ->
  reach (quiet (PRecvAll stop got k) (send_all (l ++ [eof]) m) ts ps) (quiet (k (got ++ l)) m ts ps).
Proof.
  induction l as [|p l IH]; intros eof c got k ts ps F E.
  - cbn [app send_all fold_right]. rewrite app_nil_r. exact (s_to_c_all eof c stop got k true ts ps E).
  - inversion F; subst. cbn [app send_all fold_right]. eapply reach_trans; [apply (s_to_c_all _ _ _ _ _ false); assumption|]. cbn beta iota.
    replace (got ++ p :: l) with ((got ++ [p]) ++ l) by (rewrite <- app_assoc; reflexivity). now apply IH.
Qed.

(** ** Missing files *)
Lemma raw_ok raw c : (1 <= raw)%nat -> exists bs, raw_packets raw c = Ok (map KRaw bs ++ [KRaw []]) /\ concat bs = c /\ Forall (fun b => b <> []) bs.
Proof.
  intros R. unfold raw_packets.
  set (h := fun (pos : nat) (st : list packet) (b : option bytes) => Ok (pos, st ++ [KRaw (match b with Some b => b | None => [] end)])).
  assert (X : forall fuel pos st, (length c < fuel + pos)%nat -> (pos <= length c)%nat -> exists bs pos', stream_read (list packet) raw c h fuel pos st = Ok (pos', st ++ map KRaw bs ++ [KRaw []]) /\ concat bs = skipn pos c /\ Forall (fun b => b <> []) bs).
  { induction fuel as [|fuel IH]; intros pos st L1 L2; [lia|]. cbn [stream_read].
    set (block := firstn raw (skipn pos c)). assert (Lb : length block = Nat.min raw (length c - pos)) by (unfold block; rewrite firstn_length, skipn_length; reflexivity).
    assert (Hd : skipn pos c = block ++ skipn (pos + length block) c).
    { unfold block at 1. rewrite <- (firstn_skipn raw (skipn pos c)) at 1. f_equal. rewrite skipn_skipn. destruct (Nat.le_ge_cases raw (length c - pos)) as [Q|Q].
      - f_equal. lia.
      - rewrite !skipn_all2; [reflexivity|lia|lia]. }
    destruct (Nat.eqb_spec (length block) raw) as [E|E].
    - destruct block as [|x block'] eqn:Eb; [cbn in E; lia|]. cbn [bind h fst snd]. destruct (IH (pos + length (x :: block'))%nat (st ++ [KRaw (x :: block')])) as (bs & p' & A & B & C); [rewrite E in *; lia|lia|].
      exists ((x :: block') :: bs), p'. split; [|split; [cbn [concat]; rewrite B; symmetry; exact Hd|constructor; [discriminate|exact C]]].
      refine (eq_trans A _). now rewrite <- app_assoc.
    - destruct block as [|x block'] eqn:Eb; cbn [bind h fst snd].
      + exists [], (pos + 0)%nat. split; [reflexivity|]. split; [|constructor]. cbn. symmetry. apply length_zero_iff_nil. rewrite skipn_length. cbn in Lb. lia.
      + exists [x :: block'], (pos + length (x :: block'))%nat. split; [unfold h; rewrite <- app_assoc; reflexivity|]. split; [|constructor; [discriminate|constructor]]. cbn [concat]. rewrite app_nil_r. rewrite Hd, (skipn_all2 c); [now rewrite app_nil_r|lia]. }
  destruct (X (S (length c)) 0%nat []) as (bs & p' & A & B & C); [lia|lia|]. exists bs. rewrite A. cbn. auto.
Qed.
Lemma raw_of_map bs : raw_of (map KRaw bs) = concat bs.
Proof. induction bs as [|b bs IH]; [reflexivity|]. cbn. f_equal. exact IH. Qed.

Lemma missing_run content raw (R : (1 <= raw)%nat) : forall l n c k acc ts ps, (forall i, In i l -> content i <> None) ->
  exists w, map fst w = l /\ (forall i b, In (i, b) w -> content i = Some b) /\
    reach (quiet (send_missing content raw n l c) (recv_missing n l acc k) ts ps) (quiet c (k (acc ++ w)) ts ps).
Proof.
  induction l as [|i l IH]; intros n c k acc ts ps H.
  - exists []. split; [reflexivity|]. split; [intros ? ? []|]. cbn. rewrite app_nil_r. apply reach_refl.
  - destruct (content i) as [b|] eqn:Ei; [|exfalso; apply (H i); [now left|exact Ei]].
    destruct (raw_ok raw b R) as (bs & Er & Cb & Fb).
    destruct (IH (n + 1) c k (acc ++ [(i, b)]) ts ps) as (w & W1 & W2 & W3); [intros j Ij; apply H; now right|].
    exists ((i, b) :: w). split; [cbn; now rewrite W1|]. split; [intros j x [E|Ix]; [inversion E; subst; exact Ei|eauto]|].
    cbn [send_missing recv_missing]. rewrite Ei, Er. eapply reach_trans; [eapply c_to_s; rewrite N.eqb_refl; reflexivity|].
    eapply reach_trans; [apply c_all; [|reflexivity]|].
    + rewrite Forall_map. eapply Forall_impl; [|exact Fb]. intros [|x y] Hx; [easy|reflexivity].
    + cbn [app]. rewrite raw_of_map, Cb. replace (acc ++ (i, b) :: w) with ((acc ++ [(i, b)]) ++ w) by (rewrite <- app_assoc; reflexivity). exact W3.
Qed.

(** ** Changed files *)
(** All signatures are in the server's queue. *)
Lemma sig_queue : forall sigs pre m c ts ps, (forall l1 p l2, map KSig sigs = l1 ++ p :: l2 -> total (pre ++ l1) < cap_out) ->
  reach (mk_net c (send_all (map KSig sigs) m) ts ps no_packets (at_out pre)) (mk_net c m ts ps no_packets (at_out (pre ++ map KSig sigs))).
Proof.
  induction sigs as [|s sigs IH]; intros pre m c ts ps F; [cbn; rewrite app_nil_r; apply reach_refl|].
  cbn [map send_all fold_right]. assert (L : total pre < cap_out) by (specialize (F [] (KSig s) (map KSig sigs) eq_refl); now rewrite app_nil_r in F).
  eapply (reach_step _ _ _ _ AServer).
  { cbv [ModelProtocol.step n_server thread_step ch_send n_s2c at_out ch_out]. apply N.ltb_lt in L. rewrite L. reflexivity. }
  cbn. replace (pre ++ KSig s :: map KSig sigs) with ((pre ++ [KSig s]) ++ map KSig sigs) by (rewrite <- app_assoc; reflexivity).
  apply (IH (pre ++ [KSig s])). intros l1 p l2 E. rewrite <- app_assoc. apply (F (KSig s :: l1) p l2). cbn. now rewrite E.
Qed.

(** The client receives a signature that is in the server's queue. *)
Lemma take_sig s sigs f k m ts ps c2s : f (KSig s) = Some k ->
  reach (mk_net (PRecv f) m ts ps c2s (at_out (map KSig (s :: sigs)))) (mk_net k m ts ps c2s (at_out (map KSig sigs))).
Proof.
  intros E. cbn [map]. unfold at_out.
  eapply (reach_step _ _ _ _ AWire3); [work; rewrite w0; reflexivity|].
  eapply (reach_step _ _ _ _ AWire4); [work; rewrite i0; reflexivity|].
  eapply (reach_step _ _ _ _ AClient); [reflexivity|]. cbn. rewrite E. apply reach_refl.
Qed.
Lemma put_patch q c m i got b ts ps s2c : stop_patch (KPatch q) = Some b ->
  reach (mk_net (PSend (KPatch q) c) m ((i, got) :: ts) ps no_packets s2c)
        (if b then mk_net c m ts (ps ++ [(i, got)]) no_packets s2c else mk_net c m ((i, got ++ [KPatch q]) :: ts) ps no_packets s2c).
Proof.
  intros E. go AClient. go AWire1. go AWire2.
  destruct b; (eapply (reach_step _ _ _ _ APatcher); [work; rewrite E; reflexivity|]); apply reach_refl.
Qed.

(** What the patcher has after [reqs]: nothing more to do once the empty message is
    there. *)
Inductive patched_by (i : N) : list packet -> list request -> list packet -> Prop :=
| pb_end got eof : stop_patch (KPatch eof) = Some true -> patched_by i got [eof] got
| pb_more got q reqs all : stop_patch (KPatch q) = Some false -> patched_by i (got ++ [KPatch q]) reqs all -> patched_by i got (q :: reqs) all.

Lemma job_late : forall j l, finishes j l -> forall c m i got all ps, (l = [] -> False) -> patched_by i got l all ->
  reach (mk_net (run_job j c) m [(i, got)] ps no_packets no_packets) (quiet c m [] (ps ++ [(i, all)])).
Proof.
  intros j l H. induction H as [|q j l H IH]; intros c m i got all ps N P; [now elim N|].
  cbn [run_job]. inversion P; subst.
  - eapply reach_trans; [apply (put_patch q _ _ _ _ true); assumption|]. cbn beta iota. inversion H; subst. apply reach_refl.
  - eapply reach_trans; [apply (put_patch q _ _ _ _ false); assumption|]. cbn beta iota. apply IH; [|assumption]. intros ->. match goal with X : patched_by _ _ [] _ |- _ => inversion X end.
Qed.

(** Nothing but signatures is left. *)
Lemma job_rest : forall j sigs e l, converses j sigs e l -> e = [] -> l = [] -> forall c m ps,
  reach (mk_net (run_job j c) m [] ps no_packets (at_out (map KSig sigs))) (quiet c m [] ps).
Proof.
  intros j sigs e l H. induction H as [j l H|q j s sigs e l H IH|f s sigs e l H IH]; intros Ee El c m ps.
  - subst l. inversion H; subst. apply reach_refl.
  - discriminate Ee.
  - cbn [run_job]. eapply reach_trans; [apply take_sig; reflexivity|]. now apply IH.
Qed.

(** The signatures are queued, the patcher is waiting. *)
Lemma job_queued : forall j sigs e l, converses j sigs e l -> forall c m i got all ps, patched_by i got (e ++ l) all ->
  reach (mk_net (run_job j c) m [(i, got)] ps no_packets (at_out (map KSig sigs))) (quiet c m [] (ps ++ [(i, all)])).
Proof.
  intros j sigs e l H. induction H as [j l H|q j s sigs e l H IH|f s sigs e l H IH]; intros c m i got all ps P.
  - apply (job_late j l H); [|exact P]. intros ->. inversion P.
  - cbn [run_job]. cbn [app] in P. inversion P as [g eof E|g q' r a E P']; subst.
    + (* the empty message before the last signature *)
      match goal with Hx : [] = _ |- _ => symmetry in Hx; apply app_eq_nil in Hx; destruct Hx as (-> & ->) end.
      eapply reach_trans; [apply (put_patch q _ _ _ _ true); exact E|]. cbn beta iota.
      now apply (job_rest j (s :: sigs) [] [] H).
    + eapply reach_trans; [apply (put_patch q _ _ _ _ false); exact E|]. cbn beta iota. now apply IH.
  - cbn [run_job]. eapply reach_trans; [apply take_sig; reflexivity|]. now apply IH.
Qed.

(** The signatures are sent one by one, the client's packets stay in its queue. *)
Lemma job_early : forall j sigs e l, converses j sigs e l -> forall c m pre ts ps,
  (forall l1 p l2, map KPatch e = l1 ++ p :: l2 -> total (pre ++ l1) < cap_out) ->
  exists j', finishes j' l /\
  reach (mk_net (run_job j c) (send_all (map KSig sigs) m) ts ps (at_out pre) no_packets)
        (mk_net (run_job j' c) m ts ps (at_out (pre ++ map KPatch e)) no_packets).
Proof.
  intros j sigs e l H. induction H as [j l H|q j s sigs e l H IH|f s sigs e l H IH]; intros c m pre ts ps F.
  - exists j. split; [exact H|]. cbn. rewrite app_nil_r. apply reach_refl.
  - destruct (IH c m (pre ++ [KPatch q]) ts ps) as (j' & A & B).
    { intros l1 p l2 E. rewrite <- app_assoc. apply (F (KPatch q :: l1) p l2). cbn. now rewrite E. }
    exists j'. split; [exact A|]. cbn [run_job]. assert (L : total pre < cap_out) by (specialize (F [] (KPatch q) (map KPatch e) eq_refl); now rewrite app_nil_r in F).
    eapply (reach_step _ _ _ _ AClient).
    { cbv [ModelProtocol.step n_client thread_step ch_send n_c2s at_out ch_out]. apply N.ltb_lt in L. rewrite L. reflexivity. }
    cbn [map]. replace (pre ++ KPatch q :: map KPatch e) with ((pre ++ [KPatch q]) ++ map KPatch e) by (rewrite <- app_assoc; reflexivity). exact B.
  - destruct (IH c m pre ts ps F) as (j' & A & B). exists j'. split; [exact A|]. cbn [run_job map send_all fold_right].
    go AServer. go AWire3. go AWire4. eapply (reach_step _ _ _ _ AClient); [reflexivity|]. cbn. exact B.
Qed.
(** The patcher empties the client's queue. *)
Lemma drain : forall e c m i got l all ps, patched_by i got (e ++ l) all -> l <> [] ->
  exists got', patched_by i got' l all /\ reach (mk_net c m [(i, got)] ps (at_out (map KPatch e)) no_packets) (mk_net c m [(i, got')] ps no_packets no_packets).
Proof.
  induction e as [|q e IH]; intros c m i got l all ps P N; [exists got; split; [exact P|apply reach_refl]|].
  cbn [app] in P. inversion P as [g eof E|g q' r a E P']; subst.
  - match goal with Hx : [] = _ |- _ => symmetry in Hx; apply app_eq_nil in Hx; destruct Hx as (-> & ->) end. easy.
  - destruct (IH c m i (got ++ [KPatch q]) l all ps P' N) as (got' & A & B). exists got'. split; [exact A|]. cbn [map]. unfold at_out.
    eapply (reach_step _ _ _ _ AWire1); [work; rewrite w0; reflexivity|].
    eapply (reach_step _ _ _ _ AWire2); [work; rewrite i0; reflexivity|].
    eapply (reach_step _ _ _ _ APatcher); [work; rewrite E; reflexivity|]. exact B.
Qed.
(** All patch commands may be early. *)
Lemma drain_all : forall e c m i got all ps, patched_by i got e all ->
  reach (mk_net c m [(i, got)] ps (at_out (map KPatch e)) no_packets) (quiet c m [] (ps ++ [(i, all)])).
Proof.
  induction e as [|q e IH]; intros c m i got all ps P; [inversion P|].
  cbn [map]. unfold at_out.
  eapply (reach_step _ _ _ _ AWire1); [work; rewrite w0; reflexivity|].
  eapply (reach_step _ _ _ _ AWire2); [work; rewrite i0; reflexivity|].
  inversion P as [g eof E|g q' r a E P']; subst.
  - eapply (reach_step _ _ _ _ APatcher); [work; rewrite E; reflexivity|]. apply reach_refl.
  - eapply (reach_step _ _ _ _ APatcher); [work; rewrite E; reflexivity|]. now apply IH.
Qed.

Lemma patched_by_intro i : forall qs got eof, stop_patch (KPatch eof) = Some true -> Forall (fun q => stop_patch (KPatch q) = Some false) qs ->
  patched_by i got (qs ++ [eof]) (got ++ map KPatch qs).
Proof.
  induction qs as [|q qs IH]; intros got eof E F; [cbn; rewrite app_nil_r; now constructor|]. inversion F; subst. cbn [app map]. constructor; [assumption|].
  replace (got ++ KPatch q :: map KPatch qs) with ((got ++ [KPatch q]) ++ map KPatch qs) by (rewrite <- app_assoc; reflexivity). now apply IH.
Qed.

Lemma stop_patch_end q : rq_sources q = [] /\ rq_offsets q = [] /\ rq_sizes q = [] -> stop_patch (KPatch q) = Some true.
Proof. intros (A & B & C). unfold stop_patch. now rewrite A, B, C. Qed.
Lemma stop_patch_more qs : Forall (fun q => rq_sources q <> [] /\ length (rq_offsets q) = length (rq_sources q) /\ length (rq_sizes q) = length (rq_sources q)) qs ->
  Forall (fun q => stop_patch (KPatch q) = Some false) qs.
Proof.
  intros F. eapply Forall_impl; [|exact F]. intros q (A & B & C). unfold stop_patch. rewrite B, C, Nat.eqb_refl. cbn. now destruct (rq_sources q).
Qed.
Lemma stop_files_end a : aq_files a = [] /\ aq_dirs a = [] -> stop_files (KAddFiles a) = Some true.
Proof. intros (A & B). unfold stop_files. now rewrite A, B. Qed.
Lemma stop_files_more l : Forall (fun a => aq_files a <> [] \/ aq_dirs a <> []) l -> Forall (fun a => stop_files (KAddFiles a) = Some false) l.
Proof. intros F. eapply Forall_impl; [|exact F]. intros a [A|A]; unfold stop_files; destruct (aq_files a), (aq_dirs a); easy. Qed.

(** One changed file. *)
Lemma file_run j sigs reqs i c m ps : syncs size cap_out j sigs reqs ->
  exists qs eof, reqs = qs ++ [eof] /\ reach (quiet (run_job j c) (send_all (map KSig sigs) (PFork i m)) [] ps) (quiet c m [] (ps ++ [(i, map KPatch qs)])).
Proof.
  intros (e & l & Cv & El & (qs & eof & Er & Et & Fq) & Fi). exists qs, eof. split; [exact Er|]. apply stop_patch_end in Et. apply stop_patch_more in Fq.
  assert (P : patched_by i [] (e ++ l) (map KPatch qs)) by (rewrite El, Er; now apply (patched_by_intro i qs [])).
  unfold quiet. destruct Fi as [Fi|Fi].
  - eapply reach_trans; [apply (sig_queue sigs []); exact Fi|]. eapply (reach_step _ _ _ _ AServer); [reflexivity|]. cbn [n_client n_tasks n_patched n_c2s n_s2c app].
    now apply (job_queued j sigs e l Cv).
  - destruct (job_early j sigs e l Cv c (PFork i m) [] [] ps Fi) as (j' & Fj & B). eapply reach_trans; [exact B|]. cbn [app].
    eapply (reach_step _ _ _ _ AServer); [reflexivity|]. cbn [n_client n_tasks n_patched n_c2s n_s2c app].
    destruct l as [|q l].
    + inversion Fj; subst. cbn [run_job]. rewrite app_nil_r in P. now apply drain_all.
    + destruct (drain e (run_job j' c) m i [] (q :: l) (map KPatch qs) ps P) as (got' & P' & D); [discriminate|]. eapply reach_trans; [exact D|].
      apply (job_late j' (q :: l) Fj); [discriminate|exact P'].
Qed.
Lemma patches_of_map qs : patches_of (map KPatch qs) = qs.
Proof. induction qs as [|q qs IH]; [reflexivity|]. cbn. f_equal. exact IH. Qed.

Lemma changed_run content diff_job signature reqs : forall l c k ps, l <> [] -> (forall i, In i l -> content i <> None) ->
  (forall i, In i l -> syncs size cap_out (diff_job i) (signature i) (reqs i)) ->
  exists w, map fst w = l /\ (forall i p, In (i, p) w -> exists eof, reqs i = patches_of p ++ [eof]) /\
    reach (quiet (send_delta content diff_job l c) (send_signatures signature l k) [] ps) (quiet c k [] (ps ++ w)).
Proof.
  induction l as [|i l IH]; intros c k ps N Hc Hs; [easy|]. cbn [send_delta send_signatures].
  destruct (content i) as [b|] eqn:Ei; [|exfalso; apply (Hc i); [now left|exact Ei]].
  set (rest := match l with [] => PJoin k | _ => send_signatures signature l k end).
  destruct (file_run (diff_job i) (signature i) (reqs i) i (send_delta content diff_job l c) rest ps) as (qs & eof & Er & B); [apply Hs; now left|].
  assert (Hd : reach (quiet (PRecv (fun p => match p with KSigHeader ci => if ci =? i then Some (run_job (diff_job i) (send_delta content diff_job l c)) else None | _ => None end))
                       (PSend (KSigHeader i) (send_all (map KSig (signature i)) (PFork i rest))) [] ps)
                (quiet (run_job (diff_job i) (send_delta content diff_job l c)) (send_all (map KSig (signature i)) (PFork i rest)) [] ps)).
  { apply s_to_c. now rewrite N.eqb_refl. }
  destruct l as [|i' l].
  - exists [(i, map KPatch qs)]. split; [reflexivity|]. split.
    + intros i' p [E|[]]. injection E as <- <-. exists eof. rewrite patches_of_map. exact Er.
    + eapply reach_trans; [exact Hd|]. eapply reach_trans; [exact B|]. unfold rest. eapply (reach_step _ _ _ _ AServer); [reflexivity|]. apply reach_refl.
  - destruct (IH c k (ps ++ [(i, map KPatch qs)])) as (w & W1 & W2 & W3); [discriminate|intros; apply Hc; now right|intros; apply Hs; now right|].
    exists ((i, map KPatch qs) :: w). split; [cbn; now rewrite W1|]. split.
    + intros i'' p [E|I]; [injection E as <- <-; exists eof; rewrite patches_of_map; exact Er|eauto].
    + eapply reach_trans; [exact Hd|]. eapply reach_trans; [exact B|]. replace (ps ++ (i, map KPatch qs) :: w) with ((ps ++ [(i, map KPatch qs)]) ++ w) by (rewrite <- app_assoc; reflexivity). exact W3.
Qed.

(** ** The whole sync *)
Lemma files_of_map l : files_of (map KAddFiles l) = l.
Proof. induction l as [|a l IH]; [reflexivity|]. cbn. f_equal. exact IH. Qed.
Lemma deleted_of_map l : deleted_of (map KAddDeleted l) = l.
Proof. induction l as [|a l IH]; [reflexivity|]. cbn. f_equal. exact IH. Qed.
Lemma indices_of_map l : indices_of (map KFileIndices l) = concat l.
Proof. induction l as [|a l IH]; [reflexivity|]. cbn. f_equal. exact IH. Qed.

Lemma indices_run num_files idx k m ts ps : Forall (fun i => i < N.of_nat num_files) idx ->
  reach (quiet (receive_file_indices num_files k) (send_file_indices_then idx m) ts ps) (quiet (k idx) m ts ps).
Proof.
  intros F. unfold receive_file_indices, send_file_indices_then.
  destruct (C14_index_list num_files idx []) as (R & _ & ms & E & Fm). specialize (R F). rewrite E in *.
  assert (Fn : Forall (fun m => m <> []) ms) by (eapply Forall_impl; [|exact Fm]; now intros x (? & _)).
  assert (C : concat ms = idx).
  { rewrite <- app_assoc in R. cbn [app] in R. rewrite (receive_indices_spec num_files [] ms Fn []) in R. cbn [app] in R. destruct (existsb _ _); [discriminate|]. now inversion R. }
  rewrite map_app. cbn [map]. eapply reach_trans.
  - apply s_all; [|reflexivity]. rewrite Forall_map. eapply Forall_impl; [|exact Fn]. intros [|x l] Hx; [easy|reflexivity].
  - cbn [app]. rewrite indices_of_map, C. replace (existsb (fun i => N.of_nat num_files <=? i) idx) with false; [apply reach_refl|].
    symmetry. apply not_true_is_false. intros X. apply existsb_exists in X. destruct X as (i & Ii & Li). rewrite Forall_forall in F. specialize (F i Ii). apply N.leb_le in Li. lia.
Qed.

Lemma deleted_run threshold fs ds k m ts ps : Forall clean_path fs -> Forall clean_path ds ->
  let deleted := map (fun p => (p, false)) fs ++ map (fun p => (p, true)) ds in
  exists msgs eof, empty_response eof /\ receive_deleted (msgs ++ [eof]) = Ok (deleted, []) /\
  reach (quiet (receive_deleted_files k) (send_all (map KAddDeleted (fds_flush (report_all threshold deleted fds_init))) m) ts ps) (quiet (k msgs) m ts ps).
Proof.
  intros Cf Cd deleted. destruct (C14_deletion_list threshold fs ds [] Cf Cd) as (R & ms & eof & E & Em & Fm). fold deleted in R, E. exists ms, eof. split; [exact Em|].
  split; [rewrite <- E, <- R; now rewrite app_nil_r|]. rewrite E, map_app. cbn [map]. unfold receive_deleted_files. eapply reach_trans.
  - apply s_all.
    + rewrite Forall_map. eapply Forall_impl; [|exact Fm]. intros [d f g] Hx. cbn in Hx |- *. destruct f; [|reflexivity]. destruct g; [|reflexivity]. elim Hx. split; reflexivity.
    + destruct eof as [d f g]. destruct Em as (Ef & Eg). cbn in Ef, Eg |- *. now rewrite Ef, Eg.
  - cbn [app]. rewrite deleted_of_map. apply reach_refl.
Qed.

Lemma start_run o c m ts ps : reach (quiet (start_compression o c) (expect_toggle o m) ts ps) (quiet c m ts ps).
Proof.
  unfold start_compression, expect_toggle. destruct (o_compress o); [|apply reach_refl].
  eapply reach_trans; [apply c_to_s; reflexivity|]. eapply reach_trans; [apply c_flush|]. apply c_flush.
Qed.
Lemma stop_run o c m ts ps : reach (quiet (stop_compression o c) (send_toggle o m) ts ps) (quiet c m ts ps).
Proof.
  unfold stop_compression, send_toggle. destruct (o_compress o); [|apply reach_refl].
  eapply reach_trans; [apply c_flush|]. eapply reach_trans; [apply c_flush|]. unfold recv_toggle. apply s_to_c. reflexivity.
Qed.

Lemma missing_all o content raw (R : (1 <= raw)%nat) l c k ts ps : (o_dry_run o = false -> forall i, In i l -> content i <> None) ->
  exists w, (if o_dry_run o then w = [] else map fst w = l /\ (forall i b, In (i, b) w -> content i = Some b)) /\
    reach (quiet (client_missing o content raw l c) (server_missing o l k) ts ps) (quiet c (k w) ts ps).
Proof.
  intros H. unfold client_missing, server_missing. destruct (o_dry_run o) eqn:D.
  - exists []. split; [reflexivity|]. rewrite orb_true_r. apply reach_refl.
  - rewrite orb_false_r. destruct l as [|i l].
    + exists []. split; [split; [reflexivity|intros ? ? []]|]. apply reach_refl.
    + destruct (missing_run content raw R (i :: l) 0 (stop_compression o c) (fun w => send_toggle o (k w)) [] ts ps (H eq_refl)) as (w & A & B & C).
      exists w. split; [split; assumption|]. eapply reach_trans; [apply start_run|]. eapply reach_trans; [exact C|]. cbn [app]. apply stop_run.
Qed.
Lemma changed_all o content diff_job signature reqs l c k :
  (o_dry_run o = false -> forall i, In i l -> content i <> None /\ syncs size cap_out (diff_job i) (signature i) (reqs i)) ->
  exists w, (if o_dry_run o then w = [] else map fst w = l /\ (forall i p, In (i, p) w -> exists eof, reqs i = patches_of p ++ [eof])) /\
    reach (quiet (client_changed o content diff_job l c) (server_changed signature o l k) [] []) (quiet c k [] w).
Proof.
  intros H. unfold client_changed, server_changed. destruct (o_dry_run o) eqn:D.
  - exists []. split; [reflexivity|]. rewrite orb_true_r. apply reach_refl.
  - rewrite orb_false_r. destruct l as [|i l].
    + exists []. split; [split; [reflexivity|intros ? ? []]|]. apply reach_refl.
    + destruct (changed_run content diff_job signature reqs (i :: l) (stop_compression o c) (send_toggle o k) []) as (w & A & B & C); [discriminate|intros j Ij; now apply (H eq_refl j Ij)|intros j Ij; now apply (H eq_refl j Ij)|].
      exists w. split; [split; assumption|]. eapply reach_trans; [apply start_run|]. eapply reach_trans; [exact C|]. cbn [app]. apply stop_run.
Qed.

Section Sync.
Variables (opts : popts) (batches files : list addfiles) (num_files : nat) (content : N -> option bytes) (raw_size : nat) (diff_job : N -> job)
  (make_plan : popts -> list addfiles -> plan) (threshold : N) (signature : N -> list sigmsg) (reqs : N -> list request).
Let pl := make_plan opts files.
Hypothesis Hf : files_end_empty batches files.
Hypothesis Hp : good_plan num_files pl.
Hypothesis Hr : (1 <= raw_size)%nat.
Hypothesis Hm : o_dry_run opts = false -> forall i, In i (pl_missing pl) -> content i <> None.
Hypothesis Hc : o_dry_run opts = false -> forall i, In i (pl_changed pl) -> content i <> None /\ syncs size cap_out (diff_job i) (signature i) (reqs i).

Lemma sync_run : exists t, reach (quiet (client opts batches num_files content raw_size diff_job) (server make_plan threshold signature) [] []) t /\ agreed opts files pl content reqs t.
Proof.
  destruct Hf as (eof & Eb & Ee & Ff). apply stop_files_end in Ee. apply stop_files_more in Ff. destruct Hp as (Fm & Fc & fs & ds & Cf & Cd & Ed).
  destruct (missing_all opts content raw_size Hr (pl_missing pl)
     (receive_file_indices num_files (fun changed => client_changed opts content diff_job changed (PSend KShutdown (PRecv (fun p => match p with KShutdown => Some (PDone (mk_presult [] [] [] (pl_missing pl) changed)) | _ => None end)))))
     (fun w => PDone (mk_presult [] w [] [] [])) [] [] Hm) as (w0 & _ & _).
  assert (Tail : forall msgs, exists w v, (if o_dry_run opts then w = [] else map fst w = pl_missing pl /\ (forall i b, In (i, b) w -> content i = Some b)) /\
      (if o_dry_run opts then v = [] else map fst v = pl_changed pl /\ (forall i p, In (i, p) v -> exists e, reqs i = patches_of p ++ [e])) /\
      reach (quiet (receive_file_indices num_files (fun missing => client_missing opts content raw_size missing
               (receive_file_indices num_files (fun changed => client_changed opts content diff_job changed
                 (PSend KShutdown (PRecv (fun p => match p with KShutdown => Some (PDone (mk_presult [] [] msgs missing changed)) | _ => None end)))))))
              (send_file_indices_then (pl_missing pl) (server_missing opts (pl_missing pl) (fun written =>
                send_file_indices_then (pl_changed pl) (server_changed signature opts (pl_changed pl)
                  (PRecv (fun p => match p with KShutdown => Some (PSend KShutdown (PDone (mk_presult files written [] (pl_missing pl) (pl_changed pl)))) | _ => None end)))))) [] [])
            (quiet (PDone (mk_presult [] [] msgs (pl_missing pl) (pl_changed pl))) (PDone (mk_presult files w [] (pl_missing pl) (pl_changed pl))) [] v)).
  { intros msgs.
    set (k := fun written => send_file_indices_then (pl_changed pl) (server_changed signature opts (pl_changed pl)
                  (PRecv (fun p => match p with KShutdown => Some (PSend KShutdown (PDone (mk_presult files written [] (pl_missing pl) (pl_changed pl)))) | _ => None end)))).
    set (c := receive_file_indices num_files (fun changed => client_changed opts content diff_job changed
                 (PSend KShutdown (PRecv (fun p => match p with KShutdown => Some (PDone (mk_presult [] [] msgs (pl_missing pl) changed)) | _ => None end))))).
    destruct (missing_all opts content raw_size Hr (pl_missing pl) c k [] [] Hm) as (w & W & Rw).
    set (c2 := PSend KShutdown (PRecv (fun p => match p with KShutdown => Some (PDone (mk_presult [] [] msgs (pl_missing pl) (pl_changed pl))) | _ => None end))).
    set (k2 := PRecv (fun p => match p with KShutdown => Some (PSend KShutdown (PDone (mk_presult files w [] (pl_missing pl) (pl_changed pl)))) | _ => None end)).
    destruct (changed_all opts content diff_job signature reqs (pl_changed pl) c2 k2 Hc) as (v & V & Rv).
    exists w, v. split; [exact W|]. split; [exact V|].
    eapply reach_trans; [apply indices_run; exact Fm|]. cbn beta. eapply reach_trans; [exact Rw|]. unfold c, k.
    eapply reach_trans; [apply indices_run; exact Fc|]. cbn beta. eapply reach_trans; [exact Rv|]. unfold c2, k2.
    eapply reach_trans; [apply c_to_s; reflexivity|]. apply s_to_c. reflexivity. }
  clear w0.
  assert (Head : forall t,
     reach (quiet (let rest (del : list addDeleted) :=
               receive_file_indices num_files (fun missing => client_missing opts content raw_size missing
                (receive_file_indices num_files (fun changed => client_changed opts content diff_job changed
                 (PSend KShutdown (PRecv (fun p => match p with KShutdown => Some (PDone (mk_presult [] [] del missing changed)) | _ => None end)))))) in
               if o_delete opts then receive_deleted_files rest else rest [])
             ((if o_delete opts then send_all (map KAddDeleted (fds_flush (report_all threshold (pl_deleted pl) fds_init))) else (fun k => k))
               (send_file_indices_then (pl_missing pl) (server_missing opts (pl_missing pl) (fun written =>
                send_file_indices_then (pl_changed pl) (server_changed signature opts (pl_changed pl)
                  (PRecv (fun p => match p with KShutdown => Some (PSend KShutdown (PDone (mk_presult files written [] (pl_missing pl) (pl_changed pl)))) | _ => None end))))))) [] []) t ->
     reach (quiet (client opts batches num_files content raw_size diff_job) (server make_plan threshold signature) [] []) t).
  { intros t Rt. unfold client, server. eapply reach_trans; [apply c_to_s; reflexivity|]. rewrite Eb, map_app. cbn [map].
    eapply reach_trans.
    - apply c_all; [rewrite Forall_map; exact Ff|exact Ee].
    - cbn [app]. rewrite files_of_map. eapply reach_trans; [apply s_to_c; reflexivity|]. exact Rt. }
  destruct (o_delete opts) eqn:D.
  - destruct (deleted_run threshold fs ds (fun del =>
               receive_file_indices num_files (fun missing => client_missing opts content raw_size missing
                (receive_file_indices num_files (fun changed => client_changed opts content diff_job changed
                 (PSend KShutdown (PRecv (fun p => match p with KShutdown => Some (PDone (mk_presult [] [] del missing changed)) | _ => None end)))))))
        (send_file_indices_then (pl_missing pl) (server_missing opts (pl_missing pl) (fun written =>
                send_file_indices_then (pl_changed pl) (server_changed signature opts (pl_changed pl)
                  (PRecv (fun p => match p with KShutdown => Some (PSend KShutdown (PDone (mk_presult files written [] (pl_missing pl) (pl_changed pl)))) | _ => None end)))))) [] [] Cf Cd) as (msgs & me & Me & Rd & Rr).
    destruct (Tail msgs) as (w & v & W & V & Rt). eexists. split.
    + apply Head. rewrite Ed. eapply reach_trans; [exact Rr|]. exact Rt.
    + exists w, msgs. unfold quiet. cbn. rewrite D, Ed. repeat (split; [reflexivity|]). split; [eauto|]. destruct (o_dry_run opts); [auto|]. destruct W, V. auto.
  - destruct (Tail []) as (w & v & W & V & Rt). eexists. split.
    + apply Head. exact Rt.
    + exists w, []. unfold quiet. cbn. rewrite D. repeat (split; [reflexivity|]). destruct (o_dry_run opts); [auto|]. destruct W, V. auto.
Qed.

Lemma agreed_stuck t : agreed opts files pl content reqs t -> stuck size cap_out cap_wire cap_in t.
Proof.
  intros (w & msgs & A & B & C & D & E & _) a. destruct t as [c m ts ps x y]. cbn in A, B, C, D, E. subst. destruct a; reflexivity.
Qed.
End Sync.
End Run.

(** The server's main thread does not receive while tasks are pending. *)
Lemma patient_send_all b ps k : patient b k -> patient b (send_all ps k).
Proof. induction ps as [|p ps IH]; [easy|]. intros H. cbn. now apply IH. Qed.
Lemma patient_signatures signature k : forall l b, l <> [] -> patient false k -> patient b (send_signatures signature l k).
Proof.
  induction l as [|i l IH]; intros b N H; [easy|]. cbn [send_signatures patient]. apply patient_send_all. cbn [patient]. destruct l as [|j l]; [exact H|]. apply IH; [discriminate|exact H].
Qed.
Lemma patient_toggle o k : patient false k -> patient false (expect_toggle o k) /\ patient false (send_toggle o k).
Proof. intros H. unfold expect_toggle, send_toggle. destruct (o_compress o); [|split; exact H]. cbn. split; [|exact H]. split; [reflexivity|]. intros pk; destruct pk; try exact I; try exact H. Qed.
Lemma patient_missing k : (forall w, patient false (k w)) -> forall l n acc, patient false (recv_missing n l acc k).
Proof.
  intros H. induction l as [|i l IH]; intros n acc; [apply H|]. cbn [recv_missing patient]. split; [reflexivity|]. intros pk; destruct pk; try exact I; try exact H. destruct (_ =? _); [|exact I]. cbn. split; [reflexivity|]. intros. apply IH.
Qed.
Lemma patient_server make_plan threshold signature : patient false (server make_plan threshold signature).
Proof.
  unfold server. cbn [patient]. split; [reflexivity|]. intros pk; destruct pk; try exact I; try exact H. cbn [patient]. split; [reflexivity|]. intros got. set (pl := make_plan o (files_of got)). cbn [patient].
  assert (X : forall k, patient false k -> patient false ((if o_delete o then send_all (map KAddDeleted (fds_flush (report_all threshold (pl_deleted pl) fds_init))) else fun k => k) k)) by (intros k Hk; destruct (o_delete o); [now apply patient_send_all|exact Hk]).
  apply X. unfold send_file_indices_then. apply patient_send_all. unfold server_missing.
  assert (Y : forall w, patient false (send_all (map KFileIndices (send_file_indices (pl_changed pl))) (server_changed signature o (pl_changed pl)
      (PRecv (fun p => match p with KShutdown => Some (PSend KShutdown (PDone (mk_presult (files_of got) w [] (pl_missing pl) (pl_changed pl)))) | _ => None end))))).
  { intros w. apply patient_send_all. unfold server_changed.
    assert (Z : patient false (PRecv (fun p => match p with KShutdown => Some (PSend KShutdown (PDone (mk_presult (files_of got) w [] (pl_missing pl) (pl_changed pl)))) | _ => None end))).
    { cbn. split; [reflexivity|]. intros pk; destruct pk; exact I. }
    destruct (o_dry_run o); [exact Z|]. destruct (pl_changed pl) as [|i l] eqn:El; [exact Z|].
    apply patient_toggle. apply patient_signatures; [discriminate|]. now apply patient_toggle. }
  destruct (o_dry_run o); [apply Y|]. destruct (pl_missing pl); [apply Y|]. apply patient_toggle. apply patient_missing. intros w. now apply patient_toggle.
Qed.
