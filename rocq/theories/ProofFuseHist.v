(** The invariant of all histories. *)
From Verif Require Import Base ListX Str ModelFuse SpecFuse ProofFuseMem ProofFuseInv ProofFuseOps ProofFusePath ProofFuseSet ProofFuseFin ProofFuseExec ProofFuseWorld.
Local Open Scope N_scope.

Definition is_forget (o : op) : bool := match o with OForget _ => true | _ => false end.
Lemma uses_some o : is_forget o = false -> exists i, uses o i.
Proof. destruct o; try discriminate; intros _; eexists; reflexivity. Qed.
Lemma uses_one o i j : uses o i -> uses o j -> i = j.
Proof. destruct o; cbn; intros; try contradiction; congruence. Qed.
Lemma uses_resumed name o i : uses (resumed name o) i <-> uses o i.
Proof. destruct o; reflexivity. Qed.
Definition is_queued (r : reply) : bool := match r with RQueued _ => true | _ => false end.

Section Store.
Variable store : cid -> option (list aproto).

Lemma asset_at_below root path a : asset_at store root path = Some a -> below store root a.
Proof.
  revert root. induction path as [|n path IH]; intros root H; cbn in H; [inversion H; constructor|].
  destruct (ap_type root); try discriminate. destruct (find (is_name n) (dir_children store root)) as [c|] eqn:Fd; [|discriminate].
  apply find_some in Fd. econstructor; [apply Fd|auto].
Qed.
Lemma queued_progress fetch root path i o s : answers store fetch root path i o (RQueued s) -> is_forget o = false -> exists a, below store root a /\ ap_progress a = true.
Proof.
  intros (a & A & H) Nf. exists a. split; [eapply asset_at_below; eauto|]. cbv zeta in H.
  destruct (ap_progress a) eqn:P; auto. exfalso.
  destruct o; cbn in Nf; try discriminate.
  - destruct (asset_at store root (path ++ [name])); [|discriminate]. destruct H as [(j & t & H & _)|[H _]]; discriminate.
  - destruct H as (t & H & _); discriminate.
  - destruct (ap_type a); try discriminate. destruct (N.testbit flags 0 || N.testbit flags 1); [discriminate|]. rewrite andb_false_r in H. destruct H; discriminate.
  - destruct H as [H|[_ H]]; discriminate.
  - destruct (ap_type a); discriminate H.
  - destruct (ap_type a); try discriminate. destruct H as [(e1 & e2 & l & H & _)|[H _]]; discriminate.
  - destruct H as [[H _]|[H _]]; discriminate.
Qed.

Lemma sent_same y y' : sy_log y' = sy_log y -> sent y y' = [].
Proof. intros E. unfold sent. rewrite E. apply skipn_all. Qed.

Record WI (full_ : Prop) (w : world) : Prop := {
  wi_ki : KI store full_ (sy_st (w_sys w)) (w_root w) (w_kernel w) (w_paths w) (w_changed w);
  wi_waiting : forall rq, In rq (sy_queue (w_sys w) ++ sy_drain (w_sys w)) -> is_forget (rq_op rq) = false /\ forall i, uses (rq_op rq) i -> knows (w_kernel w) i;
  wi_log : Permutation (map fst (sy_log (w_sys w)) ++ map rq_id (sy_queue (w_sys w) ++ sy_drain (w_sys w))) (w_issued w);
  wi_issued : NoDup (w_issued w);
  wi_drain : sy_stage (w_sys w) <> StDrain -> sy_drain (w_sys w) = [];
  wi_complete : complete store (w_root w) -> sy_stage (w_sys w) <> StSet -> sy_queue (w_sys w) = []
}.

Lemma init_wi full_ : WI full_ init_world.
Proof.
  assert (NC : forall c, In c (dir_children store empty_root) -> False) by (intros c []).
  assert (BL : forall d, below store empty_root d -> d = empty_root).
  { intros d B. inversion B; subst; auto. exfalso. eapply NC; eauto. }
  split; cbn [init_world w_sys w_root w_kernel w_paths w_changed w_issued init_sys sy_st sy_queue sy_drain sy_log sy_stage].
  - split.
    + split.
      * split; cbn [init_state st_objs st_map st_invalid].
        -- constructor.
        -- intros [].
        -- exact Logic.I.
        -- intros i r G. unfold get_inode in G. destruct (N.eqb_spec i root_ino); [inversion G; subst; reflexivity|discriminate].
        -- intros p i. split; [discriminate|]. intros (r & O & _). discriminate.
        -- constructor.
        -- intros i. split; [intros []|]. intros (r & O & _). discriminate.
        -- intros i r O. discriminate.
        -- intros i r O. discriminate.
        -- intros i r O. discriminate.
      * split; cbn [init_state st_root st_heap st_next st_manifest st_objs i_asset as_proto as_lists]; auto.
        -- intros d B. rewrite (BL d B). constructor.
        -- intros c d H. exfalso. eapply NC; eauto.
        -- intros b l. cbn. destruct (Nat.eqb_spec b 0); [lia|discriminate].
        -- intros i r O. discriminate.
        -- apply (direct_ok store [(0%nat, [empty_root])] (mkptr 0 0 []) empty_root root_ino); [reflexivity|constructor].
        -- intros i r O. discriminate.
        -- intros i r O. discriminate.
    + intros i X. lia.
    + intros i r [->|X] G V; [exists []; split; [reflexivity|constructor]|lia].
    + intros _ i r p [->|X] P G; [|lia]. cbn in G. inversion G; subst. reflexivity.
    + intros i [].
  - intros rq [].
  - constructor.
  - constructor.
  - reflexivity.
  - reflexivity.
Qed.

(** The effects of serving a request on the kernel's part. *)
Definition logged (y : sys) (id : nat) (rep : reply) : list (nat * reply) := if is_queued rep then sy_log y else sy_log y ++ [(id, rep)].
Lemma next_served w ev y' rq e rep : serves w ev = Some (rq, e) -> is_forget (rq_op rq) = false -> sy_log y' = logged (w_sys w) (rq_id rq) rep ->
  next_kernel w ev y' = learned (w_kernel w) rep /\ next_paths store w ev y' = paths_after (w_paths w) (rq_op rq) rep /\
  next_changed store w ev y' = changed_after (w_changed w) (rq_op rq) rep /\
  match ev with EManifest (Some a) _ _ => a | _ => w_root w end = w_root w /\
  sent (w_sys w) y' = if is_queued rep then [] else [(rq_id rq, rep)].
Proof.
  intros S Nf L.
  assert (Se : sent (w_sys w) y' = if is_queued rep then [] else [(rq_id rq, rep)]).
  { unfold sent. rewrite L. unfold logged. destruct (is_queued rep); [|apply skipn_len]. rewrite <- (app_nil_r (sy_log (w_sys w))) at 2. apply skipn_len. }
  assert (R : runs w ev = Some (rq_op rq)) by (unfold runs; rewrite S; reflexivity).
  unfold next_kernel, next_paths, next_changed. rewrite R, Se.
  destruct ev as [rq0 e0|root e0 sh| |nm e0|]; cbn [serves] in S; try discriminate.
  - inversion S; subst rq0 e0. destruct (rq_op rq); try discriminate; destruct rep; cbn; auto.
  - destruct (sy_drain (w_sys w)) as [|rq0 d]; [discriminate|]. inversion S; subst rq e0. cbn [rq_op rq_id] in *.
    destruct (resumed nm (rq_op rq0)); try discriminate; destruct rep; cbn; auto.
Qed.

Lemma handle_eq e y q d rq rep st' : exec (e_fetch e) (e_alloc e) (e_read e) (sy_st y) (rq_op rq) = Ok (rep, st') ->
  handle e y q d rq = Ok (mksys st' (if is_queued rep then q ++ [rq] else q) d (sy_stage y) (logged y (rq_id rq) rep)).
Proof. intros E. unfold handle. rewrite E. cbn [bind]. unfold logged. destruct rep; reflexivity. Qed.

(** Serving any request but forget. *)
Lemma served_ok full_ w ev rq e i q d : WI full_ w -> serves w ev = Some (rq, e) -> is_forget (rq_op rq) = false -> env_ok store e ->
  uses (rq_op rq) i -> knows (w_kernel w) i ->
  sys_exec (w_sys w) ev = handle e (w_sys w) q d rq ->
  exists rep st' r, sys_exec (w_sys w) ev = Ok (mksys st' (if is_queued rep then q ++ [rq] else q) d (sy_stage (w_sys w)) (logged (w_sys w) (rq_id rq) rep)) /\
    live (sy_st (w_sys w)) i r /\ ran store (e_fetch e) (sy_st (w_sys w)) st' (w_root w) i r (rq_op rq) rep /\
    KI store full_ st' (w_root w) (learned (w_kernel w) rep) (paths_after (w_paths w) (rq_op rq) rep) (changed_after (w_changed w) (rq_op rq) rep) /\
    (match w_paths w i with Some p => answers store (e_fetch e) (w_root w) p i (rq_op rq) rep \/ (~ full_ /\ stale_answer (rq_op rq) rep) | None => stale_answer (rq_op rq) rep end) /\
    (complete store (w_root w) -> is_queued rep = false).
Proof.
  intros W S Nf [F AL] Us Kn Ex. pose proof (wi_ki _ _ W) as K. destruct (ki_live _ _ _ _ _ _ _ i K Kn) as (r & Lv).
  destruct (exec_ok store (e_fetch e) (e_alloc e) (e_read e) F AL (sy_st (w_sys w)) (w_root w) (rq_op rq) i r (ki_inv _ _ _ _ _ _ _ K) Us Lv) as (rep & st' & E & R).
  exists rep, st', r. rewrite Ex, (handle_eq e _ q d rq rep st' E). split; auto. split; auto. split; auto.
  split; [eapply ran_ki; eauto|].
  assert (An : match w_paths w i with Some p => answers store (e_fetch e) (w_root w) p i (rq_op rq) rep \/ (~ full_ /\ stale_answer (rq_op rq) rep) | None => stale_answer (rq_op rq) rep end).
  { destruct (is_valid r) eqn:V.
    - destruct (ki_path _ _ _ _ _ _ _ K i r Kn (proj1 Lv) V) as (p & Pp & Ap). rewrite Pp. left. apply (x_answer _ _ _ _ _ _ _ _ _ R V p Ap).
    - pose proof (x_stale _ _ _ _ _ _ _ _ _ R V) as St. destruct (w_paths w i) as [p|] eqn:Pp; auto. right. split; auto. intros Fu.
      rewrite (ki_full _ _ _ _ _ _ _ K Fu i r p Kn Pp (proj1 Lv)) in V. discriminate. }
  split; auto. intros C. destruct rep; auto. exfalso.
  assert (St : ~ stale_answer (rq_op rq) (RQueued path)).
  { destruct (rq_op rq); cbn; try discriminate. destruct ((uid =? 0) || (gid =? 0)); discriminate. }
  destruct (w_paths w i) as [p|]; [|contradiction]. destruct An as [An|[_ An]]; [|contradiction].
  destruct (queued_progress _ _ _ _ _ _ An Nf) as (a & Ba & Pa). rewrite (C a Ba) in Pa. discriminate.
Qed.

Lemma knows_learned k rep i : knows k i -> knows (learned k rep) i.
Proof. intros [->|H]; [now left|right]. destruct rep; auto. cbn. destruct (i =? i0); lia. Qed.

Lemma served_wi full_ w ev rq e i q d : WI full_ w -> serves w ev = Some (rq, e) -> is_forget (rq_op rq) = false -> env_ok store e ->
  uses (rq_op rq) i -> knows (w_kernel w) i ->
  sys_exec (w_sys w) ev = handle e (w_sys w) q d rq ->
  (forall x, In x (q ++ d) -> In x (sy_queue (w_sys w) ++ sy_drain (w_sys w))) ->
  (sy_stage (w_sys w) <> StDrain -> d = []) -> (complete store (w_root w) -> sy_stage (w_sys w) <> StSet -> q = []) ->
  (exists issued, match ev with EReq rq _ => rq_id rq :: w_issued w | _ => w_issued w end = issued /\ NoDup issued /\
     Permutation (rq_id rq :: map fst (sy_log (w_sys w)) ++ map rq_id (q ++ d)) issued) ->
  exists y', sys_exec (w_sys w) ev = Ok y' /\ WI full_ (next_world store w ev y').
Proof.
  intros W S Nf En Us Kn Ex Qs Dr Cm (issued & Ei & ND & PM).
  destruct (served_ok full_ w ev rq e i q d W S Nf En Us Kn Ex) as (rep & st' & r & E & Lv & R & K' & _ & Cp).
  eexists. split; [exact E|].
  match goal with |- WI _ (next_world _ _ _ ?y) => set (y' := y) end.
  destruct (next_served w ev y' rq e rep S Nf eq_refl) as (N1 & N2 & N3 & N4 & N5).
  unfold next_world. rewrite N1, N2, N3, N4, Ei.
  split; cbn [w_sys w_root w_kernel w_paths w_changed w_issued]; unfold y'; cbn [sy_st sy_queue sy_drain sy_log sy_stage]; auto.
  - intros x Hx. assert (X : In x (q ++ d) \/ x = rq).
    { destruct (is_queued rep); auto. rewrite <- app_assoc in Hx. apply in_app_or in Hx. destruct Hx as [Hx|[Hx|Hx]]; [left; apply in_or_app; auto|auto|left; apply in_or_app; auto]. }
    destruct X as [X|X].
    + destruct (wi_waiting _ _ W x (Qs x X)) as [X1 X2]. split; auto. intros j Hj. apply knows_learned. auto.
    + subst x. split; auto. intros j Hj. apply knows_learned. rewrite (uses_one _ _ _ Hj Us). exact Kn.
  - rewrite <- PM. unfold logged. destruct (is_queued rep).
    + rewrite <- app_assoc, !map_app. cbn [map app]. rewrite !app_assoc. symmetry. apply Permutation_middle.
    + rewrite map_app. cbn [map fst]. rewrite <- app_assoc. cbn [app]. symmetry. apply Permutation_middle.
  - intros C St. rewrite (Cp C). apply Cm; auto.
Qed.

Lemma step_ok full_ w ev : WI full_ w -> may_happen store w ev ->
  (forall a e sh, ev = EManifest (Some a) e sh -> names_unique store a /\ only_root_is_large store a /\ (full_ -> full a (e_fetch e))) ->
  exists y', sys_exec (w_sys w) ev = Ok y' /\ WI full_ (next_world store w ev y').
Proof.
  intros W H G. pose proof (wi_ki _ _ W) as K. pose proof (wi_log _ _ W) as WL.
  destruct ev as [rq e|root e sh| |nm e|].
  - destruct H as (En & Fr & Us & Fg). destruct (is_forget (rq_op rq)) eqn:Nf.
    + destruct (rq_op rq) as [| | | | | | | |l|] eqn:Eo; try discriminate. destruct Fg as [Fp Fg].
      destruct (forget_ki store full_ (sy_st (w_sys w)) (w_root w) (w_kernel w) (w_paths w) (w_changed w) l K Fp) as (st' & E & K').
      { intros i Hi. destruct (Fg i Hi) as (X1 & X2 & _). auto. }
      assert (Ex : sys_exec (w_sys w) (EReq rq e) = Ok (mksys st' (sy_queue (w_sys w)) (sy_drain (w_sys w)) (sy_stage (w_sys w)) (sy_log (w_sys w) ++ [(rq_id rq, RNone)]))).
      { cbn [sys_exec]. unfold handle. rewrite Eo. cbn [exec]. rewrite E. reflexivity. }
      eexists. split; [exact Ex|].
      assert (Se : forall q d s, sent (w_sys w) (mksys st' q d s (sy_log (w_sys w) ++ [(rq_id rq, RNone)])) = [(rq_id rq, RNone)]) by (intros; unfold sent; cbn [sy_log]; apply skipn_len).
      unfold next_world, next_kernel, next_paths, next_changed, runs. cbn [serves]. rewrite Se, Eo. cbn [fold_left learned snd after_op].
      split; cbn [w_sys w_root w_kernel w_paths w_changed w_issued sy_st sy_queue sy_drain sy_log sy_stage]; auto.
      * intros x Hx. destruct (wi_waiting _ _ W x Hx) as [X1 X2]. split; auto. intros i Hi. destruct (X2 i Hi) as [->|Hk]; [now left|right].
        destruct (in_dec N.eq_dec i (map fst l)) as [X|X]; [|rewrite (forgotten_out l i X); lia].
        destruct (Fg i X) as (_ & _ & Y). assert (forgotten l i < w_kernel w i) by (apply Y; exists x; auto). lia.
      * rewrite map_app. cbn [map fst]. rewrite <- app_assoc. cbn [app]. rewrite <- Permutation_middle, WL. reflexivity.
      * constructor; [exact Fr|apply W].
      * apply W.
      * apply W.
    + destruct (uses_some _ Nf) as [i Hi].
      apply (served_wi full_ w (EReq rq e) rq e i (sy_queue (w_sys w)) (sy_drain (w_sys w))); auto.
      * apply W.
      * apply W.
      * exists (rq_id rq :: w_issued w). split; auto. split; [constructor; [exact Fr|apply W]|]. constructor. exact WL.
  - destruct H as ([F AL] & SH & Sg). destruct root as [a|].
    + destruct (G a e sh eq_refl) as (U & LG & Fu).
      destruct (manifest_ki store full_ (sy_st (w_sys w)) (w_root w) (w_kernel w) (w_paths w) (w_changed w) a (e_fetch e) sh K U LG F SH Fu) as (st' & E & K').
      cbn [sys_exec]. rewrite Sg, E. cbn [bind]. eexists. split; [reflexivity|].
      unfold next_world, next_kernel. rewrite sent_same by reflexivity. cbn [fold_left].
      split; cbn [w_sys w_root w_kernel w_paths w_changed w_issued sy_st sy_queue sy_drain sy_log sy_stage next_paths next_changed]; auto; try apply W.
      * intros _. apply W. congruence.
      * congruence.
    + cbn [sys_exec]. rewrite Sg. cbn [set_manifest bind]. eexists. split; [reflexivity|].
      unfold next_world, next_kernel, next_paths, next_changed, runs. cbn [serves]. rewrite sent_same by reflexivity. cbn [fold_left].
      split; cbn [w_sys w_root w_kernel w_paths w_changed w_issued sy_st sy_queue sy_drain sy_log sy_stage]; auto; try apply W.
      * intros _. apply W. congruence.
      * intros C _. apply W; auto. congruence.
  - cbn [may_happen] in H. cbn [sys_exec]. rewrite H. eexists. split; [reflexivity|].
    unfold next_world, next_kernel, next_paths, next_changed, runs. cbn [serves]. rewrite sent_same by reflexivity. cbn [fold_left].
    assert (D0 : sy_drain (w_sys w) = []) by (apply W; congruence).
    split; cbn [w_sys w_root w_kernel w_paths w_changed w_issued sy_st sy_queue sy_drain sy_log sy_stage]; auto; try apply W.
    + intros x Hx. cbn [app] in Hx. apply (wi_waiting _ _ W). apply in_or_app. now left.
    + cbn [app]. rewrite D0, app_nil_r in WL. exact WL.
    + congruence.
  - destruct H as (En & Sg & Nd). destruct (sy_drain (w_sys w)) as [|rq d] eqn:Ed; [congruence|].
    destruct (wi_waiting _ _ W rq) as [Nf Kn]. { rewrite Ed. apply in_or_app. right. now left. }
    destruct (uses_some _ Nf) as [i Hi].
    apply (served_wi full_ w (EResume nm e) (mkrq (rq_id rq) (resumed nm (rq_op rq))) e i (sy_queue (w_sys w)) d); auto; cbn [rq_op rq_id].
    + cbn [serves]. rewrite Ed. reflexivity.
    + destruct (rq_op rq); auto.
    + apply uses_resumed. exact Hi.
    + cbn [sys_exec]. rewrite Sg, Ed. reflexivity.
    + intros x Hx. rewrite Ed. apply in_app_or in Hx. apply in_or_app. destruct Hx; auto. right. now right.
    + congruence.
    + intros C X. apply W; auto.
    + exists (w_issued w). split; auto. split; [apply W|]. rewrite <- WL, !map_app. cbn [map]. rewrite !app_assoc. apply Permutation_middle.
  - destruct H as [Sg Ed]. cbn [sys_exec]. rewrite Sg, Ed. eexists. split; [reflexivity|].
    unfold next_world, next_kernel, next_paths, next_changed, runs. cbn [serves]. rewrite sent_same by reflexivity. cbn [fold_left].
    split; cbn [w_sys w_root w_kernel w_paths w_changed w_issued sy_st sy_queue sy_drain sy_log sy_stage]; auto; try apply W.
    + intros x Hx. apply (wi_waiting _ _ W). rewrite Ed. exact Hx.
    + rewrite Ed in WL. exact WL.
    + intros C _. apply W; auto. congruence.
Qed.

Lemma reachable_wi (full_ : Prop) (ok : event -> Prop) w :
  (forall a e sh, ok (EManifest (Some a) e sh) -> names_unique store a /\ only_root_is_large store a /\ (full_ -> full a (e_fetch e))) ->
  reachable store ok w -> WI full_ w.
Proof.
  intros G R. induction R as [|w ev y' R IH M O E]; [apply init_wi|].
  destruct (step_ok full_ w ev IH M) as (y & E' & W').
  - intros a e sh ->. exact (G a e sh O).
  - congruence.
Qed.
End Store.
