(** C45-C50: the mounted file system. *)
From Verif Require Import Base ListX Str ModelFuse SpecFuse ProofFuseMem ProofFuseInv ProofFuseOps ProofFusePath ProofFuseSet ProofFuseFin ProofFuseExec ProofFuseWorld ProofFuseHist ProofFuseDir.
Local Open Scope N_scope.

(** The histories of the theorems below: manifests with unique names whose root alone may
    have indirect asset lists. *)
Definition supported (store : cid -> option (list aproto)) : event -> Prop :=
  manifests (fun a => names_unique store a /\ only_root_is_large store a).

Lemma supported_wi store w : reachable store (supported store) w -> WI store False w.
Proof. apply reachable_wi. intros a e sh [U L]. repeat split; auto. contradiction. Qed.
Lemma complete_wi store w : reachable store (fun ev => supported store ev /\ no_missing_lists store ev) w -> WI store True w.
Proof. apply reachable_wi. intros a e sh [[U L] F]. split; auto. split; auto. intros _ id H. apply (F a id); [constructor|exact H]. Qed.
Lemma supported_step store full_ w ev : WI store full_ w -> (full_ -> no_missing_lists store ev) -> may_happen store w ev -> supported store ev ->
  exists y', sys_exec (w_sys w) ev = Ok y' /\ WI store full_ (next_world store w ev y').
Proof.
  intros W F M S. apply step_ok; auto. intros a e sh ->. destruct S as [U L]. split; auto. split; auto.
  intros Fu id H. apply (F Fu a id); [constructor|exact H].
Qed.

(** * C45: no request, manifest or order of them leads to undefined behaviour *)
Theorem C45_no_freed_memory_is_used_partial store w ev :
  reachable store (supported store) w -> may_happen store w ev -> supported store ev ->
  exists y', sys_exec (w_sys w) ev = Ok y'.
Proof.
  intros R M S. destruct (supported_step store False w ev (supported_wi _ _ R) (False_ind _) M S) as (y & E & _). eauto.
Qed.

(** * C46: the answer to every request is determined by the current manifest *)

Lemma serving store full_ w ev rq e i : WI store full_ w -> may_happen store w ev -> serves w ev = Some (rq, e) -> uses (rq_op rq) i ->
  exists rep y', sys_exec (w_sys w) ev = Ok y' /\
    (match rep with
     | RQueued _ => sent (w_sys w) y' = [] /\ sy_queue y' = sy_queue (w_sys w) ++ [rq]
     | _ => sent (w_sys w) y' = [(rq_id rq, rep)] /\ sy_queue y' = sy_queue (w_sys w)
     end) /\
    (match ev with EResume _ _ => sy_drain y' = tl (sy_drain (w_sys w)) | _ => sy_drain y' = sy_drain (w_sys w) end) /\
    (match w_paths w i with Some p => answers store (e_fetch e) (w_root w) p i (rq_op rq) rep \/ (~ full_ /\ stale_answer (rq_op rq) rep) | None => stale_answer (rq_op rq) rep end) /\
    (complete store (w_root w) -> is_queued rep = false) /\
    (w_changed w i -> (forall flags k d, rq_op rq = OOpen i flags -> rep = ROpen k d -> k = false) /\
                      (forall off sz, rq_op rq = ORead i off sz -> rep = RErr EIO \/ rep = RErr ENOENT)).
Proof.
  intros W M S Us.
  assert (Nf : is_forget (rq_op rq) = false) by (destruct (rq_op rq); auto; destruct Us).
  assert (X : exists q d, env_ok store e /\ knows (w_kernel w) i /\ sys_exec (w_sys w) ev = handle e (w_sys w) q d rq /\ q = sy_queue (w_sys w) /\
              match ev with EResume _ _ => d = tl (sy_drain (w_sys w)) | _ => d = sy_drain (w_sys w) end).
  { destruct ev as [rq0 e0|root e0 sh| |nm e0|]; cbn [serves] in S; try discriminate.
    - inversion S; subst rq0 e0. destruct M as (En & _ & Kn & _). do 2 eexists. repeat split; eauto; apply En.
    - destruct M as (En & Sg & _). destruct (sy_drain (w_sys w)) as [|rq0 d] eqn:Ed; [discriminate|]. inversion S; subst rq e0. cbn [rq_op] in *.
      do 2 eexists. split; [exact En|]. split; [|split; [cbn [sys_exec]; rewrite Sg, Ed; reflexivity|split; reflexivity]].
      apply (wi_waiting _ _ _ W rq0); [rewrite Ed; apply in_or_app; right; now left|]. now apply uses_resumed in Us. }
  destruct X as (q & d & En & Kn & Ex & Eq & Ed).
  destruct (served_ok store full_ w ev rq e i q d W S Nf En Us Kn Ex) as (rep & st' & r & E & Lv & R & K' & An & Cp).
  exists rep. eexists. split; [exact E|]. match type of E with _ = Ok ?y => set (y' := y) in * end.
  destruct (next_served store w ev y' rq e rep S Nf eq_refl) as (_ & _ & _ & _ & Se).
  rewrite Se. split; [|split; [|split; [exact An|split; [exact Cp|]]]].
  - subst q. destruct rep; split; reflexivity.
  - destruct ev; exact Ed.
  - intros C. destruct (ki_changed _ _ _ _ _ _ _ (wi_ki _ _ _ W) i C) as (_ & r' & O & St).
    destruct (obj_inode (sy_st (w_sys w)) i r' (proj1 (ki_inv _ _ _ _ _ _ _ (wi_ki _ _ _ W))) O) as [G Hi].
    assert (r' = r) by (pose proof (proj1 Lv); congruence). subst r'. destruct St as [St|St].
    + destruct (x_drop _ _ _ _ _ _ _ _ _ R St) as [D1 D2]. split; [exact D1|]. intros off sz Eo. left. exact (D2 off sz Eo).
    + assert (V : is_valid r = false) by (unfold is_valid; rewrite St; reflexivity). pose proof (x_stale _ _ _ _ _ _ _ _ _ R V) as SA.
      split; intros; rewrite H in SA; cbn in SA; [congruence|now right].
Qed.

(** With every asset list available when a manifest is set: a request on an inode is
    answered (or queued) as the current manifest says for the path of the inode; on a stale
    inode it is answered ENOENT.  Missing: manifests with large directories below the root,
    and the name of a lookup that was queued ([serves] gives the name that is used). *)
Theorem C46_requests_are_answered_from_the_current_manifest_partial store w ev rq e i :
  reachable store (fun ev => supported store ev /\ no_missing_lists store ev) w -> may_happen store w ev ->
  serves w ev = Some (rq, e) -> uses (rq_op rq) i ->
  exists r y', sys_exec (w_sys w) ev = Ok y' /\
    match r with
    | RQueued _ => sent (w_sys w) y' = [] /\ sy_queue y' = sy_queue (w_sys w) ++ [rq]
    | _ => sent (w_sys w) y' = [(rq_id rq, r)] /\ sy_queue y' = sy_queue (w_sys w)
    end /\
    match w_paths w i with
    | Some path => answers store (e_fetch e) (w_root w) path i (rq_op rq) r
    | None => stale_answer (rq_op rq) r
    end.
Proof.
  intros R M S U. destruct (serving store True w ev rq e i (complete_wi _ _ R) M S U) as (r & y & E & A & _ & B & _).
  exists r, y. split; auto. split; auto. destruct (w_paths w i); auto. destruct B as [B|[B _]]; auto. exfalso. auto.
Qed.

(** With missing asset lists an inode may also become stale although its path exists. *)
Theorem C46_a_missing_list_can_only_make_inodes_stale_partial store w ev rq e i :
  reachable store (supported store) w -> may_happen store w ev ->
  serves w ev = Some (rq, e) -> uses (rq_op rq) i ->
  exists r y', sys_exec (w_sys w) ev = Ok y' /\
    match r with
    | RQueued _ => sent (w_sys w) y' = [] /\ sy_queue y' = sy_queue (w_sys w) ++ [rq]
    | _ => sent (w_sys w) y' = [(rq_id rq, r)] /\ sy_queue y' = sy_queue (w_sys w)
    end /\
    match w_paths w i with
    | Some path => answers store (e_fetch e) (w_root w) path i (rq_op rq) r \/ stale_answer (rq_op rq) r
    | None => stale_answer (rq_op rq) r
    end.
Proof.
  intros R M S U. destruct (serving store False w ev rq e i (supported_wi _ _ R) M S U) as (r & y & E & A & _ & B & _).
  exists r, y. split; auto. split; auto. destruct (w_paths w i); auto. destruct B as [B|[_ B]]; auto.
Qed.

(** * C47: every request is answered once *)

Lemma handle_log e y q d rq y' : handle e y q d rq = Ok y' ->
  sy_stage y' = sy_stage y /\ sy_drain y' = d /\
  ((sy_queue y' = q ++ [rq] /\ sy_log y' = sy_log y) \/ (sy_queue y' = q /\ exists r, sy_log y' = sy_log y ++ [(rq_id rq, r)])).
Proof.
  unfold handle. destruct (exec (e_fetch e) (e_alloc e) (e_read e) (sy_st y) (rq_op rq)) as [(r, st)| | |]; cbn [bind]; try discriminate.
  destruct r; intros E; injection E as <-; cbn [sy_stage sy_drain sy_queue sy_log]; (split; [reflexivity|split; [reflexivity|]]); first [left; split; reflexivity|right; split; [reflexivity|eexists; reflexivity]].
Qed.
(** In every history, whatever the manifests: the replies sent and the waiting requests are
    together exactly the requests issued, each once. *)
Theorem C47_each_request_is_answered_once_or_waits : forall store ok w, reachable store ok w ->
  NoDup (w_issued w) /\
  Permutation (map fst (sy_log (w_sys w)) ++ map rq_id (sy_queue (w_sys w) ++ sy_drain (w_sys w))) (w_issued w).
Proof.
  intros store ok w R. enough (X : (NoDup (w_issued w) /\ Permutation (map fst (sy_log (w_sys w)) ++ map rq_id (sy_queue (w_sys w) ++ sy_drain (w_sys w))) (w_issued w)) /\ (sy_stage (w_sys w) <> StDrain -> sy_drain (w_sys w) = [])) by apply X.
  induction R as [|w ev y' R ((ND & P) & D) M _ E]; [split; [split; [constructor|constructor]|reflexivity]|].
  destruct ev as [rq e|root e sh| |name e|]; cbn [sys_exec] in E; cbn [next_world w_issued w_sys].
  - destruct M as (_ & Fr & _). destruct (handle_log _ _ _ _ _ _ E) as (Sg & Dr & L). rewrite Sg, Dr. split; [|exact D]. split; [constructor; assumption|].
    rewrite <- P. destruct L as [(-> & ->)|(-> & r & ->)]; rewrite ?map_app; cbn [map fst]; rewrite <- ?app_assoc; cbn [app]; [rewrite !app_assoc|]; symmetry; apply Permutation_middle.
  - destruct (sy_stage (w_sys w)) eqn:Sg; try discriminate. destruct (set_manifest (e_fetch e) sh (sy_st (w_sys w)) root) as [st| | |]; cbn [bind] in E; try discriminate. injection E as <-. cbn [sy_log sy_queue sy_drain sy_stage]. split; [split; assumption|]. intros _. apply D. congruence.
  - destruct (sy_stage (w_sys w)) eqn:Sg; try discriminate. injection E as <-. cbn [sy_log sy_queue sy_drain sy_stage]. split; [|congruence]. rewrite (D ltac:(congruence)), app_nil_r in P. split; assumption.
  - destruct (sy_stage (w_sys w)) eqn:Sg; try discriminate. destruct (sy_drain (w_sys w)) as [|rq d] eqn:Ed; try discriminate. destruct (handle_log _ _ _ _ _ _ E) as (Sg2 & Dr & L). rewrite Sg2, Dr, Sg. split; [|congruence]. split; [assumption|].
    rewrite <- P. destruct L as [(-> & ->)|(-> & r & ->)]; rewrite ?map_app; cbn [map fst rq_id]; rewrite <- ?app_assoc; cbn [app]; [reflexivity|]. apply Permutation_app_head. apply Permutation_middle.
  - destruct (sy_stage (w_sys w)) eqn:Sg; try discriminate. destruct (sy_drain (w_sys w)) as [|rq d] eqn:Ed; try discriminate. injection E as <-. cbn [sy_log sy_queue sy_drain sy_stage]. split; [split; assumption|reflexivity].
Qed.

(** Once a manifest without unfinished assets has been set and its requests resumed, no
    request waits, so each has been answered exactly once. *)
Theorem C47_no_request_waits_for_a_complete_manifest_partial store w :
  reachable store (supported store) w -> complete store (w_root w) -> sy_stage (w_sys w) = StIdle ->
  NoDup (map fst (sy_log (w_sys w))) /\ Permutation (map fst (sy_log (w_sys w))) (w_issued w).
Proof.
  intros R C Sg. pose proof (supported_wi _ _ R) as W. pose proof (wi_log _ _ _ W) as L.
  rewrite (wi_complete _ _ _ W C), (wi_drain _ _ _ W), app_nil_r in L by congruence. split; auto.
  eapply Permutation_NoDup; [symmetry; exact L|apply W].
Qed.

(** Resuming takes the first waiting request; in a complete manifest it is answered. *)
Theorem C47_resumed_requests_are_answered_partial store w name e :
  reachable store (supported store) w -> may_happen store w (EResume name e) -> complete store (w_root w) ->
  exists rq d r y', sy_drain (w_sys w) = rq :: d /\ sys_exec (w_sys w) (EResume name e) = Ok y' /\
    sent (w_sys w) y' = [(rq_id rq, r)] /\ sy_drain y' = d /\ sy_queue y' = sy_queue (w_sys w).
Proof.
  intros R M C. pose proof (supported_wi _ _ R) as W. pose proof M as (En & Sg & Nd).
  destruct (sy_drain (w_sys w)) as [|rq d] eqn:Ed; [congruence|].
  destruct (wi_waiting _ _ _ W rq) as [Nf _]. { rewrite Ed. apply in_or_app. right. now left. }
  destruct (uses_some _ Nf) as [i Hi].
  destruct (serving store False w (EResume name e) (mkrq (rq_id rq) (resumed name (rq_op rq))) e i W M) as (r & y & E & A & D & _ & Q & _).
  - cbn [serves]. rewrite Ed. reflexivity.
  - cbn [rq_op]. now apply uses_resumed.
  - exists rq, d, r, y. split; auto. split; auto. specialize (Q C). rewrite D, Ed. destruct r; try discriminate; cbn [rq_id] in A; destruct A as [A1 A2]; auto.
Qed.

(** * C48: no cached data of an older version after a file has changed *)

(** If the last manifest changed the file of an inode, opening it makes the kernel drop
    its cached pages, and reading through an older handle fails.  Missing: changes by the
    manifests before the last one. *)
Theorem C48_opening_a_changed_file_drops_the_cache_partial store w ev rq e i flags :
  reachable store (supported store) w -> may_happen store w ev -> serves w ev = Some (rq, e) ->
  rq_op rq = OOpen i flags -> w_changed w i ->
  exists y', sys_exec (w_sys w) ev = Ok y' /\ forall id keep direct, sent (w_sys w) y' = [(id, ROpen keep direct)] -> keep = false.
Proof.
  intros R M S O C. destruct (serving store False w ev rq e i (supported_wi _ _ R) M S) as (r & y & E & A & _ & _ & _ & D).
  { rewrite O. reflexivity. }
  exists y. split; auto. intros id keep direct Se. destruct (D C) as [D1 _]. specialize (D1 flags keep direct O).
  destruct r; destruct A as [A _]; try (rewrite A in Se; congruence). 
  rewrite A in Se. inversion Se; subst. apply D1. reflexivity.
Qed.
Theorem C48_reading_a_changed_file_by_an_old_handle_fails_partial store w ev rq e i off size :
  reachable store (supported store) w -> may_happen store w ev -> serves w ev = Some (rq, e) ->
  rq_op rq = ORead i off size -> w_changed w i ->
  exists y' err, sys_exec (w_sys w) ev = Ok y' /\ sent (w_sys w) y' = [(rq_id rq, RErr err)] /\ (err = EIO \/ err = ENOENT).
Proof.
  intros R M S O C. destruct (serving store False w ev rq e i (supported_wi _ _ R) M S) as (r & y & E & A & _ & _ & _ & D).
  { rewrite O. reflexivity. }
  destruct (D C) as [_ D2]. destruct (D2 off size O) as [-> | ->]; destruct A as [A _]; eauto 6.
Qed.

(** * C49: reading a directory page by page *)

(** For every listing and every page size that has room for the longest entry, the kernel
    reads each entry exactly once, in order. *)
Theorem C49_paging_returns_every_entry_once (l : list (bytes * ino * N)) (size : nat) :
  (forall name i mode, In (name, i, mode) l -> (24 + (length name + 7) / 8 * 8 <= size)%nat /\ i < 2 ^ 64) ->
  N.of_nat (list_sum (map (fun e => 24 + (length (fst (fst e)) + 7) / 8 * 8)%nat l)) < 2 ^ 32 ->
  kernel_readdir (S (length l)) (fun off => read_page l off size) 0 =
  Some (map (fun e => mkke (fst (fst e)) (snd (fst e)) (N.land (N.shiftr (snd e) 12) 15)) l).
Proof.
  intros H S. apply (readdir_all l size) with (a := []) (b := l); auto.
  intros [[n i] m] He. exact (H n i m He).
Qed.
