(** C45-C49: concrete histories, and what does not hold. *)
From Verif Require Import Base ListX Str ModelFuse SpecFuse PropFuse.
Local Open Scope N_scope.

Definition fx_file (name size version : N) (progress : bool) : aproto := mkap [name] TFile 1 420 size [version] progress [] [].
Definition fx_dir (name : N) (progress : bool) (l : list aproto) (ind : list cid) : aproto := mkap [name] TDir 1 493 0 [] progress l ind.
Definition fx_store (c : cid) : option (list aproto) := match c with [7] => Some [fx_file 70 9 1 false] | _ => None end.
Definition fx_env : env := mkenv fx_store (fun l => 1 + fold_right N.max 1 l) true.
Lemma fx_env_ok : env_ok fx_store fx_env.
Proof.
  split; [auto|]. intros keys. cbn [fx_env e_alloc]. assert (X : forall k, In k keys -> k <= fold_right N.max 1 keys).
  { induction keys as [|a l IH]; cbn; [tauto|]. intros k [->|H]; [lia|specialize (IH k H); lia]. }
  split; [intros H; specialize (X _ H); lia|]. unfold root_ino. assert (1 <= fold_right N.max 1 keys) by (clear; induction keys; cbn; lia). lia.
Qed.

(** Playing a list of events. *)
Fixpoint play (store : cid -> option (list aproto)) (w : world) (l : list event) : option world :=
  match l with
  | [] => Some w
  | ev :: l' => match sys_exec (w_sys w) ev with Ok y => play store (next_world store w ev y) l' | _ => None end
  end.
(** The next events can happen. *)
Fixpoint playable (store : cid -> option (list aproto)) (ok : event -> Prop) (w : world) (l : list event) : Prop :=
  match l with
  | [] => True
  | ev :: l' => may_happen store w ev /\ ok ev /\ match sys_exec (w_sys w) ev with Ok y => playable store ok (next_world store w ev y) l' | _ => False end
  end.
Lemma play_reachable store ok l : forall w, reachable store ok w -> playable store ok w l -> exists w', play store w l = Some w' /\ reachable store ok w'.
Proof.
  induction l as [|ev l IH]; intros w R P; cbn in *; [eauto|]. destruct P as (M & O & P).
  destruct (sys_exec (w_sys w) ev) as [y| | |] eqn:E; try contradiction. apply IH; auto. econstructor; eauto.
Qed.

Lemma in_one {A} (x y : A) : In x [y] -> x = y. Proof. intros [->|[]]; reflexivity. Qed.
Ltac knows := intros ? U; cbn in U; subst; first [left; reflexivity | right; vm_compute; reflexivity].
Ltac happens :=
  lazymatch goal with
  | |- may_happen _ _ (EReq _ _) => split; [exact fx_env_ok|split; [vm_compute; intuition discriminate|split; [knows|try exact Logic.I]]]
  | |- may_happen _ _ (EManifest _ _ _) => split; [exact fx_env_ok|split; [reflexivity|reflexivity]]
  | |- may_happen _ _ ESwap => reflexivity
  | |- may_happen _ _ (EResume _ _) => split; [exact fx_env_ok|split; [reflexivity|vm_compute; discriminate]]
  | |- may_happen _ _ EDone => split; reflexivity
  end.
Ltac next_event := match goal with |- playable ?s ?ok ?w (?ev :: ?l) =>
  let r := eval vm_compute in (sys_exec (w_sys w) ev) in
  match r with Ok ?y => change (may_happen s w ev /\ ok ev /\ playable s ok (next_world s w ev y) l) end end.
Ltac plays := repeat (next_event; split; [happens|split; [auto|]]); try exact Logic.I.

(** * A history that meets the hypotheses *)

(** D is being processed, then ready with A; B changes; C comes; the root has an indirect
    list with F. *)
Definition fx_root1 := mkap [] TDir 0 493 0 [] false [fx_dir 68 true [] []; fx_file 66 5 1 false] [[7]].
Definition fx_root2 := mkap [] TDir 0 493 0 [] false [fx_dir 68 false [fx_file 65 3 1 false] []; fx_file 66 6 2 false; fx_file 67 1 1 false] [[7]].

Lemma names_unique_step store d : NoDup (map ap_name (dir_children store d)) -> Forall (names_unique store) (dir_children store d) -> names_unique store d.
Proof.
  intros N F x B. inversion B; subst; auto. rewrite Forall_forall in F. eapply F; eauto.
Qed.
Ltac nodup := cbn; repeat constructor; cbn; intuition discriminate.
Ltac unique := apply names_unique_step; [nodup|cbn; repeat (apply Forall_cons; [unique|]); apply Forall_nil].
Lemma fx_unique1 : names_unique fx_store fx_root1. Proof. unique. Qed.
Lemma fx_unique2 : names_unique fx_store fx_root2. Proof. unique. Qed.
Lemma below_cases store c d : below store c d -> d = c \/ exists x, In x (dir_children store c) /\ below store x d.
Proof. intros B. inversion B; subst; eauto. Qed.
Ltac large := intros c d H B; cbn in H; repeat (destruct H as [<-|H]); try contradiction;
  repeat match goal with B : below _ _ _ |- _ => apply below_cases in B; destruct B as [->|(? & H' & B)]; [reflexivity|cbn in H'; repeat (destruct H' as [<-|H']); try contradiction] end.
Lemma fx_large1 : only_root_is_large fx_store fx_root1. Proof. large. Qed.
Lemma fx_large2 : only_root_is_large fx_store fx_root2. Proof. large. Qed.
Lemma fx_complete : complete fx_store fx_root2.
Proof.
  intros d B. repeat match goal with B : below _ _ _ |- _ => apply below_cases in B; destruct B as [->|(? & H' & B)]; [reflexivity|cbn in H'; repeat (destruct H' as [<-|H']); try contradiction] end.
Qed.

Definition fx_rq (n : nat) (o : op) : event := EReq (mkrq n o) fx_env.
Definition fx_set (a : aproto) : list event := [EManifest (Some a) fx_env (fun l => l); ESwap].
(** Requests: look up B, D and F, open B, read it, open D (waits); new manifest; the
    opening of D is resumed; B is stat'ed. *)
Definition fx_history : list event :=
  fx_set fx_root1 ++ [EDone; fx_rq 0 (OLookup 1 [66]); fx_rq 1 (OLookup 1 [68]); fx_rq 2 (OLookup 1 [70]); fx_rq 3 (OOpen 2 0); fx_rq 4 (ORead 2 0 5); fx_rq 5 (OOpenDir 3)] ++
  fx_set fx_root2 ++ [EResume [] fx_env; EDone; fx_rq 6 (OLookup 3 [65])].
Definition fx_ok (ev : event) : Prop := supported fx_store ev /\ no_missing_lists fx_store ev.
Lemma fx_ok1 : fx_ok (EManifest (Some fx_root1) fx_env (fun l => l)).
Proof.
  split; [split; [exact fx_unique1|exact fx_large1]|]. intros d id B Hid. 
  repeat match goal with B : below _ _ _ |- _ => apply below_cases in B; destruct B as [->|(? & H' & B)]; [cbn in Hid; intuition (subst; discriminate)|cbn in H'; repeat (destruct H' as [<-|H']); try contradiction] end.
Qed.
Lemma fx_ok2 : fx_ok (EManifest (Some fx_root2) fx_env (fun l => l)).
Proof.
  split; [split; [exact fx_unique2|exact fx_large2]|]. intros d id B Hid.
  repeat match goal with B : below _ _ _ |- _ => apply below_cases in B; destruct B as [->|(? & H' & B)]; [cbn in Hid; intuition (subst; discriminate)|cbn in H'; repeat (destruct H' as [<-|H']); try contradiction] end.
Qed.
Lemma fx_ok_other ev : (forall a e s, ev <> EManifest (Some a) e s) -> fx_ok ev.
Proof. intros H. destruct ev as [| [a|] | | |]; split; cbn; auto; exfalso; eapply H; reflexivity. Qed.
#[local] Hint Resolve fx_ok1 fx_ok2 : core.
#[local] Hint Extern 1 (fx_ok _) => apply fx_ok_other; discriminate : core.
Lemma fx_playable : playable fx_store fx_ok init_world fx_history.
Proof.
  unfold fx_history, fx_rq, fx_set. cbn [app]. plays.
Qed.

Definition log_of (o : option world) : option (list (nat * reply)) := match o with Some w => Some (sy_log (w_sys w)) | None => None end.
(** The replies: after the first manifest the opening of D waits, after the second it is
    answered and A is found in it. *)
Example C46_history_replies : log_of (play fx_store init_world fx_history) =
  Some [(0%nat, REntry 2 (mkattr 2 33188 5 1)); (1%nat, REntry 3 (mkattr 3 16877 0 1)); (2%nat, REntry 4 (mkattr 4 33188 9 1));
        (3%nat, ROpen true false); (4%nat, RRead (fx_file 66 5 1 false) 0 5); (5%nat, ROpenDir); (6%nat, REntry 5 (mkattr 5 33188 3 1))].
Proof. vm_compute. reflexivity. Qed.
(** The state after it: reachable, complete, idle; B (inode 2) has changed, A has the path
    D/A. *)
Example C46_hypotheses_met : exists w, play fx_store init_world fx_history = Some w /\
  reachable fx_store (fun ev => supported fx_store ev /\ no_missing_lists fx_store ev) w /\
  complete fx_store (w_root w) /\ sy_stage (w_sys w) = StIdle /\ w_paths w 5 = Some [[68]; [65]] /\ w_changed w 2 /\
  may_happen fx_store w (fx_rq 7 (OOpen 2 0)) /\ may_happen fx_store w (fx_rq 8 (ORead 2 0 6)).
Proof.
  destruct (play_reachable fx_store fx_ok fx_history init_world (reach_init _ _) fx_playable) as (w & P & R).
  exists w. split; auto. split; [exact R|].
  assert (E : Some w = play fx_store init_world fx_history) by auto. clear P R.
  assert (T : forall T (f : world -> T), Some (f w) = match play fx_store init_world fx_history with Some w => Some (f w) | None => None end) by (intros; rewrite <- E; reflexivity).
  assert (Er : w_root w = fx_root2) by (pose proof (T _ w_root) as X; vm_compute in X; injection X as X; exact X).
  assert (Ek : w_kernel w 2 = 1) by (pose proof (T _ (fun w => w_kernel w 2)) as X; vm_compute in X; injection X as X; exact X).
  assert (Ei : w_issued w = [6; 5; 4; 3; 2; 1; 0]%nat) by (pose proof (T _ w_issued) as X; vm_compute in X; injection X as X; exact X).
  split; [rewrite Er; exact fx_complete|].
  split; [pose proof (T _ (fun w => sy_stage (w_sys w))) as X; vm_compute in X; injection X as X; exact X|].
  split; [pose proof (T _ (fun w => w_paths w 5)) as X; vm_compute in X; injection X as X; exact X|].
  split.
  - pose proof (T _ (fun w => w_changed w 2)) as X. cbv beta in X.
    assert (Y : w_changed w 2 = (0 < 1 /\ exists p old new, Some [[66]] = Some p /\ asset_at fx_store fx_root1 p = Some old /\ asset_at fx_store fx_root2 p = Some new /\
               old <> new /\ ap_type new = TFile)).
    { match goal with |- _ = ?p => assert (Z : match play fx_store init_world fx_history with Some w => Some (w_changed w 2) | None => None end = Some p) by (vm_compute; reflexivity) end.
      rewrite Z in X. injection X as X. exact X. }
    rewrite Y. split; [reflexivity|]. exists [[66]], (fx_file 66 5 1 false), (fx_file 66 6 2 false). repeat split. discriminate.
  - split; (split; [exact fx_env_ok|]); (split; [rewrite Ei; cbn; intuition discriminate|]); (split; [|exact Logic.I]); intros i U; cbn in U; subst i; right; rewrite Ek; reflexivity.
Qed.

(** * C45 does not hold with large directories below the root *)

(** D has an indirect list with F; the kernel knows D and F when the next manifest
    arrives: updating D frees the list, then F's task reads its proto. *)
Definition fx_large_dir (version : N) := mkap [] TDir 0 493 0 [] false [fx_dir 68 false [fx_file 65 version version false] [[7]]] [].
Lemma fx_large_unique v : names_unique fx_store (fx_large_dir v). Proof. unique. Qed.
Definition fx_names (ev : event) : Prop := manifests (names_unique fx_store) ev.
Lemma fx_names_other ev : (forall a e s, ev <> EManifest (Some a) e s) -> fx_names ev.
Proof. intros H. destruct ev as [| [a|] | | |]; cbn; auto; exfalso; eapply H; reflexivity. Qed.
Lemma fx_names_large v e s : fx_names (EManifest (Some (fx_large_dir v)) e s). Proof. exact (fx_large_unique v). Qed.
#[local] Hint Resolve fx_names_large : core.
#[local] Hint Extern 1 (fx_names _) => apply fx_names_other; discriminate : core.
Definition fx_free_history : list event :=
  fx_set (fx_large_dir 1) ++ [EDone; fx_rq 0 (OLookup 1 [68]); fx_rq 1 (OLookup 2 [70])].
Theorem C45_freed_memory_is_used_with_large_directories_refuted :
  exists w ev, reachable fx_store (manifests (names_unique fx_store)) w /\ may_happen fx_store w ev /\
    manifests (names_unique fx_store) ev /\ sys_exec (w_sys w) ev = UB.
Proof.
  destruct (play_reachable fx_store fx_names fx_free_history init_world (reach_init _ _)) as (w & P & R).
  { unfold fx_free_history, fx_rq, fx_set. cbn [app]. plays. }
  exists w, (EManifest (Some (fx_large_dir 2)) fx_env (fun l => l)). split; [exact R|].
  assert (T : forall T (f : world -> T), Some (f w) = match play fx_store init_world fx_free_history with Some w => Some (f w) | None => None end) by (intros; rewrite P; reflexivity).
  split; [split; [exact fx_env_ok|split; [reflexivity|]]|split; [exact (fx_large_unique 2)|]].
  - pose proof (T _ (fun w => sy_stage (w_sys w))) as X. vm_compute in X. injection X as X. exact X.
  - pose proof (T _ (fun w => sys_exec (w_sys w) (EManifest (Some (fx_large_dir 2)) fx_env (fun l => l)))) as X.
    vm_compute in X. injection X as X. exact X.
Qed.

(** * C46: a lookup that had to wait is answered for another name *)

(** The kernel looks up A in D, which is being processed; when D is ready the buffer holds
    the name of another file. *)
Definition fx_root3 := mkap [] TDir 0 493 0 [] false [fx_dir 68 false [fx_file 65 3 1 false; fx_file 90 8 1 false] []] [].
Lemma fx_ok3 : fx_ok (EManifest (Some fx_root3) fx_env (fun l => l)).
Proof.
  split; [split; [unique|large]|]. intros d id B Hid.
  repeat match goal with B : below _ _ _ |- _ => apply below_cases in B; destruct B as [->|(? & H' & B)]; [cbn in Hid; intuition (subst; discriminate)|cbn in H'; repeat (destruct H' as [<-|H']); try contradiction] end.
Qed.
#[local] Hint Resolve fx_ok3 : core.
Definition fx_wait_history : list event := fx_set fx_root1 ++ [EDone; fx_rq 0 (OLookup 1 [68]); fx_rq 1 (OLookup 2 [65])] ++ fx_set fx_root3.
Theorem C46_a_waiting_lookup_finds_another_file_refuted :
  exists w ev, reachable fx_store (fun ev => supported fx_store ev /\ no_missing_lists fx_store ev) w /\ may_happen fx_store w ev /\
    sy_drain (w_sys w) = [mkrq 1 (OLookup 2 [65])] /\ w_paths w 2 = Some [[68]] /\
    (exists e, ev = EResume [90] e) /\
    exists y', sys_exec (w_sys w) ev = Ok y' /\ sent (w_sys w) y' = [(1%nat, REntry 3 (mkattr 3 33188 8 1))] /\
      option_map ap_size (asset_at fx_store (w_root w) [[68]; [65]]) = Some 3.
Proof.
  destruct (play_reachable fx_store fx_ok fx_wait_history init_world (reach_init _ _)) as (w & P & R).
  { unfold fx_wait_history, fx_rq, fx_set. cbn [app]. plays. }
  exists w, (EResume [90] fx_env). split; [exact R|].
  assert (T : forall T (f : world -> T), Some (f w) = match play fx_store init_world fx_wait_history with Some w => Some (f w) | None => None end) by (intros; rewrite P; reflexivity).
  assert (D : sy_drain (w_sys w) = [mkrq 1 (OLookup 2 [65])]) by (pose proof (T _ (fun w => sy_drain (w_sys w))) as X; vm_compute in X; injection X as X; exact X).
  split; [split; [exact fx_env_ok|split; [|rewrite D; discriminate]]|].
  { pose proof (T _ (fun w => sy_stage (w_sys w))) as X. vm_compute in X. injection X as X. exact X. }
  split; [exact D|]. split; [pose proof (T _ (fun w => w_paths w 2)) as X; vm_compute in X; injection X as X; exact X|].
  split; [eauto|].
  pose proof (T _ (fun w => match sys_exec (w_sys w) (EResume [90] fx_env) with Ok y => Some (sent (w_sys w) y) | _ => None end)) as X. cbv beta in X.
  match type of X with _ = ?t => assert (Z : t = Some (Some [(1%nat, REntry 3 (mkattr 3 33188 8 1))])) by (vm_compute; reflexivity) end.
  rewrite Z in X. clear Z. destruct (sys_exec (w_sys w) (EResume [90] fx_env)) as [y| | |]; try discriminate X.
  exists y. split; [reflexivity|]. split; [congruence|].
  pose proof (T _ (fun w => option_map ap_size (asset_at fx_store (w_root w) [[68]; [65]]))) as Y. vm_compute in Y. injection Y as Y. exact Y.
Qed.

(** * C48: after a second manifest the cache of the older version is kept *)

(** B is opened in its first version (the kernel caches its pages); the second manifest
    changes B, the third changes another file only; opening B then keeps the pages of the
    first version. *)
Definition fx_root4 := mkap [] TDir 0 493 0 [] false [fx_dir 68 false [fx_file 65 4 2 false] []; fx_file 66 6 2 false; fx_file 67 1 1 false] [[7]].
Lemma fx_ok4 : fx_ok (EManifest (Some fx_root4) fx_env (fun l => l)).
Proof.
  split; [split; [unique|large]|]. intros d id B Hid.
  repeat match goal with B : below _ _ _ |- _ => apply below_cases in B; destruct B as [->|(? & H' & B)]; [cbn in Hid; intuition (subst; discriminate)|cbn in H'; repeat (destruct H' as [<-|H']); try contradiction] end.
Qed.
#[local] Hint Resolve fx_ok4 : core.
Definition fx_cache_history : list event :=
  fx_set fx_root1 ++ [EDone; fx_rq 0 (OLookup 1 [66]); fx_rq 1 (OOpen 2 0); fx_rq 2 (ORead 2 0 5); fx_rq 3 (ORelease 2)] ++
  fx_set fx_root2 ++ [EDone] ++ fx_set fx_root4 ++ [EDone; fx_rq 4 (OOpen 2 0)].
Theorem C48_an_old_version_stays_cached_refuted :
  (exists w, play fx_store init_world fx_cache_history = Some w /\
     reachable fx_store (fun ev => supported fx_store ev /\ no_missing_lists fx_store ev) w /\
     sy_log (w_sys w) = [(0%nat, REntry 2 (mkattr 2 33188 5 1)); (1%nat, ROpen true false); (2%nat, RRead (fx_file 66 5 1 false) 0 5); (3%nat, RErr 0); (4%nat, ROpen true false)]) /\
  asset_at fx_store fx_root1 [[66]] = Some (fx_file 66 5 1 false) /\ asset_at fx_store fx_root4 [[66]] = Some (fx_file 66 6 2 false).
Proof.
  split; [|split; reflexivity].
  destruct (play_reachable fx_store fx_ok fx_cache_history init_world (reach_init _ _)) as (w & P & R).
  { unfold fx_cache_history, fx_rq, fx_set. cbn [app]. plays. }
  exists w. split; auto. split; [exact R|].
  assert (T : forall T (f : world -> T), Some (f w) = match play fx_store init_world fx_cache_history with Some w => Some (f w) | None => None end) by (intros; rewrite P; reflexivity).
  pose proof (T _ (fun w => sy_log (w_sys w))) as X. vm_compute in X. injection X as X. exact X.
Qed.

(** * C49 *)
Definition fx_listing : list (bytes * ino * N) := [([46], 1, 16877); ([46; 46], 1, 16877); ([97; 98; 99; 100; 101; 102; 103; 104; 105], 5, 33188); ([66], 2, 33188)].
(** Pages of 64 bytes hold one or two entries. *)
Example C49_small_pages :
  kernel_readdir 5 (fun off => read_page fx_listing off 64) 0 =
  Some [mkke [46] 1 4; mkke [46; 46] 1 4; mkke [97; 98; 99; 100; 101; 102; 103; 104; 105] 5 8; mkke [66] 2 8] /\
  map (fun off => length (read_page fx_listing off 64)) [0; 64; 104; 136]%nat = [64; 64; 32; 0]%nat.
Proof. split; vm_compute; reflexivity. Qed.
Example C49_hypotheses_met :
  (forall name i mode, In (name, i, mode) fx_listing -> (24 + (length name + 7) / 8 * 8 <= 64)%nat /\ i < 2 ^ 64) /\
  N.of_nat (list_sum (map (fun e => 24 + (length (fst (fst e)) + 7) / 8 * 8)%nat fx_listing)) < 2 ^ 32.
Proof.
  split; [|vm_compute; reflexivity]. intros name i mode H. cbn in H.
  repeat (destruct H as [H|H]; [inversion H; subst; split; [cbn; lia|reflexivity]|]). contradiction.
Qed.
(** If the longest entry does not fit into a page, the listing ends there. *)
Example C49_a_page_must_hold_the_longest_entry :
  kernel_readdir 5 (fun off => read_page fx_listing off 32) 0 = Some [mkke [46] 1 4; mkke [46; 46] 1 4].
Proof. vm_compute. reflexivity. Qed.
