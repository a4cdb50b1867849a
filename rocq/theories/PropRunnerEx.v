(** C52: a run that meets the hypotheses, and runs in which changes are lost. *)
From Verif Require Import Base ListX Str ModelText ModelPath SpecPath ModelCdc ModelChunkMap ModelProvider ModelAsset SpecAsset
  ModelManifest SpecManifest ProofManifest ModelUpdater SpecUpdater PropUpdater SpecWatch ModelWatch SpecMerge PropMerge SpecRunner PropIncr PropIncrEx ModelRunner ProofRunner PropRunner.
From Coq Require Import Permutation.
Local Open Scope N_scope.

Definition run_src (p : path) : option snode :=
  match p with
  | [] => Some (SDir 5) | [[100]] => Some (SDir 6) | [[100]; [103]] => Some (SFile 3 [1; 2]) | [[102]] => Some (SFile 7 [1; 2]) | _ => None
  end.
Lemma run_src_paths p : run_src p <> None -> p = [] \/ p = [[100]] \/ p = [[100]; [103]] \/ p = [[102]].
Proof. unfold run_src. intros H. repeat (match type of H with match ?x with _ => _ end <> _ => destruct x; auto; try (now elim H) end). Qed.
Definition run_start : world := mkw [] false false None old_b (fun _ => False) [] [] run_src.
Example run_starts : starts ex_none inc_truth ex_none run_start.
Proof.
  destruct old_good as (T & S & P). constructor; auto; cbn [w_map w_due w_changed w_update w_man w_lost w_os w_seen w_base run_start].
  - constructor.
    + exists 5. reflexivity.
    + intros p H. apply run_src_paths in H. destruct H as [->|[->|[->| ->]]]; good.
    + intros p n H. apply run_src_paths in H. destruct H as [H|[H|[H|H]]]; [destruct p; discriminate| | |];
        (apply (f_equal (@removelast bytes)) in H; rewrite removelast_last in H; subst p; eexists; reflexivity).
  - discriminate.
  - intros q Nq. left.
    destruct (run_src q) eqn:Sq.
    + destruct (run_src_paths q) as [->|[->|[->| ->]]]; [congruence|contradiction| | |]; inversion Sq; subst.
      * cbn. auto.
      * cbn. repeat split. apply (one_describes inc_truth [5] [1; 2]); reflexivity.
      * cbn. repeat split. apply (one_describes inc_truth [5] [1; 2]); reflexivity.
    + destruct (bview ex_none 0 old_b q) eqn:V; [|exact I].
      destruct (inc_old_paths q) as [->|[->|[->| ->]]]; [congruence|contradiction|discriminate..].
Qed.

(** The tree after a change, for a path that is a leaf with a parent. *)
Lemma upd_tree src P x : source_tree src -> P <> [] -> Forall good_name P ->
  (exists mt, src (removelast P) = Some (SDir mt)) ->
  (match x with Some (SDir _) => True | _ => forall n, src (P ++ [n]) = None end) -> source_tree (upd src P x).
Proof.
  intros [(mt0 & R) Na Up] NP GP (mt & Par) Leaf. constructor.
  - exists mt0. rewrite upd_other by (intros E; apply NP; now symmetry). exact R.
  - intros p H. destruct (list_eq_dec (list_eq_dec N.eq_dec) p P) as [->|N]; [exact GP|]. rewrite upd_other in H by exact N. now apply Na.
  - intros p n H. destruct (list_eq_dec (list_eq_dec N.eq_dec) (p ++ [n]) P) as [<-|N].
    + rewrite removelast_last in Par. exists mt. rewrite upd_other; [exact Par|]. intros E. apply (f_equal (@length bytes)) in E. rewrite app_length in E. cbn in E. lia.
    + rewrite upd_other in H by exact N. destruct (list_eq_dec (list_eq_dec N.eq_dec) p P) as [->|Np].
      * rewrite upd_same. destruct x as [[m|m c]|]; [eauto|elim H; apply Leaf..].
      * rewrite upd_other by exact Np. eapply Up; exact H.
Qed.
(** The changes: the time of d, d\h created, d\g removed, f modified. *)
Definition run_changes : list change :=
  [mkch [[100]] (Some (SDir 9)) (mkn [100] NModified true 0 9);
   mkch [[100]; [104]] (Some (SFile 4 [1; 2])) (mkn [100; 92; 104] NAdded false 2 4);
   mkch [[100]; [103]] None (mkn [100; 92; 103] NRemoved false 0 3);
   mkch [[102]] (Some (SFile 8 [3])) (mkn [102] NModified false 1 8)].
Lemma happens_by src c : source_tree src -> c_path c <> [] -> Forall good_name (c_path c) -> n_name (c_note c) = wstr (c_path c) ->
  (exists mt, src (removelast (c_path c)) = Some (SDir mt)) ->
  (match c_new c with Some (SDir _) => True | _ => forall n, src (c_path c ++ [n]) = None end) ->
  match src (c_path c), c_new c with
  | None, Some s => (n_action (c_note c) = NAdded \/ n_action (c_note c) = NNewName) /\ note_is (c_note c) s
  | Some s, Some s' => n_action (c_note c) = NModified /\ same_kind s s' /\ note_is (c_note c) s'
  | Some s, None => n_action (c_note c) = NRemoved \/ n_action (c_note c) = NOldName
  | None, None => False
  end -> happens src c.
Proof. intros S N G E P L H. split; [exact N|]. split; [exact E|]. split; [now apply upd_tree|]. split; [exact G|exact H]. Qed.
Lemma valid_cons src c l : happens src c -> valid (upd src (c_path c) (c_new c)) l -> valid src (c :: l).
Proof.
  intros H V a d b E. destruct a as [|x a]; [inversion E; subst; exact H|]. inversion E; subst. exact (V a d b eq_refl).
Qed.
(** All changes of a list happen one after the other. *)
Section Run.
Context (store : cid -> option (list asset)) (truth : cid -> option bytes) (clists : cid -> option (list cref)) (store_root : cid -> option asset)
  (put : list asset -> option cid) (put_chunks : list cref -> option cid) (put_root : asset -> option cid)
  (sort_desc : list asset -> list asset) (max_size : N) (sort : list ainfo -> list ainfo) (push : bool) (max_queued : nat) (mpt : Z).
Lemma changes_happen w l : valid (w_src w) l ->
  wsteps store truth clists store_root put put_chunks put_root sort_desc max_size sort push max_queued mpt w
    (mkw (w_map w) (w_due w) (w_changed w) (w_update w) (w_man w) (w_lost w) (w_os w ++ l) (w_seen w) (w_base w)).
Proof.
  induction l as [|c l IH] using rev_ind; intros V; [rewrite app_nil_r; destruct w; apply wsteps_refl|]. apply valid_last in V. destruct V as (V & H).
  eapply wsteps_step; [exact (IH V)|]. rewrite (app_assoc (w_os w)). 
  pose proof (W_change store truth clists store_root put put_chunks put_root sort_desc max_size sort push max_queued mpt
    (mkw (w_map w) (w_due w) (w_changed w) (w_update w) (w_man w) (w_lost w) (w_os w ++ l) (w_seen w) (w_base w)) c) as X.
  cbn [w_map w_due w_changed w_update w_man w_lost w_os w_seen w_base] in X. apply X. unfold w_src in *. cbn [w_base w_seen w_os]. rewrite app_assoc, apply_app. exact H.
Qed.
End Run.
Ltac leaf := intros ?; reflexivity.
Ltac one_change := apply valid_cons; [apply happens_by; [|discriminate|good|reflexivity|eexists; reflexivity|try exact I; leaf|cbn; auto]|].
Lemma run_valid : valid run_src run_changes.
Proof.
  pose proof (st_source _ _ _ _ run_starts) as S. cbn in S. unfold run_changes.
  one_change; [exact S|]. cbn [c_path c_new]. apply (upd_tree _ [[100]] (Some (SDir 9))) in S; [|discriminate|good|eexists; reflexivity|exact I].
  one_change; [exact S|]. cbn [c_path c_new]. apply (upd_tree _ [[100]; [104]] (Some (SFile 4 [1; 2]))) in S; [|discriminate|good|eexists; reflexivity|leaf].
  one_change; [exact S|]. cbn [c_path c_new]. apply (upd_tree _ [[100]; [103]] None) in S; [|discriminate|good|eexists; reflexivity|leaf].
  one_change; [exact S|]. apply valid_nil.
Qed.
Definition run_end : world := mkw [] false false None (mkb (Some inc_new) (fun _ => None)) (fun _ => False) [] [] (apply_changes run_src run_changes).
Lemma run_end_src q : apply_changes run_src run_changes q = inc_src q.
Proof.
  unfold apply_changes, run_changes. cbn [fold_left c_path c_new]. unfold upd.
  repeat match goal with |- context [list_eq_dec ?d q ?P] => destruct (list_eq_dec d q P) as [->|?]; [reflexivity|] end.
  destruct (run_src q) eqn:R; [destruct (run_src_paths q) as [->|[->|[->| ->]]]; [congruence|now rewrite <- R|contradiction..]|].
  destruct (inc_src q) eqn:E; [|reflexivity]. destruct (inc_src_paths q) as [->|[->|[->| ->]]]; [congruence|discriminate|contradiction..].
Qed.
Notation run_steps root := (wsteps ex_none inc_truth ex_none (one_store root) ex_none ex_none (one_root root) (fun l => l) 0 ex_sort false 1 0%Z).
Example C52_example : run_steps inc_new run_start run_end /\ settled run_end /\ (forall q, ~ w_lost run_end q) /\ w_src run_end [[102]] = Some (SFile 8 [3]).
Proof.
  split; [|split; [repeat split|split; [intros q []|reflexivity]]].
  pose proof (changes_happen ex_none inc_truth ex_none (one_store inc_new) ex_none ex_none (one_root inc_new) (fun l => l) 0 ex_sort false 1 0%Z run_start run_changes run_valid) as H.
  cbn [w_map w_due w_changed w_update w_man w_lost w_os w_seen w_base run_start app] in H.
  (* two notifications are read first, then the others *)
  eapply wsteps_step in H; [|apply (W_merge _ _ _ _ _ _ _ _ _ _ _ _ _ _ (firstn 2 run_changes) (skipn 2 run_changes)); [reflexivity|reflexivity|discriminate]].
  eapply wsteps_step in H; [|apply W_callback; reflexivity]. cbn [w_map w_due w_changed w_update w_man w_lost w_os w_seen w_base app] in H.
  eapply wsteps_step in H; [|apply (W_merge _ _ _ _ _ _ _ _ _ _ _ _ _ _ (skipn 2 run_changes) []); [reflexivity|cbn; reflexivity|discriminate]].
  eapply wsteps_step in H; [|apply W_callback; reflexivity]. cbn [w_map w_due w_changed w_update w_man w_lost w_os w_seen w_base app] in H.
  eapply wsteps_step in H; [|apply (W_pick _ _ _ _ _ _ _ _ _ _ _ _ _ _ inc_ops (fun _ => False)); [reflexivity|reflexivity|apply Permutation_refl|auto|]].
  2:{ cbn [w_base w_seen]. intros q N R. exfalso. apply run_src_paths in N. destruct N as [->|[->|[->| ->]]]; vm_compute in R; lia. }
  destruct C50_example_run as (m0 & m & b' & log & St & Ru & Ld & F & Sep).
  eapply wsteps_step in H; [exact H|].
  match goal with |- ModelRunner.wstep _ _ _ _ _ _ _ _ _ _ _ _ _ _ ?w _ => pose proof (W_done ex_none inc_truth ex_none (one_store inc_new) ex_none ex_none (one_root inc_new) (fun l => l) 0 ex_sort false 1 0%Z w inc_ops inc_chunk (mkb (Some inc_new) (fun _ => None)) (fun _ => False)) as D end.
  cbn [w_map w_due w_changed w_update w_man w_lost w_os w_seen w_base] in D. apply D; clear D.
  - reflexivity.
  - exists ex_search, fcmap_init, m0, m, 1, 3%nat, [9], b', log. repeat (split; [assumption|]). reflexivity.
  - intros q [].
  - intros q _. left. intros mt c r E Ck. change (apply_changes run_src run_changes q = Some (SFile mt c)) in E. rewrite run_end_src in E. exact (inc_reads q mt c r E Ck).
Qed.

(** A deletion is lost (C51): f is removed, created and removed again before the changes
    are picked up.  The manifest keeps f for ever. *)
Definition again : list change :=
  [mkch [[102]] None (mkn [102] NRemoved false 2 7);
   mkch [[102]] (Some (SFile 8 [3])) (mkn [102] NAdded false 1 8);
   mkch [[102]] None (mkn [102] NRemoved false 1 8)].
Lemma again_valid : valid run_src again.
Proof.
  pose proof (st_source _ _ _ _ run_starts) as S. cbn in S. unfold again.
  one_change; [exact S|]. cbn [c_path c_new]. apply (upd_tree _ [[102]] None) in S; [|discriminate|good|eexists; reflexivity|leaf].
  one_change; [exact S|]. cbn [c_path c_new]. apply (upd_tree _ [[102]] (Some (SFile 8 [3]))) in S; [|discriminate|good|eexists; reflexivity|leaf].
  one_change; [exact S|]. apply valid_nil.
Qed.
Theorem C52_lost_deletion_refuted : exists w, run_steps inc_new run_start w /\ settled w /\ w_src w [[102]] = None /\ bview ex_none 0 (w_man w) [[102]] <> None.
Proof.
  exists (mkw [] false false None old_b (fun q => q = [[102]]) [] [] (apply_changes run_src again)).
  split; [|split; [repeat split|split; [reflexivity|discriminate]]].
  pose proof (changes_happen ex_none inc_truth ex_none (one_store inc_new) ex_none ex_none (one_root inc_new) (fun l => l) 0 ex_sort false 1 0%Z run_start again again_valid) as H.
  cbn [w_map w_due w_changed w_update w_man w_lost w_os w_seen w_base run_start app] in H.
  eapply wsteps_step in H; [|apply (W_merge _ _ _ _ _ _ _ _ _ _ _ _ _ _ again []); [reflexivity|reflexivity|discriminate]].
  eapply wsteps_step in H; [|apply W_callback; reflexivity]. cbn [w_map w_due w_changed w_update w_man w_lost w_os w_seen w_base app] in H.
  eapply wsteps_step in H; [exact H|].
  match goal with |- ModelRunner.wstep _ _ _ _ _ _ _ _ _ _ _ _ _ _ ?w _ => pose proof (W_pick ex_none inc_truth ex_none (one_store inc_new) ex_none ex_none (one_root inc_new) (fun l => l) 0 ex_sort false 1 0%Z w [] (fun q => q = [[102]])) as D end.
  cbn [w_map w_due w_changed w_update w_man w_lost w_os w_seen w_base] in D. apply D; clear D; auto.
  - intros q [].
  - intros q N R. apply run_src_paths in N. destruct N as [->|[->|[->| ->]]]; vm_compute in R; [lia|lia|lia|reflexivity].
Qed.

(** One failed Update, and everything is gone: the directory d and the file d\g, which
    did not change, are missing from then on. *)
Definition fresh_root : asset := new_asset 1 [] TDir.
Definition one_modified : list change := [mkch [[102]] (Some (SFile 8 [3])) (mkn [102] NModified false 1 8)].
Theorem C52_failed_update_refuted : exists w, run_steps fresh_root run_start w /\ settled w /\
  w_src w [[100]; [103]] = run_src [[100]; [103]] /\ run_src [[100]; [103]] <> None /\ bview ex_none 0 (w_man w) [[100]; [103]] = None.
Proof.
  exists (mkw [] false false None (mkb (Some fresh_root) (fun _ => None)) (fun _ => True) [] [] (apply_changes run_src one_modified)).
  split; [|split; [repeat split|split; [reflexivity|split; [discriminate|reflexivity]]]].
  assert (V : valid run_src one_modified). { pose proof (st_source _ _ _ _ run_starts) as S. cbn in S. one_change; [exact S|]. apply valid_nil. }
  pose proof (changes_happen ex_none inc_truth ex_none (one_store fresh_root) ex_none ex_none (one_root fresh_root) (fun l => l) 0 ex_sort false 1 0%Z run_start one_modified V) as H.
  cbn [w_map w_due w_changed w_update w_man w_lost w_os w_seen w_base run_start app] in H.
  eapply wsteps_step in H; [|apply (W_merge _ _ _ _ _ _ _ _ _ _ _ _ _ _ one_modified []); [reflexivity|reflexivity|discriminate]].
  eapply wsteps_step in H; [|apply W_callback; reflexivity]. cbn [w_map w_due w_changed w_update w_man w_lost w_os w_seen w_base app] in H.
  eapply wsteps_step in H; [|apply (W_pick _ _ _ _ _ _ _ _ _ _ _ _ _ _ [(KUpdate, mkai [102] TFile 8 1 [])] (fun _ => False)); [reflexivity|reflexivity|apply Permutation_refl|auto|]].
  2:{ cbn [w_base w_seen]. intros q N R. exfalso. apply run_src_paths in N. destruct N as [->|[->|[->| ->]]]; vm_compute in R; lia. }
  eapply wsteps_step in H; [exact H|].
  match goal with |- ModelRunner.wstep _ _ _ _ _ _ _ _ _ _ _ _ _ _ ?w _ => pose proof (W_failed ex_none inc_truth ex_none (one_store fresh_root) ex_none ex_none (one_root fresh_root) (fun l => l) 0 ex_sort false 1 0%Z w [(KUpdate, mkai [102] TFile 8 1 [])] (mkb (Some fresh_root) (fun _ => None)) (fun _ => True)) as D end.
  cbn [w_map w_due w_changed w_update w_man w_lost w_os w_seen w_base] in D. apply D; clear D; auto.
  eexists 1, 3%nat, [9], _, _. split; [vm_compute; reflexivity|]. split; [constructor; intros; contradiction|reflexivity].
Qed.
