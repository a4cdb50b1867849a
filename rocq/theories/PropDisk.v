(** C21-C23: the chunk cache on disk (data_store/disk_data_store.cc). *)
From Verif Require Import Base ListX Str ModelText ModelChunkMap ProofChunkMap ModelPath SpecPath ModelDisk SpecDisk ProofDisk ProofDiskRef.
Local Open Scope N_scope.

(** * C21: a map from chunk id to bytes *)

(** Every chunk id can be read back from its path, at every directory depth. *)
Theorem C21_path_parses_back : forall sep depth id,
  separator sep -> chunk_id id -> parse_path sep depth (cache_path sep depth id) = Some id.
Proof. intros. now apply parse_cache. Qed.

(** Distinct chunks never share a file. *)
Theorem C21_paths_distinct : forall sep depth a b,
  separator sep -> chunk_id a -> chunk_id b -> a <> b -> cache_path sep depth a <> cache_path sep depth b.
Proof. intros sep depth a b S A B N E. apply N. eapply cache_inj; eauto. Qed.

(** Whatever parses is a chunk id. *)
Theorem C21_parses_to_chunk_ids : forall sep depth p id, parse_path sep depth p = Some id -> chunk_id id.
Proof. intros. eapply parse_chunk; eauto. Qed.

(** The directories created up front contain every directory a chunk's path
    mentions. *)
Theorem C21_directories_exist : forall sep depth id d rest,
  separator sep -> chunk_id id -> cache_path sep depth id = d ++ sep :: rest ->
  In d (created_dirs sep (dir_names 2) [] depth).
Proof. intros. eapply cache_path_dirs; eauto. Qed.

(** Every history of calls on a store opened over any cache directory returns
    what the map returns, and afterwards the directory holds what the map holds. *)
Theorem C21_behaves_like_a_map : forall sep depth fs limit ops s rs,
  separator sep -> cache_dir sep depth fs -> Forall op_ok ops ->
  drun sep depth (dopen fs limit) ops = (s, rs) ->
  exists m, mrun (stored sep depth fs) ops m rs /\
            (forall id, chunk_id id -> m id = stored sep depth (ds_fs s) id) /\ cache_dir sep depth (ds_fs s).
Proof.
  intros sep depth fs limit ops s rs S C F E.
  destruct (run_refines sep S depth ops (stored sep depth fs) (dopen fs limit) s rs ltac:(split; [exact C|reflexivity]) F E) as (m & M & C' & A).
  exists m. split; auto.
Qed.

Definition ida : cid := repeat 171 20.
Definition idb : cid := 205 :: repeat 171 19.
Lemma ida_ok : chunk_id ida.
Proof. split; [reflexivity|]. apply Forall_forall. intros x Hx. apply repeat_spec in Hx. subst. unfold is_byte. lia. Qed.
Lemma idb_ok : chunk_id idb.
Proof.
  split; [reflexivity|]. unfold idb, is_bytes. constructor; [unfold is_byte; lia|]. apply Forall_forall. intros x Hx.
  apply repeat_spec in Hx. subst. unfold is_byte. lia.
Qed.

(** "ab/ab/abab..." *)
Example C21_path_example :
  exists rest, cache_path 47 2 ida = [97; 98; 47; 97; 98; 47] ++ rest /\ length rest = 36%nat.
Proof. eexists. split; vm_compute; reflexivity. Qed.

Example C21_history_example :
  let ops := [DPut ida [1; 2; 3; 4] 10; DPut idb [9; 9] 11; DGet ida 1 2 12; DPut ida [5; 6] 13; DGetAll ida 14; DRemove ida; DGet ida 0 1 15;
              DContains idb; DPrune [idb] (fun l => l) false; DList (fun l => l)] in
  Forall op_ok ops /\ cache_dir 47 2 [] /\
  snd (drun 47 2 (dopen [] None) ops) =
    [RDone; RDone; RBytes [2; 3]; RDone; RBytes [5; 6]; RDone; RErr; RBool true; RDone; RIds [idb]].
Proof.
  cbv zeta. split; [|split; [split; [constructor|intros ? ? []]|vm_compute; reflexivity]].
  repeat first [apply Forall_nil | apply Forall_cons]; cbn [op_ok]; auto using ida_ok, idb_ok.
Qed.

(** Finding: Prune keys its bookkeeping by id but not by path.  If the directory
    also holds the same id at another directory depth (left by a differently
    configured store), the second visit deletes the chunk that must be kept, and
    Prune reports success. *)
Theorem C32_prune_foreign_depth_refuted :
  exists fs s, ffind (cache_path 47 1 ida) fs = Some ([1], 1%Z) /\
    dstep 47 1 (dopen fs None) (DPrune [ida] (fun l => l) false) = (s, RDone) /\ ffind (cache_path 47 1 ida) (ds_fs s) = None.
Proof.
  exists [(cache_path 47 1 ida, ([1], 1%Z)); (cache_path 47 2 ida, ([1], 1%Z))]. eexists.
  split; [|split]; vm_compute; reflexivity.
Qed.

(** * C22: cleanup *)

(** After any history in which no write failed, a Cleanup that reports success
    leaves at most the target, has evicted less recently used chunks than the
    ones kept, and did not evict more than needed: with the most recently used
    evicted chunk the target would be exceeded. *)
Theorem C22_cleanup : forall sep depth fs0 limit0 ops s rs limit order i ii s',
  separator sep -> cache_dir sep depth fs0 -> Forall op_ok ops -> no_failed_put ops ->
  drun sep depth (dopen fs0 limit0) ops = (s, rs) -> ds_limit s = Some limit ->
  (forall l, Permutation (order l) l) ->
  dstep sep depth s (DCleanup order i ii) = (s', RDone) ->
  (stored_bytes (ds_fs s') <= Z.of_N limit)%Z /\
  exists evicted, Permutation (ds_fs s) (evicted ++ ds_fs s') /\
    (forall e k, In e evicted -> In k (ds_fs s') -> less_recent e k) /\
    (forall e, In e evicted -> (forall e', In e' evicted -> e' = e \/ less_recent e' e) ->
       (Z.of_N limit < stored_bytes (ds_fs s') + Z.of_nat (length (fst (snd e))))%Z).
Proof.
  intros sep depth fs0 limit0 ops s rs limit order i ii s' S C F NF E L P St.
  destruct (run_counted sep S depth ops (dopen fs0 limit0) s rs C F ltac:(discriminate) NF E) as (I & Cs).
  cbn [dstep] in St. rewrite L in St. change stored_bytes with total.
  destruct (ds_init s && (ds_size s <=? Z.of_N limit)%Z) eqn:B.
  - inversion St; subst. apply andb_true_iff in B. destruct B as (B1 & B2). apply Z.leb_le in B2. specialize (I B1).
    split; [lia|]. exists []. split; [reflexivity|]. split; [intros ? ? []|intros ? []].
  - destruct i; [discriminate|].
    destruct (evict (Z.of_N limit) ii 0 (lru_sort (order (ds_fs s))) (ds_fs s) (total (ds_fs s))) as [[b fs'] size] eqn:Ev.
    destruct b; inversion St; subst. cbn [ds_fs].
    apply cleanup_step in Ev; auto; [|apply Cs]. destruct Ev as (N' & -> & _ & E0 & Q & Srt & LR & T & M).
    split. { destruct (T eq_refl) as [?| ->]; [auto|cbn; lia]. }
    exists E0. split; [auto|]. split; [auto|]. intros e He Max.
    destruct (exists_last (l := E0)) as (E1 & x & ->); [intros ->; contradiction|].
    assert (x = e); [|subst; apply (M E1 e); reflexivity].
    apply in_app_or in He. destruct He as [He|[He|[]]]; [|auto].
    destruct (Max x) as [?|Lt]; [apply in_or_app; right; now left|auto|]. exfalso.
    assert (less_recent e x).
    { clear - Srt He. induction E1 as [|y E1 IH]; [contradiction|]. cbn [app] in Srt. inversion Srt as [|? ? S1 F1]; subst.
      destruct He as [->|He]; [|auto]. rewrite Forall_forall in F1. apply F1. apply in_or_app. right. now left. }
    pose proof (less_recent_trans _ _ _ H Lt) as [K|[_ K]]; [lia|]. now apply slt_irrefl in K.
Qed.

(** Nothing is evicted while the stored bytes are within the target, whether
    Cleanup is interrupted or not and whatever happened before. *)
Theorem C22_nothing_under_limit : forall sep depth s limit order i ii s' r,
  ds_limit s = Some limit -> (stored_bytes (ds_fs s) <= Z.of_N limit)%Z ->
  dstep sep depth s (DCleanup order i ii) = (s', r) -> ds_fs s' = ds_fs s.
Proof.
  intros sep depth s limit order i ii s' r L T E. change stored_bytes with total in T. cbn [dstep] in E. rewrite L in E.
  destruct (ds_init s && (ds_size s <=? Z.of_N limit)%Z); [inversion E; reflexivity|]. destruct i; [inversion E; reflexivity|].
  destruct (lru_sort (order (ds_fs s))) as [|f files]; cbn [evict] in E; [inversion E; reflexivity|].
  destruct (Z.ltb_spec (Z.of_N limit) (total (ds_fs s))); [lia|]. inversion E; reflexivity.
Qed.

(** A negative capacity means no limit: nothing is ever evicted. *)
Theorem C22_unlimited : forall sep depth s order i ii,
  ds_limit s = None -> dstep sep depth s (DCleanup order i ii) = (s, RDone).
Proof. intros sep depth s order i ii L. cbn [dstep]. now rewrite L. Qed.

(** An interrupted Cleanup, too, has only dropped less recently used chunks. *)
Theorem C22_interrupted : forall sep depth s order i ii s' r,
  NoDup (map fst (ds_fs s)) -> (forall l, Permutation (order l) l) ->
  dstep sep depth s (DCleanup order i ii) = (s', r) ->
  exists evicted, Permutation (ds_fs s) (evicted ++ ds_fs s') /\
    (forall e k, In e evicted -> In k (ds_fs s') -> less_recent e k).
Proof.
  intros sep depth s order i ii s' r N P E. cbn [dstep] in E.
  assert (Z : forall s1, s1 = s -> exists evicted, Permutation (ds_fs s) (evicted ++ ds_fs s1) /\
    (forall e k, In e evicted -> In k (ds_fs s1) -> less_recent e k)).
  { intros ? ->. exists []. split; [reflexivity|]. intros ? ? []. }
  destruct (ds_limit s) as [limit|]; [|inversion E; subst; auto].
  destruct (ds_init s && (ds_size s <=? Z.of_N limit)%Z); [inversion E; subst; auto|]. destruct i; [inversion E; subst; auto|].
  destruct (evict (Z.of_N limit) ii 0 (lru_sort (order (ds_fs s))) (ds_fs s) (total (ds_fs s))) as [[b fs'] size] eqn:Ev.
  apply cleanup_step in Ev; auto. destruct Ev as (N' & _ & _ & E0 & Q & _ & LR & _). inversion E; subst. exists E0. auto.
Qed.

(** The time that decides about eviction is the time of the last successful
    access (C21_behaves_like_a_map carries it along); here for one chunk. *)
Theorem C22_last_access : forall sep depth s id off n now s' r c t,
  NoDup (map fst (ds_fs s)) -> ffind (cache_path sep depth id) (ds_fs s) = Some (c, t) -> n <> 0%nat ->
  dstep sep depth s (DGet id off n now) = (s', r) -> ffind (cache_path sep depth id) (ds_fs s') = Some (c, now).
Proof.
  intros sep depth s id off n now s' r c t N Fi H E. cbn [dstep] in E. destruct n; [lia|]. rewrite Fi in E. inversion E; subst.
  cbn [touch set_fs ds_fs]. rewrite ffind_put. destruct (list_eq_dec N.eq_dec _ _); [reflexivity|congruence].
Qed.

(** Two chunks of 4 and 2 bytes; the first was used last; the target is 4 bytes. *)
Example C22_example :
  let ops := [DPut ida [1; 2; 3; 4] 10; DPut idb [9; 9] 11; DGet ida 0 4 12] in
  no_failed_put ops /\ Forall op_ok ops /\
  exists s rs s', drun 47 2 (dopen [] (Some 4)) ops = (s, rs) /\ ds_limit s = Some 4 /\
    dstep 47 2 s (DCleanup (fun l => l) false (fun _ => false)) = (s', RDone) /\
    ds_fs s' = [(cache_path 47 2 ida, ([1; 2; 3; 4], 12%Z))].
Proof.
  cbv zeta. split; [repeat first [apply Forall_nil | apply Forall_cons]; exact I|].
  split; [repeat first [apply Forall_nil | apply Forall_cons]; cbn [op_ok]; auto using ida_ok, idb_ok|].
  eexists _, _, _. split; [vm_compute; reflexivity|]. split; [reflexivity|]. split; [vm_compute; reflexivity|]. vm_compute. reflexivity.
Qed.

(** Without [no_failed_put] the bound fails: the part of a chunk written before
    the disk was full is not counted, and Cleanup returns at once. *)
Theorem C22_failed_put_refuted :
  exists ops s rs, Forall op_ok ops /\ drun 47 2 (dopen [] (Some 1)) ops = (s, rs) /\
    exists s', dstep 47 2 s (DCleanup (fun l => l) false (fun _ => false)) = (s', RDone) /\ (stored_bytes (ds_fs s') > 1)%Z.
Proof.
  exists [DCleanup (fun l => l) false (fun _ => false); DPutFail ida [1; 2; 3; 4] 3 10]. eexists _, _.
  split; [repeat first [apply Forall_nil | apply Forall_cons]; cbn [op_ok]; auto using ida_ok|]. split; [vm_compute; reflexivity|].
  eexists. split; [vm_compute; reflexivity|]. vm_compute. reflexivity.
Qed.

(** * C23: Size() *)

(** Right after a listing, a completed cleanup over the limit or a pruning,
    Size() is exact. *)
Theorem C23_exact_after_scan_partial : forall sep depth s o s' r,
  separator sep -> cache_dir sep depth (ds_fs s) -> op_ok o ->
  match o with
  | DList _ | DPrune _ _ false | DWipe => True
  | DCleanup _ false _ => ds_limit s <> None /\ ds_init s = false
  | _ => False
  end ->
  dstep sep depth s o = (s', r) -> snd (dstep sep depth s' DSize) = RNum (stored_bytes (ds_fs s')).
Proof.
  intros sep depth s o s' r S C O H E. change stored_bytes with total. cbn [dstep snd]. f_equal.
  destruct o; try contradiction; cbn [dstep op_ok] in *.
  - inversion E; reflexivity.
  - destruct interrupted; [contradiction|].
    destruct (prune_loop sep depth (order (ds_fs s)) keep (ds_fs s) (total (ds_fs s))) as [[missing fs'] size] eqn:Pr.
    apply prune_step in Pr; auto. destruct Pr as (_ & -> & _). inversion E; reflexivity.
  - destruct interrupted; [contradiction|]. destruct (ds_limit s) as [limit|]; [|tauto]. rewrite (proj2 H) in E. cbn [andb] in E.
    destruct (evict (Z.of_N limit) interrupt 0 (lru_sort (order (ds_fs s))) (ds_fs s) (total (ds_fs s))) as [[b fs'] size] eqn:Ev.
    apply (cleanup_step) in Ev; auto; [|apply C]. destruct Ev as (_ & -> & _). inversion E; reflexivity.
  - inversion E; reflexivity.
Qed.

(** Once the directory has been scanned, Size() never under-reports (no write
    failed). *)
Theorem C23_never_under_partial : forall sep depth fs0 limit0 ops s rs,
  separator sep -> cache_dir sep depth fs0 -> Forall op_ok ops -> no_failed_put ops ->
  drun sep depth (dopen fs0 limit0) ops = (s, rs) -> ds_init s = true ->
  exists n, snd (dstep sep depth s DSize) = RNum n /\ (stored_bytes (ds_fs s) <= n)%Z.
Proof.
  intros sep depth fs0 limit0 ops s rs S C F NF E I. eexists. split; [reflexivity|].
  destruct (run_counted sep S depth ops (dopen fs0 limit0) s rs C F ltac:(discriminate) NF E) as (H & _). exact (H I).
Qed.

(** And it is exact as long as no chunk is overwritten or removed. *)
Theorem C23_exact_fresh_puts_partial : forall sep depth s id data now s' r,
  ds_size s = stored_bytes (ds_fs s) -> ffind (cache_path sep depth id) (ds_fs s) = None ->
  dstep sep depth s (DPut id data now) = (s', r) ->
  snd (dstep sep depth s' DSize) = RNum (stored_bytes (ds_fs s')).
Proof.
  intros sep depth s id data now s' r Z N E. change stored_bytes with total in *. cbn [dstep snd] in *. inversion E; subst. cbn [ds_size ds_fs].
  rewrite total_put, N, Z. f_equal. lia.
Qed.

(** Finding: the general claim is false.  Overwriting a chunk counts it twice, and
    Remove does not subtract. *)
Theorem C23_size_refuted :
  (exists s rs, drun 47 2 (dopen [] None) [DList (fun l => l); DPut ida [1; 2] 1; DPut ida [1; 2] 2] = (s, rs) /\
     snd (dstep 47 2 s DSize) = RNum 4 /\ stored_bytes (ds_fs s) = 2%Z) /\
  (exists s rs, drun 47 2 (dopen [] None) [DList (fun l => l); DPut ida [1; 2] 1; DRemove ida] = (s, rs) /\
     snd (dstep 47 2 s DSize) = RNum 2 /\ stored_bytes (ds_fs s) = 0%Z).
Proof. split; eexists _, _; (split; [vm_compute; reflexivity|split; vm_compute; reflexivity]). Qed.

Example C23_scan_example :
  exists s rs, drun 47 2 (dopen [(cache_path 47 2 ida, ([1; 2; 3], 5%Z))] (Some 2)) [DCleanup (fun l => l) false (fun _ => false); DSize] = (s, rs) /\
    rs = [RDone; RNum 0].
Proof. eexists _, _. split; vm_compute; reflexivity. Qed.

Print Assumptions C21_path_parses_back.
Print Assumptions C21_directories_exist.
Print Assumptions C21_behaves_like_a_map.
Print Assumptions C22_cleanup.
Print Assumptions C22_interrupted.
Print Assumptions C23_exact_after_scan_partial.
Print Assumptions C23_never_under_partial.
Print Assumptions C23_size_refuted.
