(** C26, C27, C43: reading files and directories of a manifest (cdc_fuse_fs/asset.cc,
    manifest/manifest_builder.cc). *)
From Verif Require Import Base ListX Str ModelText ModelChunkMap ModelProvider SpecProvider ProofProvider PropProvider
  ModelAsset SpecAsset ProofAsset ProofEnforce.
Local Open Scope N_scope.

Notation two64 := 18446744073709551616 (only parsing).

(** Fetching an indirect list returns the list with that id or fails. *)
Definition fetch_sound (lists : cid -> option (list cref)) (fp : fproto) (fetch : nat -> option (list cref)) : Prop :=
  forall k o id l, nth_error (fp_ind fp) k = Some (o, id) -> fetch k = Some l -> lists id = Some l.

(** * C26 *)

(** A successful read returns exactly bytes [offset, offset + size) of the file, cut
    off at the end of the file; a failure is due to a failed fetch. *)
Theorem C26_read_exact : forall (truth : cid -> option bytes) lists fp fetch content (inv : cache -> Prop) (get : list task -> M (status * list task))
    offset size prefetch (c : cache) r (c' : cache),
  describes truth lists fp content -> fetch_sound lists fp fetch -> good_get truth inv get -> inv c -> size <= prefetch ->
  asset_read fp fetch get offset size prefetch c r c' ->
  match r with
  | Ok (n, buf) => buf = range content (N.to_nat offset) (N.to_nat size) /\ n = blen buf /\ n = N.min size (blen content - offset)
  | Fail => (exists k, (k < length (fp_ind fp))%nat /\ fetch k = None) \/
            (exists ts s ts', get ts c (s, ts') c' /\ (s <> SOk \/ read_done ts' = false))
  | UB | OutOfFuel => False
  end.
Proof.
  intros truth lists fp fetch content inv get offset size prefetch c r c' (d & i & L & I & C & S & B) Hf Hg Hi Hp H.
  pose proof (read_plan_spec truth lists fp fetch content d i L I C S B Hf offset size prefetch Hp) as P.
  pose proof (read_plan_any fp fetch offset size prefetch) as Q. unfold asset_read in H.
  assert (Min : forall buf, buf = range content (N.to_nat offset) (N.to_nat size) -> blen buf = N.min size (blen content - offset)).
  { intros buf ->. unfold blen. rewrite range_length. lia. }
  destruct (read_plan fp fetch offset size prefetch) as [[[qs nleft]|]| | |]; try contradiction.
  - destruct P as (Pg & Pb & Pl). destruct H as ((s & ts) & c1 & G & H).
    destruct (Hg (map to_task qs) c s ts c1 Hi) as (SR & D); [| |].
    { rewrite Forall_forall. intros t It. apply in_map_iff in It. destruct It as ([[id o] n] & <- & _). split; reflexivity. }
    { exact G. }
    destruct s; [|destruct H as (-> & ->); right; exists (map to_task qs), SNotFound, ts; split; [exact G|left; discriminate]
                 |destruct H as (-> & ->); right; exists (map to_task qs), SErr, ts; split; [exact G|left; discriminate]].
    destruct (read_done ts) eqn:R; [|destruct H as (-> & ->); right; exists (map to_task qs), SOk, ts; split; [exact G|right; exact R]].
    destruct H as (-> & ->).
    assert (W : concat (map written ts) = concat (map (req_bytes truth) qs)).
    { clear Pb Pl G Q. unfold read_done in R. revert ts SR D R. induction Pg as [|[[id o] n] qs Hq Pg IH]; intros ts SR D R; [inversion SR; reflexivity|]. destruct Hq as (b & Tb & Lb). inversion SR as [|? t ? ts' Sr SR']; subst.
      cbn [map forallb] in *. apply andb_true_iff in R. destruct R as (R1 & R2). cbn [concat]. f_equal; [|apply IH; [exact SR'|intros x Ix; apply D; now right|exact R2]].
      destruct Sr as (S1 & S2 & S3). cbn [to_task t_id t_off t_size] in S1, S2, S3. unfold written, req_bytes. rewrite Tb.
      destruct (t_size t =? 0)%nat eqn:Z.
      - apply Nat.eqb_eq in Z. rewrite <- S3 in Z. rewrite Z. now rewrite range_O.
      - apply Nat.eqb_neq in Z. cbn [orb] in R1. destruct (D t (or_introl eq_refl) R1 Z) as (tr & Tt & To & _). rewrite <- S1, Tb in Tt. inversion Tt; subst.
        now rewrite S2, S3. }
    rewrite W, Pb. split; [reflexivity|]. rewrite Pb in Pl. split; [lia|]. rewrite <- (Min _ eq_refl). lia.
  - destruct H as (-> & ->). assert (E : [] = range content (N.to_nat offset) (N.to_nat size)).
    { destruct P as [->|P]; [reflexivity|]. symmetry. apply range_end. unfold blen in *. lia. }
    split; [exact E|]. split; [reflexivity|]. rewrite <- (Min _ E). reflexivity.
  - destruct H as (-> & ->). left. exact P.
Qed.

(** Together with the data provider of C24: concurrent reads, failing or truncated
    caches. *)
Theorem C26_read_through_provider : forall (truth : cid -> option bytes) lists fp fetch content
    (env : list N -> cache -> cache -> Prop) faults has_writer readers prefetch_config offset size (c : cache) n buf (c' : cache),
  describes truth lists fp content -> fetch_sound lists fp fetch ->
  preserves env (sound truth) -> Forall (reader_sound truth) readers -> sound truth c ->
  asset_read fp fetch (provider_get_list env faults has_writer readers) offset size (prefetch_size prefetch_config size) c (Ok (n, buf)) c' ->
  buf = range content (N.to_nat offset) (N.to_nat size) /\ n = N.min size (blen content - offset).
Proof.
  intros truth lists fp fetch content env faults hw readers pc offset size c n buf c' Hd Hf He Hr Hc H.
  apply (C26_read_exact truth lists fp fetch content (sound truth)) in H; auto.
  - destruct H as (A & _ & B). auto.
  - intros ts c1 s ts' c2 Hi F G. destruct (C24_list_bytes _ _ _ _ _ _ _ _ _ _ He Hr Hi F G) as (X & Y & _). auto.
  - unfold prefetch_size. destruct (size =? 131072); lia.
Qed.

(** Whatever the manifest and the lists contain (also malformed ones): no invalid
    access, the loop ends, and no more than [size] bytes of buffer are used. *)
Theorem C26_malformed_manifest : forall fp fetch offset size prefetch,
  match read_plan fp fetch offset size prefetch with
  | Ok (Some (requests, nleft)) => fold_right (fun q s => snd q + s) 0 requests + nleft = size
  | Ok None | Fail => True
  | UB | OutOfFuel => False
  end.
Proof. exact read_plan_any. Qed.

(** If every list can be fetched the plan is made. *)
Theorem C26_plan_made : forall (truth : cid -> option bytes) lists fp fetch content offset size prefetch,
  describes truth lists fp content -> fetch_sound lists fp fetch -> size <= prefetch ->
  (forall k, (k < length (fp_ind fp))%nat -> fetch k <> None) -> exists p, read_plan fp fetch offset size prefetch = Ok p.
Proof.
  intros truth lists fp fetch content offset size prefetch (d & i & L & I & C & S & B) Hf Hp Ha.
  pose proof (read_plan_spec truth lists fp fetch content d i L I C S B Hf offset size prefetch Hp) as P.
  pose proof (read_plan_any fp fetch offset size prefetch) as Q.
  destruct (read_plan fp fetch offset size prefetch) as [p| | |]; [eauto| |contradiction..]. destruct P as (k & Hk & E). exfalso. exact (Ha k Hk E).
Qed.

(** Three direct bytes, two indirect lists with two chunks each; reads across lists. *)
Definition ida : cid := [1]. Definition idb : cid := [2]. Definition idl1 : cid := [3]. Definition idl2 : cid := [4].
Definition tr2 : cid -> option bytes := fun id => if list_eq_dec N.eq_dec id ida then Some [10; 11; 12] else if list_eq_dec N.eq_dec id idb then Some [20; 21] else None.
Definition list1 := [mkref 0 idb; mkref 2 ida].
Definition list2 := [mkref 0 ida; mkref 3 idb].
Definition lst2 : cid -> option (list cref) := fun id => if list_eq_dec N.eq_dec id idl1 then Some list1 else if list_eq_dec N.eq_dec id idl2 then Some list2 else None.
Definition fp2 := mkfp 13 [mkref 0 ida] [(3, idl1); (8, idl2)].
Definition fetch2 (k : nat) : option (list cref) := nth_error [list1; list2] k.
Definition content2 : bytes := [10; 11; 12; 20; 21; 10; 11; 12; 10; 11; 12; 20; 21].

Example C26_example :
  describes tr2 lst2 fp2 content2 /\ fetch_sound lst2 fp2 fetch2 /\
  read_plan fp2 fetch2 4 7 7 = Ok (Some ([(idb, 1, 1); (ida, 0, 3); (ida, 0, 3)], 0)) /\
  read_plan fp2 fetch2 11 100 100 = Ok (Some ([(idb, 0, 2)], 98)) /\
  read_plan fp2 fetch2 2 1 9 = Ok (Some ([(ida, 2, 1); (idb, 0, 0); (ida, 0, 0); (ida, 0, 0)], 0)) /\
  read_plan fp2 fetch2 13 1 1 = Ok None.
Proof.
  split; [|split; [|repeat split; vm_compute; reflexivity]].
  - exists [[10; 11; 12]], [[20; 21]; [10; 11; 12]; [10; 11; 12]; [20; 21]]. split; [|split; [|split; [|split]]]; try reflexivity.
    + apply (layout_cons tr2 (mkref 0 ida)); [reflexivity|constructor].
    + apply (ind_cons tr2 lst2 3 idl1 _ list1 [[20; 21]; [10; 11; 12]]); [reflexivity| |].
      * apply (layout_cons tr2 (mkref 0 idb)); [reflexivity|]. apply (layout_cons tr2 (mkref 2 ida)); [reflexivity|constructor].
      * apply (ind_cons tr2 lst2 8 idl2 _ list2 [[10; 11; 12]; [20; 21]] []); [reflexivity| |constructor].
        apply (layout_cons tr2 (mkref 0 ida)); [reflexivity|]. apply (layout_cons tr2 (mkref 3 idb)); [reflexivity|constructor].
  - intros [|[|[|k]]] o id l E F; cbn in E; try discriminate; inversion E; subst; cbn in F; inversion F; reflexivity.
Qed.

(** * C27 *)

(** The described file does not change, and neither does the sequence of
    (absolute offset, chunk id). *)
Theorem C27_split_preserves_file : forall (truth : cid -> option bytes) lists put base max_asset max_size fp fp' content,
  (forall l id, put l = Some id -> lists id = Some l) ->
  describes truth lists fp content -> enforce_file put base max_asset max_size fp = Ok fp' -> describes truth lists fp' content.
Proof.
  intros truth lists put base ma ms fp fp' content Hput D H. unfold enforce_file in H.
  destruct (ma =? 0); [inversion H; subst; auto|]. destruct (length (fp_chunks fp) <=? 1)%nat; [inversion H; subst; auto|].
  destruct (fp_ind fp) as [|e ind] eqn:Ei; [|discriminate].
  destruct (pop_loop base ma (rev (fp_chunks fp)) (file_bytes base (fp_chunks fp) []) []) as [kept over] eqn:P.
  apply pop_loop_split in P. rewrite rev_involutive, app_nil_r in P.
  destruct over as [|r over]; [inversion H; subst; auto|].
  destruct (write_lists put (fill_lists ms (r :: over) (cr_off r) [] 0)) as [ind|] eqn:W; [|discriminate]. inversion H; subst fp'. clear H.
  destruct D as (d & i & L & I & C & S & B). rewrite Ei in I. inversion I; subst. rewrite app_nil_r in *. rewrite P in L.
  apply layout_app_inv in L. destruct L as (b1 & b2 & -> & L1 & L2). exists b1, b2. cbn [fp_chunks fp_ind fp_size].
  split; [exact L1|]. split; [|split; [reflexivity|split; [exact S|exact B]]].
  assert (Or : cr_off r = total b1) by (inversion L2; subst; rewrite N.add_0_l in *; auto).
  eapply write_layout; [exact Hput| |exact W]. rewrite <- Or. change b2 with ([] ++ b2). apply fill_layout; [constructor| |].
  - rewrite total_nil, N.add_0_r, Or. rewrite N.add_0_l in L2. exact L2.
  - rewrite total_nil. unfold total in *. rewrite concat_app, blen_app in B. lia.
Qed.

Theorem C27_split_preserves_refs : forall (truth : cid -> option bytes) lists put base max_asset max_size fp fp' content out,
  (forall l id, put l = Some id -> lists id = Some l) ->
  describes truth lists fp content -> enforce_file put base max_asset max_size fp = Ok fp' ->
  all_refs lists fp out -> all_refs lists fp' out.
Proof.
  intros truth lists put base ma ms fp fp' content out Hput D H A. unfold enforce_file in H.
  destruct (ma =? 0); [inversion H; subst; auto|]. destruct (length (fp_chunks fp) <=? 1)%nat; [inversion H; subst; auto|].
  destruct (fp_ind fp) as [|e ind] eqn:Ei; [|discriminate].
  destruct (pop_loop base ma (rev (fp_chunks fp)) (file_bytes base (fp_chunks fp) []) []) as [kept over] eqn:P.
  apply pop_loop_split in P. rewrite rev_involutive, app_nil_r in P.
  destruct over as [|r over]; [inversion H; subst; auto|].
  destruct (write_lists put (fill_lists ms (r :: over) (cr_off r) [] 0)) as [ind|] eqn:W; [|discriminate]. inversion H; subst fp'. clear H.
  destruct A as (o & Io & ->). rewrite Ei in Io. inversion Io; subst. rewrite app_nil_r.
  destruct D as (d & i & L & _ & C & S & B). rewrite P in L. apply layout_app_inv in L. destruct L as (b1 & b2 & -> & L1 & L2).
  apply layout_sorted in L2; [|rewrite N.add_0_l; rewrite C in B; unfold total in *; rewrite !concat_app, !blen_app in B; lia].
  destruct L2 as (Ss & Fs). assert (Sr : Forall (fun x => cr_off r <= cr_off x < two64) (r :: over)).
  { inversion Ss; subst. inversion Fs; subst. constructor; [lia|]. rewrite Forall_forall in *. intros x Hx. specialize (H2 x Hx). specialize (H4 x Hx). lia. }
  exists (abs_refs 0 (r :: over)). cbn [fp_ind fp_chunks]. split.
  - rewrite <- (app_nil_l (abs_refs 0 (r :: over))). change [] with (abs_refs (cr_off r) []) at 1.
    rewrite <- (fill_refs ms (r :: over) (cr_off r) [] 0 Sr Ss). eapply write_refs; eauto.
  - rewrite P. unfold abs_refs. now rewrite map_app.
Qed.

(** What remains in the entry fits the limit (or nothing remains), and every list
    written is non-empty and fits into the chunk size (or holds one chunk). *)
Theorem C27_split_bounds : forall (lists : cid -> option (list cref)) put base max_asset max_size fp fp',
  (forall l id, put l = Some id -> lists id = Some l) ->
  Forall (fun r => length (cr_id r) = 20%nat) (fp_chunks fp) -> file_bytes base (fp_chunks fp) [] < two64 ->
  enforce_file put base max_asset max_size fp = Ok fp' -> fp' <> fp ->
  (fp_chunks fp' = [] \/ file_bytes base (fp_chunks fp') [] <= max_asset) /\
  Forall (fun e => exists l, lists (snd e) = Some l /\ l <> [] /\ (chunk_list_bytes l <= max_size \/ length l = 1%nat)) (fp_ind fp').
Proof.
  intros lists put base ma ms fp fp' Hput G B H Ne. unfold enforce_file in H.
  destruct (ma =? 0); [inversion H; congruence|]. destruct (length (fp_chunks fp) <=? 1)%nat; [inversion H; congruence|].
  destruct (fp_ind fp) as [|e ind]; [|discriminate].
  destruct (pop_loop base ma (rev (fp_chunks fp)) (file_bytes base (fp_chunks fp) []) []) as [kept over] eqn:P.
  assert (Gr : Forall (fun r => good_id (cr_id r)) (rev (fp_chunks fp))) by (apply Forall_rev; exact G).
  pose proof (pop_loop_split _ _ _ _ _ _ _ P) as Sp. rewrite <- (rev_involutive (fp_chunks fp)) in P at 2, B.
  pose proof (pop_loop_bound base ma _ _ _ _ Gr B P) as Bd. rewrite rev_involutive, app_nil_r in Sp.
  destruct over as [|r over]; [inversion H; congruence|].
  destruct (write_lists put (fill_lists ms (r :: over) (cr_off r) [] 0)) as [ind|] eqn:W; [|discriminate]. inversion H; subst fp'. clear H.
  cbn [fp_chunks fp_ind]. split.
  - destruct Bd as [->|Bd]; auto.
  - rewrite Sp in G. apply Forall_app in G. destruct G as (_ & G).
    change 0 with (chunk_list_bytes []) in W.
    eapply (write_all lists put Hput (fun e => snd e <> [] /\ (chunk_list_bytes (snd e) <= ms \/ length (snd e) = 1%nat))) in W.
    + eapply Forall_impl; [|exact W]. intros a (l & El & X). cbn [snd] in X. eauto.
    + apply fill_bound; [exact G|discriminate|right; cbn; lia|congruence].
Qed.

(** Appending chunks describes the concatenation. *)
Theorem C27_append_chunk : forall (truth : cid -> option bytes) lists fp content id b,
  describes truth lists fp content -> fp_ind fp = [] -> truth id = Some b -> blen content + blen b < two64 ->
  describes truth lists (append_chunk fp id (blen b)) (content ++ b).
Proof. exact append_describes. Qed.

Definition id20 (k : N) : cid := k :: repeat 0 19.
Definition no_store : list cref -> option cid := fun _ => Some (id20 255).

Example C27_example :
  let fp := mkfp 1000 [mkref 0 (id20 1); mkref 100 (id20 2); mkref 300 (id20 3); mkref 600 (id20 4); mkref 900 (id20 5)] [] in
  file_bytes 20 (fp_chunks fp) [] = 161 /\
  pop_loop 20 60 (rev (fp_chunks fp)) 161 [] = ([mkref 0 (id20 1)], tl (fp_chunks fp)) /\
  fill_lists 60 (tl (fp_chunks fp)) 100 [] 0 = [(100, [mkref 0 (id20 2); mkref 200 (id20 3)]); (600, [mkref 0 (id20 4); mkref 300 (id20 5)])].
Proof. vm_compute. repeat split; reflexivity. Qed.

(** The references to the lists are not counted: the entry can still be larger than
    the limit, and then a second pass over it (after another file was added to the
    directory) fails, and with it the whole Flush.  Default chunk size 256 KiB, a
    file of 600 chunks. *)
Theorem C27_second_flush_refuted : exists fp fp1,
  enforce_file no_store 40 16384 262144 fp = Ok fp1 /\
  16384 < file_bytes 40 (fp_chunks fp1) (fp_ind fp1) /\
  enforce_file no_store 40 16384 262144 fp1 = Fail.
Proof.
  set (fp := mkfp (600 * 262144) (map (fun k => mkref (N.of_nat k * 262144) (id20 7)) (seq 0 600)) []).
  destruct (enforce_file no_store 40 16384 262144 fp) as [fp1| | |] eqn:E.
  - exists fp, fp1. vm_compute in E. inversion E; subst. split; [vm_compute; reflexivity|]. split; vm_compute; reflexivity.
  - vm_compute in E. discriminate.
  - vm_compute in E. discriminate.
  - vm_compute in E. discriminate.
Qed.

(** * C43: looking up names in a streamed directory *)

(** What is found is the child with that name, whatever other threads do. *)
Theorem C43_found_is_child : forall (A : Type) (name : A -> bytes) direct lists n r s s',
  NoDup (map name (direct ++ concat lists)) ->
  loads name lists (dir_init name direct) s ->
  lookup name (loads name lists) lists n s r s' ->
  match r with Ok (Some a) => child_named name (direct ++ concat lists) n = Some a | Ok None | Fail => True | _ => False end.
Proof.
  intros A name direct lists n r s s' Nd L0 L. eapply lookup_found in L; eauto; [apply L|]. eapply loads_ok; eauto. now apply init_ok.
Qed.

(** Not-found means not there, if no other thread loads lists during the call. *)
Theorem C43_lookup_exact_partial : forall (A : Type) (name : A -> bytes) direct lists n r s s',
  NoDup (map name (direct ++ concat lists)) ->
  loads name lists (dir_init name direct) s ->
  lookup name eq lists n s r s' ->
  match r with Ok o => o = child_named name (direct ++ concat lists) n | Fail => True | _ => False end.
Proof.
  intros A name direct lists n r s s' Nd L0 L. eapply lookup_alone in L; eauto; [apply L|]. eapply loads_ok; eauto. now apply init_ok.
Qed.

(** Otherwise it can be wrong: another thread loads the last list between the look
    into the table and the attempt to fetch the next list. *)
Theorem C43_lookup_race_refuted : exists (direct : list bytes) lists n s',
  NoDup (map (fun x => x) (direct ++ concat lists)) /\
  lookup (fun x => x) (loads (fun x => x) lists) lists n (dir_init (fun x => x) direct) (Ok None) s' /\
  child_named (fun x => x) (direct ++ concat lists) n = Some n.
Proof.
  set (lists := [[[5]]] : list (list bytes)). set (s0 := dir_init (fun x : bytes => x) []).
  exists [], lists, [5], (mkds 1 (add_all (fun x => x) (ds_table s0) [[5]])). split; [repeat constructor; intros []|]. split; [|reflexivity].
  eapply (lookup_none (fun x => x) (loads (fun x => x) lists) lists [5] s0 s0); [apply loads_none|reflexivity| |reflexivity].
  apply (loads_more (fun x => x) lists s0 s0 [[5]]); [apply loads_none|reflexivity].
Qed.

(** Listing a directory returns all its children. *)
Theorem C43_list_all : forall (A : Type) (name : A -> bytes) direct lists t s s',
  NoDup (map name (direct ++ concat lists)) ->
  loads name lists (dir_init name direct) s ->
  get_all_children name lists s (Ok t) s' -> forall n, t n = child_named name (direct ++ concat lists) n.
Proof.
  intros A name direct lists t s s' Nd L0 L. eapply children_ok in L; eauto; [apply L|]. eapply loads_ok; eauto. now apply init_ok.
Qed.

Example C43_example : let lists := [[[1]; [2]]; [[3]]] : list (list bytes) in
  exists s', lookup (fun x => x) eq lists [3] (dir_init (fun x => x) [[9]]) (Ok (Some [3])) s'.
Proof.
  cbv zeta. eexists. eapply lookup_more; [reflexivity|reflexivity|reflexivity|reflexivity|].
  eapply lookup_more; [reflexivity|reflexivity|reflexivity|reflexivity|]. eapply lookup_hit; [reflexivity|reflexivity].
Qed.

Print Assumptions C26_read_exact.
Print Assumptions C26_read_through_provider.
Print Assumptions C26_malformed_manifest.
Print Assumptions C27_split_preserves_file.
Print Assumptions C27_split_bounds.
Print Assumptions C27_second_flush_refuted.
Print Assumptions C43_found_is_child.
Print Assumptions C43_list_all.
