(** C29: flushing a manifest with oversized directories (manifest/manifest_builder.cc). *)
From Verif Require Import Base ListX Str ModelText ModelChunkMap ModelProvider ModelAsset SpecAsset ProofAsset ProofEnforce PropAsset
  ModelManifest SpecManifest ProofManifest ProofTree PropManifest ProofFlush.
From Coq Require Import Permutation.
Local Open Scope N_scope.

Section C29.
(** [store], [clists], [store_root]: what the data store returns for asset lists,
    chunk lists and manifests; what is put can be read back. *)
Context (store : cid -> option (list asset)) (truth : cid -> option bytes) (clists : cid -> option (list cref)) (store_root : cid -> option asset)
  (put : list asset -> option cid) (put_chunks : list cref -> option cid) (put_root : asset -> option cid)
  (sort_desc : list asset -> list asset) (max_size : N).
Context (Hput : forall l id, put l = Some id -> store id = Some l) (Hputc : forall l id, put_chunks l = Some id -> clists id = Some l)
  (Hputr : forall r id, put_root r = Some id -> store_root id = Some r) (Hsort : forall l, Permutation l (sort_desc l)).

Lemma flush_facts : forall now fuel b id b' log,
  btidy store now b -> flush store now put put_chunks put_root sort_desc max_size fuel b = Ok (id, b', log) ->
  separate store (b_lists b) (root_of now b) log ->
  (exists b2, load_manifest store_root id = Some b2 /\ same_tree truth clists (bview store now b) (bview store now b2) /\ btidy store now b2) /\
  same_tree truth clists (bview store now b) (bview store now b') /\ btidy store now b' /\
  all_saved store (b_lists b') (root_of now b') /\
  (in_store store (b_lists b) (root_of now b) -> in_store store (b_lists b') (root_of now b')) /\
  b_root b' <> None /\
  (forall p d x, node store (b_lists b') (root_of now b') p = Some d -> a_type d = TDir -> In x (a_ind d) ->
     owned store (b_lists b) (root_of now b) x p \/ In (Some p, x) log) /\
  (forall p j, bview store now b' p = Some j ->
     (exists i, bview store now b p = Some i /\ fp_ind (i_file j) = fp_ind (i_file i)) \/ (forall x, In x (map snd (fp_ind (i_file j))) -> In (None, x) log)).
Proof.
  intros now fuel b id b' log (Tb & Ti) H Sep. unfold flush in H. apply bind_ok in H. destruct H as ([root' s] & F & H).
  destruct (put_root root') as [rid|] eqn:P; [|discriminate]. inversion H; subst rid b' log. clear H.
  set (L0 := b_lists b) in *. set (root := root_of now b) in *. set (own := owned store L0 root).
  assert (Of : forall id p q, own id p -> own id q -> p = q) by (apply owned_fun; exact Ti).
  assert (W : wgood store L0 own (fun x => In (None, x) (snd s)) (snd s)).
  { split; [|auto]. intros p x I q (c & N & T & Ix). destruct (sep_owner _ _ _ _ Sep p q x c I N T Ix). split; assumption. }
  assert (G : grow store [] (snd s)) by (change [] with (snd (L0, @nil (option (list bytes) * cid))); eapply flush_dir_grow; eassumption).
  assert (Fl : flushed store truth clists L0 own (fun x => In (None, x) (snd s)) [] root (L0, []) root' s).
  { eapply flush_dir_ok; eauto using tidy_ok. intros x _. reflexivity. }
  destruct Fl as (K & R & Tr).
  destruct R as (Rn & Rv). assert (Tr' : a_type root' = TDir) by (specialize (Rv []); cbn in Rv; destruct Rv as ((E & _) & _); unfold a_type in *; congruence).
  assert (Nc : forall p, node store (fst s) root' p = node store (fun _ => None) root' p).
  { intros p. eapply node_clean. intros r d x N T I. apply (Tr r d N T). exact I. }
  assert (Un : forall p q c d x, node store (fun _ => None) root' p = Some c -> node store (fun _ => None) root' q = Some d -> a_type c = TDir -> a_type d = TDir ->
    In x (a_ind c) -> In x (a_ind d) -> p = q).
  { intros p q c d x N M T U I J. destruct (Tr p c N T) as (_ & _ & A). destruct (Tr q d M U) as (_ & _ & B). cbn [app] in A, B.
    destruct (A x I) as ([X|X] & _), (B x J) as ([Y|Y] & _).
    - exact (Of x p q X Y).
    - apply (proj1 W q x Y p X).
    - symmetry. apply (proj1 W p x X q Y).
    - exact (sep_writes _ _ _ _ Sep p q x X Y). }
  assert (Ti2 : tidy store (fun _ => None) root').
  { constructor.
    - intros p c N T. apply (Tr p c N T).
    - intros p c N T. apply (Tr p c N T).
    - exact Un.
    - reflexivity. }
  assert (Sv : forall p, same_entry truth clists (view store L0 root p) (view store (fun _ => None) root' p)).
  { intros p. specialize (Rv p). unfold sentry, same_entry in *. destruct (view store L0 root p), (view store (fun _ => None) root' p); auto. apply Rv. }
  split; [|split; [|split; [|split; [|split; [|split; [|split]]]]]].
  - exists (mkb (Some root') (fun _ => None)). unfold load_manifest. rewrite (Hputr _ _ P). split; [reflexivity|]. split; [exact Sv|]. split; [exact Tr'|exact Ti2].
  - intros p. unfold bview. cbn [root_of b_root b_lists]. unfold view. rewrite Nc. apply Sv.
  - split; [exact Tr'|]. cbn [root_of b_root b_lists].
    assert (Ec : forall p c, node store (fun _ => None) root' p = Some c -> a_type c = TDir -> children store (fst s) c = children store (fun _ => None) c).
    { intros p c N T. destruct (Tr p c N T) as (_ & _ & A). unfold children. f_equal. induction (a_ind c) as [|x l IH]; [reflexivity|]. cbn [flat_map]. f_equal; [|apply IH; intros; apply A; now right].
      apply (A x). now left. }
    constructor.
    + intros p c N T. rewrite Nc in N. rewrite (Ec p c N T). apply (Tr p c N T).
    + intros p c N T. rewrite Nc in N. apply (Tr p c N T).
    + intros p q c d x N M. rewrite Nc in N, M. now apply Un.
    + intros p c x d r e y N T I U Id Ne Te Iy.
      assert (Np : node store (fst s) root' (p ++ a_name d :: r) = Some e).
      { rewrite node_app, N, node_cons, T. cbn [type_eqb].
        rewrite (find_unique (a_name d) _ d); [exact Ne| |apply in_or_app; right; apply in_flat_map; eauto|reflexivity]. rewrite Nc in N. rewrite (Ec p c N T). apply (Tr p c N T). }
      rewrite Nc in Np. apply (Tr _ e Np Te). exact Iy.
  - intros p c x N T I. cbn [root_of b_root b_lists] in N |- *. rewrite Nc in N. apply (Tr p c N T). exact I.
  - intros A p c x N T I. cbn [root_of b_root b_lists] in N. rewrite Nc in N. destruct (Tr p c N T) as (_ & _ & B). destruct (B x I) as ([X|X] & _).
    + destruct X as (d & Nd & Td & Id). exact (A p d x Nd Td Id).
    + destruct (G p x X) as [[]|Y]. exact Y.
  - discriminate.
  - intros p d x N T I. cbn [root_of b_root b_lists] in N. rewrite Nc in N. destruct (Tr p d N T) as (_ & _ & A). apply (A x I).
  - intros p j V. unfold bview, view in V. cbn [root_of b_root b_lists] in V. rewrite Nc in V. specialize (Rv p). unfold view in Rv at 2. rewrite V in Rv.
    unfold bview. fold L0 root. destruct (view store L0 root p) as [i|]; [|destruct Rv]. destruct Rv as (_ & [Rc|Rc]); [left; eauto|right; now apply Forall_forall].
Qed.

(** Flush preserves every asset: for someone who loads the flushed manifest, and for
    the builder, which can go on being used -- provided the lists that were written
    are not shared. *)
Theorem C29_flush_preserves : forall now fuel b id b' log,
  btidy store now b -> flush store now put put_chunks put_root sort_desc max_size fuel b = Ok (id, b', log) ->
  separate store (b_lists b) (root_of now b) log ->
  (exists b2, load_manifest store_root id = Some b2 /\ same_tree truth clists (bview store now b) (bview store now b2) /\ btidy store now b2) /\
  same_tree truth clists (bview store now b) (bview store now b') /\ btidy store now b' /\
  all_saved store (b_lists b') (root_of now b') /\
  (in_store store (b_lists b) (root_of now b) -> in_store store (b_lists b') (root_of now b')).
Proof.
  intros now fuel b id b' log T F Sep. destruct (flush_facts now fuel b id b' log T F Sep) as (A & B & C & D & E & _). auto 6.
Qed.

(** FlushedContentIds has every list that the flushed manifest refers to and the
    manifest before did not refer to at the same place. *)
Theorem C29_flush_reports_ids : forall now fuel b id b' log,
  btidy store now b -> flush store now put put_chunks put_root sort_desc max_size fuel b = Ok (id, b', log) ->
  separate store (b_lists b) (root_of now b) log ->
  (forall p d x, node store (b_lists b') (root_of now b') p = Some d -> a_type d = TDir -> In x (a_ind d) ->
     (exists d0, node store (b_lists b) (root_of now b) p = Some d0 /\ a_type d0 = TDir /\ In x (a_ind d0)) \/ In x (map snd log)) /\
  (forall p j, bview store now b' p = Some j ->
     (exists i, bview store now b p = Some i /\ fp_ind (i_file j) = fp_ind (i_file i)) \/ incl (map snd (fp_ind (i_file j))) (map snd log)).
Proof.
  intros now fuel b id b' log T F Sep. destruct (flush_facts now fuel b id b' log T F Sep) as (_ & _ & _ & _ & _ & _ & A & B). split.
  - intros p d x N Td I. destruct (A p d x N Td I) as [X|X]; [left; exact X|right]. apply in_map_iff. exists (Some p, x). auto.
  - intros p j V. destruct (B p j V) as [X|X]; [left; exact X|right]. intros x I. specialize (X x I). apply in_map_iff. exists (@None path, x). auto.
Qed.

(** So changes after the flush have the specified effect, as if the flush had not
    happened: no other directory is affected. *)
Theorem C29_changes_after_flush : forall now fuel b id b' log (ops : list (N * op)),
  btidy store now b -> in_store store (b_lists b) (root_of now b) ->
  flush store now put put_chunks put_root sort_desc max_size fuel b = Ok (id, b', log) ->
  separate store (b_lists b) (root_of now b) log -> Forall (fun o => proper_op (snd o)) ops ->
  (forall q, bview store now (fold_left (fun b o => run_op store (fst o) (snd o) b) ops b') q =
     fold_left (fun v o => spec_op (fst o) (snd o) v) ops (bview store now b') q) /\
  same_tree truth clists (bview store now b) (bview store now b').
Proof.
  intros now fuel b id b' log ops T S F Sep P. destruct (C29_flush_preserves now fuel b id b' log T F Sep) as (_ & V & T' & _ & S').
  assert (B : exists r L, b' = mkb (Some r) L).
  { unfold flush in F. apply bind_ok in F. destruct F as ([root' s] & _ & F). destruct (put_root root'); inversion F. eauto. }
  destruct B as (r & L & ->). split; [|exact V].
  apply (C28_history store ops r L now T'); [|exact P]. intros p c x N Tc I. right. exact (S' S p c x N Tc I).
Qed.

End C29.

(** A list that is too long is cut to the limit, and the rest goes to the overflow;
    the size estimates do not lead to removing from an empty list unless the list is
    more than a hundred times too long: the excess of the real length prefixes over
    the estimated ones must not exceed the limit. *)
Definition excess (l : list asset) : N := nsum (map (fun a => varint_size (asset_bytes a) - 1) l).

Lemma nsum_app a b : nsum (a ++ b) = nsum a + nsum b.
Proof. induction a as [|x a IH]; cbn [app nsum fold_right]; [reflexivity|]. unfold nsum in *. cbn [fold_right]. rewrite IH. lia. Qed.
Lemma list_bytes_snoc l a : asset_list_bytes (l ++ [a]) = asset_list_bytes l + len_field (asset_bytes a).
Proof. unfold asset_list_bytes. rewrite map_app, nsum_app. cbn. lia. Qed.
Lemma varint_pos n : 1 <= varint_size n.
Proof. unfold varint_size. cbn [varint_loop]. destruct (n <? 128); lia. Qed.

Lemma pop_list_bound max_size keep : forall psize over E,
  asset_list_bytes (rev keep) <= psize -> psize <= asset_list_bytes (rev keep) + E -> E + excess keep <= max_size -> psize < 18446744073709551616 ->
  exists k o, pop_list max_size keep psize over = Ok (k, o) /\ asset_list_bytes (rev k) <= max_size.
Proof.
  induction keep as [|a keep IH]; intros psize over E A B C D; cbn [pop_list].
  - cbn in A, B, C. destruct (N.ltb_spec max_size psize); [unfold excess in C; cbn in C; lia|]. exists [], over. split; [reflexivity|]. cbn. lia.
  - cbn [rev] in A, B. rewrite list_bytes_snoc in A, B. unfold excess in C. cbn [map] in C. change (nsum (?x :: ?y)) with (x + nsum y) in C. fold (excess keep) in C.
    pose proof (varint_pos (asset_bytes a)) as V. unfold len_field in A, B.
    destruct (N.ltb_spec max_size psize) as [Lt|Ge].
    + assert (S : sub64 psize (asset_bytes a + overhead) = psize - (asset_bytes a + 2)) by (unfold sub64, w64, overhead; lia). rewrite S.
      destruct (N.leb_spec (psize - (asset_bytes a + 2)) max_size) as [Le|Gt].
      * apply (IH _ _ 0); lia.
      * apply (IH _ _ (E + (varint_size (asset_bytes a) - 1))); lia.
    + exists (a :: keep), over. split; [reflexivity|]. cbn [rev]. rewrite list_bytes_snoc. unfold len_field. lia.
Qed.

Theorem C29_list_limit : forall max_size l over, 0 < max_size -> excess l <= max_size -> asset_list_bytes l < 18446744073709551616 ->
  exists kept over' rest, enforce_list max_size l over = Ok (kept, over') /\ l = kept ++ rest /\ Permutation over' (over ++ rest) /\ asset_list_bytes kept <= max_size.
Proof.
  intros max_size l over P E S. assert (X : exists k o, pop_list max_size (rev l) (asset_list_bytes l) over = Ok (k, o) /\ asset_list_bytes (rev k) <= max_size).
  { apply (pop_list_bound max_size (rev l) (asset_list_bytes l) over 0); rewrite ?rev_involutive; try lia.
    assert (Er : excess (rev l) = excess l); [|lia]. unfold excess. clear. induction l as [|a l IH]; [reflexivity|]. cbn [rev]. rewrite map_app, nsum_app, IH. unfold nsum. cbn [map fold_right]. lia. }
  destruct X as (k & o & Ep & B). assert (F : enforce_list max_size l over = Ok (rev k, o)).
  { unfold enforce_list. destruct (N.eqb_spec max_size 0); [lia|]. rewrite Ep. reflexivity. }
  destruct (enforce_list_split max_size l over (rev k) o F) as (t & El & Po). eauto 8.
Qed.

(** * Without the proviso the claim is false: two directories with equal lists *)
Definition long_name (c : N) : bytes := repeat c 100.
Definition file_asset (c : N) : asset := Asset (long_name c) (new_info 1 TFile) [] [].
Definition dir_asset (c : N) (l : list asset) : asset := Asset [c] (new_info 1 TDir) l [].
Definition fp_dec (x y : fproto) : {x = y} + {x <> y}.
Proof.
  assert (C : forall a b : cref, {a = b} + {a <> b}) by (decide equality; [apply list_eq_dec|]; apply N.eq_dec).
  assert (D : forall a b : N * cid, {a = b} + {a <> b}) by (decide equality; [apply list_eq_dec|]; apply N.eq_dec).
  decide equality; try (apply list_eq_dec; assumption); apply N.eq_dec.
Defined.
Definition info_dec (x y : info) : {x = y} + {x <> y}.
Proof. decide equality; try apply N.eq_dec; try apply bool_dec; try apply fp_dec; [apply list_eq_dec, N.eq_dec|decide equality]. Defined.
(** A data store for lists of one file named xx... or yy... *)
Definition demo_put (l : list asset) : option cid :=
  match l with
  | [Asset n i [] []] =>
      if info_dec i (new_info 1 TFile)
      then if list_eq_dec N.eq_dec n (long_name 120) then Some [1] else if list_eq_dec N.eq_dec n (long_name 121) then Some [2] else None
      else None
  | _ => None
  end.
Definition demo_store (id : cid) : option (list asset) :=
  match id with [1] => Some [file_asset 120] | [2] => Some [file_asset 121] | _ => None end.
Lemma demo_put_store l id : demo_put l = Some id -> demo_store id = Some l.
Proof.
  unfold demo_put. destruct l as [|[n i ds ids] [|b l]]; try discriminate.
  2: { destruct ds, ids; discriminate. }
  destruct ds; [|discriminate]. destruct ids; [|discriminate].
  destruct (info_dec i (new_info 1 TFile)) as [->|]; [|discriminate]. destruct (list_eq_dec N.eq_dec n (long_name 120)) as [->|]; [intros H; inversion H; reflexivity|].
  destruct (list_eq_dec N.eq_dec n (long_name 121)) as [->|]; [intros H; inversion H; reflexivity|discriminate].
Qed.
Lemma demo_put_other a b l : demo_put (a :: b :: l) = None.
Proof. destruct a as [n i ds ids]. cbn. destruct ds, ids; reflexivity. Qed.

Definition demo_root (c : N) : asset := Asset [] (new_info 1 TDir) [dir_asset 97 [file_asset 120]; dir_asset 98 [file_asset c]] [].
Definition demo_b (c : N) : builder := mkb (Some (demo_root c)) (fun _ => None).
Definition demo_flush (c : N) := flush demo_store 1 demo_put (fun _ => None) (fun _ => Some [9]) (fun l => l) 64 4 (demo_b c).

Lemma demo_nodes L c p b : node demo_store L (demo_root c) p = Some b -> a_type b = TDir ->
  p = [] /\ b = demo_root c \/ p = [[97]] /\ b = dir_asset 97 [file_asset 120] \/ p = [[98]] /\ b = dir_asset 98 [file_asset c].
Proof.
  intros N T. destruct p as [|n p]; [left; now inversion N|]. cbn in N. unfold name_eqb in N. right.
  destruct (list_eq_dec N.eq_dec [97] n) as [<-|]; [|destruct (list_eq_dec N.eq_dec [98] n) as [<-|]; [|discriminate]]; destruct p as [|m p].
  - left. inversion N. auto.
  - cbn [node] in N. change (children demo_store L (dir_asset 97 [file_asset 120])) with [file_asset 120] in N. cbn [find] in N.
    change (type_eqb (a_type (dir_asset 97 [file_asset 120])) TDir) with true in N. destruct (name_eqb (a_name (file_asset 120)) m); [|discriminate]. destruct p; [inversion N; subst; discriminate T|discriminate].
  - right. inversion N. auto.
  - cbn [node] in N. change (children demo_store L (dir_asset 98 [file_asset c])) with [file_asset c] in N. cbn [find] in N.
    change (type_eqb (a_type (dir_asset 98 [file_asset c])) TDir) with true in N. destruct (name_eqb (a_name (file_asset c)) m); [|discriminate]. destruct p; [inversion N; subst; discriminate T|discriminate].
Qed.
Lemma demo_tidy c now : btidy demo_store now (demo_b c) /\ in_store demo_store (b_lists (demo_b c)) (root_of now (demo_b c)).
Proof.
  split; [split; [reflexivity|]|]; cbn [demo_b root_of b_root b_lists].
  - constructor.
    + intros p b N T. destruct (demo_nodes _ c p b N T) as [(_ & ->)|[(_ & ->)|(_ & ->)]]; cbn; repeat constructor; cbn; intuition congruence.
    + intros p b N T. destruct (demo_nodes _ c p b N T) as [(_ & ->)|[(_ & ->)|(_ & ->)]]; cbn; constructor.
    + intros p q b d id N M T U I J. destruct (demo_nodes _ c p b N T) as [(_ & ->)|[(_ & ->)|(_ & ->)]]; destruct I.
    + reflexivity.
  - intros p b id N T I. destruct (demo_nodes _ c p b N T) as [(_ & ->)|[(_ & ->)|(_ & ->)]]; destruct I.
Qed.

(** a and b hold different files: the flush writes two lists, as in the theorem. *)
Example C29_example_flush : exists b' log, demo_flush 121 = Ok ([9], b', log) /\ separate demo_store (b_lists (demo_b 121)) (root_of 1 (demo_b 121)) log /\
  log = [(Some [[97]], [1]); (Some [[98]], [2])] /\ btidy demo_store 1 (demo_b 121) /\
  option_map i_type (bview demo_store 1 b' [[98]; long_name 121]) = Some TFile.
Proof.
  eexists _, _. split; [vm_compute; reflexivity|]. split; [|split; [reflexivity|split; [apply demo_tidy|vm_compute; reflexivity]]].
  constructor.
  - intros p q id I J. cbn in I, J. destruct I as [I|[I|[]]], J as [J|[J|[]]]; congruence.
  - intros p q id b I N T J. destruct (demo_nodes _ 121 q b N T) as [(_ & ->)|[(_ & ->)|(_ & ->)]]; destruct J.
Qed.

(** a and b hold the same file.  After a flush, deleting a/xx... also deletes b/xx...:
    the two directories share one loaded list (asset_lists_ is keyed by content). *)
Theorem C29_equal_directories_refuted : exists b' log, demo_flush 120 = Ok ([9], b', log) /\ btidy demo_store 1 (demo_b 120) /\
  bview demo_store 1 (demo_b 120) [[98]; long_name 120] <> None /\ bview demo_store 1 b' [[98]; long_name 120] <> None /\
  fst (delete_asset demo_store 2 ([97; 47] ++ long_name 120) b') = None /\
  bview demo_store 1 (snd (delete_asset demo_store 2 ([97; 47] ++ long_name 120) b')) [[98]; long_name 120] = None.
Proof.
  eexists _, _. split; [vm_compute; reflexivity|]. split; [apply demo_tidy|]. split; [vm_compute; discriminate|]. split; [vm_compute; discriminate|]. split; vm_compute; reflexivity.
Qed.
