(** What DirScannerTask finds. *)
From Verif Require Import Base ListX Str ModelText ModelPath SpecPath ModelCdc ModelChunkMap ModelProvider ModelAsset SpecAsset ModelFileDiff SpecFileDiff ProofFileDiff
  ModelManifest SpecManifest ProofManifest ProofTree PropManifest ProofAtDir ModelUpdater SpecUpdater ProofUpdater ProofUpdEffect.
From Coq Require Import Permutation.
Local Open Scope N_scope.

Section Scan.
Context (store : cid -> option (list asset)) (clists : cid -> option (list cref)) (sort : list ainfo -> list ainfo) (Hsort : sorts ai_path sort).
Notation listed := (listed store).
Notation node := (node store).
Notation children := (children store).

Definition info_of (rel : bytes) (a : asset) : ainfo := fst (asset_ainfo clists rel a).
Definition readable (id : cid) : bool := match store id with Some _ => true | None => false end.

Lemma list_ainfos_map rel l : fst (list_ainfos clists rel l) = map (info_of rel) l.
Proof.
  induction l as [|a l IH]; [reflexivity|]. cbn [list_ainfos map]. unfold info_of at 1. destruct (asset_ainfo clists rel a) as [ai ids].
  destruct (list_ainfos clists rel l) as [ais ids']. cbn in *. now rewrite IH.
Qed.
Lemma indirect_map rel ind : fst (fst (indirect_ainfos store clists rel ind)) = map (info_of rel) (flat_map (stored store) ind) /\
  snd (indirect_ainfos store clists rel ind) = filter readable ind.
Proof.
  induction ind as [|id ind (A & B)]; [split; reflexivity|]. cbn [indirect_ainfos flat_map filter]. unfold stored at 1, readable at 1.
  destruct (indirect_ainfos store clists rel ind) as [[ais ids] keep]. cbn [fst snd] in *. destruct (store id) as [l|]; [|split; [exact A|exact B]].
  pose proof (list_ainfos_map rel l) as E. destruct (list_ainfos clists rel l) as [ais1 ids1]. cbn [fst snd] in *. rewrite map_app, <- A, <- E, B. split; reflexivity.
Qed.
Lemma dir_map rel d : exists ids, dir_ainfos store clists sort rel d = (sort (map (info_of rel) (a_dirs d ++ flat_map (stored store) (a_ind d))), ids, filter readable (a_ind d)).
Proof.
  unfold dir_ainfos. pose proof (list_ainfos_map rel (a_dirs d)) as E. destruct (list_ainfos clists rel (a_dirs d)) as [ais ids].
  destruct (indirect_map rel (a_ind d)) as (A & B). destruct (indirect_ainfos store clists rel (a_ind d)) as [[ais' ids'] keep]. cbn [fst snd] in *.
  rewrite map_app. subst. eauto.
Qed.

(** The ids that are collected. *)
Definition all_read (i : info) : Prop := forall x, In x (map snd (fp_ind (i_file i))) -> clists x <> None.
Lemma indirect_ids ind : forall acc ids, (forall x, In x (map snd ind) -> clists x <> None) -> forall x, In x ids \/ In x (map snd ind) -> In x (snd (indirect_chunks clists ind acc ids)).
Proof.
  induction ind as [|[off id] r IH]; intros acc ids H x I; cbn [indirect_chunks map snd] in *; [destruct I as [I|[]]; exact I|].
  destruct (clists id) as [refs|] eqn:E; [|exfalso; apply (H id); [now left|exact E]]. apply IH; [intros y Y; apply H; now right|]. rewrite in_app_iff. cbn [In]. cbn in I. tauto.
Qed.
Lemma asset_ids rel a x : i_type (a_info a) = TFile -> all_read (a_info a) -> In x (map snd (fp_ind (i_file (a_info a)))) -> In x (snd (asset_ainfo clists rel a)).
Proof.
  intros T H I. unfold asset_ainfo. rewrite T. cbn [type_eqb]. pose proof (indirect_ids (fp_ind (i_file (a_info a))) (copy_chunks (fp_chunks (i_file (a_info a))) 0) [] H x (or_intror I)) as X.
  destruct (indirect_chunks clists _ _ _) as [c ids]. exact X.
Qed.
Lemma list_ids rel l a x : In a l -> i_type (a_info a) = TFile -> all_read (a_info a) -> In x (map snd (fp_ind (i_file (a_info a)))) -> In x (snd (list_ainfos clists rel l)).
Proof.
  induction l as [|c l IH]; intros I T H J; [destruct I|]. cbn [list_ainfos]. pose proof (asset_ids rel a x T H J) as A. destruct I as [->|I].
  - destruct (asset_ainfo clists rel a) as [ai ids]. destruct (list_ainfos clists rel l) as [ais ids']. cbn [snd] in *. apply in_or_app. now left.
  - specialize (IH I T H J). destruct (asset_ainfo clists rel c) as [ai ids]. destruct (list_ainfos clists rel l) as [ais ids']. cbn [snd] in *. apply in_or_app. now right.
Qed.
Lemma indirect_list_ids rel ind id : In id ind -> store id <> None -> In id (snd (fst (indirect_ainfos store clists rel ind))) /\
  forall a x, In a (stored store id) -> i_type (a_info a) = TFile -> all_read (a_info a) -> In x (map snd (fp_ind (i_file (a_info a)))) -> In x (snd (fst (indirect_ainfos store clists rel ind))).
Proof.
  induction ind as [|y ind IH]; intros I S; [destruct I|]. cbn [indirect_ainfos]. unfold stored. destruct I as [->|I].
  - destruct (indirect_ainfos store clists rel ind) as [[ais ids] keep]. destruct (store id) as [l|]; [|easy]. pose proof (list_ids rel l) as Li. destruct (list_ainfos clists rel l) as [ais1 ids1].
    cbn [fst snd] in *. split; [rewrite in_app_iff; cbn; tauto|]. intros a x Ia T H J. apply in_or_app. left. exact (Li a x Ia T H J).
  - destruct (IH I S) as (A & B). unfold stored in B. destruct (indirect_ainfos store clists rel ind) as [[ais ids] keep]. destruct (store y) as [l|]; [|split; assumption].
    destruct (list_ainfos clists rel l) as [ais1 ids1]. cbn [fst snd] in *. split; [rewrite in_app_iff; cbn; tauto|]. intros a x Ia T H J. apply in_or_app. right. right. exact (B a x Ia T H J).
Qed.
Lemma dir_ids rel d : let ids := snd (fst (dir_ainfos store clists sort rel d)) in
  (forall id, In id (a_ind d) -> store id <> None -> In id ids) /\
  (forall a x, In a (a_dirs d ++ flat_map (stored store) (a_ind d)) -> i_type (a_info a) = TFile -> all_read (a_info a) -> In x (map snd (fp_ind (i_file (a_info a)))) -> In x ids).
Proof.
  unfold dir_ainfos. pose proof (list_ids rel (a_dirs d)) as Li. destruct (list_ainfos clists rel (a_dirs d)) as [ais ids]. pose proof (indirect_list_ids rel (a_ind d)) as Ii.
  destruct (indirect_ainfos store clists rel (a_ind d)) as [[ais' ids'] keep]. cbn [fst snd] in *. split.
  - intros id I S. apply in_or_app. right. now apply Ii.
  - intros a x I T H J. apply in_or_app. apply in_app_or in I. destruct I as [I|I]; [left; exact (Li a x I T H J)|right]. apply in_flat_map in I. destruct I as (id & I & Ia).
    apply (proj2 (Ii id I ltac:(intros X; unfold stored in Ia; rewrite X in Ia; destruct Ia))) with (a := a); assumption.
Qed.

(** Dropping lists that cannot be read. *)
Definition droppable (L : lists) (d : asset) : bool := forallb (fun id => readable id || match listed L id with [] => true | _ => false end) (a_ind d).
Lemma drop_children L d : droppable L d = true -> children L (set_ind d (filter readable (a_ind d))) = children L d.
Proof.
  unfold droppable, SpecManifest.children, set_ind. cbn. intros H. f_equal. induction (a_ind d) as [|id l IH]; [reflexivity|]. cbn in *.
  apply andb_true_iff in H. destruct H as (H & H'). destruct (readable id); cbn [flat_map]; [now rewrite IH|]. cbn in H. destruct (listed L id); [|discriminate]. now apply IH.
Qed.
Lemma drop_node L d n r : droppable L d = true -> node L (set_ind d (filter readable (a_ind d))) (n :: r) = node L d (n :: r).
Proof. intros H. rewrite !node_cons, drop_children by exact H. reflexivity. Qed.
Lemma drop_view L d r : droppable L d = true -> view store L (set_ind d (filter readable (a_ind d))) r = view store L d r.
Proof. intros H. destruct r as [|n r]; [reflexivity|]. unfold view. now rewrite drop_node. Qed.
Lemma drop_step (own : cid -> path -> Prop) p d L : ok_at store own L p d -> a_type d = TDir -> droppable L d = true ->
  step store own p d L (set_ind d (filter readable (a_ind d))) L.
Proof.
  intros Ok T H. constructor; auto.
  - intros q b N Tb. destruct q as [|n q]; [|rewrite drop_node in N by exact H; now apply Ok]. cbn in N. inversion N; subst b. clear N.
    destruct (Ok [] d eq_refl T) as [A B C E]. constructor.
    + now rewrite drop_children.
    + cbn. now apply NoDup_filter.
    + cbn. intros id I. apply filter_In in I. now apply C.
    + cbn. intros id c I. apply filter_In in I. now apply E.
  - apply touches_refl.
Qed.

Lemma clean_droppable (b : builder) now P d Ld : node (b_lists b) (root_of now b) P = Some d -> a_type d = TDir -> (forall id, listed Ld id = listed (b_lists b) id) ->
  clean_at store b now P -> droppable Ld d = true.
Proof.
  intros N T Ll C. apply forallb_forall. intros id I. rewrite Ll, (C d id N T I). unfold readable, stored. destruct (store id); reflexivity.
Qed.
Lemma clean_children (b : builder) now P d : node (b_lists b) (root_of now b) P = Some d -> a_type d = TDir -> clean_at store b now P ->
  a_dirs d ++ flat_map (stored store) (a_ind d) = children (b_lists b) d.
Proof.
  intros N T C. unfold SpecManifest.children. f_equal. pose proof (fun id => C d id N T) as H. clear C. induction (a_ind d) as [|id l IH]; [reflexivity|]. cbn [flat_map].
  rewrite (H id) by now left. f_equal. apply IH. intros x I. apply H. now right.
Qed.

(** * The operations are the differences *)
Lemma sorted_lt l : NoDup (map ai_path l) -> slts (sort l).
Proof.
  intros N. destruct (Hsort l) as (P & S). assert (N' : NoDup (map ai_path (sort l))) by (eapply Permutation_NoDup; [apply Permutation_map; exact P|exact N]).
  clear P N. unfold slts. induction S as [|a l' S IH F]; [constructor|]. cbn in N'. inversion N' as [|x y Ni Nd]; subst. constructor; [now apply IH|].
  rewrite Forall_forall in *. intros b I. specialize (F b I). destruct (scmp (ai_path a) (ai_path b)) eqn:C.
  - apply scmp_eq in C. exfalso. apply Ni. rewrite C. now apply in_map.
  - exact C.
  - exfalso. apply F. now apply scmp_gt.
Qed.

Lemma info_path rel a : ai_path (info_of rel a) = join rel (a_name a).
Proof. unfold info_of, asset_ainfo. destruct (if type_eqb _ _ then _ else _) as [x y]. reflexivity. Qed.
Lemma info_type rel a : ai_type (info_of rel a) = i_type (a_info a).
Proof. unfold info_of, asset_ainfo. destruct (if type_eqb _ _ then _ else _) as [x y]. reflexivity. Qed.
Lemma info_mtime rel a : ai_mtime (info_of rel a) = i_mtime (a_info a).
Proof. unfold info_of, asset_ainfo. destruct (if type_eqb _ _ then _ else _) as [x y]. reflexivity. Qed.
Lemma info_size rel a : ai_size (info_of rel a) = if type_eqb (i_type (a_info a)) TDir then 0 else fp_size (i_file (a_info a)).
Proof. unfold info_of, asset_ainfo. destruct (if type_eqb (i_type _) TFile then _ else _) as [x y]. reflexivity. Qed.

Lemma unchanged_same rel rel' e a : unchanged (src_info rel e) (info_of rel' a) = same_asset (a_info a) e.
Proof.
  unfold unchanged, same_asset. rewrite info_type, info_mtime, info_size. cbn. destruct (se_dir e); cbn.
  - now rewrite andb_false_r.
  - destruct (i_type (a_info a)) eqn:T; cbn; rewrite ?andb_false_r, ?andb_true_r; try reflexivity.
    rewrite (N.eqb_sym (se_mtime e)), (N.eqb_sym (se_size e)). reflexivity.
Qed.

Lemma in_sort l x : In x (sort l) <-> In x l.
Proof. destruct (Hsort l) as (P & _). split; apply Permutation_in; [now apply Permutation_sym|exact P]. Qed.
Lemma in_sort_path l s : In s (map ai_path (sort l)) <-> In s (map ai_path l).
Proof. rewrite !in_map_iff. split; intros (x & E & I); exists x; rewrite in_sort in *; auto. Qed.

Section Compare.
Context (v : path -> option info) (D : path) (es : list sentry) (cs : list asset).
Context (GD : Forall good_name D) (Ge : forall e, In e es -> good_name (se_name e)) (Ne : NoDup (map se_name es))
  (Gc : forall a, In a cs -> good_name (a_name a)) (Nc : NoDup (map a_name cs))
  (Vc : forall n i, v (D ++ [n]) = Some i <-> exists a, In a cs /\ a_name a = n /\ a_info a = i).

Lemma snoc_inj n m : good_name n -> good_name m -> pstr (D ++ [n]) = pstr (D ++ [m]) -> n = m.
Proof. intros A B E. apply pstr_inj in E; [|apply Forall_app; auto..]. apply app_inj_tail in E. tauto. Qed.
Lemma src_path e : In e es -> ai_path (src_info (pstr D) e) = pstr (D ++ [se_name e]).
Proof. intros I. cbn. rewrite to_unix_pstr by exact GD. apply join_pstr; [exact GD|apply (Ge e I)]. Qed.
Lemma man_path a : In a cs -> ai_path (info_of (pstr D) a) = pstr (D ++ [a_name a]).
Proof. intros I. rewrite info_path. apply join_pstr; [exact GD|apply (Gc a I)]. Qed.

Lemma NoDup_paths {A} (l : list A) (name : A -> bytes) (p : A -> bytes) : (forall x, In x l -> good_name (name x)) -> (forall x, In x l -> p x = pstr (D ++ [name x])) ->
  NoDup (map name l) -> NoDup (map p l).
Proof.
  intros G P N. induction l as [|x l IH]; [constructor|]. cbn in *. inversion N as [|y z Ni Nd]; subst. constructor; [|apply IH; auto].
  intros I. apply in_map_iff in I. destruct I as (y & E & I). apply Ni. rewrite (P x), (P y) in E by auto. apply snoc_inj in E; auto. rewrite <- E. now apply in_map.
Qed.

Lemma compare_differences : differences v D es (compare_assets (sort (map (src_info (pstr D)) es)) (sort (map (info_of (pstr D)) cs))).
Proof.
  set (S := map (src_info (pstr D)) es). set (M := map (info_of (pstr D)) cs).
  assert (NS : NoDup (map ai_path S)) by (unfold S; rewrite map_map; apply (NoDup_paths es se_name); auto using src_path).
  assert (NM : NoDup (map ai_path M)) by (unfold M; rewrite map_map; apply (NoDup_paths cs a_name); auto using man_path).
  destruct (compare_spec (sort S) (sorted_lt S NS) (sort M) (sorted_lt M NM)) as (Nd & _ & A & De & U & K).
  assert (PS : forall n, good_name n -> In (pstr (D ++ [n])) (map ai_path S) <-> In n (map se_name es)).
  { intros n Gn. unfold S. rewrite map_map, !in_map_iff. split; intros (e & E & I); exists e; (split; [|exact I]).
    - rewrite src_path in E by exact I. apply snoc_inj in E; auto.
    - rewrite src_path by exact I. now rewrite E. }
  assert (PM : forall n, good_name n -> In (pstr (D ++ [n])) (map ai_path M) <-> v (D ++ [n]) <> None).
  { intros n Gn. unfold M. rewrite map_map, in_map_iff. split.
    - intros (a & E & I). rewrite man_path in E by exact I. apply snoc_inj in E; auto. subst n.
      assert (X : v (D ++ [a_name a]) = Some (a_info a)) by (apply Vc; eauto). congruence.
    - intros H. destruct (v (D ++ [n])) as [i|] eqn:Ei; [|easy]. apply Vc in Ei. destruct Ei as (a & I & <- & _). exists a. split; [now apply man_path|exact I]. }
  constructor.
  - exact Nd.
  - intros ai. rewrite A, in_sort, in_sort_path. unfold S. rewrite in_map_iff. split.
    + intros ((e & <- & I) & N). exists e. split; [exact I|]. split; [|reflexivity]. rewrite src_path, PM in N by auto. destruct (v _); [exfalso; apply N; discriminate|reflexivity].
    + intros (e & I & V & ->). split; [eauto|]. rewrite src_path, PM by auto. congruence.
  - intros ai. rewrite U. setoid_rewrite in_sort. split.
    + intros (m & IS & IM & E & Un). unfold S, M in *. apply in_map_iff in IS. destruct IS as (e & <- & Ie). apply in_map_iff in IM. destruct IM as (a & <- & Ia).
      rewrite src_path, man_path in E by auto. apply snoc_inj in E; auto. exists e, (a_info a). split; [exact Ie|]. split; [apply Vc; eauto|]. rewrite unchanged_same in Un. auto.
    + intros (e & i & Ie & V & Sa & ->). apply Vc in V. destruct V as (a & Ia & En & <-). exists (info_of (pstr D) a).
      split; [now apply in_map|]. split; [now apply in_map|]. rewrite man_path, src_path by auto. rewrite En, unchanged_same. auto.
  - intros s. rewrite in_map_iff. split.
    + intros ([k ai] & E & I). cbn in E. inversion E; subst k s. apply De in I. destruct I as (I & N). rewrite in_sort in I. rewrite in_sort_path in N. unfold M in I.
      apply in_map_iff in I. destruct I as (a & <- & Ia). exists (a_name a), (a_info a). rewrite man_path in * by auto. rewrite PS in N by auto. split; [apply Vc; eauto|auto].
    + intros (n & i & V & N & ->). apply Vc in V. destruct V as (a & Ia & <- & _). exists (KDelete, info_of (pstr D) a). cbn [fst snd]. split; [f_equal; now apply man_path|].
      apply De. rewrite in_sort, in_sort_path, man_path, PS by auto. split; [now apply in_map|exact N].
  - intros s z. rewrite in_map_iff. split.
    + intros ([k ai] & E & I). cbn in E. inversion E; subst k s z. apply K in I. destruct I as (x & IS & IM & Ex & Un). rewrite in_sort in IS, IM.
      apply in_map_iff in IS. destruct IS as (e & <- & Ie). apply in_map_iff in IM. destruct IM as (a & <- & Ia).
      pose proof Ex as Ex'. rewrite src_path, man_path in Ex by auto. apply snoc_inj in Ex; auto. rewrite unchanged_same in Un.
      exists e, (a_info a). split; [exact Ie|]. split; [apply Vc; eauto|]. split; [exact Un|]. split; [now rewrite <- Ex', src_path|].
      rewrite info_size. unfold same_asset in Un. destruct (se_dir e); [discriminate|]. destruct (i_type (a_info a)); try discriminate; reflexivity.
    + intros (e & i & Ie & V & Sa & -> & ->). apply Vc in V. destruct V as (a & Ia & En & <-). exists (KKeep, info_of (pstr D) a). cbn [fst snd].
      assert (Sz : ai_size (info_of (pstr D) a) = fp_size (i_file (a_info a))).
      { rewrite info_size. unfold same_asset in Sa. destruct (se_dir e); [discriminate|]. destruct (i_type (a_info a)); try discriminate; reflexivity. }
      split; [rewrite man_path, En, Sz by auto; reflexivity|]. apply K. exists (src_info (pstr D) e). rewrite !in_sort, man_path, src_path, En, unchanged_same by auto.
      split; [now apply in_map|]. split; [now apply in_map|]. auto.
Qed.
End Compare.

(** The asset list of a directory in the manifest. *)
Lemma child_view now b D d : btidy store now b -> node (b_lists b) (root_of now b) D = Some d -> a_type d = TDir ->
  forall n i, bview store now b (D ++ [n]) = Some i <-> exists a, In a (children (b_lists b) d) /\ a_name a = n /\ a_info a = i.
Proof.
  intros (T & Ti) N Td n i. unfold bview, view. rewrite node_app, N, node_cons, Td. cbn [type_eqb].
  destruct (find (named n) (children (b_lists b) d)) as [c|] eqn:F.
  - apply find_named in F. destruct F as (I & En). cbn. split.
    + intros E. inversion E. eauto.
    + intros (a & Ia & Ea & <-). assert (c = a); [|now subst].
      pose proof (tidy_names _ _ _ Ti D d N Td) as Nd. pose proof (find_unique n _ c Nd I En) as X. pose proof (find_unique n _ a Nd Ia Ea) as Y. congruence.
  - cbn. split; [discriminate|]. intros (a & Ia & Ea & _). exfalso. apply find_named_none in F. apply F. rewrite <- Ea. now apply in_map.
Qed.

Theorem scan_eff now D a es s ops ids s' : Forall good_name D -> join (pa_rel a) (pa_name a) = pstr D -> btidy store now (u_b s) -> clean_at store (u_b s) now D ->
  (forall p, bview store now (u_b s) p <> None -> Forall good_name p) ->
  NoDup (map se_name es) -> (forall e, In e es -> good_name (se_name e)) ->
  scan_dir store clists sort now a (Some es) s = (Some (ops, ids), s') ->
  differences (bview store now (u_b s)) D es ops /\ is_dir (bview store now (u_b s) D) = true /\ beff store now (u_b s) (u_b s') D (bview store now (u_b s)) /\
  u_fc s' = u_fc s /\ u_q s' = u_q s /\ u_ids s' = u_ids s /\
  (forall id, owned store (b_lists (u_b s)) (root_of now (u_b s)) id D -> store id <> None -> In id ids) /\
  (forall n i x, bview store now (u_b s) (D ++ [n]) = Some i -> i_type i = TFile -> all_read i -> In x (map snd (fp_ind (i_file i))) -> In x ids).
Proof.
  intros GD J T C Gn Ne Ge E. unfold scan_dir in E. rewrite J, pstr_split in E by exact GD.
  match type of E with context [at_dir _ _ _ _ _ _ ?kk] => set (k := kk) in E end.
  set (k' := fun (d : asset) (L : lists) => if droppable L d then k d L else (fst (fst (k d L)), d, L)).
  rewrite (at_dir_same store now NoCreate k k') in E.
  2:{ intros d Ld r L Ep. apply probed in Ep; [|exact T]. destruct Ep as (Td & N & Ll). unfold k'. now rewrite (clean_droppable _ _ _ _ _ N Td Ll C). }
  match type of E with (let (_, _) := ?e in _) = _ => destruct e as [[[[man ids0]|e0] root] L] eqn:Ea end; [|discriminate]. inversion E; subst ops ids0 s'. clear E.
  assert (Dk : forall d l, exists i0, i0 = snd (fst (dir_ainfos store clists sort (pstr D) d)) /\ k d l = (sort (map (info_of (pstr D)) (a_dirs d ++ flat_map (stored store) (a_ind d))), i0, set_ind d (filter readable (a_ind d)), l)).
  { intros d l. unfold k. destruct (dir_map (pstr D) d) as (i0 & ->). eauto. }
  apply at_dir_no in Ea; auto.
  - cbn [b_root b_lists] in Ea. destruct Ea as (T' & Lo & d & Ld & d' & Ld' & Ek & Td & N & Okd & Ll & Di & V).
    assert (Dr : droppable Ld d = true) by (eapply clean_droppable; eassumption). unfold k' in Ek. rewrite Dr in Ek. destruct (Dk d Ld) as (i0 & Ei0 & Ek'). rewrite Ek' in Ek.
    inversion Ek as [[Em Ei1 Ed' El']]. rewrite Ei1 in Ei0. subst man d' Ld'. clear Ek Ek' Ei1 i0. rewrite (clean_children _ _ _ _ N Td C).
    destruct (dir_ids (pstr D) d) as (Id1 & Id2). rewrite <- Ei0 in Id1, Id2. split; [|split; [exact Di|split; [|split; [reflexivity|split; [reflexivity|split; [reflexivity|split]]]]]].
    + apply compare_differences; auto.
      * intros c I. assert (X : bview store now (u_b s) (D ++ [a_name c]) = Some (a_info c)) by (apply (child_view now _ D d T N Td); eauto).
        assert (Y : Forall good_name (D ++ [a_name c])) by (apply Gn; congruence). apply Forall_app in Y. destruct Y as (_ & Y). now inversion Y.
      * apply (tidy_names _ _ _ (proj2 T) D d N Td).
      * apply (child_view now _ D d T N Td).
    + constructor; cbn [u_b with_b]; [discriminate|exact T'| |intros p Pp Cp; eapply clean_frame; [exact T|exact Lo|exact Pp|exact Cp]|eapply lists_own; exact Lo].
      intros q. rewrite V. destruct (strip D q) as [r|] eqn:St; [|reflexivity]. apply strip_some in St. subst q. rewrite drop_view by exact Dr.
      unfold bview, view. rewrite node_app, N. f_equal. now apply node_listed.
    + intros id (d0 & N0 & _ & I0) S. rewrite N in N0. inversion N0; subst d0. now apply Id1.
    + intros n i x Vi Ti Hr Ix. apply (child_view now _ D d T N Td) in Vi. destruct Vi as (c & Ic & _ & <-). apply (Id2 c); auto. now rewrite (clean_children _ _ _ _ N Td C).
  - intros own Of p d l x d' L' Ok Td Ek. unfold k' in Ek. destruct (droppable l d) eqn:Dr.
    + destruct (Dk d l) as (i0 & _ & Ek'). rewrite Ek' in Ek. inversion Ek; subst. now apply drop_step.
    + inversion Ek; subst. constructor; auto. apply touches_refl.
  - intros d l x d' L' Td Ek id. left. unfold k' in Ek. destruct (droppable l d).
    + destruct (Dk d l) as (i0 & _ & Ek'). rewrite Ek' in Ek. inversion Ek; subst. reflexivity.
    + inversion Ek; subst. reflexivity.
Qed.
End Scan.
