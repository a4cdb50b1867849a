(** The callbacks keep the invariant. *)
From Verif Require Import Base ListX Str ModelFuse SpecFuse ProofFuseMem ProofFuseInv.
Local Open Scope N_scope.

Section Store.
Variable store : cid -> option (list aproto).
Notation Inv := (Inv store).
Notation mem_ok := (mem_ok store).
Notation asset_ok := (asset_ok store).

(** How callbacks other than forget change the state. *)
Record evolves (st st' : state) : Prop := {
  ev_manifest : st_manifest st' = st_manifest st;
  ev_keeps : keeps (st_heap st) (st_heap st') (st_next st);
  ev_inode : forall j r, get_inode st j = Ok r -> exists r', get_inode st' j = Ok r' /\ parent r' = parent r /\
      as_proto (i_asset r') = as_proto (i_asset r) /\ is_valid r' = is_valid r /\ i_nlookup r <= i_nlookup r';
  ev_new : forall j r', get_inode st' j = Ok r' -> is_valid r' = false -> exists r, get_inode st j = Ok r /\ is_valid r = false
}.

Lemma inode_obj st i r : i <> root_ino -> get_inode st i = Ok r -> oget (st_objs st) i = Some r.
Proof. intros H. rewrite get_inode_obj by exact H. destruct (oget (st_objs st) i); congruence. Qed.
Lemma obj_inode st i r : tab_ok [] None st -> oget (st_objs st) i = Some r -> get_inode st i = Ok r /\ i <> root_ino.
Proof.
  intros T H. assert (i <> root_ino) by (intros ->; apply (t_noroot _ _ _ T), oget_key; eauto).
  split; auto. rewrite get_inode_obj, H by auto. reflexivity.
Qed.

(** What a valid live inode is. *)
Lemma valid_asset st root i r : Inv st root -> get_inode st i = Ok r -> is_valid r = true -> (i <> root_ino -> livb r = true) ->
  exists a, asset_ok (st_heap st) (i_asset r) a /\ below store root a /\ (i = root_ino -> a = root) /\
    (i <> root_ino -> ap_ind a = [] /\ as_lists (i_asset r) = []).
Proof.
  intros [T M] G V L. destruct (N.eq_dec i root_ino) as [->|Hi].
  - rewrite get_inode_root in G. inversion G; subst. exists root. split; [apply M|]. split; [constructor|]. split; auto. congruence.
  - specialize (L Hi). pose proof (inode_obj _ _ _ Hi G) as O. destruct (m_asset _ _ _ M i r O V L) as (a & c & Hc & B & A).
    exists a. split; auto. split; [econstructor; eauto|]. split; [congruence|]. intros _.
    split; [eapply (m_large _ _ _ M); eauto|eapply m_flat; eauto].
Qed.
Lemma valid_proto st root i r : Inv st root -> get_inode st i = Ok r -> is_valid r = true -> (i <> root_ino -> livb r = true) ->
  exists a p, get_proto (st_heap st) (i_asset r) = Ok a /\ as_proto (i_asset r) = Some p /\ deref (st_heap st) p = Some a /\
    asset_ok (st_heap st) (i_asset r) a /\ below store root a /\
    (i = root_ino -> a = root) /\ (i <> root_ino -> ap_ind a = [] /\ as_lists (i_asset r) = []).
Proof.
  intros I G V L. destruct (valid_asset st root i r I G V L) as (a & A & H). destruct (ao_proto _ _ _ _ A) as (p & P & D & _).
  exists a, p. unfold get_proto. rewrite P, D. auto.
Qed.
Lemma mapped_live st root p i : Inv st root -> mget (st_map st) p = Some i ->
  exists r, oget (st_objs st) i = Some r /\ is_valid r = true /\ as_proto (i_asset r) = Some p /\ livb r = true.
Proof.
  intros [T M] H. apply (t_map _ _ _ T) in H. destruct H as (r & O & V & P). exists r. split; auto. split; auto. split; auto.
  destruct (t_live _ _ _ T i r O V) as [L|[]]. exact L.
Qed.

Lemma obj_not_root st root i r : Inv st root -> oget (st_objs st) i = Some r -> is_valid r = true -> livb r = true ->
  as_proto (i_asset r) <> Some (mkptr (st_manifest st) 0 []).
Proof.
  intros [T M] O V L E. destruct (m_child _ _ _ M i r O V L) as (pr & p & n & a & G & Vp & P & LK & GP & _).
  rewrite E in P. inversion P; subst p. clear P.
  assert (Lp : parent r <> root_ino -> livb pr = true).
  { intros Hp. pose proof (inode_obj _ _ _ Hp G) as Op. destruct (t_live _ _ _ T _ _ Op Vp) as [X|[]]; auto. }
  destruct (valid_asset st root _ pr (conj T M) G Vp Lp) as (a' & A & _ & _ & Fl).
  destruct (ao_proto _ _ _ _ A) as (q & _ & _ & H). destruct (H _ _ LK) as [[j X]|[X _]].
  - inversion X as [[X1 X2 X3]]. destruct (p_sub q); discriminate.
  - destruct (N.eq_dec (parent r) root_ino) as [Hp|Hp].
    + rewrite Hp, get_inode_root in G. inversion G; subst pr. apply (proj1 (m_lists _ _ _ M) X).
    + rewrite (proj2 (Fl Hp)) in X. contradiction.
Qed.

(** Tables of different inodes do not share protos. *)
Lemma parent_unique st root i ri q r n p :
  Inv st root -> oget (st_objs st) i = Some ri -> is_valid ri = true -> livb ri = true -> as_proto (i_asset ri) = Some p ->
  get_inode st q = Ok r -> is_valid r = true -> (q <> root_ino -> livb r = true) -> lk_get (as_lookup (i_asset r)) n = Some p ->
  parent ri = q.
Proof.
  intros I O V L P G Vq Lq LK. pose proof I as [T M].
  destruct (m_child _ _ _ M i ri O V L) as (pr & p' & n' & a & G' & Vp & P' & LK' & GP & _).
  rewrite P in P'. inversion P'; subst p'. clear P'.
  assert (Lp : parent ri <> root_ino -> livb pr = true).
  { intros Hp. pose proof (inode_obj _ _ _ Hp G') as Op. destruct (t_live _ _ _ T _ _ Op Vp) as [X|[]]; auto. }
  destruct (valid_proto st root _ pr I G' Vp Lp) as (a1 & p1 & _ & P1 & _ & A1 & _ & R1 & Fl1).
  destruct (valid_proto st root _ r I G Vq Lq) as (a2 & p2 & _ & P2 & _ & A2 & _ & R2 & Fl2).
  destruct (ao_proto _ _ _ _ A1) as (p1' & E1 & _ & H1). rewrite P1 in E1. inversion E1; subst p1'.
  destruct (ao_proto _ _ _ _ A2) as (p2' & E2 & _ & H2). rewrite P2 in E2. inversion E2; subst p2'.
  specialize (H1 _ _ LK'). specialize (H2 _ _ LK).
  destruct H1 as [[j1 H1]|[H1 S1]], H2 as [[j2 H2]|[H2 S2]].
  - rewrite H1 in H2. apply child_ptr_inj in H2. destruct H2 as [H2 _]. subst p2.
    destruct (N.eq_dec (parent ri) root_ino) as [Hp|Hp], (N.eq_dec q root_ino) as [Hq|Hq]; try congruence.
    + exfalso. rewrite Hp, get_inode_root in G'. inversion G'; subst pr. rewrite (m_root_proto _ _ _ M) in P1. inversion P1; subst p1.
      apply (obj_not_root st root q r I (inode_obj _ _ _ Hq G) Vq (Lq Hq) P2).
    + exfalso. subst q. rewrite get_inode_root in G. inversion G; subst r. rewrite (m_root_proto _ _ _ M) in P2. inversion P2; subst p1.
      apply (obj_not_root st root _ pr I (inode_obj _ _ _ Hp G') Vp (Lp Hp) P1).
    + assert (X1 : mget (st_map st) p1 = Some (parent ri)) by (apply (t_map _ _ _ T); exists pr; split; auto using inode_obj).
      assert (X2 : mget (st_map st) p1 = Some q) by (apply (t_map _ _ _ T); exists r; split; auto using inode_obj).
      congruence.
  - exfalso. rewrite H1 in S2. unfold child_ptr in S2. cbn [p_sub] in S2. destruct (p_sub p1); discriminate.
  - exfalso. rewrite H2 in S1. unfold child_ptr in S1. cbn [p_sub] in S1. destruct (p_sub p2); discriminate.
  - destruct (N.eq_dec (parent ri) root_ino) as [Hp|Hp].
    + destruct (N.eq_dec q root_ino) as [Hq|Hq]; [congruence|]. rewrite (proj2 (Fl2 Hq)) in H2. contradiction.
    + rewrite (proj2 (Fl1 Hp)) in H1. contradiction.
Qed.

(** * Loading lists into an inode *)
Lemma oset_same l i r : oget l i = Some r -> oset l i r = l.
Proof.
  induction l as [|[j q] l IH]; cbn; auto. destruct (N.eqb_spec i j); [intros E; inversion E; subst; auto|].
  intros E. now rewrite IH.
Qed.
Lemma with_asset_same r : with_asset r (i_asset r) = r.
Proof. now destruct r. Qed.
Lemma with_mem_same st : with_mem st (st_heap st) (st_next st) = st.
Proof. now destruct st. Qed.
Lemma set_inode_same st i r : get_inode st i = Ok r -> set_inode st i r = st.
Proof.
  unfold get_inode, set_inode. destruct (i =? root_ino).
  - intros E; inversion E; subst. now destruct st.
  - destruct (oget (st_objs st) i) eqn:O; [|discriminate]. intros E; inversion E; subst.
    unfold with_tables. rewrite oset_same by exact O. now destruct st.
Qed.

Lemma evolves_refl st : evolves st st.
Proof.
  split; auto using keeps_refl; [|eauto]. intros j r H. exists r. repeat (split; auto). lia.
Qed.

Lemma load_root st root h nx s :
  Inv st root -> loads_to (st_heap st) (st_next st) (i_asset (st_root st)) h nx s -> asset_ok h s root ->
  Inv (set_inode (with_mem st h nx) root_ino (with_asset (st_root st) s)) root.
Proof.
  intros [T M] (L1 & L2 & L3 & L4 & L5 & (new & L6 & L7) & L8) A.
  assert (GI : forall j q, get_inode st j = Ok q -> exists q', get_inode (set_inode (with_mem st h nx) root_ino (with_asset (st_root st) s)) j = Ok q' /\
                i_children q' = i_children q /\ is_valid q' = is_valid q /\ as_proto (i_asset q') = as_proto (i_asset q) /\
                (forall n p, lk_get (as_lookup (i_asset q)) n = Some p -> lk_get (as_lookup (i_asset q')) n = Some p)).
  { intros j q. unfold get_inode, set_inode. cbn [st_root st_objs with_mem]. rewrite N.eqb_refl. cbn [st_root st_objs]. destruct (j =? root_ino).
    - intros E; inversion E; subst. eexists; split; [reflexivity|]. cbn [with_asset i_children i_asset]. repeat (split; auto).
    - destruct (oget (st_objs st) j); [|discriminate]. intros E; inversion E; subst. exists q. auto 6. }
  assert (IG : forall j q', get_inode (set_inode (with_mem st h nx) root_ino (with_asset (st_root st) s)) j = Ok q' ->
                exists q, get_inode st j = Ok q /\ i_children q' = i_children q).
  { intros j q'. unfold get_inode, set_inode. cbn [st_root st_objs with_mem]. rewrite N.eqb_refl. cbn [st_root st_objs]. destruct (j =? root_ino).
    - intros E; inversion E; subst. eexists; split; [reflexivity|]. reflexivity.
    - destruct (oget (st_objs st) j); [|discriminate]. intros E; inversion E; subst. eauto. }
  pose proof (m_fresh _ _ _ M) as B.
  split.
  - destruct T as [T1 T2 T3 T4 T5 T6 T7 T8 T9 T10]. split; auto.
    intros j q' G. destruct (IG _ _ G) as (q & G' & E). rewrite E. exact (T4 j q G').
  - destruct M as [M1 M2 M3 M4 M5 M6 M7 M8 M9 M10 M11 M12].
    unfold set_inode in *. rewrite N.eqb_refl in *. cbn [st_root st_heap st_objs st_next st_manifest with_mem] in *.
    split; cbn [st_root st_heap st_objs st_next st_manifest i_asset with_asset]; auto.
    + rewrite L2. exact M1.
    + unfold parent. cbn [i_asset with_asset]. rewrite L1. exact M2.
    + rewrite L4; auto. apply (B _ _ M4).
    + destruct M8 as [M8 M8']. rewrite L6. split.
      * intros X. apply in_app_or in X. destruct X as [X|X]; auto.
        rewrite Forall_forall in L7. specialize (L7 _ X). specialize (B _ _ M4). lia.
      * apply Forall_app. split; [eapply Forall_impl; [|exact M8']; cbn; intros; lia|eapply Forall_impl; [|exact L7]; cbn; intros; lia].
    + intros i r O V L. destruct (M11 i r O V L) as (a & c & Hc & Hb & Ha). exists a, c. split; auto. split; auto.
      eapply asset_ok_keeps; eauto.
    + intros i r O V L. destruct (M12 i r O V L) as (pr & p & n & a & H1 & H2 & H3 & H4 & H5 & H6).
      destruct (GI _ _ H1) as (q' & G1 & _ & G2 & G3 & G4). exists q', p, n, a. split; [exact G1|]. split; [congruence|].
      split; auto. split; auto. split; auto. unfold get_proto in *. rewrite G3. destruct (as_proto (i_asset pr)); [|discriminate].
      destruct (deref (st_heap st) p0) eqn:D; [|discriminate]. rewrite (deref_keeps _ _ _ _ _ B L4 D). exact H5.
Qed.

Section Env.
Context (fetch : cid -> option (list aproto)) (alloc : list ino -> ino) (rok : bool).
Hypothesis F : forall id l, fetch id = Some l -> store id = Some l.
Hypothesis AL : forall keys, ~ In (alloc keys) keys /\ alloc keys <> root_ino.

(** The state after loading: the callbacks' [set_inode (with_mem ..) ..]. *)
Definition stored (st : state) (i : ino) (r : inode) (h : heap) (nx : nat) (s : asset) : state :=
  set_inode (with_mem st h nx) i (with_asset r s).

Lemma load_fail stop ids : forall h nx s h' nx' s', load fetch stop ids h nx s = (false, h', nx', s') -> exists id, In id ids /\ fetch id = None.
Proof.
  induction ids as [|id ids IH]; intros h0 n0 s0 h' nx' s'; cbn [load].
  - destruct (stop (as_lookup s0)); discriminate.
  - destruct (stop (as_lookup s0)); [discriminate|]. destruct (fetch id) eqn:Fe.
    + intros H. apply IH in H. destruct H as (x & H1 & H2). exists x. split; auto. now right.
    + intros _. exists id. split; [now left|exact Fe].
Qed.

Lemma load_store st root i r a stop :
  Inv st root -> get_inode st i = Ok r -> is_valid r = true -> (i <> root_ino -> livb r = true) ->
  get_proto (st_heap st) (i_asset r) = Ok a -> 
  forall ok h nx s, load fetch stop (skipn (length (as_lists (i_asset r))) (ap_ind a)) (st_heap st) (st_next st) (i_asset r) = (ok, h, nx, s) ->
  let st' := stored st i r h nx s in
  Inv st' root /\ evolves st st' /\ get_inode st' i = Ok (with_asset r s) /\ st_heap st' = h /\ st_next st' = nx /\
  (forall j, j <> i -> get_inode st' j = get_inode st j) /\ st_map st' = st_map st /\
  loads_to (st_heap st) (st_next st) (i_asset r) h nx s /\ asset_ok h s a /\ st_objs st' = st_objs st /\
  (ok = true -> stop (as_lookup s) = true \/ length (as_lists s) = length (ap_ind a)) /\
  (ok = false -> i = root_ino /\ exists id, In id (ap_ind a) /\ fetch id = None).
Proof.
  intros I G V L GP ok h nx s LD st'.
  destruct (valid_proto st root i r I G V L) as (a' & p & GP' & P & D & A & B & Ri & Rn).
  rewrite GP in GP'. inversion GP'; subst a'. clear GP'.
  pose proof (m_unique _ _ _ (proj2 I) a B) as U.
  pose proof (m_fresh _ _ _ (proj2 I)) as Fr.
  destruct (load_ok store fetch stop a F U _ _ _ _ _ _ _ _ Fr A eq_refl LD) as (LT & A' & OK).
  destruct (N.eq_dec i root_ino) as [Hi|Hi].
  - subst i. rewrite get_inode_root in G. inversion G; subst r. rewrite (Ri eq_refl) in *. 
    assert (I' : Inv st' root) by (apply load_root; auto).
    split; auto.
    assert (E : get_inode st' root_ino = Ok (with_asset (st_root st) s)) by reflexivity.
    assert (E' : forall j, j <> root_ino -> get_inode st' j = get_inode st j).
    { intros j Hj. unfold st', stored. rewrite get_set. destruct (N.eqb_spec j root_ino); [contradiction|reflexivity]. }
    split.
    { destruct LT as (L1 & L2 & L3 & L4 & L5 & _). split; auto.
      - intros j q Gj. destruct (N.eq_dec j root_ino) as [->|Hj].
        + rewrite get_inode_root in Gj. inversion Gj; subst. eexists; split; [exact E|]. cbn [with_asset i_asset]. unfold parent. cbn [with_asset i_asset].
          split; auto. split; auto. split; auto. cbn. lia.
        + rewrite E' by exact Hj. exists q. repeat (split; auto). lia.
      - intros j q Gj Vj. destruct (N.eq_dec j root_ino) as [->|Hj].
        + rewrite E in Gj. inversion Gj; subst. unfold is_valid in *. cbn [with_asset i_state] in Vj. congruence.
        + exists q. rewrite <- E'; auto. }
    split; [exact E|]. split; [reflexivity|]. split; [reflexivity|]. split; [exact E'|]. split; [reflexivity|].
    split; [exact LT|]. split; [exact A'|]. split; [reflexivity|]. split; [exact OK|]. split; [reflexivity|].
    destruct (load_fail stop (skipn (length (as_lists (i_asset (st_root st)))) (ap_ind root)) (st_heap st) (st_next st) (i_asset (st_root st)) h nx s) as (id & H1 & H2); [congruence|]. exists id. split; auto.
    rewrite <- (firstn_skipn (length (as_lists (i_asset (st_root st)))) (ap_ind root)). apply in_or_app. now right.
  - destruct (Rn Hi) as [R1 R2]. rewrite R1, skipn_nil in LD. cbn [load] in LD.
    assert (Q : (ok, h, nx, s) = (true, st_heap st, st_next st, i_asset r)) by (destruct (stop (as_lookup (i_asset r))); congruence).
    inversion Q; subst.
    assert (S : st' = st).
    { unfold st', stored. rewrite with_mem_same, with_asset_same. apply set_inode_same. exact G. }
    rewrite S, with_asset_same. split; auto. split; [apply evolves_refl|].
    split; [exact G|]. do 4 (split; [reflexivity|]). split; [exact LT|]. split; [exact A'|]. split; [reflexivity|]. split; [exact OK|]. discriminate.
Qed.

(** * Creating inodes *)
Lemma get_or_create_ok st root q r n p :
  Inv st root -> get_inode st q = Ok r -> is_valid r = true -> (q <> root_ino -> livb r = true) ->
  lk_get (as_lookup (i_asset r)) n = Some p ->
  (exists a, get_proto (st_heap st) (i_asset r) = Ok a /\ ap_type a = TDir) ->
  exists i st' ri, get_or_create alloc st q p = Ok (i, st') /\ Inv st' root /\ evolves st st' /\
    i <> root_ino /\ oget (st_objs st') i = Some ri /\ is_valid ri = true /\ 0 < i_nlookup ri /\ parent ri = q /\ as_proto (i_asset ri) = Some p /\
    (exists r', get_inode st' q = Ok r' /\ i_asset r' = i_asset r) /\ st_heap st' = st_heap st /\
    (forall s, oget (st_objs st) i = Some s -> i_nlookup ri = i_nlookup s + 1) /\
    (forall j, j <> i -> j <> q -> get_inode st' j = get_inode st j).
Proof.
  intros I G V L LK (a & GP & TD).
  destruct (valid_proto st root q r I G V L) as (a' & pq & GP' & P & D & A & B & Ri & Rn).
  rewrite GP in GP'. inversion GP'; subst a'. clear GP'.
  pose proof I as [T M].
  destruct (ao_ptr _ _ _ _ A n p LK) as (c & Dc & Nc & Hc).
  apply loaded_incl in Hc.
  unfold get_or_create. destruct (mget (st_map st) p) as [i|] eqn:MG.
  - (* an inode with this proto exists *)
    destruct (mapped_live st root p i I MG) as (ri & O & Vi & Pi & Li).
    destruct (obj_inode st i ri T O) as [Gi Hi]. rewrite Gi. cbn [bind].
    change (mkinode (i_asset ri) (i_nlookup ri + 1) (i_children ri) (i_state ri)) with (recount ri (i_nlookup ri + 1) (i_children ri)).
    set (st' := set_inode st i (recount ri (i_nlookup ri + 1) (i_children ri))).
    assert (T' : tab_ok [] None st').
    { apply (tab_recount store [] None None); auto. intros _. rewrite Li. unfold livb. cbn [recount i_nlookup i_children]. lia. }
    assert (M' : mem_ok st' root) by (apply mem_recount; auto; apply T).
    assert (G' : forall j, get_inode st' j = if j =? i then Ok (recount ri (i_nlookup ri + 1) (i_children ri)) else get_inode st j).
    { intros j. unfold st'. rewrite get_set, Gi. reflexivity. }
    assert (PQ : parent ri = q).
    { exact (parent_unique st root i ri q r n p I O Vi Li Pi G V L LK). }
    exists i, st', (recount ri (i_nlookup ri + 1) (i_children ri)). split; auto. split; [split; auto|].
    split.
    { split.
      - unfold st'. rewrite set_obj by exact Hi. reflexivity.
      - unfold st'. rewrite set_obj by exact Hi. apply keeps_refl.
      - intros j s Gj. rewrite G'. destruct (N.eqb_spec j i) as [->|Hj].
        + rewrite Gi in Gj. inversion Gj; subst s. eexists; split; [reflexivity|]. repeat (split; auto). cbn. lia.
        + exists s. repeat (split; auto). lia.
      - intros j s. rewrite G'. destruct (N.eqb_spec j i) as [->|Hj]; eauto. intros E X. inversion E; subst. change (is_valid ri = false) in X. congruence. }
    split; auto. split.
    { apply (inode_obj st' i). exact Hi. rewrite G', N.eqb_refl. reflexivity. }
    split; auto. split; [cbn; lia|]. split; auto. split; auto. split.
    { rewrite G'. destruct (N.eqb_spec q i) as [->|Hj]; [|eauto]. rewrite Gi in G. inversion G; subst. eauto. }
    split; [unfold st'; rewrite set_obj by exact Hi; reflexivity|].
    split; [intros s Hs; rewrite O in Hs; inversion Hs; subst; reflexivity|].
    intros j Hj _. rewrite G'. destruct (N.eqb_spec j i); congruence.
  - (* a new inode *)
    unfold asset_init. rewrite Dc. cbn [bind]. rewrite G. cbn [bind].
    change (mkinode (i_asset r) (i_nlookup r) (i_children r + 1) (i_state r)) with (recount r (i_nlookup r) (i_children r + 1)).
    set (i := alloc (map fst (st_objs st))). destruct (AL (map fst (st_objs st))) as [Hk Hi]. fold i in Hk, Hi.
    set (st1 := set_inode st q (recount r (i_nlookup r) (i_children r + 1))).
    set (s := mkasset q (Some p) (direct_lookup p c) []).
    set (ri := mkinode s 1 0 SInit).
    set (st' := with_tables st1 ((i, ri) :: st_objs st1) ((p, i) :: st_map st1) (st_invalid st1)).
    assert (Lq' : q <> root_ino -> livb (recount r (i_nlookup r) (i_children r + 1)) = true).
    { intros _. unfold livb. cbn [recount i_nlookup i_children]. lia. }
    assert (M1 : mem_ok st1 root) by (apply mem_recount; auto; apply T).
    assert (K1 : map fst (st_objs st1) = map fst (st_objs st)).
    { unfold st1, set_inode. destruct (q =? root_ino); cbn [st_objs with_tables]; auto. apply oset_keys. }
    assert (H1 : st_heap st1 = st_heap st /\ st_next st1 = st_next st /\ st_manifest st1 = st_manifest st /\ st_map st1 = st_map st /\ st_invalid st1 = st_invalid st).
    { unfold st1, set_inode. destruct (q =? root_ino); auto. }
    destruct H1 as (Hh & Hx & Hm & Hp & Hv).
    assert (G1 : forall j, get_inode st1 j = if j =? q then Ok (recount r (i_nlookup r) (i_children r + 1)) else get_inode st j).
    { intros j. unfold st1. rewrite get_set, G. reflexivity. }
    assert (Hiq : i <> q).
    { intros X. apply Hk. rewrite X. apply oget_key. exists r. apply inode_obj; auto. congruence. }
    assert (O' : forall j, oget (st_objs st') j = if j =? i then Some ri else oget (st_objs st1) j) by reflexivity.
    assert (G' : forall j, j <> i -> get_inode st' j = get_inode st1 j).
    { intros j Hj. unfold get_inode. rewrite O'. destruct (N.eqb_spec j i); [contradiction|]. reflexivity. }
    assert (OB : forall j r', oget (st_objs st1) j = Some r' -> j <> i /\ exists r0, oget (st_objs st) j = Some r0 /\ i_asset r' = i_asset r0 /\ is_valid r' = is_valid r0 /\ livb r0 = livb r').
    { intros j r' Hj. split.
      - intros ->. apply Hk. rewrite <- K1. apply oget_key. eauto.
      - assert (Hj' : j <> root_ino) by (intros ->; apply (t_noroot _ _ _ T); rewrite <- K1; apply oget_key; eauto).
        assert (Gj : get_inode st1 j = Ok r') by (rewrite get_inode_obj, Hj by exact Hj'; reflexivity).
        rewrite G1 in Gj. destruct (N.eqb_spec j q) as [->|Hq].
        + inversion Gj; subst r'. exists r. split; [apply inode_obj; auto|]. repeat (split; auto). rewrite Lq', L; auto.
        + exists r'. split; [apply inode_obj; auto|]. auto. }
    assert (BO : forall j r0, oget (st_objs st) j = Some r0 -> exists r', oget (st_objs st1) j = Some r' /\ i_asset r' = i_asset r0 /\ is_valid r' = is_valid r0).
    { intros j r0 Hj. destruct (obj_inode st j r0 T Hj) as [Gj Hj']. destruct (N.eq_dec j q) as [->|Hq].
      - exists (recount r (i_nlookup r) (i_children r + 1)). rewrite G in Gj. inversion Gj; subst r0. split; auto.
        apply inode_obj; auto. rewrite G1, N.eqb_refl. reflexivity.
      - exists r0. split; auto. apply inode_obj; auto. rewrite G1. destruct (N.eqb_spec j q); congruence. }
    assert (KD : forall x, kids (st_objs st') x = b2n (q =? x) + kids (st_objs st) x).
    { intros x. unfold st'. cbn [st_objs with_tables kids]. change (livb ri) with true. change (parent ri) with q. cbn [andb]. f_equal.
      unfold st1, set_inode. destruct (N.eqb_spec q root_ino) as [E|E]; cbn [st_objs with_tables]; auto.
      pose proof (kids_oset (st_objs st) q r (recount r (i_nlookup r) (i_children r + 1)) x (t_nodup _ _ _ T) (inode_obj _ _ _ E G)) as K.
      rewrite Lq', L in K by exact E. rewrite recount_parent in K. lia. }
    assert (KZ : kids (st_objs st) i = 0).
    { destruct (kids (st_objs st) i) eqn:E; auto. exfalso. assert (X : 0 < kids (st_objs st) i) by lia. clear E.
      assert (Y : forall l, ordered l -> 0 < kids l i -> In i (map fst l)).
      { clear - Hi. induction l as [|[j s] l IH]; cbn; [lia|]. intros [O1 O2] H.
        destruct (livb s) eqn:Ls; cbn [andb b2n] in H; [|auto].
        destruct (N.eqb_spec (parent s) i) as [E|E]; [|auto]. rewrite E in O1. destruct (O1 eq_refl); [contradiction|auto]. }
      apply Hk. apply Y; auto. apply T. }
    assert (GK : forall j r', get_inode st' j = Ok r' -> i_children r' = kids (st_objs st') j).
    { intros j r' Gj. rewrite KD. destruct (N.eq_dec j i) as [->|Hj].
      - unfold get_inode in Gj. rewrite O', N.eqb_refl in Gj. destruct (N.eqb_spec i root_ino); [contradiction|]. inversion Gj; subst r'.
        cbn [ri i_children]. rewrite KZ. destruct (N.eqb_spec q i); [congruence|]. reflexivity.
      - rewrite G' in Gj by exact Hj. rewrite G1 in Gj. destruct (N.eqb_spec j q) as [->|Hq].
        + inversion Gj; subst r'. rewrite N.eqb_refl. cbn [recount i_children b2n].
          pose proof (t_count _ _ _ T _ _ G) as C. cbv iota beta in C. cbn [b2n] in C. lia.
        + destruct (N.eqb_spec q j); [congruence|]. pose proof (t_count _ _ _ T _ _ Gj) as C. cbv iota beta in C. cbn [b2n] in *. lia. }
    assert (Nop : forall j r0, oget (st_objs st) j = Some r0 -> is_valid r0 = true -> as_proto (i_asset r0) <> Some p).
    { intros j r0 Hj Vj Pj. assert (X : mget (st_map st) p = Some j) by (apply (t_map _ _ _ T); eauto). congruence. }
    assert (T' : tab_ok [] None st').
    { split.
      - unfold st'. cbn [st_objs with_tables map fst]. rewrite K1. constructor; auto. apply T.
      - unfold st'. cbn [st_objs with_tables map fst]. rewrite K1. intros [X|X]; [congruence|]. apply (t_noroot _ _ _ T X).
      - unfold st'. cbn [st_objs with_tables ordered]. split.
        + intros _. change (parent ri) with q. rewrite K1. destruct (N.eq_dec q root_ino) as [Hq|Hq]; auto. right. apply oget_key. exists r. now apply inode_obj.
        + unfold st1, set_inode. destruct (N.eqb_spec q root_ino) as [E|E]; cbn [st_objs with_tables]; [apply T|].
          apply (ordered_oset (st_objs st) q r); auto using inode_obj; apply T.
      - intros j r' Gj. rewrite (GK _ _ Gj). cbn [b2n]. lia.
      - intros p' j. unfold st' at 1. cbn [st_map with_tables mget]. rewrite Hp. destruct (ptr_eqb p' p) eqn:E.
        + apply ptr_eqb_iff in E. subst p'. split.
          * intros X. inversion X; subst j. exists ri. rewrite O', N.eqb_refl. auto.
          * intros (r' & Or & Vr & Pr). rewrite O' in Or. destruct (N.eqb_spec j i) as [->|Hj]; auto. exfalso.
            destruct (OB _ _ Or) as (_ & r0 & O0 & A0 & V0 & _). apply (Nop j r0 O0); congruence.
        + rewrite (t_map _ _ _ T). split.
          * intros (r0 & Or & Vr & Pr). destruct (BO _ _ Or) as (r' & Or' & A0 & V0). exists r'. rewrite O'.
            destruct (N.eqb_spec j i) as [->|Hj]; [destruct (OB _ _ Or'); congruence|]. split; auto. split; congruence.
          * intros (r' & Or & Vr & Pr). rewrite O' in Or. destruct (N.eqb_spec j i) as [->|Hj].
            { inversion Or; subst r'. cbn in Pr. inversion Pr; subst. rewrite ptr_eqb_refl in E. discriminate. }
            destruct (OB _ _ Or) as (_ & r0 & O0 & A0 & V0 & _). exists r0. split; auto. split; congruence.
      - unfold st'. cbn [st_map with_tables map fst]. rewrite Hp. constructor; [|apply T].
        intros X. apply in_map_iff in X. destruct X as ([p' j] & E & X). cbn in E. subst p'.
        apply (in_mget _ _ _ (t_mapnd _ _ _ T)) in X. congruence.
      - intros j. unfold st' at 1. cbn [st_invalid with_tables]. rewrite Hv, (t_invalid _ _ _ T). split.
        + intros (r0 & Or & Vr). destruct (BO _ _ Or) as (r' & Or' & A0 & V0). exists r'. rewrite O'.
          destruct (N.eqb_spec j i) as [->|Hj]; [destruct (OB _ _ Or'); congruence|]. split; auto. congruence.
        + intros (r' & Or & Vr). rewrite O' in Or. destruct (N.eqb_spec j i) as [->|Hj]; [inversion Or; subst r'; discriminate|].
          destruct (OB _ _ Or) as (_ & r0 & O0 & A0 & V0 & _). exists r0. split; auto. congruence.
      - intros j r' Or Vr. rewrite O' in Or. destruct (N.eqb_spec j i) as [->|Hj]; [inversion Or; subst r'; exists p; reflexivity|].
        destruct (OB _ _ Or) as (_ & r0 & O0 & A0 & V0 & _). rewrite A0. apply (t_proto _ _ _ T j); congruence.
      - intros j r' Or Vr. rewrite O' in Or. destruct (N.eqb_spec j i) as [->|Hj]; [inversion Or; subst r'; discriminate|].
        destruct (OB _ _ Or) as (_ & r0 & O0 & A0 & V0 & _). unfold parent. rewrite A0. apply (t_dead _ _ _ T j); congruence.
      - intros j r' Or Vr. left. rewrite O' in Or. destruct (N.eqb_spec j i) as [->|Hj]; [inversion Or; subst r'; reflexivity|].
        destruct (OB _ _ Or) as (_ & r0 & O0 & A0 & V0 & L0). rewrite <- L0.
        destruct (t_live _ _ _ T j r0 O0) as [X|[]]; auto. congruence. }
    assert (Bc : below store root c).
    { clear - B Hc. induction B; [econstructor; [exact Hc|constructor]|econstructor; eauto]. }
    assert (M' : mem_ok st' root).
    { destruct M1 as [M1 M2 M3 M4 M5 M6 M7 M8 M9 M10 M11 M12].
      split; unfold st'; cbn [st_root st_heap st_next st_manifest with_tables]; auto.
      - intros j r' Or. change (st_objs (with_tables st1 ((i, ri) :: st_objs st1) ((p, i) :: st_map st1) (st_invalid st1))) with (st_objs st') in Or.
        rewrite O' in Or. destruct (N.eqb_spec j i); [inversion Or; subst; reflexivity|eauto].
      - intros j r' Or Vr Lr. change (st_objs (with_tables st1 ((i, ri) :: st_objs st1) ((p, i) :: st_map st1) (st_invalid st1))) with (st_objs st') in Or.
        rewrite O' in Or. destruct (N.eqb_spec j i) as [->|Hj]; [|eauto]. inversion Or; subst r'. clear Or.
        assert (X : asset_ok (st_heap st1) s c).
        { apply direct_ok; [rewrite Hh; exact Dc|]. apply M5. exact Bc. }
        exists c. destruct (N.eq_dec q root_ino) as [Hq|Hq].
        + exists c. rewrite (Ri Hq) in Hc. split; auto. split; [constructor|exact X].
        + destruct (m_asset _ _ _ M q r (inode_obj _ _ _ Hq G) V (L Hq)) as (a' & c0 & Hc0 & B0 & A0).
          assert (a' = a). { destruct (ao_proto _ _ _ _ A0) as (p0 & E0 & D0 & _). rewrite P in E0. inversion E0; subst p0. congruence. }
          subst a'. exists c0. split; auto. split; [|exact X].
          clear - B0 Hc. induction B0; [econstructor; [exact Hc|constructor]|econstructor; eauto].
      - intros j r' Or Vr Lr. change (st_objs (with_tables st1 ((i, ri) :: st_objs st1) ((p, i) :: st_map st1) (st_invalid st1))) with (st_objs st') in Or.
        change (with_tables st1 ((i, ri) :: st_objs st1) ((p, i) :: st_map st1) (st_invalid st1)) with st'.
        rewrite O' in Or. destruct (N.eqb_spec j i) as [->|Hj].
        + inversion Or; subst r'. clear Or. exists (recount r (i_nlookup r) (i_children r + 1)), p, n, a.
          change (parent ri) with q. rewrite G' by congruence. rewrite G1, N.eqb_refl. split; auto. split; auto. split; auto. split; auto.
          rewrite Hh. split; auto.
        + destruct (M12 j r' Or Vr Lr) as (pr & p' & n' & a' & Q1 & Q). exists pr, p', n', a'. split; [|exact Q].
          rewrite G'; auto. intros X. rewrite X in Q1. rewrite get_inode_obj in Q1 by exact Hi.
          destruct (oget (st_objs st1) i) eqn:E; [|discriminate]. destruct (OB _ _ E). congruence. }
    assert (G'i : get_inode st' i = Ok ri).
    { unfold get_inode. rewrite O', N.eqb_refl. destruct (N.eqb_spec i root_ino); [contradiction|reflexivity]. }
    exists i, st', ri. split; auto. split; [split; auto|]. split.
    { split.
      - exact Hm.
      - change (st_heap st') with (st_heap st1). rewrite Hh. apply keeps_refl.
      - intros j s0 Gj. assert (Hj : j <> i).
        { intros ->. rewrite get_inode_obj in Gj by exact Hi. destruct (oget (st_objs st) i) eqn:E; [|discriminate]. apply Hk, oget_key. eauto. }
        rewrite G' by exact Hj. rewrite G1. destruct (N.eqb_spec j q) as [->|Hq].
        + rewrite G in Gj. inversion Gj; subst s0. eexists; split; [reflexivity|]. repeat (split; auto). cbn. lia.
        + exists s0. repeat (split; auto). lia.
      - intros j r' Gj Vj. destruct (N.eq_dec j i) as [->|Hj].
        + rewrite G'i in Gj. inversion Gj; subst r'. discriminate.
        + rewrite G' in Gj by exact Hj. rewrite G1 in Gj. destruct (N.eqb_spec j q) as [->|Hq]; [|eauto].
          inversion Gj; subst r'. exists r. split; auto. }
    split; auto. split; [rewrite O', N.eqb_refl; reflexivity|]. split; auto. split; [cbn; lia|]. split; auto. split; auto. split.
    { exists (recount r (i_nlookup r) (i_children r + 1)). rewrite G' by congruence. rewrite G1, N.eqb_refl. auto. }
    split; [exact Hh|]. split.
    { intros s0 Hs0. exfalso. apply Hk, oget_key. eauto. }
    intros j Hj Hq. rewrite G' by exact Hj. rewrite G1. destruct (N.eqb_spec j q); congruence.
Qed.

Definition live (st : state) (i : ino) (r : inode) : Prop := get_inode st i = Ok r /\ (i <> root_ino -> livb r = true).

Lemma evolves_trans a b c : evolves a b -> evolves b c -> (st_next a <= st_next b)%nat -> evolves a c.
Proof.
  intros [A1 A2 A3 A4] [B1 B2 B3 B4] L. split.
  - congruence.
  - eapply keeps_trans; eauto.
  - intros j r G. destruct (A3 j r G) as (r1 & G1 & P1 & Q1 & V1 & N1). destruct (B3 j r1 G1) as (r2 & G2 & P2 & Q2 & V2 & N2).
    exists r2. split; auto. split; [congruence|]. split; [congruence|]. split; [congruence|]. lia.
  - intros j r G V. destruct (B4 j r G V) as (r1 & G1 & V1). eauto.
Qed.

Lemma live_valid_parent st root i r : Inv st root -> oget (st_objs st) i = Some r -> is_valid r = true ->
  exists pr, live st (parent r) pr /\ is_valid pr = true.
Proof.
  intros [T M] O V. destruct (t_live _ _ _ T i r O V) as [L|[]].
  destruct (m_child _ _ _ M i r O V L) as (pr & p & n & a & G & Vp & _). exists pr. split; auto. split; auto.
  intros Hp. pose proof (inode_obj _ _ _ Hp G) as Op. destruct (t_live _ _ _ T _ _ Op Vp) as [X|[]]; auto.
Qed.

(** GetRelativePath succeeds. *)
Lemma rel_path_ok st root : Inv st root -> forall fuel i r k1 k2,
  oget (st_objs st) i = Some r -> is_valid r = true -> map fst (st_objs st) = k1 ++ i :: k2 -> (length k2 < fuel)%nat ->
  exists path, rel_path fuel st r = Ok path.
Proof.
  intros I. induction fuel as [|fuel IH]; intros i r k1 k2 O V Ek Lk; [lia|].
  pose proof I as [T M]. destruct (t_live _ _ _ T i r O V) as [L|[]].
  destruct (obj_inode st i r T O) as [G Hi].
  destruct (valid_proto st root i r I G V (fun _ => L)) as (a & p & GP & _).
  cbn [rel_path]. fold (parent r). destruct (N.eqb_spec (parent r) root_ino) as [E|E].
  - rewrite GP. cbn [bind]. eauto.
  - destruct (live_valid_parent st root i r I O V) as (pr & [Gp Lp] & Vp). rewrite Gp. cbn [bind].
    pose proof (inode_obj _ _ _ E Gp) as Op.
    destruct (ordered_before _ _ _ _ _ (t_ordered _ _ _ T) (t_nodup _ _ _ T) Ek O L) as [X|X]; [contradiction|].
    destruct (in_split _ _ X) as (b1 & b2 & Eb).
    destruct (IH (parent r) pr (k1 ++ i :: b1) b2) as [pp Hpp]; auto.
    + rewrite Ek, Eb, <- app_assoc. reflexivity.
    + assert (Z : length k2 = length (b1 ++ parent r :: b2)) by (now rewrite Eb). rewrite app_length in Z. cbn [length] in Z. lia.
    + rewrite Hpp. cbn [bind]. rewrite GP. cbn [bind]. eauto.
Qed.
Lemma rel_path_some st root i r : Inv st root -> live st i r -> is_valid r = true ->
  exists path, rel_path (S (length (st_objs st))) st r = Ok path.
Proof.
  intros I [G L] V. destruct (N.eq_dec i root_ino) as [Hi|Hi].
  - subst i. cbn [rel_path]. pose proof G as G'. rewrite get_inode_root in G. inversion G; subst r.
    fold (parent (st_root st)). rewrite (m_root_parent _ _ _ (proj2 I)), N.eqb_refl.
    destruct (valid_proto st root root_ino _ I G' V L) as (a & p & GP & _). rewrite GP. cbn. eauto.
  - pose proof (inode_obj _ _ _ Hi G) as O. assert (K : In i (map fst (st_objs st))) by (apply oget_key; eauto).
    destruct (in_split _ _ K) as (k1 & k2 & Ek). apply (rel_path_ok st root I _ i r k1 k2); auto.
    rewrite <- (map_length fst), Ek, app_length. cbn. lia.
Qed.

(** * Callbacks *)
Lemma lookup_ok st root q r n : Inv st root -> live st q r ->
  exists rep st', do_lookup fetch alloc st q n = Ok (rep, st') /\ Inv st' root /\ evolves st st' /\ (st_next st <= st_next st')%nat /\
    match rep with
    | REntry i at_ =>
        is_valid r = true /\ i <> root_ino /\ exists ri p a, oget (st_objs st') i = Some ri /\ is_valid ri = true /\ parent ri = q /\
          as_proto (i_asset ri) = Some p /\ deref (st_heap st') p = Some a /\ ap_name a = n /\ at_ = fill_stat i a /\
          0 < i_nlookup ri /\ (forall s, oget (st_objs st) i = Some s -> i_nlookup ri = i_nlookup s + 1) /\
          exists aq, get_proto (st_heap st) (i_asset r) = Ok aq /\ ap_type aq = TDir /\ ap_progress aq = false /\ In a (dir_children store aq)
    | RErr e => e = ENOENT /\ (is_valid r = true ->
          exists aq, get_proto (st_heap st) (i_asset r) = Ok aq /\ ap_progress aq = false /\
            (ap_type aq = TDir -> (forall id, In id (ap_ind aq) -> fetch id <> None) -> ~ In n (map ap_name (dir_children store aq))))
    | RQueued path => st' = st /\ is_valid r = true /\ rel_path (S (length (st_objs st))) st r = Ok path /\
          exists aq, get_proto (st_heap st) (i_asset r) = Ok aq /\ ap_progress aq = true
    | _ => False
    end.
Proof.
  intros I [G L]. unfold do_lookup. rewrite G. cbn [bind]. destruct (is_valid r) eqn:V; cbn [negb].
  2:{ exists (RErr ENOENT), st. split; auto. split; auto. split; [apply evolves_refl|]. split; auto. split; auto. discriminate. }
  destruct (valid_proto st root q r I G V L) as (a & pq & GP & P & D & A & B & Ri & Rn). rewrite GP. cbn [bind].
  destruct (ap_progress a) eqn:PR.
  { destruct (rel_path_some st root q r I (conj G L) V) as [path Hp]. rewrite Hp. cbn [bind].
    exists (RQueued path), st. split; auto. split; auto. split; [apply evolves_refl|]. split; auto. split; auto. split; auto. split; auto. eauto. }
  unfold asset_lookup. rewrite GP. cbn [bind]. destruct (atype_eqb (ap_type a) TDir) eqn:TD.
  2:{ cbn [bind]. exists (RErr ENOENT), st. replace (set_inode (with_mem st (st_heap st) (st_next st)) q (with_asset r (i_asset r))) with st
        by (rewrite with_mem_same, with_asset_same, set_inode_same; auto).
      split; auto. split; auto. split; [apply evolves_refl|]. split; auto. split; auto. intros _. exists a. split; auto. split; auto.
      intros T. rewrite T in TD. discriminate. }
  apply atype_eqb_iff in TD.
  match goal with |- context [load fetch ?x ?y ?z ?u ?v] => destruct (load fetch x y z u v) as [[[ok h] nx] s] eqn:LD end.
  destruct (load_store st root q r a _ I G V L GP ok h nx s LD) as (I' & E' & G' & Hh & Hn & Go & Hm & LT & A' & Ho & Ok1 & Ok2).
  fold (stored st q r h nx s). set (st1 := stored st q r h nx s) in *.
  assert (Ln : (st_next st <= st_next st1)%nat) by (rewrite Hn; apply LT).
  destruct ok.
  2:{ cbn [bind]. exists (RErr ENOENT), st1. split; [reflexivity|]. split; auto. split; auto. split; auto. split; auto. intros _. exists a. split; auto. split; auto.
      intros _ X. destruct (Ok2 eq_refl) as (_ & id & H1 & H2). exfalso. apply (X id H1 H2). }
  destruct (lk_get (as_lookup s) n) as [p|] eqn:LK; cbn [bind].
  - destruct (get_or_create_ok st1 root q (with_asset r s) n p I' G' V L LK) as (i & st2 & ri & C1 & I2 & E2 & Hi & Oi & Vi & Ni & Pi & Pp & (r' & Gq & Aq) & Hh2 & Nl & Oth).
    { exists a. split; auto. unfold get_proto. cbn [with_asset i_asset]. destruct LT as (_ & L2 & _ & K & _). rewrite L2, P.
      rewrite Hh, (deref_keeps _ _ _ _ _ (m_fresh _ _ _ (proj2 I)) K D). reflexivity. }
    change (set_inode (with_mem st h nx) q (with_asset r s)) with st1. rewrite C1. cbn [bind]. destruct (obj_inode st2 i ri (proj1 I2) Oi) as [Gi _]. rewrite Gi. cbn [bind]. rewrite Vi. cbn [negb].
    destruct (ao_ptr _ _ _ _ A' n p LK) as (c & Dc & Nc & Hc). apply loaded_incl in Hc.
    assert (GPi : get_proto (st_heap st2) (i_asset ri) = Ok c). { unfold get_proto. rewrite Pp, Hh2, Hh, Dc. reflexivity. }
    rewrite GPi. cbn [bind]. exists (REntry i (fill_stat i c)), st2. split; auto. split; auto.
    split; [eapply evolves_trans; eauto|]. split.
    { unfold get_or_create in C1. destruct (mget (st_map st1) p).
      - destruct (get_inode st1 i0); cbn [bind] in C1; try discriminate. inversion C1. unfold set_inode. destruct (i =? root_ino); exact Ln.
      - destruct (asset_init (st_heap st1) q p); cbn [bind] in C1; try discriminate. rewrite G' in C1. cbn [bind] in C1. inversion C1.
        unfold set_inode. destruct (q =? root_ino); exact Ln. }
    split; auto. split; auto. exists ri, p, c. split; auto. split; auto. split; auto. split; auto. split; [rewrite Hh2, Hh; exact Dc|]. split; auto. split; auto. split; auto.
    split; [intros s0 Hs0; apply Nl; rewrite Ho; exact Hs0|]. exists a. auto.
  - exists (RErr ENOENT), st1. split; [reflexivity|]. split; auto. split; auto. split; auto. split; auto. intros _. exists a. split; auto. split; auto.
    intros _ _ X. destruct (Ok1 eq_refl) as [Y|Y]; [discriminate|].
    apply in_map_iff in X. destruct X as (c & Ec & Hc). rewrite <- (loaded_all store a (length (as_lists s))) in Hc by lia.
    destruct (ao_has _ _ _ _ A' c Hc) as [p' Hp']. rewrite Ec in Hp'. congruence.
Qed.

Lemma get_or_create_next st q p i st' : get_or_create alloc st q p = Ok (i, st') -> st_next st' = st_next st.
Proof.
  unfold get_or_create. destruct (mget (st_map st) p).
  - destruct (get_inode st i0); cbn [bind]; try discriminate. intros E; inversion E. unfold set_inode. destruct (i =? root_ino); reflexivity.
  - destruct (asset_init (st_heap st) q p); cbn [bind]; try discriminate. destruct (get_inode st q); cbn [bind]; try discriminate.
    intros E; inversion E. unfold set_inode. destruct (q =? root_ino); reflexivity.
Qed.

(** The names, types and numbers in a directory listing. *)
Lemma entries_ok st root q r ps : Inv st root -> live st q r -> is_valid r = true ->
  (exists a, get_proto (st_heap st) (i_asset r) = Ok a /\ ap_type a = TDir) ->
  (forall p, In p ps -> exists n, lk_get (as_lookup (i_asset r)) n = Some p) ->
  exists l st', dir_entries alloc st q ps = Ok (l, st') /\ Inv st' root /\ evolves st st' /\ (st_next st <= st_next st')%nat /\
    Forall2 (fun p e => exists a, deref (st_heap st) p = Some a /\ fst (fst e) = ap_name a /\ snd e = get_mode a) ps l.
Proof.
  revert st r. induction ps as [|p ps IH]; intros st r I [G L] V TD H.
  - exists [], st. split; auto. split; auto. split; [apply evolves_refl|]. auto.
  - destruct (H p (or_introl eq_refl)) as [n LK]. cbn [dir_entries].
    destruct (get_or_create_ok st root q r n p I G V L LK TD) as (i & st2 & ri & C1 & I2 & E2 & Hi & Oi & Vi & Ni & Pi & Pp & (r' & Gq & Aq) & Hh2 & Nl & Oth).
    rewrite C1. cbn [bind]. destruct (obj_inode st2 i ri (proj1 I2) Oi) as [Gi _]. rewrite Gi. cbn [bind]. rewrite Vi. cbn [negb].
    destruct (valid_asset st root q r I G V L) as (a & A & _).
    destruct (ao_ptr _ _ _ _ A n p LK) as (c & Dc & Nc & Hc).
    rewrite Hh2, Dc. cbn [bind]. unfold get_proto. rewrite Pp, Dc. cbn [bind].
    destruct (ev_inode _ _ E2 q r G) as (r'' & G'' & _ & Pq & Vq & _). rewrite Gq in G''. inversion G''; subst r''. 
    assert (Lq : q <> root_ino -> livb r' = true).
    { intros Hq. destruct (t_live _ _ _ (proj1 I2) q r' (inode_obj _ _ _ Hq Gq)) as [X|[]]; auto. congruence. }
    destruct (IH st2 r' I2 (conj Gq Lq)) as (l & st3 & D3 & I3 & E3 & N3 & F3).
    + congruence.
    + rewrite Aq, Hh2. exact TD.
    + rewrite Aq. intros p' Hp'. apply H. now right.
    + rewrite D3. cbn [bind]. exists ((ap_name c, i, get_mode c) :: l), st3. split; auto. split; auto.
      pose proof (get_or_create_next _ _ _ _ _ C1) as Nx.
      split; [eapply evolves_trans; eauto; lia|]. split; [lia|]. constructor.
      * exists c. auto.
      * rewrite Hh2 in F3. exact F3.
Qed.

Lemma listed_assets h lk l : (forall n q, In (n, q) lk -> exists c, deref h q = Some c /\ ap_name c = n) ->
  Forall2 (fun p (e : bytes * ino * N) => exists a, deref h p = Some a /\ fst (fst e) = ap_name a /\ snd e = get_mode a) (map snd lk) l ->
  exists cs, Forall2 (fun (e : bytes * ino * N) c => fst (fst e) = ap_name c /\ snd e = get_mode c) l cs /\
    map ap_name cs = map fst lk /\ forall c, In c cs <-> exists n q, In (n, q) lk /\ deref h q = Some c.
Proof.
  revert l. induction lk as [|[n q] lk IH]; intros l H F2; cbn [map] in *; inversion F2; subst.
  - exists []. split; auto. split; auto. intros c. split; [intros []|]. intros (n & q & [] & _).
  - destruct (IH l') as (cs & X1 & X2 & X3); auto. { intros; apply H; now right. }
    destruct (H n q (or_introl eq_refl)) as (c & D & Nc). destruct H2 as (a & D' & E1 & E2). cbn in D'. assert (a = c) by congruence. subst a.
    exists (c :: cs). split; [constructor; auto|]. split; [cbn; congruence|]. intros x. cbn [In]. rewrite X3. split.
    + intros [<-|(m & p & Y1 & Y2)]; [exists n, q; auto|exists m, p; auto].
    + intros (m & p & [Y|Y] & Y2); [inversion Y; subst; left; congruence|right; eauto].
Qed.

Lemma readdir_ok st root q r : Inv st root -> live st q r ->
  exists rep st', do_readdir fetch alloc st q = Ok (rep, st') /\ Inv st' root /\ evolves st st' /\ (st_next st <= st_next st')%nat /\
    match rep with
    | RDir l => is_valid r = true /\ exists a l', get_proto (st_heap st) (i_asset r) = Ok a /\ ap_type a = TDir /\
        (exists e1 e2, l = e1 :: e2 :: l' /\ fst (fst e1) = [46] /\ fst (fst e2) = [46; 46]) /\
        exists cs, Permutation cs (dir_children store a) /\
          Forall2 (fun (e : bytes * ino * N) c => fst (fst e) = ap_name c /\ snd e = get_mode c) l' cs
    | RErr e => (is_valid r = false /\ e = ENOENT) \/ (is_valid r = true /\ exists a, get_proto (st_heap st) (i_asset r) = Ok a /\
        ((e = ENOTDIR /\ ap_type a <> TDir) \/ (e = EBADF /\ ap_type a = TDir /\ exists id, In id (ap_ind a) /\ fetch id = None)))
    | _ => False
    end.
Proof.
  intros I [G L]. unfold do_readdir. rewrite G. cbn [bind]. destruct (is_valid r) eqn:V; cbn [negb].
  2:{ exists (RErr ENOENT), st. split; auto. split; auto. split; [apply evolves_refl|]. split; auto. }
  assert (PR : exists pr, live st (parent r) pr /\ is_valid pr = true).
  { destruct (N.eq_dec q root_ino) as [->|Hq].
    - rewrite get_inode_root in G. inversion G; subst r. rewrite (m_root_parent _ _ _ (proj2 I)). exists (st_root st). split; auto. split; auto.
    - eapply live_valid_parent; eauto. now apply inode_obj with (i := q). }
  destruct PR as (pr & [Gp Lp] & Vp). fold (parent r). rewrite Gp. cbn [bind]. rewrite Vp. cbn [negb].
  destruct (valid_proto st root q r I G V L) as (a & pq & GP & P & D & A & B & Ri & Rn). rewrite GP. cbn [bind].
  destruct (atype_eqb (ap_type a) TDir) eqn:TD; cbn [negb].
  2:{ exists (RErr ENOTDIR), st. split; auto. split; auto. split; [apply evolves_refl|]. split; auto. right. split; auto. exists a. split; auto.
      left. split; auto. intros X. rewrite X in TD. discriminate. }
  pose proof TD as TD'. apply atype_eqb_iff in TD.
  destruct (valid_proto st root _ pr I Gp Vp Lp) as (ap & pp & GPp & _). rewrite GPp. cbn [bind].
  unfold asset_children. rewrite GP. cbn [bind]. rewrite TD'.
  match goal with |- context [load fetch ?x ?y ?z ?u ?v] => destruct (load fetch x y z u v) as [[[ok h] nx] s] eqn:LD end.
  destruct (load_store st root q r a _ I G V L GP ok h nx s LD) as (I' & E' & G' & Hh & Hn & Go & Hm & LT & A' & Ho & Ok1 & Ok2).
  set (st1 := stored st q r h nx s) in *.
  assert (Ln : (st_next st <= st_next st1)%nat) by (rewrite Hn; apply LT).
  cbn [bind]. change (set_inode (with_mem st h nx) q (with_asset r s)) with st1.
  destruct ok.
  2:{ exists (RErr EBADF), st1. split; [reflexivity|]. split; auto. split; auto. split; auto. right. split; auto. exists a. split; auto. right.
      split; auto. split; auto. apply (Ok2 eq_refl). }
  assert (TD1 : exists a', get_proto (st_heap st1) (i_asset (with_asset r s)) = Ok a' /\ ap_type a' = TDir).
  { exists a. split; auto. unfold get_proto. cbn [with_asset i_asset]. destruct LT as (_ & L2 & _ & K & _). rewrite L2, P.
      rewrite Hh, (deref_keeps _ _ _ _ _ (m_fresh _ _ _ (proj2 I)) K D). reflexivity. }
  destruct (entries_ok st1 root q (with_asset r s) (map snd (as_lookup s)) I' (conj G' L) V TD1) as (l & st2 & D2 & I2 & E2 & N2 & F2).
  { intros p Hp. apply in_map_iff in Hp. destruct Hp as ([n p'] & E & Hp). cbn in E. subst p'. exists n.
    apply lk_in_get; auto. apply (ao_nodup _ _ _ _ A'). }
  rewrite D2. cbn [bind]. eexists; exists st2. split; [reflexivity|]. split; auto. split; [eapply evolves_trans; eauto|]. split; [lia|].
  cbv iota beta. split; auto. exists a, l. split; auto. split; auto. split; [eauto 8|].
  destruct (listed_assets h (as_lookup s) l) as (cs & C1 & C2 & C3); [|rewrite <- Hh; exact F2|].
  { intros n p Hp. apply (lk_in_get _ _ _ (ao_nodup _ _ _ _ A')) in Hp.
    destruct (ao_ptr _ _ _ _ A' n p Hp) as (c & X & Y & _). eauto. }
  exists cs. split; auto. destruct (Ok1 eq_refl) as [Y|Y]; [discriminate|].
  pose proof (loaded_all store a (length (as_lists s)) ltac:(lia)) as La.
  pose proof (m_unique _ _ _ (proj2 I) a B) as Un.
  apply NoDup_Permutation.
  { apply (NoDup_map_inv ap_name). rewrite C2. apply (ao_nodup _ _ _ _ A'). }
  { apply (NoDup_map_inv ap_name). exact Un. }
  intros c. rewrite C3. split.
  - intros (n & p & Hp & Dp). apply (lk_in_get _ _ _ (ao_nodup _ _ _ _ A')) in Hp. destruct (ao_ptr _ _ _ _ A' n p Hp) as (c' & X & _ & Z). rewrite La in Z. congruence.
  - intros Z. rewrite <- La in Z. destruct (ao_has _ _ _ _ A' c Z) as [p Hp]. exists (ap_name c), p. split; [now apply lk_get_in|].
    destruct (ao_ptr _ _ _ _ A' _ p Hp) as (c' & X & X2 & Z'). rewrite La in Z, Z'. rewrite X. f_equal. eapply name_unique; eauto.
Qed.

(** Changing the state of a valid inode. *)
Lemma set_state_ok st root i r s' : Inv st root -> get_inode st i = Ok r -> is_valid r = true -> s' <> SInvalid ->
  Inv (set_inode st i (with_state r s')) root /\ evolves st (set_inode st i (with_state r s')).
Proof.
  intros [T M] G V Hs. set (st' := set_inode st i (with_state r s')).
  assert (Vs : is_valid (with_state r s') = true) by (unfold is_valid; cbn; destruct s'; auto; congruence).
  assert (G' : forall j, get_inode st' j = if j =? i then Ok (with_state r s') else get_inode st j) by (intros j; unfold st'; rewrite get_set, G; reflexivity).
  assert (F' : st_heap st' = st_heap st /\ st_next st' = st_next st /\ st_manifest st' = st_manifest st /\ st_map st' = st_map st /\ st_invalid st' = st_invalid st).
  { unfold st', set_inode. destruct (i =? root_ino); auto. }
  destruct F' as (Fh & Fn & Fm & Fp & Fi).
  assert (GI : forall j q, get_inode st j = Ok q -> exists q', get_inode st' j = Ok q' /\ i_asset q' = i_asset q /\ is_valid q' = is_valid q /\ i_nlookup q' = i_nlookup q /\ i_children q' = i_children q).
  { intros j q Gj. rewrite G'. destruct (N.eqb_spec j i) as [->|Hj]; [|eauto 7]. rewrite G in Gj. inversion Gj; subst q.
    eexists; split; [reflexivity|]. rewrite Vs, V. auto. }
  assert (IG : forall j q', get_inode st' j = Ok q' -> exists q, get_inode st j = Ok q /\ i_asset q' = i_asset q /\ is_valid q' = is_valid q /\ i_nlookup q' = i_nlookup q /\ i_children q' = i_children q).
  { intros j q'. rewrite G'. destruct (N.eqb_spec j i) as [->|Hj]; [|eauto 7]. intros X. inversion X; subst q'. exists r. rewrite Vs, V. auto. }
  assert (K : map fst (st_objs st') = map fst (st_objs st)).
  { unfold st', set_inode. destruct (i =? root_ino); auto. cbn [st_objs with_tables]. apply oset_keys. }
  assert (NR : forall j r0, oget (st_objs st') j = Some r0 -> j <> root_ino).
  { intros j r0 O ->. apply (t_noroot _ _ _ T). rewrite <- K. apply oget_key. eauto. }
  assert (OB : forall j q', oget (st_objs st') j = Some q' -> exists q, oget (st_objs st) j = Some q /\ i_asset q' = i_asset q /\ is_valid q' = is_valid q /\ i_nlookup q' = i_nlookup q /\ i_children q' = i_children q).
  { intros j q' O. pose proof (NR _ _ O) as Hj. destruct (IG j q') as (q & Gq & X); [rewrite get_inode_obj, O by exact Hj; reflexivity|].
    exists q. split; auto. apply inode_obj; auto. }
  assert (BO : forall j q, oget (st_objs st) j = Some q -> exists q', oget (st_objs st') j = Some q' /\ i_asset q' = i_asset q /\ is_valid q' = is_valid q).
  { intros j q O. destruct (obj_inode st j q T O) as [Gj Hj]. destruct (GI j q Gj) as (q' & Gq & X & Y & _). exists q'. split; auto. apply inode_obj; auto. }
  assert (LV : forall q q', i_nlookup q' = i_nlookup q -> i_children q' = i_children q -> livb q' = livb q) by (intros q q' E1 E2; unfold livb; now rewrite E1, E2).
  assert (KD : forall x, kids (st_objs st') x = kids (st_objs st) x).
  { intros x. unfold st', set_inode. destruct (N.eqb_spec i root_ino) as [E|E]; cbn [st_objs with_tables]; auto.
    pose proof (kids_oset (st_objs st) i r (with_state r s') x (t_nodup _ _ _ T) (inode_obj _ _ _ E G)) as X.
    change (livb (with_state r s')) with (livb r) in X. change (parent (with_state r s')) with (parent r) in X. lia. }
  assert (EV : evolves st st').
  { split; auto.
    - rewrite Fh. apply keeps_refl.
    - intros j q Gj. destruct (GI j q Gj) as (q' & Gq & X & Y & Z & _). exists q'. unfold parent. rewrite X. repeat (split; auto). lia.
    - intros j q' Gj Vj. destruct (IG j q' Gj) as (q & Gq & X & Y & Z & _). exists q. split; auto. congruence. }
  split; [|exact EV]. split.
  - split; rewrite ?K, ?Fp, ?Fi; try apply T.
    + unfold st', set_inode. destruct (N.eqb_spec i root_ino) as [E|E]; cbn [st_objs with_tables]; [apply T|].
      apply (ordered_oset (st_objs st) i r); auto using inode_obj; apply T.
    + intros j q' Gj. destruct (IG j q' Gj) as (q & Gq & _ & _ & _ & X). rewrite X, KD. apply (t_count _ _ _ T j q Gq).
    + intros p j. rewrite (t_map _ _ _ T). split; intros (q & O & Vq & Pq).
      * destruct (BO _ _ O) as (q' & O' & X & Y). exists q'. split; auto. split; congruence.
      * destruct (OB _ _ O) as (q' & O' & X & Y & _). exists q'. split; auto. split; congruence.
    + intros j. rewrite (t_invalid _ _ _ T). split; intros (q & O & Vq).
      * destruct (BO _ _ O) as (q' & O' & X & Y). exists q'. split; auto. congruence.
      * destruct (OB _ _ O) as (q' & O' & X & Y & _). exists q'. split; auto. congruence.
    + intros j q' O Vq. destruct (OB _ _ O) as (q & O' & X & Y & _). rewrite X. apply (t_proto _ _ _ T j q O'). congruence.
    + intros j q' O Vq. destruct (OB _ _ O) as (q & O' & X & Y & _). unfold parent. rewrite X. apply (t_dead _ _ _ T j q O'). congruence.
    + intros j q' O Vq. destruct (OB _ _ O) as (q & O' & X & Y & E1 & E2). rewrite (LV _ _ E1 E2). apply (t_live _ _ _ T j q O'). congruence.
  - assert (RT : exists q', st_root st' = q' /\ i_asset q' = i_asset (st_root st) /\ is_valid q' = is_valid (st_root st)).
    { destruct (GI root_ino _ (get_inode_root st)) as (q' & Gq & X & Y & _). rewrite get_inode_root in Gq. inversion Gq. eauto. }
    destruct RT as (q' & RT & RA & RV). rewrite <- RT in *. 
    destruct M as [M1 M2 M3 M4 M5 M6 M7 M8 M9 M10 M11 M12].
    split; rewrite ?Fh, ?Fn, ?Fm, ?RA, ?RV; auto.
    + unfold parent. rewrite RA. exact M2.
    + intros j q O. destruct (OB _ _ O) as (q0 & O' & X & _). rewrite X. eauto.
    + intros j q O Vq Lq. destruct (OB _ _ O) as (q0 & O' & X & Y & E1 & E2). rewrite X. apply (M11 j q0 O'); [congruence|]. rewrite <- (LV _ _ E1 E2). exact Lq.
    + intros j q O Vq Lq. destruct (OB _ _ O) as (q0 & O' & X & Y & E1 & E2).
      destruct (M12 j q0 O') as (pr & p & n & a & H1 & H2 & H3 & H4 & H5); [congruence|rewrite <- (LV _ _ E1 E2); exact Lq|].
      destruct (GI _ _ H1) as (pr' & Gp & Xp & Yp & _). exists pr', p, n, a. unfold parent. rewrite X, Xp. split; auto. split; [congruence|]. auto.
Qed.
End Env.
End Store.
