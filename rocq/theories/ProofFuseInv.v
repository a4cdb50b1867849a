(** The invariant of the mounted file system, and forgetting inodes. *)
From Verif Require Import Base ListX Str ModelFuse SpecFuse ProofFuseMem.
Local Open Scope N_scope.

Definition parent (r : inode) : ino := as_parent (i_asset r).
Definition livb (r : inode) : bool := 0 <? i_nlookup r + i_children r.
Definition b2n (b : bool) : N := if b then 1 else 0.

Fixpoint kids (l : list (ino * inode)) (q : ino) : N :=
  match l with [] => 0 | (_, r) :: l' => b2n (livb r && (parent r =? q)) + kids l' q end.
Fixpoint ordered (l : list (ino * inode)) : Prop :=
  match l with
  | [] => True
  | (_, r) :: l' => (livb r = true -> parent r = root_ino \/ In (parent r) (map fst l')) /\ ordered l'
  end.

(** * Tables *)
Lemma oget_in l i r : oget l i = Some r -> In (i, r) l.
Proof.
  induction l as [|[j q] l IH]; cbn; [discriminate|]. destruct (N.eqb_spec i j); [intros E; inversion E; subst; auto|auto].
Qed.
Lemma oget_key l i : In i (map fst l) <-> exists r, oget l i = Some r.
Proof.
  split.
  - induction l as [|[j q] l IH]; cbn; [contradiction|]. destruct (N.eqb_spec i j); eauto. intros [->|H]; [congruence|auto].
  - intros [r H]. apply oget_in in H. change i with (fst (i, r)). now apply in_map.
Qed.
Lemma oget_none l i : oget l i = None <-> ~ In i (map fst l).
Proof.
  rewrite oget_key. destruct (oget l i); split; try congruence; intros H.
  - exfalso. apply H. eauto.
  - intros [r E]. discriminate.
Qed.
Lemma in_oget l i r : NoDup (map fst l) -> In (i, r) l -> oget l i = Some r.
Proof.
  induction l as [|[j q] l IH]; cbn; [contradiction|]. intros N. inversion N as [|x y Hx Hy]; subst.
  intros [E|H]; [inversion E; subst; now rewrite N.eqb_refl|].
  destruct (N.eqb_spec i j); auto. subst. exfalso. apply Hx. change j with (fst (j, r)). now apply in_map.
Qed.
Lemma oset_keys l i r : map fst (oset l i r) = map fst l.
Proof. induction l as [|[j q] l IH]; cbn; auto. destruct (i =? j); cbn; congruence. Qed.
Lemma oget_oset l i r j : oget (oset l i r) j = if j =? i then (match oget l i with Some _ => Some r | None => None end) else oget l j.
Proof.
  induction l as [|[k q] l IH]; cbn; [now destruct (j =? i)|].
  destruct (N.eqb_spec i k); cbn.
  - subst k. destruct (N.eqb_spec j i); auto.
  - rewrite IH. destruct (N.eqb_spec j k), (N.eqb_spec j i); try congruence; auto.
Qed.
Lemma kids_oset l i r r' q : NoDup (map fst l) -> oget l i = Some r ->
  kids (oset l i r') q + b2n (livb r && (parent r =? q)) = kids l q + b2n (livb r' && (parent r' =? q)).
Proof.
  induction l as [|[k s] l IH]; cbn [oget oset map fst]; [discriminate|]. intros N. inversion N as [|x y Hx Hy]; subst.
  destruct (N.eqb_spec i k); cbn [kids].
  - intros E. inversion E; subst. lia.
  - intros E. specialize (IH Hy E). lia.
Qed.
Lemma ordered_oset l i r r' : NoDup (map fst l) -> oget l i = Some r -> parent r' = parent r -> (livb r' = true -> livb r = true) ->
  ordered l -> ordered (oset l i r').
Proof.
  induction l as [|[k s] l IH]; cbn; [discriminate|]. intros N. inversion N as [|x y Hx Hy]; subst.
  destruct (N.eqb_spec i k); cbn.
  - intros E P L [H1 H2]. inversion E; subst. rewrite P. auto.
  - intros E P L [H1 H2]. rewrite oset_keys. auto.
Qed.
Lemma ordered_parent l i r : ordered l -> oget l i = Some r -> livb r = true -> parent r = root_ino \/ In (parent r) (map fst l).
Proof.
  induction l as [|[k s] l IH]; cbn; [discriminate|]. intros [H1 H2]. destruct (N.eqb_spec i k).
  - intros E; inversion E; subst. intros L. destruct (H1 L); auto.
  - intros E L. destruct (IH H2 E L); auto.
Qed.
Lemma kids_pos l i r : oget l i = Some r -> livb r = true -> 0 < kids l (parent r).
Proof.
  induction l as [|[k s] l IH]; cbn; [discriminate|]. destruct (N.eqb_spec i k).
  - intros E L; inversion E; subst. rewrite L, N.eqb_refl. cbn [andb b2n]. lia.
  - intros E L. specialize (IH E L). lia.
Qed.
Lemma kids_zero l i r q : kids l q = 0 -> oget l i = Some r -> livb r = true -> parent r <> q.
Proof. intros K E L X. subst. pose proof (kids_pos _ _ _ E L). lia. Qed.

Lemma mget_in m p i : mget m p = Some i -> In (p, i) m.
Proof.
  induction m as [|[q j] m IH]; cbn; [discriminate|]. destruct (ptr_eqb p q) eqn:E; [|auto].
  apply ptr_eqb_iff in E. intros X; inversion X; subst. auto.
Qed.
Lemma in_mget m p i : NoDup (map fst m) -> In (p, i) m -> mget m p = Some i.
Proof.
  induction m as [|[q j] m IH]; cbn; [contradiction|]. intros N. inversion N as [|x y Hx Hy]; subst.
  intros [E|H]; [inversion E; subst; now rewrite ptr_eqb_refl|].
  rewrite ptr_eqb_neq; auto. intros ->. apply Hx. change q with (fst (q, i)). now apply in_map.
Qed.
Lemma mget_mdel m p q : mget (mdel m p) q = if ptr_eqb q p then None else mget m q.
Proof.
  unfold mdel. induction m as [|[k j] m IH]; cbn; [now destruct (ptr_eqb q p)|].
  destruct (ptr_eqb p k) eqn:E; cbn.
  - apply ptr_eqb_iff in E. subst k. rewrite IH. destruct (ptr_eqb q p); auto.
  - rewrite IH. destruct (ptr_eqb q k) eqn:F; auto. apply ptr_eqb_iff in F. subst k.
    destruct (ptr_eqb q p) eqn:G; auto. apply ptr_eqb_iff in G. subst. rewrite ptr_eqb_refl in E. discriminate.
Qed.
Lemma mdel_nodup m p : NoDup (map fst m) -> NoDup (map fst (mdel m p)).
Proof.
  unfold mdel. induction m as [|[k j] m IH]; cbn; auto. intros N. inversion N as [|x y Hx Hy]; subst.
  destruct (negb (ptr_eqb p k)); cbn; auto. constructor; auto.
  intros X. apply Hx. apply in_map_iff in X. destruct X as ([k' j'] & E & X). cbn in E. subst.
  apply filter_In in X. change k with (fst (k, j')). apply in_map. tauto.
Qed.
Lemma mdel_in m p e : In e (mdel m p) -> In e m /\ fst e <> p.
Proof.
  unfold mdel. intros H. apply filter_In in H. destruct H as [H E]. split; auto. intros <-.
  rewrite ptr_eqb_refl in E. discriminate.
Qed.

Lemma get_inode_root st : get_inode st root_ino = Ok (st_root st).
Proof. reflexivity. Qed.
Lemma get_inode_obj st i : i <> root_ino -> get_inode st i = match oget (st_objs st) i with Some r => Ok r | None => UB end.
Proof. intros H. unfold get_inode. destruct (N.eqb_spec i root_ino); congruence. Qed.
Lemma get_set st i r j : get_inode (set_inode st i r) j =
  if j =? i then (match get_inode st i with Ok _ => Ok r | x => x end) else get_inode st j.
Proof.
  unfold get_inode, set_inode. destruct (N.eqb_spec i root_ino) as [Hi|Hi]; cbn [st_root st_objs with_tables].
  - subst. destruct (N.eqb_spec j root_ino); auto.
  - destruct (N.eqb_spec j root_ino) as [Hj|Hj].
    + destruct (N.eqb_spec j i); [congruence|auto].
    + rewrite oget_oset. destruct (N.eqb_spec j i); auto. destruct (oget (st_objs st) i); auto.
Qed.

(** * The invariant *)
Section Store.
Variable store : cid -> option (list aproto).

(** Memory: every valid inode describes an asset of the current manifest. *)
Record mem_ok (st : state) (root : aproto) : Prop := {
  m_root_proto : as_proto (i_asset (st_root st)) = Some (mkptr (st_manifest st) 0 []);
  m_root_parent : parent (st_root st) = root_ino;
  m_root_valid : is_valid (st_root st) = true;
  m_manifest : hget (st_heap st) (st_manifest st) = Some [root];
  m_unique : names_unique store root;
  m_large : only_root_is_large store root;
  m_fresh : heap_below (st_heap st) (st_next st);
  m_lists : ~ In (st_manifest st) (as_lists (i_asset (st_root st))) /\ Forall (fun x => (x < st_next st)%nat) (as_lists (i_asset (st_root st)));
  m_flat : forall i r, oget (st_objs st) i = Some r -> as_lists (i_asset r) = [];
  m_root_asset : asset_ok store (st_heap st) (i_asset (st_root st)) root;
  m_asset : forall i r, oget (st_objs st) i = Some r -> is_valid r = true -> livb r = true ->
      exists a c, In c (dir_children store root) /\ below store c a /\ asset_ok store (st_heap st) (i_asset r) a;
  m_child : forall i r, oget (st_objs st) i = Some r -> is_valid r = true -> livb r = true ->
      exists pr p n a, get_inode st (parent r) = Ok pr /\ is_valid pr = true /\ as_proto (i_asset r) = Some p /\
        lk_get (as_lookup (i_asset pr)) n = Some p /\ get_proto (st_heap st) (i_asset pr) = Ok a /\ ap_type a = TDir
}.

(** Tables: [D] are inodes about to be destroyed, [pend] has one child too many. *)
Record tab_ok (D : list ino) (pend : option ino) (st : state) : Prop := {
  t_nodup : NoDup (map fst (st_objs st));
  t_noroot : ~ In root_ino (map fst (st_objs st));
  t_ordered : ordered (st_objs st);
  t_count : forall i r, get_inode st i = Ok r ->
      i_children r = kids (st_objs st) i + b2n (match pend with Some q => q =? i | None => false end);
  t_map : forall p i, mget (st_map st) p = Some i <->
      exists r, oget (st_objs st) i = Some r /\ is_valid r = true /\ as_proto (i_asset r) = Some p;
  t_mapnd : NoDup (map fst (st_map st));
  t_invalid : forall i, In i (st_invalid st) <-> exists r, oget (st_objs st) i = Some r /\ is_valid r = false;
  t_proto : forall i r, oget (st_objs st) i = Some r -> is_valid r = true -> exists p, as_proto (i_asset r) = Some p;
  t_dead : forall i r, oget (st_objs st) i = Some r -> is_valid r = false -> i_asset r = mkasset (parent r) None [] [];
  t_live : forall i r, oget (st_objs st) i = Some r -> is_valid r = true -> livb r = true \/ In i D
}.

Definition Inv (st : state) (root : aproto) : Prop := tab_ok [] None st /\ mem_ok st root.

Lemma set_obj st i r : i <> root_ino -> set_inode st i r = with_tables st (oset (st_objs st) i r) (st_map st) (st_invalid st).
Proof. intros H. unfold set_inode. destruct (N.eqb_spec i root_ino); congruence. Qed.

(** Changing the counters of an inode that stays live (or becomes dead). *)
Definition recount (r : inode) (nl ch : N) : inode := mkinode (i_asset r) nl ch (i_state r).

Lemma mem_recount st root i r nl ch :
  tab_ok [] None st \/ True -> mem_ok st root -> get_inode st i = Ok r -> NoDup (map fst (st_objs st)) ->
  (i <> root_ino -> livb (recount r nl ch) = true -> livb r = true) ->
  mem_ok (set_inode st i (recount r nl ch)) root.
Proof.
  intros _ M G ND L.
  assert (GP : forall j q, get_inode st j = Ok q -> exists q', get_inode (set_inode st i (recount r nl ch)) j = Ok q' /\
                i_asset q' = i_asset q /\ i_state q' = i_state q).
  { intros j q E. rewrite get_set. destruct (N.eqb_spec j i).
    - subst. rewrite G. rewrite G in E. inversion E; subst. exists (recount q nl ch). auto.
    - exists q. auto. }
  destruct (N.eq_dec i root_ino) as [Hi|Hi].
  - subst. rewrite get_inode_root in G. inversion G; subst r.
    unfold set_inode. rewrite N.eqb_refl.
    destruct M as [M1 M2 M3 M4 M5 M6 M7 M8 M9 M10 M11 M12]. split; cbn [st_root st_manifest st_heap st_next st_objs recount i_asset]; auto.
    intros j q E V Lq. destruct (M12 j q E V Lq) as (pr & p & n & a & H1 & H2 & H3).
    destruct (GP _ _ H1) as (pr' & H1' & Ea & Es). exists pr', p, n, a. split; [|rewrite Ea; split; auto; unfold is_valid; rewrite Es; exact H2].
    unfold set_inode in H1'. rewrite N.eqb_refl in H1'. exact H1'.
  - rewrite get_inode_obj in G by exact Hi. destruct (oget (st_objs st) i) as [r0|] eqn:O; [|discriminate]. inversion G; subst r0.
    assert (OB : forall j q', oget (st_objs (set_inode st i (recount r nl ch))) j = Some q' ->
                 exists q, oget (st_objs st) j = Some q /\ i_asset q' = i_asset q /\ i_state q' = i_state q /\ (livb q' = true -> livb q = true)).
    { intros j q'. rewrite set_obj by exact Hi. cbn [st_objs with_tables]. rewrite oget_oset, O. destruct (N.eqb_spec j i).
      - intros E. inversion E; subst. exists r. auto.
      - intros E. exists q'. auto. }
    destruct M as [M1 M2 M3 M4 M5 M6 M7 M8 M9 M10 M11 M12].
    assert (RT : st_root (set_inode st i (recount r nl ch)) = st_root st) by (rewrite set_obj by exact Hi; reflexivity).
    assert (HP : st_heap (set_inode st i (recount r nl ch)) = st_heap st) by (rewrite set_obj by exact Hi; reflexivity).
    assert (MF : st_manifest (set_inode st i (recount r nl ch)) = st_manifest st) by (rewrite set_obj by exact Hi; reflexivity).
    assert (NX : st_next (set_inode st i (recount r nl ch)) = st_next st) by (rewrite set_obj by exact Hi; reflexivity).
    split; rewrite ?RT, ?HP, ?MF, ?NX; auto.
    + intros j q' E. destruct (OB _ _ E) as (q & E1 & E2 & _). rewrite E2. eauto.
    + intros j q' E V Lq. destruct (OB _ _ E) as (q & E1 & E2 & E3 & E4). rewrite E2. apply (M11 j q); auto.
      unfold is_valid in *. rewrite <- E3. exact V.
    + intros j q' E V Lq. destruct (OB _ _ E) as (q & E1 & E2 & E3 & E4).
      assert (V' : is_valid q = true) by (unfold is_valid in *; rewrite <- E3; exact V).
      destruct (M12 j q E1 V' (E4 Lq)) as (pr & p & n & a & H1 & H2 & H3 & H4 & H5 & H6).
      destruct (GP _ _ H1) as (pr' & H1' & Ea & Es).
      exists pr', p, n, a. unfold parent. rewrite E2, Ea. fold (parent q). split; [exact H1'|].
      split; [unfold is_valid; rewrite Es; exact H2|]. auto.
Qed.

Lemma recount_asset r nl ch : i_asset (recount r nl ch) = i_asset r.
Proof. reflexivity. Qed.
Lemma recount_valid r nl ch : is_valid (recount r nl ch) = is_valid r.
Proof. reflexivity. Qed.
Lemma recount_parent r nl ch : parent (recount r nl ch) = parent r.
Proof. reflexivity. Qed.

Lemma ordered_before l k1 q k2 r : ordered l -> NoDup (map fst l) -> map fst l = k1 ++ q :: k2 -> oget l q = Some r -> livb r = true ->
  parent r = root_ino \/ In (parent r) k2.
Proof.
  revert k1. induction l as [|[j s] l IH]; intros k1 O N E G L; [destruct k1; discriminate|].
  cbn in O, N, E, G. destruct O as [O1 O2]. inversion N as [|x y Nx Ny]; subst.
  destruct k1 as [|b k1]; cbn in E; inversion E; subst.
  - rewrite N.eqb_refl in G. inversion G; subst. auto.
  - destruct (N.eqb_spec q b) as [->|Hn].
    + exfalso. apply Nx. rewrite H1. apply in_or_app. right. now left.
    + eapply IH; eauto.
Qed.
Lemma ordered_self l q r : ordered l -> NoDup (map fst l) -> ~ In root_ino (map fst l) -> oget l q = Some r -> livb r = true -> parent r <> q.
Proof.
  intros O N R G L E. assert (K : In q (map fst l)) by (apply oget_key; eauto).
  destruct (in_split _ _ K) as (k1 & k2 & Ek). pose proof (ordered_before _ _ _ _ _ O N Ek G L) as H.
  rewrite Ek in N. apply NoDup_remove_2 in N. destruct H as [H|H].
  - rewrite <- E in K. rewrite H in K. contradiction.
  - apply N. apply in_or_app. right. now rewrite E in H.
Qed.

(** The tables after changing the counters of [i]. *)
Lemma tab_set_obj D D' pend pend' st i r r' :
  tab_ok D pend st -> i <> root_ino -> oget (st_objs st) i = Some r ->
  i_asset r' = i_asset r -> i_state r' = i_state r -> (livb r' = true -> livb r = true) ->
  (livb r' = true \/ is_valid r = false \/ In i D') -> incl D D' ->
  (forall q s, get_inode (set_inode st i r') q = Ok s ->
     i_children s = kids (oset (st_objs st) i r') q + b2n (match pend' with Some x => x =? q | None => false end)) ->
  tab_ok D' pend' (set_inode st i r').
Proof.
  intros T Hi G Ea Es L LD I C. pose proof (set_obj st i r' Hi) as SO.
  assert (OB : forall j q', oget (st_objs (set_inode st i r')) j = Some q' ->
                 exists q, oget (st_objs st) j = Some q /\ i_asset q' = i_asset q /\ is_valid q' = is_valid q /\ parent q' = parent q).
  { intros j q'. rewrite SO. cbn [st_objs with_tables]. rewrite oget_oset, G. destruct (N.eqb_spec j i).
    - intros E. inversion E; subst. exists r. unfold is_valid, parent. rewrite Ea, Es. auto.
    - intros E. exists q'. auto. }
  assert (BO : forall j q, oget (st_objs st) j = Some q ->
                 exists q', oget (st_objs (set_inode st i r')) j = Some q' /\ i_asset q' = i_asset q /\ is_valid q' = is_valid q).
  { intros j q. rewrite SO. cbn [st_objs with_tables]. rewrite oget_oset, G. destruct (N.eqb_spec j i).
    - intros E. subst. rewrite G in E. inversion E; subst. exists r'. unfold is_valid. rewrite Es. auto.
    - intros E. exists q. auto. }
  destruct T as [T1 T2 T3 T4 T5 T6 T7 T8 T9 T10].
  split.
  - rewrite SO. cbn. rewrite oset_keys. exact T1.
  - rewrite SO. cbn. rewrite oset_keys. exact T2.
  - rewrite SO. cbn. eapply ordered_oset; eauto. unfold parent. now rewrite Ea.
  - intros q s E. specialize (C q s E). rewrite SO. exact C.
  - intros p j. replace (st_map (set_inode st i r')) with (st_map st) by (now rewrite SO).
    rewrite T5. split; intros (q & E & V & P).
    + destruct (BO _ _ E) as (q' & E' & A & V'). exists q'. rewrite A, V'. auto.
    + destruct (OB _ _ E) as (q' & E' & A & V' & _). exists q'. rewrite <- A, <- V'. auto.
  - rewrite SO. exact T6.
  - intros j. replace (st_invalid (set_inode st i r')) with (st_invalid st) by (now rewrite SO).
    rewrite T7. split; intros (q & E & V).
    + destruct (BO _ _ E) as (q' & E' & A & V'). exists q'. rewrite V'. auto.
    + destruct (OB _ _ E) as (q' & E' & A & V' & _). exists q'. rewrite <- V'. auto.
  - intros j q E V. destruct (OB _ _ E) as (q' & E' & A & V' & _). rewrite A. apply (T8 j); auto. now rewrite <- V'.
  - intros j q E V. destruct (OB _ _ E) as (q' & E' & A & V' & P). rewrite A, P. apply (T9 j); auto. now rewrite <- V'.
  - intros j q E V. rewrite SO in E. cbn [st_objs with_tables] in E. rewrite oget_oset, G in E.
    destruct (N.eqb_spec j i).
    + inversion E; subst. destruct LD as [X|[X|X]]; auto. unfold is_valid in *. rewrite Es in V. congruence.
    + destruct (T10 j q E V); auto.
Qed.

Lemma tab_set_root D pend pend' st r' :
  tab_ok D pend st ->
  (forall q s, get_inode (set_inode st root_ino r') q = Ok s ->
     i_children s = kids (st_objs st) q + b2n (match pend' with Some x => x =? q | None => false end)) ->
  tab_ok D pend' (set_inode st root_ino r').
Proof.
  intros T C. assert (SO : st_objs (set_inode st root_ino r') = st_objs st) by reflexivity.
  assert (SM : st_map (set_inode st root_ino r') = st_map st) by reflexivity.
  assert (SI : st_invalid (set_inode st root_ino r') = st_invalid st) by reflexivity.
  destruct T as [T1 T2 T3 T4 T5 T6 T7 T8 T9 T10]. split; rewrite ?SO, ?SM, ?SI; auto.
Qed.

(** [i] keeps its liveness. *)
Lemma tab_recount D pend pend' st i r nl ch :
  tab_ok D pend st -> get_inode st i = Ok r -> (i <> root_ino -> livb (recount r nl ch) = livb r) ->
  (i <> root_ino -> is_valid r = true -> livb r = true) ->
  ch + b2n (match pend with Some x => x =? i | None => false end) = i_children r + b2n (match pend' with Some x => x =? i | None => false end) ->
  (forall q, q <> i -> match pend' with Some x => x =? q | None => false end = match pend with Some x => x =? q | None => false end) ->
  tab_ok D pend' (set_inode st i (recount r nl ch)).
Proof.
  intros T G L V C P. destruct (N.eq_dec i root_ino) as [Hi|Hi].
  - subst. apply (tab_set_root D pend); auto. intros q s. rewrite get_set, G. destruct (N.eqb_spec q root_ino) as [->|Hq].
    + intros E. inversion E; subst. pose proof (t_count _ _ _ T _ _ G) as C0. cbn [recount i_children]. lia.
    + intros E. rewrite P by exact Hq. apply (t_count _ _ _ T _ _ E).
  - pose proof G as G'. rewrite get_inode_obj in G by exact Hi. destruct (oget (st_objs st) i) as [r0|] eqn:O; [|discriminate]. inversion G; subst r0.
    specialize (L Hi). apply (tab_set_obj D D pend pend' st i r); auto.
    + rewrite L. auto.
    + rewrite L. destruct (livb r) eqn:E; auto. right. left. destruct (is_valid r) eqn:F; auto. specialize (V Hi eq_refl). congruence.
    + apply incl_refl.
    + intros q s. rewrite get_set, G'.
      pose proof (kids_oset (st_objs st) i r (recount r nl ch) q (t_nodup _ _ _ T) O) as K. rewrite recount_parent, L in K.
      destruct (N.eqb_spec q i) as [->|Hq]; intros E.
      * inversion E; subst. pose proof (t_count _ _ _ T _ _ G') as C0. cbn [recount i_children]. lia.
      * rewrite P by exact Hq. pose proof (t_count _ _ _ T _ _ E) as C0. lia.
Qed.

(** [i] dies. *)
Lemma tab_die D pend st i r :
  tab_ok D pend st -> i <> root_ino -> oget (st_objs st) i = Some r -> livb r = true -> kids (st_objs st) i = 0 ->
  (match pend with Some x => x = i | None => True end) ->
  tab_ok (i :: D) (Some (parent r)) (set_inode st i (recount r 0 0)).
Proof.
  intros T Hi O L K P. assert (G : get_inode st i = Ok r) by (rewrite get_inode_obj, O by exact Hi; reflexivity).
  assert (Self : parent r <> i) by (apply (ordered_self (st_objs st)); try exact O; auto; apply T).
  apply (tab_set_obj D (i :: D) pend _ st i r); auto.
  - right. right. now left.
  - apply incl_tl, incl_refl.
  - intros q s. rewrite get_set, G.
    pose proof (kids_oset (st_objs st) i r (recount r 0 0) q (t_nodup _ _ _ T) O) as Kq. rewrite L in Kq.
    replace (livb (recount r 0 0)) with false in Kq by reflexivity. cbn [andb] in Kq. change (b2n false) with 0 in Kq.
    destruct (N.eqb_spec q i) as [->|Hq]; intros E.
    + inversion E; subst. cbn [recount i_children]. destruct (N.eqb_spec (parent r) i); [contradiction|]. unfold b2n in *. lia.
    + pose proof (t_count _ _ _ T _ _ E) as C0.
      assert (PQ : match pend with Some x => x =? q | None => false end = false).
      { destruct pend; auto. subst. apply N.eqb_neq. congruence. }
      rewrite PQ in C0. unfold b2n in *. destruct (parent r =? q); lia.
Qed.

(** * Destroying an inode *)
Definition orem (l : list (ino * inode)) (i : ino) : list (ino * inode) := filter (fun e => negb (fst e =? i)) l.
Lemma oget_orem l i j : oget (orem l i) j = if j =? i then None else oget l j.
Proof.
  unfold orem. induction l as [|[k r] l IH]; cbn [filter oget fst]; [now destruct (j =? i)|].
  destruct (N.eqb_spec k i); cbn [negb oget].
  - subst k. rewrite IH. destruct (j =? i); auto.
  - rewrite IH. destruct (N.eqb_spec j k), (N.eqb_spec j i); try congruence; auto.
Qed.
Lemma orem_keys l i k : In k (map fst (orem l i)) <-> In k (map fst l) /\ k <> i.
Proof.
  rewrite !oget_key. split.
  - intros [r H]. rewrite oget_orem in H. destruct (N.eqb_spec k i); [discriminate|]. eauto.
  - intros [[r H] Hn]. exists r. rewrite oget_orem. destruct (N.eqb_spec k i); [contradiction|exact H].
Qed.
Lemma orem_nodup l i : NoDup (map fst l) -> NoDup (map fst (orem l i)).
Proof.
  unfold orem. induction l as [|[k r] l IH]; cbn [filter map fst]; auto. intros N. inversion N as [|x y Hx Hy]; subst.
  destruct (negb (k =? i)); cbn [map fst]; auto. constructor; auto. intros X. apply Hx.
  apply in_map_iff in X. destruct X as ([k' r'] & E & X). cbn in E. subst. apply filter_In in X.
  change k with (fst (k, r')). apply in_map. tauto.
Qed.
Lemma kids_orem l i q : (forall r, oget l i = Some r -> livb r = false) -> NoDup (map fst l) -> kids (orem l i) q = kids l q.
Proof.
  unfold orem. intros H N. induction l as [|[k r] l IH]; cbn [filter fst kids]; auto.
  cbn [map fst] in N. inversion N as [|x y Hx Hy]; subst.
  destruct (N.eqb_spec k i) as [->|Hn]; cbn [negb kids].
  - rewrite IH; auto.
    + rewrite (H r) by (cbn; now rewrite N.eqb_refl). cbn [andb]. unfold b2n. lia.
    + intros r' Hr. exfalso. apply Hx. apply oget_key. eauto.
  - rewrite IH; auto. intros r' Hr. apply H. cbn. destruct (N.eqb_spec i k); [congruence|exact Hr].
Qed.
Lemma ordered_orem l i : kids l i = 0 -> ordered l -> ordered (orem l i).
Proof.
  unfold orem. induction l as [|[k r] l IH]; cbn [filter fst kids ordered]; auto. intros K [O1 O2].
  assert (K2 : kids l i = 0) by lia. destruct (N.eqb_spec k i) as [->|Hn]; cbn [negb ordered]; auto.
  split; auto. intros L. specialize (O1 L). destruct O1 as [O1|O1]; auto. right.
  apply (orem_keys l i). split; auto. intros E. rewrite L, E, N.eqb_refl in K. cbn [andb b2n] in K. lia.
Qed.

Definition removed (st : state) (i : ino) (m : list (ptr * ino)) (inv : list ino) : state :=
  with_tables st (orem (st_objs st) i) m inv.

(** The conditions under which [i] may be removed. *)
Definition dead (st : state) (i : ino) : Prop := exists r, oget (st_objs st) i = Some r /\ livb r = false.

Lemma collect_removed st i m inv :
  (forall j r, oget (st_objs st) j = Some r -> as_lists (i_asset r) = []) -> NoDup (map fst (st_objs st)) ->
  (forall j, In j (map fst (st_objs st)) -> j <> i -> referenced m inv j = true) -> referenced m inv i = false ->
  collect_objs (with_tables st (st_objs st) m inv) = removed st i m inv.
Proof.
  intros F N R Ri. unfold collect_objs, removed, with_tables. cbn [st_heap st_next st_manifest st_root st_objs st_map st_invalid].
  assert (E1 : filter (fun e => referenced m inv (fst e)) (st_objs st) = orem (st_objs st) i).
  { unfold orem. apply filter_ext_in. intros [j r] H. cbn [fst]. destruct (N.eqb_spec j i); cbn.
    - subst. exact Ri.
    - apply R; auto. change j with (fst (j, r)). now apply in_map. }
  assert (E2 : concat (map (fun e => as_lists (i_asset (snd e))) (filter (fun e => negb (referenced m inv (fst e))) (st_objs st))) = []).
  { assert (X : forall l, (forall e, In e l -> In e (st_objs st)) -> concat (map (fun e : ino * inode => as_lists (i_asset (snd e))) l) = []).
    { induction l as [|[j r] l IH]; cbn; auto. intros H. rewrite (F j r), IH; auto. apply in_oget; auto. }
    apply X. intros e H. apply filter_In in H. tauto. }
  rewrite E1, E2. reflexivity.
Qed.

Lemma removed_ok st root D i r m inv :
  tab_ok (i :: D) None st -> mem_ok st root -> oget (st_objs st) i = Some r -> livb r = false ->
  (forall p j, mget m p = Some j <-> mget (st_map st) p = Some j /\ j <> i) -> NoDup (map fst m) ->
  (forall j, In j inv <-> In j (st_invalid st) /\ j <> i) ->
  tab_ok D None (removed st i m inv) /\ mem_ok (removed st i m inv) root.
Proof.
  intros T M O L Hm Nm Hi.
  assert (Ir : i <> root_ino). { intros ->. apply (t_noroot _ _ _ T). apply oget_key. eauto. }
  assert (G : get_inode st i = Ok r) by (rewrite get_inode_obj, O by exact Ir; reflexivity).
  assert (K : kids (st_objs st) i = 0).
  { pose proof (t_count _ _ _ T _ _ G) as C. unfold livb in L. unfold b2n in C. lia. }
  assert (Kq : forall q, kids (orem (st_objs st) i) q = kids (st_objs st) q).
  { intros q. apply kids_orem; [|apply T]. intros r' E. rewrite O in E. inversion E; subst. exact L. }
  assert (Gq : forall q s, get_inode (removed st i m inv) q = Ok s <-> get_inode st q = Ok s /\ q <> i).
  { intros q s. unfold get_inode, removed. cbn [st_root st_objs with_tables]. destruct (N.eqb_spec q root_ino) as [->|Hq].
    - split; [intros E; split; auto; congruence|tauto].
    - rewrite oget_orem. destruct (N.eqb_spec q i); [subst; split; [discriminate|tauto]|]. split; [auto|tauto]. }
  assert (Oq : forall q s, oget (st_objs (removed st i m inv)) q = Some s <-> oget (st_objs st) q = Some s /\ q <> i).
  { intros q s. unfold removed. cbn [st_objs with_tables]. rewrite oget_orem. destruct (N.eqb_spec q i); [subst; split; [discriminate|tauto]|tauto]. }
  destruct T as [T1 T2 T3 T4 T5 T6 T7 T8 T9 T10]. split.
  - split.
    + apply orem_nodup. exact T1.
    + intros X. apply orem_keys in X. tauto.
    + apply ordered_orem; auto.
    + intros q s E. apply Gq in E. destruct E as [E Hq]. specialize (T4 q s E).
      cbn [removed st_objs with_tables]. rewrite Kq. exact T4.
    + intros p j. cbn [removed st_map with_tables]. rewrite Hm, T5. split.
      * intros [(s & E & V & P) Hj]. exists s. split; [apply Oq; auto|auto].
      * intros (s & E & V & P). apply Oq in E. destruct E as [E Hj]. split; [eauto|auto].
    + exact Nm.
    + intros j. cbn [removed st_invalid with_tables]. rewrite Hi, T7. split.
      * intros [(s & E & V) Hj]. exists s. split; [apply Oq; auto|auto].
      * intros (s & E & V). apply Oq in E. destruct E as [E Hj]. split; [eauto|auto].
    + intros j s E V. apply Oq in E. destruct E as [E Hj]. eauto.
    + intros j s E V. apply Oq in E. destruct E as [E Hj]. eauto.
    + intros j s E V. apply Oq in E. destruct E as [E Hj]. destruct (T10 j s E V) as [X|[X|X]]; auto; congruence.
  - destruct M as [M1 M2 M3 M4 M5 M6 M7 M8 M9 M10 M11 M12].
    split; auto.
    + intros j s E. apply Oq in E. destruct E as [E Hj]. eauto.
    + intros j s E V Ls. apply Oq in E. destruct E as [E Hj]. eauto.
    + intros j s E V Ls. apply Oq in E. destruct E as [E Hj].
      destruct (M12 j s E V Ls) as (pr & p & n & a & H1 & H2). exists pr, p, n, a. split; auto.
      apply Gq. split; auto. eapply kids_zero; eauto.
Qed.

(** Erasing a dead inode that is still in the map. *)
Lemma erase_mapped st root D i r p :
  tab_ok (i :: D) None st -> mem_ok st root -> oget (st_objs st) i = Some r -> livb r = false -> is_valid r = true ->
  as_proto (i_asset r) = Some p ->
  collect_objs (with_tables st (st_objs st) (mdel (st_map st) p) (st_invalid st)) = removed st i (mdel (st_map st) p) (st_invalid st) /\
  tab_ok D None (removed st i (mdel (st_map st) p) (st_invalid st)) /\ mem_ok (removed st i (mdel (st_map st) p) (st_invalid st)) root.
Proof.
  intros T M O L V P.
  assert (Mp : mget (st_map st) p = Some i) by (apply (t_map _ _ _ T); eauto).
  assert (NI : ~ In i (st_invalid st)).
  { intros X. apply (t_invalid _ _ _ T) in X. destruct X as (r' & E & V'). rewrite O in E. inversion E; subst. congruence. }
  assert (NM : forall q, In (q, i) (st_map st) -> q = p).
  { intros q X. apply in_mget in X; [|apply T]. apply (t_map _ _ _ T) in X. destruct X as (r' & E & _ & Q).
    rewrite O in E. inversion E; subst. congruence. }
  split.
  - apply collect_removed; [apply M|apply T| |].
    + intros j Hj Hn. apply oget_key in Hj. destruct Hj as [s Hs]. unfold referenced. apply orb_true_iff.
      destruct (is_valid s) eqn:Vs.
      * left. destruct (t_proto _ _ _ T j s Hs Vs) as [q Q]. assert (X : mget (st_map st) q = Some j) by (apply (t_map _ _ _ T); eauto).
        apply existsb_exists. exists (q, j). split; [|apply N.eqb_refl].
        unfold mdel. apply filter_In. split; [apply mget_in; exact X|]. cbn [fst]. rewrite ptr_eqb_neq; auto. intros ->. congruence.
      * right. apply existsb_exists. exists j. split; [|apply N.eqb_refl]. apply (t_invalid _ _ _ T). eauto.
    + unfold referenced. apply orb_false_iff. split.
      * apply not_true_is_false. intros X. apply existsb_exists in X. destruct X as ([q j] & X & E). cbn in E. apply N.eqb_eq in E. subst j.
        apply mdel_in in X. destruct X as [X Hq]. apply NM in X. cbn in Hq. congruence.
      * apply not_true_is_false. intros X. apply existsb_exists in X. destruct X as (j & X & E). apply N.eqb_eq in E. subst. contradiction.
  - apply (removed_ok _ _ _ _ r); auto.
    + intros q j. rewrite mget_mdel. destruct (ptr_eqb q p) eqn:E.
      * apply ptr_eqb_iff in E. subst. split; [discriminate|]. intros [X Y]. congruence.
      * split; [|tauto]. intros X. split; auto. intros ->. apply mget_in in X. apply NM in X. subst.
        rewrite ptr_eqb_refl in E. discriminate.
    + apply mdel_nodup. apply T.
    + intros j. split; [|tauto]. intros X. split; auto. intros ->. contradiction.
Qed.

(** Erasing a dead inode from the invalid ones. *)
Lemma erase_invalid st root D i r :
  tab_ok (i :: D) None st -> mem_ok st root -> oget (st_objs st) i = Some r -> livb r = false -> is_valid r = false ->
  let inv := filter (fun j => negb (j =? i)) (st_invalid st) in
  collect_objs (with_tables st (st_objs st) (st_map st) inv) = removed st i (st_map st) inv /\
  tab_ok D None (removed st i (st_map st) inv) /\ mem_ok (removed st i (st_map st) inv) root.
Proof.
  intros T M O L V inv.
  assert (HI : forall j, In j inv <-> In j (st_invalid st) /\ j <> i).
  { intros j. unfold inv. rewrite filter_In, negb_true_iff, N.eqb_neq. reflexivity. }
  assert (NM : forall q, ~ In (q, i) (st_map st)).
  { intros q X. apply in_mget in X; [|apply T]. apply (t_map _ _ _ T) in X. destruct X as (r' & E & V' & Q).
    rewrite O in E. inversion E; subst. congruence. }
  split.
  - apply collect_removed; [apply M|apply T| |].
    + intros j Hj Hn. apply oget_key in Hj. destruct Hj as [s Hs]. unfold referenced. apply orb_true_iff.
      destruct (is_valid s) eqn:Vs.
      * left. destruct (t_proto _ _ _ T j s Hs Vs) as [q Q]. assert (X : mget (st_map st) q = Some j) by (apply (t_map _ _ _ T); eauto).
        apply existsb_exists. exists (q, j). split; [apply mget_in; exact X|apply N.eqb_refl].
      * right. apply existsb_exists. exists j. split; [|apply N.eqb_refl]. apply HI. split; auto. apply (t_invalid _ _ _ T). eauto.
    + unfold referenced. apply orb_false_iff. split.
      * apply not_true_is_false. intros X. apply existsb_exists in X. destruct X as ([q j] & X & E). cbn in E. apply N.eqb_eq in E. subst j.
        eapply NM. exact X.
      * apply not_true_is_false. intros X. apply existsb_exists in X. destruct X as (j & X & E). apply N.eqb_eq in E. subst. apply HI in X. tauto.
  - apply (removed_ok _ _ _ _ r); auto.
    + intros q j. split; [|tauto]. intros X. split; auto. intros ->. apply mget_in in X. eapply NM. exact X.
    + apply T.
Qed.

(** * Forgetting *)

(** What forgetting leaves alone. *)
Definition same_root (st st' : state) : Prop :=
  st_heap st' = st_heap st /\ st_next st' = st_next st /\ st_manifest st' = st_manifest st /\
  i_asset (st_root st') = i_asset (st_root st) /\ i_nlookup (st_root st') = i_nlookup (st_root st) /\ i_state (st_root st') = i_state (st_root st).
Definition survives (st st' : state) : Prop :=
  (forall i r', oget (st_objs st') i = Some r' -> exists r, oget (st_objs st) i = Some r /\
       i_asset r' = i_asset r /\ i_state r' = i_state r /\ i_nlookup r' = i_nlookup r) /\
  (forall i r, oget (st_objs st) i = Some r -> (0 < i_nlookup r \/ livb r = false) ->
       exists r', oget (st_objs st') i = Some r' /\ (livb r = false -> r' = r)).

Lemma forget_child_ok : forall fuel st root q D k1 k2,
  tab_ok D (Some q) st -> mem_ok st root ->
  q = root_ino \/ (map fst (st_objs st) = k1 ++ q :: k2 /\ (length k2 < fuel)%nat) ->
  (forall j, In j D -> dead st j) ->
  exists st', forget_child (S fuel) st q = Ok st' /\ tab_ok D None st' /\ mem_ok st' root /\ same_root st st' /\ survives st st'.
Proof.
  induction fuel as [|fuel IH]; intros st root q D k1 k2 T M Q HD.
  1: destruct Q as [->|[_ Q]]; [|lia].
  2: destruct Q as [->|[Ek Q]].
  1,2: cbn [forget_child]; rewrite get_inode_root; cbn [bind];
    pose proof (t_count _ _ _ T _ _ (get_inode_root st)) as C; cbv iota beta in C; rewrite N.eqb_refl in C; cbn [b2n] in C;
    destruct (N.eqb_spec (i_children (st_root st)) 0) as [E|E]; [lia|]; rewrite N.eqb_refl;
    eexists; split; [reflexivity|];
    (split; [refine (tab_recount D (Some root_ino) None st root_ino (st_root st) _ _ T (get_inode_root st) _ _ _ _);
              [congruence|congruence|cbv iota beta; rewrite N.eqb_refl; cbn [b2n]; lia|
              intros q Hq; symmetry; apply N.eqb_neq; congruence]|]);
    (split; [refine (mem_recount st root root_ino (st_root st) _ _ (or_intror I) M (get_inode_root st) (t_nodup _ _ _ T) _); congruence|]);
    (split; [unfold same_root; repeat (split; [reflexivity|]); reflexivity|]);
    (split; [intros i r' H; exists r'; auto|intros i r H HH; exists r; auto]).
  assert (Kq : In q (map fst (st_objs st))) by (rewrite Ek; apply in_or_app; right; now left).
  assert (Hq : q <> root_ino) by (intros ->; apply (t_noroot _ _ _ T Kq)).
  destruct (proj1 (oget_key _ _) Kq) as [r O].
  assert (G : get_inode st q = Ok r) by (rewrite get_inode_obj, O by exact Hq; reflexivity).
  pose proof (t_count _ _ _ T _ _ G) as C. cbv iota beta in C; rewrite N.eqb_refl in C. cbn [b2n] in C.
  assert (Lr : livb r = true) by (unfold livb; lia).
  remember (S fuel) as fuel1 eqn:Ef.
  cbn [forget_child]. rewrite G. cbn [bind]. destruct (N.eqb_spec (i_children r) 0) as [E|E]; [lia|].
  destruct (N.eqb_spec q root_ino) as [X|_]; [contradiction|].
  cbn [i_nlookup i_children i_asset i_state].
  change (mkinode (i_asset r) (i_nlookup r) (i_children r - 1) (i_state r)) with (recount r (i_nlookup r) (i_children r - 1)).
  destruct ((i_nlookup r =? 0) && (i_children r - 1 =? 0)) eqn:Z.
  - apply andb_true_iff in Z. destruct Z as [Z1 Z2]. apply N.eqb_eq in Z1, Z2.
    rewrite Z1, Z2.
    assert (T1 : tab_ok (q :: D) (Some (parent r)) (set_inode st q (recount r 0 0))).
    { apply (tab_die D (Some q)); auto. lia. }
    assert (M1 : mem_ok (set_inode st q (recount r 0 0)) root).
    { apply mem_recount; auto. apply T. }
    set (st1 := set_inode st q (recount r 0 0)) in *.
    assert (K1 : map fst (st_objs st1) = k1 ++ q :: k2) by (unfold st1; rewrite set_obj by exact Hq; cbn [st_objs with_tables]; rewrite oset_keys; exact Ek).
    assert (O1 : oget (st_objs st1) q = Some (recount r 0 0)).
    { unfold st1. rewrite set_obj by exact Hq. cbn [st_objs with_tables]. rewrite oget_oset, N.eqb_refl, O. reflexivity. }
    assert (OO : forall j, j <> q -> oget (st_objs st1) j = oget (st_objs st) j).
    { intros j Hj. unfold st1. rewrite set_obj by exact Hq. cbn [st_objs with_tables]. rewrite oget_oset. destruct (N.eqb_spec j q); congruence. }
    assert (HD1 : forall j, In j (q :: D) -> dead st1 j).
    { intros j [<-|Hj]; [exists (recount r 0 0); split; auto|].
      destruct (HD j Hj) as (s & Hs & Ls). exists s. split; auto. rewrite OO; auto. intros ->. rewrite O in Hs. inversion Hs; subst. congruence. }
    assert (Pq : parent r = root_ino \/ exists a b, map fst (st_objs st1) = a ++ parent r :: b /\ (length b < fuel)%nat).
    { destruct (ordered_before _ _ _ _ _ (t_ordered _ _ _ T) (t_nodup _ _ _ T) Ek O Lr) as [X|X]; auto. right.
      destruct (in_split _ _ X) as (a & b & Eb). exists (k1 ++ q :: a), b. rewrite K1, Eb, <- app_assoc. split; auto.
      assert (L2 : length k2 = length (a ++ parent r :: b)) by (now rewrite Eb). rewrite app_length in L2. cbn [length] in L2. lia. }
    assert (R : exists st2, forget_child fuel1 st1 (parent r) = Ok st2 /\ tab_ok (q :: D) None st2 /\ mem_ok st2 root /\ same_root st1 st2 /\ survives st1 st2).
    { destruct Pq as [X|(a & b & X & Y)]; [apply (IH st1 root (parent r) (q :: D) [] []); auto|apply (IH st1 root (parent r) (q :: D) a b); auto]. }
    destruct R as (st2 & R2 & T2 & M2 & SR2 & SV2).
    unfold parent in R2. cbn [recount i_asset]. rewrite R2. cbn [bind].
    assert (O2 : oget (st_objs st2) q = Some (recount r 0 0)).
    { destruct (proj2 SV2 q _ O1) as (r' & H1 & H2); [right; reflexivity|]. rewrite H1, H2; reflexivity. }
    assert (SR : same_root st st2).
    { unfold same_root in *. replace (st_heap st) with (st_heap st1) by (unfold st1; rewrite set_obj by exact Hq; reflexivity).
      replace (st_next st) with (st_next st1) by (unfold st1; rewrite set_obj by exact Hq; reflexivity).
      replace (st_manifest st) with (st_manifest st1) by (unfold st1; rewrite set_obj by exact Hq; reflexivity).
      replace (st_root st) with (st_root st1) by (unfold st1; rewrite set_obj by exact Hq; reflexivity). exact SR2. }
    assert (SV : forall i r', oget (st_objs st2) i = Some r' -> exists r, oget (st_objs st) i = Some r /\
       i_asset r' = i_asset r /\ i_state r' = i_state r /\ i_nlookup r' = i_nlookup r).
    { intros i r' Hi. destruct (N.eq_dec i q) as [->|Hn].
      - rewrite O2 in Hi. inversion Hi; subst. exists r. cbn [recount i_asset i_state i_nlookup]. auto.
      - destruct (proj1 SV2 i r' Hi) as (s & Hs & Hs'). rewrite OO in Hs by exact Hn. eauto. }
    destruct (as_proto (i_asset r)) as [p|] eqn:P.
    + assert (V : is_valid r = true).
      { destruct (is_valid r) eqn:V; auto. pose proof (t_dead _ _ _ T q r O V) as Y. rewrite Y in P. discriminate. }
      destruct (erase_mapped st2 root D q _ p T2 M2 O2 eq_refl V P) as (EE & T3 & M3).
      rewrite EE. eexists. split; [reflexivity|]. split; [exact T3|]. split; [exact M3|]. split; [exact SR|].
      split.
      * intros i r' Hi. cbn [removed st_objs with_tables] in Hi. rewrite oget_orem in Hi. destruct (i =? q); [discriminate|]. eauto.
      * intros i s Hs Hc. cbn [removed st_objs with_tables]. rewrite oget_orem. destruct (N.eqb_spec i q) as [->|Hn].
        { rewrite O in Hs. inversion Hs; subst. destruct Hc as [Hc|Hc]; [lia|congruence]. }
        apply (proj2 SV2); auto. rewrite OO; auto.
    + eexists. split; [reflexivity|]. split.
      * destruct T2 as [A1 A2 A3 A4 A5 A6 A7 A8 A9 A10]. split; auto.
        intros i s Hs V. destruct (A10 i s Hs V) as [X|[X|X]]; auto. subst i. rewrite O2 in Hs. inversion Hs; subst.
        destruct (A8 _ _ O2 V) as [p Hp]. cbn [recount i_asset] in Hp. congruence.
      * split; [exact M2|]. split; [exact SR|]. split; [exact SV|].
        intros i s Hs Hc. destruct (N.eq_dec i q) as [->|Hn].
        { rewrite O in Hs. inversion Hs; subst. destruct Hc as [Hc|Hc]; [lia|congruence]. }
        apply (proj2 SV2); auto. rewrite OO; auto.
  - assert (Z' : livb (recount r (i_nlookup r) (i_children r - 1)) = true).
    { unfold livb. cbn [recount i_nlookup i_children]. apply andb_false_iff in Z. rewrite !N.eqb_neq in Z. lia. }
    assert (OO : forall j, j <> q -> oget (st_objs (set_inode st q (recount r (i_nlookup r) (i_children r - 1)))) j = oget (st_objs st) j).
    { intros j Hj. rewrite set_obj by exact Hq. cbn [st_objs with_tables]. rewrite oget_oset. destruct (N.eqb_spec j q); congruence. }
    assert (O1 : oget (st_objs (set_inode st q (recount r (i_nlookup r) (i_children r - 1)))) q = Some (recount r (i_nlookup r) (i_children r - 1))).
    { rewrite set_obj by exact Hq. cbn [st_objs with_tables]. rewrite oget_oset, N.eqb_refl, O. reflexivity. }
    eexists. split; [reflexivity|]. split; [|split; [|split; [|split]]].
    + apply (tab_recount D (Some q) None); auto.
      * intros _. now rewrite Z', Lr.
      * rewrite N.eqb_refl. cbn [b2n]. lia.
      * intros x Hx. symmetry. apply N.eqb_neq. congruence.
    + apply mem_recount; auto. apply T.
    + rewrite set_obj by exact Hq. unfold same_root. repeat (split; [reflexivity|]). reflexivity.
    + intros i r' Hi. destruct (N.eq_dec i q) as [->|Hn].
      * rewrite O1 in Hi. inversion Hi; subst. exists r. auto.
      * rewrite OO in Hi by exact Hn. exists r'. auto.
    + intros i s Hs Hc. destruct (N.eq_dec i q) as [->|Hn].
      * rewrite O in Hs. inversion Hs; subst. exists (recount s (i_nlookup s) (i_children s - 1)). split; auto. congruence.
      * exists s. rewrite OO by exact Hn. auto.
Qed.

Lemma weaken_D D st : (forall j r, In j D -> oget (st_objs st) j = Some r -> is_valid r = false) -> tab_ok D None st -> tab_ok [] None st.
Proof.
  intros H [A1 A2 A3 A4 A5 A6 A7 A8 A9 A10]. split; auto.
  intros i s Hs V. destruct (A10 i s Hs V) as [X|X]; auto. rewrite (H i s X Hs) in V. discriminate.
Qed.

Lemma forget_one_ok st root i n r :
  Inv st root -> oget (st_objs st) i = Some r -> 0 < i_nlookup r ->
  exists st', forget_one st i n = Ok st' /\ Inv st' root /\ same_root st st' /\
    (forall j r', oget (st_objs st') j = Some r' -> exists s, oget (st_objs st) j = Some s /\
       i_asset r' = i_asset s /\ i_state r' = i_state s /\ i_nlookup r' = if j =? i then i_nlookup s - n else i_nlookup s) /\
    (forall j s, oget (st_objs st) j = Some s -> 0 < (if j =? i then i_nlookup s - n else i_nlookup s) ->
       exists r', oget (st_objs st') j = Some r').
Proof.
  intros [T M] O Hn.
  assert (Ki : In i (map fst (st_objs st))) by (apply oget_key; eauto).
  assert (Hi : i <> root_ino) by (intros ->; apply (t_noroot _ _ _ T Ki)).
  assert (G : get_inode st i = Ok r) by (rewrite get_inode_obj, O by exact Hi; reflexivity).
  assert (Lr : livb r = true) by (unfold livb; lia).
  pose proof (t_count _ _ _ T _ _ G) as C. cbv iota beta in C. change (b2n false) with 0 in C.
  unfold forget_one. rewrite G. cbn [bind]. destruct (N.eqb_spec i root_ino); [contradiction|].
  cbn [i_nlookup i_children i_asset i_state].
  change (mkinode (i_asset r) (i_nlookup r - n) (i_children r) (i_state r)) with (recount r (i_nlookup r - n) (i_children r)).
  assert (OO : forall x j, j <> i -> oget (st_objs (set_inode st i x)) j = oget (st_objs st) j).
  { intros x j Hj. rewrite set_obj by exact Hi. cbn [st_objs with_tables]. rewrite oget_oset. destruct (N.eqb_spec j i); congruence. }
  assert (O1 : forall x, oget (st_objs (set_inode st i x)) i = Some x).
  { intros x. rewrite set_obj by exact Hi. cbn [st_objs with_tables]. rewrite oget_oset, N.eqb_refl, O. reflexivity. }
  assert (SR : forall x, same_root st (set_inode st i x)).
  { intros x. rewrite set_obj by exact Hi. unfold same_root. repeat (split; [reflexivity|]). reflexivity. }
  destruct ((i_nlookup r - n =? 0) && (i_children r =? 0)) eqn:Z.
  - apply andb_true_iff in Z. destruct Z as [Z1 Z2]. apply N.eqb_eq in Z1, Z2. rewrite Z1, Z2.
    assert (T1 : tab_ok [i] (Some (parent r)) (set_inode st i (recount r 0 0))) by (apply (tab_die [] None); auto; lia).
    assert (M1 : mem_ok (set_inode st i (recount r 0 0)) root) by (apply mem_recount; auto; apply T).
    set (st1 := set_inode st i (recount r 0 0)) in *.
    assert (Pq : parent r = root_ino \/ exists a b, map fst (st_objs st1) = a ++ parent r :: b /\ (length b < S (length (st_objs st)))%nat).
    { destruct (ordered_parent _ _ _ (t_ordered _ _ _ T) O Lr) as [X|X]; auto. right.
      destruct (in_split _ _ X) as (a & b & Eb). exists a, b. split.
      - unfold st1. rewrite set_obj by exact Hi. cbn [st_objs with_tables]. rewrite oset_keys. exact Eb.
      - rewrite <- (map_length fst), Eb, app_length. cbn. lia. }
    assert (HD1 : forall j, In j [i] -> dead st1 j).
    { intros j [<-|[]]. exists (recount r 0 0). split; auto. apply O1. }
    assert (R : exists st2, forget_child (S (S (length (st_objs st)))) st1 (parent r) = Ok st2 /\ tab_ok [i] None st2 /\ mem_ok st2 root /\ same_root st1 st2 /\ survives st1 st2).
    { destruct Pq as [X|(a & b & X & Y)]; [apply (forget_child_ok _ st1 root (parent r) [i] [] []); auto|apply (forget_child_ok _ st1 root (parent r) [i] a b); auto]. }
    destruct R as (st2 & R2 & T2 & M2 & SR2 & SV2). unfold parent in R2. cbn [recount i_asset]. rewrite R2. cbn [bind].
    assert (O2 : oget (st_objs st2) i = Some (recount r 0 0)).
    { destruct (proj2 SV2 i _ (O1 _)) as (r' & H1 & H2); [right; reflexivity|]. rewrite H1, H2; reflexivity. }
    assert (SR3 : same_root st st2).
    { specialize (SR (recount r 0 0)). fold st1 in SR. unfold same_root in *. intuition congruence. }
    assert (Q1 : forall st3, (forall j, oget (st_objs st3) j = if j =? i then None else oget (st_objs st2) j) ->
        (forall j r', oget (st_objs st3) j = Some r' -> exists s, oget (st_objs st) j = Some s /\
          i_asset r' = i_asset s /\ i_state r' = i_state s /\ i_nlookup r' = if j =? i then i_nlookup s - n else i_nlookup s) /\
        (forall j s, oget (st_objs st) j = Some s -> 0 < (if j =? i then i_nlookup s - n else i_nlookup s) ->
          exists r', oget (st_objs st3) j = Some r')).
    { intros st3 H3. split.
      - intros j r' Hj. rewrite H3 in Hj. destruct (N.eqb_spec j i); [discriminate|].
        destruct (proj1 SV2 j r' Hj) as (s & Hs & Hs'). unfold st1 in Hs. rewrite OO in Hs by exact n1. eauto.
      - intros j s Hs Hp. rewrite H3. destruct (N.eqb_spec j i) as [->|Hj].
        + rewrite O in Hs. inversion Hs; subst. lia.
        + destruct (proj2 SV2 j s) as (r' & H1 & _); eauto. unfold st1. rewrite OO; auto. }
    destruct (as_proto (i_asset r)) as [p|] eqn:P.
    + assert (V : is_valid r = true).
      { destruct (is_valid r) eqn:V; auto. pose proof (t_dead _ _ _ T i r O V) as Y. rewrite Y in P. discriminate. }
      destruct (erase_mapped st2 root [] i _ p T2 M2 O2 eq_refl V P) as (EE & T3 & M3).
      rewrite EE. eexists. split; [reflexivity|]. split; [split; [exact T3|exact M3]|]. split; [exact SR3|].
      apply Q1. intros j. cbn [removed st_objs with_tables]. apply oget_orem.
    + assert (V : is_valid r = false).
      { destruct (is_valid r) eqn:V; auto. destruct (t_proto _ _ _ T i r O V) as [p Hp]. congruence. }
      destruct (erase_invalid st2 root [] i _ T2 M2 O2 eq_refl V) as (EE & T3 & M3).
      rewrite EE. eexists. split; [reflexivity|]. split; [split; [exact T3|exact M3]|]. split; [exact SR3|].
      apply Q1. intros j. cbn [removed st_objs with_tables]. apply oget_orem.
  - assert (Z' : livb (recount r (i_nlookup r - n) (i_children r)) = true).
    { unfold livb. cbn [recount i_nlookup i_children]. apply andb_false_iff in Z. rewrite !N.eqb_neq in Z. lia. }
    eexists. split; [reflexivity|]. split; [split|].
    + apply (tab_recount [] None None); auto. intros _. now rewrite Z', Lr.
    + apply mem_recount; auto. apply T.
    + split; [apply SR|]. split.
      * intros j r' Hj. destruct (N.eqb_spec j i) as [->|Hj'].
        { rewrite O1 in Hj. inversion Hj; subst. exists r. auto. }
        rewrite OO in Hj by exact Hj'. eauto.
      * intros j s Hs _. destruct (N.eq_dec j i) as [->|Hj']; [rewrite O1; eauto|rewrite OO by exact Hj'; eauto].
Qed.
End Store.
