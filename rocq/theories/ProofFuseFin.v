(** The whole of SetManifest. *)
From Verif Require Import Base ListX Str ModelFuse SpecFuse ProofFuseMem ProofFuseInv ProofFuseOps ProofFusePath ProofFuseSet.
Local Open Scope N_scope.

Lemma erase_all_ok : forall ps m, NoDup ps -> NoDup (map fst m) -> (forall p, In p ps -> exists i, mget m p = Some i) ->
  exists m', erase_all m ps = Ok m' /\ NoDup (map fst m') /\ (forall p, In p ps -> mget m' p = None) /\ (forall p, ~ In p ps -> mget m' p = mget m p).
Proof.
  induction ps as [|p ps IH]; intros m N Nm H; cbn [erase_all].
  - exists m. split; auto. split; auto. split; auto. intros p [].
  - inversion N as [|x y Hx Hy]; subst. destruct (H p (or_introl eq_refl)) as [i E]. rewrite E.
    destruct (IH (mdel m p) Hy (mdel_nodup _ _ Nm)) as (m' & E1 & E2 & E3 & E4).
    { intros q Hq. destruct (H q (or_intror Hq)) as [j Ej]. exists j. rewrite mget_mdel, ptr_eqb_neq; auto. intros ->. contradiction. }
    exists m'. split; auto. split; auto. split.
    + intros q [<-|Hq]; auto. rewrite E4 by exact Hx. rewrite mget_mdel, ptr_eqb_refl. reflexivity.
    + intros q Hq. rewrite E4 by (intros X; apply Hq; now right). rewrite mget_mdel, ptr_eqb_neq; auto. intros ->. apply Hq. now left.
Qed.

Section Store.
Variable store : cid -> option (list aproto).
Notation Inv := (Inv store).

Lemma asset_ok_high h h' s a k : asset_ok store h s a -> (forall p, as_proto s = Some p -> (k <= p_al p)%nat) -> (forall x, In x (as_lists s) -> (k <= x)%nat) ->
  (forall b, (k <= b)%nat -> hget h' b = hget h b) -> asset_ok store h' s a.
Proof.
  intros A Hp Hl Hh. destruct A as [P N L Q H]. destruct P as (p & Pp & D & Pq). pose proof (Hp p Pp) as Lp.
  split; auto.
  - exists p. split; auto. split; auto. rewrite <- D. apply deref_same. auto.
  - intros n q E. destruct (Q n q E) as (c & Dc & X). exists c. split; auto. rewrite <- Dc. apply deref_same. apply Hh.
    destruct (Pq n q E) as [[j ->]|[X1 _]]; auto.
Qed.

(** Resetting the states. *)
Lemma reset_ok root : forall l st, Inv st root -> (forall i, In i l -> exists r, oget (st_objs st) i = Some r /\ is_valid r = true) ->
  exists st', reset_states st l = Ok st' /\ Inv st' root /\ map fst (st_objs st') = map fst (st_objs st) /\ st_heap st' = st_heap st /\ st_root st' = st_root st /\ st_next st' = st_next st /\
    (forall i r, oget (st_objs st) i = Some r -> exists r', oget (st_objs st') i = Some r' /\ i_asset r' = i_asset r /\ is_valid r' = is_valid r /\
       i_nlookup r' = i_nlookup r /\ i_children r' = i_children r /\
       (is_valid r = true -> forall a, get_proto (st_heap st) (i_asset r) = Ok a -> In i l ->
           i_state r' = (if istate_eqb (i_state r) SUpdatedProto || atype_eqb (ap_type a) TDir then SInit else i_state r)) /\
       (~ In i l -> i_state r' = i_state r)).
Proof.
  induction l as [|i l IH]; intros st I H; cbn [reset_states].
  - exists st. split; auto. split; auto. split; auto. split; auto. split; auto. split; auto. intros i r O. exists r. repeat (split; auto). contradiction.
  - destruct (H i (or_introl eq_refl)) as (r & O & V). destruct (obj_inode st i r (proj1 I) O) as [G Hi]. rewrite G. cbn [bind]. rewrite V. cbn [negb].
    destruct (t_live _ _ _ (proj1 I) i r O V) as [L|[]].
    destruct (valid_proto store st root i r I G V (fun _ => L)) as (a & p & GP & P & D & _). rewrite GP. cbn [bind].
    set (st1 := if istate_eqb (i_state r) SUpdatedProto || atype_eqb (ap_type a) TDir then set_inode st i (with_state r SInit) else st).
    assert (I1 : Inv st1 root).
    { unfold st1. destruct (istate_eqb (i_state r) SUpdatedProto || atype_eqb (ap_type a) TDir); auto.
      apply (set_state_ok store st root i r SInit I G V). congruence. }
    assert (S1 : map fst (st_objs st1) = map fst (st_objs st) /\ st_heap st1 = st_heap st /\ st_root st1 = st_root st /\ st_next st1 = st_next st).
    { unfold st1. destruct (istate_eqb (i_state r) SUpdatedProto || atype_eqb (ap_type a) TDir); auto. rewrite set_obj by exact Hi.
      cbn [st_objs with_tables]. rewrite oset_keys. auto. }
    set (r1 := if istate_eqb (i_state r) SUpdatedProto || atype_eqb (ap_type a) TDir then with_state r SInit else r).
    assert (O1 : forall j, oget (st_objs st1) j = if j =? i then Some r1 else oget (st_objs st) j).
    { intros j. unfold st1, r1. destruct (istate_eqb (i_state r) SUpdatedProto || atype_eqb (ap_type a) TDir).
      - rewrite set_obj by exact Hi. cbn [st_objs with_tables]. rewrite oget_oset, O. reflexivity.
      - destruct (N.eqb_spec j i); [subst; auto|auto]. }
    assert (R1 : i_asset r1 = i_asset r /\ is_valid r1 = true /\ i_nlookup r1 = i_nlookup r /\ i_children r1 = i_children r /\
       i_state r1 = if istate_eqb (i_state r) SUpdatedProto || atype_eqb (ap_type a) TDir then SInit else i_state r).
    { unfold r1. destruct (istate_eqb (i_state r) SUpdatedProto || atype_eqb (ap_type a) TDir); auto. }
    destruct R1 as (R1 & R2 & R3 & R4 & R5). destruct S1 as (S1 & S2 & S3 & S4).
    destruct (IH st1 I1) as (st' & E & I' & K & Hh & Hr & Hn & Ob).
    { intros j Hj. destruct (H j (or_intror Hj)) as (rj & Oj & Vj). destruct (N.eq_dec j i) as [->|Hn].
      - exists r1. rewrite O1, N.eqb_refl. auto.
      - exists rj. rewrite O1. destruct (N.eqb_spec j i); [contradiction|auto]. }
    exists st'. split; auto. split; auto. split; [congruence|]. split; [congruence|]. split; [congruence|]. split; [congruence|].
    intros j rj Oj. destruct (N.eq_dec j i) as [->|Hj].
    + rewrite O in Oj. inversion Oj; subst rj. destruct (Ob i r1) as (r' & B1 & B2 & B3 & B4 & B5 & B6 & B7); [rewrite O1, N.eqb_refl; auto|].
      exists r'. split; auto. split; [congruence|]. split; [congruence|]. split; [congruence|]. split; [congruence|]. split.
      * intros _ a' GP' _. rewrite GP in GP'. inversion GP'; subst a'.
        destruct (in_dec N.eq_dec i l) as [Hl|Hl].
        { rewrite (B6 R2 a) by (try exact Hl; rewrite S2, R1; exact GP). rewrite R5.
          destruct (istate_eqb (i_state r) SUpdatedProto) eqn:E1; cbn [orb].
          - destruct (atype_eqb (ap_type a) TDir); reflexivity.
          - destruct (atype_eqb (ap_type a) TDir) eqn:E2; cbn [orb]; [destruct (istate_eqb SInit SUpdatedProto); reflexivity|]. rewrite E1. reflexivity. }
        { rewrite (B7 Hl). exact R5. }
      * intros X. exfalso. apply X. now left.
    + destruct (Ob j rj) as (r' & B1 & B2 & B3 & B4 & B5 & B6 & B7); [rewrite O1; destruct (N.eqb_spec j i); [contradiction|auto]|].
      exists r'. split; auto. split; auto. split; auto. split; auto. split; auto. split.
      * intros Vj a' GP' [X|X]; [congruence|]. apply B6; auto. rewrite S2. exact GP'.
      * intros X. apply B7. intros Y. apply X. now right.
Qed.

Section Set_.
Variables (sto : state) (oldroot nr : aproto) (fetch : cid -> option (list aproto)) (shuffle : list (ino * ino) -> list (ino * ino)).
Hypothesis I0 : Inv sto oldroot.
Hypothesis U : names_unique store nr.
Hypothesis LG : only_root_is_large store nr.
Hypothesis F : forall id l, fetch id = Some l -> store id = Some l.
Hypothesis SH : forall l, Permutation (shuffle l) l.
Notation al := (st_next sto).
Notation mid := (mid store sto nr fetch).

Let rootp := mkptr al 0 [].
Let st0 := with_mem sto ((al, [nr]) :: st_heap sto) (S al).
Let s0 := mkasset root_ino (Some rootp) (direct_lookup rootp nr) [].
Let st1 := set_inode st0 root_ino (with_asset (st_root sto) s0).
Let level := map (fun c => (root_ino, c)) (child_inos st0 (i_asset (st_root sto))).

Lemma start_mid : mid [] level [] st1.
Proof.
  pose proof I0 as [T M]. pose proof (m_fresh _ _ _ M) as Fr.
  assert (Hfresh : forall b l, hget (st_heap sto) b = Some l -> b <> al) by (intros b l E; specialize (Fr _ _ E); lia).
  assert (Dr : deref (st_heap st0) rootp = Some nr).
  { unfold deref, st0, rootp. cbn [p_al p_idx p_sub with_mem st_heap]. rewrite hget_cons_same. reflexivity. }
  assert (NR : new sto (with_asset (st_root sto) s0)).
  { split; [apply M|]. unfold newb. cbn. apply Nat.leb_refl. }
  assert (Gr : get_inode st1 root_ino = Ok (with_asset (st_root sto) s0)) by reflexivity.
  assert (Go : forall j, j <> root_ino -> get_inode st1 j = get_inode sto j).
  { intros j Hj. unfold st1. rewrite get_set. destruct (N.eqb_spec j root_ino); [contradiction|]. reflexivity. }
  assert (OldI : forall i r, oget (st_objs sto) i = Some r -> is_valid r = true -> old sto r).
  { intros i r O V. split; auto. eapply sto_newb; eauto. }
  assert (Ch : forall c, In c (child_inos st0 (i_asset (st_root sto))) <-> exists r, oget (st_objs sto) c = Some r /\ is_valid r = true /\ parent r = root_ino).
  { intros c. rewrite child_inos_in. split.
    - intros (n & p & H1 & H2). change (st_map st0) with (st_map sto) in H2. destruct (mapped_live store sto oldroot p c I0 H2) as (r & O & V & P & L).
      exists r. split; auto. split; auto. apply (lk_in_get _ _ _ (ao_nodup _ _ _ _ (m_root_asset _ _ _ M))) in H1.
      apply (parent_unique store sto oldroot c r root_ino (st_root sto) n p I0 O V L P (get_inode_root sto) (m_root_valid _ _ _ M) (fun X => False_ind _ (X eq_refl)) H1).
    - intros (r & O & V & P). destruct (t_live _ _ _ T c r O V) as [L|[]]. destruct (m_child _ _ _ M c r O V L) as (pr & p & n & a & G & _ & Pp & LK & _).
      rewrite P, get_inode_root in G. inversion G; subst pr. exists n, p. split; [now apply lk_get_in|]. apply (t_map _ _ _ T). eauto. }
  split.
  - intros b Hb. unfold st1, st0. cbn [set_inode st_heap with_mem]. apply hget_cons_other. lia.
  - apply hget_cons_same.
  - intros b l. change (st_heap st1) with ((al, [nr]) :: st_heap sto). change (st_next st1) with (S al). cbn. destruct (Nat.eqb_spec b al); [lia|]. intros E. specialize (Fr _ _ E). lia.
  - change (st_root st1) with (with_asset (st_root sto) s0). cbn [with_asset i_asset i_nlookup i_children s0 as_proto as_lists]. split; auto. split; auto. split; auto. split; auto.
    split; [apply M|]. split; [|constructor]. apply direct_ok; auto. apply U. constructor.
  - reflexivity.
  - intros i ro O. exists ro. split; auto. split; auto. split; auto. split; auto. split; [eapply m_flat; eauto|]. split; auto. split.
    + intros N. exfalso. destruct N as [V N]. rewrite (sto_newb store sto oldroot I0 i ro O V) in N. discriminate.
    + split; [|auto]. intros V. split; [eapply t_dead; eauto|congruence].
  - intros p i. change (st_map st1) with (st_map sto). change (st_objs st1) with (st_objs sto). rewrite (t_map _ _ _ T). split.
    + intros (r & O & V & P). exists r, r. auto.
    + intros (ro & r & O & O' & V & P). rewrite O in O'. inversion O'; subst ro. exists r. tauto.
  - apply T.
  - apply T.
  - intros q i H. apply in_map_iff in H. destruct H as (c & E & H). inversion E; subst q i. split; auto.
    apply Ch in H. destruct H as (r & O & V & P). exists r. split; auto. split; eauto.
  - unfold level. rewrite map_map. cbn [snd]. rewrite map_id. apply child_inos_nodup; [apply (ao_nodup _ _ _ _ (m_root_asset _ _ _ M))|].
    intros n1 p1 n2 p2 i H1 H2 E1 E2. change (st_map st0) with (st_map sto) in *.
    destruct (mapped_live store sto oldroot p1 i I0 E1) as (r & O & V & P & L). destruct (mapped_live store sto oldroot p2 i I0 E2) as (r' & O' & V' & P' & L').
    rewrite O in O'. inversion O'; subst r'. rewrite P in P'. inversion P'; subst p2.
    apply (lk_in_get _ _ _ (ao_nodup _ _ _ _ (m_root_asset _ _ _ M))) in H1, H2.
    destruct (ao_ptr _ _ _ _ (m_root_asset _ _ _ M) _ _ H1) as (x & Dx & Nx & _). destruct (ao_ptr _ _ _ _ (m_root_asset _ _ _ M) _ _ H2) as (y & Dy & Ny & _). congruence.
  - intros i [].
  - constructor.
  - intros i r O Ol. right. change (st_objs st1) with (st_objs sto) in O.
    destruct (N.eq_dec (parent r) root_ino) as [Hp|Hp].
    + left. rewrite Hp. apply in_map_iff. exists i. split; auto. apply Ch. exists r. split; auto. split; auto. apply Ol.
    + right. destruct (live_valid_parent store sto oldroot i r I0 O (proj1 Ol)) as (pr & [Gp _] & Vp). exists pr. rewrite Go by exact Hp. split; auto.
      apply (OldI (parent r)); auto. apply inode_obj; auto.
  - intros p. split; [intros []|]. intros (i & ro & r & O & P & O' & N). change (st_objs st1) with (st_objs sto) in O'. rewrite O in O'. inversion O'; subst ro.
    destruct N as [V N]. rewrite (sto_newb store sto oldroot I0 i r O V) in N. discriminate.
  - constructor.
Qed.

(** At the end every valid inode is updated. *)
Lemma all_new outd st i r : mid [] [] outd st -> oget (st_objs st) i = Some r -> is_valid r = true -> new sto r.
Proof.
  intros D O V. destruct (valid_cases sto r V) as [Ol|N]; auto. exfalso.
  assert (X : forall n i r k1 k2, oget (st_objs st) i = Some r -> old sto r -> map fst (st_objs sto) = k1 ++ i :: k2 -> (length k2 <= n)%nat -> False).
  { clear i r O V Ol. induction n as [n IH] using lt_wf_ind. intros i r k1 k2 O Ol Ek Lk.
    destruct (d_done _ _ _ _ _ _ _ _ D i r O Ol) as [[]|[[]|(pr & G & Op)]].
    destruct (N.eq_dec (parent r) root_ino) as [Hp|Hp].
    - rewrite Hp, get_inode_root in G. inversion G; subst pr. destruct (d_root _ _ _ _ _ _ _ _ D) as (P & _). destruct Op as [_ Op]. unfold newb in Op. rewrite P in Op.
      cbn [p_al] in Op. rewrite Nat.leb_refl in Op. discriminate.
    - destruct (mid_old store sto oldroot nr fetch I0 _ _ _ _ _ _ D O Ol) as (Oo & L & _).
      destruct (ordered_before _ _ _ _ _ (t_ordered _ _ _ (proj1 I0)) (t_nodup _ _ _ (proj1 I0)) Ek Oo L) as [Y|Y]; [contradiction|].
      destruct (in_split _ _ Y) as (b1 & b2 & Eb).
      assert (Z : length k2 = length (b1 ++ parent r :: b2)) by (now rewrite Eb). rewrite app_length in Z. cbn [length] in Z.
      apply (IH (length b2) ltac:(lia) (parent r) pr (k1 ++ i :: b1) b2); auto; [apply inode_obj; auto|]. rewrite Ek, Eb, <- app_assoc. reflexivity. }
  assert (K : In i (map fst (st_objs sto))) by (rewrite <- (d_keys _ _ _ _ _ _ _ _ D); apply oget_key; eauto).
  destruct (in_split _ _ K) as (k1 & k2 & Ek). exact (X _ i r k1 k2 O Ol Ek (le_n _)).
Qed.

Lemma set_manifest_ok : exists st', set_manifest fetch shuffle sto (Some nr) = Ok st' /\ Inv st' nr /\ map fst (st_objs st') = map fst (st_objs sto) /\
  (forall i ro, oget (st_objs sto) i = Some ro -> exists r, oget (st_objs st') i = Some r /\ parent r = parent ro /\ i_nlookup r = i_nlookup ro /\ i_children r = i_children ro /\
     (is_valid r = true -> is_valid ro = true /\ exists p po ao a, as_proto (i_asset r) = Some p /\ as_proto (i_asset ro) = Some po /\ deref (st_heap sto) po = Some ao /\
        deref (st_heap st') p = Some a /\ ap_name a = ap_name ao /\
        i_state r = (if ap_eqb a ao || atype_eqb (ap_type a) TDir then SInit else SUpdated)) /\
     (is_valid r = false -> is_valid ro = true -> full nr fetch -> exists path, at_path sto i path /\ asset_at store nr path = None)).
Proof.
  unfold set_manifest. fold st0. change (asset_init (st_heap st0) root_ino (mkptr al 0 [])) with (asset_init (st_heap st0) root_ino rootp).
  assert (Dr : deref (st_heap st0) rootp = Some nr).
  { unfold deref, st0, rootp. cbn [p_al p_idx p_sub with_mem st_heap]. rewrite hget_cons_same. reflexivity. }
  unfold asset_init. rewrite Dr. cbn [bind]. fold s0. fold st1. fold level.
  destruct (update_levels_ok store sto oldroot nr fetch I0 U LG F shuffle SH (S (length (st_objs sto))) level [] st1 start_mid) as (outd & st2 & E2 & D2).
  { change (st_objs st1) with (st_objs sto). pose proof (nold_le sto (st_objs sto)). lia. }
  rewrite E2. cbn [bind app] in *.
  assert (ON : forall p, In p (rev outd) <-> In p outd) by (intros; symmetry; apply in_rev).
  destruct (erase_all_ok (rev outd) (st_map st2)) as (m & E3 & Nm & Er1 & Er2).
  { apply NoDup_rev. apply D2. }
  { apply D2. }
  { intros p Hp. apply ON in Hp. apply (d_out _ _ _ _ _ _ _ _ D2) in Hp. destruct Hp as (i & ro & r & X1 & X2 & X3 & X4). exists i.
    apply (d_map _ _ _ _ _ _ _ _ D2). exists ro, r. split; auto. split; auto. split; [apply X4|auto]. }
  rewrite E3. cbn [bind].
  set (h := hfree (hfree_all (st_heap st2) (as_lists (i_asset (st_root sto)))) (st_manifest sto)).
  set (st3 := mkst h (st_next st2) al (st_root st2) (st_objs st2) m (st_invalid st2)).
  pose proof I0 as [T M]. pose proof (m_lists _ _ _ M) as [_ Ml]. rewrite Forall_forall in Ml.
  assert (Mb : (st_manifest sto < al)%nat) by (apply (m_fresh _ _ _ M _ _ (m_manifest _ _ _ M))).
  assert (Hh : forall b, (al <= b)%nat -> hget h b = hget (st_heap st2) b).
  { intros b Hb. unfold h. rewrite hget_hfree_other by lia. apply hget_hfree_all. intros X. specialize (Ml _ X). cbn in Ml. lia. }
  (* every object is updated or invalid *)
  assert (Ob : forall i r, oget (st_objs st2) i = Some r -> is_valid r = true -> exists ro, oget (st_objs sto) i = Some ro /\ is_valid ro = true /\ new sto r /\ new_ok store sto nr st2 i ro r /\ livb r = true).
  { intros i r O V. pose proof (all_new outd st2 i r D2 O V) as N. destruct (mid_obj store sto oldroot nr fetch I0 _ _ _ _ _ _ D2 O) as (_ & _ & ro & Oo).
    destruct (d_obj _ _ _ _ _ _ _ _ D2 i ro Oo) as (r' & O' & _ & N1 & N2 & _ & _ & Nw & _). rewrite O in O'. inversion O'; subst r'. destruct (Nw N) as [V' NK].
    exists ro. split; auto. split; auto. split; auto. split; auto. destruct (t_live _ _ _ T i ro Oo V') as [L|[]]. unfold livb in *. rewrite N1, N2. exact L. }
  assert (Mp : forall p i, mget m p = Some i <-> exists r, oget (st_objs st2) i = Some r /\ is_valid r = true /\ as_proto (i_asset r) = Some p).
  { intros p i. destruct (in_dec (fun a b => match Bool.bool_dec (ptr_eqb a b) true with left e => left (proj1 (ptr_eqb_iff a b) e) | right n => right (fun e => n (proj2 (ptr_eqb_iff a b) e)) end) p (rev outd)) as [Hp|Hp].
    - rewrite (Er1 p Hp). split; [discriminate|]. intros (r & O & V & P). exfalso. apply ON in Hp. apply (d_out _ _ _ _ _ _ _ _ D2) in Hp.
      destruct Hp as (j & ro & rj & X1 & X2 & X3 & X4). destruct (Ob i r O V) as (_ & _ & _ & N & _). destruct N as [_ N]. unfold newb in N. rewrite P in N. apply Nat.leb_le in N.
      destruct (Ob j rj X3 (proj1 X4)) as (ro' & Y1 & Y2 & _). rewrite X1 in Y1. inversion Y1; subst ro'.
      destruct (sto_ptr store sto oldroot I0 j ro p X1 Y2 X2). lia.
    - rewrite (Er2 p Hp). rewrite (d_map _ _ _ _ _ _ _ _ D2). split.
      + intros (ro & r & X1 & X2 & X3 & [X4|X4]); [|eauto]. exfalso. apply Hp, ON, (d_out _ _ _ _ _ _ _ _ D2). exists i, ro, r.
        destruct (Ob i r X2 X3) as (_ & _ & _ & N & _). auto.
      + intros (r & O & V & P). destruct (Ob i r O V) as (ro & Oo & _). exists ro, r. auto. }
  assert (HighP : forall i r, oget (st_objs st2) i = Some r -> is_valid r = true -> forall p, as_proto (i_asset r) = Some p -> (al <= p_al p)%nat).
  { intros i r O V p P. destruct (Ob i r O V) as (_ & _ & _ & N & _). destruct N as [_ N]. unfold newb in N. rewrite P in N. now apply Nat.leb_le. }
  assert (GPh : forall q pr aq, get_inode st2 q = Ok pr -> new sto pr -> get_proto (st_heap st2) (i_asset pr) = Ok aq -> get_proto h (i_asset pr) = Ok aq).
  { intros q pr aq G [_ N] GP. unfold get_proto, newb in *. destruct (as_proto (i_asset pr)) as [p|]; [|discriminate]. apply Nat.leb_le in N.
    rewrite (deref_same (st_heap st2) h) by (apply Hh; exact N). exact GP. }
  assert (Fl : forall i r, oget (st_objs st2) i = Some r -> as_lists (i_asset r) = [] /\ exists ro, oget (st_objs sto) i = Some ro /\ parent r = parent ro /\ i_nlookup r = i_nlookup ro /\ i_children r = i_children ro /\
      (is_valid r = false -> i_asset r = mkasset (parent r) None [] [] /\ (is_valid ro = true -> lost store sto nr fetch i))).
  { intros i r O. destruct (mid_obj store sto oldroot nr fetch I0 _ _ _ _ _ _ D2 O) as (_ & _ & ro & Oo).
    destruct (d_obj _ _ _ _ _ _ _ _ D2 i ro Oo) as (r' & O' & H1 & H2 & H3 & H4 & _ & _ & H5 & _). rewrite O in O'. inversion O'; subst r'. split; auto. exists ro. auto 7. }
  destruct (d_root _ _ _ _ _ _ _ _ D2) as (R1 & R2 & R3 & R4 & R5 & R6 & R7).
  assert (KK : forall l l', map fst l = map fst l' -> (forall i r, In (i, r) l -> exists ro, In (i, ro) l' /\ oget l' i = Some ro /\ parent r = parent ro /\ i_nlookup r = i_nlookup ro /\ i_children r = i_children ro) ->
     NoDup (map fst l') -> (ordered l' -> ordered l) /\ forall q, kids l q = kids l' q).
  { clear. induction l as [|[i r] l IH]; intros [|[i' ro] l'] E H N; cbn in E; try discriminate; [split; auto|]. inversion E; subst i'.
    cbn [map fst] in N. inversion N as [|x y Nx Ny]; subst x y.
    destruct (H i r (or_introl eq_refl)) as (ro' & _ & Og & P & Nl & Nc). cbn in Og. rewrite N.eqb_refl in Og. inversion Og; subst ro'.
    assert (Lv : livb r = livb ro) by (unfold livb; now rewrite Nl, Nc).
    destruct (IH l') as [IH1 IH2]; auto.
    { intros j rj Hj. destruct (H j rj (or_intror Hj)) as (rj' & A1 & A2 & A3). cbn in A2. destruct (N.eqb_spec j i) as [->|Hn].
      - exfalso. apply Nx. rewrite <- H2. change i with (fst (i, rj)). now apply in_map.
      - exists rj'. split; auto. destruct A1 as [A1|A1]; auto. inversion A1; subst. contradiction. }
    split.
    - cbn [ordered]. intros [O1 O2]. split; auto. rewrite Lv, P, H2. exact O1.
    - intros q. cbn [kids]. rewrite Lv, P, IH2. reflexivity. }
  assert (ND2 : NoDup (map fst (st_objs st2))) by (rewrite (d_keys _ _ _ _ _ _ _ _ D2); apply T).
  destruct (KK (st_objs st2) (st_objs sto) (d_keys _ _ _ _ _ _ _ _ D2)) as [KO KD].
  { intros i r H. apply (in_oget _ _ _ ND2) in H. destruct (Fl i r H) as (_ & ro & X1 & X2 & X3 & X4 & _). exists ro. split; [now apply oget_in|]. auto. }
  { apply T. }
  assert (I3 : Inv st3 nr).
  { split.
    - split; cbn [st_objs st_map st_invalid st3].
      + exact ND2.
      + rewrite (d_keys _ _ _ _ _ _ _ _ D2). apply T.
      + apply KO. apply T.
      + intros i r G. rewrite KD. destruct (N.eq_dec i root_ino) as [->|Hi].
        * cbn in G. inversion G; subst r. rewrite R4. apply (t_count _ _ _ T root_ino (st_root sto) eq_refl).
        * assert (O : oget (st_objs st2) i = Some r) by (apply (inode_obj st3); auto). destruct (Fl i r O) as (_ & ro & X1 & X2 & X3 & X4 & _). rewrite X4.
          apply (t_count _ _ _ T i ro). rewrite get_inode_obj, X1 by exact Hi. reflexivity.
      + exact Mp.
      + exact Nm.
      + apply D2.
      + intros i r O V. destruct (Ob i r O V) as (ro & _ & _ & _ & [(p & _ & _ & _ & _ & P & _)] & _). eauto.
      + intros i r O V. destruct (Fl i r O) as (_ & ro & _ & _ & _ & _ & X). apply (X V).
      + intros i r O V. left. destruct (Ob i r O V) as (ro & _ & _ & _ & _ & L). exact L.
    - split; cbn [st_root st_heap st_next st_manifest st_objs st3]; auto.
      + rewrite Hh by lia. apply D2.
      + intros b l. unfold h. intros E. apply (d_fresh _ _ _ _ _ _ _ _ D2 b l). 
        destruct (Nat.eq_dec b (st_manifest sto)) as [->|Hb]; [rewrite hget_hfree_same in E; discriminate|]. rewrite hget_hfree_other in E by exact Hb.
        clear - E. revert E. generalize (as_lists (i_asset (st_root sto))). intros ls. revert l. generalize (st_heap st2). induction ls as [|x ls IH]; intros hh l E; auto.
        cbn in E. apply IH in E. destruct (Nat.eq_dec b x) as [->|Hx]; [rewrite hget_hfree_same in E; discriminate|]. rewrite hget_hfree_other in E by exact Hx. exact E.
      + split.
        * intros X. rewrite Forall_forall in R7. specialize (R7 _ X). cbn in R7. lia.
        * eapply Forall_impl; [|exact R7]. cbn. intros; lia.
      + intros i r O. apply (Fl i r O).
      + eapply asset_ok_high; [exact R6| | |exact Hh].
        * intros p P. rewrite R1 in P. inversion P; subst p. auto.
        * intros x X. rewrite Forall_forall in R7. specialize (R7 _ X). cbn in R7. lia.
      + intros i r O V _. destruct (Ob i r O V) as (ro & Oo & Vo & N & [(p & po & ao & a & path & P & Po & Do & Nam & A & (c & Hc & B) & _)] & L).
        exists a, c. split; auto. split; auto. eapply asset_ok_high; [exact A|exact (HighP i r O V)| |exact Hh]. rewrite (proj1 (Fl i r O)). intros x [].
      + intros i r O V _. destruct (Ob i r O V) as (ro & Oo & Vo & N & [(p & po & ao & a & path & P & Po & Do & Nam & A & _ & _ & _ & _ & (pr & n & aq & G & Np & LK & GP & TD))] & L).
        exists pr, p, n, aq. split; [exact G|]. split; [apply Np|]. split; auto. split; auto. split; auto. eapply GPh; eauto. }
  destruct (reset_ok nr (map snd m) st3 I3) as (st4 & E4 & I4 & K4 & H4 & Rt4 & N4 & Ob4).
  { intros i Hi. apply in_map_iff in Hi. destruct Hi as ([p j] & E & Hi). cbn in E. subst j. apply (in_mget _ _ _ Nm) in Hi. apply Mp in Hi.
    destruct Hi as (r & O & V & _). eauto. }
  rewrite E4. cbn [bind]. eexists. split; [reflexivity|].
  destruct (set_state_ok store st4 nr root_ino (st_root st4) SInit I4 eq_refl (m_root_valid _ _ _ (proj2 I4))) as [I5 _]; [congruence|].
  split; [exact I5|]. split.
  { cbn [set_inode st_objs]. change (st_objs (set_inode st4 root_ino (with_state (st_root st4) SInit))) with (st_objs st4). rewrite K4. apply D2. }
  intros i ro Oo. destruct (d_obj _ _ _ _ _ _ _ _ D2 i ro Oo) as (r2 & O2 & P2 & Q2 & C2 & Fl2 & _ & _ & Iv2 & _).
  destruct (Ob4 i r2 O2) as (r & O4 & A4 & V4 & L4 & C4 & S4 & _). exists r. change (st_objs (set_inode st4 root_ino (with_state (st_root st4) SInit))) with (st_objs st4).
  split; auto. split; [unfold parent in *; congruence|]. split; [congruence|]. split; [congruence|]. split.
  - intros V. rewrite V4 in V. destruct (Ob i r2 O2 V) as (ro' & Oo' & Vo & N & [(p & po & ao & a & path & P & Po & Do & Nam & A & _ & _ & _ & St & _)] & L).
    rewrite Oo in Oo'. inversion Oo'; subst ro'. split; auto. exists p, po, ao, a. split; [congruence|]. split; auto. split; auto.
    change (st_heap (set_inode st4 root_ino (with_state (st_root st4) SInit))) with (st_heap st4). rewrite H4.
    destruct (ao_proto _ _ _ _ A) as (p' & P' & Dp & _). rewrite P in P'. inversion P'; subst p'.
    assert (Dh : deref h p = Some a) by (rewrite (deref_same (st_heap st2) h); auto; apply Hh; eapply HighP; eauto).
    split; [exact Dh|]. split; auto.
    rewrite (S4 V a).
    + rewrite St. destruct (ap_eqb a ao); cbn; destruct (atype_eqb (ap_type a) TDir); reflexivity.
    + unfold get_proto. cbn [st_heap st3]. rewrite P, Dh. reflexivity.
    + apply in_map_iff. exists (p, i). split; auto. apply mget_in. apply Mp. eauto.
  - intros V Vo Fu. rewrite V4 in V. apply (proj2 (Iv2 V) Vo Fu).
Qed.
End Set_.
End Store.
