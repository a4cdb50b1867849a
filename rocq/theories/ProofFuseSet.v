(** SetManifest keeps the invariant and the paths of inodes. *)
From Verif Require Import Base ListX Str ModelFuse SpecFuse ProofFuseMem ProofFuseInv ProofFuseOps ProofFusePath.
Local Open Scope N_scope.

Lemma child_inos_in st s i : In i (child_inos st s) <-> exists n p, In (n, p) (as_lookup s) /\ mget (st_map st) p = Some i.
Proof.
  unfold child_inos. rewrite in_concat. split.
  - intros (l & H & Hi). apply in_map_iff in H. destruct H as ([n p] & E & H). cbn in E. exists n, p. split; auto.
    destruct (mget (st_map st) p); subst l; [destruct Hi as [->|[]]; auto|contradiction].
  - intros (n & p & H & E). exists [i]. split; [|now left]. apply in_map_iff. exists (n, p). cbn. rewrite E. auto.
Qed.
Lemma child_inos_nodup st s : NoDup (map fst (as_lookup s)) ->
  (forall n1 p1 n2 p2 i, In (n1, p1) (as_lookup s) -> In (n2, p2) (as_lookup s) -> mget (st_map st) p1 = Some i -> mget (st_map st) p2 = Some i -> n1 = n2) ->
  NoDup (child_inos st s).
Proof.
  unfold child_inos. induction (as_lookup s) as [|[n p] l IH]; cbn; intros N H; [constructor|].
  inversion N as [|x y Hx Hy]; subst.
  assert (R : NoDup (concat (map (fun e : bytes * ptr => match mget (st_map st) (snd e) with Some i => [i] | None => [] end) l))).
  { apply IH; auto. intros. eapply H; eauto. }
  destruct (mget (st_map st) p) as [i|] eqn:E; cbn; auto. constructor; auto.
  intros X. apply in_concat in X. destruct X as (l0 & X & Hi). apply in_map_iff in X. destruct X as ([n' p'] & E' & X). cbn in E'.
  destruct (mget (st_map st) p') eqn:E2; subst l0; [|contradiction]. destruct Hi as [->|[]].
  assert (n = n') by (eapply H; eauto). subst n'. apply Hx. change n with (fst (n, p')). now apply in_map.
Qed.

Lemma nodup_both {A} (a b : list A) : NoDup a -> NoDup b -> (forall x, In x a -> In x b -> False) -> NoDup (a ++ b).
Proof.
  intros Ha Hb H. induction Ha as [|x a Hx Ha IH]; cbn; auto. constructor.
  - intros X. apply in_app_or in X. destruct X as [X|X]; [auto|]. apply (H x); [now left|exact X].
  - apply IH. intros y Y1 Y2. apply (H y); [now right|exact Y2].
Qed.

Section Set_.
Variable store : cid -> option (list aproto).
Notation Inv := (Inv store).
Notation asset_ok := (asset_ok store).
Notation asset_at := (asset_at store).
Variables (sto : state) (oldroot nr : aproto) (fetch : cid -> option (list aproto)).
Hypothesis I0 : Inv sto oldroot.
Hypothesis U : names_unique store nr.
Hypothesis LG : only_root_is_large store nr.
Hypothesis F : forall id l, fetch id = Some l -> store id = Some l.
Notation al := (st_next sto).

Definition full : Prop := forall id, In id (ap_ind nr) -> fetch id <> None.
Definition newb (r : inode) : bool := match as_proto (i_asset r) with Some p => (al <=? p_al p)%nat | None => false end.
Definition old (r : inode) : Prop := is_valid r = true /\ newb r = false.
Definition new (r : inode) : Prop := is_valid r = true /\ newb r = true.

Record new_ok (st : state) (i : ino) (ro r : inode) : Prop := {
  n_proto : exists p po ao a path, as_proto (i_asset r) = Some p /\ as_proto (i_asset ro) = Some po /\ deref (st_heap sto) po = Some ao /\
      ap_name a = ap_name ao /\ asset_ok (st_heap st) (i_asset r) a /\
      (exists c, In c (dir_children store nr) /\ below store c a) /\ at_path sto i path /\ asset_at nr path = Some a /\
      i_state r = (if ap_eqb a ao then SUpdatedProto else SUpdated) /\
      (exists pr n aq, get_inode st (parent r) = Ok pr /\ new pr /\ lk_get (as_lookup (i_asset pr)) n = Some p /\
         get_proto (st_heap st) (i_asset pr) = Ok aq /\ ap_type aq = TDir)
}.
Definition lost (i : ino) : Prop := full -> exists path, at_path sto i path /\ asset_at nr path = None.

Record mid (Q : list ino) (W : list (ino * ino)) (outd : list ptr) (st : state) : Prop := {
  d_heap : keeps (st_heap sto) (st_heap st) al;
  d_man : hget (st_heap st) al = Some [nr];
  d_fresh : heap_below (st_heap st) (st_next st);
  d_root : as_proto (i_asset (st_root st)) = Some (mkptr al 0 []) /\ parent (st_root st) = root_ino /\
      i_nlookup (st_root st) = i_nlookup (st_root sto) /\ i_children (st_root st) = i_children (st_root sto) /\ is_valid (st_root st) = true /\
      asset_ok (st_heap st) (i_asset (st_root st)) nr /\ Forall (fun x => (al < x < st_next st)%nat) (as_lists (i_asset (st_root st)));
  d_keys : map fst (st_objs st) = map fst (st_objs sto);
  d_obj : forall i ro, oget (st_objs sto) i = Some ro -> exists r, oget (st_objs st) i = Some r /\ parent r = parent ro /\
      i_nlookup r = i_nlookup ro /\ i_children r = i_children ro /\ as_lists (i_asset r) = [] /\
      (old r -> r = ro) /\ (new r -> is_valid ro = true /\ new_ok st i ro r) /\
      (is_valid r = false -> i_asset r = mkasset (parent r) None [] [] /\ (is_valid ro = true -> lost i)) /\ (is_valid ro = false -> is_valid r = false);
  d_map : forall p i, mget (st_map st) p = Some i <-> exists ro r, oget (st_objs sto) i = Some ro /\ oget (st_objs st) i = Some r /\
      is_valid r = true /\ (as_proto (i_asset ro) = Some p \/ as_proto (i_asset r) = Some p);
  d_mapnd : NoDup (map fst (st_map st));
  d_invalid : forall i, In i (st_invalid st) <-> exists r, oget (st_objs st) i = Some r /\ is_valid r = false;
  d_W : forall q i, In (q, i) W -> ~ In i Q /\ exists r, oget (st_objs st) i = Some r /\ old r /\ parent r = q /\ exists pr, get_inode st q = Ok pr /\ new pr;
  d_Wnd : NoDup (map snd W);
  d_Q : forall i, In i Q -> exists r, oget (st_objs st) i = Some r /\ old r /\ lost i /\ (forall pr, get_inode st (parent r) = Ok pr -> ~ old pr);
  d_Qnd : NoDup Q;
  d_done : forall i r, oget (st_objs st) i = Some r -> old r -> In i Q \/ In (parent r, i) W \/ exists pr, get_inode st (parent r) = Ok pr /\ old pr;
  d_out : forall p, In p outd <-> exists i ro r, oget (st_objs sto) i = Some ro /\ as_proto (i_asset ro) = Some p /\ oget (st_objs st) i = Some r /\ new r;
  d_outnd : NoDup outd
}.

Lemma valid_cases r : is_valid r = true -> old r \/ new r.
Proof. intros V. unfold old, new. destruct (newb r); auto. Qed.
Lemma old_new r : old r -> new r -> False.
Proof. unfold old, new. intros [_ A] [_ B]. congruence. Qed.

(** Facts about the old state. *)
Lemma sto_ptr i ro p : oget (st_objs sto) i = Some ro -> is_valid ro = true -> as_proto (i_asset ro) = Some p ->
  (p_al p < al)%nat /\ exists a, deref (st_heap sto) p = Some a.
Proof.
  intros O V P. pose proof I0 as [T M]. destruct (t_live _ _ _ T i ro O V) as [L|[]]. destruct (obj_inode sto i ro T O) as [G _].
  destruct (valid_proto store sto oldroot i ro I0 G V (fun _ => L)) as (a & p' & _ & P' & D & _). rewrite P in P'. inversion P'; subst p'.
  split; [|eauto]. unfold deref in D. destruct (hget (st_heap sto) (p_al p)) eqn:E; [|discriminate]. apply (m_fresh _ _ _ M _ _ E).
Qed.
Lemma sto_newb i ro : oget (st_objs sto) i = Some ro -> is_valid ro = true -> newb ro = false.
Proof.
  intros O V. unfold newb. destruct (as_proto (i_asset ro)) as [p|] eqn:P; auto. apply Nat.leb_gt. apply (sto_ptr i ro p); auto.
Qed.
Lemma sto_same_proto i j ri rj p : oget (st_objs sto) i = Some ri -> oget (st_objs sto) j = Some rj -> is_valid ri = true -> is_valid rj = true ->
  as_proto (i_asset ri) = Some p -> as_proto (i_asset rj) = Some p -> i = j.
Proof.
  intros Oi Oj Vi Vj Pi Pj. pose proof I0 as [T M].
  assert (X : mget (st_map sto) p = Some i) by (apply (t_map _ _ _ T); eauto).
  assert (Y : mget (st_map sto) p = Some j) by (apply (t_map _ _ _ T); eauto). congruence.
Qed.
(** Two inodes with the same parent and name are the same. *)
Lemma sto_same_name i j ri rj pi pj ai aj : oget (st_objs sto) i = Some ri -> oget (st_objs sto) j = Some rj -> is_valid ri = true -> is_valid rj = true ->
  parent ri = parent rj -> as_proto (i_asset ri) = Some pi -> as_proto (i_asset rj) = Some pj -> deref (st_heap sto) pi = Some ai -> deref (st_heap sto) pj = Some aj ->
  ap_name ai = ap_name aj -> i = j.
Proof.
  intros Oi Oj Vi Vj E Pi Pj Di Dj Nm. pose proof I0 as [T M].
  destruct (t_live _ _ _ T i ri Oi Vi) as [Li|[]]. destruct (t_live _ _ _ T j rj Oj Vj) as [Lj|[]].
  destruct (m_child _ _ _ M i ri Oi Vi Li) as (pr & p1 & n1 & a1 & G1 & V1 & P1 & LK1 & _).
  destruct (m_child _ _ _ M j rj Oj Vj Lj) as (pr' & p2 & n2 & a2 & G2 & V2 & P2 & LK2 & _).
  rewrite E in G1. rewrite G1 in G2. inversion G2; subst pr'.
  assert (Lp : parent rj <> root_ino -> livb pr = true).
  { intros Hp. pose proof (inode_obj _ _ _ Hp G1) as Op. destruct (t_live _ _ _ T _ _ Op V1) as [X|[]]; auto. }
  destruct (valid_asset store sto oldroot _ pr I0 G1 V1 Lp) as (a & A & _).
  destruct (ao_ptr _ _ _ _ A _ _ LK1) as (c1 & D1 & N1 & _). destruct (ao_ptr _ _ _ _ A _ _ LK2) as (c2 & D2 & N2 & _).
  assert (n1 = n2) by congruence. subst n2. apply (sto_same_proto i j ri rj p1); auto. congruence.
Qed.

(** What is known about updated inodes, and the root. *)
Lemma newish_info Q W outd st q pr : mid Q W outd st -> get_inode st q = Ok pr -> new pr ->
  exists aq path p, as_proto (i_asset pr) = Some p /\ deref (st_heap st) p = Some aq /\ (al <= p_al p)%nat /\ asset_ok (st_heap st) (i_asset pr) aq /\ at_path sto q path /\ asset_at nr path = Some aq /\
    below store nr aq /\ (q = root_ino -> aq = nr) /\ (q <> root_ino -> ap_ind aq = [] /\ as_lists (i_asset pr) = []).
Proof.
  intros D G N. destruct (N.eq_dec q root_ino) as [->|Hq].
  - rewrite get_inode_root in G. inversion G; subst pr. destruct (d_root _ _ _ _ D) as (P & _ & _ & _ & _ & A & _).
    destruct (ao_proto _ _ _ _ A) as (p & P' & Dp & _). rewrite P in P'. inversion P'; subst p.
    exists nr, [], (mkptr al 0 []). split; auto. split; auto. split; auto. split; auto. split; [constructor|]. split; auto. split; [constructor|]. split; auto. congruence.
  - pose proof (inode_obj _ _ _ Hq G) as O.
    assert (K : In q (map fst (st_objs sto))) by (rewrite <- (d_keys _ _ _ _ D); apply oget_key; eauto).
    apply oget_key in K. destruct K as [ro Oo]. destruct (d_obj _ _ _ _ D q ro Oo) as (r & Or & _ & _ & _ & Fl & _ & Nw & _).
    rewrite O in Or. inversion Or; subst r. destruct (Nw N) as (_ & [(p & po & ao & a & path & P & _ & _ & _ & A & (c & Hc & B) & AP & AT & _)]).
    destruct (ao_proto _ _ _ _ A) as (p' & P' & Dp & _). rewrite P in P'. inversion P'; subst p'.
    exists a, path, p. split; auto. split; auto. split. { destruct N as [_ N]. unfold newb in N. rewrite P in N. now apply Nat.leb_le. }
    split; auto. split; auto. split; auto. split; [econstructor; eauto|]. split; [congruence|]. intros _. split; auto. eapply LG; eauto.
Qed.
Lemma mid_obj Q W outd st i r : mid Q W outd st -> oget (st_objs st) i = Some r -> i <> root_ino /\ get_inode st i = Ok r /\ exists ro, oget (st_objs sto) i = Some ro.
Proof.
  intros D O. assert (K : In i (map fst (st_objs sto))) by (rewrite <- (d_keys _ _ _ _ D); apply oget_key; eauto).
  assert (i <> root_ino) by (intros ->; apply (t_noroot _ _ _ (proj1 I0)); auto). split; auto.
  split; [rewrite get_inode_obj, O by auto; reflexivity|]. now apply oget_key.
Qed.
Lemma mid_old Q W outd st i r : mid Q W outd st -> oget (st_objs st) i = Some r -> old r ->
  oget (st_objs sto) i = Some r /\ livb r = true /\ exists p a, as_proto (i_asset r) = Some p /\ deref (st_heap sto) p = Some a /\ deref (st_heap st) p = Some a /\ get_proto (st_heap st) (i_asset r) = Ok a /\ (p_al p < al)%nat.
Proof.
  intros D O Ol. destruct (mid_obj _ _ _ _ _ _ D O) as (Hi & G & ro & Oo). destruct (d_obj _ _ _ _ D i ro Oo) as (r' & Or & _ & _ & _ & _ & Eo & _).
  rewrite O in Or. inversion Or; subst r'. specialize (Eo Ol). subst ro. split; auto. pose proof I0 as [T M].
  destruct (t_live _ _ _ T i r Oo (proj1 Ol)) as [L|[]]. split; auto.
  destruct (t_proto _ _ _ T i r Oo (proj1 Ol)) as [p P]. destruct (sto_ptr i r p Oo (proj1 Ol) P) as [Lp [a Da]].
  assert (Da' : deref (st_heap st) p = Some a) by (eapply deref_keeps; [apply M|apply D|exact Da]).
  exists p, a. split; auto. split; auto. split; auto. split; auto. unfold get_proto. rewrite P, Da'. reflexivity.
Qed.
(** The children of an inode that is not updated yet. *)
Lemma old_children Q W outd st i r : mid Q W outd st -> oget (st_objs st) i = Some r -> old r ->
  (forall c, In c (child_inos st (i_asset r)) -> exists rc, oget (st_objs st) c = Some rc /\ old rc /\ parent rc = i) /\
  (forall c rc, oget (st_objs st) c = Some rc -> old rc -> parent rc = i -> In c (child_inos st (i_asset r)) /\
     exists a, get_proto (st_heap st) (i_asset r) = Ok a /\ ap_type a = TDir) /\
  NoDup (child_inos st (i_asset r)).
Proof.
  intros D O Ol. destruct (mid_old _ _ _ _ _ _ D O Ol) as (Oo & L & p & a & P & Da & Da' & GP & Lp).
  pose proof I0 as [T M]. destruct (obj_inode sto i r T Oo) as [Go Hi].
  destruct (valid_asset store sto oldroot i r I0 Go (proj1 Ol) (fun _ => L)) as (a' & A & _).
  assert (Key : forall n q c, lk_get (as_lookup (i_asset r)) n = Some q -> mget (st_map st) q = Some c ->
            exists rc, oget (st_objs st) c = Some rc /\ oget (st_objs sto) c = Some rc /\ old rc /\ parent rc = i /\ as_proto (i_asset rc) = Some q).
  { intros n q c LK MG. destruct (ao_ptr _ _ _ _ A n q LK) as (x & Dx & Nx & _).
    assert (Lq : (p_al q < al)%nat). { unfold deref in Dx. destruct (hget (st_heap sto) (p_al q)) eqn:E; [|discriminate]. apply (m_fresh _ _ _ M _ _ E). }
    apply (d_map _ _ _ _ D) in MG. destruct MG as (ro & rc & Oc & Oc' & Vc & Pc).
    destruct (d_obj _ _ _ _ D c ro Oc) as (rc' & X & Pa & _ & _ & _ & Eo & Nw & _ & Iv). rewrite Oc' in X. inversion X; subst rc'.
    assert (Vo : is_valid ro = true). { destruct (is_valid ro) eqn:E; auto. rewrite (Iv eq_refl) in Vc. discriminate. }
    destruct (valid_cases rc Vc) as [Hc|Hc].
    - pose proof (Eo Hc). subst rc. exists ro. split; auto. split; auto. split; auto.
      assert (Pq : as_proto (i_asset ro) = Some q) by tauto. split; auto.
      destruct (t_live _ _ _ T c ro Oc Vo) as [Lc|[]].
      eapply (parent_unique store sto oldroot c ro i r n q); eauto. apply Ol.
    - exfalso. destruct (Nw Hc) as (_ & [(p1 & po & ao & a1 & path & P1 & Po & Do & _ & _ & _ & _ & _ & _ & (pr & n1 & aq & Gpr & Npr & _))]).
      assert (Pq : as_proto (i_asset ro) = Some q).
      { destruct Pc as [Y|Y]; auto. exfalso. destruct Hc as [_ Hc]. unfold newb in Hc. rewrite Y in Hc. apply Nat.leb_le in Hc. lia. }
      destruct (t_live _ _ _ T c ro Oc Vo) as [Lc|[]].
      assert (Pi : parent ro = i) by (eapply (parent_unique store sto oldroot c ro i r n q); eauto; apply Ol).
      rewrite Pa, Pi in Gpr. destruct (mid_obj _ _ _ _ _ _ D O) as (_ & Gi & _). rewrite Gi in Gpr. inversion Gpr; subst pr.
      eapply old_new; eauto. }
  split; [|split].
  - intros c Hc. apply child_inos_in in Hc. destruct Hc as (n & q & H1 & H2). apply (lk_in_get _ _ _ (ao_nodup _ _ _ _ A)) in H1.
    destruct (Key n q c H1 H2) as (rc & X1 & X2 & X3 & X4 & _). eauto.
  - intros c rc Oc Hc Pc. destruct (mid_old _ _ _ _ _ _ D Oc Hc) as (Oco & Lc & pc & ac & Pp & _).
    destruct (m_child _ _ _ M c rc Oco (proj1 Hc) Lc) as (pr & q & n & b & G1 & V1 & P1 & LK & GP1 & TD).
    rewrite Pc, Go in G1. inversion G1; subst pr. split.
    + apply child_inos_in. exists n, q. split; [now apply lk_get_in|]. apply (d_map _ _ _ _ D). exists rc, rc. split; auto. split; auto. split; [apply Hc|auto].
    + exists b. split; auto. unfold get_proto in *. rewrite P in *. rewrite Da in GP1. rewrite Da'. exact GP1.
  - apply child_inos_nodup; [apply (ao_nodup _ _ _ _ A)|]. intros n1 p1 n2 p2 c H1 H2 E1 E2.
    apply (lk_in_get _ _ _ (ao_nodup _ _ _ _ A)) in H1, H2.
    destruct (Key _ _ _ H1 E1) as (rc & X1 & X2 & X3 & X4 & X5). destruct (Key _ _ _ H2 E2) as (rc' & Y1 & Y2 & Y3 & Y4 & Y5).
    rewrite X1 in Y1. inversion Y1; subst rc'. rewrite X5 in Y5. inversion Y5; subst p2.
    destruct (ao_ptr _ _ _ _ A n1 p1 H1) as (x & Dx & Nx & _). destruct (ao_ptr _ _ _ _ A n2 p1 H2) as (y & Dy & Ny & _). congruence.
Qed.

Lemma new_ok_stable st st' i ro r : new_ok st i ro r -> heap_below (st_heap st) (st_next st) -> keeps (st_heap st) (st_heap st') (st_next st) ->
  (forall q pr, get_inode st q = Ok pr -> new pr -> exists pr', get_inode st' q = Ok pr' /\ new pr' /\ as_proto (i_asset pr') = as_proto (i_asset pr) /\
     forall n p, lk_get (as_lookup (i_asset pr)) n = Some p -> lk_get (as_lookup (i_asset pr')) n = Some p) ->
  new_ok st' i ro r.
Proof.
  intros [(p & po & ao & a & path & P & Po & Do & Nm & A & C & AP & AT & S & (pr & n & aq & G & Nw & LK & GP & TD))] B K H.
  destruct (H _ _ G Nw) as (pr' & G' & Nw' & Pr' & Lk'). constructor.
  exists p, po, ao, a, path. split; auto. split; auto. split; auto. split; auto. split; [eapply asset_ok_keeps; eauto|]. split; auto. split; auto. split; auto. split; auto.
  exists pr', n, aq. split; auto. split; auto. split; auto. split; auto. unfold get_proto in *. rewrite Pr'. destruct (as_proto (i_asset pr)); [|discriminate].
  destruct (deref (st_heap st) p0) eqn:E; [|discriminate]. rewrite (deref_keeps _ _ _ _ _ B K E). exact GP.
Qed.

Definition oldb (r : inode) : bool := is_valid r && negb (newb r).
Lemma oldb_iff r : oldb r = true <-> old r.
Proof. unfold oldb, old. rewrite andb_true_iff, negb_true_iff. reflexivity. Qed.
Fixpoint nold (l : list (ino * inode)) : nat := match l with [] => 0 | (_, r) :: l' => (if oldb r then 1 else 0) + nold l' end%nat.
Lemma nold_oset l i r r' : NoDup (map fst l) -> oget l i = Some r ->
  (nold (oset l i r') + (if oldb r then 1 else 0) = nold l + (if oldb r' then 1 else 0))%nat.
Proof.
  induction l as [|[k s] l IH]; cbn [oget oset map fst]; [discriminate|]. intros N. inversion N as [|x y Hx Hy]; subst.
  destruct (N.eqb_spec i k); cbn [nold].
  - intros E. inversion E; subst. lia.
  - intros E. specialize (IH Hy E). lia.
Qed.
Lemma nold_zero l i r : oget l i = Some r -> old r -> (0 < nold l)%nat.
Proof.
  induction l as [|[k s] l IH]; cbn; [discriminate|]. destruct (N.eqb_spec i k).
  - intros E Ol. inversion E; subst. apply oldb_iff in Ol. rewrite Ol. lia.
  - intros E Ol. specialize (IH E Ol). lia.
Qed.
Lemma nold_le l : (nold l <= length l)%nat.
Proof. induction l as [|[k s] l IH]; cbn; auto. destruct (oldb s); lia. Qed.

(** One step of InvalidateTree. *)
Definition inv_asset (r : inode) : asset := mkasset (parent r) None [] [].
Definition inv_node (r : inode) : inode := mkinode (inv_asset r) (i_nlookup r) (i_children r) SInvalid.
Definition inv_state (st : state) (i : ino) (r : inode) (p : ptr) : state :=
  with_tables st (oset (st_objs st) i (inv_node r)) (mdel (st_map st) p) (i :: st_invalid st).

Lemma invalidate_step Q W outd st i r p :
  mid (i :: Q) W outd st -> oget (st_objs st) i = Some r -> as_proto (i_asset r) = Some p ->
  mid (Q ++ child_inos st (i_asset r)) W outd (inv_state st i r p).
Proof.
  intros D O P. destruct (d_Q _ _ _ _ D i (or_introl eq_refl)) as (r0 & O0 & Ol & Lo & Pn). rewrite O in O0. inversion O0; subst r0. clear O0.
  destruct (mid_old _ _ _ _ _ _ D O Ol) as (Oo & L & p0 & a & P0 & Da & Da' & GP & Lp). rewrite P in P0. inversion P0; subst p0. clear P0.
  destruct (old_children _ _ _ _ _ _ D O Ol) as (Ch1 & Ch2 & Ch3).
  destruct (mid_obj _ _ _ _ _ _ D O) as (Hi & G & _).
  set (st' := inv_state st i r p).
  assert (O' : forall j, oget (st_objs st') j = if j =? i then Some (inv_node r) else oget (st_objs st) j).
  { intros j. unfold st', inv_state. cbn [st_objs with_tables]. rewrite oget_oset, O. reflexivity. }
  assert (G' : forall j, get_inode st' j = if j =? i then Ok (inv_node r) else get_inode st j).
  { intros j. unfold get_inode. rewrite O'. destruct (N.eqb_spec j i) as [->|Hj].
    - destruct (N.eqb_spec i root_ino); [contradiction|reflexivity].
    - reflexivity. }
  assert (Nin : is_valid (inv_node r) = false) by reflexivity.
  assert (St : forall q pr, get_inode st q = Ok pr -> new pr -> get_inode st' q = Ok pr).
  { intros q pr Gq Nq. rewrite G'. destruct (N.eqb_spec q i) as [->|Hq]; auto. rewrite G in Gq. inversion Gq; subst pr. exfalso. eapply old_new; eauto. }
  assert (NOK : forall j ro r', new_ok st j ro r' -> new_ok st' j ro r').
  { intros j ro r' H. eapply new_ok_stable; [exact H|apply D|apply keeps_refl|]. intros q pr Gq Nq. exists pr. auto. }
  pose proof (d_Qnd _ _ _ _ D) as QN. inversion QN as [|x y Qi Qn]; subst.
  split.
  - apply D.
  - apply D.
  - apply D.
  - apply D.
  - unfold st', inv_state. cbn [st_objs with_tables]. rewrite oset_keys. apply D.
  - intros j ro Oj. destruct (d_obj _ _ _ _ D j ro Oj) as (rj & Or & H1 & H2 & H3 & H4 & H5 & H6 & H7 & H8).
    destruct (N.eq_dec j i) as [->|Hj].
    + rewrite O in Or. inversion Or; subst rj. exists (inv_node r). rewrite O', N.eqb_refl. split; auto. split; [exact H1|]. split; auto. split; auto. split; auto.
      split; [intros [X _]; discriminate|]. split; [intros [X _]; discriminate|]. split; auto.
    + exists rj. rewrite O'. destruct (N.eqb_spec j i); [contradiction|]. split; auto. split; auto. split; auto. split; auto. split; auto. split; auto.
      split; [intros X; destruct (H6 X); auto|]. auto.
  - intros q j. unfold st' at 1. unfold inv_state. cbn [st_map with_tables]. rewrite mget_mdel. destruct (ptr_eqb q p) eqn:E.
    + apply ptr_eqb_iff in E. subst q. split; [discriminate|]. intros (ro & rj & X1 & X2 & X3 & X4). rewrite O' in X2.
      destruct (N.eqb_spec j i) as [->|Hj]; [inversion X2; subst rj; discriminate|]. exfalso. apply Hj.
      assert (Y1 : mget (st_map st) p = Some j) by (apply (d_map _ _ _ _ D); exists ro, rj; auto).
      assert (Y2 : mget (st_map st) p = Some i) by (apply (d_map _ _ _ _ D); exists r, r; split; auto; split; auto; split; auto; apply Ol). congruence.
    + rewrite (d_map _ _ _ _ D). split.
      * intros (ro & rj & X1 & X2 & X3 & X4). exists ro, rj. rewrite O'. destruct (N.eqb_spec j i) as [->|Hj]; auto. exfalso.
        rewrite O in X2. inversion X2; subst rj. rewrite Oo in X1. inversion X1; subst ro.
        assert (q = p) by (destruct X4; congruence). subst. rewrite ptr_eqb_refl in E. discriminate.
      * intros (ro & rj & X1 & X2 & X3 & X4). rewrite O' in X2. destruct (N.eqb_spec j i) as [->|Hj]; [inversion X2; subst rj; discriminate|]. exists ro, rj. auto.
  - unfold st', inv_state. cbn [st_map with_tables]. apply mdel_nodup. apply D.
  - intros j. unfold st' at 1. unfold inv_state. cbn [st_invalid with_tables In]. rewrite (d_invalid _ _ _ _ D). split.
    + intros [<-|(rj & X1 & X2)]; [exists (inv_node r); rewrite O', N.eqb_refl; auto|]. exists rj. rewrite O'. destruct (N.eqb_spec j i) as [->|Hj]; auto.
      rewrite O in X1. inversion X1; subst rj. destruct Ol. congruence.
    + intros (rj & X1 & X2). rewrite O' in X1. destruct (N.eqb_spec j i) as [->|Hj]; auto. right. eauto.
  - intros q j H. destruct (d_W _ _ _ _ D q j H) as (X & rj & X1 & X2 & X3 & pr & X4 & X5).
    assert (Hj : j <> i) by (intros ->; apply X; now left). split.
    + intros Y. apply in_app_or in Y. destruct Y as [Y|Y]; [apply X; now right|].
      destruct (Ch1 j Y) as (rc & Y1 & Y2 & Y3). rewrite X1 in Y1. inversion Y1; subst rc. rewrite X3 in Y3. rewrite Y3, G in X4. inversion X4; subst pr.
      exact (old_new _ Ol X5).
    + exists rj. rewrite O'. destruct (N.eqb_spec j i); [contradiction|]. split; auto. split; auto. split; auto. exists pr. split; auto.
  - apply D.
  - intros j H. apply in_app_or in H. destruct H as [H|H].
    + assert (Hj : j <> i) by (intros ->; contradiction). destruct (d_Q _ _ _ _ D j (or_intror H)) as (rj & X1 & X2 & X3 & X4).
      exists rj. rewrite O'. destruct (N.eqb_spec j i); [contradiction|]. split; auto. split; auto. split; auto.
      intros pr Gp. rewrite G' in Gp. destruct (N.eqb_spec (parent rj) i); [inversion Gp; subst pr; intros [X _]; discriminate|auto].
    + destruct (Ch1 j H) as (rc & Y1 & Y2 & Y3). assert (Hj : j <> i).
      { intros ->. rewrite O in Y1. inversion Y1; subst rc. apply (ordered_self (st_objs sto) i r); try apply I0; auto. }
      exists rc. rewrite O'. destruct (N.eqb_spec j i); [contradiction|]. split; auto. split; auto. split.
      * intros Fu. destruct (Lo Fu) as (path & AP & AT). destruct (mid_old _ _ _ _ _ _ D Y1 Y2) as (Oc & Lc & pc & ac & Pc & Dc & _).
        exists (path ++ [ap_name ac]). split; [econstructor; eauto; [apply Y2|rewrite Y3; exact AP]|]. rewrite asset_at_app, AT. reflexivity.
      * intros pr Gp. rewrite Y3, G', N.eqb_refl in Gp. inversion Gp; subst pr. intros [X _]; discriminate.
  - apply nodup_both; auto. intros j H1 H2. destruct (Ch1 j H2) as (rc & Y1 & Y2 & Y3).
    destruct (d_Q _ _ _ _ D j (or_intror H1)) as (rj & X1 & X2 & X3 & X4). rewrite Y1 in X1. inversion X1; subst rj. rewrite Y3 in X4. apply (X4 r G Ol).
  - intros j rj X Hj. rewrite O' in X. destruct (N.eqb_spec j i) as [->|Hn]; [inversion X; subst rj; destruct Hj; discriminate|].
    destruct (d_done _ _ _ _ D j rj X Hj) as [[Y|Y]|[Y|(pr & Y1 & Y2)]].
    + congruence.
    + left. apply in_or_app. now left.
    + auto.
    + destruct (N.eq_dec (parent rj) i) as [E|E].
      * left. apply in_or_app. right. apply (Ch2 j rj X Hj E).
      * right. right. exists pr. rewrite G'. destruct (N.eqb_spec (parent rj) i); [contradiction|]. auto.
  - intros q. rewrite (d_out _ _ _ _ D). split; intros (j & ro & rj & X1 & X2 & X3 & X4); exists j, ro, rj; (split; [exact X1|]); (split; [exact X2|]).
    + rewrite O'. destruct (N.eqb_spec j i) as [->|Hj]; auto. exfalso. rewrite O in X3. inversion X3; subst rj. eapply old_new; eauto.
    + rewrite O' in X3. destruct (N.eqb_spec j i) as [->|Hj]; auto. inversion X3; subst rj. destruct X4; discriminate.
  - apply D.
Qed.

Lemma invalidate_ok W outd : forall fuel st Q, mid Q W outd st -> (nold (st_objs st) < fuel)%nat ->
  exists st', invalidate fuel st Q = Ok st' /\ mid [] W outd st' /\ (nold (st_objs st') <= nold (st_objs st))%nat /\
    (Q <> [] -> (nold (st_objs st') < nold (st_objs st))%nat).
Proof.
  induction fuel as [|fuel IH]; intros st Q D Lf; [lia|].
  destruct Q as [|i Q]; [exists st; split; auto; split; auto; split; auto; congruence|].
  destruct (d_Q _ _ _ _ D i (or_introl eq_refl)) as (r & O & Ol & _). destruct (mid_obj _ _ _ _ _ _ D O) as (Hi & G & _).
  destruct (mid_old _ _ _ _ _ _ D O Ol) as (Oo & L & p & a & P & Da & Da' & GP & Lp).
  cbn [invalidate]. rewrite G. cbn [bind]. rewrite (proj1 Ol). cbn [negb]. rewrite GP. cbn [bind]. rewrite P.
  assert (MG : mget (st_map st) p = Some i) by (apply (d_map _ _ _ _ D); exists r, r; split; auto; split; auto; split; auto; apply Ol).
  rewrite MG. unfold asset_update. cbn [bind].
  assert (Fl : as_lists (i_asset r) = []) by (apply (m_flat _ _ _ (proj2 I0) i); auto).
  rewrite Fl. cbn [hfree_all fold_left]. rewrite with_mem_same.
  set (cs := if atype_eqb (ap_type a) TDir then child_inos st (i_asset r) else []).
  assert (Ecs : cs = child_inos st (i_asset r)).
  { unfold cs. destruct (atype_eqb (ap_type a) TDir) eqn:TD; auto. destruct (child_inos st (i_asset r)) as [|c l] eqn:E; auto. exfalso.
    destruct (old_children _ _ _ _ _ _ D O Ol) as (Ch1 & Ch2 & _). rewrite E in Ch1. destruct (Ch1 c (or_introl eq_refl)) as (rc & X1 & X2 & X3).
    destruct (Ch2 c rc X1 X2 X3) as (_ & b & GPb & TDb). rewrite GP in GPb. inversion GPb; subst b. apply atype_eqb_iff in TDb. congruence. }
  rewrite Ecs. rewrite set_obj by exact Hi. cbn [st_objs st_map st_invalid with_tables].
  change (with_tables (with_tables st (oset (st_objs st) i (mkinode (mkasset (as_parent (i_asset r)) None [] []) (i_nlookup r) (i_children r) SInvalid)) (st_map st) (st_invalid st))
     (oset (st_objs st) i (mkinode (mkasset (as_parent (i_asset r)) None [] []) (i_nlookup r) (i_children r) SInvalid)) (mdel (st_map st) p) (i :: st_invalid st))
    with (inv_state st i r p).
  assert (NX : (nold (st_objs (inv_state st i r p)) + 1 = nold (st_objs st))%nat).
  { unfold inv_state. cbn [st_objs with_tables].
    assert (ND : NoDup (map fst (st_objs st))) by (rewrite (d_keys _ _ _ _ D); apply I0).
    pose proof (nold_oset (st_objs st) i r (inv_node r) ND O) as X. apply oldb_iff in Ol. rewrite Ol in X. change (oldb (inv_node r)) with false in X. cbv iota in X. lia. }
  destruct (IH (inv_state st i r p) (Q ++ child_inos st (i_asset r))) as (st' & E1 & E2 & E3 & _).
  - apply invalidate_step; auto.
  - lia.
  - exists st'. split; [exact E1|]. split; auto. split; [lia|]. intros _. lia.
Qed.

(** Loading lists of an updated inode. *)
Lemma load_mid Q W outd st q pr aq stop ok h nx s :
  mid Q W outd st -> get_inode st q = Ok pr -> new pr -> get_proto (st_heap st) (i_asset pr) = Ok aq ->
  load fetch stop (skipn (length (as_lists (i_asset pr))) (ap_ind aq)) (st_heap st) (st_next st) (i_asset pr) = (ok, h, nx, s) ->
  let st1 := stored st q pr h nx s in
  mid Q W outd st1 /\ get_inode st1 q = Ok (with_asset pr s) /\ st_heap st1 = h /\ st_objs st1 = st_objs st /\ st_map st1 = st_map st /\
  as_proto s = as_proto (i_asset pr) /\ keeps (st_heap st) h (st_next st) /\
  asset_ok h s aq /\ (ok = true -> stop (as_lookup s) = true \/ length (as_lists s) = length (ap_ind aq)) /\ (ok = false -> ~ full).
Proof.
  intros D G N GP LD st1.
  destruct (newish_info _ _ _ _ _ _ D G N) as (aq' & path & p & P & Dp & Lp & A & AP & AT & B & Rr & Rn).
  assert (aq' = aq) by (unfold get_proto in GP; rewrite P, Dp in GP; congruence). subst aq'.
  destruct (load_ok store fetch stop aq F (U aq B) _ _ _ _ _ _ _ _ (d_fresh _ _ _ _ D) A eq_refl LD) as (LT & A' & OK).
  destruct (N.eq_dec q root_ino) as [Hq|Hq].
  - subst q. pose proof G as G0. rewrite get_inode_root in G0. inversion G0; subst pr. clear G0. rewrite (Rr eq_refl) in *.
    destruct LT as (L1 & L2 & L3 & L4 & L5 & (nl & L6 & L7) & L8).
    assert (E : get_inode st1 root_ino = Ok (with_asset (st_root st) s)) by reflexivity.
    assert (E' : forall j, j <> root_ino -> get_inode st1 j = get_inode st j).
    { intros j Hj. unfold st1, stored. rewrite get_set. destruct (N.eqb_spec j root_ino); [contradiction|reflexivity]. }
    assert (SO : st_objs st1 = st_objs st) by reflexivity.
    assert (Nw : forall j r, get_inode st j = Ok r -> exists r', get_inode st1 j = Ok r' /\ is_valid r' = is_valid r /\ newb r' = newb r /\
               as_proto (i_asset r') = as_proto (i_asset r) /\ forall n p, lk_get (as_lookup (i_asset r)) n = Some p -> lk_get (as_lookup (i_asset r')) n = Some p).
    { intros j r Gj. destruct (N.eq_dec j root_ino) as [->|Hj].
      - rewrite get_inode_root in Gj. inversion Gj; subst r. exists (with_asset (st_root st) s). split; auto. split; auto. unfold newb. cbn [with_asset i_asset]. rewrite L2. auto.
      - exists r. rewrite E' by exact Hj. auto 6. }
    assert (Nb : forall j r, get_inode st1 j = Ok r -> exists r', get_inode st j = Ok r' /\ (old r -> old r')).
    { intros j r Gj. destruct (N.eq_dec j root_ino) as [->|Hj].
      - rewrite E in Gj. inversion Gj; subst r. exists (st_root st). split; auto. unfold old, newb. cbn [with_asset i_asset]. rewrite L2. auto.
      - exists r. rewrite E' in Gj by exact Hj. auto. }
    assert (M1 : mid Q W outd st1).
    { destruct D as [D1 D2 D3 D4 D5 D6 D7 D8 D9 D10 D11 D12 D13 D14 D15 D16].
      assert (Hn : (al < st_next st)%nat) by (apply (D3 _ _ D2)).
      split; auto.
      - eapply keeps_trans; [|exact D1|exact L4]. lia.
      - change (st_heap st1) with h. rewrite L4; auto.
      - destruct D4 as (R1 & R2 & R3 & R4 & R5 & R6 & R7).
        change (st_root st1) with (with_asset (st_root st) s). change (st_heap st1) with h. cbn [with_asset i_asset i_nlookup i_children]. unfold parent. cbn [with_asset i_asset].
        split; [rewrite L2; exact R1|]. split; [rewrite L1; exact R2|]. split; auto. split; auto. split; auto. split; auto.
        change (st_next st1) with nx. rewrite L6. apply Forall_app. split; [eapply Forall_impl; [|exact R7]|eapply Forall_impl; [|exact L7]]; cbn; intros; lia.
      - intros i ro O. destruct (D6 i ro O) as (r & H1 & H2 & H3 & H4 & H5 & H6 & H7 & H8). exists r. split; auto. split; auto. split; auto. split; auto. split; auto. split; auto. split; auto.
        intros X. destruct (H7 X) as [X1 X2]. split; auto. eapply new_ok_stable; eauto.
        intros j r' Gj Nj. destruct (Nw j r' Gj) as (r'' & Y1 & Y2 & Y3 & Y4 & Y5). exists r''. split; auto. split; auto. unfold new in *. rewrite Y2, Y3. auto.
      - intros i j H. destruct (D10 i j H) as (X & r & X1 & X2 & X3 & r' & X4 & X5). split; auto. exists r. split; auto. split; auto. split; auto.
        destruct (Nw i r' X4) as (r'' & Y1 & Y2 & Y3 & Y4 & Y5). exists r''. split; auto. unfold new in *. rewrite Y2, Y3. auto.
      - intros i H. destruct (D12 i H) as (r & X1 & X2 & X3 & X4). exists r. split; auto. split; auto. split; auto.
        intros r' Gp Op. destruct (Nb _ _ Gp) as (r'' & Y1 & Y2). apply (X4 r'' Y1). auto.
      - intros i r O Ol. destruct (D14 i r O Ol) as [X|[X|(r' & X1 & X2)]]; auto. right. right.
        destruct (Nw _ _ X1) as (r'' & Y1 & Y2 & Y3 & Y4 & Y5). exists r''. split; auto. unfold old in *. rewrite Y2, Y3. auto. }
    split; auto. split; [exact E|]. split; [reflexivity|]. split; [reflexivity|]. split; [reflexivity|]. split; [exact L2|]. split; auto. split; auto. split; auto.
    intros -> Fu. destruct (load_fail _ _ _ _ _ _ _ _ _ LD) as (id & X1 & X2). apply (Fu id); auto.
    rewrite <- (firstn_skipn (length (as_lists (i_asset (st_root st)))) (ap_ind nr)). apply in_or_app. now right.
  - destruct (Rn Hq) as [R1 R2]. rewrite R1, skipn_nil in LD. cbn [load] in LD.
    assert (X : (ok, h, nx, s) = (true, st_heap st, st_next st, i_asset pr)) by (destruct (stop (as_lookup (i_asset pr))); congruence).
    inversion X; subst. assert (S : st1 = st) by (unfold st1, stored; rewrite with_mem_same, with_asset_same; apply set_inode_same; exact G).
    rewrite S, with_asset_same. split; auto. split; auto. split; auto. split; auto. split; auto. split; auto. split; [apply keeps_refl|]. split; auto. split; auto. discriminate.
Qed.

(** Tables of updated inodes do not share protos. *)
Lemma new_not_root Q W outd st i ro r : mid Q W outd st -> oget (st_objs sto) i = Some ro -> oget (st_objs st) i = Some r -> new r ->
  as_proto (i_asset r) <> Some (mkptr al 0 []).
Proof.
  intros D Oo O N E. destruct (d_obj _ _ _ _ D i ro Oo) as (r' & O' & _ & _ & _ & _ & _ & Nw & _). rewrite O in O'. inversion O'; subst r'.
  destruct (Nw N) as (_ & [(p & po & ao & a & path & P & _ & _ & _ & _ & _ & _ & _ & _ & (pr & n & aq & G & Np & LK & _))]).
  rewrite E in P. inversion P; subst p. clear P.
  destruct (newish_info _ _ _ _ _ _ D G Np) as (b & path' & p & P & Dp & Lp & A & _ & _ & _ & Rr & Rn).
  destruct (ao_proto _ _ _ _ A) as (p' & _ & _ & H). destruct (H _ _ LK) as [[j X]|[X _]].
  - inversion X as [[X1 X2 X3]]. destruct (p_sub p'); discriminate.
  - cbn [p_al] in X. destruct (N.eq_dec (parent r) root_ino) as [Hp|Hp].
    + rewrite Hp, get_inode_root in G. inversion G; subst pr. destruct (d_root _ _ _ _ D) as (_ & _ & _ & _ & _ & _ & R).
      rewrite Forall_forall in R. specialize (R _ X). lia.
    + rewrite (proj2 (Rn Hp)) in X. contradiction.
Qed.
Lemma new_parent_unique Q W outd st i ro r q rq n p : mid Q W outd st -> oget (st_objs sto) i = Some ro -> oget (st_objs st) i = Some r -> new r ->
  as_proto (i_asset r) = Some p -> get_inode st q = Ok rq -> new rq -> lk_get (as_lookup (i_asset rq)) n = Some p -> parent r = q.
Proof.
  intros D Oo O N P Gq Nq LKq. destruct (d_obj _ _ _ _ D i ro Oo) as (r' & O' & _ & _ & _ & _ & _ & Nw & _). rewrite O in O'. inversion O'; subst r'.
  destruct (Nw N) as (_ & [(p' & po & ao & a & path & P' & _ & _ & _ & _ & _ & _ & _ & _ & (pr & n' & aq & G & Np & LK & _))]).
  rewrite P in P'. inversion P'; subst p'. clear P'.
  destruct (newish_info _ _ _ _ _ _ D G Np) as (b1 & path1 & p1 & P1 & Dp1 & Lp1 & A1 & _ & _ & _ & Rr1 & Rn1).
  destruct (newish_info _ _ _ _ _ _ D Gq Nq) as (b2 & path2 & p2 & P2 & Dp2 & Lp2 & A2 & _ & _ & _ & Rr2 & Rn2).
  destruct (ao_proto _ _ _ _ A1) as (p1' & E1 & _ & H1). rewrite P1 in E1. inversion E1; subst p1'.
  destruct (ao_proto _ _ _ _ A2) as (p2' & E2 & _ & H2). rewrite P2 in E2. inversion E2; subst p2'.
  specialize (H1 _ _ LK). specialize (H2 _ _ LKq).
  destruct H1 as [[j1 H1]|[H1 S1]], H2 as [[j2 H2]|[H2 S2]].
  - rewrite H1 in H2. apply child_ptr_inj in H2. destruct H2 as [H2 _]. subst p2.
    destruct (N.eq_dec (parent r) root_ino) as [Hp|Hp], (N.eq_dec q root_ino) as [Hq|Hq]; try congruence.
    + exfalso. rewrite Hp, get_inode_root in G. inversion G; subst pr. destruct (d_root _ _ _ _ D) as (R & _). rewrite R in P1. inversion P1; subst p1.
      pose proof (inode_obj _ _ _ Hq Gq) as Oq. destruct (mid_obj _ _ _ _ _ _ D Oq) as (_ & _ & ro' & Oo').
      exact (new_not_root _ _ _ _ _ _ _ D Oo' Oq Nq P2).
    + exfalso. subst q. rewrite get_inode_root in Gq. inversion Gq; subst rq. destruct (d_root _ _ _ _ D) as (R & _). rewrite R in P2. inversion P2; subst p1.
      pose proof (inode_obj _ _ _ Hp G) as Oq. destruct (mid_obj _ _ _ _ _ _ D Oq) as (_ & _ & ro' & Oo').
      exact (new_not_root _ _ _ _ _ _ _ D Oo' Oq Np P1).
    + pose proof (inode_obj _ _ _ Hq Gq) as Oq. destruct (mid_obj _ _ _ _ _ _ D Oq) as (_ & _ & ro' & Oo').
      pose proof (inode_obj _ _ _ Hp G) as Op. destruct (mid_obj _ _ _ _ _ _ D Op) as (_ & _ & ro2 & Oo2).
      assert (X1 : mget (st_map st) p1 = Some (parent r)) by (apply (d_map _ _ _ _ D); exists ro2, pr; destruct Np; auto 6).
      assert (X2 : mget (st_map st) p1 = Some q) by (apply (d_map _ _ _ _ D); exists ro', rq; destruct Nq; auto 6).
      congruence.
  - exfalso. rewrite H1 in S2. unfold child_ptr in S2. cbn [p_sub] in S2. destruct (p_sub p1); discriminate.
  - exfalso. rewrite H2 in S1. unfold child_ptr in S1. cbn [p_sub] in S1. destruct (p_sub p2); discriminate.
  - destruct (N.eq_dec (parent r) root_ino) as [Hp|Hp].
    + destruct (N.eq_dec q root_ino) as [Hq|Hq]; [congruence|]. rewrite (proj2 (Rn2 Hq)) in H2. contradiction.
    + rewrite (proj2 (Rn1 Hp)) in H1. contradiction.
Qed.

(** An inode gets its new proto. *)
Definition upd_asset (r : inode) (p : ptr) (a : aproto) : asset := mkasset (parent r) (Some p) (direct_lookup p a) [].
Definition upd_node (r : inode) (p : ptr) (a ao : aproto) : inode :=
  mkinode (upd_asset r p a) (i_nlookup r) (i_children r) (if ap_eqb a ao then SUpdatedProto else SUpdated).
Definition upd_state (st : state) (i : ino) (r : inode) (p : ptr) (a ao : aproto) : state :=
  with_tables st (oset (st_objs st) i (upd_node r p a ao)) ((p, i) :: mdel (st_map st) p) (st_invalid st).

Lemma update_step W outd st q i r pr oldp p ao a n aq :
  mid [] ((q, i) :: W) outd st -> oget (st_objs st) i = Some r -> as_proto (i_asset r) = Some oldp -> deref (st_heap st) oldp = Some ao ->
  get_inode st q = Ok pr -> new pr -> get_proto (st_heap st) (i_asset pr) = Ok aq -> ap_type aq = TDir ->
  lk_get (as_lookup (i_asset pr)) n = Some p -> n = ap_name ao -> deref (st_heap st) p = Some a ->
  mid [] (W ++ map (fun c => (i, c)) (child_inos st (i_asset r))) (outd ++ [oldp]) (upd_state st i r p a ao).
Proof.
  intros D O Po Dao Gq Nq GPq TD LK Nm Da.
  destruct (d_W _ _ _ _ D q i (or_introl eq_refl)) as (_ & r0 & O0 & Ol & Pq & _). rewrite O in O0. inversion O0; subst r0. clear O0.
  destruct (mid_old _ _ _ _ _ _ D O Ol) as (Oo & L & p0 & ao' & P0 & Da0 & Da' & GP & Lp). rewrite Po in P0. inversion P0; subst p0. clear P0.
  assert (ao' = ao) by congruence. subst ao'.
  destruct (old_children _ _ _ _ _ _ D O Ol) as (Ch1 & Ch2 & Ch3).
  destruct (mid_obj _ _ _ _ _ _ D O) as (Hi & G & _).
  destruct (newish_info _ _ _ _ _ _ D Gq Nq) as (aq' & path & pq & Pp & Dq & Lq & A & AP & AT & B & Rr & Rn).
  assert (aq' = aq) by (unfold get_proto in GPq; rewrite Pp, Dq in GPq; congruence). subst aq'.
  destruct (ao_ptr _ _ _ _ A n p LK) as (a' & Da2 & Na & Hc). assert (a' = a) by congruence. subst a'. apply loaded_incl in Hc.
  assert (Nqi : q <> i) by (intros ->; rewrite G in Gq; inversion Gq; subst pr; exact (old_new _ Ol Nq)).
  assert (Lpn : (al <= p_al p)%nat).
  { destruct (ao_proto _ _ _ _ A) as (pq' & E & _ & H). rewrite Pp in E. inversion E; subst pq'. destruct (H _ _ LK) as [[j ->]|[X _]]; [exact Lq|].
    destruct (N.eq_dec q root_ino) as [Hq|Hq]; [|rewrite (proj2 (Rn Hq)) in X; contradiction].
    rewrite Hq, get_inode_root in Gq. inversion Gq; subst pr. destruct (d_root _ _ _ _ D) as (_ & _ & _ & _ & _ & _ & R).
    rewrite Forall_forall in R. specialize (R _ X). lia. }
  set (r' := upd_node r p a ao).
  assert (Vn : is_valid r' = true) by (unfold r', is_valid, upd_node; cbn [i_state]; destruct (ap_eqb a ao); reflexivity).
  assert (Nn : new r') by (split; auto; unfold newb; cbn; now apply Nat.leb_le).
  set (st' := upd_state st i r p a ao).
  assert (O' : forall j, oget (st_objs st') j = if j =? i then Some r' else oget (st_objs st) j).
  { intros j. unfold st', upd_state. cbn [st_objs with_tables]. rewrite oget_oset, O. reflexivity. }
  assert (G' : forall j, get_inode st' j = if j =? i then Ok r' else get_inode st j).
  { intros j. unfold get_inode. rewrite O'. destruct (N.eqb_spec j i) as [->|Hj].
    - destruct (N.eqb_spec i root_ino); [contradiction|reflexivity].
    - reflexivity. }
  assert (St : forall x rx, get_inode st x = Ok rx -> new rx -> get_inode st' x = Ok rx).
  { intros x rx Gx Nx. rewrite G'. destruct (N.eqb_spec x i) as [->|Hx]; auto. rewrite G in Gx. inversion Gx; subst rx. exfalso. exact (old_new _ Ol Nx). }
  assert (NOK : forall j ro rj, new_ok st j ro rj -> new_ok st' j ro rj).
  { intros j ro rj H. eapply new_ok_stable; [exact H|apply D|apply keeps_refl|]. intros x rx Gx Nx. exists rx. auto. }
  (* the new proto is not in use *)
  assert (Free : mget (st_map st) p = None).
  { destruct (mget (st_map st) p) as [j|] eqn:MG; auto. exfalso. apply (d_map _ _ _ _ D) in MG. destruct MG as (ro & rj & X1 & X2 & X3 & X4).
    destruct (d_obj _ _ _ _ D j ro X1) as (rj' & Y1 & Y2 & _ & _ & _ & Y3 & Y4 & _ & Y5). rewrite X2 in Y1. inversion Y1; subst rj'.
    assert (Vo : is_valid ro = true). { destruct (is_valid ro) eqn:E; auto. rewrite (Y5 eq_refl) in X3. discriminate. }
    assert (Pj : as_proto (i_asset rj) = Some p).
    { destruct X4 as [X4|X4]; auto. exfalso. destruct (sto_ptr j ro p X1 Vo X4). lia. }
    assert (Nj : new rj) by (split; auto; unfold newb; rewrite Pj; now apply Nat.leb_le).
    pose proof (new_parent_unique _ _ _ _ _ _ _ _ _ _ _ D X1 X2 Nj Pj Gq Nq LK) as Pa.
    destruct (Y4 Nj) as (_ & [(p' & po & aoj & aj & pathj & Q1 & Q2 & Q3 & Q4 & Q5 & _)]). rewrite Pj in Q1. inversion Q1; subst p'.
    destruct (ao_proto _ _ _ _ Q5) as (p'' & E1 & E2 & _). rewrite Pj in E1. inversion E1; subst p''. rewrite Da in E2. inversion E2; subst aj.
    assert (j = i). { apply (sto_same_name j i ro r po oldp aoj ao); auto; [apply Ol|congruence|congruence]. }
    subst j. rewrite O in X2. inversion X2; subst rj. exact (old_new _ Ol Nj). }
  assert (Mdel : mdel (st_map st) p = st_map st).
  { assert (Z : forall m, mget m p = None -> mdel m p = m).
    { clear. unfold mdel. induction m as [|[k j] m IH]; cbn; auto. destruct (ptr_eqb p k) eqn:E; [discriminate|]. intros H. cbn. now rewrite IH. }
    auto. }
  assert (APi : at_path sto i (path ++ [ap_name ao])).
  { econstructor; eauto; [apply Ol|]. rewrite Pq. exact AP. }
  assert (Ba : below store nr a) by (eapply below_snoc; eauto).
  assert (NI : new_ok st' i r r').
  { constructor. exists p, oldp, ao, a, (path ++ [ap_name ao]). split; [reflexivity|]. split; auto. split; auto. split; [congruence|].
    split. { unfold r', upd_node. cbn [i_asset]. apply direct_ok; auto. }
    split.
    { destruct (N.eq_dec q root_ino) as [Hq|Hq].
      - exists a. rewrite (Rr Hq) in Hc. split; auto. constructor.
      - pose proof (inode_obj _ _ _ Hq Gq) as Oq. destruct (mid_obj _ _ _ _ _ _ D Oq) as (_ & _ & ro' & Oo').
        destruct (d_obj _ _ _ _ D q ro' Oo') as (rq & Y1 & _ & _ & _ & _ & _ & Y4 & _). rewrite Oq in Y1. inversion Y1; subst rq.
        destruct (Y4 Nq) as (_ & [(p' & po & aoj & aj & pathj & Q1 & Q2 & Q3 & Q4 & Q5 & (c & Hc' & Bc) & _)]).
        destruct (ao_proto _ _ _ _ Q5) as (p'' & E1 & E2 & _). rewrite Pp in E1. inversion E1; subst p''. rewrite Dq in E2. inversion E2; subst aj.
        exists c. split; auto. eapply below_snoc; eauto. }
    split; auto. split.
    { rewrite asset_at_snoc, AT. apply child_named_in; auto. congruence. }
    split; [reflexivity|]. exists pr, n, aq. change (parent r') with (parent r). rewrite Pq. split; [apply St; auto|]. auto. }
  split.
  - apply D.
  - apply D.
  - apply D.
  - apply D.
  - unfold st', upd_state. cbn [st_objs with_tables]. rewrite oset_keys. apply D.
  - intros j ro Oj. destruct (d_obj _ _ _ _ D j ro Oj) as (rj & Or & H1 & H2 & H3 & H4 & H5 & H6 & H7 & H8).
    destruct (N.eq_dec j i) as [->|Hj].
    + rewrite O in Or. inversion Or; subst rj. rewrite Oo in Oj. inversion Oj; subst ro. exists r'. rewrite O', N.eqb_refl. split; auto. split; [reflexivity|]. split; auto. split; auto. split; auto.
      split; [intros X; exfalso; exact (old_new _ X Nn)|]. split; [split; [apply Ol|exact NI]|]. split; [congruence|]. intros X. destruct Ol. congruence.
    + exists rj. rewrite O'. destruct (N.eqb_spec j i); [contradiction|]. split; auto. split; auto. split; auto. split; auto. split; auto. split; auto.
      split; [intros X; destruct (H6 X); auto|]. auto.
  - intros x j. unfold st' at 1. unfold upd_state. cbn [st_map with_tables mget]. rewrite Mdel. destruct (ptr_eqb x p) eqn:E.
    + apply ptr_eqb_iff in E. subst x. split.
      * intros X. inversion X; subst j. exists r, r'. rewrite O', N.eqb_refl. auto 6.
      * intros (ro & rj & X1 & X2 & X3 & X4). rewrite O' in X2. destruct (N.eqb_spec j i) as [->|Hj]; auto. exfalso.
        assert (Y : mget (st_map st) p = Some j) by (apply (d_map _ _ _ _ D); exists ro, rj; auto). congruence.
    + rewrite (d_map _ _ _ _ D). split.
      * intros (ro & rj & X1 & X2 & X3 & X4). destruct (N.eq_dec j i) as [->|Hj].
        { exists r, r'. rewrite O', N.eqb_refl. rewrite O in X2. inversion X2; subst rj. rewrite Oo in X1. inversion X1; subst ro. split; auto. split; auto. split; auto. left. tauto. }
        exists ro, rj. rewrite O'. destruct (N.eqb_spec j i); [contradiction|auto].
      * intros (ro & rj & X1 & X2 & X3 & X4). rewrite O' in X2. destruct (N.eqb_spec j i) as [->|Hj].
        { inversion X2; subst rj. rewrite Oo in X1. inversion X1; subst ro. exists r, r. split; auto. split; auto. split; [apply Ol|]. left.
          destruct X4 as [X4|X4]; auto. cbn in X4. inversion X4; subst x. rewrite ptr_eqb_refl in E. discriminate. }
        exists ro, rj. auto.
  - unfold st', upd_state. cbn [st_map with_tables map fst]. rewrite Mdel. constructor; [|apply D].
    intros X. apply in_map_iff in X. destruct X as ([p' j] & E & X). cbn in E. subst p'. apply (in_mget _ _ _ (d_mapnd _ _ _ _ D)) in X. congruence.
  - intros j. unfold st' at 1. unfold upd_state. cbn [st_invalid with_tables]. rewrite (d_invalid _ _ _ _ D). split.
    + intros (rj & X1 & X2). exists rj. rewrite O'. destruct (N.eqb_spec j i) as [->|Hj]; auto. rewrite O in X1. inversion X1; subst rj. destruct Ol. congruence.
    + intros (rj & X1 & X2). rewrite O' in X1. destruct (N.eqb_spec j i) as [->|Hj]; [inversion X1; subst rj; congruence|eauto].
  - pose proof (d_Wnd _ _ _ _ D) as WN. cbn [map snd] in WN. inversion WN as [|x0 y0 Wi Wn]; subst x0 y0.
    intros x j H. split; [auto|]. apply in_app_or in H. destruct H as [H|H].
    + assert (Hj : j <> i) by (intros ->; apply Wi; change i with (snd (x, i)); now apply in_map).
      destruct (d_W _ _ _ _ D x j (or_intror H)) as (_ & rj & X1 & X2 & X3 & rx & X4 & X5).
      exists rj. rewrite O'. destruct (N.eqb_spec j i); [contradiction|]. split; auto. split; auto. split; auto. exists rx. split; auto.
    + apply in_map_iff in H. destruct H as (c & E & H). inversion E; subst x j. destruct (Ch1 c H) as (rc & Y1 & Y2 & Y3).
      assert (Hj : c <> i).
      { intros ->. rewrite O in Y1. inversion Y1; subst rc. apply (ordered_self (st_objs sto) i r); try apply I0; auto. }
      exists rc. rewrite O'. destruct (N.eqb_spec c i); [contradiction|]. split; auto. split; auto. split; auto. exists r'. rewrite G', N.eqb_refl. auto.
  - pose proof (d_Wnd _ _ _ _ D) as WN. cbn [map snd] in WN. inversion WN as [|x0 y0 Wi Wn]; subst x0 y0.
    rewrite map_app, map_map. cbn [snd]. rewrite map_id. apply nodup_both; auto.
    intros c H1 H2. apply in_map_iff in H1. destruct H1 as ([x c'] & E & H1). cbn in E. subst c'.
    destruct (Ch1 c H2) as (rc & Y1 & Y2 & Y3). destruct (d_W _ _ _ _ D x c (or_intror H1)) as (_ & rj & X1 & X2 & X3 & rx & X4 & X5).
    rewrite Y1 in X1. inversion X1; subst rj. rewrite <- X3, Y3, G in X4. inversion X4; subst rx. exact (old_new _ Ol X5).
  - intros j [].
  - constructor.
  - intros j rj X Hj. right. rewrite O' in X. destruct (N.eqb_spec j i) as [->|Hn]; [inversion X; subst rj; exfalso; exact (old_new _ Hj Nn)|].
    destruct (d_done _ _ _ _ D j rj X Hj) as [[]|[[Y|Y]|(rx & Y1 & Y2)]].
    + inversion Y; subst. congruence.
    + left. apply in_or_app. now left.
    + destruct (N.eq_dec (parent rj) i) as [E|E].
      * left. apply in_or_app. right. rewrite E. apply in_map_iff. exists j. split; auto. apply (Ch2 j rj X Hj E).
      * right. exists rx. rewrite G'. destruct (N.eqb_spec (parent rj) i); [contradiction|]. auto.
  - intros x. rewrite in_app_iff. rewrite (d_out _ _ _ _ D). split.
    + intros [(j & ro & rj & X1 & X2 & X3 & X4)|[<-|[]]].
      * exists j, ro, rj. split; auto. split; auto. rewrite O'. destruct (N.eqb_spec j i) as [->|Hj]; auto. exfalso. rewrite O in X3. inversion X3; subst rj. exact (old_new _ Ol X4).
      * exists i, r, r'. rewrite O', N.eqb_refl. auto.
    + intros (j & ro & rj & X1 & X2 & X3 & X4). rewrite O' in X3. destruct (N.eqb_spec j i) as [->|Hj].
      * right. left. rewrite Oo in X1. inversion X1; subst ro. congruence.
      * left. exists j, ro, rj. auto.
  - apply nodup_both; [apply D|repeat constructor; intros []|]. intros x H1 [<-|[]]. apply (d_out _ _ _ _ D) in H1. destruct H1 as (j & ro & rj & X1 & X2 & X3 & X4).
    destruct (d_obj _ _ _ _ D j ro X1) as (rj' & Y1 & _ & _ & _ & _ & _ & Y4 & _). rewrite X3 in Y1. inversion Y1; subst rj'.
    assert (j = i). { apply (sto_same_proto j i ro r oldp); auto; [apply (Y4 X4)|apply Ol]. }
    subst j. rewrite O in X3. inversion X3; subst rj. exact (old_new _ Ol X4).
Qed.

Lemma mid_perm Q W W' outd outd' st : Permutation W W' -> Permutation outd outd' -> mid Q W outd st -> mid Q W' outd' st.
Proof.
  intros P1 P2 [D1 D2 D3 D4 D5 D6 D7 D8 D9 D10 D11 D12 D13 D14 D15 D16]. split; auto.
  - intros q i H. apply D10. eapply Permutation_in; [symmetry; exact P1|exact H].
  - eapply Permutation_NoDup; [|exact D11]. now apply Permutation_map.
  - intros i r O Ol. destruct (D14 i r O Ol) as [X|[X|X]]; auto. right. left. eapply Permutation_in; eauto.
  - intros p. rewrite <- D15. split; apply Permutation_in; auto. now symmetry.
  - eapply Permutation_NoDup; eauto.
Qed.
Lemma mid_queue q i W outd st : mid [] ((q, i) :: W) outd st -> lost i -> mid [i] W outd st.
Proof.
  intros D Lo. destruct (d_W _ _ _ _ D q i (or_introl eq_refl)) as (_ & r & O & Ol & Pq & pr & Gq & Nq).
  destruct D as [D1 D2 D3 D4 D5 D6 D7 D8 D9 D10 D11 D12 D13 D14 D15 D16]. cbn [map snd] in D11. inversion D11 as [|x y Wi Wn]; subst x y.
  split; auto.
  - intros x j H. destruct (D10 x j (or_intror H)) as (_ & rj & X). split; [|eauto]. intros [->|[]]. apply Wi. change j with (snd (x, j)). now apply in_map.
  - intros j [<-|[]]. exists r. split; auto. split; auto. split; auto. intros rx Gx Ox. rewrite Pq, Gq in Gx. inversion Gx; subst rx. exact (old_new _ Ox Nq).
  - repeat constructor. intros [].
  - intros j rj X Hj. destruct (D14 j rj X Hj) as [[]|[[Y|Y]|Y]]; auto. inversion Y; subst. left. now left.
Qed.

Lemma update_task_ok q i W outd st : mid [] ((q, i) :: W) outd st ->
  exists cs old_ st', update_task fetch st q i = Ok (cs, old_, st') /\ mid [] (W ++ cs) (outd ++ old_) st' /\ (nold (st_objs st') < nold (st_objs st))%nat.
Proof.
  intros D. destruct (d_W _ _ _ _ D q i (or_introl eq_refl)) as (_ & r & O & Ol & Pq & pr & Gq & Nq).
  destruct (mid_old _ _ _ _ _ _ D O Ol) as (Oo & L & oldp & ao & Po & Dao & Dao' & GP & Lp).
  destruct (mid_obj _ _ _ _ _ _ D O) as (Hi & G & _).
  destruct (newish_info _ _ _ _ _ _ D Gq Nq) as (aq & path & pq & Pp & Dq & Lq & A & AP & AT & B & Rr & Rn).
  assert (GPq : get_proto (st_heap st) (i_asset pr) = Ok aq) by (unfold get_proto; rewrite Pp, Dq; reflexivity).
  assert (Nqi : q <> i) by (intros E; rewrite E, G in Gq; inversion Gq; subst pr; exact (old_new _ Ol Nq)).
  assert (APi : at_path sto i (path ++ [ap_name ao])) by (econstructor; eauto; [apply Ol|rewrite Pq; exact AP]).
  unfold update_task. rewrite G. cbn [bind]. rewrite (proj1 Ol). cbn [negb]. rewrite GP. cbn [bind]. rewrite Gq. cbn [bind].
  unfold asset_lookup. rewrite GPq. cbn [bind].
  assert (Inval : forall st1, mid [] ((q, i) :: W) outd st1 -> st_objs st1 = st_objs st -> (full -> ap_type aq <> TDir \/ ~ In (ap_name ao) (map ap_name (dir_children store aq))) ->
     exists cs old_ st', (do st2 <- invalidate (S (length (st_objs st1))) st1 [i]; Ok (([] : list (ino * ino)), ([] : list ptr), st2)) = Ok (cs, old_, st') /\
       mid [] (W ++ cs) (outd ++ old_) st' /\ (nold (st_objs st') < nold (st_objs st))%nat).
  { intros st1 D1 E1 Hl.
    assert (Lo : lost i). { intros Fu. exists (path ++ [ap_name ao]). split; auto. rewrite asset_at_snoc, AT. apply child_named_none. auto. }
    destruct (invalidate_ok W outd (S (length (st_objs st1))) st1 [i] (mid_queue _ _ _ _ _ D1 Lo)) as (st2 & X1 & X2 & _ & X3).
    - pose proof (nold_le (st_objs st1)). lia.
    - rewrite X1. cbn [bind]. exists [], [], st2. rewrite !app_nil_r. split; auto. split; auto. rewrite <- E1. apply X3. congruence. }
  destruct (atype_eqb (ap_type aq) TDir) eqn:TD.
  2:{ cbn [bind]. rewrite with_mem_same, with_asset_same, (set_inode_same st q pr Gq). apply Inval; auto.
      intros _. left. intros X. apply atype_eqb_iff in X. congruence. }
  apply atype_eqb_iff in TD.
  match goal with |- context [load fetch ?x ?y ?z ?u ?v] => destruct (load fetch x y z u v) as [[[ok h] nx] s] eqn:LD end.
  destruct (load_mid _ _ _ _ _ _ _ _ _ _ _ _ D Gq Nq GPq LD) as (D1 & G1 & Hh & Ho & Hm & Ps & K & A1 & Ok1 & Ok2).
  set (st1 := stored st q pr h nx s) in *. 
  destruct ok.
  2:{ cbn [bind]. change (set_inode (with_mem st h nx) q (with_asset pr s)) with st1. apply Inval; auto. intros Fu. exfalso. exact (Ok2 eq_refl Fu). }
  destruct (lk_get (as_lookup s) (ap_name ao)) as [p|] eqn:LK; cbn [bind]; change (set_inode (with_mem st h nx) q (with_asset pr s)) with st1.
  2:{ apply Inval; auto. intros _. right. intros X. destruct (Ok1 eq_refl) as [Y|Y]; [discriminate|].
      apply in_map_iff in X. destruct X as (c & Ec & Hc). rewrite <- (loaded_all store aq (length (as_lists s))) in Hc by lia.
      destruct (ao_has _ _ _ _ A1 c Hc) as [p' Hp']. rewrite Ec in Hp'. congruence. }
  destruct (ao_ptr _ _ _ _ A1 _ _ LK) as (a & Da & Na & Hc).
  rewrite Hh, Da. cbn [bind].
  assert (Gi1 : get_inode st1 i = Ok r). { rewrite get_inode_obj, Ho, O by exact Hi. reflexivity. }
  rewrite Gi1. cbn [bind with_state i_asset]. rewrite Po. rewrite Hm.
  assert (MG : mget (st_map st) oldp = Some i) by (apply (d_map _ _ _ _ D); exists r, r; split; auto; split; auto; split; auto; apply Ol).
  rewrite MG.
  set (r2 := with_state r (if ap_eqb a ao then SUpdatedProto else SUpdated)).
  set (st1' := set_inode st1 i r2).
  set (st2 := with_tables st1' (st_objs st1') ((p, i) :: mdel (st_map st) p) (st_invalid st1')).
  unfold asset_update. assert (Fl : as_lists (i_asset r) = []) by (apply (m_flat _ _ _ (proj2 I0) i); auto).
  rewrite Fl. cbn [hfree_all fold_left].
  assert (Hh2 : st_heap st2 = h) by (unfold st2, st1'; rewrite set_obj by exact Hi; exact Hh).
  rewrite Hh2, Da. cbn [bind].
  assert (Nw1 : new (with_asset pr s)) by (destruct Nq as [V1 V2]; split; auto; unfold newb in *; cbn [with_asset i_asset]; rewrite Ps; exact V2).
  assert (GPq1 : get_proto (st_heap st1) (i_asset (with_asset pr s)) = Ok aq).
  { unfold get_proto. cbn [with_asset i_asset]. rewrite Ps, Pp, Hh, (deref_keeps _ _ _ _ _ (d_fresh _ _ _ _ D) K Dq). reflexivity. }
  assert (O1 : oget (st_objs st1) i = Some r) by (rewrite Ho; exact O).
  assert (Dao1 : deref (st_heap st1) oldp = Some ao) by (rewrite Hh; exact (deref_keeps _ _ _ _ _ (d_fresh _ _ _ _ D) K Dao')).
  assert (Da1 : deref (st_heap st1) p = Some a) by (rewrite Hh; exact Da).
  pose proof (update_step W outd st1 q i r (with_asset pr s) oldp p ao a _ aq D1 O1 Po Dao1 G1 Nw1 GPq1 TD LK eq_refl Da1) as D2.
  assert (Sch : child_inos st2 (i_asset r) = child_inos st1 (i_asset r)).
  { unfold child_inos. f_equal. apply map_ext_in. intros [n' p'] Hin. cbn [snd].
    change (st_map st2) with ((p, i) :: mdel (st_map st) p). cbn [mget]. rewrite mget_mdel, Hm.
    destruct (ptr_eqb p' p) eqn:E; auto. exfalso. apply ptr_eqb_iff in E. subst p'.
    pose proof I0 as [T M]. destruct (obj_inode sto i r T Oo) as [Go _].
    destruct (valid_asset store sto oldroot i r I0 Go (proj1 Ol) (fun _ => L)) as (a' & A' & _).
    apply (lk_in_get _ _ _ (ao_nodup _ _ _ _ A')) in Hin. destruct (ao_ptr _ _ _ _ A' _ _ Hin) as (x & Dx & _).
    assert (Lx : (p_al p < al)%nat). { unfold deref in Dx. destruct (hget (st_heap sto) (p_al p)) eqn:E; [|discriminate]. apply (m_fresh _ _ _ M _ _ E). }
    assert (Ln : (al <= p_al p)%nat).
    { destruct (ao_proto _ _ _ _ A1) as (pq' & E & _ & H). rewrite Ps, Pp in E. inversion E; subst pq'. destruct (H _ _ LK) as [[j ->]|[X _]]; [exact Lq|].
      destruct (N.eq_dec q root_ino) as [Hq|Hq].
      - rewrite Hq, get_inode_root in G1. inversion G1 as [E1]. destruct (d_root _ _ _ _ D1) as (_ & _ & _ & _ & _ & _ & R).
        rewrite E1 in R. cbn [with_asset i_asset] in R. rewrite Forall_forall in R. specialize (R _ X). lia.
      - destruct (newish_info _ _ _ _ _ _ D1 G1 Nw1) as (za & zb & zc & _ & _ & _ & _ & _ & _ & _ & _ & Rn'). destruct (Rn' Hq) as [_ Rl]. cbn [with_asset i_asset] in Rl. rewrite Rl in X. contradiction. }
    lia. }
  rewrite Sch.
  assert (Fin : set_inode (with_mem st2 h (st_next st2)) i (with_asset r2 (mkasset (as_parent (i_asset r)) (Some p) (direct_lookup p a) [])) = upd_state st1 i r p a ao).
  { rewrite set_obj by exact Hi. unfold upd_state, upd_node, upd_asset, with_asset, with_tables, with_mem. cbn [st_heap st_next st_manifest st_root st_objs st_map st_invalid].
    unfold st2, st1'. rewrite set_obj by exact Hi. cbn [st_heap st_next st_manifest st_root st_objs st_map st_invalid with_tables r2 with_state i_asset i_nlookup i_children i_state].
    rewrite Hm, Hh. f_equal. clear. induction (st_objs st1) as [|[k x] l IH]; cbn; auto. destruct (i =? k) eqn:E; cbn; rewrite E; [reflexivity|f_equal; exact IH]. }
  rewrite Fin. exists (map (fun c => (i, c)) (child_inos st1 (i_asset r))), [oldp], (upd_state st1 i r p a ao). split; [reflexivity|]. split; [exact D2|].
  unfold upd_state. cbn [st_objs with_tables]. rewrite Ho.
  assert (ND : NoDup (map fst (st_objs st))) by (rewrite (d_keys _ _ _ _ D); apply I0).
  pose proof (nold_oset (st_objs st) i r (upd_node r p a ao) ND O) as X. pose proof (proj2 (oldb_iff r) Ol) as X2. rewrite X2 in X.
  assert (On : oget (st_objs (upd_state st1 i r p a ao)) i = Some (upd_node r p a ao)).
  { unfold upd_state. cbn [st_objs with_tables]. rewrite oget_oset, N.eqb_refl, O1. reflexivity. }
  assert (X3 : oldb (upd_node r p a ao) = false).
  { destruct (oldb (upd_node r p a ao)) eqn:E; auto. exfalso. apply oldb_iff in E.
    destruct (mid_old _ _ _ _ _ _ D2 On E) as (Y & _ & p' & a' & Y1 & _ & _ & _ & Y2).
    cbn in Y1. inversion Y1; subst p'. rewrite Oo in Y. inversion Y as [Z].
    assert (Y3 : as_proto (i_asset r) = Some p) by (rewrite Z; reflexivity). rewrite Po in Y3. inversion Y3; subst p.
    (* the old proto is not in the new table *)
    destruct (newish_info _ _ _ _ _ _ D1 G1 Nw1) as (za & zb & pq1 & Z1 & _ & Z2 & _ & _ & _ & _ & _ & Rn').
    destruct (ao_proto _ _ _ _ A1) as (pq' & E' & _ & H). rewrite Ps, Pp in E'. inversion E'; subst pq'. destruct (H _ _ LK) as [[j Ej]|[W1 _]].
    - rewrite Ej in Lp. cbn [child_ptr p_al] in Lp. lia.
    - destruct (N.eq_dec q root_ino) as [Hq|Hq].
      + rewrite Hq, get_inode_root in G1. inversion G1 as [E1]. destruct (d_root _ _ _ _ D1) as (_ & _ & _ & _ & _ & _ & R).
        rewrite E1 in R. cbn [with_asset i_asset] in R. rewrite Forall_forall in R. specialize (R _ W1). lia.
      + destruct (Rn' Hq) as [_ Rl]. cbn [with_asset i_asset] in Rl. rewrite Rl in W1. contradiction. }
  rewrite X3 in X. cbv iota in X. lia.
Qed.

Lemma update_level_ok : forall l W outd st, mid [] (l ++ W) outd st ->
  exists cs old_ st', update_level fetch st l = Ok (cs, old_, st') /\ mid [] (W ++ cs) (outd ++ old_) st' /\
    (nold (st_objs st') <= nold (st_objs st))%nat /\ (l <> [] -> nold (st_objs st') < nold (st_objs st))%nat.
Proof.
  induction l as [|[q i] l IH]; intros W outd st D.
  - exists [], [], st. rewrite !app_nil_r. split; auto. split; auto. split; auto. congruence.
  - cbn [update_level]. destruct (update_task_ok q i (l ++ W) outd st D) as (cs & o & st1 & E1 & D1 & N1). rewrite E1. cbn [bind].
    rewrite <- app_assoc in D1. destruct (IH (W ++ cs) (outd ++ o) st1 D1) as (cs' & o' & st2 & E2 & D2 & N2 & N3). rewrite E2. cbn [bind].
    exists (cs ++ cs'), (o ++ o'), st2. rewrite !app_assoc. split; auto. split; auto. split; [lia|]. intros _. lia.
Qed.

Lemma update_levels_ok (shuffle : list (ino * ino) -> list (ino * ino)) : (forall l, Permutation (shuffle l) l) ->
  forall fuel l outd st, mid [] l outd st -> (nold (st_objs st) < fuel)%nat ->
  exists old_ st', update_levels fetch shuffle fuel st l = Ok (old_, st') /\ mid [] [] (outd ++ old_) st'.
Proof.
  intros Sh. induction fuel as [|fuel IH]; intros l outd st D Lf; [lia|].
  destruct l as [|e l]; [exists [], st; rewrite app_nil_r; auto|].
  remember (e :: l) as l0 eqn:El. assert (D' : mid [] (shuffle l0 ++ []) outd st).
  { rewrite app_nil_r. eapply mid_perm; [symmetry; apply Sh|reflexivity|exact D]. }
  destruct (update_level_ok (shuffle l0) [] outd st D') as (cs & o & st1 & E1 & D1 & N1 & N2).
  assert (Ne : shuffle l0 <> []).
  { intros X. specialize (Sh l0). rewrite X in Sh. apply Permutation_nil in Sh. congruence. }
  specialize (N2 Ne). destruct (IH cs (outd ++ o) st1 D1) as (o' & st2 & E2 & D2); [lia|].
  subst l0. cbn [update_levels]. rewrite E1. cbn [bind]. rewrite E2. cbn [bind]. exists (o ++ o'), st2. rewrite app_assoc. auto.
Qed.
End Set_.
