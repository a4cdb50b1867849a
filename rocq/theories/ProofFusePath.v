(** The path of an inode. *)
From Verif Require Import Base ListX Str ModelFuse SpecFuse ProofFuseMem ProofFuseInv ProofFuseOps.
Local Open Scope N_scope.

Section Store.
Variable store : cid -> option (list aproto).
Notation Inv := (Inv store).
Notation asset_at := (asset_at store).

Inductive at_path (st : state) : ino -> list bytes -> Prop :=
| at_root : at_path st root_ino []
| at_child i r p a path : oget (st_objs st) i = Some r -> is_valid r = true -> as_proto (i_asset r) = Some p ->
    deref (st_heap st) p = Some a -> at_path st (parent r) path -> at_path st i (path ++ [ap_name a]).

Definition child_named (a : aproto) (n : bytes) : option aproto :=
  match ap_type a with TDir => find (is_name n) (dir_children store a) | _ => None end.
Lemma asset_at_app a p q : asset_at a (p ++ q) = match asset_at a p with Some d => asset_at d q | None => None end.
Proof.
  revert a. induction p as [|n p IH]; intros a; cbn; auto.
  destruct (ap_type a); auto. destruct (find (is_name n) (dir_children store a)); auto.
Qed.
Lemma asset_at_snoc a p n : asset_at a (p ++ [n]) = match asset_at a p with Some d => child_named d n | None => None end.
Proof.
  rewrite asset_at_app. destruct (asset_at a p) as [d|]; auto. cbn. unfold child_named. destruct (ap_type d); auto.
  destruct (find (is_name n) (dir_children store d)); auto.
Qed.
Lemma is_name_iff n c : is_name n c = true <-> ap_name c = n.
Proof. unfold is_name. destruct (list_eq_dec N.eq_dec n (ap_name c)); split; congruence. Qed.
Lemma child_named_in a c n : NoDup (map ap_name (dir_children store a)) -> ap_type a = TDir -> In c (dir_children store a) -> ap_name c = n -> child_named a n = Some c.
Proof.
  intros U T H E. unfold child_named. rewrite T. destruct (find (is_name n) (dir_children store a)) as [d|] eqn:F.
  - apply find_some in F. destruct F as [F1 F2]. apply is_name_iff in F2. f_equal. eapply name_unique; eauto. congruence.
  - exfalso. apply (find_none _ _ F) in H. apply is_name_iff in E. congruence.
Qed.
Lemma child_named_none a n : ap_type a <> TDir \/ ~ In n (map ap_name (dir_children store a)) -> child_named a n = None.
Proof.
  unfold child_named. intros H. destruct (ap_type a); auto. destruct H as [H|H]; [congruence|].
  destruct (find (is_name n) (dir_children store a)) as [d|] eqn:F; auto. exfalso. apply find_some in F. destruct F as [F1 F2].
  apply is_name_iff in F2. apply H. rewrite <- F2. now apply in_map.
Qed.
Lemma below_snoc a b c : below store a b -> In c (dir_children store b) -> below store a c.
Proof. intros B H. induction B; [econstructor; [exact H|constructor]|econstructor; eauto]. Qed.

Lemma at_path_fun st i p : tab_ok [] None st -> at_path st i p -> forall q, at_path st i q -> p = q.
Proof.
  intros T H. induction H as [|i r p a path O V P D H IH]; intros q Q.
  - inversion Q; subst; auto. exfalso. apply (t_noroot _ _ _ T), oget_key. eauto.
  - inversion Q; subst.
    + exfalso. apply (t_noroot _ _ _ T), oget_key. eauto.
    + rewrite O in H0. inversion H0; subst r0. rewrite P in H2. inversion H2; subst p0. rewrite D in H3. inversion H3; subst a0.
      f_equal. auto.
Qed.
Lemma at_path_total st root : Inv st root -> forall n i r k1 k2,
  oget (st_objs st) i = Some r -> is_valid r = true -> map fst (st_objs st) = k1 ++ i :: k2 -> (length k2 <= n)%nat ->
  exists path, at_path st i path.
Proof.
  intros I. induction n as [n IH] using lt_wf_ind. intros i r k1 k2 O V Ek Lk.
  pose proof I as [T M]. destruct (t_live _ _ _ T i r O V) as [L|[]].
  destruct (obj_inode st i r T O) as [G Hi].
  destruct (valid_proto store st root i r I G V (fun _ => L)) as (a & p & GP & P & D & _).
  destruct (N.eq_dec (parent r) root_ino) as [E|E].
  - exists ([] ++ [ap_name a]). econstructor; eauto. rewrite E. constructor.
  - destruct (live_valid_parent store st root i r I O V) as (pr & [Gp Lp] & Vp).
    pose proof (inode_obj _ _ _ E Gp) as Op.
    destruct (ordered_before _ _ _ _ _ (t_ordered _ _ _ T) (t_nodup _ _ _ T) Ek O L) as [X|X]; [contradiction|].
    destruct (in_split _ _ X) as (b1 & b2 & Eb).
    assert (Z : length k2 = length (b1 ++ parent r :: b2)) by (now rewrite Eb). rewrite app_length in Z. cbn [length] in Z.
    destruct (IH (length b2) ltac:(lia) (parent r) pr (k1 ++ i :: b1) b2) as [path Hp]; auto.
    + rewrite Ek, Eb, <- app_assoc. reflexivity.
    + exists (path ++ [ap_name a]). econstructor; eauto.
Qed.
Lemma at_path_ex st root i r : Inv st root -> oget (st_objs st) i = Some r -> is_valid r = true -> exists path, at_path st i path.
Proof.
  intros I O V. assert (K : In i (map fst (st_objs st))) by (apply oget_key; eauto).
  destruct (in_split _ _ K) as (k1 & k2 & Ek). eapply at_path_total; eauto.
Qed.
Lemma at_path_asset st root i path : Inv st root -> at_path st i path ->
  exists r p a, live st i r /\ is_valid r = true /\ as_proto (i_asset r) = Some p /\ deref (st_heap st) p = Some a /\
    get_proto (st_heap st) (i_asset r) = Ok a /\ asset_at root path = Some a /\ below store root a.
Proof.
  intros I H. induction H as [|i r p a path O V P D H IH].
  - pose proof (m_root_valid _ _ _ (proj2 I)) as V. destruct (valid_proto store st root root_ino (st_root st) I eq_refl V) as (a & p & GP & P & D & A & B & R & _); [congruence|].
    exists (st_root st), p, a. split; [split; [reflexivity|congruence]|]. split; auto. split; auto. split; auto. split; auto. split; auto.
    rewrite (R eq_refl). reflexivity.
  - pose proof I as [T M]. destruct (t_live _ _ _ T i r O V) as [L|[]]. destruct (obj_inode st i r T O) as [G Hi].
    destruct (valid_proto store st root i r I G V (fun _ => L)) as (a' & p' & GP & P' & D' & A & B & _).
    assert (a' = a) by congruence. subst a'.
    exists r, p, a. split; [split; auto|]. split; auto. split; auto. split; auto. split; auto. split; auto.
    destruct IH as (rq & pq & aq & [Gq Lq] & Vq & Pq & Dq & GPq & Aq & Bq).
    rewrite asset_at_snoc, Aq.
    destruct (m_child _ _ _ M i r O V L) as (pr & p0 & n & a0 & G0 & V0 & P0 & LK & GP0 & TD).
    rewrite Gq in G0. inversion G0; subst pr. rewrite GPq in GP0. inversion GP0; subst a0. rewrite P in P0. inversion P0; subst p0.
    destruct (valid_asset store st root (parent r) rq I Gq Vq Lq) as (aq' & Aok & _).
    assert (aq' = aq). { destruct (ao_proto _ _ _ _ Aok) as (x & X1 & X2 & _). congruence. } subst aq'.
    destruct (ao_ptr _ _ _ _ Aok n p LK) as (c & Dc & Nc & Hc). assert (c = a) by congruence. subst c.
    apply child_named_in; auto. apply (m_unique _ _ _ M); auto. eapply loaded_incl; eauto.
Qed.

Lemma at_path_evolves st st' i path : heap_below (st_heap st) (st_next st) -> tab_ok [] None st -> tab_ok [] None st' -> evolves st st' ->
  at_path st i path -> at_path st' i path.
Proof.
  intros B T T' E H. induction H as [|i r p a path O V P D H IH]; [constructor|].
  destruct (obj_inode st i r T O) as [G Hi]. destruct (ev_inode _ _ E i r G) as (r' & G' & Pa & Pr & Va & _).
  apply (at_child st' i r' p a).
  - now apply inode_obj.
  - congruence.
  - congruence.
  - eapply deref_keeps; eauto. apply E.
  - rewrite Pa. exact IH.
Qed.
Lemma at_path_shrink st st' root i r path : tab_ok [] None st -> Inv st' root -> st_heap st' = st_heap st ->
  (forall j r', oget (st_objs st') j = Some r' -> exists s, oget (st_objs st) j = Some s /\ i_asset r' = i_asset s /\ i_state r' = i_state s) ->
  at_path st i path -> oget (st_objs st') i = Some r -> at_path st' i path.
Proof.
  intros T I' Hh S H O.
  assert (Back : forall j p, at_path st' j p -> at_path st j p).
  { intros j p X. induction X as [|j s p a pp Os Vs Ps Ds X IH]; [constructor|].
    destruct (S j s Os) as (s0 & O0 & A0 & S0). apply (at_child st j s0 p a).
    - exact O0.
    - unfold is_valid in *. rewrite <- S0. exact Vs.
    - rewrite <- A0. exact Ps.
    - rewrite <- Hh. exact Ds.
    - replace (parent s0) with (parent s) by (unfold parent; now rewrite A0). exact IH. }
  destruct (is_valid r) eqn:V.
  - destruct (at_path_ex st' root i r I' O V) as [q Q]. rewrite (at_path_fun st i path T H q (Back _ _ Q)). exact Q.
  - exfalso. destruct (S i r O) as (s0 & O0 & A0 & S0). inversion H; subst.
    + apply (t_noroot _ _ _ T), oget_key. eauto.
    + rewrite O0 in H0. inversion H0; subst. unfold is_valid in *. rewrite S0 in V. congruence.
Qed.
End Store.
