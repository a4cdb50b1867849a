(** Pointers, allocations, lookup tables, loading of asset lists. *)
From Verif Require Import Base ListX Str ModelFuse SpecFuse.
Local Open Scope N_scope.

Lemma seqb_eq a b : seqb a b = true <-> a = b.
Proof. unfold seqb. rewrite <- scmp_eq. destruct (scmp a b); split; congruence. Qed.
Lemma seqb_neq a b : a <> b -> seqb a b = false.
Proof. intros H. destruct (seqb a b) eqn:E; auto. apply seqb_eq in E. congruence. Qed.
Lemma seqb_same a : seqb a a = true.
Proof. now apply seqb_eq. Qed.

Lemma leqb_iff {A} (eqb : A -> A -> bool) (l m : list A) :
  (forall a b, In a l -> eqb a b = true <-> a = b) -> leqb eqb l m = true <-> l = m.
Proof.
  revert m. induction l as [|a l IH]; intros [|b m] H; cbn; try (split; congruence).
  rewrite andb_true_iff, (H a b) by (now left). rewrite IH by (intros; apply H; now right).
  split; [intros [-> ->]; auto|intros E; inversion E; auto].
Qed.

Lemma ptr_eqb_iff p q : ptr_eqb p q = true <-> p = q.
Proof.
  unfold ptr_eqb. destruct p as [a i s], q as [b j t]. cbn [p_al p_idx p_sub].
  rewrite !andb_true_iff, leqb_iff by (intros; apply Nat.eqb_eq). rewrite !Nat.eqb_eq.
  split; [intros [[-> ->] ->]; auto|intros E; inversion E; auto].
Qed.
Lemma ptr_eqb_refl p : ptr_eqb p p = true.
Proof. now apply ptr_eqb_iff. Qed.
Lemma ptr_eqb_neq p q : p <> q -> ptr_eqb p q = false.
Proof. intros H. destruct (ptr_eqb p q) eqn:E; auto. apply ptr_eqb_iff in E. congruence. Qed.

(** Induction over assets. *)
Fixpoint aproto_rect' (P : aproto -> Prop)
    (H : forall n t m p s r g l i, Forall P l -> P (mkap n t m p s r g l i)) (a : aproto) : P a :=
  match a with
  | mkap n t m p s r g l i =>
      H n t m p s r g l i ((fix go (l : list aproto) : Forall P l :=
                             match l with [] => Forall_nil P | x :: l' => Forall_cons x (aproto_rect' P H x) (go l') end) l)
  end.

Lemma atype_eqb_iff a b : atype_eqb a b = true <-> a = b.
Proof. destruct a, b; cbn; split; congruence. Qed.

Lemma ap_eqb_iff a : forall b, ap_eqb a b = true <-> a = b.
Proof.
  induction a as [n t m p s r g l i F] using aproto_rect'. intros [n' t' m' p' s' r' g' l' i'].
  cbn [ap_eqb ap_name ap_type ap_mtime ap_perm ap_size ap_rest ap_progress ap_assets ap_ind].
  rewrite !andb_true_iff, !seqb_eq, atype_eqb_iff, !N.eqb_eq, Bool.eqb_true_iff.
  rewrite (leqb_iff ap_eqb) by (intros a b Ha; rewrite Forall_forall in F; apply F; exact Ha).
  rewrite (leqb_iff seqb) by (intros; apply seqb_eq).
  split; [intros [[[[[[[[-> ->] ->] ->] ->] ->] ->] ->] ->]; auto|intros E; inversion E; subst; tauto].
Qed.

(** * Heap *)
Lemma hget_cons_other a b l h : a <> b -> hget ((b, l) :: h) a = hget h a.
Proof. intros H. cbn. destruct (Nat.eqb_spec a b); congruence. Qed.
Lemma hget_cons_same a l h : hget ((a, l) :: h) a = Some l.
Proof. cbn. now rewrite Nat.eqb_refl. Qed.
Lemma hget_hfree_other h a b : a <> b -> hget (hfree h b) a = hget h a.
Proof.
  intros H. unfold hfree. induction h as [|[c l] h IH]; cbn; auto.
  destruct (Nat.eqb_spec c b); cbn.
  - rewrite IH. destruct (Nat.eqb_spec a c); congruence.
  - rewrite IH. reflexivity.
Qed.
Lemma hget_hfree_same h a : hget (hfree h a) a = None.
Proof.
  unfold hfree. induction h as [|[c l] h IH]; cbn; auto.
  destruct (Nat.eqb_spec c a); cbn; auto. destruct (Nat.eqb_spec a c); congruence.
Qed.
Lemma hget_hfree_all h l a : ~ In a l -> hget (hfree_all h l) a = hget h a.
Proof.
  revert h. induction l as [|b l IH]; intros h H; cbn; auto.
  unfold hfree_all in IH. rewrite IH by (intros X; apply H; now right).
  apply hget_hfree_other. intros ->. apply H. now left.
Qed.

Definition heap_below (h : heap) (nx : nat) : Prop := forall a l, hget h a = Some l -> (a < nx)%nat.
(** [h'] has everything that was allocated before [nx]. *)
Definition keeps (h h' : heap) (nx : nat) : Prop := forall a, (a < nx)%nat -> hget h' a = hget h a.

Lemma keeps_refl h nx : keeps h h nx.
Proof. intros a _. reflexivity. Qed.
Lemma keeps_trans h1 h2 h3 n1 n2 : (n1 <= n2)%nat -> keeps h1 h2 n1 -> keeps h2 h3 n2 -> keeps h1 h3 n1.
Proof. intros L A B a Ha. rewrite B by lia. apply A. exact Ha. Qed.
Lemma deref_keeps h h' nx p a : heap_below h nx -> keeps h h' nx -> deref h p = Some a -> deref h' p = Some a.
Proof.
  intros B K. unfold deref. destruct (hget h (p_al p)) as [l|] eqn:E; [|discriminate].
  rewrite (K _ (B _ _ E)), E. auto.
Qed.
Lemma deref_same h h' p : hget h' (p_al p) = hget h (p_al p) -> deref h' p = deref h p.
Proof. unfold deref. now intros ->. Qed.

Lemma sub_app a i j : sub a (i ++ j) = match sub a i with Some c => sub c j | None => None end.
Proof.
  revert a. induction i as [|x i IH]; intros a; cbn; auto.
  destruct (nth_error (ap_assets a) x); auto.
Qed.
Lemma deref_child h p a i : deref h p = Some a -> deref h (child_ptr p i) = nth_error (ap_assets a) i.
Proof.
  unfold deref, child_ptr. cbn [p_al p_idx p_sub]. destruct (hget h (p_al p)); [|discriminate].
  destruct (nth_error l (p_idx p)) as [b|]; [|discriminate]. intros E. rewrite sub_app, E. cbn.
  destruct (nth_error (ap_assets a) i); reflexivity.
Qed.
Lemma child_ptr_inj p q i j : child_ptr p i = child_ptr q j -> p = q /\ i = j.
Proof.
  unfold child_ptr. intros E. inversion E as [[A B C]]. apply app_inj_tail in C. destruct C as [C D].
  split; [destruct p, q; cbn in *; congruence|exact D].
Qed.

(** * Lookup tables *)
Lemma lk_get_set lk n p m : lk_get (lk_set lk n p) m = if seqb m n then Some p else lk_get lk m.
Proof.
  induction lk as [|[k q] lk IH]; cbn; auto.
  destruct (seqb n k) eqn:E; cbn.
  - apply seqb_eq in E. subst k. destruct (seqb m n) eqn:F; auto.
  - rewrite IH. destruct (seqb m k) eqn:F; auto.
    apply seqb_eq in F. subst m. destruct (seqb k n) eqn:G; auto.
    apply seqb_eq in G. subst. rewrite seqb_same in E. discriminate.
Qed.
Lemma lk_keys_set lk n p m : In m (map fst (lk_set lk n p)) <-> m = n \/ In m (map fst lk).
Proof.
  induction lk as [|[k q] lk IH]; cbn; [intuition|].
  destruct (seqb n k) eqn:E; cbn.
  - apply seqb_eq in E. subst. intuition.
  - rewrite IH. intuition.
Qed.
Lemma lk_nodup_set lk n p : NoDup (map fst lk) -> NoDup (map fst (lk_set lk n p)).
Proof.
  induction lk as [|[k q] lk IH]; cbn; intros H; [repeat constructor; auto|].
  inversion H as [|x y Hx Hy]; subst. destruct (seqb n k) eqn:E; cbn.
  - apply seqb_eq in E. subst. constructor; auto.
  - constructor; auto. rewrite lk_keys_set. intros [->|X]; auto. rewrite seqb_same in E. discriminate.
Qed.
Lemma lk_get_in lk n q : lk_get lk n = Some q -> In (n, q) lk.
Proof.
  induction lk as [|[k p] lk IH]; cbn; [discriminate|].
  destruct (seqb n k) eqn:E; [|auto]. apply seqb_eq in E. intros X; inversion X; subst. auto.
Qed.
Lemma lk_in_get lk n q : NoDup (map fst lk) -> In (n, q) lk -> lk_get lk n = Some q.
Proof.
  induction lk as [|[k p] lk IH]; cbn; intros H; [contradiction|].
  inversion H as [|x y Hx Hy]; subst. intros [X|X].
  - inversion X; subst. now rewrite seqb_same.
  - rewrite seqb_neq; auto. intros ->. apply Hx. change k with (fst (k, q)). now apply in_map.
Qed.
Lemma lk_get_key lk n : In n (map fst lk) <-> exists q, lk_get lk n = Some q.
Proof.
  split.
  - induction lk as [|[k p] lk IH]; cbn; [contradiction|]. intros [->|X]; [rewrite seqb_same; eauto|].
    destruct (seqb n k); eauto.
  - intros [q H]. apply lk_get_in in H. change n with (fst (n, q)). now apply in_map.
Qed.

Lemma lk_add_get lk addr i l n q :
  lk_get (lk_add lk addr i l) n = Some q ->
  (lk_get lk n = Some q /\ ~ In n (map ap_name l)) \/ exists j c, nth_error l j = Some c /\ ap_name c = n /\ q = addr (i + j)%nat.
Proof.
  revert lk i. induction l as [|a l IH]; intros lk i; cbn; [intros; left; auto|].
  intros H. apply IH in H. destruct H as [[H Hn]|(j & c & Hj & Hc & ->)].
  - rewrite lk_get_set in H. destruct (seqb n (ap_name a)) eqn:E.
    + apply seqb_eq in E. inversion H; subst. right. exists 0%nat, a. rewrite Nat.add_0_r. auto.
    + left. split; [exact H|]. intros [X|X]; auto. subst. rewrite seqb_same in E. discriminate.
  - right. exists (S j), c. rewrite Nat.add_succ_r. auto.
Qed.
Lemma lk_add_keys lk addr i l n : In n (map fst (lk_add lk addr i l)) <-> In n (map fst lk) \/ In n (map ap_name l).
Proof.
  revert lk i. induction l as [|a l IH]; intros lk i; cbn; [intuition|].
  rewrite IH, lk_keys_set. intuition.
Qed.
Lemma lk_add_nodup lk addr i l : NoDup (map fst lk) -> NoDup (map fst (lk_add lk addr i l)).
Proof. revert lk i. induction l as [|a l IH]; intros lk i; cbn; auto. intros H. apply IH. now apply lk_nodup_set. Qed.
Lemma lk_add_old lk addr i l n q : lk_get lk n = Some q -> ~ In n (map ap_name l) -> lk_get (lk_add lk addr i l) n = Some q.
Proof.
  revert lk i. induction l as [|a l IH]; intros lk i; cbn; auto.
  intros H N. apply IH; [|tauto]. rewrite lk_get_set, seqb_neq; auto.
Qed.

(** * Assets *)
Section Store.
Variable store : cid -> option (list aproto).
Definition contents (id : cid) : list aproto := match store id with Some l => l | None => [] end.
(** The children found in the direct list and the first [k] lists. *)
Definition loaded (a : aproto) (k : nat) : list aproto := ap_assets a ++ concat (map contents (firstn k (ap_ind a))).

Lemma loaded_all a k : (length (ap_ind a) <= k)%nat -> loaded a k = dir_children store a.
Proof. intros H. unfold loaded, dir_children. rewrite firstn_all2 by exact H. reflexivity. Qed.
Lemma loaded_incl a k c : In c (loaded a k) -> In c (dir_children store a).
Proof.
  unfold loaded, dir_children. rewrite !in_app_iff. intros [H|H]; auto. right.
  apply in_concat in H. destruct H as (l & H & Hc). apply in_concat. exists l. split; auto.
  apply in_map_iff in H. destruct H as (id & E & H). apply in_map_iff. exists id. split; auto.
  rewrite <- (firstn_skipn k (ap_ind a)). apply in_or_app. now left.
Qed.
Lemma loaded_S a k id : nth_error (ap_ind a) k = Some id -> loaded a (S k) = loaded a k ++ contents id.
Proof.
  intros H. unfold loaded. rewrite (firstn_S_snoc _ _ _ H), map_app, concat_app, app_assoc.
  cbn. now rewrite app_nil_r.
Qed.

Record asset_ok (h : heap) (s : asset) (a : aproto) : Prop := {
  ao_proto : exists p, as_proto s = Some p /\ deref h p = Some a /\
      forall n q, lk_get (as_lookup s) n = Some q -> (exists j, q = child_ptr p j) \/ (In (p_al q) (as_lists s) /\ p_sub q = []);
  ao_nodup : NoDup (map fst (as_lookup s));
  ao_len : (length (as_lists s) <= length (ap_ind a))%nat;
  ao_ptr : forall n q, lk_get (as_lookup s) n = Some q ->
      exists c, deref h q = Some c /\ ap_name c = n /\ In c (loaded a (length (as_lists s)));
  ao_has : forall c, In c (loaded a (length (as_lists s))) -> exists q, lk_get (as_lookup s) (ap_name c) = Some q
}.

Lemma direct_ok h p a parent :
  deref h p = Some a -> NoDup (map ap_name (dir_children store a)) ->
  asset_ok h (mkasset parent (Some p) (direct_lookup p a) []) a.
Proof.
  intros D U. split; cbn [as_proto as_lookup as_lists length].
  - exists p. split; auto. split; auto. intros n q H. unfold direct_lookup in H. apply lk_add_get in H.
    destruct H as [[H _]|(j & c & _ & _ & ->)]; [discriminate|]. left. exists j. reflexivity.
  - apply lk_add_nodup. constructor.
  - lia.
  - intros n q H. unfold direct_lookup in H. apply lk_add_get in H.
    destruct H as [[H _]|(j & c & Hj & Hc & ->)]; [discriminate|]. exists c. cbn [plus].
    rewrite (deref_child _ _ _ _ D), Hj. split; auto. split; auto. unfold loaded. apply in_or_app. left.
    eapply nth_error_In. exact Hj.
  - intros c H. unfold loaded in H. cbn [firstn map concat] in H. rewrite app_nil_r in H.
    apply lk_get_key. unfold direct_lookup. apply lk_add_keys. right. now apply in_map.
Qed.

Lemma asset_ok_keeps h h' nx s a : heap_below h nx -> keeps h h' nx -> asset_ok h s a -> asset_ok h' s a.
Proof.
  intros B K [P N L Q H]. split; auto.
  - destruct P as (p & E & D & F). exists p. split; auto. split; auto. eapply deref_keeps; eauto.
  - intros n q E. destruct (Q n q E) as (c & Hd & Hn & Hi). exists c. split; auto. eapply deref_keeps; eauto.
Qed.

Lemma name_unique a c d : NoDup (map ap_name (dir_children store a)) ->
  In c (dir_children store a) -> In d (dir_children store a) -> ap_name c = ap_name d -> c = d.
Proof.
  intros U Hc Hd E. induction (dir_children store a) as [|x l IH]; [contradiction|].
  cbn in U. inversion U as [|y z Hy Hz]; subst. destruct Hc as [->|Hc], Hd as [->|Hd]; auto.
  - exfalso. apply Hy. rewrite E. now apply in_map.
  - exfalso. apply Hy. rewrite <- E. now apply in_map.
Qed.

(** What [load] does. *)
Definition loads_to (h : heap) (nx : nat) (s : asset) (h' : heap) (nx' : nat) (s' : asset) : Prop :=
  as_parent s' = as_parent s /\ as_proto s' = as_proto s /\ (nx <= nx')%nat /\ keeps h h' nx /\ heap_below h' nx' /\
  (exists new, as_lists s' = as_lists s ++ new /\ Forall (fun al => (nx <= al < nx')%nat) new) /\
  (forall n q, lk_get (as_lookup s) n = Some q -> lk_get (as_lookup s') n = Some q).

Lemma load_ok fetch stop a :
  (forall id l, fetch id = Some l -> store id = Some l) -> NoDup (map ap_name (dir_children store a)) ->
  forall ids h nx s ok h' nx' s',
  heap_below h nx -> asset_ok h s a -> ids = skipn (length (as_lists s)) (ap_ind a) ->
  load fetch stop ids h nx s = (ok, h', nx', s') ->
  loads_to h nx s h' nx' s' /\ asset_ok h' s' a /\
  (ok = true -> stop (as_lookup s') = true \/ length (as_lists s') = length (ap_ind a)).
Proof.
  intros F U. induction ids as [|id ids IH]; intros h nx s ok h' nx' s' B A I; cbn [load].
  - assert (K : loads_to h nx s h nx s).
    { split; auto. split; auto. split; auto. split; [apply keeps_refl|]. split; auto. split; auto.
      exists []. rewrite app_nil_r. auto. }
    destruct (stop (as_lookup s)) eqn:E; intros X; inversion X; subst; split; auto; split; auto.
    intros _. right. pose proof (ao_len _ _ _ A). assert (length (skipn (length (as_lists s')) (ap_ind a)) = 0%nat) by (now rewrite <- I).
    rewrite skipn_length in H0. lia.
  - destruct (stop (as_lookup s)) eqn:E.
    { intros X; inversion X; subst. split; [|split; auto].
      split; auto. split; auto. split; auto. split; [apply keeps_refl|]. split; auto. split; auto.
      exists []. rewrite app_nil_r. auto. }
    destruct (fetch id) as [l|] eqn:Fe.
    2:{ intros X; inversion X; subst. split; [|split; auto; discriminate].
        split; auto. split; auto. split; auto. split; [apply keeps_refl|]. split; auto. split; auto.
        exists []. rewrite app_nil_r. auto. }
    set (s1 := mkasset (as_parent s) (as_proto s) (lk_add (as_lookup s) (fun i => mkptr nx i []) 0 l) (as_lists s ++ [nx])).
    set (h1 := (nx, l) :: h). intros X.
    assert (Nk : nth_error (ap_ind a) (length (as_lists s)) = Some id).
    { rewrite <- (firstn_skipn (length (as_lists s)) (ap_ind a)), <- I.
      pose proof (ao_len _ _ _ A). rewrite nth_error_app2 by (rewrite firstn_length; lia).
      rewrite firstn_length, Nat.min_l by exact H. rewrite Nat.sub_diag. reflexivity. }
    assert (Cl : contents id = l) by (unfold contents; now rewrite (F _ _ Fe)).
    assert (Lo : loaded a (length (as_lists s1)) = loaded a (length (as_lists s)) ++ l).
    { subst s1. cbn [as_lists]. rewrite app_length. cbn [length]. rewrite Nat.add_1_r, (loaded_S _ _ _ Nk), Cl. reflexivity. }
    assert (Ul : NoDup (map ap_name (loaded a (length (as_lists s)) ++ l))).
    { rewrite <- Lo. unfold loaded.
      assert (U' : NoDup (map ap_name (ap_assets a ++ concat (map contents (ap_ind a))))) by exact U.
      rewrite <- (firstn_skipn (length (as_lists s1)) (ap_ind a)) in U'.
      rewrite (map_app contents), concat_app, app_assoc, (map_app ap_name) in U'.
      revert U'. generalize (map ap_name (ap_assets a ++ concat (map contents (firstn (length (as_lists s1)) (ap_ind a))))).
      intros m U'. clear - U'. induction m as [|x m IH]; [constructor|].
      cbn in U'. inversion U' as [|y z H1 H2]; subst. constructor; auto. intros Y. apply H1. apply in_or_app. now left. }
    assert (Dis : forall n, In n (map ap_name (loaded a (length (as_lists s)))) -> In n (map ap_name l) -> False).
    { rewrite map_app in Ul. intros n H1 H2. clear - Ul H1 H2.
      induction (map ap_name (loaded a (length (as_lists s)))) as [|x m IH]; [contradiction|].
      cbn in Ul. inversion Ul; subst. destruct H1 as [->|H1]; auto. apply H3. apply in_or_app. now right. }
    assert (Dk : forall n q, lk_get (as_lookup s) n = Some q -> ~ In n (map ap_name l)).
    { intros n q H1 H2. destruct (ao_ptr _ _ _ A n q H1) as (c & _ & Hn & Hi). apply (Dis n); auto.
      rewrite <- Hn. now apply in_map. }
    assert (B1 : heap_below h1 (S nx)).
    { intros b m. subst h1. cbn. destruct (Nat.eqb_spec b nx); [lia|]. intros H. apply B in H. lia. }
    assert (K1 : keeps h h1 nx).
    { intros b Hb. apply hget_cons_other. lia. }
    assert (A1 : asset_ok h1 s1 a).
    { pose proof (asset_ok_keeps _ _ _ _ _ B K1 A) as A'. split; cbn [as_proto as_lookup as_lists s1].
      - destruct (ao_proto _ _ _ A') as (p & E1 & D1 & F1). exists p. split; auto. split; auto.
        intros n q H. apply lk_add_get in H. destruct H as [[H _]|(j & c & _ & _ & ->)].
        + destruct (F1 _ _ H) as [H1|[H1 H2]]; auto. right. split; auto. apply in_or_app. now left.
        + right. split; [apply in_or_app; right; left; reflexivity|reflexivity].
      - apply lk_add_nodup. apply (ao_nodup _ _ _ A).
      - rewrite app_length. cbn. assert (nth_error (ap_ind a) (length (as_lists s)) <> None) by congruence.
        apply nth_error_Some in H. lia.
      - intros n q H. change (as_lists s ++ [nx]) with (as_lists s1). rewrite Lo. apply lk_add_get in H.
        destruct H as [[H _]|(j & c & Hj & Hc & ->)].
        + destruct (ao_ptr _ _ _ A' n q H) as (c & H1 & H2 & H3). exists c. split; auto. split; auto.
          apply in_or_app. now left.
        + exists c. split; [|split; auto; apply in_or_app; right; eapply nth_error_In; exact Hj].
          unfold deref. cbn [p_al p_idx p_sub plus]. subst h1. rewrite hget_cons_same, Hj. reflexivity.
      - intros c. change (as_lists s ++ [nx]) with (as_lists s1). rewrite Lo. intros H. apply in_app_or in H.
        apply lk_get_key, lk_add_keys. destruct H as [H|H].
        + left. apply lk_get_key. apply (ao_has _ _ _ A). exact H.
        + right. now apply in_map. }
    assert (I1 : ids = skipn (length (as_lists s1)) (ap_ind a)).
    { subst s1. cbn [as_lists]. rewrite app_length. cbn [length]. rewrite Nat.add_comm, <- skipn_skipn, <- I. reflexivity. }
    destruct (IH h1 (S nx) s1 ok h' nx' s' B1 A1 I1 X) as ((L1 & L2 & L3 & L4 & L5 & (new & L6 & L7) & L8) & A2 & S2).
    split; [|split; auto].
    split; [exact L1|]. split; [exact L2|]. split; [lia|].
    split; [eapply keeps_trans; [|exact K1|exact L4]; lia|]. split; [exact L5|].
    split.
    + exists (nx :: new). split; [rewrite L6; subst s1; cbn [as_lists]; now rewrite <- app_assoc|].
      constructor; [lia|]. eapply Forall_impl; [|exact L7]. cbn. intros; lia.
    + intros n q H. apply L8. subst s1. cbn [as_lookup]. apply lk_add_old; auto. eapply Dk. exact H.
Qed.
End Store.
