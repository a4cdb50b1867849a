(** Proofs for C28: the manifest builder's tree. *)
From Verif Require Import Base ListX Str ModelText ModelChunkMap ModelProvider ModelAsset ModelManifest SpecManifest.
Local Open Scope N_scope.

(** * Generic lemmas *)
Lemma name_eqb_eq x y : name_eqb x y = true <-> x = y.
Proof. unfold name_eqb. destruct (list_eq_dec N.eq_dec x y); split; congruence. Qed.
Lemma name_eqb_refl x : name_eqb x x = true.
Proof. now apply name_eqb_eq. Qed.
Lemma name_eqb_neq x y : name_eqb x y = false <-> x <> y.
Proof. unfold name_eqb. destruct (list_eq_dec N.eq_dec x y); split; congruence. Qed.
Lemma type_eqb_eq a b : type_eqb a b = true <-> a = b.
Proof. destruct a, b; cbn; split; congruence. Qed.
Lemma type_eqb_refl a : type_eqb a a = true.
Proof. now apply type_eqb_eq. Qed.

Lemma lset_same L id l : lset L id l id = Some l.
Proof. unfold lset. now destruct (list_eq_dec N.eq_dec id id). Qed.
Lemma lset_other L id l x : x <> id -> lset L id l x = L x.
Proof. unfold lset. now destruct (list_eq_dec N.eq_dec x id). Qed.
Lemma ldel_same L id : ldel L id id = None.
Proof. unfold ldel. now destruct (list_eq_dec N.eq_dec id id). Qed.
Lemma ldel_other L id x : x <> id -> ldel L id x = L x.
Proof. unfold ldel. now destruct (list_eq_dec N.eq_dec x id). Qed.

Definition named (n : bytes) (c : asset) : bool := name_eqb (a_name c) n.

Lemma find_named n l c : find (named n) l = Some c -> In c l /\ a_name c = n.
Proof. intros H. apply find_some in H. destruct H as (A & B). now apply name_eqb_eq in B. Qed.
Lemma find_named_none n l : find (named n) l = None <-> ~ In n (map a_name l).
Proof.
  split.
  - intros H I. apply in_map_iff in I. destruct I as (c & <- & I). apply (find_none _ _ H) in I. unfold named in I. now rewrite name_eqb_refl in I.
  - intros H. destruct (find (named n) l) eqn:E; [|reflexivity]. apply find_named in E. destruct E as (I & <-). exfalso. apply H. now apply in_map.
Qed.
Lemma find_unique n l c : NoDup (map a_name l) -> In c l -> a_name c = n -> find (named n) l = Some c.
Proof.
  induction l as [|x l IH]; intros N I E; [easy|]. inversion N; subst. cbn [find]. destruct (named (a_name c) x) eqn:D.
  - unfold named in D. apply name_eqb_eq in D. destruct I as [->|I]; [reflexivity|]. exfalso. apply H1. rewrite D. now apply in_map.
  - destruct I as [->|I]; [unfold named in D; now rewrite name_eqb_refl in D|]. apply IH; auto.
Qed.
Lemma find_perm n l l' : NoDup (map a_name l) -> Permutation l l' -> find (named n) l' = find (named n) l.
Proof.
  intros N P. assert (N' : NoDup (map a_name l')) by (eapply Permutation_NoDup; [apply Permutation_map; exact P|exact N]).
  destruct (find (named n) l) as [c|] eqn:E.
  - apply find_named in E. destruct E as (I & E). apply find_unique; auto. eapply Permutation_in; eauto.
  - apply find_named_none. intros I. apply find_named_none in E. apply E. eapply Permutation_in; [|exact I]. apply Permutation_map. now symmetry.
Qed.

Lemma find_split_some n l p a q : find_split n l = Some (p, a, q) -> l = p ++ a :: q /\ a_name a = n /\ ~ In n (map a_name p).
Proof.
  revert p a q. induction l as [|x l IH]; intros p a q H; [discriminate|]. cbn in H. destruct (name_eqb (a_name x) n) eqn:E.
  - inversion H; subst. apply name_eqb_eq in E. cbn. auto.
  - destruct (find_split n l) as [[[p' x'] q']|] eqn:F; [|discriminate]. inversion H; subst. destruct (IH _ _ _ eq_refl) as (-> & B & C).
    split; [reflexivity|]. split; [exact B|]. cbn. intros [G|G]; [now apply name_eqb_neq in E|auto].
Qed.
Lemma find_split_none n l : find_split n l = None -> ~ In n (map a_name l).
Proof.
  induction l as [|x l IH]; intros H; [easy|]. cbn in H. destruct (name_eqb (a_name x) n) eqn:E; [discriminate|].
  destruct (find_split n l) as [[[p' x'] q']|] eqn:F; [discriminate|]. cbn. intros [G|G]; [now apply name_eqb_neq in E|now apply IH].
Qed.

Lemma del_split_perm pre post a : Permutation (pre ++ post) (del_split pre post a).
Proof.
  unfold del_split. destruct post as [|x post]; [now rewrite app_nil_r|]. set (l := x :: post). apply Permutation_app_head.
  rewrite (app_removelast_last a (l := l)) at 1 by discriminate. symmetry. apply Permutation_cons_append.
Qed.

Lemma is_prefix_spec p q : is_prefix p q = true <-> exists r, q = p ++ r.
Proof.
  revert q. induction p as [|a p IH]; intros q; cbn.
  - split; [eauto|auto].
  - destruct q as [|b q]; [split; [discriminate|intros (r & H); discriminate]|].
    rewrite andb_true_iff, name_eqb_eq, IH. split; [intros (-> & r & ->); now exists r|].
    intros (r & H). inversion H; subst. eauto.
Qed.
Lemma path_eqb_eq p q : path_eqb p q = true <-> p = q.
Proof.
  unfold path_eqb. rewrite andb_true_iff, !is_prefix_spec. split.
  - intros ((r & ->) & (s & E)). rewrite <- app_assoc in E. apply (f_equal (@length bytes)) in E. rewrite !app_length in E.
    destruct r; [now rewrite app_nil_r|cbn in E; lia].
  - intros ->. split; exists []; now rewrite app_nil_r.
Qed.
Lemma is_prefix_cons a p b q : is_prefix (a :: p) (b :: q) = name_eqb a b && is_prefix p q.
Proof. reflexivity. Qed.
Lemma path_eqb_cons a p b q : path_eqb (a :: p) (b :: q) = name_eqb a b && path_eqb p q.
Proof.
  unfold path_eqb. rewrite !is_prefix_cons. unfold name_eqb. destruct (list_eq_dec N.eq_dec a b), (list_eq_dec N.eq_dec b a); try congruence; cbn; [reflexivity|]. reflexivity.
Qed.

Definition path_nil_dec (p : path) : {p = []} + {p <> []}.
Proof. destruct p; [left; reflexivity|right; discriminate]. Defined.

Section Proofs.
Context (store : cid -> option (list asset)).
Notation listed := (listed store).
Notation stored := (stored store).
Notation children := (children store).
Notation node := (node store).
Notation view := (view store).

Lemma node_cons L a n r : node L a (n :: r) = if type_eqb (a_type a) TDir then match find (named n) (children L a) with Some c => node L c r | None => None end else None.
Proof. reflexivity. Qed.
Lemma view_cons L a n r : a_type a = TDir -> view L a (n :: r) = match find (named n) (children L a) with Some c => view L c r | None => None end.
Proof. intros T. unfold SpecManifest.view. rewrite node_cons, T. cbn [type_eqb]. now destruct (find (named n) (children L a)). Qed.
Lemma view_nil L a : view L a [] = Some (a_info a).
Proof. reflexivity. Qed.

Lemma node_app L a p q : node L a (p ++ q) = match node L a p with Some b => node L b q | None => None end.
Proof.
  revert a. induction p as [|n p IH]; intros a; [reflexivity|]. cbn [app]. rewrite !node_cons. destruct (type_eqb (a_type a) TDir); [|reflexivity].
  destruct (find (named n) (children L a)); [apply IH|reflexivity].
Qed.

(** Loading a list changes nothing. *)
Lemma children_listed L L' a : (forall id, listed L' id = listed L id) -> children L' a = children L a.
Proof. intros H. unfold SpecManifest.children. f_equal. apply flat_map_ext. exact H. Qed.
Lemma node_listed L L' a p : (forall id, listed L' id = listed L id) -> node L' a p = node L a p.
Proof.
  intros H. revert a. induction p as [|n p IH]; intros a; [reflexivity|]. rewrite !node_cons, (children_listed L L' a H).
  destruct (type_eqb (a_type a) TDir); [|reflexivity]. destruct (find (named n) (children L a)); [apply IH|reflexivity].
Qed.

(** [own id p]: the list [id] belongs to the directory at path [p]. *)
Context (own : cid -> path -> Prop) (own_fun : forall id p q, own id p -> own id q -> p = q).

Definition cold (L : lists) (c : asset) : Prop :=
  forall r d id, node L c r = Some d -> a_type d = TDir -> In id (a_ind d) -> listed L id = stored id.
Record dir_ok (L : lists) (p : path) (b : asset) : Prop := mkok {
  ok_names : NoDup (map a_name (children L b));
  ok_lists : NoDup (a_ind b);
  ok_own : forall id, In id (a_ind b) -> own id p;
  ok_lazy : forall id c, In id (a_ind b) -> L id = None -> In c (listed L id) -> cold L c }.
Definition ok_at (L : lists) (p : path) (a : asset) : Prop := forall q b, node L a q = Some b -> a_type b = TDir -> dir_ok L (p ++ q) b.

Lemma ok_self L p a : ok_at L p a -> a_type a = TDir -> dir_ok L p a.
Proof. intros H T. specialize (H [] a eq_refl T). now rewrite app_nil_r in H. Qed.

Lemma ok_child L p a c : ok_at L p a -> a_type a = TDir -> In c (children L a) -> ok_at L (p ++ [a_name c]) c.
Proof.
  intros H T I q b Hn Tb. rewrite <- app_assoc. cbn [app]. apply H; auto. rewrite node_cons, T. cbn [type_eqb].
  rewrite (find_unique (a_name c) (children L a) c); auto. apply (ok_self L p a H T).
Qed.

(** Two states that agree on the lists below [p]. *)
Definition agree (p : path) (L L' : lists) : Prop := forall id q, own id (p ++ q) -> L' id = L id.

Lemma agree_sub p n L L' : agree p L L' -> agree (p ++ [n]) L L'.
Proof. intros H id q O. rewrite <- app_assoc in O. apply (H id _ O). Qed.

Lemma children_agree L L' p a : dir_ok L p a -> agree p L L' -> children L' a = children L a.
Proof.
  intros H A. unfold SpecManifest.children. f_equal. assert (E : forall id, In id (a_ind a) -> listed L' id = listed L id).
  { intros id I. unfold SpecManifest.listed. rewrite (A id []); [reflexivity|]. rewrite app_nil_r. now apply (ok_own L p a H). }
  revert E. generalize (a_ind a). intros l. induction l as [|x l IH]; intros E; [reflexivity|]. cbn [flat_map]. rewrite (E x), IH; auto; [intros; apply E; now right|now left].
Qed.

Lemma node_agree L L' p a q : ok_at L p a -> agree p L L' -> node L' a q = node L a q.
Proof.
  revert p a. induction q as [|n q IH]; intros p a H A; [reflexivity|]. rewrite !node_cons. destruct (type_eqb (a_type a) TDir) eqn:T; [|reflexivity].
  apply type_eqb_eq in T. rewrite (children_agree L L' p a (ok_self _ _ _ H T) A). destruct (find (named n) (children L a)) as [c|] eqn:E; [|reflexivity].
  apply find_named in E. destruct E as (I & <-). apply (IH (p ++ [a_name c])); [eapply ok_child; eassumption|now apply agree_sub].
Qed.
Lemma view_agree L L' p a q : ok_at L p a -> agree p L L' -> view L' a q = view L a q.
Proof. intros H A. unfold SpecManifest.view. now rewrite (node_agree L L' p a q H A). Qed.

Lemma cold_agree L L' p a : ok_at L p a -> agree p L L' -> cold L a -> cold L' a.
Proof.
  intros H A C r d id N T I. rewrite (node_agree L L' p a r H A) in N. unfold SpecManifest.listed. rewrite (A id r); [now apply (C r d)|].
  apply (ok_own _ _ _ (H r d N T)). exact I.
Qed.

Lemma ok_agree L L' p a : ok_at L p a -> agree p L L' -> ok_at L' p a.
Proof.
  intros H A q b N T. rewrite (node_agree L L' p a q H A) in N. pose proof (H q b N T) as D.
  assert (A' : agree (p ++ q) L L') by (intros id r O; rewrite <- app_assoc in O; exact (A id _ O)).
  assert (Hb : ok_at L (p ++ q) b). { intros r c Nc Tc. rewrite <- app_assoc. apply H; [|exact Tc]. rewrite node_app, N. exact Nc. }
  constructor.
  - rewrite (children_agree L L' (p ++ q) b D A'). apply D.
  - apply D.
  - apply D.
  - intros id c I U Ic. assert (E : L' id = L id) by (apply (A' id []); rewrite app_nil_r; now apply (ok_own _ _ _ D)).
    assert (Ic' : In c (listed L id)) by (unfold SpecManifest.listed in *; now rewrite E in Ic). rewrite E in U.
    assert (Ich : In c (children L b)) by (unfold SpecManifest.children; rewrite in_app_iff, in_flat_map; right; eauto).
    eapply (cold_agree L L' ((p ++ q) ++ [a_name c])); [eapply ok_child; eassumption|now apply agree_sub|].
    apply (ok_lazy _ _ _ D id); auto.
Qed.

(** Changes below [p] leave other subtrees alone. *)
Definition touches (p : path) (L L' : lists) : Prop := forall id, L' id = L id \/ exists q, own id (p ++ q).
Lemma touches_agree p n m L L' : touches (p ++ [n]) L L' -> n <> m -> agree (p ++ [m]) L L'.
Proof.
  intros H D id q O. destruct (H id) as [E|(r & O')]; [exact E|]. pose proof (own_fun _ _ _ O O') as F. rewrite <- !app_assoc in F. apply app_inv_head in F. cbn in F; congruence.
Qed.

Lemma dir_change L L' p dir dir' n :
  ok_at L p dir -> a_type dir = TDir -> a_type dir' = TDir -> a_ind dir' = a_ind dir ->
  (forall id, L' id = L id \/ own id p \/ exists q, own id (p ++ n :: q)) ->
  (forall id, L' id = None -> L id = None) ->
  NoDup (map a_name (children L' dir')) ->
  (forall m, m <> n -> find (named m) (children L' dir') = find (named m) (children L dir)) ->
  (forall c, find (named n) (children L' dir') = Some c -> ok_at L' (p ++ [n]) c) ->
  (forall id, In id (a_ind dir) -> L' id = None -> ~ In n (map a_name (listed L id))) ->
  ok_at L' p dir' /\ (forall m r, m <> n -> view L' dir' (m :: r) = view L dir (m :: r)) /\
  (forall r, view L' dir' (n :: r) = match find (named n) (children L' dir') with Some c => view L' c r | None => None end).
Proof.
  intros H T T' I C U N F O Z.
  assert (A : forall m, m <> n -> agree (p ++ [m]) L L').
  { intros m D id q Hq. rewrite <- app_assoc in Hq. cbn [app] in Hq. destruct (C id) as [E|[E|(q' & E)]]; [exact E| |].
    - pose proof (own_fun _ _ _ E Hq) as X. apply (f_equal (@length bytes)) in X. rewrite app_length in X. cbn in X. lia.
    - pose proof (own_fun _ _ _ E Hq) as X. apply app_inv_head in X. congruence. }
  assert (V : forall m r, m <> n -> node L' dir' (m :: r) = node L dir (m :: r)).
  { intros m r D. rewrite !node_cons, T, T', F by exact D. cbn [type_eqb]. destruct (find (named m) (children L dir)) as [c|] eqn:E; [|reflexivity].
    apply find_named in E. destruct E as (Ic & <-). eapply node_agree; [eapply ok_child; eassumption|now apply A]. }
  split; [|split].
  - intros q b Nb Tb. destruct q as [|m q].
    + cbn in Nb. inversion Nb; subst b. rewrite app_nil_r. pose proof (ok_self _ _ _ H T) as D. constructor; [exact N|rewrite I; apply D|rewrite I; apply D|].
      rewrite I. intros id c Ii Ui Ic. pose proof (U id Ui) as Ui0. assert (Ic0 : In c (listed L id)) by (unfold SpecManifest.listed in *; now rewrite Ui0, Ui in *).
      assert (Dn : a_name c <> n) by (intros <-; apply (Z id Ii Ui); now apply in_map).
      assert (Ich : In c (children L dir)) by (unfold SpecManifest.children; rewrite in_app_iff, in_flat_map; right; eauto).
      eapply cold_agree; [eapply ok_child; eassumption|now apply A|]. eapply (ok_lazy _ _ _ D); eassumption.
    + destruct (list_eq_dec N.eq_dec m n) as [->|D].
      * rewrite node_cons, T' in Nb. cbn [type_eqb] in Nb. destruct (find (named n) (children L' dir')) as [c|] eqn:E; [|discriminate].
        pose proof (O c eq_refl q b Nb Tb) as X. rewrite <- app_assoc in X. exact X.
      * rewrite node_cons, T', F in Nb by exact D. cbn [type_eqb] in Nb. destruct (find (named m) (children L dir)) as [c|] eqn:E; [|discriminate].
        apply find_named in E. destruct E as (Ic & <-). assert (Okc : ok_at L' (p ++ [a_name c]) c) by (eapply ok_agree; [eapply ok_child; eassumption|now apply A]).
        pose proof (Okc q b Nb Tb) as X. rewrite <- app_assoc in X. exact X.
  - intros m r D. unfold SpecManifest.view. now rewrite V.
  - intros r. now rewrite view_cons.
Qed.

(** * Editing the list of children *)
Lemma swap_child x y (a a' : asset) : NoDup (map a_name (x ++ a :: y)) -> a_name a' = a_name a ->
  NoDup (map a_name (x ++ a' :: y)) /\ (forall m, m <> a_name a -> find (named m) (x ++ a' :: y) = find (named m) (x ++ a :: y)) /\
  find (named (a_name a)) (x ++ a' :: y) = Some a'.
Proof.
  intros N E. assert (N' : NoDup (map a_name (x ++ a' :: y))) by (rewrite map_app in *; cbn [map] in *; now rewrite E).
  split; [exact N'|]. split.
  - intros m D. clear N N'. induction x as [|z x IH]; cbn [app find].
    + assert (X : named m a' = false) by (apply name_eqb_neq; congruence). assert (Y : named m a = false) by (apply name_eqb_neq; congruence). now rewrite X, Y.
    + now rewrite IH.
  - apply find_unique; auto. rewrite in_app_iff. right; now left.
Qed.
Lemma add_child x y (a' : asset) : NoDup (map a_name (x ++ y)) -> ~ In (a_name a') (map a_name (x ++ y)) ->
  NoDup (map a_name (x ++ a' :: y)) /\ (forall m, m <> a_name a' -> find (named m) (x ++ a' :: y) = find (named m) (x ++ y)) /\
  find (named (a_name a')) (x ++ a' :: y) = Some a'.
Proof.
  intros N E. assert (N' : NoDup (map a_name (x ++ a' :: y))).
  { rewrite map_app in *. cbn [map]. apply NoDup_Add with (a := a_name a') (l := map a_name x ++ map a_name y); [apply Add_app|]. now split. }
  split; [exact N'|]. split.
  - intros m D. clear N N' E. induction x as [|z x IH]; cbn [app find]; [|now rewrite IH].
    assert (X : named m a' = false) by (apply name_eqb_neq; congruence). now rewrite X.
  - apply find_unique; auto. rewrite in_app_iff. right; now left.
Qed.
Lemma del_child x y l (a : asset) : NoDup (map a_name (x ++ a :: y)) -> Permutation (x ++ y) l ->
  NoDup (map a_name l) /\ (forall m, m <> a_name a -> find (named m) l = find (named m) (x ++ a :: y)) /\ find (named (a_name a)) l = None.
Proof.
  intros N P. assert (N1 : NoDup (map a_name (x ++ y)) /\ ~ In (a_name a) (map a_name (x ++ y))).
  { rewrite map_app in *. cbn [map] in N. apply NoDup_remove in N. exact N. }
  destruct N1 as (N1 & N2). assert (N3 : NoDup (map a_name l)) by (eapply Permutation_NoDup; [apply Permutation_map; exact P|exact N1]).
  split; [exact N3|]. split.
  - intros m D. rewrite (find_perm m (x ++ y) l N1 P). symmetry. apply (add_child x y a N1 N2). exact D.
  - apply find_named_none. intros I. apply N2. eapply Permutation_in; [|exact I]. apply Permutation_map. now symmetry.
Qed.

(** The children of a directory with one list singled out. *)
Lemma children_list L a id : NoDup (a_ind a) -> In id (a_ind a) -> exists x y, forall L',
  (forall j, j <> id -> In j (a_ind a) -> listed L' j = listed L j) -> children L' a = x ++ listed L' id ++ y.
Proof.
  intros N I. apply in_split in I. destruct I as (u & v & E). rewrite E in *. apply NoDup_remove in N. destruct N as (_ & N).
  exists (a_dirs a ++ flat_map (listed L) u), (flat_map (listed L) v). intros L' H. unfold SpecManifest.children. rewrite E, flat_map_app. cbn [flat_map].
  assert (X : forall w, (forall j, In j w -> In j (u ++ v)) -> flat_map (listed L') w = flat_map (listed L) w).
  { induction w as [|j w IH]; intros W; [reflexivity|]. cbn [flat_map]. rewrite IH by (intros; apply W; now right). f_equal.
    apply H; [intros ->; apply N; apply W; now left|]. specialize (W j (or_introl eq_refl)). rewrite in_app_iff in *. cbn. tauto. }
  rewrite (X u), (X v) by (intros; rewrite in_app_iff; auto). now rewrite <- app_assoc.
Qed.

Lemma get_list_spec id L o L1 : get_list store id L = (o, L1) ->
  (forall j, listed L1 j = listed L j) /\ (forall j, L1 j = None -> L j = None) /\ (forall j, L1 j = L j \/ j = id) /\
  match o with Some l => L1 id = Some l /\ l = listed L id | None => L id = None /\ store id = None end.
Proof.
  unfold get_list. destruct (L id) as [l|] eqn:E.
  - intros H; inversion H; subst. repeat split; auto. unfold SpecManifest.listed. now rewrite E.
  - destruct (store id) as [l|] eqn:F; intros H; inversion H; subst.
    + split; [|split; [|split; [|split]]].
      * intros j. unfold SpecManifest.listed, SpecManifest.stored. destruct (list_eq_dec N.eq_dec j id) as [->|D]; [now rewrite lset_same, E, F|now rewrite lset_other].
      * intros j. destruct (list_eq_dec N.eq_dec j id) as [->|D]; [now rewrite lset_same|now rewrite lset_other].
      * intros j. destruct (list_eq_dec N.eq_dec j id) as [->|D]; [now right|rewrite lset_other; auto].
      * apply lset_same.
      * unfold SpecManifest.listed, SpecManifest.stored. now rewrite E, F.
    + repeat split; auto.
Qed.

(** [loads ids L L1]: some of the lists [ids] have been loaded. *)
Definition loads (ids : list cid) (L L1 : lists) : Prop :=
  (forall j, listed L1 j = listed L j) /\ (forall j, L1 j = None -> L j = None) /\ (forall j, L1 j = L j \/ In j ids).

Lemma find_ind_spec n ids L r L1 : find_ind store n ids L = (r, L1) ->
  loads ids L L1 /\
  match r with
  | FFound id pre a post => In id ids /\ L1 id = Some (pre ++ a :: post) /\ listed L id = pre ++ a :: post /\ a_name a = n
  | FNone => forall id, In id ids -> L1 id <> None /\ ~ In n (map a_name (listed L id))
  | FErr => exists id, In id ids /\ L id = None /\ store id = None
  end.
Proof.
  revert L r L1. induction ids as [|id ids IH]; intros L r L1 H; cbn in H.
  - inversion H; subst. split; [split; [|split]; auto|easy].
  - destruct (get_list store id L) as [o L2] eqn:G. apply get_list_spec in G. destruct G as (G1 & G2 & G3 & G4). destruct o as [l|].
    + destruct G4 as (G4 & Gl). destruct (find_split n l) as [[[p a] q]|] eqn:F.
      * inversion H; subst r L1. apply find_split_some in F. destruct F as (F1 & F2 & F3).
        split; [split; [exact G1|split; [exact G2|intros j; destruct (G3 j); [now left|right; now left]]]|].
        rewrite <- F1. repeat split; auto. now left.
      * apply IH in H. destruct H as ((A & B & C) & D). split; [split; [|split]|].
        -- intros j. now rewrite A, G1.
        -- auto.
        -- intros j. destruct (C j) as [->|I]; [|right; now right]. destruct (G3 j) as [E|E]; [now left|right; now left].
        -- destruct r as [id' pre a post| |].
           ++ destruct D as (D1 & D2 & D3 & D4). rewrite G1 in D3. repeat split; auto. now right.
           ++ intros j [<-|I].
              ** split; [intros X; apply B in X; congruence|]. rewrite <- Gl. now apply find_split_none.
              ** destruct (D j I) as (D1 & D2). rewrite G1 in D2. auto.
           ++ destruct D as (j & I & D1 & D2). exists j. repeat split; auto. now right.
    + destruct G4 as (G4 & G5). inversion H; subst. split; [split; [exact G1|split; [exact G2|intros j; destruct (G3 j); [now left|right; now left]]]|].
      exists id. repeat split; auto. now left.
Qed.

Lemma loads_view ids L L1 a q : loads ids L L1 -> view L1 a q = view L a q.
Proof. intros (A & _). unfold SpecManifest.view. now rewrite (node_listed L L1). Qed.

Lemma loads_ok L L1 p dir : ok_at L p dir -> a_type dir = TDir -> loads (a_ind dir) L L1 -> ok_at L1 p dir.
Proof.
  intros H T (A & B & C) q b N Tb. rewrite (node_listed L L1 dir q A) in N. pose proof (H q b N Tb) as D. pose proof (ok_self _ _ _ H T) as D0.
  constructor; [rewrite (children_listed L L1 b A); apply D|apply D|apply D|].
  intros id c I U Ic r d id' Nd Td Id. rewrite (node_listed L L1 c r A) in Nd. rewrite A in Ic. rewrite A.
  apply (ok_lazy _ _ _ D id c I (B _ U) Ic r d id' Nd Td Id).
Qed.

Record step (p : path) (dir : asset) (L : lists) (dir' : asset) (L' : lists) : Prop := mkstep {
  st_name : a_name dir' = a_name dir;
  st_type : a_type dir' = TDir;
  st_ok : ok_at L' p dir';
  st_touch : touches p L L';
  st_mono : forall id, L' id = None -> L id = None }.

Lemma own_here L p dir id : ok_at L p dir -> a_type dir = TDir -> In id (a_ind dir) -> exists q, own id (p ++ q).
Proof. intros H T I. exists []. rewrite app_nil_r. now apply (ok_own _ _ _ (ok_self _ _ _ H T)). Qed.

Lemma loads_step p dir L L1 : ok_at L p dir -> a_type dir = TDir -> loads (a_ind dir) L L1 -> step p dir L dir L1.
Proof.
  intros H T Lo. constructor; auto; [eapply loads_ok; eassumption| |apply Lo].
  intros id. destruct Lo as (_ & _ & C). destruct (C id) as [E|E]; [now left|right; eapply own_here; eassumption].
Qed.

Lemma step_trans p d0 L0 d1 L1 d2 L2 : step p d0 L0 d1 L1 -> step p d1 L1 d2 L2 -> step p d0 L0 d2 L2.
Proof.
  intros [A1 A2 A3 A4 A5] [B1 B2 B3 B4 B5]. constructor; auto; [congruence|].
  intros id. destruct (A4 id) as [E|E]; [|now right]. destruct (B4 id) as [F|F]; [left; congruence|now right].
Qed.

(** Replacing, adding and removing a direct child. *)
Lemma direct_swap p dir L pre a post a' L' : ok_at L p dir -> a_type dir = TDir -> a_dirs dir = pre ++ a :: post ->
  a_name a' = a_name a -> ok_at L' (p ++ [a_name a]) a' -> touches (p ++ [a_name a]) L L' -> (forall id, L' id = None -> L id = None) ->
  let dir' := set_dirs dir (pre ++ a' :: post) in
  step p dir L dir' L' /\ (forall m r, m <> a_name a -> view L' dir' (m :: r) = view L dir (m :: r)) /\
  (forall r, view L' dir' (a_name a :: r) = view L' a' r).
Proof.
  intros H T E En Ok To Mo dir'. pose proof (ok_self _ _ _ H T) as D.
  assert (Ag : forall id, In id (a_ind dir) -> L' id = L id).
  { intros id I. destruct (To id) as [X|(q & X)]; [exact X|]. apply (ok_own _ _ _ D) in I. pose proof (own_fun _ _ _ I X) as Y.
    apply (f_equal (@length bytes)) in Y. rewrite !app_length in Y. cbn in Y. lia. }
  assert (Fm : flat_map (listed L') (a_ind dir) = flat_map (listed L) (a_ind dir)).
  { revert Ag. generalize (a_ind dir). intros l. induction l as [|x l IH]; intros Ag; [reflexivity|]. cbn [flat_map]. rewrite IH by (intros; apply Ag; now right).
    f_equal. unfold SpecManifest.listed. now rewrite (Ag x (or_introl eq_refl)). }
  assert (C0 : children L dir = pre ++ a :: (post ++ flat_map (listed L) (a_ind dir))) by (unfold SpecManifest.children; rewrite E, <- app_assoc; reflexivity).
  assert (C1 : children L' dir' = pre ++ a' :: (post ++ flat_map (listed L) (a_ind dir))).
  { unfold SpecManifest.children, dir', set_dirs. destruct dir as [nm inf ds ids]. cbn [a_dirs a_ind a_name a_info] in *. rewrite Fm, <- app_assoc. reflexivity. }
  assert (Na : NoDup (map a_name (pre ++ a :: (post ++ flat_map (listed L) (a_ind dir))))) by (rewrite <- C0; apply D).
  destruct (swap_child pre (post ++ flat_map (listed L) (a_ind dir)) a a' Na En) as (S1 & S2 & S3).
  assert (T' : a_type dir' = TDir) by (destruct dir; exact T).
  assert (I' : a_ind dir' = a_ind dir) by (destruct dir; reflexivity).
  destruct (dir_change L L' p dir dir' (a_name a)) as (X & Y & Z); auto.
  - intros id. destruct (To id) as [U|(q & U)]; [now left|right; right]. rewrite <- app_assoc in U. eauto.
  - now rewrite C1.
  - intros m Dm. rewrite C1, C0. now apply S2.
  - intros c F. rewrite C1, S3 in F. inversion F; subst. exact Ok.
  - intros id I U. intros W. rewrite map_app in Na. cbn [map] in Na. rewrite map_app in Na. apply NoDup_remove in Na. destruct Na as (_ & Na). apply Na.
    rewrite !in_app_iff. right; right. apply in_map_iff in W. destruct W as (c & Ec & Ic). rewrite <- Ec. apply in_map. apply in_flat_map. eauto.
  - split; [|split].
    + constructor; auto. intros id. destruct (To id) as [U|(q & U)]; [now left|right]. rewrite <- app_assoc in U. eauto.
    + exact Y.
    + intros r. rewrite Z, C1, S3. reflexivity.
Qed.

Lemma touches_refl p L : touches p L L.
Proof. intros id. now left. Qed.

Lemma direct_add p dir L a L' : ok_at L p dir -> a_type dir = TDir -> ~ In (a_name a) (map a_name (children L dir)) ->
  ok_at L' (p ++ [a_name a]) a -> touches (p ++ [a_name a]) L L' -> (forall id, L' id = None -> L id = None) ->
  let dir' := set_dirs dir (a_dirs dir ++ [a]) in
  step p dir L dir' L' /\ (forall m r, m <> a_name a -> view L' dir' (m :: r) = view L dir (m :: r)) /\
  (forall r, view L' dir' (a_name a :: r) = view L' a r).
Proof.
  intros H T Ni Ok To Mo dir'. pose proof (ok_self _ _ _ H T) as D.
  assert (Ag : forall id, In id (a_ind dir) -> L' id = L id).
  { intros id I. destruct (To id) as [X|(q & X)]; [exact X|]. apply (ok_own _ _ _ D) in I. pose proof (own_fun _ _ _ I X) as Y.
    apply (f_equal (@length bytes)) in Y. rewrite !app_length in Y. cbn in Y. lia. }
  assert (Fm : flat_map (listed L') (a_ind dir) = flat_map (listed L) (a_ind dir)).
  { revert Ag. generalize (a_ind dir). intros l. induction l as [|x l IH]; intros Ag; [reflexivity|]. cbn [flat_map]. rewrite IH by (intros; apply Ag; now right).
    f_equal. unfold SpecManifest.listed. now rewrite (Ag x (or_introl eq_refl)). }
  assert (C1 : children L' dir' = a_dirs dir ++ a :: flat_map (listed L) (a_ind dir)).
  { unfold SpecManifest.children, dir', set_dirs. destruct dir as [nm inf ds ids]. cbn [a_dirs a_ind] in *. rewrite Fm, <- app_assoc. reflexivity. }
  destruct (add_child (a_dirs dir) (flat_map (listed L) (a_ind dir)) a (ok_names _ _ _ D) Ni) as (S1 & S2 & S3).
  assert (T' : a_type dir' = TDir) by (destruct dir; exact T).
  assert (I' : a_ind dir' = a_ind dir) by (destruct dir; reflexivity).
  destruct (dir_change L L' p dir dir' (a_name a)) as (X & Y & Z); auto.
  - intros id. destruct (To id) as [U|(q & U)]; [now left|right; right]. rewrite <- app_assoc in U. eauto.
  - now rewrite C1.
  - intros m Dm. rewrite C1. now apply S2.
  - intros c F. rewrite C1, S3 in F. inversion F; subst. exact Ok.
  - intros id I _ W. apply Ni. apply in_map_iff in W. destruct W as (c & <- & Ic). apply in_map. unfold SpecManifest.children. rewrite in_app_iff, in_flat_map. right. eauto.
  - split; [|split].
    + constructor; auto. intros id. destruct (To id) as [U|(q & U)]; [now left|right]. rewrite <- app_assoc in U. eauto.
    + exact Y.
    + intros r. rewrite Z, C1, S3. reflexivity.
Qed.

Lemma direct_del p dir L pre a post : ok_at L p dir -> a_type dir = TDir -> a_dirs dir = pre ++ a :: post ->
  let dir' := set_dirs dir (del_split pre post a) in
  step p dir L dir' L /\ (forall m r, m <> a_name a -> view L dir' (m :: r) = view L dir (m :: r)) /\
  (forall r, view L dir' (a_name a :: r) = None).
Proof.
  intros H T E dir'. pose proof (ok_self _ _ _ H T) as D.
  assert (C0 : children L dir = pre ++ a :: (post ++ flat_map (listed L) (a_ind dir))) by (unfold SpecManifest.children; rewrite E, <- app_assoc; reflexivity).
  assert (P : Permutation (pre ++ (post ++ flat_map (listed L) (a_ind dir))) (children L dir')).
  { unfold SpecManifest.children, dir', set_dirs. destruct dir as [nm inf ds ids]. cbn [a_dirs a_ind]. rewrite app_assoc. apply Permutation_app_tail. apply del_split_perm. }
  assert (Na : NoDup (map a_name (pre ++ a :: (post ++ flat_map (listed L) (a_ind dir))))) by (rewrite <- C0; apply D).
  destruct (del_child _ _ _ a Na P) as (S1 & S2 & S3).
  assert (T' : a_type dir' = TDir) by (destruct dir; exact T).
  assert (I' : a_ind dir' = a_ind dir) by (destruct dir; reflexivity).
  destruct (dir_change L L p dir dir' (a_name a)) as (X & Y & Z); auto.
  - intros m Dm. rewrite C0. now apply S2.
  - intros c F. rewrite S3 in F. discriminate.
  - intros id I U W. rewrite map_app in Na. cbn [map] in Na. rewrite map_app in Na. apply NoDup_remove in Na. destruct Na as (_ & Na). apply Na.
    rewrite !in_app_iff. right; right. apply in_map_iff in W. destruct W as (c & Ec & Ic). rewrite <- Ec. apply in_map. apply in_flat_map. eauto.
  - split; [|split].
    + constructor; auto. intros id. now left.
    + exact Y.
    + intros r. rewrite Z, S3. reflexivity.
Qed.

(** Changing a loaded list of the directory. *)
Lemma list_change p dir L L1 id l l' n : ok_at L p dir -> a_type dir = TDir -> In id (a_ind dir) -> L id = Some l ->
  touches (p ++ [n]) L L1 -> (forall j, L1 j = None -> L j = None) ->
  (forall x y, NoDup (map a_name (x ++ l ++ y)) -> NoDup (map a_name (x ++ l' ++ y)) /\
     forall m, m <> n -> find (named m) (x ++ l' ++ y) = find (named m) (x ++ l ++ y)) ->
  (forall x y c, NoDup (map a_name (x ++ l ++ y)) -> find (named n) (x ++ l' ++ y) = Some c -> ok_at L1 (p ++ [n]) c) ->
  In n (map a_name l) ->
  let L' := lset L1 id l' in
  step p dir L dir L' /\ (forall m r, m <> n -> view L' dir (m :: r) = view L dir (m :: r)) /\
  exists x y, NoDup (map a_name (x ++ l ++ y)) /\ children L dir = x ++ l ++ y /\ children L' dir = x ++ l' ++ y /\
    (forall c, ok_at L1 (p ++ [n]) c -> forall r, view L' c r = view L1 c r).
Proof.
  intros H T I E To Mo Hn Ho In_ L'. pose proof (ok_self _ _ _ H T) as D.
  assert (Ag : forall j, In j (a_ind dir) -> L1 j = L j).
  { intros j Ij. destruct (To j) as [X|(q & X)]; [exact X|]. apply (ok_own _ _ _ D) in Ij. pose proof (own_fun _ _ _ Ij X) as Y.
    apply (f_equal (@length bytes)) in Y. rewrite !app_length in Y. cbn in Y. lia. }
  destruct (children_list L dir id (ok_lists _ _ _ D) I) as (x & y & C).
  assert (C0 : children L dir = x ++ l ++ y) by (rewrite (C L) by auto; unfold SpecManifest.listed; now rewrite E).
  assert (C1 : children L' dir = x ++ l' ++ y).
  { rewrite (C L'); [unfold SpecManifest.listed, L'; now rewrite lset_same|]. intros j Dj Ij. unfold SpecManifest.listed, L'. rewrite lset_other by exact Dj. now rewrite Ag. }
  assert (Na : NoDup (map a_name (x ++ l ++ y))) by (rewrite <- C0; apply D).
  destruct (Hn x y Na) as (N1 & N2).
  assert (Oid : own id p) by (now apply (ok_own _ _ _ D)).
  assert (AgL : agree (p ++ [n]) L1 L').
  { intros j q Hq. unfold L'. apply lset_other. intros ->. pose proof (own_fun _ _ _ Oid Hq) as Y. apply (f_equal (@length bytes)) in Y. rewrite !app_length in Y. cbn in Y. lia. }
  destruct (dir_change L L' p dir dir n) as (X & Y & Z); auto.
  - intros j. unfold L'. destruct (list_eq_dec N.eq_dec j id) as [->|Dj]; [now right; left|]. rewrite lset_other by exact Dj.
    destruct (To j) as [U|(q & U)]; [now left|right; right]. rewrite <- app_assoc in U. eauto.
  - intros j. unfold L'. destruct (list_eq_dec N.eq_dec j id) as [->|Dj]; [now rewrite lset_same|]. rewrite lset_other by exact Dj. apply Mo.
  - now rewrite C1.
  - intros m Dm. rewrite C1, C0. now apply N2.
  - intros c F. rewrite C1 in F. eapply ok_agree; [eapply Ho; eassumption|exact AgL].
  - intros j Ij U W. unfold L' in U. destruct (list_eq_dec N.eq_dec j id) as [->|Dj]; [now rewrite lset_same in U|].
    assert (In j (a_ind dir)) by exact Ij. apply in_map_iff in W. destruct W as (c & Ec & Ic). apply in_map_iff in In_. destruct In_ as (c2 & Ec2 & Ic2).
    (* n would be in two lists *)
    clear C C0 C1 Hn Ho N1 N2. pose proof (ok_names _ _ _ D) as Nn. unfold SpecManifest.children in Nn. rewrite map_app in Nn.
    assert (Nn2 : NoDup (map a_name (flat_map (listed L) (a_ind dir)))).
    { clear -Nn. induction (map a_name (a_dirs dir)) as [|z w IH]; [exact Nn|]. cbn in Nn. inversion Nn; auto. }
    assert (Il : In c2 (listed L id)) by (unfold SpecManifest.listed; now rewrite E).
    clear -Nn2 I Ij Ic Il Ec Ec2 Dj. induction (a_ind dir) as [|z w IH]; [easy|]. cbn [flat_map] in Nn2. rewrite map_app in Nn2.
    assert (Sep : forall u, In u (map a_name (listed L z)) -> ~ In u (map a_name (flat_map (listed L) w))).
    { intros u Hu Hw. clear -Nn2 Hu Hw. induction (map a_name (listed L z)) as [|v vs IHv]; [easy|]. cbn in Nn2. inversion Nn2; subst. destruct Hu as [->|Hu]; [apply H1; rewrite in_app_iff; auto|auto]. }
    assert (Nw : NoDup (map a_name (flat_map (listed L) w))).
    { clear -Nn2. induction (map a_name (listed L z)) as [|v vs IHv]; [exact Nn2|]. cbn in Nn2. inversion Nn2; auto. }
    destruct I as [->|I], Ij as [->|Ij].
    + congruence.
    + apply (Sep n); [rewrite <- Ec2; now apply in_map|]. rewrite <- Ec. apply in_map. apply in_flat_map. eauto.
    + apply (Sep n); [rewrite <- Ec; now apply in_map|]. rewrite <- Ec2. apply in_map. apply in_flat_map. eauto.
    + apply IH; auto.
  - split; [|split].
    + constructor; auto.
      * intros j. unfold L'. destruct (list_eq_dec N.eq_dec j id) as [->|Dj]; [right; exists []; now rewrite app_nil_r|]. rewrite lset_other by exact Dj.
        destruct (To j) as [U|(q & U)]; [now left|right]. rewrite <- app_assoc in U. eauto.
      * intros j. unfold L'. destruct (list_eq_dec N.eq_dec j id) as [->|Dj]; [now rewrite lset_same|]. rewrite lset_other by exact Dj. apply Mo.
    + exact Y.
    + exists x, y. repeat split; auto. intros c Okc r. eapply view_agree; eassumption.
Qed.

Lemma list_swap p dir L L1 id pre a post a' : ok_at L p dir -> a_type dir = TDir -> In id (a_ind dir) -> L id = Some (pre ++ a :: post) ->
  a_name a' = a_name a -> ok_at L1 (p ++ [a_name a]) a' -> touches (p ++ [a_name a]) L L1 -> (forall j, L1 j = None -> L j = None) ->
  let L' := lset L1 id (pre ++ a' :: post) in
  step p dir L dir L' /\ (forall m r, m <> a_name a -> view L' dir (m :: r) = view L dir (m :: r)) /\
  (forall r, view L' dir (a_name a :: r) = view L1 a' r).
Proof.
  intros H T I E En Ok To Mo L'.
  assert (R : forall x y (b : asset), x ++ (pre ++ b :: post) ++ y = (x ++ pre) ++ b :: (post ++ y)) by (intros; now rewrite <- !app_assoc).
  destruct (list_change p dir L L1 id (pre ++ a :: post) (pre ++ a' :: post) (a_name a) H T I E To Mo) as (S & V & x & y & N & C0 & C1 & Vc).
  - intros x y N. rewrite R in *. destruct (swap_child _ _ a a' N En) as (A & B & C). split; [exact A|]. intros m Dm. rewrite R. now apply B.
  - intros x y c N F. rewrite R in *. destruct (swap_child _ _ a a' N En) as (_ & _ & C). rewrite C in F. inversion F; now subst.
  - rewrite map_app, in_app_iff. right; now left.
  - split; [exact S|]. split; [exact V|]. intros r. rewrite view_cons by (apply S). fold L' in C1. rewrite C1, R. rewrite R in N.
    destruct (swap_child _ _ a a' N En) as (_ & _ & C). rewrite C. now apply Vc.
Qed.

Lemma list_del p dir L id pre a post : ok_at L p dir -> a_type dir = TDir -> In id (a_ind dir) -> L id = Some (pre ++ a :: post) ->
  let L' := lset L id (del_split pre post a) in
  step p dir L dir L' /\ (forall m r, m <> a_name a -> view L' dir (m :: r) = view L dir (m :: r)) /\
  (forall r, view L' dir (a_name a :: r) = None).
Proof.
  intros H T I E L'.
  assert (R : forall x y, x ++ (pre ++ a :: post) ++ y = (x ++ pre) ++ a :: (post ++ y)) by (intros; now rewrite <- !app_assoc).
  assert (P : forall x y, Permutation ((x ++ pre) ++ post ++ y) (x ++ del_split pre post a ++ y)).
  { intros x y. rewrite <- app_assoc. apply Permutation_app_head. rewrite app_assoc. apply Permutation_app_tail. apply del_split_perm. }
  destruct (list_change p dir L L id (pre ++ a :: post) (del_split pre post a) (a_name a) H T I E) as (S & V & x & y & N & C0 & C1 & Vc).
  - intros j. now left.
  - auto.
  - intros x y N. rewrite R in *. destruct (del_child _ _ _ a N (P x y)) as (A & B & C). auto.
  - intros x y c N F. rewrite R in N. destruct (del_child _ _ _ a N (P x y)) as (A & B & C). rewrite C in F. discriminate.
  - rewrite map_app, in_app_iff. right; now left.
  - split; [exact S|]. split; [exact V|]. intros r. rewrite view_cons by (apply S). fold L' in C1. rewrite C1. rewrite R in N.
    destruct (del_child _ _ _ a N (P x y)) as (A & B & C). now rewrite C.
Qed.

Lemma view_child L p dir c r : ok_at L p dir -> a_type dir = TDir -> In c (children L dir) -> view L dir (a_name c :: r) = view L c r.
Proof. intros H T I. rewrite view_cons by exact T. rewrite (find_unique (a_name c) _ c); auto. apply (ok_self _ _ _ H T). Qed.
Lemma view_absent L dir n r : a_type dir = TDir -> ~ In n (map a_name (children L dir)) -> view L dir (n :: r) = None.
Proof. intros T I. rewrite view_cons by exact T. apply find_named_none in I. now rewrite I. Qed.
Lemma in_direct L dir pre a post : a_dirs dir = pre ++ a :: post -> In a (children L dir).
Proof. intros E. unfold SpecManifest.children. rewrite E, !in_app_iff. left; right; now left. Qed.
Lemma in_list L dir id c : In id (a_ind dir) -> In c (listed L id) -> In c (children L dir).
Proof. intros I Ic. unfold SpecManifest.children. rewrite in_app_iff, in_flat_map. right. eauto. Qed.
Lemma not_in_children L dir n : ~ In n (map a_name (a_dirs dir)) -> (forall id, In id (a_ind dir) -> ~ In n (map a_name (listed L id))) -> ~ In n (map a_name (children L dir)).
Proof.
  intros A B I. apply in_map_iff in I. destruct I as (c & <- & I). unfold SpecManifest.children in I. rewrite in_app_iff, in_flat_map in I.
  destruct I as [I|(id & Ii & I)]; [apply A; now apply in_map|apply (B id Ii); now apply in_map].
Qed.

Lemma prefix_one n m r : is_prefix [n] (m :: r) = name_eqb n m.
Proof. cbn. now rewrite andb_true_r. Qed.
Lemma prefix_to_one n m r : is_prefix (m :: r) [n] = name_eqb m n && match r with [] => true | _ => false end.
Proof. cbn. now destruct r. Qed.

Definition missing (L : lists) (dir : asset) : Prop := exists id, In id (a_ind dir) /\ L id = None /\ store id = None.

Lemma delete_spec p dir L n r dir' L' : ok_at L p dir -> a_type dir = TDir -> delete_from_dir store n dir L = (r, dir', L') ->
  step p dir L dir' L' /\ a_info dir' = a_info dir /\
  match r with
  | None => forall q, view L' dir' q = after_delete (view L dir) [n] q
  | Some e => e = EOther /\ (forall q, view L' dir' q = view L dir q) /\ missing L dir
  end.
Proof.
  intros H T E. unfold delete_from_dir in E. rewrite T in E. cbn [type_eqb negb] in E.
  destruct (find_split n (a_dirs dir)) as [[[pre a] post]|] eqn:F.
  - inversion E; subst r dir' L'. apply find_split_some in F. destruct F as (F1 & <- & F3).
    destruct (direct_del p dir L pre a post H T F1) as (S & V1 & V2). split; [exact S|]. split; [reflexivity|].
    intros [|m q]; [reflexivity|]. unfold after_delete. rewrite prefix_one. destruct (name_eqb (a_name a) m) eqn:D.
    + apply name_eqb_eq in D. subst. apply V2.
    + apply name_eqb_neq in D. apply V1. congruence.
  - apply find_split_none in F. destruct (find_ind store n (a_ind dir) L) as [o L1] eqn:G. apply find_ind_spec in G. destruct G as (Lo & G).
    pose proof (loads_step p dir L L1 H T Lo) as S1. destruct o as [id pre a post| |].
    + inversion E; subst r dir' L'. destruct G as (G1 & G2 & G3 & <-).
      destruct (list_del p dir L1 id pre a post (st_ok _ _ _ _ _ S1) T G1 G2) as (S & V1 & V2). split; [eapply step_trans; eassumption|]. split; [reflexivity|].
      intros [|m q]; [reflexivity|]. unfold after_delete. rewrite prefix_one. destruct (name_eqb (a_name a) m) eqn:D.
      * apply name_eqb_eq in D. subst. apply V2.
      * apply name_eqb_neq in D. rewrite V1 by congruence. eapply loads_view; exact Lo.
    + inversion E; subst r dir' L'. split; [exact S1|]. split; [reflexivity|]. intros q. rewrite (loads_view _ _ _ _ _ Lo). unfold after_delete.
      destruct q as [|m q]; [reflexivity|]. rewrite prefix_one. destruct (name_eqb n m) eqn:D; [|reflexivity]. apply name_eqb_eq in D. subst m.
      apply view_absent; [exact T|]. apply not_in_children; [exact F|]. intros id I. apply (G id I).
    + inversion E; subst r dir' L'. split; [exact S1|]. split; [reflexivity|]. split; [reflexivity|]. split; [intros q; eapply loads_view; exact Lo|exact G].
Qed.

(** A new asset has no lists. *)
Lemma ok_leaf L p a : a_dirs a = [] -> a_ind a = [] -> ok_at L p a.
Proof.
  intros D I q b N T. destruct q as [|n q].
  - inversion N; subst b. unfold SpecManifest.node in N. constructor; rewrite ?I; try easy.
    + unfold SpecManifest.children. rewrite D, I. constructor.
    + constructor.
  - rewrite node_cons in N. unfold SpecManifest.children in N. rewrite D, I in N. destruct (type_eqb (a_type a) TDir); discriminate.
Qed.
Lemma view_leaf L a n r : a_dirs a = [] -> a_ind a = [] -> view L a (n :: r) = None.
Proof. intros D I. unfold SpecManifest.view. rewrite node_cons. unfold SpecManifest.children. rewrite D, I. now destruct (type_eqb (a_type a) TDir). Qed.

(** Changing the fields of an asset. *)
Lemma node_info L a f n r : i_type (f (a_info a)) = i_type (a_info a) -> node L (set_info a (f (a_info a))) (n :: r) = node L a (n :: r).
Proof. intros E. rewrite !node_cons. unfold a_type, SpecManifest.children, set_info. destruct a as [nm i ds ids]. cbn [a_info a_dirs a_ind] in *. now rewrite E. Qed.
Lemma ok_info L p a f : i_type (f (a_info a)) = i_type (a_info a) -> ok_at L p a -> ok_at L p (set_info a (f (a_info a))).
Proof.
  intros E H q b N T. destruct q as [|n q].
  - cbn in N. inversion N; subst b. destruct a as [nm i ds ids]. cbn in *. assert (T0 : a_type (Asset nm i ds ids) = TDir) by (unfold a_type in *; cbn in *; congruence).
    pose proof (H [] _ eq_refl T0) as [A B C D]. constructor; [exact A|exact B|exact C|exact D].
  - rewrite node_info in N by exact E. now apply H.
Qed.

Section Get.
Context (now : N) (ty : atype) (force : bool) (f : info -> info) (Hf : forall i, i_type (f i) = i_type i).

Lemma add_spec p dir L n : ok_at L p dir -> a_type dir = TDir -> ~ In n (map a_name (children L dir)) ->
  step p dir L (add_new now n ty f dir) L /\ a_info (add_new now n ty f dir) = a_info dir /\
  view L (add_new now n ty f dir) [n] = Some (f (new_info now ty)) /\
  (forall m r, view L (add_new now n ty f dir) (n :: m :: r) = None) /\
  (forall m r, m <> n -> view L (add_new now n ty f dir) (m :: r) = view L dir (m :: r)).
Proof.
  intros H T Ni. set (a := set_info (new_asset now n ty) (f (new_info now ty))).
  destruct (direct_add p dir L a L H T Ni (ok_leaf L _ a eq_refl eq_refl) (touches_refl _ _) (fun _ x => x)) as (S & V1 & V2). fold a in S. unfold add_new. fold a.
  split; [exact S|]. split; [reflexivity|]. change (a_name a) with n in *. split; [rewrite V2; reflexivity|]. split; [|exact V1].
  intros m r. rewrite V2. now apply view_leaf.
Qed.

Lemma get_spec p dir L (n : bytes) r dir' L' : n <> [] -> ok_at L p dir -> a_type dir = TDir -> get_in_dir store now n ty force f dir L = (r, dir', L') ->
  step p dir L dir' L' /\ a_info dir' = a_info dir /\
  match r with
  | inl e => (forall q, view L' dir' q = view L dir q) /\ (e = EOther /\ missing L dir \/ create_result (view L dir) [n] ty force = r)
  | inr _ => (forall q, view L' dir' q = after_create now (view L dir) [n] ty f q) /\ create_result (view L dir) [n] ty force = r
  end.
Proof.
  intros Nn H T E. unfold get_in_dir in E. rewrite T in E. cbn [type_eqb negb] in E.
  assert (B : blocked (view L dir) [n] = false) by (unfold blocked; cbn; unfold a_type in T; now rewrite T).
  assert (CR : create_result (view L dir) [n] ty force = if kept (view L dir) [n] ty then inr false
     else match view L dir [n] with Some _ => if force then inr true else inl EExists | None => if type_eqb ty TUnknown then inl ENotFound else inr true end)
   by (unfold create_result; rewrite B; reflexivity).
  assert (Keep : forall a, view L dir [n] = Some (a_info a) -> kept (view L dir) [n] ty = type_eqb ty TUnknown || type_eqb (a_type a) ty) by (intros a Ea; unfold kept; now rewrite Ea).
  (* the asset is used *)
  assert (Use : forall a dir1 L1, view L dir [n] = Some (a_info a) -> a_info dir1 = a_info dir -> (forall m q, m <> n -> view L1 dir1 (m :: q) = view L dir (m :: q)) ->
     (forall q, view L1 dir1 (n :: q) = match q with [] => Some (f (a_info a)) | _ => view L dir (n :: q) end) ->
     type_eqb ty TUnknown || type_eqb (a_type a) ty = true -> forall q, view L1 dir1 q = after_create now (view L dir) [n] ty f q).
  { intros a dir1 L1 Ea Ei V1 V2 K [|m q].
    - unfold after_create. cbn. rewrite Ei. unfold a_type in T. now rewrite T.
    - unfold after_create. rewrite path_eqb_cons, prefix_to_one, prefix_one. unfold path_eqb.
      destruct (name_eqb m n) eqn:D.
      + apply name_eqb_eq in D. subst m. rewrite name_eqb_refl, V2. destruct q as [|z q]; cbn [is_prefix andb].
        * rewrite (Keep a Ea), K, Ea. reflexivity.
        * now rewrite (Keep a Ea), K.
      + apply name_eqb_neq in D. cbn [andb]. assert (D' : name_eqb n m = false) by (apply name_eqb_neq; congruence). rewrite D'. now apply V1. }
  (* the asset is new *)
  assert (Fresh : forall dir1 L1, a_info dir1 = a_info dir -> kept (view L dir) [n] ty = false -> view L1 dir1 [n] = Some (f (new_info now ty)) ->
     (forall m q, view L1 dir1 (n :: m :: q) = None) -> (forall m q, m <> n -> view L1 dir1 (m :: q) = view L dir (m :: q)) ->
     forall q, view L1 dir1 q = after_create now (view L dir) [n] ty f q).
  { intros dir1 L1 Ei K V1 V2 V3 [|m q].
    - unfold after_create. cbn. rewrite Ei. unfold a_type in T. now rewrite T.
    - unfold after_create. rewrite path_eqb_cons, prefix_to_one, prefix_one. unfold path_eqb. rewrite K.
      destruct (name_eqb m n) eqn:D.
      + apply name_eqb_eq in D. subst m. rewrite name_eqb_refl. destruct q as [|z q]; cbn [is_prefix andb].
        * rewrite V1. now destruct (view L dir [n]).
        * apply V2.
      + apply name_eqb_neq in D. cbn [andb]. assert (D' : name_eqb n m = false) by (apply name_eqb_neq; congruence). rewrite D'. now apply V3. }
  (* deleted and created again *)
  assert (Repl : forall a L0, view L dir [n] = Some (a_info a) -> type_eqb ty TUnknown || type_eqb (a_type a) ty = false -> force = true -> ok_at L0 p dir -> step p dir L dir L0 ->
     (forall q, view L0 dir q = view L dir q) -> (missing L0 dir -> missing L dir) ->
     match delete_from_dir store n dir L0 with (Some e, dir1, L1) => (inl e, dir1, L1) | (None, dir1, L1) => (inr true, add_new now n ty f dir1, L1) end = (r, dir', L') ->
     step p dir L dir' L' /\ a_info dir' = a_info dir /\
     match r with
     | inl e => (forall q, view L' dir' q = view L dir q) /\ (e = EOther /\ missing L dir \/ create_result (view L dir) [n] ty force = r)
     | inr _ => (forall q, view L' dir' q = after_create now (view L dir) [n] ty f q) /\ create_result (view L dir) [n] ty force = r
     end).
  { intros a L0 Ea K Fo Ok0 S0 V0 Mi E1. destruct (delete_from_dir store n dir L0) as [[o dir1] L1] eqn:G. apply (delete_spec p) in G; auto. destruct G as (S1 & I1 & G).
    destruct o as [e|].
    - inversion E1; subst r dir' L'. destruct G as (-> & V & M). split; [eapply step_trans; eassumption|]. split; [exact I1|]. split; [intros q; now rewrite V|left; auto].
    - inversion E1; subst r dir' L'.
      assert (Ni : ~ In n (map a_name (children L1 dir1))).
      { intros In1. apply in_map_iff in In1. destruct In1 as (c & Ec & Ic). pose proof (view_child L1 p dir1 c [] (st_ok _ _ _ _ _ S1) (st_type _ _ _ _ _ S1) Ic) as X.
        rewrite Ec, G in X. unfold after_delete in X. cbn in X. rewrite name_eqb_refl in X. discriminate. }
      destruct (add_spec p dir1 L1 n (st_ok _ _ _ _ _ S1) (st_type _ _ _ _ _ S1) Ni) as (S2 & I2 & A1 & A2 & A3).
      split; [eapply step_trans; [exact S0|eapply step_trans; eassumption]|]. split; [congruence|]. split.
      + apply Fresh; [congruence|rewrite (Keep a Ea); exact K|exact A1|exact A2|]. intros m q Dm. rewrite A3 by exact Dm. rewrite G. unfold after_delete. rewrite prefix_one.
        assert (D' : name_eqb n m = false) by (apply name_eqb_neq; congruence). rewrite D'. apply V0.
      + rewrite CR, (Keep a Ea), K, Ea, Fo. reflexivity. }
  destruct (find_split n (a_dirs dir)) as [[[pre a] post]|] eqn:F.
  - apply find_split_some in F. destruct F as (F1 & Fn & F3). pose proof (in_direct L dir pre a post F1) as Ia.
    assert (Va : forall q, view L dir (n :: q) = view L a q) by (intros q; rewrite <- Fn; apply (view_child L p); auto).
    destruct (type_eqb ty TUnknown || type_eqb (a_type a) ty) eqn:K.
    + inversion E; subst r dir' L'. set (a' := set_info a (f (a_info a))).
      assert (Oka : ok_at L (p ++ [a_name a]) a) by (apply (ok_child L p dir); auto).
      destruct (direct_swap p dir L pre a post a' L H T F1 eq_refl (ok_info L _ a f (Hf _) Oka) (touches_refl _ _)) as (S & V1 & V2); [auto|].
      split; [exact S|]. split; [reflexivity|]. split.
      * apply (Use a); [exact (Va [])|reflexivity| | |exact K].
        -- intros m q Dm. apply V1. congruence.
        -- intros q. rewrite <- Fn, V2. destruct q as [|z q]; [reflexivity|]. rewrite Fn, Va. unfold SpecManifest.view. unfold a'. now rewrite node_info.
      * rewrite CR, (Keep a (Va [])), K. reflexivity.
    + destruct force eqn:Fo.
      * apply (Repl a L); [exact (Va [])|exact K|reflexivity|exact H|apply loads_step; [exact H|exact T|split; [|split]; auto]|reflexivity|auto|exact E].
      * inversion E; subst r dir' L'. split; [apply loads_step; auto; split; [|split]; auto|]. split; [reflexivity|]. split; [reflexivity|right].
        rewrite CR, (Keep a (Va [])), K, (Va []). reflexivity.
  - apply find_split_none in F. destruct (find_ind store n (a_ind dir) L) as [o L1] eqn:G. apply find_ind_spec in G. destruct G as (Lo & G).
    pose proof (loads_step p dir L L1 H T Lo) as S1. pose proof (st_ok _ _ _ _ _ S1) as Ok1. assert (V01 : forall q, view L1 dir q = view L dir q) by (intros q; eapply loads_view; exact Lo).
    destruct o as [id pre a post| |].
    + destruct G as (G1 & G2 & G3 & Fn). assert (Ia : In a (children L dir)) by (apply (in_list L dir id a G1); rewrite G3, in_app_iff; right; now left).
      assert (Ia1 : In a (children L1 dir)) by (rewrite (children_listed L L1 dir); [exact Ia|apply Lo]).
      assert (Va : forall q, view L dir (n :: q) = view L a q) by (intros q; rewrite <- Fn; apply (view_child L p); auto).
      destruct (type_eqb ty TUnknown || type_eqb (a_type a) ty) eqn:K.
      * inversion E; subst r dir' L'. set (a' := set_info a (f (a_info a))).
        assert (Oka : ok_at L1 (p ++ [a_name a]) a) by (apply (ok_child L1 p dir); auto).
        destruct (list_swap p dir L1 L1 id pre a post a' Ok1 T G1 G2 eq_refl (ok_info L1 _ a f (Hf _) Oka) (touches_refl _ _)) as (S & V1 & V2); [auto|].
        split; [eapply step_trans; eassumption|]. split; [reflexivity|]. split.
        -- apply (Use a); [exact (Va [])|reflexivity| | |exact K].
           ++ intros m q Dm. rewrite V1 by congruence. apply V01.
           ++ intros q. rewrite <- Fn, V2. destruct q as [|z q]; [reflexivity|]. rewrite Fn, Va. unfold SpecManifest.view, a'. rewrite node_info by apply Hf.
              rewrite (node_listed L L1); [reflexivity|apply Lo].
        -- rewrite CR, (Keep a (Va [])), K. reflexivity.
      * destruct force eqn:Fo.
        -- apply (Repl a L1); [exact (Va [])|exact K|reflexivity|exact Ok1|exact S1|exact V01| |exact E]. intros (j & J1 & J2 & J3). exists j. split; [exact J1|]. split; [|exact J3]. apply Lo. exact J2.
        -- inversion E; subst r dir' L'. split; [exact S1|]. split; [reflexivity|]. split; [exact V01|right]. rewrite CR, (Keep a (Va [])), K, (Va []). reflexivity.
    + assert (Ni : ~ In n (map a_name (children L dir))) by (apply not_in_children; [exact F|]; intros id I; apply (G id I)).
      assert (Vn : view L dir [n] = None) by (now apply view_absent). assert (K : kept (view L dir) [n] ty = false) by (unfold kept; now rewrite Vn).
      destruct (type_eqb ty TUnknown) eqn:U; inversion E; subst r dir' L'.
      * split; [exact S1|]. split; [reflexivity|]. split; [exact V01|right]. rewrite CR, K, Vn. reflexivity.
      * assert (Ni1 : ~ In n (map a_name (children L1 dir))) by (rewrite (children_listed L L1 dir); [exact Ni|apply Lo]).
        destruct (add_spec p dir L1 n Ok1 T Ni1) as (S2 & I2 & A1 & A2 & A3). split; [eapply step_trans; eassumption|]. split; [exact I2|]. split.
        -- apply Fresh; auto. intros m q Dm. rewrite A3 by exact Dm. apply V01.
        -- rewrite CR, K, Vn. reflexivity.
    + inversion E; subst r dir' L'. split; [exact S1|]. split; [reflexivity|]. split; [exact V01|left]. split; [reflexivity|exact G].
Qed.
End Get.

Fixpoint strip (p q : path) : option path :=
  match p, q with
  | [], _ => Some q
  | a :: p', b :: q' => if name_eqb a b then strip p' q' else None
  | _ :: _, [] => None
  end.

Lemma lift_view (v w v' w' wd wd' : path -> option info) (n : bytes) (rest : path) (new : info) :
  is_dir (v []) = true -> v' [] = v [] -> i_type new = TDir ->
  (forall m q, m <> n -> v' (m :: q) = v (m :: q)) -> (forall q, v' (n :: q) = w' q) ->
  ((forall q, w q = v (n :: q)) \/
   (is_dir (v [n]) = false /\ (forall m q, v (n :: m :: q) = None) /\ forall q, w q = match q with [] => Some new | _ => None end)) ->
  (forall s, wd s = if is_dir (w rest) then w (rest ++ s) else match s with [] => Some new | _ => None end) ->
  (forall q, w' q = match strip rest q with Some s => wd' s | None => if is_prefix q rest then (if is_dir (w q) then w q else Some new) else w q end) ->
  (forall s, wd s = if is_dir (v (n :: rest)) then v ((n :: rest) ++ s) else match s with [] => Some new | _ => None end) /\
  (forall q, v' q = match strip (n :: rest) q with Some s => wd' s | None => if is_prefix q (n :: rest) then (if is_dir (v q) then v q else Some new) else v q end).
Proof.
  intros D0 E0 Tn V1 V2 W WD W'. split.
  - intros s. rewrite WD. destruct W as [W|(W1 & W2 & W3)].
    + rewrite !W. reflexivity.
    + assert (X : is_dir (v (n :: rest)) = false) by (destruct rest; [exact W1|now rewrite W2]). rewrite X, W3.
      destruct rest as [|z rest]; [|reflexivity]. cbn [is_dir]. rewrite Tn. cbn [type_eqb]. apply W3.
  - intros [|m q].
    + cbn [strip is_prefix]. now rewrite E0, D0.
    + cbn [strip is_prefix]. destruct (name_eqb n m) eqn:D.
      * apply name_eqb_eq in D. subst m. rewrite name_eqb_refl, V2, W'. cbn [andb]. destruct (strip rest q) as [s|]; [reflexivity|].
        destruct W as [W|(W1 & W2 & W3)].
        -- now rewrite !W.
        -- rewrite !W3. destruct q as [|z q].
           ++ cbn [is_dir is_prefix]. rewrite Tn, W1. reflexivity.
           ++ rewrite W2. cbn [is_dir]. now destruct (is_prefix (z :: q) rest).
      * apply name_eqb_neq in D. assert (D' : name_eqb m n = false) by (apply name_eqb_neq; congruence). rewrite D'. cbn [andb]. apply V1. congruence.
Qed.

Lemma at_dir_new {X} now m path d L (k : asset -> lists -> X * asset * lists) : m <> NoCreate -> a_dirs d = [] -> a_ind d = [] ->
  exists x d' L', at_dir store now m path d L k = (inl x, d', L').
Proof.
  intros M. revert d L. induction path as [|n path IH]; intros d L D I; cbn [at_dir].
  - destruct (k d L) as [[x d'] L']. eauto.
  - rewrite D, I. cbn [find_split find_ind]. destruct m; [congruence| |];
    (destruct (IH (new_asset now n TDir) L eq_refl eq_refl) as (x & d' & L' & E); rewrite E; eauto).
Qed.

Definition missing_in (L : lists) (dir : asset) : Prop :=
  exists q b id, node L dir q = Some b /\ a_type b = TDir /\ In id (a_ind b) /\ L id = None /\ store id = None.

Lemma missing_child L p dir c : ok_at L p dir -> a_type dir = TDir -> In c (children L dir) -> missing_in L c -> missing_in L dir.
Proof.
  intros H T I (q & b & id & A & B & C). exists (a_name c :: q), b, id. split; [|auto]. rewrite node_cons, T. cbn [type_eqb].
  rewrite (find_unique (a_name c) _ c); auto. apply (ok_self _ _ _ H T).
Qed.
Lemma missing_loads ids L L1 dir : loads ids L L1 -> missing_in L1 dir -> missing_in L dir.
Proof. intros (A & B & C) (q & b & id & D & E & F & G & K). exists q, b, id. rewrite (node_listed L L1) in D by exact A. repeat split; auto. Qed.
Lemma missing_leaf L a : a_dirs a = [] -> a_ind a = [] -> missing_in L a -> False.
Proof.
  intros D I (q & b & id & A & B & C & _). destruct q as [|n q].
  - inversion A; subst. now rewrite I in C.
  - rewrite node_cons in A. unfold SpecManifest.children in A. rewrite D, I in A. destruct (type_eqb (a_type a) TDir); discriminate.
Qed.

Lemma is_other_dir v : is_dir v = true -> is_other v = false.
Proof. destruct v as [i|]; cbn; [|reflexivity]. intros ->. reflexivity. Qed.

Section AtDir.
Context {X : Type} (now : N) (m : mode) (k : asset -> lists -> X * asset * lists).
Context (Hk : forall p d L x d' L', ok_at L p d -> a_type d = TDir -> k d L = (x, d', L') -> step p d L d' L' ).
Notation new := (new_info now TDir).

Definition at_dir_post (pth p : path) (dir : asset) (L : lists) (r : X + ecode) (dir' : asset) (L' : lists) : Prop :=
  match r with
  | inl x => exists d Ld d' Ld', k d Ld = (x, d', Ld') /\ a_type d = TDir /\ ok_at Ld (p ++ pth) d /\
      (forall s, view Ld d s = if is_dir (view L dir pth) then view L dir (pth ++ s) else match s with [] => Some new | _ => None end) /\
      (forall q, view L' dir' q = match strip pth q with Some s => view Ld' d' s | None =>
          if is_prefix q pth then (if is_dir (view L dir q) then view L dir q else Some new) else view L dir q end) /\
      (m = NoCreate -> is_dir (view L dir pth) = true) /\
      (m <> ForceCreate -> forall q, is_prefix q pth = true -> is_other (view L dir q) = false) /\
      (missing Ld d -> is_dir (view L dir pth) = true /\ missing_in L dir) /\
      (forall id, listed Ld id = listed L id) /\ (is_dir (view L dir pth) = true -> node L dir pth = Some d)
  | inr e => (forall q, view L' dir' q = view L dir q) /\
      match e with
      | EInvalid => m <> ForceCreate /\ exists q, is_prefix q pth = true /\ is_other (view L dir q) = true
      | ENotFound => m = NoCreate /\ view L dir pth = None /\ (forall q, is_prefix q pth = true -> is_other (view L dir q) = false)
      | EOther => missing_in L dir
      | EExists => False
      end
  end.

(** The step at one directory, whichever way the child was found. *)
Lemma at_dir_lift n rest p dir L L1 a0 r a' La dir' L' :
  ok_at L p dir -> a_type dir = TDir -> a_info dir' = a_info dir -> (forall c q, view L1 c q = view L c q) ->
  (forall id, listed L1 id = listed L id) -> (forall c, missing_in L1 c -> missing_in L c) ->
  (forall q z, q <> n -> view L' dir' (q :: z) = view L dir (q :: z)) -> (forall q, view L' dir' (n :: q) = view La a' q) ->
  ((In a0 (children L dir) /\ a_name a0 = n) \/
   (m <> NoCreate /\ is_dir (view L dir [n]) = false /\ (forall z q, view L dir (n :: z :: q) = None) /\ a0 = new_asset now n TDir /\
    (m = ForceCreate \/ view L dir [n] = None) /\ exists x, r = inl x)) ->
  a_type a0 = TDir ->
  at_dir_post rest (p ++ [n]) a0 L1 r a' La -> at_dir_post (n :: rest) p dir L r dir' L'.
Proof.
  intros H T Ei VL LL ML V1 V2 W Ta0 P.
  assert (D0 : is_dir (view L dir []) = true) by (cbn; unfold a_type in T; now rewrite T).
  assert (E0 : view L' dir' [] = view L dir []) by (rewrite !view_nil; now rewrite Ei).
  assert (Ws : (forall q, view L1 a0 q = view L dir (n :: q)) \/
     (is_dir (view L dir [n]) = false /\ (forall z q, view L dir (n :: z :: q) = None) /\ forall q, view L1 a0 q = match q with [] => Some new | _ => None end)).
  { destruct W as [(Ia & En)|(_ & W1 & W2 & -> & _)].
    - left. intros q. rewrite VL, <- En. symmetry. apply (view_child L p); auto.
    - right. split; [exact W1|]. split; [exact W2|]. intros [|z q]; [reflexivity|]. now apply view_leaf. }
  destruct r as [x|e]; cbn [at_dir_post] in *.
  - destruct P as (d & Ld & d' & Ld' & Ek & Td & Okd & Vd & Vq & Pn & Pf & Pm & Pl & Pd).
    destruct (lift_view (view L dir) (view L1 a0) (view L' dir') (view La a') (view Ld d) (view Ld' d') n rest new D0 E0 eq_refl V1 V2 Ws Vd Vq) as (Ld1 & Ld2).
    exists d, Ld, d', Ld'. split; [exact Ek|]. split; [exact Td|]. split; [rewrite <- app_assoc in Okd; exact Okd|]. split; [exact Ld1|]. split; [exact Ld2|].
    split; [|split; [|split; [|split]]].
    + intros M. destruct Ws as [Ws|_]; [rewrite <- Ws; auto|]. destruct W as [(Ia & En)|(M' & _)]; [|congruence]. rewrite <- En, (view_child L p); auto. rewrite <- VL. auto.
    + intros M q Hq. destruct q as [|z q]; [now apply is_other_dir|]. cbn in Hq. apply andb_true_iff in Hq. destruct Hq as (Hz & Hq). apply name_eqb_eq in Hz. subst z.
      destruct W as [(Ia & En)|(M' & W1 & W2 & _ & W4 & _)].
      * rewrite <- En, (view_child L p), <- VL; auto.
      * destruct q as [|z q]; [|now rewrite W2]. destruct W4 as [W4|W4]; [congruence|now rewrite W4].
    + intros M. apply Pm in M. destruct M as (Md & M). apply ML in M. destruct W as [(Ia & En)|(_ & _ & _ & -> & _)]; [|exfalso; eapply missing_leaf; [| |exact M]; reflexivity].
      split; [rewrite <- En, (view_child L p), <- VL; auto|eapply missing_child; eassumption].
    + intros id. rewrite Pl. apply LL.
    + intros Dd. destruct W as [(Ia & En)|(_ & W1 & W2 & _)].
      * rewrite node_cons, T. cbn [type_eqb].
        rewrite (find_unique n (children L dir) a0); auto; [|apply (ok_self L p dir H T)]. rewrite <- (node_listed L L1) by exact LL. apply Pd.
        rewrite VL, <- (view_child L p dir a0 rest) by auto. now rewrite En.
      * destruct rest as [|z q]; [congruence|]. rewrite W2 in Dd. discriminate.
  - destruct P as (Vq & Pe). destruct W as [(Ia & En)|(_ & _ & _ & _ & _ & x & Ex)]; [|discriminate].
    assert (Va : forall q, view L dir (n :: q) = view L1 a0 q) by (intros q; rewrite VL, <- En; apply (view_child L p); auto).
    split.
    + intros [|z q]; [exact E0|]. destruct (list_eq_dec N.eq_dec z n) as [->|Dz]; [now rewrite V2, Vq, Va|now apply V1].
    + destruct e; [| |exact Pe|].
      * destruct Pe as (A & B & C). split; [exact A|]. split; [now rewrite Va|]. intros [|z q] Hq; [now apply is_other_dir|].
        cbn in Hq. apply andb_true_iff in Hq. destruct Hq as (Hz & Hq). apply name_eqb_eq in Hz. subst z. rewrite Va. auto.
      * destruct Pe as (A & q & Hq & Oq). split; [exact A|]. exists (n :: q). rewrite is_prefix_cons, name_eqb_refl, Va. auto.
      * apply ML in Pe. eapply missing_child; eassumption.
Qed.

Lemma at_dir_spec pth : forall p dir L r dir' L', ok_at L p dir -> a_type dir = TDir -> at_dir store now m pth dir L k = (r, dir', L') ->
  step p dir L dir' L' /\ (pth <> [] -> a_info dir' = a_info dir) /\ at_dir_post pth p dir L r dir' L'.
Proof.
  induction pth as [|n rest IH]; intros p dir L r dir' L' H T E.
  { cbn [at_dir] in E. destruct (k dir L) as [[x d'] Ld'] eqn:Ek. inversion E; subst r dir' L'. split; [eapply Hk; eassumption|]. split; [easy|].
    exists dir, L, d', Ld'. rewrite app_nil_r. split; [exact Ek|]. split; [exact T|]. split; [exact H|].
    assert (D0 : is_dir (view L dir []) = true) by (cbn; unfold a_type in T; now rewrite T).
    split; [intros s; now rewrite D0|]. split; [reflexivity|]. split; [auto|]. split.
    - intros _ [|z q] Hq; [now apply is_other_dir|discriminate].
    - split; [|auto]. intros (id & A & B & C). split; [exact D0|]. exists [], dir, id. repeat split; auto. }
  assert (Same : loads (a_ind dir) L L) by (split; [|split]; auto).
  (* a child was found: direct or in a list *)
  assert (Child : forall a L1, In a (children L dir) -> a_name a = n -> loads (a_ind dir) L L1 ->
     forall a0, as_dir now m a = Some a0 -> forall r0 a' La, at_dir store now m rest a0 L1 k = (r0, a', La) ->
     forall dir1 L2, a_info dir1 = a_info dir ->
     (ok_at L1 (p ++ [n]) a0 -> step (p ++ [n]) a0 L1 a' La -> a_name a0 = n -> step p dir L1 dir1 L2 /\ (forall q z, q <> n -> view L2 dir1 (q :: z) = view L1 dir (q :: z)) /\ (forall q, view L2 dir1 (n :: q) = view La a' q)) ->
     step p dir L dir1 L2 /\ (n :: rest <> [] -> a_info dir1 = a_info dir) /\ at_dir_post (n :: rest) p dir L r0 dir1 L2).
  { intros a L1 Ia En Lo a0 Ea r0 a' La Er dir1 L2 Ei G.
    pose proof (loads_step p dir L L1 H T Lo) as S1. pose proof (st_ok _ _ _ _ _ S1) as Ok1. assert (VL : forall c q, view L1 c q = view L c q) by (intros c q; eapply loads_view; exact Lo).
    assert (Ia1 : In a (children L1 dir)) by (rewrite (children_listed L L1 dir); [exact Ia|apply Lo]).
    assert (Oka : ok_at L1 (p ++ [n]) a) by (rewrite <- En; eapply ok_child; eassumption).
    unfold as_dir in Ea. destruct (type_eqb (a_type a) TDir) eqn:Ta.
    - inversion Ea; subst a0. apply type_eqb_eq in Ta. destruct (IH _ _ _ _ _ _ Oka Ta Er) as (S2 & _ & P). destruct (G Oka S2 En) as (S3 & V1 & V2).
      split; [eapply step_trans; eassumption|]. split; [auto|].
      eapply (at_dir_lift n rest p dir L L1 a r0 a' La dir1 L2); auto.
      + apply Lo.
      + intros c Hc. eapply missing_loads; [exact Lo|exact Hc].
      + intros q z Dq. rewrite V1 by exact Dq. apply VL.
    - destruct m eqn:Em; try discriminate. inversion Ea; subst a0. rewrite En in Er, G. set (a0 := new_asset now n TDir) in *.
      assert (Ok0 : ok_at L1 (p ++ [n]) a0) by (now apply ok_leaf). destruct (IH _ _ _ _ _ _ Ok0 eq_refl Er) as (S2 & _ & P). destruct (G Ok0 S2 eq_refl) as (S3 & V1 & V2).
      split; [eapply step_trans; eassumption|]. split; [auto|].
      assert (Va : forall q, view L dir (n :: q) = view L a q) by (intros q; rewrite <- En; apply (view_child L p); auto).
      eapply (at_dir_lift n rest p dir L L1 a0 r0 a' La dir1 L2); auto.
      + apply Lo.
      + intros c Hc. eapply missing_loads; [exact Lo|exact Hc].
      + intros q z Dq. rewrite V1 by exact Dq. apply VL.
      + right. split; [congruence|]. split; [rewrite Va; cbn; unfold a_type in Ta; now rewrite Ta|]. split.
        * intros z q. rewrite Va. unfold SpecManifest.view. rewrite node_cons, Ta. reflexivity.
        * split; [reflexivity|]. split; [now left|]. destruct (at_dir_new now m rest a0 L1 k) as (x & d' & Ld & Ex); [congruence|reflexivity|reflexivity|]. rewrite Em in Ex. rewrite Ex in Er. inversion Er. eauto. }
  assert (Bad : forall a L1, In a (children L dir) -> a_name a = n -> loads (a_ind dir) L L1 -> as_dir now m a = None ->
     step p dir L dir L1 /\ (n :: rest <> [] -> a_info dir = a_info dir) /\ at_dir_post (n :: rest) p dir L (inr EInvalid) dir L1).
  { intros a L1 Ia En Lo Ea. split; [now apply loads_step|]. split; [auto|]. split; [intros q; eapply loads_view; exact Lo|].
    unfold as_dir in Ea. destruct (type_eqb (a_type a) TDir) eqn:Ta; [discriminate|]. split; [destruct m; congruence|].
    exists [n]. cbn [is_prefix]. rewrite name_eqb_refl. split; [reflexivity|]. rewrite <- En, (view_child L p) by auto. cbn. unfold a_type in Ta. now rewrite Ta. }
  cbn [at_dir] in E. destruct (find_split n (a_dirs dir)) as [[[pre a] post]|] eqn:F.
  - apply find_split_some in F. destruct F as (F1 & Fn & F3). pose proof (in_direct L dir pre a post F1) as Ia.
    destruct (as_dir now m a) as [a0|] eqn:Ea; [|inversion E; subst r dir' L'; eapply Bad; eassumption].
    destruct (at_dir store now m rest a0 L k) as [[r0 a'] La] eqn:Er. inversion E; subst r dir' L'.
    eapply (Child a L Ia Fn Same a0 Ea r0 a' La Er); [reflexivity|]. intros Ok0 S2 En0. rewrite <- Fn in *.
    apply (direct_swap p dir L pre a post a' La H T F1); [rewrite (st_name _ _ _ _ _ S2); congruence|apply S2|apply S2|apply S2].
  - apply find_split_none in F. destruct (find_ind store n (a_ind dir) L) as [o L1] eqn:G. apply find_ind_spec in G. destruct G as (Lo & G).
    pose proof (loads_step p dir L L1 H T Lo) as S1. pose proof (st_ok _ _ _ _ _ S1) as Ok1. destruct o as [id pre a post| |].
    + destruct G as (G1 & G2 & G3 & Fn). assert (Ia : In a (children L dir)) by (apply (in_list L dir id a G1); rewrite G3, in_app_iff; right; now left).
      destruct (as_dir now m a) as [a0|] eqn:Ea; [|inversion E; subst r dir' L'; eapply Bad; eassumption].
      destruct (at_dir store now m rest a0 L1 k) as [[r0 a'] La] eqn:Er. inversion E; subst r dir' L'.
      eapply (Child a L1 Ia Fn Lo a0 Ea r0 a' La Er); [reflexivity|]. intros Ok0 S2 En0. rewrite <- Fn in *.
      apply (list_swap p dir L1 La id pre a post a' Ok1 T G1 G2); [rewrite (st_name _ _ _ _ _ S2); congruence|apply S2|apply S2|apply S2].
    + assert (Ni : ~ In n (map a_name (children L dir))) by (apply not_in_children; [exact F|]; intros id I; apply (G id I)).
      assert (Vn : forall q, view L dir (n :: q) = None) by (intros q; now apply view_absent).
      assert (Cr : m <> NoCreate -> (let '(x, a', L2) := at_dir store now m rest (new_asset now n TDir) L1 k in (x, set_dirs dir (a_dirs dir ++ [a']), L2)) = (r, dir', L') ->
        step p dir L dir' L' /\ (n :: rest <> [] -> a_info dir' = a_info dir) /\ at_dir_post (n :: rest) p dir L r dir' L').
      { intros Mn E1. set (a0 := new_asset now n TDir) in *. destruct (at_dir store now m rest a0 L1 k) as [[r0 a'] La] eqn:Er. inversion E1; subst r dir' L'.
        assert (Ok0 : ok_at L1 (p ++ [n]) a0) by (now apply ok_leaf). destruct (IH _ _ _ _ _ _ Ok0 eq_refl Er) as (S2 & _ & P).
        assert (Na : a_name a' = n) by (apply S2). rewrite <- Na in Ok0, S2.
        destruct (direct_add p dir L1 a' La Ok1 T) as (S3 & V1 & V2); [rewrite Na, (children_listed L L1 dir); [exact Ni|apply Lo]|apply S2|apply S2|apply S2|].
        split; [eapply step_trans; eassumption|]. split; [auto|]. rewrite Na in V1, V2.
        eapply (at_dir_lift n rest p dir L L1 a0 r0 a' La); auto.
        - intros c q. eapply loads_view; exact Lo.
        - apply Lo.
        - intros c Hc. eapply missing_loads; [exact Lo|exact Hc].
        - intros q z Dq. rewrite V1 by exact Dq. eapply loads_view; exact Lo.
        - right. split; [exact Mn|]. split; [now rewrite Vn|]. split; [intros; apply Vn|]. split; [reflexivity|]. split; [right; apply Vn|].
          destruct (at_dir_new now m rest a0 L1 k Mn eq_refl eq_refl) as (x & d' & Ld & Ex). rewrite Ex in Er. inversion Er. eauto. }
      assert (Nc : m = NoCreate -> (@inr X ecode ENotFound, dir, L1) = (r, dir', L') ->
        step p dir L dir' L' /\ (n :: rest <> [] -> a_info dir' = a_info dir) /\ at_dir_post (n :: rest) p dir L r dir' L').
      { intros Em E1. inversion E1; subst r dir' L'. split; [exact S1|]. split; [auto|]. split; [intros q; eapply loads_view; exact Lo|]. split; [exact Em|]. split; [apply Vn|].
        intros [|z q] Hq; [cbn; unfold a_type in T; now rewrite T|]. cbn in Hq. apply andb_true_iff in Hq. destruct Hq as (Hz & Hq). apply name_eqb_eq in Hz. subst z. now rewrite Vn. }
      destruct m eqn:Em; [apply Nc; [reflexivity|exact E]|apply Cr; [discriminate|exact E]|apply Cr; [discriminate|exact E]].
    + inversion E; subst r dir' L'. split; [exact S1|]. split; [auto|]. split; [intros q; eapply loads_view; exact Lo|]. destruct G as (id & A & B & C). exists [], dir, id. repeat split; auto.
Qed.
End AtDir.

Lemma view_below L a p s : is_dir (view L a p) = false -> s <> [] -> view L a (p ++ s) = None.
Proof.
  intros D S. unfold SpecManifest.view in *. rewrite node_app. destruct (node L a p) as [b|]; [|reflexivity]. cbn in D. destruct s as [|n s]; [easy|].
  rewrite node_cons. unfold a_type. now rewrite D.
Qed.
Lemma view_above L a p s : is_dir (view L a (p ++ s)) = true -> is_dir (view L a p) = true.
Proof. intros D. destruct (is_dir (view L a p)) eqn:E; [reflexivity|]. destruct s as [|n s]; [rewrite app_nil_r in D; congruence|]. rewrite view_below in D by (auto; discriminate). discriminate. Qed.

Lemma strip_some p q s : strip p q = Some s -> q = p ++ s.
Proof.
  revert q. induction p as [|a p IH]; intros q H; cbn in H; [now inversion H|]. destruct q as [|b q]; [discriminate|]. destruct (name_eqb a b) eqn:E; [|discriminate].
  apply name_eqb_eq in E. subst. cbn. f_equal. now apply IH.
Qed.
Lemma strip_none p q : strip p q = None -> is_prefix p q = false.
Proof.
  revert q. induction p as [|a p IH]; intros q H; cbn in H; [discriminate|]. destruct q as [|b q]; [reflexivity|]. cbn. destruct (name_eqb a b); [|reflexivity]. now apply IH.
Qed.
Lemma is_prefix_app p q r : is_prefix (p ++ q) (p ++ r) = is_prefix q r.
Proof. induction p as [|a p IH]; [reflexivity|]. cbn. now rewrite name_eqb_refl. Qed.
Lemma path_eqb_app p q r : path_eqb (p ++ q) (p ++ r) = path_eqb q r.
Proof. unfold path_eqb. now rewrite !is_prefix_app. Qed.
Lemma is_prefix_trans p q r : is_prefix p q = true -> is_prefix q r = true -> is_prefix p r = true.
Proof. rewrite !is_prefix_spec. intros (x & ->) (y & ->). exists (x ++ y). now rewrite app_assoc. Qed.
Lemma prefix_snoc p q n : is_prefix p (q ++ [n]) = true -> is_prefix p q = true \/ p = q ++ [n].
Proof.
  rewrite !is_prefix_spec. intros (r & E). destruct r as [|z r]; [right; now rewrite app_nil_r in E|left].
  destruct (exists_last (l := z :: r)) as (r' & y & Er); [discriminate|]. rewrite Er, app_assoc in E. apply app_inj_tail in E. destruct E as (-> & _). eauto.
Qed.
Lemma parents_snoc ds n q : In q (parents (ds ++ [n])) <-> is_prefix q ds = true.
Proof.
  unfold parents. rewrite in_map_iff, is_prefix_spec, app_length. cbn [length]. split.
  - intros (k & <- & Hk). apply List.in_seq in Hk. exists (skipn k ds). rewrite firstn_app. replace (k - length ds)%nat with 0%nat by lia. cbn [firstn]. now rewrite app_nil_r, firstn_skipn.
  - intros (r & ->). exists (length q). split; [rewrite <- app_assoc; apply firstn_app_exact|]. apply List.in_seq. rewrite app_length. lia.
Qed.
Lemma blocked_snoc v ds n : blocked v (ds ++ [n]) = true <-> exists q, is_prefix q ds = true /\ is_other (v q) = true.
Proof. unfold blocked. rewrite existsb_exists. split; intros (q & A & B); exists q; rewrite parents_snoc in *; auto. Qed.

Lemma create_spec now ty force f root L parts r b' : (forall i, i_type (f i) = i_type i) -> Forall (fun n => n <> []) parts ->
  ok_at L [] root -> a_type root = TDir -> create_parts store now parts ty force f (mkb (Some root) L) = (r, b') ->
  exists root' L', b' = mkb (Some root') L' /\ step [] root L root' L' /\
  match r with
  | inl e => (forall q, view L' root' q = view L root q) /\ (e = EOther /\ missing_in L root \/ create_result (view L root) parts ty force = inl e)
  | inr c => (forall q, view L' root' q = after_create now (view L root) parts ty f q) /\ create_result (view L root) parts ty force = inr c
  end.
Proof.
  intros Hf Hn H T E. destruct (path_nil_dec parts) as [->|Np].
  { unfold create_parts in E. cbn [removelast last at_dir root_of b_root b_lists] in E. destruct (type_eqb ty TDir || type_eqb ty TUnknown) eqn:K.
    - inversion E; subst r b'. exists (set_info root (f (a_info root))), L. split; [reflexivity|].
      split; [constructor; auto; [unfold a_type, set_info in *; cbn; now rewrite Hf|now apply ok_info|apply touches_refl]|].
      split; [|unfold create_result; now rewrite K].
      assert (Kp : kept (view L root) [] ty = true) by (unfold kept; cbn; unfold a_type in T; rewrite T, orb_comm; destruct ty; auto).
      intros [|n q]; unfold after_create; rewrite Kp.
      + reflexivity.
      + cbn. unfold SpecManifest.view. now rewrite node_info.
    - inversion E; subst r b'. exists root, L. split; [reflexivity|]. split; [constructor; auto; apply touches_refl|]. split; [reflexivity|right]. unfold create_result. now rewrite K. }
  destruct (exists_last Np) as (ds & n & ->). apply Forall_app in Hn. destruct Hn as (_ & Hn). inversion Hn as [|? ? Nn _]; subst.
  unfold create_parts in E. rewrite last_last, removelast_last in E. cbn [root_of b_root b_lists] in E.
  set (m := match ty with TUnknown => NoCreate | _ => if force then ForceCreate else Create end) in *.
  set (k := fun dir L => match n with [] => if type_eqb ty TDir || type_eqb ty TUnknown then (inr false, set_info dir (f (a_info dir)), L) else (inl EInvalid, dir, L) | _ :: _ => get_in_dir store now n ty force f dir L end) in *.
  assert (Ek : forall d Ld, k d Ld = get_in_dir store now n ty force f d Ld) by (intros; unfold k; now destruct n).
  assert (Mf : m = ForceCreate <-> force && negb (type_eqb ty TUnknown) = true).
  { unfold m. destruct ty, force; cbn; split; congruence. }
  assert (Mn : m = NoCreate <-> ty = TUnknown) by (unfold m; destruct ty, force; split; congruence).
  destruct (at_dir store now m ds root L k) as [[r0 root'] L'] eqn:Ea.
  apply (at_dir_spec now m k) with (p := []) in Ea; auto.
  2: { intros p d Ld x d' Ld' Okd Td Ex. rewrite Ek in Ex. eapply get_spec; eassumption. }
  destruct Ea as (S & _ & P). set (v := view L root) in *.
  assert (NotB : m <> ForceCreate -> (forall q, is_prefix q ds = true -> is_other (v q) = false) -> blocked v (ds ++ [n]) && negb (force && negb (type_eqb ty TUnknown)) = false).
  { intros _ Hq. destruct (blocked v (ds ++ [n])) eqn:B; [|reflexivity]. apply blocked_snoc in B. destruct B as (q & A & B). rewrite Hq in B by exact A. discriminate. }
  assert (NotF : m = ForceCreate -> blocked v (ds ++ [n]) && negb (force && negb (type_eqb ty TUnknown)) = false).
  { intros M. apply Mf in M. rewrite M. now rewrite andb_false_r. }
  assert (CR : blocked v (ds ++ [n]) && negb (force && negb (type_eqb ty TUnknown)) = false -> create_result v (ds ++ [n]) ty force =
     if kept v (ds ++ [n]) ty then inr false else match v (ds ++ [n]) with Some _ => if force then inr true else inl EExists | None => if type_eqb ty TUnknown then inl ENotFound else inr true end).
  { intros B. unfold create_result. destruct (ds ++ [n]) eqn:X; [now destruct ds|]. rewrite <- X in *. now rewrite B. }
  destruct r0 as [x|e]; cbn [at_dir_post] in P.
  - destruct P as (d & Ld & d' & Ld' & Ex & Td & Okd & Vd & Vq & Pn & Pf & Pm & _). rewrite Ek in Ex. cbn [app] in Okd. fold v in Vd, Vq, Pn, Pf, Pm.
    assert (B0 : blocked v (ds ++ [n]) && negb (force && negb (type_eqb ty TUnknown)) = false).
    { destruct m eqn:Em; [apply NotB; [congruence|apply Pf; congruence]|apply NotB; [congruence|apply Pf; congruence]|now apply NotF]. }
    destruct (get_spec now ty force f Hf (ds) d Ld n x d' Ld' Nn Okd Td Ex) as (Sd & Id & G).
    set (vd := view Ld d) in *.
    assert (Vn : forall s, s <> [] -> vd s = v (ds ++ s)).
    { intros s Hs. rewrite Vd. destruct (is_dir (v ds)) eqn:D; [reflexivity|]. unfold v. rewrite view_below by auto. now destruct s. }
    assert (V1 : vd [n] = v (ds ++ [n])) by (apply Vn; discriminate).
    assert (Kp : kept vd [n] ty = kept v (ds ++ [n]) ty) by (unfold kept; now rewrite V1).
    assert (Bd : blocked vd [n] = false) by (unfold blocked; cbn; unfold vd; cbn; unfold a_type in Td; now rewrite Td).
    assert (CRd : create_result vd [n] ty force = create_result v (ds ++ [n]) ty force) by (rewrite (CR B0); unfold create_result; rewrite Bd, Kp, V1; reflexivity).
    rewrite CRd in G. exists root', L'.
    destruct x as [e|c].
    + inversion E; subst r b'. split; [reflexivity|]. split; [exact S|]. destruct G as (Gv & Ge).
      assert (Dd : is_dir (v ds) = true).
      { destruct Ge as [(-> & M)|Ge]; [now apply Pm in M|]. rewrite (CR B0) in Ge. destruct (is_dir (v ds)) eqn:D; [reflexivity|].
        assert (Z : v (ds ++ [n]) = None) by (unfold v; apply view_below; [exact D|discriminate]). rewrite Z in Ge. unfold kept in Ge. rewrite Z in Ge.
        destruct (type_eqb ty TUnknown) eqn:U; [|discriminate]. apply type_eqb_eq in U. apply Mn in U. now apply Pn in U. }
      split; [|destruct Ge as [(-> & M)|Ge]; [left; split; [reflexivity|now apply Pm in M]|now right]].
      intros q. rewrite Vq. destruct (strip ds q) as [s|] eqn:Sq.
      * apply strip_some in Sq. subst q. rewrite Gv, Vd, Dd. reflexivity.
      * destruct (is_prefix q ds) eqn:Pq; [|reflexivity]. apply is_prefix_spec in Pq. destruct Pq as (z & ->). unfold v in *. now rewrite (view_above L root q z Dd).
    + inversion E; subst r b'. split; [reflexivity|]. split; [exact S|]. destruct G as (Gv & Ge). split; [|exact Ge].
      intros q. rewrite Vq. destruct (strip ds q) as [s|] eqn:Sq.
      * apply strip_some in Sq. subst q. rewrite Gv. unfold after_create. rewrite path_eqb_app, !is_prefix_app, Kp, V1.
        destruct (path_eqb s [n]); [reflexivity|]. destruct s as [|z s].
        -- cbn [is_prefix]. rewrite app_nil_r. rewrite Vd, app_nil_r. destruct (is_dir (v ds)) eqn:D; [now rewrite D|reflexivity].
        -- rewrite Vn by discriminate. reflexivity.
      * apply strip_none in Sq. unfold after_create.
        assert (X1 : path_eqb q (ds ++ [n]) = false).
        { destruct (path_eqb q (ds ++ [n])) eqn:Y; [|reflexivity]. apply path_eqb_eq in Y. subst q. rewrite (proj2 (is_prefix_spec _ _)) in Sq by eauto. discriminate. }
        assert (X2 : is_prefix (ds ++ [n]) q = false).
        { destruct (is_prefix (ds ++ [n]) q) eqn:Y; [|reflexivity]. apply is_prefix_spec in Y. destruct Y as (z & ->). rewrite <- app_assoc in Sq. rewrite (proj2 (is_prefix_spec _ _)) in Sq by eauto. discriminate. }
        assert (X3 : is_prefix q (ds ++ [n]) = is_prefix q ds).
        { destruct (is_prefix q ds) eqn:Y.
          - apply is_prefix_spec in Y. destruct Y as (z & ->). apply is_prefix_spec. exists (z ++ [n]). now rewrite app_assoc.
          - destruct (is_prefix q (ds ++ [n])) eqn:Z; [|reflexivity]. apply prefix_snoc in Z. destruct Z as [Z| ->]; [congruence|]. rewrite (proj2 (path_eqb_eq _ _) eq_refl) in X1. discriminate. }
        rewrite X1, X2, X3. reflexivity.
  - inversion E; subst r b'. exists root', L'. split; [reflexivity|]. split; [exact S|]. destruct P as (Pv & Pe). split; [exact Pv|].
    destruct e.
    + right. destruct Pe as (M & Pd & Pq). fold v in Pd, Pq. assert (F : m <> ForceCreate) by congruence. rewrite (CR (NotB F Pq)).
      assert (Z : v (ds ++ [n]) = None) by (unfold v; apply view_below; [fold v; now rewrite Pd|discriminate]). unfold kept. rewrite Z. apply Mn in M. now rewrite M.
    + right. destruct Pe as (M & q & Hq & Ho). fold v in Ho. assert (B : blocked v (ds ++ [n]) = true) by (apply blocked_snoc; eauto).
      unfold create_result. destruct (ds ++ [n]) eqn:X; [now destruct ds|]. rewrite <- X in *. rewrite B. destruct (force && negb (type_eqb ty TUnknown)) eqn:Z; [|reflexivity]. pose proof (proj2 Mf eq_refl). congruence.
    + contradiction.
    + left. auto.
Qed.

Lemma delete_parts_spec now root L parts r b' : ok_at L [] root -> a_type root = TDir -> delete_parts store now parts (mkb (Some root) L) = (r, b') ->
  exists root' L', b' = mkb (Some root') L' /\ step [] root L root' L' /\
  match r with
  | None => parts <> [] /\ forall q, view L' root' q = after_delete (view L root) parts q
  | Some e => (forall q, view L' root' q = view L root q) /\ (e = EOther /\ missing_in L root \/ parts = [] /\ e = EInvalid)
  end.
Proof.
  intros H T E. destruct (path_nil_dec parts) as [->|Np].
  { inversion E; subst. exists root, L. split; [reflexivity|]. split; [constructor; auto; apply touches_refl|]. auto. }
  destruct (exists_last Np) as (ds & n & ->). unfold delete_parts in E. rewrite last_last, removelast_last in E. cbn [root_of b_root b_lists] in E.
  destruct (ds ++ [n]) as [|? ?] eqn:Eds; [now destruct ds|]. rewrite <- Eds. clear Eds.
  destruct (at_dir store now NoCreate ds root L (delete_from_dir store n)) as [[r0 root'] L'] eqn:Ea.
  apply (at_dir_spec now NoCreate (delete_from_dir store n)) with (p := []) in Ea; auto.
  2: { intros p d Ld x d' Ld' Okd Td Ex. eapply delete_spec; eassumption. }
  destruct Ea as (S & _ & P). exists root', L'.
  assert (Gone : (forall q, view L' root' q = view L root q) -> view L root (ds ++ [n]) = None -> forall q, view L' root' q = after_delete (view L root) (ds ++ [n]) q).
  { intros V Z q. rewrite V. unfold after_delete. destruct (is_prefix (ds ++ [n]) q) eqn:Pq; [|reflexivity]. apply is_prefix_spec in Pq. destruct Pq as (z & ->).
    unfold SpecManifest.view in *. rewrite node_app. destruct (node L root (ds ++ [n])); [discriminate|reflexivity]. }
  assert (Nn : ds ++ [n] <> []) by (now destruct ds).
  destruct r0 as [x|e]; cbn [at_dir_post] in P.
  - destruct P as (d & Ld & d' & Ld' & Ex & Td & Okd & Vd & Vq & Pn & Pf & Pm & _). inversion E; subst r b'. split; [reflexivity|]. split; [exact S|].
    cbn [app] in Okd. destruct (delete_spec ds d Ld n x d' Ld' Okd Td Ex) as (Sd & Id & G). specialize (Pn eq_refl). rewrite Pn in Vd.
    destruct x as [e|].
    + destruct G as (-> & Gv & M). split; [|left; split; [reflexivity|now apply Pm in M]]. intros q. rewrite Vq. destruct (strip ds q) as [s|] eqn:Sq.
      * apply strip_some in Sq. subst q. now rewrite Gv, Vd.
      * destruct (is_prefix q ds) eqn:Pq; [|reflexivity]. apply is_prefix_spec in Pq. destruct Pq as (z & ->). now rewrite (view_above L root q z Pn).
    + split; [exact Nn|]. intros q. rewrite Vq. destruct (strip ds q) as [s|] eqn:Sq.
      * apply strip_some in Sq. subst q. rewrite G. unfold after_delete. rewrite is_prefix_app. destruct (is_prefix [n] s); [reflexivity|apply Vd].
      * apply strip_none in Sq. unfold after_delete. assert (X2 : is_prefix (ds ++ [n]) q = false).
        { destruct (is_prefix (ds ++ [n]) q) eqn:Y; [|reflexivity]. apply is_prefix_spec in Y. destruct Y as (z & ->). rewrite <- app_assoc in Sq. rewrite (proj2 (is_prefix_spec _ _)) in Sq by eauto. discriminate. }
        rewrite X2. destruct (is_prefix q ds) eqn:Pq; [|reflexivity]. apply is_prefix_spec in Pq. destruct Pq as (z & ->). now rewrite (view_above L root q z Pn).
  - destruct P as (Pv & Pe). destruct e.
    + inversion E; subst r b'. split; [reflexivity|]. split; [exact S|]. split; [exact Nn|]. apply Gone; [exact Pv|]. destruct Pe as (_ & Pd & _). apply view_below; [now rewrite Pd|discriminate].
    + inversion E; subst r b'. split; [reflexivity|]. split; [exact S|]. split; [exact Nn|]. apply Gone; [exact Pv|]. destruct Pe as (_ & q & Hq & Ho).
      apply is_prefix_spec in Hq. destruct Hq as (z & ->). rewrite <- app_assoc. apply view_below; [|now destruct z]. destruct (view L root q) as [i|]; cbn in *; [|reflexivity]. now destruct (type_eqb (i_type i) TDir).
    + contradiction.
    + inversion E; subst r b'. split; [reflexivity|]. split; [exact S|]. split; [exact Pv|]. left. auto.
Qed.
End Proofs.
