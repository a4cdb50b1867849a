(** Flush preserves the tree. *)
From Verif Require Import Base ListX Str ModelText ModelChunkMap ModelProvider ModelAsset SpecAsset ProofAsset ProofEnforce PropAsset
  ModelManifest SpecManifest ProofManifest ProofTree.
From Coq Require Import Permutation.
Local Open Scope N_scope.

Lemma bind_ok {A B} (x : outcome A) (f : A -> outcome B) y : bind x f = Ok y -> exists a, x = Ok a /\ f a = Ok y.
Proof. destruct x; cbn; try discriminate. eauto. Qed.

Lemma NoDup_app_disj {A} (a b : list A) x : NoDup (a ++ b) -> In x a -> In x b -> False.
Proof. induction a as [|y a IH]; intros N Ia Ib; [destruct Ia|]. inversion N; subst. destruct Ia as [->|Ia]; [|eauto]. rewrite in_app_iff in *. tauto. Qed.

(** * Moving assets between lists *)
Section Moves.
Context (max_size : N).

Lemma pop_list_split keep : forall psize over k o, pop_list max_size keep psize over = Ok (k, o) ->
  exists t, keep = t ++ k /\ o = over ++ t.
Proof.
  induction keep as [|a keep IH]; intros psize over k o H; cbn [pop_list] in H.
  - destruct (max_size <? psize); inversion H; subst. exists []. split; [reflexivity|]. now rewrite app_nil_r.
  - destruct (max_size <? psize).
    + apply IH in H. destruct H as (t & -> & ->). exists (a :: t). split; [reflexivity|]. now rewrite <- app_assoc.
    + inversion H; subst. exists []. split; [reflexivity|]. now rewrite app_nil_r.
Qed.
Lemma enforce_list_split l over k o : enforce_list max_size l over = Ok (k, o) -> exists t, l = k ++ t /\ Permutation o (over ++ t).
Proof.
  unfold enforce_list. destruct (max_size =? 0).
  - intros H; inversion H; subst. exists []. now rewrite !app_nil_r.
  - destruct (pop_list max_size (rev l) (asset_list_bytes l) over) as [[keep o']| | |] eqn:P; try discriminate. cbn. intros H; inversion H; subst.
    apply pop_list_split in P. destruct P as (t & E & ->). exists (rev t). split.
    + apply (f_equal (@rev _)) in E. now rewrite rev_involutive, rev_app_distr in E.
    + apply Permutation_app_head. apply Permutation_rev.
Qed.
Lemma pop_dir_split dir keep : forall psize over k o, pop_dir max_size dir keep psize over = (k, o) ->
  exists t, keep = t ++ k /\ o = over ++ t.
Proof.
  induction keep as [|a keep IH]; intros psize over k o H; cbn [pop_dir] in H.
  - inversion H; subst. exists []. split; [reflexivity|]. now rewrite app_nil_r.
  - destruct (max_size <? psize).
    + apply IH in H. destruct H as (t & -> & ->). exists (a :: t). split; [reflexivity|]. now rewrite <- app_assoc.
    + inversion H; subst. exists []. split; [reflexivity|]. now rewrite app_nil_r.
Qed.
End Moves.

Section FlushProofs.
Context (store : cid -> option (list asset)) (truth : cid -> option bytes) (clists : cid -> option (list cref)) (now : N)
  (put : list asset -> option cid) (put_chunks : list cref -> option cid) (put_root : asset -> option cid)
  (sort_desc : list asset -> list asset) (max_size : N).
Context (Hput : forall l id, put l = Some id -> store id = Some l) (Hputc : forall l id, put_chunks l = Some id -> clists id = Some l)
  (Hsort : forall l, Permutation l (sort_desc l)).
Context (L0 : lists) (own : cid -> path -> Prop) (own_fun : forall id p q, own id p -> own id q -> p = q).
(** [Wc]: the chunk lists that are written. *)
Context (Wc : cid -> Prop).
Notation listed := (listed store).
Notation stored := (stored store).
Notation children := (children store).
Notation node := (node store).
Notation view := (view store).
Definition sinfo (i j : info) : Prop := same_info truth clists i j /\
  (fp_ind (i_file j) = fp_ind (i_file i) \/ Forall Wc (map snd (fp_ind (i_file j)))).
Definition sentry (o o' : option info) : Prop :=
  match o, o' with Some i, Some j => sinfo i j | None, None => True | _, _ => False end.
Notation LE := (fun _ : cid => @None (list asset)).

Definition clean (L : lists) (id : cid) : Prop := listed L id = stored id.
Definition wgood (log : list (option (list bytes) * cid)) : Prop :=
  (forall p id, In (Some p, id) log -> forall q, own id q -> q = p /\ clean L0 id) /\ (forall id, In (None, id) log -> Wc id).
Definition below (p : path) (id : cid) : Prop := exists r, own id (p ++ r).

Lemma put_stored l id : put l = Some id -> stored id = l.
Proof. intros H. unfold SpecManifest.stored. now rewrite (Hput _ _ H). Qed.
Lemma clean_lset L id l : stored id = l -> forall x, clean L x -> clean (lset L id l) x.
Proof.
  intros S x C. unfold clean, SpecManifest.listed in *. destruct (list_eq_dec N.eq_dec x id) as [->|D]; [now rewrite lset_same|now rewrite lset_other].
Qed.
Lemma clean_lset_same L id l : stored id = l -> clean (lset L id l) id.
Proof. intros S. unfold clean, SpecManifest.listed. now rewrite lset_same. Qed.
Lemma clean_ldel L id x : clean L x -> clean (ldel L id) x.
Proof.
  intros C. unfold clean, SpecManifest.listed in *. destruct (list_eq_dec N.eq_dec x id) as [->|D]; [now rewrite ldel_same|now rewrite ldel_other].
Qed.
Lemma clean_eq L L' id : L' id = L id -> clean L id -> clean L' id.
Proof. unfold clean, SpecManifest.listed. now intros ->. Qed.

Lemma sinfo_refl i : sinfo i i.
Proof. unfold sinfo, same_info. tauto. Qed.
Lemma sinfo_trans i j k : sinfo i j -> sinfo j k -> sinfo i k.
Proof.
  intros ((A & B & C & D & E & F & G) & H) ((A' & B' & C' & D' & E' & F' & G') & H'). unfold sinfo, same_info. repeat split; try congruence; auto.
  destruct H' as [H'|H']; [|now right]. rewrite H'. exact H.
Qed.
Lemma sentry_refl o : sentry o o.
Proof. destruct o; cbn; [apply sinfo_refl|exact I]. Qed.

(** A flushed version of an asset. *)
Definition R (c c' : asset) : Prop := a_name c' = a_name c /\ forall q, sentry (view L0 c q) (view LE c' q).

Lemma R_type c c' : R c c' -> a_type c' = a_type c.
Proof. intros (_ & H). specialize (H []). cbn in H. apply H. Qed.

Lemma view_other L a n r : a_type a <> TDir -> view L a (n :: r) = None.
Proof. intros T. unfold SpecManifest.view. rewrite node_cons. destruct (type_eqb (a_type a) TDir) eqn:E; [|reflexivity]. apply type_eqb_eq in E. contradiction. Qed.

Lemma R_file c : a_type c <> TDir -> R c c.
Proof. intros T. split; [reflexivity|]. intros [|n q]; [apply sinfo_refl|]. now rewrite !view_other. Qed.

(** Below an unloaded list nothing changed. *)
Lemma node_cold L c r : (forall r d id, node L c r = Some d -> a_type d = TDir -> In id (a_ind d) -> clean L id) -> node LE c r = node L c r.
Proof.
  revert c. induction r as [|n r IH]; intros c C; [reflexivity|]. rewrite !node_cons. destruct (type_eqb (a_type c) TDir) eqn:T; [|reflexivity].
  apply type_eqb_eq in T. assert (E : children LE c = children L c).
  { unfold SpecManifest.children. f_equal. assert (C1 : forall id, In id (a_ind c) -> clean L id) by (intros id I; apply (C [] c); auto). clear C.
    induction (a_ind c) as [|x l IHl]; [reflexivity|]. cbn [flat_map]. rewrite IHl by (intros; apply C1; now right). f_equal. symmetry. apply (C1 x). now left. }
  rewrite E. destruct (find (named n) (children L c)) as [d|] eqn:F; [|reflexivity]. apply IH. intros r' d' id N. apply (C (n :: r')).
  rewrite node_cons, T. cbn [type_eqb]. now rewrite F.
Qed.

Lemma node_clean L c r : (forall r d id, node LE c r = Some d -> a_type d = TDir -> In id (a_ind d) -> clean L id) -> node L c r = node LE c r.
Proof.
  revert c. induction r as [|n r IH]; intros c C; [reflexivity|]. rewrite !node_cons. destruct (type_eqb (a_type c) TDir) eqn:T; [|reflexivity].
  apply type_eqb_eq in T. assert (E : children L c = children LE c).
  { unfold SpecManifest.children. f_equal. assert (C1 : forall id, In id (a_ind c) -> clean L id) by (intros id I; apply (C [] c); auto). clear C.
    induction (a_ind c) as [|x l IHl]; [reflexivity|]. cbn [flat_map]. rewrite IHl by (intros; apply C1; now right). f_equal. apply (C1 x). now left. }
  rewrite E. destruct (find (named n) (children LE c)) as [d|] eqn:F; [|reflexivity]. apply IH. intros r' d' id N. apply (C (n :: r')).
  rewrite node_cons, T. cbn [type_eqb]. now rewrite F.
Qed.

(** What is known about the lists in a flushed subtree. *)
Definition tree (p : path) (c : asset) (L : lists) (log : list (option (list bytes) * cid)) : Prop :=
  forall r d, node LE c r = Some d -> a_type d = TDir ->
    NoDup (map a_name (children LE d)) /\ NoDup (a_ind d) /\
    forall id, In id (a_ind d) -> (own id (p ++ r) \/ In (Some (p ++ r), id) log) /\ clean L id.

Lemma tree_file p c L log : a_type c <> TDir -> tree p c L log.
Proof.
  intros T [|n r] d N Td; [inversion N; subst; contradiction|]. rewrite node_cons in N. destruct (type_eqb (a_type c) TDir) eqn:E; [|discriminate].
  apply type_eqb_eq in E. contradiction.
Qed.

Lemma tree_keep (P : cid -> Prop) p c L log L' log' : tree p c L log -> incl log log' ->
  (forall id, ~ P id -> clean L id -> clean L' id) ->
  (forall r id, own id (p ++ r) \/ In (Some (p ++ r), id) log -> ~ P id) -> tree p c L' log'.
Proof.
  intros T I K D r d N Td. destruct (T r d N Td) as (A & B & C). split; [exact A|]. split; [exact B|]. intros id Hi. destruct (C id Hi) as (X & Y).
  split; [destruct X as [X|X]; [now left|right; now apply I]|]. apply K; [|exact Y]. now apply (D r).
Qed.

(** What is known about lists elsewhere. *)
Definition keeps (P : cid -> Prop) (L L' : lists) : Prop := forall id, ~ P id -> L' id = L id \/ clean L' id /\ forall q, ~ own id q.
Lemma keeps_clean P L L' id : keeps P L L' -> ~ P id -> clean L id -> clean L' id.
Proof. intros K N C. destruct (K id N) as [E|(E & _)]; [now apply (clean_eq L L')|exact E]. Qed.
Lemma keeps_own P L L' id q : keeps P L L' -> ~ P id -> own id q -> L' id = L id.
Proof. intros K N O. destruct (K id N) as [E|(_ & E)]; [exact E|]. now destruct (E q). Qed.
Lemma keeps_refl P L : keeps P L L.
Proof. intros id _. now left. Qed.
Lemma keeps_trans (P : cid -> Prop) L1 L2 L3 : keeps P L1 L2 -> keeps P L2 L3 -> keeps P L1 L3.
Proof.
  intros A B id N. destruct (B id N) as [E|E]; [|now right]. destruct (A id N) as [F|(F & G)]; [left; congruence|right]. split; [now apply (clean_eq L2)|exact G].
Qed.
Lemma keeps_weaken (P Q : cid -> Prop) L L' : (forall id, P id -> Q id) -> keeps P L L' -> keeps Q L L'.
Proof. intros H K id N. apply K. intros X. now apply N, H. Qed.

Definition agree0 (p : path) (L : lists) : Prop := forall id, below p id -> L id = L0 id.

Definition flushed (p : path) (dir : asset) (s : fstate) (dir' : asset) (s' : fstate) : Prop :=
  keeps (below p) (fst s) (fst s') /\ R dir dir' /\ tree p dir' (fst s') (snd s').
Definition mono (flush : path -> asset -> fstate -> outcome (asset * fstate)) : Prop :=
  forall p dir (s : fstate) dir' s', flush p dir s = Ok (dir', s') -> incl (snd s) (snd s').
Definition flush_ok (flush : path -> asset -> fstate -> outcome (asset * fstate)) : Prop :=
  forall p dir (s : fstate) dir' s', ok_at store own L0 p dir -> a_type dir = TDir -> agree0 p (fst s) -> flush p dir s = Ok (dir', s') -> wgood (snd s') ->
    flushed p dir s dir' s'.
Lemma wgood_incl log log' : incl log log' -> wgood log' -> wgood log.
Proof. intros I (H & H'). split; [intros p id J; apply H; now apply I|intros id J; apply H'; now apply I]. Qed.

Lemma app_cons_path (p : path) n r q m : (p ++ [n]) ++ r = (p ++ [m]) ++ q -> n = m.
Proof. rewrite <- !app_assoc. intros E. apply app_inv_head in E. cbn in E. congruence. Qed.
Lemma path_longer (p : path) n r : p <> (p ++ [n]) ++ r.
Proof. intros E. apply (f_equal (@length _)) in E. rewrite !app_length in E. cbn in E. lia. Qed.

Definition below_any (p : path) (l : list asset) (id : cid) : Prop := exists c, In c l /\ below (p ++ [a_name c]) id.
Definition trees (p : path) (l : list asset) (L : lists) (log : list (option (list bytes) * cid)) : Prop := Forall (fun c => tree (p ++ [a_name c]) c L log) l.

Section WithFlush.
Context (flush : path -> asset -> fstate -> outcome (asset * fstate)) (Hmono : mono flush).

Lemma flush_assets_mono p l : forall (s : fstate) l' s', flush_assets flush p l s = Ok (l', s') -> incl (snd s) (snd s').
Proof.
  induction l as [|c l IH]; intros s l' s' H; cbn [flush_assets] in H; [inversion H; subst; apply incl_refl|].
  apply bind_ok in H. destruct H as ([c' s1] & E & H).
  apply bind_ok in H. destruct H as ([r' s2] & F & H). inversion H; subst. apply IH in F.
  eapply incl_tran; [|exact F]. destruct (type_eqb (a_type c) TDir); [now apply Hmono in E|inversion E; subst; apply incl_refl].
Qed.

Context (Hflush : flush_ok flush).

Lemma flush_assets_spec p l : forall (s : fstate) l' s', NoDup (map a_name l) -> Forall (fun c => ok_at store own L0 (p ++ [a_name c]) c) l ->
  (forall c, In c l -> agree0 (p ++ [a_name c]) (fst s)) -> flush_assets flush p l s = Ok (l', s') -> wgood (snd s') ->
  keeps (below_any p l) (fst s) (fst s') /\ Forall2 R l l' /\ trees p l' (fst s') (snd s').
Proof.
  induction l as [|c l IH]; intros s l' s' N O A H W; cbn [flush_assets] in H.
  - inversion H; subst. split; [apply keeps_refl|]. split; constructor.
  - inversion N as [|? ? Nc N']; subst. inversion O as [|? ? Oc O']; subst. clear N O. rename N' into N. rename O' into O.
    apply bind_ok in H. destruct H as ([c' s1] & E & H).
    apply bind_ok in H. destruct H as ([r' s2] & F & H). injection H as <- <-.
    pose proof (flush_assets_mono p l _ _ _ F) as I2. pose proof (wgood_incl _ _ I2 W) as W1.
    assert (H1 : flushed (p ++ [a_name c]) c s c' s1).
    { destruct (type_eqb (a_type c) TDir) eqn:T.
      - apply type_eqb_eq in T. apply (Hflush _ _ _ _ _ Oc T); [apply A; now left|exact E|exact W1].
      - inversion E; subst. assert (T' : a_type c' <> TDir) by (intros X; rewrite X in T; discriminate).
        split; [apply keeps_refl|]. split; [now apply R_file|now apply tree_file]. }
    destruct H1 as (K1 & R1 & T1).
    assert (A1 : forall d, In d l -> agree0 (p ++ [a_name d]) (fst s1)).
    { intros d Hd id B. rewrite <- (A d (or_intror Hd) id B). destruct B as (r & B). apply (keeps_own _ _ _ _ _ K1) with (2 := B). intros (r2 & B2).
      pose proof (own_fun _ _ _ B B2) as X. apply app_cons_path in X. apply Nc. rewrite <- X. now apply in_map. }
    destruct (IH s1 r' s2 N O A1 F W) as (K2 & R2 & T2).
    split; [|split].
    + apply (keeps_trans _ _ (fst s1)); [eapply keeps_weaken; [|exact K1]|eapply keeps_weaken; [|exact K2]].
      * intros id B. exists c. split; [now left|exact B].
      * intros id (d & D & B). exists d. split; [now right|exact B].
    + constructor; assumption.
    + constructor; [|exact T2]. destruct R1 as (Rn & _). rewrite Rn. apply (tree_keep (below_any p l) _ _ _ _ _ _ T1 I2).
      * intros id Nb C. now apply (keeps_clean _ _ _ _ K2).
      * intros r id X (d & D & r2 & B). assert (Y : (p ++ [a_name c]) ++ r = (p ++ [a_name d]) ++ r2).
        { destruct X as [X|X]; [now apply (own_fun id)|]. symmetry. now apply (proj1 W1 _ _ X). }
        apply app_cons_path in Y. apply Nc. rewrite Y. now apply in_map.
Qed.

Lemma flush_lists_mono p ids : forall (s : fstate) over ids' over' s', flush_lists put max_size flush p ids s over = Ok (ids', over', s') -> incl (snd s) (snd s').
Proof.
  induction ids as [|id r IH]; intros s over ids' over' s' H; cbn [flush_lists] in H; [inversion H; subst; apply incl_refl|].
  destruct (fst s id) as [l|] eqn:E.
  - apply bind_ok in H. destruct H as ([l1 s1] & F & H). apply flush_assets_mono in F. apply bind_ok in H. destruct H as ([l2 over1] & G & H).
    eapply incl_tran; [exact F|]. destruct l2 as [|a l2]; [apply IH in H; exact H|].
    apply bind_ok in H. destruct H as ([id' s2] & K & H). apply bind_ok in H. destruct H as ([[r' o'] s4] & M & H). inversion H; subst. apply IH in M. cbn [fst snd] in M.
    eapply incl_tran; [|exact M]. unfold write_list in K. destruct (put (a :: l2)); inversion K; subst. cbn [snd]. apply incl_appl, incl_refl.
  - apply bind_ok in H. destruct H as ([[r' o'] s4] & M & H). inversion H; subst. apply IH in M. exact M.
Qed.

Section Dir.
Context (p : path) (dir : asset) (Ok_dir : ok_at store own L0 p dir) (T_dir : a_type dir = TDir).
Notation ids0 := (a_ind dir).
Notation names := (map a_name).

Lemma dok : dir_ok store own L0 p dir.
Proof. now apply ok_self. Qed.

Lemma own0 id : In id ids0 -> own id p.
Proof. apply dok. Qed.
Lemma own0_not_below id l : In id ids0 -> ~ below_any p l id.
Proof. intros I (c & _ & r & B). pose proof (own_fun _ _ _ (own0 id I) B) as E. now apply path_longer in E. Qed.

Lemma lists_distinct x y n : In x ids0 -> In y ids0 -> In n (names (listed L0 x)) -> In n (names (listed L0 y)) -> x = y.
Proof.
  intros Ix Iy Nx Ny. destruct (list_eq_dec N.eq_dec x y) as [|D]; [assumption|]. exfalso. pose proof (ok_names _ _ _ _ _ dok) as ND.
  unfold SpecManifest.children in ND. rewrite map_app in ND. apply NoDup_app_r in ND.
  apply in_split in Ix. destruct Ix as (u & v & E). rewrite E in *. rewrite in_app_iff in Iy. cbn in Iy.
  assert (Iy' : In y u \/ In y v) by (destruct Iy as [|[|]]; auto; congruence). clear Iy.
  rewrite flat_map_app in ND. cbn [flat_map] in ND. rewrite !map_app in ND.
  assert (F : forall w, In y w -> In n (names (flat_map (listed L0) w))).
  { intros w Iw. rewrite in_map_iff in *. destruct Ny as (c & Ec & Ic). exists c. split; [exact Ec|]. apply in_flat_map. eauto. }
  destruct Iy' as [Iy|Iy]; apply F in Iy.
  - eapply NoDup_app_disj in ND; [exact ND|exact Iy|]. rewrite in_app_iff. now left.
  - apply NoDup_app_r in ND. eapply NoDup_app_disj in ND; [exact ND|exact Nx|exact Iy].
Qed.

Lemma written_here x l2 id' log : In x ids0 -> l2 <> [] -> incl (names l2) (names (listed L0 x)) -> put l2 = Some id' -> In (Some p, id') log -> wgood log ->
  In id' ids0 -> id' = x.
Proof.
  intros Ix Ne Inc P Il W Ii. destruct (proj1 W p id' Il p (own0 id' Ii)) as (_ & C). unfold clean in C. rewrite (put_stored _ _ P) in C.
  destruct l2 as [|a l2]; [congruence|]. apply (lists_distinct _ _ (a_name a) Ii Ix); [rewrite C; now left|apply Inc; now left].
Qed.

Lemma R_names l l' : Forall2 R l l' -> names l' = names l.
Proof. induction 1 as [|c c' l l' (E & _) H IH]; [reflexivity|]. cbn. now rewrite E, IH. Qed.

(** After one loaded list was flushed. *)
Lemma one_list id l (s : fstate) l1 (s1 s3 : fstate) : In id ids0 -> L0 id = Some l -> (forall c, In c l -> agree0 (p ++ [a_name c]) (fst s)) ->
  flush_assets flush p l s = Ok (l1, s1) -> wgood (snd s3) -> incl (snd s1) (snd s3) ->
  (forall x, x <> id -> fst s3 x = fst s1 x \/ clean (fst s3) x /\ (forall q, own x q -> q = p) /\ ~ In x ids0) ->
  (forall x, x <> id -> ~ below_any p l x -> fst s3 x = fst s x \/ clean (fst s3) x /\ (forall q, own x q -> q = p) /\ ~ In x ids0) /\
  Forall2 R l l1 /\ trees p l1 (fst s3) (snd s3).
Proof.
  intros Ii El Ag F W I3 K3.
  assert (Inl : forall c, In c l -> In c (children L0 dir)).
  { intros c Ic. unfold SpecManifest.children. apply in_or_app. right. apply in_flat_map. exists id. split; [exact Ii|]. unfold SpecManifest.listed. now rewrite El. }
  assert (ND : NoDup (names l)).
  { pose proof (ok_names _ _ _ _ _ dok) as ND. unfold SpecManifest.children in ND. apply in_split in Ii. destruct Ii as (u & v & E). rewrite E in ND.
    rewrite flat_map_app in ND. cbn [flat_map] in ND. rewrite !map_app in ND. do 2 apply NoDup_app_r in ND. apply NoDup_app_l in ND. unfold SpecManifest.listed in ND. now rewrite El in ND. }
  apply flush_assets_spec in F; [|exact ND| |exact Ag|eapply wgood_incl; eassumption].
  2: { apply Forall_forall. intros c Ic. eapply ok_child; [exact Ok_dir|exact T_dir|now apply Inl]. }
  destruct F as (K & Fr & Tr). split; [|split; [exact Fr|]].
  - intros x D B. destruct (K3 x D) as [E|E]; [|now right]. destruct (K x B) as [G|(G & U)]; [left; congruence|right].
    split; [now apply (clean_eq (fst s1))|]. split; [intros q O; now destruct (U q)|]. intros Ix. destruct (U p). now apply own0.
  - eapply Forall_impl; [|exact Tr]. intros c Tc. apply (tree_keep (fun x => x = id) _ _ _ _ _ _ Tc I3).
    + intros x D C. destruct (K3 x D) as [E|(E & _)]; [now apply (clean_eq (fst s1))|exact E].
    + intros r x X ->. pose proof (own0 id Ii) as O. destruct X as [X|X].
      * pose proof (own_fun _ _ _ O X) as E. now apply path_longer in E.
      * apply I3 in X. destruct (proj1 W _ _ X p O) as (E & _). now apply path_longer in E.
Qed.

Lemma flush_lists_spec ids : forall (s : fstate) over ids' over' s', incl ids ids0 -> NoDup ids -> NoDup (names (flat_map (listed L0) ids)) ->
  (forall id, In id ids -> fst s id = L0 id) -> (forall c, In c (flat_map (listed L0) ids) -> agree0 (p ++ [a_name c]) (fst s)) ->
  flush_lists put max_size flush p ids s over = Ok (ids', over', s') -> wgood (snd s') ->
  (forall x, ~ In x ids -> ~ below_any p (flat_map (listed L0) ids) x -> fst s' x = fst s x \/ clean (fst s') x /\ (forall q, own x q -> q = p)) /\
  (exists pool, Forall2 R (flat_map (listed L0) ids) pool /\ Permutation (over ++ pool) (over' ++ flat_map stored ids') /\ trees p pool (fst s') (snd s')) /\
  (forall x, In x ids' -> clean (fst s') x /\ (In x ids \/ In (Some p, x) (snd s') /\ ~ In x ids0 /\ stored x <> [] /\ incl (names (stored x)) (names (flat_map (listed L0) ids)))) /\
  (forall x, In x ids' -> In x ids \/ In (Some p, x) (snd s')) /\ NoDup ids'.
Proof.
  induction ids as [|id r IH]; intros s over ids' over' s' Inc ND Nn St Ag H W; cbn [flush_lists] in H.
  - inversion H; subst. split; [now left|]. split; [exists []; cbn; split; [constructor|]; split; [now rewrite app_nil_r|constructor]|].
    split; [easy|]. split; [easy|constructor].
  - assert (Ii : In id ids0) by (apply Inc; now left). assert (Inc' : incl r ids0) by (intros x Ix; apply Inc; now right).
    inversion ND as [|? ? Nid ND']; subst. cbn [flat_map] in Nn, Ag. rewrite map_app in Nn. pose proof (NoDup_app_r _ _ Nn) as Nn'.
    pose proof (St id (or_introl eq_refl)) as Ei.
    assert (BA : forall a b x, ~ below_any p (a ++ b) x -> ~ below_any p a x /\ ~ below_any p b x).
    { intros a b x Nb. split; intros (c & Ic & Bc); apply Nb; exists c; rewrite in_app_iff; auto. }
    (* the rest, from a state in which the remaining lists are as at the beginning *)
    assert (Rest : forall (s3 : fstate) over1 r' over2 s4, (forall x, x <> id -> ~ below_any p (listed L0 id) x -> fst s3 x = fst s x \/ clean (fst s3) x /\ (forall q, own x q -> q = p) /\ ~ In x ids0) ->
      flush_lists put max_size flush p r s3 over1 = Ok (r', over2, s4) -> wgood (snd s4) -> 
      (forall x, ~ In x r -> ~ below_any p (flat_map (listed L0) r) x -> fst s4 x = fst s3 x \/ clean (fst s4) x /\ (forall q, own x q -> q = p)) /\
      (exists pool, Forall2 R (flat_map (listed L0) r) pool /\ Permutation (over1 ++ pool) (over2 ++ flat_map stored r') /\ trees p pool (fst s4) (snd s4)) /\
      (forall x, In x r' -> clean (fst s4) x /\ (In x r \/ In (Some p, x) (snd s4) /\ ~ In x ids0 /\ stored x <> [] /\ incl (names (stored x)) (names (flat_map (listed L0) r)))) /\
      (forall x, In x r' -> In x r \/ In (Some p, x) (snd s4)) /\ NoDup r').
    { intros s3 over1 r' over2 s4 K3 H4 W4. apply (IH s3 over1); auto.
      - intros x Ix. destruct (K3 x) as [E|(_ & _ & E)]; [intros ->; contradiction|apply own0_not_below; now apply Inc'| |].
        + rewrite E. apply St. now right.
        + destruct E. now apply Inc'.
      - intros c Ic x Bx. rewrite <- (Ag c) by (try (apply in_or_app; now right); exact Bx). destruct (K3 x) as [E|(_ & E & _)]; [| |exact E|].
        + intros ->. destruct Bx as (q & Bx). pose proof (own_fun _ _ _ (own0 id Ii) Bx) as X. now apply path_longer in X.
        + intros (d & Id & q & Bd). destruct Bx as (q2 & Bx). pose proof (own_fun _ _ _ Bx Bd) as X. apply app_cons_path in X.
          eapply NoDup_app_disj in Nn; [exact Nn|apply in_map; exact Id|]. rewrite <- X. now apply in_map.
        + destruct Bx as (q & Bx). pose proof (E _ Bx) as X. symmetry in X. now apply path_longer in X. }
    (* trees of this list persist through the rest *)
    assert (Keep : forall l1 (s3 s4 : fstate), trees p l1 (fst s3) (snd s3) -> names l1 = names (listed L0 id) -> incl (snd s3) (snd s4) -> wgood (snd s4) ->
      (forall x, ~ In x r -> ~ below_any p (flat_map (listed L0) r) x -> fst s4 x = fst s3 x \/ clean (fst s4) x /\ (forall q, own x q -> q = p)) ->
      trees p l1 (fst s4) (snd s4)).
    { intros l1 s3 s4 Tr En I4 W4 K4. unfold trees in *. rewrite Forall_forall in *. intros c Ic.
      apply (tree_keep (fun x => In x r \/ below_any p (flat_map (listed L0) r) x) _ _ _ _ _ _ (Tr c Ic) I4).
      - intros x Nx C. destruct (K4 x) as [E|(E & _)]; [tauto|tauto|now apply (clean_eq (fst s3))|exact E].
      - intros q x X Y. assert (O : forall z, own x z -> z = (p ++ [a_name c]) ++ q).
        { intros z Oz. destruct X as [X|X]; [now apply (own_fun x)|]. apply I4 in X. now apply (proj1 W4 _ _ X). }
        destruct Y as [Y|(d & Id & q2 & Y)].
        + pose proof (O p (own0 x (Inc' x Y))) as E. now apply path_longer in E.
        + apply O in Y. apply app_cons_path in Y. eapply NoDup_app_disj in Nn; [exact Nn| |apply in_map; exact Id]. rewrite Y, <- En. now apply in_map. }
    destruct (fst s id) as [l|] eqn:El.
    + apply bind_ok in H. destruct H as ([l1 s1] & F & H). apply bind_ok in H. destruct H as ([l2 over1] & G & H).
      apply enforce_list_split in G. destruct G as (t & El1 & Po). symmetry in Ei.
      assert (Lid : listed L0 id = l) by (unfold SpecManifest.listed; now rewrite Ei). rewrite Lid in *.
      assert (Agl : forall c, In c l -> agree0 (p ++ [a_name c]) (fst s)) by (intros c Ic; apply Ag; apply in_or_app; now left).
      destruct l2 as [|a l2].
      * pose proof (flush_lists_mono _ _ _ _ _ _ _ H) as I4. cbn [fst snd] in I4.
        destruct (one_list id l s l1 s1 (lset (fst s1) id [], snd s1) Ii Ei Agl F) as (K3 & Fr & Tr); cbn [fst snd];
          [exact (wgood_incl _ _ I4 W)|apply incl_refl|intros x D; left; now rewrite lset_other|].
        destruct (Rest _ _ _ _ _ K3 H W) as (K4 & (pool & Fp & Pp & Tp) & Em & Em2 & Nd). cbn [fst snd] in *.
        cbn [app] in El1. subst t. pose proof (Keep l1 (lset (fst s1) id [], snd s1) s' Tr (R_names _ _ Fr) I4 W K4) as Tr'.
        split; [|split; [|split; [|split]]].
        -- intros x Nx Nb. cbn [flat_map] in Nb. rewrite Lid in Nb. apply BA in Nb. destruct Nb as (Nb1 & Nb2).
           assert (x <> id /\ ~ In x r) as (D & D2) by (cbn in Nx; split; [intros ->|]; tauto).
           destruct (K4 x D2 Nb2) as [E|E]; [|now right]. destruct (K3 x D Nb1) as [E3|(E3 & E4 & _)]; [left; congruence|right]. split; [now apply (clean_eq (lset (fst s1) id []))|exact E4].
        -- exists (l1 ++ pool). cbn [flat_map]. rewrite Lid. split; [now apply Forall2_app|]. split; [|apply Forall_app; now split].
           rewrite app_assoc. etransitivity; [apply Permutation_app_tail; symmetry; exact Po|exact Pp].
        -- intros x Ix. destruct (Em x Ix) as (C & [X|(X & Y & Z & V)]); (split; [exact C|]); [left; now right|right].
           split; [exact X|]. split; [exact Y|]. split; [exact Z|]. cbn [flat_map]. rewrite map_app. now apply incl_appr.
        -- intros x Ix. destruct (Em2 x Ix); [left; now right|now right].
        -- exact Nd.
      * apply bind_ok in H. destruct H as ([id' s2] & K & H). apply bind_ok in H. destruct H as ([[r' o'] s4] & M & H). inversion H; subst ids' over' s'. clear H.
        unfold write_list in K. destruct (put (a :: l2)) as [id2|] eqn:P; [|discriminate]. injection K as <- <-. cbn [fst snd] in M.
        pose proof (flush_lists_mono _ _ _ _ _ _ _ M) as I4. cbn [fst snd] in I4. set (id' := id2) in *. clearbody id'. clear id2.
        set (s3 := (rekey (fst s1) id id' (a :: l2), snd s1 ++ [(Some p, id')])) in *.
        pose proof (wgood_incl _ _ I4 W) as W3. assert (I13 : incl (snd s1) (snd s1 ++ [(Some p, id')])) by (apply incl_appl, incl_refl).
        assert (Sid : stored id' = a :: l2) by (now apply put_stored).
        assert (Il : In (Some p, id') (snd s1 ++ [(Some p, id')])) by (rewrite in_app_iff; cbn; auto).
        assert (Fr0 : Forall2 R l l1).
        { apply flush_assets_spec in F; [apply F| | |exact Agl|eapply wgood_incl; eassumption].
          - now apply NoDup_app_l in Nn.
          - apply Forall_forall. intros c Ic. eapply ok_child; [exact Ok_dir|exact T_dir|]. unfold SpecManifest.children. apply in_or_app. right. apply in_flat_map. exists id. split; [exact Ii|now rewrite Lid]. }
        assert (Sub : incl (names (a :: l2)) (names l)).
        { rewrite <- (R_names _ _ Fr0), El1, map_app. apply incl_appl, incl_refl. }
        assert (WH : In id' ids0 -> id' = id) by (apply (written_here id (a :: l2) id' (snd s1 ++ [(Some p, id')]) Ii); [discriminate|now rewrite Lid|exact P|exact Il|exact W3]).
        assert (Kr : forall x, x <> id -> fst s3 x = fst s1 x \/ clean (fst s3) x /\ (forall q, own x q -> q = p) /\ ~ In x ids0).
        { intros x D. unfold s3, rekey. cbn [fst]. destruct (list_eq_dec N.eq_dec id id') as [<-|D2]; [left; now rewrite lset_other|].
          destruct (list_eq_dec N.eq_dec x id') as [->|D3].
          - right. split; [now apply clean_lset_same|]. split; [intros q O; now apply (proj1 W3 _ _ Il)|]. intros X. apply WH in X. congruence.
          - left. rewrite lset_other by exact D3. now rewrite ldel_other. }
        destruct (one_list id l s l1 s1 s3 Ii Ei Agl F W3 I13 Kr) as (K3 & Fr & Tr).
        destruct (Rest s3 _ _ _ _ K3 M W) as (K4 & (pool & Fp & Pp & Tp) & Em & Em2 & Nd).
        pose proof (Keep l1 s3 s4 Tr (R_names _ _ Fr) I4 W K4) as Tr'.
        assert (C3 : clean (fst s3) id').
        { unfold s3, rekey. cbn [fst]. destruct (list_eq_dec N.eq_dec id id') as [<-|D2]; now apply clean_lset_same. }
        assert (Nr : ~ In id' r) by (intros X; pose proof (WH (Inc' _ X)); subst id'; contradiction).
        assert (C4 : clean (fst s4) id').
        { destruct (K4 id') as [E|(E & _)]; [exact Nr| |now apply (clean_eq (fst s3))|exact E].
          intros (c & Ic & q & B). apply (proj1 W3 _ _ Il) in B. destruct B as (B & _). symmetry in B. now apply path_longer in B. }
        split; [|split; [|split; [|split]]].
        -- intros x Nx Nb. cbn [flat_map] in Nb. rewrite Lid in Nb. apply BA in Nb. destruct Nb as (Nb1 & Nb2).
           assert (x <> id /\ ~ In x r) as (D & D2) by (cbn in Nx; split; [intros ->|]; tauto).
           destruct (K4 x D2 Nb2) as [E|E]; [|now right]. destruct (K3 x D Nb1) as [E3|(E3 & E4 & _)]; [left; congruence|right]. split; [now apply (clean_eq (fst s3))|exact E4].
        -- exists (l1 ++ pool). cbn [flat_map]. rewrite Lid, Sid. split; [now apply Forall2_app|]. split; [|apply Forall_app; now split].
           rewrite El1. etransitivity; [|etransitivity; [apply Permutation_app_head; exact Pp|]].
           2: { rewrite !app_assoc. apply Permutation_app_tail. apply Permutation_app_comm. }
           etransitivity; [|apply Permutation_app_head; apply Permutation_app_tail; symmetry; exact Po].
           rewrite !app_assoc. apply Permutation_app_tail. rewrite <- !app_assoc. rewrite (Permutation_app_comm over). rewrite <- app_assoc. apply Permutation_app_head. apply Permutation_app_comm.
        -- intros x [<-|Ix].
           ++ split; [exact C4|]. destruct (list_eq_dec N.eq_dec id' id) as [->|D]; [left; now left|]. right. split; [now apply I4|]. split; [intros X; apply WH in X; congruence|].
              rewrite Sid. split; [discriminate|]. cbn [flat_map]. rewrite map_app, Lid. now apply incl_appl.
           ++ destruct (Em x Ix) as (C & [X|(X & Y & Z & V)]); (split; [exact C|]); [left; now right|right].
              split; [exact X|]. split; [exact Y|]. split; [exact Z|]. cbn [flat_map]. rewrite map_app. now apply incl_appr.
        -- intros x [<-|Ix]; [right; now apply I4|]. destruct (Em2 x Ix); [left; now right|now right].
        -- constructor; [|exact Nd]. intros X. destruct (Em id' X) as (_ & [Y|(_ & _ & _ & V)]); [contradiction|].
           rewrite Sid in V. eapply NoDup_app_disj in Nn; [exact Nn|apply Sub; now left|apply V; now left].
    + apply bind_ok in H. destruct H as ([[r' o'] s4] & M & H). inversion H; subst ids' over' s'. clear H. symmetry in Ei.
      assert (Lid : listed L0 id = stored id) by (unfold SpecManifest.listed; now rewrite Ei).
      assert (Cold : forall c, In c (listed L0 id) -> cold store L0 c) by (intros c; apply (ok_lazy _ _ _ _ _ dok); assumption).
      destruct (Rest s _ _ _ _ (fun x _ _ => or_introl eq_refl) M W) as (K4 & (pool & Fp & Pp & Tp) & Em & Em2 & Nd).
      pose proof (flush_lists_mono _ _ _ _ _ _ _ M) as I4.
      assert (Tr : trees p (listed L0 id) (fst s) (snd s)).
      { apply Forall_forall. intros c Ic q d Nq Td. rewrite (node_cold L0) in Nq by (intros; eapply Cold; eassumption).
        assert (Oc : ok_at store own L0 (p ++ [a_name c]) c).
        { eapply ok_child; [exact Ok_dir|exact T_dir|]. unfold SpecManifest.children. apply in_or_app. right. apply in_flat_map. eauto. }
        pose proof (Oc q d Nq Td) as Od. assert (Cl : forall x, In x (a_ind d) -> clean L0 x) by (intros x Ix; eapply Cold; eassumption).
        split; [|split].
        - assert (E : children LE d = children L0 d).
          { unfold SpecManifest.children. f_equal. clear - Cl. induction (a_ind d) as [|x w IHw]; [reflexivity|]. cbn [flat_map].
            rewrite IHw by (intros; apply Cl; now right). f_equal. symmetry. apply Cl. now left. }
          rewrite E. apply Od.
        - apply Od.
        - intros x Ix. split; [left; now apply (ok_own _ _ _ _ _ Od)|]. apply (clean_eq L0); [|now apply Cl].
          apply (Ag c); [apply in_or_app; now left|]. exists q. now apply (ok_own _ _ _ _ _ Od). }
      pose proof (Keep (listed L0 id) s s4 Tr eq_refl I4 W K4) as Tr'.
      assert (C4 : clean (fst s4) id).
      { destruct (K4 id Nid) as [E|(E & _)]; [now apply own0_not_below|apply (clean_eq (fst s)); [exact E|]|exact E]. unfold clean, SpecManifest.listed. now rewrite El. }
      split; [|split; [|split; [|split]]].
      -- intros x Nx Nb. cbn [flat_map] in Nb. apply BA in Nb. destruct Nb as (Nb1 & Nb2). apply K4; [|exact Nb2]. intros X. apply Nx. now right.
      -- exists (listed L0 id ++ pool). cbn [flat_map]. split; [|split; [|apply Forall_app; now split]].
         ++ apply Forall2_app; [|exact Fp]. clear - Cold. assert (G : forall l, incl l (listed L0 id) -> Forall2 R l l).
            { induction l as [|c l IHl]; intros I; constructor; [|apply IHl; intros x Ix; apply I; now right]. split; [reflexivity|].
              intros q. unfold SpecManifest.view. rewrite (node_cold L0); [apply sentry_refl|]. intros; eapply Cold; [apply I; now left| | |]; eassumption. }
            apply G, incl_refl.
         ++ rewrite <- Lid. rewrite Permutation_app_comm, <- app_assoc. etransitivity; [apply Permutation_app_head; rewrite Permutation_app_comm; exact Pp|].
            rewrite !app_assoc. apply Permutation_app_tail. apply Permutation_app_comm.
      -- intros x [<-|Ix]; [split; [exact C4|left; now left]|]. destruct (Em x Ix) as (C & [X|(X & Y & Z & V)]); (split; [exact C|]); [left; now right|right].
         split; [exact X|]. split; [exact Y|]. split; [exact Z|]. cbn [flat_map]. rewrite map_app. now apply incl_appr.
      -- intros x [<-|Ix]; [left; now left|]. destruct (Em2 x Ix); [left; now right|now right].
      -- constructor; [|exact Nd]. intros X. destruct (Em id X) as (_ & [Y|(_ & Y & _)]); contradiction.
Qed.
End Dir.
End WithFlush.

(** * Splitting large files *)
Definition Rf (a a' : asset) : Prop := a' = a \/ a_type a <> TDir /\ a_name a' = a_name a /\ sinfo (a_info a) (a_info a').

Lemma R_Rf c a a' : R c a -> Rf a a' -> R c a'.
Proof.
  intros Rc [->|(T & N & I)]; [exact Rc|]. destruct Rc as (Rn & Rv). split; [congruence|]. intros [|n q].
  - specialize (Rv []). cbn in *. eapply sinfo_trans; eassumption.
  - specialize (Rv (n :: q)). rewrite (view_other LE a') by (unfold a_type in *; destruct I as ((-> & _) & _); exact T).
    rewrite (view_other LE a) in Rv by exact T. exact Rv.
Qed.
Lemma tree_Rf p a a' L log : tree (p ++ [a_name a]) a L log -> Rf a a' -> tree (p ++ [a_name a']) a' L log.
Proof. intros Tr [->|(T & N & I)]; [exact Tr|]. apply tree_file. unfold a_type in *. destruct I as ((-> & _) & _). exact T. Qed.

Lemma enforce_files_spec l : forall ps s l' ps' s', enforce_files put_chunks max_size l ps s = Ok (l', ps', s') -> (forall id, In (None, id) (snd s') -> Wc id) ->
  fst s' = fst s /\ incl (snd s) (snd s') /\ (forall q id, In (Some q, id) (snd s') -> In (Some q, id) (snd s)) /\ Forall2 Rf l l'.
Proof.
  assert (Refl : forall w, Forall2 Rf w w) by (intros w; induction w; constructor; [now left|assumption]).
  induction l as [|a l IH]; intros ps s l' ps' s' H Hc; cbn [enforce_files] in H.
  - inversion H; subst. split; [reflexivity|]. split; [apply incl_refl|]. split; [auto|constructor].
  - destruct ((ps <=? max_size) || (asset_bytes a <=? max_size / 16)).
    { inversion H; subst. split; [reflexivity|]. split; [apply incl_refl|]. split; [auto|apply Refl]. }
    destruct (type_eqb (a_type a) TFile) eqn:T.
    + apply bind_ok in H. destruct H as (fp & E & H). apply bind_ok in H. destruct H as ([[r' ps2] s1] & F & H). inversion H; subst. apply IH in F; [|exact Hc].
      destruct F as (A & B & C & D). cbn [fst snd] in *. split; [exact A|]. split; [intros x Ix; apply B; apply in_or_app; now left|]. split.
      * intros q id I. apply C in I. apply in_app_or in I. destruct I as [I|I]; [exact I|]. destruct (fp_ind (i_file (a_info a))); [|destruct I].
        apply in_map_iff in I. destruct I as (e & Ee & _). discriminate.
      * constructor; [|exact D]. right. apply type_eqb_eq in T. split; [rewrite T; discriminate|]. split; [reflexivity|].
        split.
        { unfold SpecManifest.same_info, set_file, set_info. cbn. repeat split; auto.
        -- unfold enforce_file in E. destruct (max_size / 16 =? 0); [now inversion E|]. destruct (length _ <=? 1)%nat; [now inversion E|].
           destruct (fp_ind (i_file (a_info a))); [|discriminate]. destruct (pop_loop _ _ _ _ _) as [k o]. destruct o; [now inversion E|].
           destruct (write_lists _ _); [|discriminate]. now inversion E.
        -- intros content Dc. eapply C27_split_preserves_file; [exact Hputc|exact Dc|exact E]. }
        cbn. destruct (fp_ind (i_file (a_info a))) as [|e0 r0] eqn:Ei.
        { right. apply Forall_forall. intros id Ic. apply Hc. apply B. apply in_or_app. right. apply in_map_iff in Ic. destruct Ic as (e & <- & Ie). apply in_map_iff. eauto. }
        left. unfold enforce_file in E. rewrite Ei in E. destruct (max_size / 16 =? 0); [inversion E; subst; exact Ei|].
        destruct (length _ <=? 1)%nat; [inversion E; subst; exact Ei|discriminate].
    + apply bind_ok in H. destruct H as ([[r' ps2] s1] & F & H). inversion H; subst. apply IH in F; [|exact Hc]. destruct F as (A & B & C & D).
      split; [exact A|]. split; [exact B|]. split; [exact C|]. constructor; [now left|exact D].
Qed.

Lemma enforce_files_log l : forall ps s l' ps' s', enforce_files put_chunks max_size l ps s = Ok (l', ps', s') ->
  incl (snd s) (snd s') /\ (forall q id, In (Some q, id) (snd s') -> In (Some q, id) (snd s)).
Proof.
  induction l as [|a l IH]; intros ps s l' ps' s' H; cbn [enforce_files] in H.
  - inversion H; subst. split; [apply incl_refl|auto].
  - destruct ((ps <=? max_size) || (asset_bytes a <=? max_size / 16)).
    { inversion H; subst. split; [apply incl_refl|auto]. }
    destruct (type_eqb (a_type a) TFile) eqn:T.
    + apply bind_ok in H. destruct H as (fp & E & H). apply bind_ok in H. destruct H as ([[r' ps2] s1] & F & H). inversion H; subst. apply IH in F.
      destruct F as (B & C). cbn [fst snd] in *. split; [intros x Ix; apply B; apply in_or_app; now left|].
      intros q id I. apply C in I. apply in_app_or in I. destruct I as [I|I]; [exact I|]. destruct (fp_ind (i_file (a_info a))); [|destruct I].
      apply in_map_iff in I. destruct I as (e & Ee & _). discriminate.
    + apply bind_ok in H. destruct H as ([[r' ps2] s1] & F & H). inversion H; subst. now apply IH in F.
Qed.
Lemma enforce_dir_log dir over s dir' over' s' : enforce_dir put_chunks sort_desc max_size dir over s = Ok (dir', over', s') ->
  incl (snd s) (snd s') /\ (forall q id, In (Some q, id) (snd s') -> In (Some q, id) (snd s)).
Proof.
  unfold enforce_dir. destruct ((max_size =? 0) || (asset_bytes dir <=? max_size)).
  { intros H; inversion H; subst. split; [apply incl_refl|auto]. }
  intros H. apply bind_ok in H. destruct H as ([[l1 ps] s1] & E & H). destruct (pop_dir max_size dir (rev l1) ps over) as [keep o]. inversion H; subst.
  destruct (max_size / 16 =? 0); [inversion E; subst; split; [apply incl_refl|auto]|]. eapply enforce_files_log; exact E.
Qed.

Lemma enforce_dir_spec dir over s dir' over' s' : enforce_dir put_chunks sort_desc max_size dir over s = Ok (dir', over', s') -> (forall id, In (None, id) (snd s') -> Wc id) ->
  a_name dir' = a_name dir /\ a_info dir' = a_info dir /\ a_ind dir' = a_ind dir /\ fst s' = fst s /\ incl (snd s) (snd s') /\
  (forall q id, In (Some q, id) (snd s') -> In (Some q, id) (snd s)) /\
  exists ds, Forall2 Rf (a_dirs dir) ds /\ Permutation (ds ++ over) (a_dirs dir' ++ over').
Proof.
  assert (Refl : forall w, Forall2 Rf w w) by (intros w; induction w; constructor; [now left|assumption]).
  unfold enforce_dir. destruct ((max_size =? 0) || (asset_bytes dir <=? max_size)).
  { intros H _; inversion H; subst. repeat (split; [reflexivity|]). split; [apply incl_refl|]. split; [auto|]. exists (a_dirs dir'). split; [apply Refl|reflexivity]. }
  intros H Hc. apply bind_ok in H. destruct H as ([[l1 ps] s1] & E & H).
  destruct (pop_dir max_size dir (rev l1) ps over) as [keep o] eqn:P. inversion H; subst dir' over' s'. clear H. cbn [a_name a_info a_ind set_dirs].
  assert (X : fst s1 = fst s /\ incl (snd s) (snd s1) /\ (forall q id, In (Some q, id) (snd s1) -> In (Some q, id) (snd s)) /\ Forall2 Rf (sort_desc (a_dirs dir)) l1).
  { destruct (max_size / 16 =? 0); [inversion E; subst; split; [reflexivity|]; split; [apply incl_refl|]; split; [auto|apply Refl]|]. eapply enforce_files_spec; [exact E|exact Hc]. }
  destruct X as (A & B & C & D). repeat (split; [assumption||reflexivity|]).
  destruct (Permutation_Forall2 (Permutation_sym (Hsort (a_dirs dir))) D) as (ds & Pd & Fd). exists ds. split; [exact Fd|].
  apply pop_dir_split in P. destruct P as (t & El & ->). apply (f_equal (@rev _)) in El. rewrite rev_involutive, rev_app_distr in El.
  change (a_dirs (set_dirs dir (rev keep))) with (rev keep). rewrite <- Pd, El, <- app_assoc. apply Permutation_app_head. rewrite Permutation_app_comm. apply Permutation_app_head.
  symmetry. apply Permutation_rev.
Qed.

(** * Appending to the indirect lists *)
Lemma fill_spec p over : forall pre cl ps (s : fstate) ids s', fill_assets put max_size p over pre cl ps s = Ok (ids, s') ->
  (over <> [] \/ cl <> []) -> (0 < ps -> cl <> []) ->
  incl (snd s) (snd s') /\ (forall x, fst s' x = fst s x \/ clean (fst s') x /\ In (Some p, x) (snd s')) /\
  exists new, ids = pre ++ new /\ flat_map stored new = cl ++ over /\ Forall (fun x => stored x <> [] /\ In (Some p, x) (snd s') /\ clean (fst s') x) new.
Proof.
  assert (Wr : forall cl s id s', write_back put p cl s = Ok (id, s') -> stored id = cl /\ s' = (lset (fst s) id cl, snd s ++ [(Some p, id)])).
  { intros cl s id s' H. unfold write_back, write_list in H. destruct (put cl) as [i|] eqn:P; [|discriminate]. cbn in H. inversion H; subst. split; [now apply put_stored|reflexivity]. }
  assert (Fr : forall cl (s : fstate) id x, stored id = cl -> lset (fst s) id cl x = fst s x \/ clean (lset (fst s) id cl) x /\ In (Some p, x) (snd s ++ [(Some p, id)])).
  { intros cl s id x S. destruct (list_eq_dec N.eq_dec x id) as [->|D]; [right|left; now rewrite lset_other]. split; [now apply clean_lset_same|]. rewrite in_app_iff. cbn. auto. }
  induction over as [|a over IH]; intros pre cl ps s ids s' H Ne Hp; cbn [fill_assets] in H.
  - apply bind_ok in H. destruct H as ([id s1] & W & H). inversion H; subst. apply Wr in W. destruct W as (S & ->). cbn [fst snd].
    split; [apply incl_appl, incl_refl|]. split; [intros x; now apply Fr|]. exists [id]. split; [reflexivity|]. cbn [flat_map]. rewrite !app_nil_r.
    split; [exact S|]. constructor; [|constructor]. split; [rewrite S; destruct Ne; congruence|]. split; [rewrite in_app_iff; cbn; auto|now apply clean_lset_same].
  - destruct ((0 <? max_size) && (0 <? ps) && (max_size <? ps + (asset_bytes a + overhead))) eqn:E.
    + apply bind_ok in H. destruct H as ([id s1] & W & H). apply Wr in W. destruct W as (S & ->). apply IH in H; [|now right|discriminate].
      destruct H as (I & K & new & -> & Sn & Fn). cbn [fst snd] in *. split; [intros x Ix; apply I; apply in_or_app; now left|].
      assert (Pc : cl <> []) by (apply Hp; apply andb_true_iff in E; destruct E as (E & _); apply andb_true_iff in E; destruct E as (_ & E); now apply N.ltb_lt in E).
      split.
      * intros x. destruct (K x) as [Ex|Ex]; [|now right]. destruct (Fr cl s id x S) as [Fx|(Fx & Gx)]; [left; congruence|right]. split; [now apply (clean_eq (lset (fst s) id cl))|now apply I].
      * exists (id :: new). split; [now rewrite <- app_assoc|]. split; [cbn [flat_map]; rewrite S, Sn; reflexivity|]. constructor; [|exact Fn].
        split; [rewrite S; exact Pc|]. split; [apply I; rewrite in_app_iff; cbn; auto|]. destruct (K id) as [Ex|(Ex & _)]; [|exact Ex].
        apply (clean_eq (lset (fst s) id cl)); [exact Ex|now apply clean_lset_same].
    + apply IH in H; [|right; now destruct cl|intros _; now destruct cl]. destruct H as (I & K & new & -> & Sn & Fn). split; [exact I|]. split; [exact K|].
      exists new. split; [reflexivity|]. split; [rewrite Sn, <- app_assoc; reflexivity|exact Fn].
Qed.

Lemma nodup_ids A B : NoDup A -> Forall (fun x => stored x <> []) B -> NoDup (map a_name (flat_map stored (A ++ B))) -> NoDup (A ++ B).
Proof.
  intros NA FB ND. assert (In1 : forall x l, In x l -> stored x <> [] -> exists n, In n (map a_name (stored x)) /\ In n (map a_name (flat_map stored l))).
  { intros x l I Ne. destruct (stored x) as [|c r] eqn:E; [congruence|]. exists (a_name c). split; [now left|]. apply in_map, in_flat_map. exists x. split; [exact I|]. rewrite E. now left. }
  induction A as [|y A IH]; cbn [app flat_map] in *.
  - clear NA. induction B as [|y B IH]; [constructor|]. inversion FB as [|? ? Hy FB']; subst. cbn [flat_map] in ND. rewrite map_app in ND. constructor.
    + intros I. destruct (In1 y B I Hy) as (n & X & Y). exact (NoDup_app_disj _ _ _ ND X Y).
    + apply IH; [exact FB'|now apply NoDup_app_r in ND].
  - inversion NA; subst. rewrite map_app in ND. constructor; [|apply IH; [assumption|now apply NoDup_app_r in ND]].
    rewrite in_app_iff. intros [I|I]; [contradiction|]. rewrite Forall_forall in FB. destruct (In1 y B I (FB y I)) as (n & X & Y).
    apply (NoDup_app_disj _ _ n ND X). rewrite flat_map_app, map_app, in_app_iff. now right.
Qed.

Lemma append_spec p dir over s dir' s' : append_indirect store put max_size p dir over s = Ok (dir', s') ->
  Forall (clean (fst s)) (a_ind dir) ->
  a_name dir' = a_name dir /\ a_info dir' = a_info dir /\ a_dirs dir' = a_dirs dir /\ incl (snd s) (snd s') /\
  (forall x, fst s' x = fst s x \/ clean (fst s') x /\ (In x (a_ind dir) \/ In (Some p, x) (snd s'))) /\
  Permutation (over ++ flat_map stored (a_ind dir)) (flat_map stored (a_ind dir')) /\
  (forall x, In x (a_ind dir') -> clean (fst s') x /\ (In x (a_ind dir) \/ In (Some p, x) (snd s'))) /\
  (NoDup (a_ind dir) -> NoDup (map a_name (flat_map stored (a_ind dir'))) -> NoDup (a_ind dir')).
Proof.
  intros H Cl. unfold append_indirect in H. destruct over as [|a ov] eqn:Eo.
  { inversion H; subst. rewrite Forall_forall in Cl. repeat (split; [reflexivity|]). split; [apply incl_refl|]. split; [now left|]. split; [reflexivity|]. split; [auto|auto]. }
  rewrite <- Eo in *. assert (Ne : rev over <> []) by (intros E; apply (f_equal (@rev _)) in E; rewrite rev_involutive in E; cbn in E; congruence). clear Eo a ov.
  destruct (a_ind dir) as [|i ids] eqn:Ei.
  - apply bind_ok in H. destruct H as ([ids s1] & F & H). inversion H; subst. cbn [a_name a_info a_dirs a_ind set_ind].
    apply fill_spec in F; [|now left|lia]. destruct F as (I & K & new & -> & Sn & Fn). rewrite Forall_forall in Fn. repeat (split; [reflexivity|]). split; [exact I|].
    split; [intros x; destruct (K x) as [E|(E & G)]; auto|]. cbn [app flat_map] in *. split; [rewrite app_nil_r, Sn; apply Permutation_rev|].
    split; [intros x Ix; destruct (Fn x Ix) as (_ & G & C); auto|]. intros _ ND. apply (nodup_ids [] new); [constructor|apply Forall_forall; intros x Ix; now apply Fn|exact ND].
  - rewrite <- Ei in *. assert (Nei : a_ind dir <> []) by congruence. clear Ei i ids. destruct (exists_last Nei) as (ids & li & Ei). rewrite Ei in *. rewrite last_last, removelast_last in H.
    destruct (get_list store li (fst s)) as [o L1] eqn:G. destruct o as [l|]; [|discriminate]. apply get_list_spec in G. destruct G as (_ & _ & G3 & G4 & G5).
    assert (Cli : clean (fst s) li) by (rewrite Forall_forall in Cl; apply Cl; rewrite in_app_iff; cbn; auto). assert (El : l = stored li) by (rewrite <- Cli; exact G5).
    apply bind_ok in H. destruct H as ([ids' s1] & F & H). inversion H; subst dir' s'. clear H. cbn [a_name a_info a_dirs a_ind set_ind].
    apply fill_spec in F; [|now left|intros P E; rewrite E in P; cbn in P; lia]. destruct F as (I & K & new & -> & Sn & Fn). cbn [fst snd] in *.
    repeat (split; [reflexivity|]). split; [exact I|].
    assert (K0 : forall x, ldel L1 li x = fst s x \/ clean (ldel L1 li) x /\ x = li).
    { intros x. destruct (list_eq_dec N.eq_dec x li) as [->|D].
      - right. split; [|reflexivity]. unfold clean, SpecManifest.listed. now rewrite ldel_same.
      - left. rewrite ldel_other by exact D. destruct (G3 x); [assumption|congruence]. }
    assert (KK : forall x, fst s1 x = fst s x \/ clean (fst s1) x /\ (In x (ids ++ [li]) \/ In (Some p, x) (snd s1))).
    { intros x. destruct (K x) as [E|(E & G)]; [|auto]. destruct (K0 x) as [E0|(E0 & ->)]; [left; congruence|right]. split; [now apply (clean_eq (ldel L1 li))|]. left. rewrite in_app_iff. cbn. auto. }
    split; [exact KK|]. rewrite !flat_map_app. cbn [flat_map]. rewrite app_nil_r, Sn, El. split.
    { rewrite Permutation_app_comm, <- !app_assoc. do 2 apply Permutation_app_head. apply Permutation_rev. }
    rewrite Forall_forall in Fn, Cl. split.
    + intros x Ix. apply in_app_or in Ix. destruct Ix as [Ix|Ix].
      * assert (Ix' : In x (ids ++ [li])) by (rewrite in_app_iff; auto). split; [|now left]. destruct (KK x) as [E|(E & _)]; [apply (clean_eq (fst s)); [exact E|now apply Cl]|exact E].
      * destruct (Fn x Ix) as (_ & G & C); auto.
    + intros ND NN. apply nodup_ids; [now apply NoDup_app_l in ND|apply Forall_forall; intros x Ix; now apply Fn|]. now rewrite flat_map_app, Sn, El.
Qed.

Lemma append_mono p dir over s dir' s' : append_indirect store put max_size p dir over s = Ok (dir', s') -> incl (snd s) (snd s').
Proof.
  assert (F : forall ov pre cl ps s ids s', fill_assets put max_size p ov pre cl ps s = Ok (ids, s') -> incl (snd s) (snd s')).
  { clear. induction ov as [|a ov IH]; intros pre cl ps s ids s' H; cbn [fill_assets] in H.
    - apply bind_ok in H. destruct H as ([id s1] & W & H). inversion H; subst. unfold write_back, write_list in W. destruct (put cl); [|discriminate]. inversion W; subst. cbn. apply incl_appl, incl_refl.
    - destruct (_ && _ && _); [|now apply IH in H]. apply bind_ok in H. destruct H as ([id s1] & W & H). apply IH in H. eapply incl_tran; [|exact H].
      unfold write_back, write_list in W. destruct (put cl); [|discriminate]. inversion W; subst. cbn. apply incl_appl, incl_refl. }
  unfold append_indirect. destruct over; [intros H; inversion H; subst; apply incl_refl|]. destruct (a_ind dir).
  - intros H. apply bind_ok in H. destruct H as ([ids s1] & G & H). inversion H; subst. now apply F in G.
  - destruct (get_list store (last (c :: l) []) (fst s)) as [[l'|] L1]; [|discriminate]. intros H. apply bind_ok in H. destruct H as ([ids s1] & G & H). inversion H; subst. now apply F in G.
Qed.

Notation flush_dir := (flush_dir store put put_chunks sort_desc max_size).

Lemma flush_dir_mono fuel : mono (flush_dir fuel).
Proof.
  induction fuel as [|fuel IH]; intros p dir s dir' s' H; [discriminate|]. cbn [ModelManifest.flush_dir] in H.
  apply bind_ok in H. destruct H as ([ds s1] & F1 & H). apply bind_ok in H. destruct H as ([[ids over] s2] & F2 & H). apply bind_ok in H. destruct H as ([[dir1 over1] s3] & F3 & H).
  apply flush_assets_mono in F1; [|exact IH]. apply flush_lists_mono in F2; [|exact IH]. apply enforce_dir_log in F3. apply append_mono in H.
  eapply incl_tran; [exact F1|]. eapply incl_tran; [exact F2|]. eapply incl_tran; [apply F3|exact H].
Qed.

(** Every list that was written is in the store. *)
Definition grow (log log' : list (option (list bytes) * cid)) : Prop := forall p id, In (Some p, id) log' -> In (Some p, id) log \/ store id <> None.
Lemma grow_refl log : grow log log.
Proof. intros p id I. now left. Qed.
Lemma grow_trans a b c : grow a b -> grow b c -> grow a c.
Proof. intros A B p id I. destruct (B p id I) as [J|J]; [exact (A p id J)|now right]. Qed.
Lemma grow_write l id log p : put l = Some id -> grow log (log ++ [(Some p, id)]).
Proof. intros P q x I. apply in_app_or in I. destruct I as [I|[I|[]]]; [now left|right]. inversion I; subst. rewrite (Hput _ _ P). discriminate. Qed.
Lemma grow_sub log log' : (forall q id, In (Some q, id) log' -> In (Some q, id) log) -> grow log log'.
Proof. intros H p id I. left. now apply H. Qed.

Section GrowFlush.
Context (flush : path -> asset -> fstate -> outcome (asset * fstate)) (Hgrow : forall p dir (s : fstate) dir' s', flush p dir s = Ok (dir', s') -> grow (snd s) (snd s')).
Lemma flush_assets_grow p l : forall (s : fstate) l' s', flush_assets flush p l s = Ok (l', s') -> grow (snd s) (snd s').
Proof.
  induction l as [|c l IH]; intros s l' s' H; cbn [flush_assets] in H; [inversion H; subst; apply grow_refl|].
  apply bind_ok in H. destruct H as ([c' s1] & E & H). apply bind_ok in H. destruct H as ([r' s2] & F & H). inversion H; subst. apply IH in F.
  eapply grow_trans; [|exact F]. destruct (type_eqb (a_type c) TDir); [now apply Hgrow in E|inversion E; subst; apply grow_refl].
Qed.
Lemma flush_lists_grow p ids : forall (s : fstate) over ids' over' s', flush_lists put max_size flush p ids s over = Ok (ids', over', s') -> grow (snd s) (snd s').
Proof.
  induction ids as [|id r IH]; intros s over ids' over' s' H; cbn [flush_lists] in H; [inversion H; subst; apply grow_refl|].
  destruct (fst s id) as [l|] eqn:E.
  - apply bind_ok in H. destruct H as ([l1 s1] & F & H). apply flush_assets_grow in F. apply bind_ok in H. destruct H as ([l2 over1] & G & H).
    eapply grow_trans; [exact F|]. destruct l2 as [|a l2]; [apply IH in H; exact H|].
    apply bind_ok in H. destruct H as ([id' s2] & K & H). apply bind_ok in H. destruct H as ([[r' o'] s4] & M & H). inversion H; subst. apply IH in M. cbn [fst snd] in M.
    eapply grow_trans; [|exact M]. unfold write_list in K. destruct (put (a :: l2)) as [i|] eqn:P; inversion K; subst. cbn [snd]. eapply grow_write; exact P.
  - apply bind_ok in H. destruct H as ([[r' o'] s4] & M & H). inversion H; subst. apply IH in M. exact M.
Qed.
End GrowFlush.
Lemma append_grow p dir over s dir' s' : append_indirect store put max_size p dir over s = Ok (dir', s') -> grow (snd s) (snd s').
Proof.
  assert (F : forall ov pre cl ps s ids s', fill_assets put max_size p ov pre cl ps s = Ok (ids, s') -> grow (snd s) (snd s')).
  { clear - Hput. induction ov as [|a ov IH]; intros pre cl ps s ids s' H; cbn [fill_assets] in H.
    - apply bind_ok in H. destruct H as ([id s1] & W & H). inversion H; subst. unfold write_back, write_list in W. destruct (put cl) eqn:P; [|discriminate]. inversion W; subst. cbn. eapply grow_write; exact P.
    - destruct (_ && _ && _); [|now apply IH in H]. apply bind_ok in H. destruct H as ([id s1] & W & H). apply IH in H. eapply grow_trans; [|exact H].
      unfold write_back, write_list in W. destruct (put cl) eqn:P; [|discriminate]. inversion W; subst. cbn. eapply grow_write; exact P. }
  unfold append_indirect. destruct over; [intros H; inversion H; subst; apply grow_refl|]. destruct (a_ind dir).
  - intros H. apply bind_ok in H. destruct H as ([ids s1] & G & H). inversion H; subst. now apply F in G.
  - destruct (get_list store (last (c :: l) []) (fst s)) as [[l'|] L1]; [|discriminate]. intros H. apply bind_ok in H. destruct H as ([ids s1] & G & H). inversion H; subst. now apply F in G.
Qed.
Lemma flush_dir_grow fuel : forall p dir (s : fstate) dir' s', flush_dir fuel p dir s = Ok (dir', s') -> grow (snd s) (snd s').
Proof.
  induction fuel as [|fuel IH]; intros p dir s dir' s' H; [discriminate|]. cbn [ModelManifest.flush_dir] in H.
  apply bind_ok in H. destruct H as ([ds s1] & F1 & H). apply bind_ok in H. destruct H as ([[ids over] s2] & F2 & H). apply bind_ok in H. destruct H as ([[dir1 over1] s3] & F3 & H).
  apply (flush_assets_grow _ IH) in F1. apply (flush_lists_grow _ IH) in F2. apply enforce_dir_log in F3. apply append_grow in H.
  eapply grow_trans; [exact F1|]. eapply grow_trans; [exact F2|]. eapply grow_trans; [apply grow_sub; apply F3|exact H].
Qed.

(** Related children give related views. *)
Lemma R_dir dir dir' pool : a_type dir = TDir -> NoDup (map a_name (children L0 dir)) -> a_name dir' = a_name dir -> a_info dir' = a_info dir ->
  Forall2 R (children L0 dir) pool -> Permutation pool (children LE dir') -> R dir dir'.
Proof.
  intros T ND En Ei F P. split; [exact En|]. intros [|n q]; [cbn; rewrite Ei; apply sinfo_refl|].
  assert (T' : a_type dir' = TDir) by (unfold a_type in *; now rewrite Ei). rewrite !view_cons by assumption.
  assert (NP : NoDup (map a_name pool)) by (rewrite (R_names _ _ F); exact ND).
  rewrite (find_perm n pool _ NP P). clear ND NP P. induction F as [|c c' l l' Rc F IH]; [exact I|]. cbn [find]. unfold named at 1 3. destruct Rc as (Rn & Rv). rewrite Rn.
  destruct (name_eqb (a_name c) n); [apply Rv|exact IH].
Qed.

Lemma flush_dir_ok fuel : flush_ok (flush_dir fuel).
Proof.
  induction fuel as [|fuel IH]; intros p dir s dir' s' Od Td Ag H W; [discriminate|]. cbn [ModelManifest.flush_dir] in H.
  apply bind_ok in H. destruct H as ([ds s1] & F1 & H). apply bind_ok in H. destruct H as ([[ids over] s2] & F2 & H). apply bind_ok in H. destruct H as ([[dir1 over1] s3] & F3 & H).
  pose proof (flush_dir_mono fuel) as Mo. pose proof (dok p dir Od Td) as Dk.
  pose proof (flush_lists_mono _ Mo _ _ _ _ _ _ _ F2) as I2. pose proof (append_mono _ _ _ _ _ _ H) as I4. assert (W3 : wgood (snd s3)) by (eapply wgood_incl; eassumption). apply enforce_dir_spec in F3; [|apply W3].
  destruct F3 as (En & Ei & Eids & El & I3 & J3 & ds' & Fd & Pd). cbn [a_name a_info a_ind a_dirs] in *.
  assert (W2 : wgood (snd s2)) by (eapply wgood_incl; eassumption). assert (W1 : wgood (snd s1)) by (eapply wgood_incl; eassumption).
  pose proof (ok_names _ _ _ _ _ Dk) as NN. unfold SpecManifest.children in NN. rewrite map_app in NN.
  assert (InC : forall c, In c (children L0 dir) -> agree0 (p ++ [a_name c]) (fst s)).
  { intros c _ x (q & B). apply Ag. exists ([a_name c] ++ q). now rewrite app_assoc. }
  apply (flush_assets_spec _ Mo IH) in F1; [|now apply NoDup_app_l in NN| | |exact W1].
  2: { apply Forall_forall. intros c Ic. eapply ok_child; [exact Od|exact Td|]. apply in_or_app. now left. }
  2: { intros c Ic. apply InC. apply in_or_app. now left. }
  destruct F1 as (K1 & R1 & T1).
  apply (flush_lists_spec _ Mo IH p dir Od Td) in F2; [|apply incl_refl|apply Dk|now apply NoDup_app_r in NN| | |exact W2].
  2: { intros x Ix. rewrite <- (Ag x); [|exists []; rewrite app_nil_r; now apply (own0 p dir Od Td)].
       apply (keeps_own _ _ _ _ p K1); [now apply (own0_not_below p dir Od Td)|now apply (own0 p dir Od Td)]. }
  2: { intros c Ic x (q & B). rewrite <- (Ag x); [|exists ([a_name c] ++ q); now rewrite app_assoc]. apply (keeps_own _ _ _ _ _ K1) with (2 := B).
       intros (d & Id & q2 & B2). pose proof (own_fun _ _ _ B B2) as X. apply app_cons_path in X.
       eapply NoDup_app_disj in NN; [exact NN|apply in_map; exact Id|]. rewrite <- X. now apply in_map. }
  destruct F2 as (K2 & (pool & Fp & Pp & Tp) & Em & Em2 & Nd). cbn [app] in Pp.
  apply append_spec in H; [|rewrite El, Eids; apply Forall_forall; intros x Ix; now apply Em]. rewrite Eids, El in H.
  destruct H as (En4 & Ei4 & Ed4 & _ & K4 & P4 & Em4 & Nd4).
  (* the children *)
  assert (Perm : Permutation (ds' ++ pool) (children LE dir')).
  { unfold SpecManifest.children. rewrite Ed4. change (flat_map (listed LE) (a_ind dir')) with (flat_map stored (a_ind dir')). rewrite <- P4, app_assoc, <- Pd, <- app_assoc.
    apply Permutation_app_head. exact Pp. }
  assert (Rds : Forall2 R (a_dirs dir) ds').
  { clear - R1 Fd. revert ds' Fd. induction R1 as [|c c' l l' Rc R1 IHr]; intros ds' Fd; inversion Fd; subst; constructor; [eapply R_Rf; eassumption|now apply IHr]. }
  assert (Rall : Forall2 R (children L0 dir) (ds' ++ pool)) by (now apply Forall2_app).
  assert (RD : R dir dir') by (eapply R_dir; [exact Td|apply Dk|congruence|congruence|exact Rall|exact Perm]).
  (* what happened to the lists *)
  assert (Klast : forall x, fst s' x = fst s2 x \/ clean (fst s') x /\ forall q, own x q -> q = p).
  { intros x. destruct (K4 x) as [E|(E & F)]; [now left|right]. split; [exact E|]. intros q O. destruct F as [F|F]; [|now apply (proj1 W _ _ F)].
    destruct (Em2 x F) as [G|G]; [apply (own_fun x); [exact O|now apply (own0 p dir Od Td)]|now apply (proj1 W2 _ _ G)]. }
  assert (Kall : keeps (below p) (fst s) (fst s')).
  { intros x Nb. assert (Nb1 : forall l, ~ below_any p l x) by (intros l (c & _ & q & B); apply Nb; exists ([a_name c] ++ q); now rewrite app_assoc).
    assert (Ni : ~ In x (a_ind dir)) by (intros X; apply Nb; exists []; rewrite app_nil_r; now apply (own0 p dir Od Td)).
    assert (Un : (forall q, own x q -> q = p) -> forall q, ~ own x q) by (intros U q O; pose proof (U q O); subst q; apply Nb; exists []; now rewrite app_nil_r).
    destruct (Klast x) as [E|(E & F)]; [|right; split; [exact E|now apply Un]].
    destruct (K2 x Ni (Nb1 _)) as [E2|(E2 & F2)]; [|right; split; [now apply (clean_eq (fst s2))|now apply Un]].
    destruct (K1 x (Nb1 _)) as [E1|(E1 & F1)]; [left; congruence|right; split; [apply (clean_eq (fst s1)); [congruence|exact E1]|exact F1]]. }
  assert (Tds : trees p ds' (fst s') (snd s')).
  { assert (T0 : trees p ds (fst s') (snd s')).
    { unfold trees in *. rewrite Forall_forall in *. intros c Ic. apply (tree_keep (fun x => In x (a_ind dir) \/ below_any p (flat_map (listed L0) (a_ind dir)) x) _ _ _ _ _ _ (T1 c Ic)).
      - eapply incl_tran; [exact I2|]. eapply incl_tran; eassumption.
      - intros x Nx C. assert (C2 : clean (fst s2) x) by (destruct (K2 x) as [E|(E & _)]; [tauto|tauto|now apply (clean_eq (fst s1))|exact E]).
        destruct (Klast x) as [E|(E & _)]; [now apply (clean_eq (fst s2))|exact E].
      - intros q x X Y. assert (O : forall z, own x z -> z = (p ++ [a_name c]) ++ q).
        { intros z Oz. destruct X as [X|X]; [now apply (own_fun x)|]. now apply (proj1 W1 _ _ X). }
        destruct Y as [Y|(d & Id & q2 & Y)].
        + pose proof (O p (own0 p dir Od Td x Y)) as E. now apply path_longer in E.
        + apply O in Y. apply app_cons_path in Y. eapply NoDup_app_disj in NN; [exact NN| |apply in_map; exact Id]. rewrite Y, <- (R_names _ _ R1). now apply in_map. }
    clear - T0 Fd. unfold trees in *. induction Fd as [|a a' l l' Ra Fd IHf]; [constructor|]. inversion T0; subst. constructor; [eapply tree_Rf; eassumption|auto]. }
  assert (Tpool : trees p pool (fst s') (snd s')).
  { unfold trees in *. rewrite Forall_forall in *. intros c Ic. apply (tree_keep (fun _ => False) _ _ _ _ _ _ (Tp c Ic)).
    - eapply incl_tran; eassumption.
    - intros x _ C. destruct (Klast x) as [E|(E & _)]; [now apply (clean_eq (fst s2))|exact E].
    - tauto. }
  assert (NC : NoDup (map a_name (children LE dir'))).
  { eapply Permutation_NoDup; [apply Permutation_map; exact Perm|]. rewrite (R_names _ _ Rall). apply Dk. }
  split; [exact Kall|]. split; [exact RD|].
  intros [|n r] d Nd' Td'.
  - inversion Nd'; subst d. split; [exact NC|]. split.
    + apply Nd4; [exact Nd|]. unfold SpecManifest.children in NC. rewrite map_app in NC. now apply NoDup_app_r in NC.
    + intros x Ix. rewrite app_nil_r. destruct (Em4 x Ix) as (C & X). split; [|exact C]. destruct X as [X|X]; [|now right].
      destruct (Em2 x X) as [G|G]; [left; now apply (own0 p dir Od Td)|right; apply I4, I3; exact G].
  - rewrite node_cons in Nd'. destruct (type_eqb (a_type dir') TDir); [|discriminate]. destruct (find (named n) (children LE dir')) as [c|] eqn:Fc; [|discriminate].
    apply find_named in Fc. destruct Fc as (Ic & <-). apply (Permutation_in _ (Permutation_sym Perm)) in Ic.
    assert (Tc : tree (p ++ [a_name c]) c (fst s') (snd s')).
    { unfold trees in *. rewrite Forall_forall in *. apply in_app_or in Ic. destruct Ic; [now apply Tds|now apply Tpool]. }
    destruct (Tc r d Nd' Td') as (A & B & C). split; [exact A|]. split; [exact B|]. intros x Ix. specialize (C x Ix). now rewrite <- app_assoc in C.
Qed.
End FlushProofs.
