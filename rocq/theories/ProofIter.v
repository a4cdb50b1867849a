(** Proofs for C59. *)
From Verif Require Import Base ListX ModelChunkMap ModelManifest SpecIter ModelIter.
From Verif Require ModelPath.
From Coq Require Import Lia.
Local Notation str := (list N).

(** ** Paths *)
Definition relof (ds : list od) : str := fold_left (fun acc e => ModelPath.append acc (a_name (o_dir e))) (rev ds) [].
Lemma relof_cons d ds : relof (d :: ds) = ModelPath.append (relof ds) (a_name (o_dir d)).
Proof. unfold relof. cbn [rev]. now rewrite fold_left_app. Qed.
Lemma text_snoc p n : p <> [] -> text (p ++ [n]) = text p ++ 47%N :: n.
Proof. intros H. destruct p as [|x p]; [congruence|]. cbn [app text]. now rewrite fold_left_app. Qed.
Lemma text_last p : Forall proper_name p -> p <> [] -> exists s c, text p = s ++ [c] /\ c <> 47%N /\ c <> 92%N.
Proof.
  intros F Ne. destruct (exists_last Ne) as (q & n & ->). apply Forall_app in F. destruct F as (_ & F). inversion F as [|? ? (N0 & N1 & N2) _]; subst.
  destruct (exists_last N0) as (w & c & ->). assert (c <> 47%N /\ c <> 92%N) as (A & B) by (split; intros ->; [apply N1|apply N2]; apply in_app_iff; right; now left).
  destruct q as [|y q]; [exists w, c; auto|]. rewrite text_snoc by discriminate. exists (text (y :: q) ++ 47%N :: w), c. rewrite <- app_assoc. auto.
Qed.
Lemma text_append p n : Forall proper_name p -> proper_name n -> ModelPath.append (text p) n = text (p ++ [n]).
Proof.
  intros F (N0 & _ & _). destruct n as [|c n]; [congruence|]. destruct p as [|x p]; [reflexivity|].
  destruct (text_last (x :: p) F) as (s & z & E & Nz1 & Nz2); [discriminate|]. rewrite text_snoc by discriminate. unfold ModelPath.append.
  assert (Ns : ModelPath.needs_sep (text (x :: p)) = true).
  { unfold ModelPath.needs_sep, ModelPath.last_char. rewrite E, rev_app_distr. cbn. unfold ModelPath.is_sep, ModelPath.slash, ModelPath.backslash. apply N.eqb_neq in Nz1. apply N.eqb_neq in Nz2. rewrite ?Nz1, ?Nz2. reflexivity. }
  rewrite Ns, <- app_assoc. reflexivity.
Qed.
Definition loc (ds : list od) (p : list str) : Prop := Forall proper_name p /\ relof ds = text p.

Section Iter.
Variables (store : cid -> option (list asset)) (alloc : nat -> list N -> N).
Hypothesis fresh : forall k live, ~ In (alloc k live) live.
Notation iter := (iter store alloc).
Notation push := (push alloc).
Notation mutable_asset := (mutable_asset alloc).

Inductive isteps : nat -> st -> list (str * asset) -> st -> Prop :=
| I0 s : isteps 0 s [] s
| IY n s a s2 es s3 : iter s = RYield a s2 -> isteps n s2 es s3 -> isteps (S n) s ((s_rel s2, a) :: es) s3
| IC n s s2 es s3 : iter s = RCont s2 -> isteps n s2 es s3 -> isteps (S n) s es s3
| IS s s2 : iter s = RStop s2 -> isteps 1 s [] s2.
Lemma isteps_app n s es s2 : isteps n s es s2 -> s_ok s2 = true -> s_dirs s2 <> [] -> forall m es2 s3, isteps m s2 es2 s3 -> isteps (n + m) s (es ++ es2) s3.
Proof.
  intros A. induction A as [s|n s a s2 es s3 E A IH|n s s2 es s3 E A IH|s s2 E]; intros K D m es2 s4 B; cbn.
  - exact B.
  - exact (IY _ _ _ _ _ _ E (IH K D _ _ _ B)).
  - exact (IC _ _ _ _ _ E (IH K D _ _ _ B)).
  - exfalso. unfold ModelIter.iter in E. destruct (s_dirs s) as [|d r] eqn:Ed; [inversion E; subst; congruence|]. destruct (s_ok s) eqn:Eo; [|inversion E; subst; congruence].
    destruct (nth_error _ _); [discriminate|]. destruct (match o_list d with Some l => _ | None => None end); [discriminate|]. destruct (nth_error _ _) as [id|]; [|discriminate]. destruct (store id); [discriminate|]. inversion E; subst. discriminate K.
Qed.

Definition wf (s : st) : Prop := s_ok s = true /\ NoDup (map o_addr (s_dirs s)) /\
  forall d r, s_dirs s = d :: r -> s_last s = Some (o_addr d) -> s_rel s = relof (s_dirs s).
Lemma update_rel_ok s d r : s_dirs s = d :: r -> wf s ->
  s_dirs (update_rel d s) = d :: r /\ s_last (update_rel d s) = Some (o_addr d) /\ s_rel (update_rel d s) = relof (d :: r) /\ s_ok (update_rel d s) = true.
Proof.
  intros E (K & _ & J). unfold update_rel. destruct (s_last s) as [x|] eqn:L.
  - destruct (N.eqb_spec x (o_addr d)) as [-> |Ne].
    + split; [exact E|]. split; [exact L|]. split; [rewrite (J d r E eq_refl); now rewrite E|exact K].
    + cbn. split; [exact E|]. split; [reflexivity|]. split; [unfold relof; now rewrite E|exact K].
  - cbn. split; [exact E|]. split; [reflexivity|]. split; [unfold relof; now rewrite E|exact K].
Qed.
(** A frame with the same directory and address in the place of the top one. *)
Lemma top_wf s d r d2 : s_dirs s = d :: r -> wf s -> o_addr d2 = o_addr d -> o_dir d2 = o_dir d ->
  let s2 := set_top d2 (update_rel d s) in s_dirs s2 = d2 :: r /\ wf s2 /\ s_rel s2 = relof (d :: r) /\ s_last s2 = Some (o_addr d) /\ relof (d2 :: r) = relof (d :: r).
Proof.
  intros E W Ea Ed. destruct (update_rel_ok _ _ _ E W) as (A & B & C & D). cbn zeta. unfold set_top. rewrite A. cbn. assert (Er : relof (d2 :: r) = relof (d :: r)) by (now rewrite !relof_cons, Ed).
  split; [reflexivity|]. split; [|auto]. destruct W as (_ & Nd & _). rewrite E in Nd. split; [exact D|]. cbn. rewrite Ea. split; [exact Nd|]. intros d3 r3 E3 _. inversion E3; subst. exact (eq_trans C (eq_sym Er)).
Qed.
Lemma push_wf s d r a : s_dirs s = d :: r -> wf s -> s_last s = Some (o_addr d) ->
  exists e, s_dirs (push a s) = e :: d :: r /\ o_dir e = a /\ o_list e = None /\ o_next e = 0%nat /\ o_next_list e = 0%nat /\ wf (push a s) /\ s_rel (push a s) = s_rel s.
Proof.
  intros E (K & Nd & J) L. unfold push. rewrite E. eexists. cbn. do 5 (split; [reflexivity|]). split; [|reflexivity].
  assert (F : ~ In (alloc (s_tick s) (o_addr d :: map o_addr r)) (o_addr d :: map o_addr r)) by apply fresh.
  split; [exact K|]. cbn. split.
  - rewrite E in Nd. constructor; [exact F|exact Nd].
  - intros d3 r3 E3 H. inversion E3; subst. exfalso. apply F. cbn in H. rewrite L in H. inversion H. now left.
Qed.

Inductive mode := Direct | InList.
Definition view (m : mode) (d : od) (items : list asset) : Prop :=
  match m with
  | Direct => skipn (o_next d) (a_dirs (o_dir d)) = items
  | InList => nth_error (a_dirs (o_dir d)) (o_next d) = None /\ exists l, o_list d = Some l /\ skipn (o_next_item d) l = items
  end.
Definition adv (m : mode) (k : nat) (d : od) : od :=
  match m with
  | Direct => mkod (o_addr d) (o_dir d) (o_list d) (k + o_next d) (o_next_list d) (o_next_item d)
  | InList => mkod (o_addr d) (o_dir d) (o_list d) (o_next d) (o_next_list d) (k + o_next_item d)
  end.
Lemma skipn_nth {A} (l : list A) n x r : skipn n l = x :: r -> nth_error l n = Some x /\ skipn (S n) l = r.
Proof. revert l. induction n as [|n IH]; intros [|y l] H; cbn in *; try discriminate; [inversion H; subst; auto|]. apply IH. exact H. Qed.
Lemma skipn_nil_nth {A} (l : list A) n : skipn n l = [] -> nth_error l n = None.
Proof. intros H. apply nth_error_None. assert (X : length (skipn n l) = 0%nat) by now rewrite H. rewrite skipn_length in X. lia. Qed.
Lemma adv_adv m j k d : adv m j (adv m k d) = adv m (j + k) d.
Proof. destruct m; cbn; now rewrite Nat.add_assoc. Qed.
Lemma adv_0 m d : adv m 0 d = d.
Proof. destruct m, d; reflexivity. Qed.
Lemma adv_addr m k d : o_addr (adv m k d) = o_addr d. Proof. now destruct m. Qed.
Lemma adv_dir m k d : o_dir (adv m k d) = o_dir d. Proof. now destruct m. Qed.
Lemma view_adv m d x r : view m d (x :: r) -> view m (adv m 1 d) r.
Proof.
  destruct m; cbn [view adv o_next o_dir o_list o_next_item]; [intros H; exact (proj2 (skipn_nth _ _ _ _ H))|].
  intros (A & l & E & H). split; [exact A|]. exists l. split; [exact E|exact (proj2 (skipn_nth _ _ _ _ H))].
Qed.
(** The next pass returns the first item. *)
Lemma iter_item m s d r x items : s_dirs s = d :: r -> wf s -> view m d (x :: items) -> iter s = RYield x (mutable_asset x (set_top (adv m 1 d) (update_rel d s))).
Proof.
  intros E W V. unfold ModelIter.iter. rewrite E. pose proof W as (K & _). rewrite K. destruct m; cbn [view] in V.
  - rewrite (proj1 (skipn_nth _ _ _ _ V)). reflexivity.
  - destruct V as (A & l & El & H). rewrite A, El, (proj1 (skipn_nth _ _ _ _ H)). cbn [adv]. rewrite El. reflexivity.
Qed.

Definition emit (es : list (list str * asset)) : list (str * asset) := map (fun e => (text (fst e), snd e)) es.
Lemma emit_app a b : emit (a ++ b) = emit a ++ emit b. Proof. apply map_app. Qed.
Definition okn (es : list (list str * asset)) : Prop := forall q a, In (q, a) es -> a_type a = TDir -> proper_name (a_name a).
Definition failed (s : st) (es : list (list str * asset)) : Prop := exists n s2, isteps n s (emit es) s2 /\ s_ok s2 = false.

Definition P_items (p : list str) (items : list asset) (es : list (list str * asset)) (okk : bool) : Prop :=
  okn es -> forall m s d r, s_dirs s = d :: r -> wf s -> loc (d :: r) p -> view m d items ->
  if okk then exists n s2, isteps n s (emit es) s2 /\ s_dirs s2 = adv m (length items) d :: r /\ wf s2 else failed s es.
Definition P_lists (p : list str) (ids : list cid) (es : list (list str * asset)) (okk : bool) : Prop :=
  okn es -> forall s d r, s_dirs s = d :: r -> wf s -> loc (d :: r) p -> nth_error (a_dirs (o_dir d)) (o_next d) = None ->
  (match o_list d with Some l => nth_error l (o_next_item d) | None => None end) = None -> skipn (o_next_list d) (a_ind (o_dir d)) = ids ->
  if okk then exists n s2, isteps n s (emit es) s2 /\ s_dirs s2 = r /\ wf s2 else failed s es.
Definition P_dir (p : list str) (a : asset) (es : list (list str * asset)) (okk : bool) : Prop :=
  okn es -> forall s d r, s_dirs s = d :: r -> wf s -> loc (d :: r) p -> o_dir d = a -> o_list d = None -> o_next d = 0%nat -> o_next_list d = 0%nat ->
  if okk then exists n s2, isteps n s (emit es) s2 /\ s_dirs s2 = r /\ wf s2 else failed s es.

Scheme wi_ind := Induction for walk_items Sort Prop with wl_ind := Induction for walk_lists Sort Prop with wd_ind := Induction for walk_dir Sort Prop.
Combined Scheme walk_mut from wi_ind, wl_ind, wd_ind.

Lemma okn_app a b : okn (a ++ b) -> okn a /\ okn b.
Proof. intros H. split; intros q x HI; apply (H q x), in_app_iff; auto. Qed.
Lemma okn_cons e b : okn (e :: b) -> okn b.
Proof. intros H q x HI. apply (H q x). now right. Qed.
Lemma type_eqb_dir a : type_eqb (a_type a) TDir = true <-> a_type a = TDir.
Proof. destruct (a_type a); cbn; split; congruence. Qed.
Lemma loc_adv m k d r p : loc (d :: r) p -> loc (adv m k d :: r) p.
Proof. intros (F & E). split; [exact F|]. rewrite relof_cons, adv_dir, <- relof_cons. exact E. Qed.
(** A directory item: it is returned and pushed. *)
Lemma item_dir m s d r x items p : s_dirs s = d :: r -> wf s -> loc (d :: r) p -> view m d (x :: items) -> a_type x = TDir -> proper_name (a_name x) ->
  exists s2 e, iter s = RYield x s2 /\ s_rel s2 = text p /\ s_dirs s2 = e :: adv m 1 d :: r /\ wf s2 /\ loc (e :: adv m 1 d :: r) (p ++ [a_name x]) /\ o_dir e = x /\ o_list e = None /\ o_next e = 0%nat /\ o_next_list e = 0%nat.
Proof.
  intros E W L V T Pn. pose proof (iter_item m s d r x items E W V) as It. destruct (top_wf s d r (adv m 1 d) E W (adv_addr _ _ _) (adv_dir _ _ _)) as (A & B & C & D & Er).
  unfold ModelIter.mutable_asset in It. rewrite (proj2 (type_eqb_dir x) T) in It. rewrite <- (adv_addr m 1 d) in D. destruct (push_wf _ _ _ x A B D) as (e & F1 & F2 & F3 & F4 & F5 & F6 & F7).
  exists (push x (set_top (adv m 1 d) (update_rel d s))), e. split; [exact It|]. destruct L as (Lp & Lr). split; [rewrite F7, C; exact Lr|]. split; [exact F1|]. split; [exact F6|]. split; [|auto].
  split; [apply Forall_app; split; [exact Lp|constructor; [exact Pn|constructor]]|]. rewrite relof_cons, Er, Lr, F2. now apply text_append.
Qed.

Lemma walk_runs : (forall p items es okk, walk_items store p items es okk -> P_items p items es okk) /\
  (forall p ids es okk, walk_lists store p ids es okk -> P_lists p ids es okk) /\
  (forall p a es okk, walk_dir store p a es okk -> P_dir p a es okk).
Proof.
  apply (walk_mut store (fun p items es okk _ => P_items p items es okk) (fun p ids es okk _ => P_lists p ids es okk) (fun p a es okk _ => P_dir p a es okk)).
  - intros p _ m s d r E W _ V. exists 0%nat, s. split; [constructor|]. cbn [length]. rewrite adv_0. auto.
  - intros p a l es ok T _ IH O m s d r E W L V. pose proof (iter_item m s d r a l E W V) as It. unfold ModelIter.mutable_asset in It. destruct (type_eqb (a_type a) TDir) eqn:X; [apply type_eqb_dir in X; congruence|].
    destruct (top_wf s d r (adv m 1 d) E W (adv_addr _ _ _) (adv_dir _ _ _)) as (A & B & C & D & Er). specialize (IH (okn_cons _ _ O) m _ _ _ A B (loc_adv m 1 _ _ _ L) (view_adv _ _ _ _ V)).
    assert (Rl : s_rel (set_top (adv m 1 d) (update_rel d s)) = text p) by (rewrite C; apply L). destruct ok.
    + destruct IH as (n & s2 & St & Ed & W2). exists (S n), s2. split; [cbn [emit map fst snd]; rewrite <- Rl; exact (IY _ _ _ _ _ _ It St)|]. split; [|exact W2]. rewrite Ed, adv_adv. cbn [length]. now rewrite Nat.add_1_r.
    + destruct IH as (n & s2 & St & F). exists (S n), s2. split; [cbn [emit map fst snd]; rewrite <- Rl; exact (IY _ _ _ _ _ _ It St)|exact F].
  - intros p a l es1 es2 ok T _ IH1 _ IH2 O m s d r E W L V. pose proof (okn_cons _ _ O) as O2. apply okn_app in O2. destruct O2 as (Oa & Ob). assert (Pn : proper_name (a_name a)) by (apply (O p a); [now left|exact T]).
    destruct (item_dir m s d r a l p E W L V T Pn) as (s2 & e & It & Rl & Ed & W2 & L2 & F2 & F3 & F4 & F5). destruct (IH1 Oa s2 e _ Ed W2 L2 F2 F3 F4 F5) as (n1 & s3 & St1 & Ed3 & W3).
    specialize (IH2 Ob m s3 _ _ Ed3 W3 (loc_adv m 1 _ _ _ L) (view_adv _ _ _ _ V)). assert (Ok3 : s_ok s3 = true) by apply W3. assert (Nn : s_dirs s3 <> []) by (rewrite Ed3; discriminate). destruct ok.
    + destruct IH2 as (n2 & s4 & St2 & Ed4 & W4). exists (S (n1 + n2)), s4. split; [cbn [emit map fst snd]; rewrite <- Rl; apply (IY _ _ _ _ _ _ It); change (map _ (es1 ++ es2)) with (emit (es1 ++ es2)); rewrite emit_app; exact (isteps_app _ _ _ _ St1 Ok3 Nn _ _ _ St2)|].
      split; [|exact W4]. rewrite Ed4, adv_adv. cbn [length]. now rewrite Nat.add_1_r.
    + destruct IH2 as (n2 & s4 & St2 & F). exists (S (n1 + n2)), s4. split; [|exact F]. cbn [emit map fst snd]; rewrite <- Rl; apply (IY _ _ _ _ _ _ It); change (map _ (es1 ++ es2)) with (emit (es1 ++ es2)); rewrite emit_app; exact (isteps_app _ _ _ _ St1 Ok3 Nn _ _ _ St2).
  - intros p a l es T _ IH O m s d r E W L V. assert (Pn : proper_name (a_name a)) by (apply (O p a); [now left|exact T]).
    destruct (item_dir m s d r a l p E W L V T Pn) as (s2 & e & It & Rl & Ed & W2 & L2 & F2 & F3 & F4 & F5). destruct (IH (okn_cons _ _ O) s2 e _ Ed W2 L2 F2 F3 F4 F5) as (n & s3 & St & F).
    exists (S n), s3. split; [cbn [emit map fst snd]; rewrite <- Rl; exact (IY _ _ _ _ _ _ It St)|exact F].
  - intros p _ s d r E W L A B C. pose proof W as (K & Nd & _). destruct (update_rel_ok _ _ _ E W) as (U1 & U2 & U3 & U4). assert (It : iter s = RCont (pop (update_rel d s))). { unfold ModelIter.iter. rewrite E, K, A, B, (skipn_nil_nth _ _ C). reflexivity. }
    exists 1%nat, (pop (update_rel d s)). split; [exact (IC _ _ _ _ _ It (I0 _))|]. unfold pop. cbn. rewrite U1. cbn. split; [reflexivity|]. rewrite E in Nd. inversion Nd as [|? ? Ni Nd2]; subst. split; [exact U4|]. cbn. split; [exact Nd2|].
    intros d2 r2 E2 H. exfalso. apply Ni. rewrite U2 in H. inversion H as [X]. rewrite E2. cbn. left. congruence.
  - intros p id l Sn _ s d r E W L A B C. pose proof W as (K & _). destruct (skipn_nth _ _ _ _ C) as (Cn & _). eexists 1%nat, _. split; [cbn; apply IS; unfold ModelIter.iter; rewrite E, K, A, B, Cn, Sn; reflexivity|reflexivity].
  - intros p id l items es Sn _ IH O s d r E W L A B C. pose proof W as (K & _). destruct (skipn_nth _ _ _ _ C) as (Cn & C2). set (d2 := mkod (o_addr d) (o_dir d) (Some items) (o_next d) (S (o_next_list d)) 0).
    assert (It : iter s = RCont (set_top d2 (update_rel d s))) by (unfold ModelIter.iter; rewrite E, K, A, B, Cn, Sn; reflexivity). destruct (top_wf s d r d2 E W eq_refl eq_refl) as (T1 & T2 & _ & _ & Er).
    assert (L2 : loc (d2 :: r) p) by (destruct L as (L1 & L2); split; [exact L1|rewrite Er; exact L2]). destruct (IH O InList _ _ _ T1 T2 L2) as (n & s3 & St & F); [split; [exact A|]; exists items; split; reflexivity|]. exists (S n), s3. split; [exact (IC _ _ _ _ _ It St)|exact F].
  - intros p id l items es1 es2 ok Sn _ IH1 _ IH2 O s d r E W L A B C. pose proof W as (K & _). destruct (skipn_nth _ _ _ _ C) as (Cn & C2). set (d2 := mkod (o_addr d) (o_dir d) (Some items) (o_next d) (S (o_next_list d)) 0).
    assert (It : iter s = RCont (set_top d2 (update_rel d s))) by (unfold ModelIter.iter; rewrite E, K, A, B, Cn, Sn; reflexivity). destruct (top_wf s d r d2 E W eq_refl eq_refl) as (T1 & T2 & _ & _ & Er).
    assert (L2 : loc (d2 :: r) p) by (destruct L as (L1 & L2); split; [exact L1|rewrite Er; exact L2]). apply okn_app in O. destruct O as (Oa & Ob). destruct (IH1 Oa InList _ _ _ T1 T2 L2) as (n1 & s3 & St1 & Ed3 & W3); [split; [exact A|]; exists items; split; reflexivity|].
    specialize (IH2 Ob s3 _ _ Ed3 W3 (loc_adv _ _ _ _ _ L2)). cbn [adv d2 o_dir o_next o_list o_next_item o_next_list] in IH2.
    assert (Nn : nth_error items (length items + 0) = None) by (apply nth_error_None; lia). specialize (IH2 A Nn C2). assert (Ok3 : s_ok s3 = true) by apply W3. assert (Ne : s_dirs s3 <> []) by (rewrite Ed3; discriminate). destruct ok.
    + destruct IH2 as (n2 & s4 & St2 & Ed4 & W4). exists (S (n1 + n2)), s4. split; [rewrite emit_app; exact (IC _ _ _ _ _ It (isteps_app _ _ _ _ St1 Ok3 Ne _ _ _ St2))|auto].
    + destruct IH2 as (n2 & s4 & St2 & F). exists (S (n1 + n2)), s4. split; [rewrite emit_app; exact (IC _ _ _ _ _ It (isteps_app _ _ _ _ St1 Ok3 Ne _ _ _ St2))|exact F].
  - intros p a es _ IH O s d r E W L F1 F2 F3 F4. subst a. apply (IH O Direct s d r E W L). cbn. now rewrite F3.
  - intros p a es1 es2 ok _ IH1 _ IH2 O s d r E W L F1 F2 F3 F4. subst a. apply okn_app in O. destruct O as (Oa & Ob). destruct (IH1 Oa Direct s d r E W L) as (n1 & s3 & St1 & Ed3 & W3); [cbn; now rewrite F3|].
    specialize (IH2 Ob s3 _ _ Ed3 W3 (loc_adv _ _ _ _ _ L)). cbn [adv o_dir o_next o_list o_next_item o_next_list] in IH2. rewrite F2, F3, F4 in IH2.
    assert (Nn : nth_error (a_dirs (o_dir d)) (length (a_dirs (o_dir d)) + 0) = None) by (apply nth_error_None; lia). specialize (IH2 Nn eq_refl eq_refl). assert (Ok3 : s_ok s3 = true) by apply W3. assert (Ne : s_dirs s3 <> []) by (rewrite Ed3; discriminate). destruct ok.
    + destruct IH2 as (n2 & s4 & St2 & Ed4 & W4). exists (n1 + n2)%nat, s4. split; [rewrite emit_app; exact (isteps_app _ _ _ _ St1 Ok3 Ne _ _ _ St2)|auto].
    + destruct IH2 as (n2 & s4 & St2 & F). exists (n1 + n2)%nat, s4. split; [rewrite emit_app; exact (isteps_app _ _ _ _ St1 Ok3 Ne _ _ _ St2)|exact F].
Qed.

(** ** Calls of NextEntry *)
Lemma next_final f s : (s_dirs s = [] \/ s_ok s = false) -> next_entry store alloc (S f) s = Ok (None, s).
Proof. intros H. cbn. unfold ModelIter.iter. destruct (s_dirs s) as [|d r]; [reflexivity|]. destruct H as [H|H]; [discriminate|]. now rewrite H. Qed.
Lemma calls_final f k s : (s_dirs s = [] \/ s_ok s = false) -> calls store alloc (S f) k s = Ok (repeat None k, s).
Proof. intros H. induction k as [|k IH]; [reflexivity|]. cbn [calls]. rewrite next_final by exact H. cbn [bind]. rewrite IH. reflexivity. Qed.
Lemma next_more f : forall g s r, next_entry store alloc f s = Ok r -> (f <= g)%nat -> next_entry store alloc g s = Ok r.
Proof. induction f as [|f IH]; intros g s r H L; [discriminate|]. destruct g as [|g]; [lia|]. cbn in *. destruct (iter s); auto. apply IH; [exact H|lia]. Qed.
Lemma isteps_calls n s es s2 : isteps n s es s2 -> (s_dirs s2 = [] \/ s_ok s2 = false) -> forall f k, (n < f)%nat -> calls store alloc f (length es + S k) s = Ok (map Some es ++ repeat None (S k), s2).
Proof.
  intros A Fi. induction A as [s|n s a s2 es s3 E A IH|n s s2 es s3 E A IH|s s2 E]; intros f k L; (destruct f as [|f]; [lia|]).
  - cbn [length Nat.add map app]. now apply calls_final.
  - cbn [length Nat.add calls next_entry]. rewrite E. cbn [bind]. rewrite (IH Fi (S f) k ltac:(lia)). reflexivity.
  - assert (G : forall j, (j <> 0)%nat -> calls store alloc (S f) j s = calls store alloc (S f) j s2).
    { intros [|j] Hj; [lia|]. cbn [calls]. cbn [next_entry]. rewrite E. specialize (IH Fi f k ltac:(lia)). assert (X : exists r, next_entry store alloc f s2 = Ok r).
      { rewrite Nat.add_succ_r in IH. cbn [calls] in IH. destruct (next_entry store alloc f s2) as [r| | |]; [eauto|discriminate..]. }
      destruct X as (r & X). rewrite X. change (match iter s2 with RYield a u1 => Ok (Some a, u1) | RCont u2 => next_entry store alloc f u2 | RStop u3 => Ok (None, u3) end) with (next_entry store alloc (S f) s2). now rewrite (next_more f (S f) s2 r X ltac:(lia)). }
    rewrite G by lia. exact (IH Fi (S f) k ltac:(lia)).
  - cbn [length Nat.add]. cbn [calls next_entry]. rewrite E. cbn [bind]. rewrite calls_final by exact Fi. reflexivity.
Qed.
Lemma opened_wf root : wf (opened alloc root).
Proof. split; [reflexivity|]. cbn. split; [constructor; [intros []|constructor]|]. discriminate. Qed.
End Iter.
