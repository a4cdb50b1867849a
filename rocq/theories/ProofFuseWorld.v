(** Histories of the mounted file system. *)
From Verif Require Import Base ListX Str ModelFuse SpecFuse ProofFuseMem ProofFuseInv ProofFuseOps ProofFusePath ProofFuseSet ProofFuseFin ProofFuseExec.
Local Open Scope N_scope.

Lemma forgotten_cons i n l j : forgotten ((i, n) :: l) j = (if i =? j then n else 0) + forgotten l j.
Proof. unfold forgotten. cbn [filter map fst snd]. destruct (i =? j); cbn; auto. Qed.
Lemma forgotten_out l j : ~ In j (map fst l) -> forgotten l j = 0.
Proof.
  induction l as [|[i n] l IH]; intros H; [reflexivity|]. rewrite forgotten_cons, IH by (intros X; apply H; now right).
  destruct (N.eqb_spec i j); [exfalso; apply H; now left|reflexivity].
Qed.
Lemma forgotten_pos l j : (forall e, In e l -> 0 < snd e) -> In j (map fst l) -> 0 < forgotten l j.
Proof.
  induction l as [|[i n] l IH]; intros P H; [contradiction|]. rewrite forgotten_cons. pose proof (P (i, n) (or_introl eq_refl)) as Pn. cbn in Pn.
  destruct H as [H|H].
  - cbn in H. subst. rewrite N.eqb_refl. lia.
  - assert (0 < forgotten l j) by (apply IH; auto; intros; apply P; now right). lia.
Qed.
Lemma skipn_len {A} (a b : list A) : skipn (length a) (a ++ b) = b.
Proof. induction a; auto. Qed.

Section Store.
Variable store : cid -> option (list aproto).
Notation Inv := (Inv store).

Lemma same_root_refl st : same_root st st.
Proof. unfold same_root. repeat split. Qed.
Lemma forget_ok root : forall l st, Inv st root -> (forall e, In e l -> 0 < snd e) ->
  (forall i, In i (map fst l) -> exists r, oget (st_objs st) i = Some r /\ forgotten l i <= i_nlookup r) ->
  exists st', do_forget st l = Ok (RNone, st') /\ Inv st' root /\ same_root st st' /\
    (forall j r', oget (st_objs st') j = Some r' -> exists s, oget (st_objs st) j = Some s /\
       i_asset r' = i_asset s /\ i_state r' = i_state s /\ i_nlookup r' = i_nlookup s - forgotten l j) /\
    (forall j s, oget (st_objs st) j = Some s -> 0 < i_nlookup s - forgotten l j -> exists r', oget (st_objs st') j = Some r').
Proof.
  induction l as [|[i n] l IH]; intros st I P H; cbn [do_forget].
  - exists st. split; auto. split; auto. split; [apply same_root_refl|]. split.
    + intros j r' O. exists r'. split; auto. split; auto. split; auto. unfold forgotten. cbn. lia.
    + eauto.
  - destruct (H i (or_introl eq_refl)) as (r & O & Le). rewrite forgotten_cons, N.eqb_refl in Le.
    pose proof (P (i, n) (or_introl eq_refl)) as Pn. cbn in Pn.
    destruct (forget_one_ok store st root i n r I O) as (st1 & E & I1 & S1 & B1 & K1); [lia|]. rewrite E. cbn [bind].
    assert (P' : forall e, In e l -> 0 < snd e) by (intros; apply P; now right).
    destruct (IH st1 I1 P') as (st' & E' & I' & S' & B' & K').
    { intros j Hj. destruct (H j (or_intror Hj)) as (s & Os & Ls). rewrite forgotten_cons in Ls. pose proof (forgotten_pos l j P' Hj) as Pj.
      destruct (K1 j s Os) as [r' Or']. { destruct (N.eqb_spec j i), (N.eqb_spec i j); try congruence; lia. }
      exists r'. split; auto. destruct (B1 j r' Or') as (s' & Os' & _ & _ & N'). rewrite Os in Os'. inversion Os'; subst s'. rewrite N'.
      destruct (N.eqb_spec j i), (N.eqb_spec i j); try congruence; lia. }
    exists st'. split; auto. split; auto. split.
    { unfold same_root in *. destruct S1 as (a1 & a2 & a3 & a4 & a5 & a6), S' as (b1 & b2 & b3 & b4 & b5 & b6). repeat split; congruence. }
    split.
    + intros j r' O'. destruct (B' j r' O') as (s1 & O1 & A1 & St1 & N1). destruct (B1 j s1 O1) as (s & Os & A0 & St0 & N0).
      exists s. split; auto. split; [congruence|]. split; [congruence|]. rewrite N1, N0, forgotten_cons.
      destruct (N.eqb_spec j i), (N.eqb_spec i j); try congruence; lia.
    + intros j s Os Hp. rewrite forgotten_cons in Hp. destruct (K1 j s Os) as [s1 O1].
      { destruct (N.eqb_spec j i), (N.eqb_spec i j); try congruence; lia. }
      destruct (B1 j s1 O1) as (s0 & Os0 & _ & _ & N0). rewrite Os in Os0. inversion Os0; subst s0.
      apply (K' j s1 O1). rewrite N0. destruct (N.eqb_spec j i), (N.eqb_spec i j); try congruence; lia.
Qed.

(** What the kernel knows. *)
Record KI (full_ : Prop) (st : state) (root : aproto) (k : counts) (paths : ino -> option (list bytes)) (changed : ino -> Prop) : Prop := {
  ki_inv : Inv st root;
  ki_obj : forall i, 0 < k i -> exists r, oget (st_objs st) i = Some r /\ k i <= i_nlookup r;
  ki_path : forall i r, knows k i -> get_inode st i = Ok r -> is_valid r = true -> exists p, paths i = Some p /\ at_path st i p;
  ki_full : full_ -> forall i r p, knows k i -> paths i = Some p -> get_inode st i = Ok r -> is_valid r = true;
  ki_changed : forall i, changed i -> 0 < k i /\ exists r, oget (st_objs st) i = Some r /\ (i_state r = SUpdated \/ i_state r = SInvalid)
}.

Lemma ki_live full_ st root k paths changed i : KI full_ st root k paths changed -> knows k i -> exists r, live st i r.
Proof.
  intros K [->|H].
  - exists (st_root st). split; [reflexivity|congruence].
  - destruct (ki_obj _ _ _ _ _ _ K i H) as (r & O & Le). exists r. destruct (obj_inode st i r (proj1 (ki_inv _ _ _ _ _ _ K)) O) as [G Hi].
    split; auto. intros _. unfold livb. apply N.ltb_lt. lia.
Qed.

Definition paths_after (paths : ino -> option (list bytes)) (o : op) (rep : reply) : ino -> option (list bytes) :=
  match o, rep with
  | OLookup q n, REntry i _ => fun j => if j =? i then match paths q with Some p => Some (p ++ [n]) | None => None end else paths j
  | _, _ => paths
  end.
Definition changed_after (changed : ino -> Prop) (o : op) (rep : reply) : ino -> Prop :=
  match o, rep with OOpen i _, ROpen _ _ => fun j => j <> i /\ changed j | _, _ => changed end.

Lemma changed_after_open changed o rep i flags k d j : o = OOpen i flags -> rep = ROpen k d -> changed_after changed o rep j -> j <> i /\ changed j.
Proof. intros -> ->. auto. Qed.
Lemma changed_after_imp changed o rep j : changed_after changed o rep j -> changed j.
Proof. unfold changed_after. destruct o; auto. destruct rep; auto. tauto. Qed.

Lemma ran_ki fetch full_ st st' root k paths changed i r o rep :
  KI full_ st root k paths changed -> knows k i -> live st i r -> ran store fetch st st' root i r o rep ->
  KI full_ st' root (learned k rep) (paths_after paths o rep) (changed_after changed o rep).
Proof.
  intros K Kn [G L] R. pose proof (ki_inv _ _ _ _ _ _ K) as I. pose proof I as [T M]. pose proof (x_inv _ _ _ _ _ _ _ _ _ R) as I'. pose proof I' as [T' M'].
  pose proof (x_evolves _ _ _ _ _ _ _ _ _ R) as Ev.
  assert (AE : forall j p, at_path st j p -> at_path st' j p) by (intros j p X; exact (at_path_evolves st st' j p (m_fresh _ _ _ M) T T' Ev X)).
  assert (Obj : forall j, 0 < k j -> exists r r', oget (st_objs st) j = Some r /\ oget (st_objs st') j = Some r' /\ k j <= i_nlookup r /\ i_nlookup r <= i_nlookup r' /\ get_inode st j = Ok r /\ get_inode st' j = Ok r').
  { intros j Hj. destruct (ki_obj _ _ _ _ _ _ K j Hj) as (s & O & Le). destruct (obj_inode st j s T O) as [Gs Hs].
    destruct (ev_inode _ _ Ev j s Gs) as (s' & Gs' & _ & _ & _ & Ln). exists s, s'. split; auto. split; [now apply inode_obj|]. auto. }
  assert (Old : forall j s', knows k j -> get_inode st' j = Ok s' -> exists s, get_inode st j = Ok s /\ is_valid s' = is_valid s).
  { intros j s' Kj G'. destruct (ki_live _ _ _ _ _ _ j K Kj) as (s & Gs & _). destruct (ev_inode _ _ Ev j s Gs) as (x & Gx & _ & _ & Vx & _).
    rewrite G' in Gx. inversion Gx; subst x. eauto. }
  assert (StU : forall j s, changed_after changed o rep j -> get_inode st j = Ok s -> (i_state s = SUpdated \/ i_state s = SInvalid) -> exists s', get_inode st' j = Ok s' /\ (i_state s' = SUpdated \/ i_state s' = SInvalid)).
  { intros j s C Gs Ss. destruct (x_states _ _ _ _ _ _ _ _ _ R) as [X|(flags & d & Eo & Er & X)].
    - destruct (X j s Gs) as (s' & G' & S'). exists s'. split; auto. rewrite S'. exact Ss.
    - destruct (changed_after_open _ _ _ _ _ _ _ _ Eo Er C) as [Hj _]. exists s. split; auto. }
  assert (Ent : (exists j s, rep = REntry j s) \/ (learned k rep = k /\ paths_after paths o rep = paths)).
  { destruct rep; try (right; split; [reflexivity|destruct o; reflexivity]). left. eauto. }
  destruct Ent as [(j & s & Er)|[El Ep]].
  - destruct (x_entry _ _ _ _ _ _ _ _ _ R j s Er) as (n & rj & Eo & V & Hj & O & Vj & Nl & Nl' & AP).
    destruct (ki_path _ _ _ _ _ _ K i r Kn G V) as (p & Pp & Ap). specialize (AP p Ap).
    assert (EP : forall x, paths_after paths o rep x = if x =? j then Some (p ++ [n]) else paths x) by (intros x; rewrite Eo, Er; cbn; rewrite Pp; reflexivity).
    assert (EL : forall x, learned k rep x = if x =? j then k x + 1 else k x) by (intros x; rewrite Er; reflexivity).
    assert (KN : forall x, knows (learned k rep) x -> x = j \/ (x <> j /\ knows k x)).
    { intros x [->|X]; [right; split; [auto|now left]|]. rewrite EL in X. destruct (N.eqb_spec x j); [auto|right; split; auto; now right]. }
    destruct (obj_inode st' j rj T' O) as [Gj _].
    split; auto.
    + intros x Hx. rewrite EL in Hx. rewrite EL. destruct (N.eqb_spec x j) as [Hx0|Hn]; [rewrite Hx0; clear Hx0 Hx x|].
      * exists rj. split; auto. destruct (N.eq_dec (k j) 0) as [Z|Z]; [lia|]. destruct (Obj j) as (s0 & _ & O0 & _ & Le & _); [lia|]. rewrite (Nl' s0 O0). lia.
      * destruct (Obj x Hx) as (s0 & s1 & O0 & O1 & L0 & L1 & _). exists s1. split; auto. lia.
    + intros x rx Kx Gx Vx. rewrite EP. destruct (KN x Kx) as [->|[Hn Kx']].
      * rewrite N.eqb_refl. eauto.
      * destruct (N.eqb_spec x j); [contradiction|]. destruct (Old x rx Kx' Gx) as (s0 & G0 & V0). destruct (ki_path _ _ _ _ _ _ K x s0 Kx' G0) as (q & Q1 & Q2); [congruence|]. eauto.
    + intros Fu x rx q Kx Ex Gx. rewrite EP in Ex. destruct (KN x Kx) as [->|[Hn Kx']].
      * rewrite Gj in Gx. inversion Gx; subst rx. exact Vj.
      * destruct (N.eqb_spec x j); [contradiction|]. destruct (Old x rx Kx' Gx) as (s0 & G0 & V0). rewrite V0. eapply (ki_full _ _ _ _ _ _ K Fu); eauto.
    + intros x C. destruct (ki_changed _ _ _ _ _ _ K x (changed_after_imp _ _ _ _ C)) as (Kx & s0 & O0 & S0). destruct (obj_inode st x s0 T O0) as [G0 Hx].
      destruct (StU x s0 C G0 S0) as (s1 & G1 & S1). split; [rewrite EL; destruct (x =? j); lia|]. exists s1. split; auto. now apply inode_obj.
  - rewrite El, Ep. split; auto.
    + intros x Hx. destruct (Obj x Hx) as (s0 & s1 & O0 & O1 & L0 & L1 & _). exists s1. split; auto. lia.
    + intros x rx Kx Gx Vx. destruct (Old x rx Kx Gx) as (s0 & G0 & V0). destruct (ki_path _ _ _ _ _ _ K x s0 Kx G0) as (q & Q1 & Q2); [congruence|]. eauto.
    + intros Fu x rx q Kx Ex Gx. destruct (Old x rx Kx Gx) as (s0 & G0 & V0). rewrite V0. eapply (ki_full _ _ _ _ _ _ K Fu); eauto.
    + intros x C. destruct (ki_changed _ _ _ _ _ _ K x (changed_after_imp _ _ _ _ C)) as (Kx & s0 & O0 & S0). destruct (obj_inode st x s0 T O0) as [G0 Hx].
      destruct (StU x s0 C G0 S0) as (s1 & G1 & S1). split; auto. exists s1. split; auto. now apply inode_obj.
Qed.

Lemma forget_ki full_ st root k paths changed l : KI full_ st root k paths changed -> (forall e, In e l -> 0 < snd e) ->
  (forall i, In i (map fst l) -> i <> root_ino /\ forgotten l i <= k i) ->
  exists st', do_forget st l = Ok (RNone, st') /\
    KI full_ st' root (fun j => k j - forgotten l j) paths (fun j => changed j /\ forgotten l j < k j).
Proof.
  intros K P H. pose proof (ki_inv _ _ _ _ _ _ K) as I. pose proof I as [T M].
  destruct (forget_ok root l st I P) as (st' & E & I' & S & B & Kp).
  { intros i Hi. destruct (H i Hi) as [_ Le]. pose proof (forgotten_pos l i P Hi). destruct (ki_obj _ _ _ _ _ _ K i) as (r & O & Lr); [lia|]. exists r. split; auto. lia. }
  exists st'. split; auto.
  assert (Obj : forall j, 0 < k j - forgotten l j -> exists s r', oget (st_objs st) j = Some s /\ k j <= i_nlookup s /\ oget (st_objs st') j = Some r' /\
     i_asset r' = i_asset s /\ i_state r' = i_state s /\ i_nlookup r' = i_nlookup s - forgotten l j).
  { intros j Hj. destruct (ki_obj _ _ _ _ _ _ K j) as (s & O & Ls); [lia|]. destruct (Kp j s O) as [r' O']; [lia|].
    destruct (B j r' O') as (s' & Os' & X). rewrite O in Os'. inversion Os'; subst s'. eauto 8. }
  assert (GI : forall j r', knows (fun j => k j - forgotten l j) j -> get_inode st' j = Ok r' -> exists s, knows k j /\ get_inode st j = Ok s /\ is_valid r' = is_valid s).
  { intros j r' [->|X] G'.
    - exists (st_root st). split; [now left|]. split; [reflexivity|]. cbn in G'. inversion G'; subst r'. unfold is_valid. destruct S as (_ & _ & _ & _ & _ & ->). reflexivity.
    - destruct (Obj j X) as (s & r0 & O & _ & O' & _ & St & _). destruct (obj_inode st' j r0 (proj1 I') O') as [G0 Hj]. rewrite G' in G0. inversion G0; subst r0.
      exists s. split; [right; lia|]. split; [rewrite get_inode_obj, O by exact Hj; reflexivity|]. unfold is_valid. now rewrite St. }
  split; auto.
  - intros j Hj. destruct (Obj j Hj) as (s & r' & O & Ls & O' & _ & _ & Nr). exists r'. split; auto. lia.
  - intros j r' Kj G' V'. destruct (GI j r' Kj G') as (s & Kj' & Gs & Vs). destruct (ki_path _ _ _ _ _ _ K j s Kj' Gs) as (p & Pp & Ap); [congruence|].
    exists p. split; auto. destruct Kj as [->|X].
    + rewrite (at_path_fun st root_ino p T Ap [] (at_root st)). constructor.
    + destruct (Obj j X) as (s0 & r0 & O & _ & O' & _). eapply (at_path_shrink store st st' root j r0 p); eauto; [apply S|].
      intros x rx Ox. destruct (B x rx Ox) as (y & Y1 & Y2 & Y3 & _). eauto.
  - intros Fu j r' p Kj Pp G'. destruct (GI j r' Kj G') as (s & Kj' & Gs & Vs). rewrite Vs. eapply (ki_full _ _ _ _ _ _ K Fu); eauto.
  - intros j [C Lt]. destruct (ki_changed _ _ _ _ _ _ K j C) as (Kj & s & O & St). split; [lia|].
    destruct (Obj j) as (s0 & r' & O0 & _ & O' & _ & St' & _); [lia|]. exists r'. split; auto. rewrite St'. replace s0 with s by congruence. exact St.
Qed.

Lemma set_paths sto st' nr i r path : tab_ok [] None sto -> Inv st' nr -> map fst (st_objs st') = map fst (st_objs sto) ->
  (forall i ro, oget (st_objs sto) i = Some ro -> exists r, oget (st_objs st') i = Some r /\ parent r = parent ro /\
     (is_valid r = true -> is_valid ro = true /\ exists p po ao a, as_proto (i_asset r) = Some p /\ as_proto (i_asset ro) = Some po /\ deref (st_heap sto) po = Some ao /\
        deref (st_heap st') p = Some a /\ ap_name a = ap_name ao)) ->
  oget (st_objs st') i = Some r -> is_valid r = true -> at_path sto i path -> at_path st' i path.
Proof.
  intros T I' Ks H O V AP.
  assert (Back : forall j p, at_path st' j p -> at_path sto j p).
  { intros j p X. induction X as [|j s p a pp Os Vs Ps Ds X IH]; [constructor|].
    assert (Kj : In j (map fst (st_objs sto))) by (rewrite <- Ks; apply oget_key; eauto). apply oget_key in Kj. destruct Kj as [ro Oo].
    destruct (H j ro Oo) as (s' & Os' & Pa & Nm). rewrite Os in Os'. inversion Os'; subst s'.
    destruct (Nm Vs) as (Vo & p1 & po & ao & a1 & P1 & Po & Do & D1 & Na). assert (a1 = a) by congruence. subst a1. rewrite Na.
    econstructor; eauto. rewrite <- Pa. exact IH. }
  destruct (at_path_ex store st' nr i r I' O V) as [q Q]. rewrite (at_path_fun sto i path T AP q (Back _ _ Q)). exact Q.
Qed.

Lemma manifest_ki (full_ : Prop) st root k paths changed nr fetch shuffle :
  KI full_ st root k paths changed -> names_unique store nr -> only_root_is_large store nr ->
  (forall id l, fetch id = Some l -> store id = Some l) -> (forall l, Permutation (shuffle l) l) -> (full_ -> full nr fetch) ->
  exists st', set_manifest fetch shuffle st (Some nr) = Ok st' /\
    KI full_ st' nr k (fun i => match paths i with Some p => match asset_at store nr p with Some _ => Some p | None => None end | None => None end)
       (fun i => 0 < k i /\ exists p old new, paths i = Some p /\ asset_at store root p = Some old /\ asset_at store nr p = Some new /\ old <> new /\ ap_type new = TFile).
Proof.
  intros K U LG F SH Fu. pose proof (ki_inv _ _ _ _ _ _ K) as I. pose proof I as [T M].
  destruct (set_manifest_ok store st root nr fetch shuffle I U LG F SH) as (st' & E & I' & Ks & Ob). exists st'. split; auto. pose proof I' as [T' M'].
  assert (SP : forall i r path, oget (st_objs st') i = Some r -> is_valid r = true -> at_path st i path -> at_path st' i path).
  { intros i r path O V AP. apply (set_paths st st' nr i r path T I' Ks); auto. intros j ro Oj. destruct (Ob j ro Oj) as (rj & X1 & X2 & _ & _ & X3 & _).
    exists rj. split; auto. split; auto. intros Vj. destruct (X3 Vj) as (Y & p & po & ao & a & Y1 & Y2 & Y3 & Y4 & Y5 & _). split; auto. exists p, po, ao, a. auto. }
  assert (Obj : forall i, 0 < k i -> exists ro r, oget (st_objs st) i = Some ro /\ oget (st_objs st') i = Some r /\ k i <= i_nlookup r /\ get_inode st i = Ok ro /\ get_inode st' i = Ok r).
  { intros i Hi. destruct (ki_obj _ _ _ _ _ _ K i Hi) as (ro & O & Le). destruct (Ob i ro O) as (r & O' & _ & Nl & _). exists ro, r. split; auto. split; auto. split; [lia|].
    split; [apply (obj_inode st i ro T O)|apply (obj_inode st' i r T' O')]. }
  (* a known valid inode was valid before and keeps its path *)
  assert (Keep : forall i r, 0 < k i -> get_inode st' i = Ok r -> is_valid r = true -> exists ro p, oget (st_objs st) i = Some ro /\ is_valid ro = true /\ paths i = Some p /\ at_path st i p /\ at_path st' i p).
  { intros i r Hi G V. destruct (Obj i Hi) as (ro & r' & O & O' & _ & G0 & G'). rewrite G in G'. inversion G'; subst r'.
    destruct (Ob i ro O) as (r' & O1 & _ & _ & _ & Va & _). rewrite O' in O1. inversion O1; subst r'. destruct (Va V) as [Vo _].
    destruct (ki_path _ _ _ _ _ _ K i ro (or_intror Hi) G0 Vo) as (p & Pp & Ap). exists ro, p. split; auto. split; auto. split; auto. split; auto. eapply SP; eauto. }
  split; auto.
  - intros i Hi. destruct (Obj i Hi) as (ro & r & _ & O' & Le & _). eauto.
  - intros i r Kn G V. destruct Kn as [->|Hi].
    + destruct (ki_path _ _ _ _ _ _ K root_ino (st_root st) (or_introl eq_refl) eq_refl (m_root_valid _ _ _ M)) as (p & Pp & Ap).
      rewrite (at_path_fun st root_ino p T Ap [] (at_root st)) in Pp. rewrite Pp. cbn. exists []. split; auto. constructor.
    + destruct (Keep i r Hi G V) as (ro & p & O & Vo & Pp & Ap & Ap'). exists p. split; auto. rewrite Pp.
      destruct (at_path_asset store st' nr i p I' Ap') as (_ & _ & a & _ & _ & _ & _ & _ & A & _). rewrite A. reflexivity.
  - intros f i r p Kn Pp G. destruct Kn as [->|Hi]; [inversion G; subst r; apply M'|].
    destruct (is_valid r) eqn:V; auto. exfalso. destruct (paths i) as [q|] eqn:Pq; [|discriminate]. destruct (asset_at store nr q) as [c|] eqn:A; [|discriminate].
    destruct (Obj i Hi) as (ro & r' & O & O' & _ & G0 & G'). rewrite G in G'. inversion G'; subst r'.
    pose proof (ki_full _ _ _ _ _ _ K f i ro q (or_intror Hi) Pq G0) as Vo.
    destruct (Ob i ro O) as (r' & O1 & _ & _ & _ & _ & Lo). rewrite O' in O1. inversion O1; subst r'.
    destruct (Lo V Vo (Fu f)) as (path & Ap & An). destruct (ki_path _ _ _ _ _ _ K i ro (or_intror Hi) G0 Vo) as (q' & Pq' & Aq). rewrite Pq in Pq'. inversion Pq'; subst q'.
    rewrite (at_path_fun st i path T Ap q Aq) in An. congruence.
  - intros i (Hi & p & ao & an & Pp & Ao & An & Ne & TF). split; auto. destruct (Obj i Hi) as (ro & r & O & O' & _ & G0 & G'). exists r. split; auto.
    destruct (Ob i ro O) as (r' & O1 & _ & _ & _ & Va & Lo). rewrite O' in O1. inversion O1; subst r'.
    destruct (is_valid r) eqn:V.
    2:{ right. unfold is_valid in V. destruct (i_state r); cbn in V; congruence. }
    left. clear Lo. rename V into V_. pose proof V_ as V.
    destruct (Va eq_refl) as (Vo & p1 & po & ao' & a' & P1 & Po & Do & D1 & Nm & St).
    destruct (Keep i r Hi G' V) as (ro' & q & _ & _ & Pq & Aq & Aq'). rewrite Pp in Pq. inversion Pq; subst q.
    destruct (at_path_asset store st' nr i p I' Aq') as (r2 & p2 & a2 & [G2 _] & _ & P2 & D2 & _ & A2 & _). rewrite G' in G2. inversion G2; subst r2.
    destruct (at_path_asset store st root i p I Aq) as (r3 & p3 & a3 & [G3 _] & _ & P3 & D3 & _ & A3 & _). rewrite G0 in G3. inversion G3; subst r3.
    assert (a2 = a') by congruence. assert (a3 = ao') by congruence. subst a2 a3. assert (a' = an) by congruence. assert (ao' = ao) by congruence. subst.
    rewrite St. rewrite TF. cbn [atype_eqb]. rewrite orb_false_r. destruct (ap_eqb an ao) eqn:Eq; auto. apply ap_eqb_iff in Eq. congruence.
Qed.
End Store.
