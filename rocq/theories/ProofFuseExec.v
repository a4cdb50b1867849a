(** Every callback: it succeeds, keeps the invariant, and answers what the manifest says. *)
From Verif Require Import Base ListX Str ModelFuse SpecFuse ProofFuseMem ProofFuseInv ProofFuseOps ProofFusePath ProofFuseSet ProofFuseFin.
Local Open Scope N_scope.

(** * Bits *)
Lemma get_mode_of c : mode_of c (get_mode c).
Proof.
  intros b. unfold get_mode. destruct (ap_type c); rewrite ?N.lor_spec, ?orb_false_r; auto.
  - change MODE_IFREG with (2 ^ 15). rewrite N.pow2_bits_eqb, N.eqb_sym. reflexivity.
  - change MODE_IFDIR with (2 ^ 14). rewrite N.pow2_bits_eqb, N.eqb_sym. reflexivity.
Qed.
Lemma fill_stat_ok i c : is_stat i c (fill_stat i c).
Proof. unfold is_stat, fill_stat. cbn [at_ino at_size at_mtime at_mode]. split; auto. split; auto. split; auto. apply get_mode_of. Qed.
Lemma rdonly flags : negb (N.land flags 3 =? 0) = N.testbit flags 0 || N.testbit flags 1.
Proof.
  destruct (N.testbit flags 0 || N.testbit flags 1) eqn:E.
  - apply negb_true_iff, N.eqb_neq. intros X. apply orb_true_iff in E. destruct E as [E|E].
    + assert (Y : N.testbit (N.land flags 3) 0 = true) by (rewrite N.land_spec, E; reflexivity). rewrite X in Y. discriminate.
    + assert (Y : N.testbit (N.land flags 3) 1 = true) by (rewrite N.land_spec, E; reflexivity). rewrite X in Y. discriminate.
  - apply negb_false_iff, N.eqb_eq. apply orb_false_iff in E. destruct E as [E0 E1]. change 3 with (N.ones 2). apply N.bits_inj. intros b.
    rewrite N.land_spec, N.bits_0. destruct (N.lt_ge_cases b 2) as [H|H].
    + assert (b = 0 \/ b = 1) as [->| ->] by lia; [rewrite E0|rewrite E1]; reflexivity.
    + rewrite N.ones_spec_high by lia. apply andb_false_r.
Qed.
Lemma direct_bit flags : negb (N.land flags O_DIRECT =? 0) = N.testbit flags 14.
Proof.
  change O_DIRECT with (2 ^ 14). destruct (N.testbit flags 14) eqn:E.
  - apply negb_true_iff, N.eqb_neq. intros X. assert (Y : N.testbit (N.land flags (2 ^ 14)) 14 = true) by (rewrite N.land_spec, E, N.pow2_bits_eqb; reflexivity).
    rewrite X in Y. discriminate.
  - apply negb_false_iff, N.eqb_eq. apply N.bits_inj. intros b. rewrite N.land_spec, N.bits_0, N.pow2_bits_eqb. destruct (N.eqb_spec 14 b); [subst; now rewrite E|apply andb_false_r].
Qed.
Lemma low3 x b : N.testbit (N.land x 7) b = N.testbit x b && (b <? 3).
Proof.
  change 7 with (N.ones 3). rewrite N.land_spec. destruct (N.ltb_spec b 3); [rewrite N.ones_spec_low by lia|rewrite N.ones_spec_high by lia]; reflexivity.
Qed.
Lemma access_bits_spec uid gid mode b : N.testbit (access_bits uid gid mode) b =
  (N.testbit mode b || ((gid =? 1000) && N.testbit mode (b + 3)) || ((uid =? 1000) && N.testbit mode (b + 6))) && (b <? 3).
Proof.
  unfold access_bits. destruct (gid =? 1000), (uid =? 1000); rewrite ?N.lor_spec, !low3, ?N.shiftr_spec by lia; cbn [andb];
    rewrite ?orb_false_r; destruct (b <? 3); rewrite ?andb_true_r, ?andb_false_r; auto.
Qed.
Lemma granted_iff uid gid c mask : N.land (access_bits uid gid (get_mode c)) mask =? mask = true <-> granted uid gid (ap_perm c) mask.
Proof.
  assert (M : forall b, b < 14 -> N.testbit (get_mode c) b = N.testbit (ap_perm c) b).
  { intros b H. rewrite (get_mode_of c b). destruct (ap_type c); rewrite ?orb_false_r; auto.
    - destruct (N.eqb_spec b 15); [lia|apply orb_false_r].
    - destruct (N.eqb_spec b 14); [lia|apply orb_false_r]. }
  rewrite N.eqb_eq. split.
  - intros H b T. assert (X : N.testbit (N.land (access_bits uid gid (get_mode c)) mask) b = true) by (rewrite H; exact T).
    rewrite N.land_spec, access_bits_spec in X. apply andb_true_iff in X. destruct X as [X _]. apply andb_true_iff in X. destruct X as [X L]. apply N.ltb_lt in L.
    split; auto. rewrite !M in X by lia. apply orb_true_iff in X. destruct X as [X|X]; [apply orb_true_iff in X; destruct X as [X|X]|]; auto.
    + apply andb_true_iff in X. rewrite N.eqb_eq in X. auto.
    + apply andb_true_iff in X. rewrite N.eqb_eq in X. auto.
  - intros H. apply N.bits_inj. intros b. rewrite N.land_spec, access_bits_spec. destruct (N.testbit mask b) eqn:T; [|apply andb_false_r].
    rewrite andb_true_r. destruct (H b T) as [L X]. rewrite !M by lia. apply N.ltb_lt in L. rewrite L, andb_true_r.
    destruct X as [X|[[-> X]|[-> X]]]; rewrite X; cbn; rewrite ?orb_true_r; reflexivity.
Qed.

Lemma joined_snoc path n : path <> [] -> joined (path ++ [n]) = joined path ++ 47 :: n.
Proof.
  induction path as [|m path IH]; [congruence|]. intros _. destruct path as [|m' path]; [reflexivity|].
  cbn [app joined] in *. rewrite IH by congruence. rewrite <- app_assoc. reflexivity.
Qed.

Lemma all_or_missing (fetch : cid -> option (list aproto)) ids : (forall id, In id ids -> fetch id <> None) \/ exists id, In id ids /\ fetch id = None.
Proof.
  induction ids as [|id ids [IH|(x & H1 & H2)]]; [left; intros id []| |right; exists x; split; auto; now right].
  destruct (fetch id) as [l|] eqn:E; [left|right; exists id; split; auto; now left]. intros x [<-|H]; [congruence|auto].
Qed.

Section Store.
Variable store : cid -> option (list aproto).
Notation Inv := (Inv store).

Lemma rel_path_join st root i path : Inv st root -> at_path st i path -> path <> [] -> forall fuel r x,
  get_inode st i = Ok r -> rel_path fuel st r = Ok x -> x = joined path.
Proof.
  intros I H. pose proof I as [T M]. induction H as [|i r p a path O V P D H IH]; [congruence|]. intros _ fuel r' x G R.
  destruct (obj_inode st i r T O) as [G' Hi]. rewrite G in G'. inversion G'; subst r'. clear G'.
  assert (GP : get_proto (st_heap st) (i_asset r) = Ok a) by (unfold get_proto; rewrite P, D; reflexivity).
  destruct fuel as [|fuel]; [discriminate|]. cbn [rel_path] in R. fold (parent r) in R. rewrite GP in R. cbn [bind] in R.
  destruct (N.eqb_spec (parent r) root_ino) as [E|E].
  - inversion R; subst x. rewrite E in H. rewrite (at_path_fun st root_ino path T H [] (at_root st)). reflexivity.
  - assert (Hp : path <> []). { intros ->. inversion H; subst; [congruence|]. destruct path; discriminate. }
    destruct (get_inode st (parent r)) as [pr| | |] eqn:Gp; try discriminate. cbn [bind] in R.
    destruct (rel_path fuel st pr) as [pp| | |] eqn:Rp; try discriminate. cbn [bind] in R. inversion R; subst x.
    rewrite joined_snoc by exact Hp. f_equal. eapply IH; eauto.
Qed.

Section Env.
Variables (fetch : cid -> option (list aproto)) (alloc : list ino -> ino) (read_ok : bool).
Hypothesis F : forall id l, fetch id = Some l -> store id = Some l.
Hypothesis AL : forall keys, ~ In (alloc keys) keys /\ alloc keys <> root_ino.

(** States of inodes are changed by open only. *)
Definition states_kept (st st' : state) : Prop :=
  forall j r, get_inode st j = Ok r -> exists r', get_inode st' j = Ok r' /\ i_state r' = i_state r.
Lemma states_refl st : states_kept st st.
Proof. intros j r G. eauto. Qed.
Lemma states_trans a b c : states_kept a b -> states_kept b c -> states_kept a c.
Proof. intros H1 H2 j r G. destruct (H1 j r G) as (r' & G' & S'). destruct (H2 j r' G') as (r'' & G'' & S''). exists r''. split; auto. congruence. Qed.
Lemma states_set st i r r' : get_inode st i = Ok r -> i_state r' = i_state r -> states_kept st (set_inode st i r').
Proof.
  intros G S j s Gj. rewrite get_set, G. destruct (N.eqb_spec j i) as [->|Hj]; [|eauto]. exists r'. split; auto. congruence.
Qed.
Lemma states_mem st h nx : states_kept st (with_mem st h nx).
Proof. intros j r G. exists r. auto. Qed.
Lemma get_or_create_states st q p i st' : get_or_create alloc st q p = Ok (i, st') -> states_kept st st'.
Proof.
  unfold get_or_create. destruct (mget (st_map st) p) as [j|] eqn:E.
  - destruct (get_inode st j) as [r| | |] eqn:G; cbn; try discriminate. intros X. inversion X; subst. eapply states_set; [exact G|reflexivity].
  - destruct (asset_init (st_heap st) q p) as [s| | |]; cbn [bind]; try discriminate.
    destruct (get_inode st q) as [r| | |] eqn:G; cbn [bind]; try discriminate. intros X. inversion X; subst. clear X.
    set (st1 := set_inode st q (mkinode (i_asset r) (i_nlookup r) (i_children r + 1) (i_state r))).
    assert (S1 : states_kept st st1) by (eapply states_set; [exact G|reflexivity]).
    eapply states_trans; [exact S1|]. intros j rj Gj. exists rj. split; auto.
    assert (K : map fst (st_objs st1) = map fst (st_objs st)).
    { unfold st1, set_inode. destruct (q =? root_ino); auto. cbn [st_objs with_tables]. apply oset_keys. }
    destruct (AL (map fst (st_objs st))) as [A1 A2].
    unfold get_inode in *. destruct (N.eqb_spec j root_ino); auto. cbn [st_objs with_tables oget].
    destruct (N.eqb_spec j (alloc (map fst (st_objs st)))) as [->|Hn]; auto. exfalso.
    set (x := alloc (map fst (st_objs st))) in *. apply A1. rewrite <- K. apply oget_key. destruct (oget (st_objs st1) x); [eauto|discriminate].
Qed.
Lemma dir_entries_states q : forall ps st l st', dir_entries alloc st q ps = Ok (l, st') -> states_kept st st'.
Proof.
  induction ps as [|p ps IH]; intros st l st' E; cbn [dir_entries] in E; [inversion E; subst; apply states_refl|].
  destruct (get_or_create alloc st q p) as [[j st1]| | |] eqn:GC; cbn [bind] in E; try discriminate.
  pose proof (get_or_create_states _ _ _ _ _ GC) as S1.
  destruct (get_inode st1 j) as [r| | |]; cbn [bind] in E; try discriminate.
  destruct (negb (is_valid r)); [eapply states_trans; eauto|].
  destruct (deref (st_heap st1) p); cbn [bind] in E; try discriminate.
  destruct (get_proto (st_heap st1) (i_asset r)); cbn [bind] in E; try discriminate.
  destruct (dir_entries alloc st1 q ps) as [[l' st2]| | |] eqn:DE; cbn [bind] in E; try discriminate. inversion E; subst.
  eapply states_trans; eauto.
Qed.
Lemma lookup_states st q n rep st' : do_lookup fetch alloc st q n = Ok (rep, st') -> states_kept st st'.
Proof.
  unfold do_lookup. destruct (get_inode st q) as [r| | |] eqn:G; cbn [bind]; try discriminate.
  destruct (negb (is_valid r)); [intros E; inversion E; subst; apply states_refl|].
  destruct (get_proto (st_heap st) (i_asset r)) as [a| | |]; cbn [bind]; try discriminate.
  destruct (ap_progress a). { destruct (rel_path _ st r); cbn [bind]; try discriminate. intros E; inversion E; subst; apply states_refl. }
  destruct (asset_lookup fetch (st_heap st) (st_next st) (i_asset r) n) as [[[[res h] nx] s]| | |]; cbn [bind]; try discriminate.
  assert (S1 : states_kept st (set_inode (with_mem st h nx) q (with_asset r s))).
  { eapply states_trans; [apply (states_mem st h nx)|]. eapply states_set; [exact G|reflexivity]. }
  destruct res; try (intros E; inversion E; subst; exact S1).
  destruct (get_or_create alloc (set_inode (with_mem st h nx) q (with_asset r s)) q p) as [[j st2]| | |] eqn:GC; cbn [bind]; try discriminate.
  pose proof (get_or_create_states _ _ _ _ _ GC) as S2.
  destruct (get_inode st2 j) as [r2| | |]; cbn [bind]; try discriminate.
  destruct (negb (is_valid r2)); [intros E; inversion E; subst; eapply states_trans; eauto|].
  destruct (get_proto (st_heap st2) (i_asset r2)); cbn [bind]; try discriminate. intros E; inversion E; subst; eapply states_trans; eauto.
Qed.
Lemma readdir_states st q rep st' : do_readdir fetch alloc st q = Ok (rep, st') -> states_kept st st'.
Proof.
  unfold do_readdir. destruct (get_inode st q) as [r| | |] eqn:G; cbn [bind]; try discriminate.
  destruct (negb (is_valid r)); [intros E; inversion E; subst; apply states_refl|].
  destruct (get_inode st (as_parent (i_asset r))) as [pr| | |]; cbn [bind]; try discriminate.
  destruct (negb (is_valid pr)); [intros E; inversion E; subst; apply states_refl|].
  destruct (get_proto (st_heap st) (i_asset r)) as [a| | |]; cbn [bind]; try discriminate.
  destruct (negb (atype_eqb (ap_type a) TDir)); [intros E; inversion E; subst; apply states_refl|].
  destruct (get_proto (st_heap st) (i_asset pr)) as [pa| | |]; cbn [bind]; try discriminate.
  destruct (asset_children fetch (st_heap st) (st_next st) (i_asset r)) as [[[[ps h] nx] s]| | |]; cbn [bind]; try discriminate.
  assert (S1 : states_kept st (set_inode (with_mem st h nx) q (with_asset r s))).
  { eapply states_trans; [apply (states_mem st h nx)|]. eapply states_set; [exact G|reflexivity]. }
  destruct ps as [ps|]; [|intros E; inversion E; subst; exact S1].
  destruct (dir_entries alloc (set_inode (with_mem st h nx) q (with_asset r s)) q ps) as [[l st2]| | |] eqn:DE; cbn [bind]; try discriminate.
  intros E; inversion E; subst. eapply states_trans; [exact S1|eapply dir_entries_states; eauto].
Qed.

(** What holds after any callback but forget. *)
Record ran (st st' : state) (root : aproto) (i : ino) (r : inode) (o : op) (rep : reply) : Prop := {
  x_inv : Inv st' root;
  x_evolves : evolves st st';
  x_next : (st_next st <= st_next st')%nat;
  x_stale : is_valid r = false -> stale_answer o rep;
  x_answer : is_valid r = true -> forall path, at_path st i path -> answers store fetch root path i o rep;
  x_entry : forall j s, rep = REntry j s -> exists n rj, o = OLookup i n /\ is_valid r = true /\ j <> root_ino /\ oget (st_objs st') j = Some rj /\ is_valid rj = true /\
      0 < i_nlookup rj /\ (forall s, oget (st_objs st) j = Some s -> i_nlookup rj = i_nlookup s + 1) /\
      (forall path, at_path st i path -> at_path st' j (path ++ [n]));
  x_states : states_kept st st' \/ exists flags d, o = OOpen i flags /\ rep = ROpen false d /\
      forall j s, j <> i -> get_inode st j = Ok s -> get_inode st' j = Ok s;
  x_drop : i_state r = SUpdated -> (forall flags k d, o = OOpen i flags -> rep = ROpen k d -> k = false) /\ (forall off sz, o = ORead i off sz -> rep = RErr EIO);
  x_none : rep <> RNone }.

Lemma stay st root i r o rep : Inv st root ->
  (is_valid r = false -> stale_answer o rep) ->
  (is_valid r = true -> forall path, at_path st i path -> answers store fetch root path i o rep) ->
  (forall j s, rep <> REntry j s) -> rep <> RNone ->
  (i_state r = SUpdated -> (forall flags k d, o = OOpen i flags -> rep = ROpen k d -> k = false) /\ (forall off sz, o = ORead i off sz -> rep = RErr EIO)) ->
  ran st st root i r o rep.
Proof.
  intros I A B C E D. split; auto.
  - apply evolves_refl.
  - intros j s X. exfalso. exact (C _ _ X).
  - left. apply states_refl.
Qed.

Lemma exec_ok st root o i r : Inv st root -> uses o i -> live st i r ->
  exists rep st', exec fetch alloc read_ok st o = Ok (rep, st') /\ ran st st' root i r o rep.
Proof.
  intros I Us Lv. pose proof I as [T M]. pose proof Lv as [G L].
  assert (At : is_valid r = true -> exists a, get_proto (st_heap st) (i_asset r) = Ok a /\ below store root a /\ (forall path, at_path st i path -> asset_at store root path = Some a)).
  { intros V. destruct (valid_proto store st root i r I G V L) as (a & p & GP & _ & _ & _ & Bl & _). exists a. split; auto. split; auto. intros path AP.
    destruct (at_path_asset store st root i path I AP) as (r' & p' & a' & [G' _] & _ & _ & _ & GP' & AA & _). rewrite G in G'. inversion G'; subst r'. congruence. }
  assert (Qd : is_valid r = true -> exists s, rel_path (S (length (st_objs st))) st r = Ok s /\ forall path, at_path st i path -> path <> [] -> s = joined path).
  { intros V. destruct (rel_path_some store fetch alloc F AL st root i r I Lv V) as [s Hs]. exists s. split; auto. intros path AP Ne. exact (rel_path_join st root i path I AP Ne _ r s G Hs). }
  destruct (is_valid r) eqn:V.
  2:{ (* stale *)
      assert (St : forall rep, (forall j s, rep <> REntry j s) -> rep <> RNone -> stale_answer o rep -> (forall k d, rep <> ROpen k d) -> (forall off sz, o = ORead i off sz -> rep = RErr ENOENT) -> ran st st root i r o rep).
      { intros rep H1 H2 H3 H4 H5. apply stay; auto; [congruence|]. intros S. unfold is_valid in V. rewrite S in V. discriminate. }
      assert (Ru : forall rep, exec fetch alloc read_ok st o = Ok (rep, st) -> stale_answer o rep -> (rep = RErr ENOENT \/ exists u g m, o = OAccess u g i m /\ rep = RErr 0) ->
         exists rep st', exec fetch alloc read_ok st o = Ok (rep, st') /\ ran st st' root i r o rep).
      { intros rep E S X. exists rep, st. split; auto. apply St; auto.
        - intros j s ->. destruct X as [X|(u & g & m & _ & X)]; discriminate.
        - intros ->. destruct X as [X|(u & g & m & _ & X)]; discriminate.
        - intros k d ->. destruct X as [X|(u & g & m & _ & X)]; discriminate.
        - intros off sz Eo. destruct X as [X|(u & g & m & X & _)]; [auto|congruence]. }
      destruct o; cbn [uses] in Us; try contradiction; subst; cbn [exec stale_answer] in *.
      all: try (apply (Ru (RErr ENOENT)); [| reflexivity | left; reflexivity];
                unfold do_lookup, do_getattr, do_open, do_read, do_release, do_opendir, do_readdir, do_releasedir; rewrite G; cbn [bind]; rewrite V; reflexivity).
      unfold do_access in *. destruct ((uid =? 0) || (gid =? 0)) eqn:E.
      - apply (Ru (RErr 0)); auto. right. eauto 6.
      - apply (Ru (RErr ENOENT)); auto. rewrite G. cbn [bind]. rewrite V. reflexivity. }
  destruct (At eq_refl) as (a & GP & Bl & AA). clear At. specialize (Qd eq_refl). destruct Qd as (qs & RP & Jn).
  assert (IsQ : forall path, at_path st i path -> exists s, RQueued qs = RQueued s /\ (path <> [] -> s = joined path)) by eauto.
  destruct o as [q n|q|q flags|q off size|q|q|q|q|l|uid gid q mask]; cbn [uses] in Us; try contradiction; subst q; cbn [exec].
  - (* lookup *)
    destruct (lookup_ok store fetch alloc F AL st root i r n I Lv) as (rep & st' & E & I' & Ev & Nx & Re).
    pose proof (lookup_states _ _ _ _ _ E) as Sk. exists rep, st'. split; auto.
    assert (Res : forall path, at_path st i path -> answers store fetch root path i (OLookup i n) rep).
    { intros path AP. exists a. split; [auto|]. cbv zeta.
      destruct rep as [e|j s|s|k d| |b off sz|l| |s]; try contradiction.
      - destruct Re as (-> & Re). destruct (Re V) as (aq & GP' & Pg & Ab). rewrite GP in GP'. inversion GP'; subst aq. rewrite Pg.
        rewrite asset_at_snoc, (AA path AP).
        destruct (child_named store a n) as [c|] eqn:CN; auto. right. split; auto.
        unfold child_named in CN. destruct (ap_type a) eqn:TA; try discriminate. apply find_some in CN. destruct CN as [C1 C2]. apply is_name_iff in C2.
        destruct (all_or_missing fetch (ap_ind a)) as [H|H]; auto.
        exfalso. apply (Ab eq_refl H). rewrite <- C2. now apply in_map.
      - destruct Re as (_ & Hj & ri & p & c & O & Vi & Pa & P & D & Nm & -> & _ & _ & aq & GP' & TD & Pg & Hc). rewrite GP in GP'. inversion GP'; subst aq.
        rewrite Pg, asset_at_snoc, (AA path AP). rewrite (child_named_in store a c n); auto; [|apply (m_unique _ _ _ M); exact Bl].
        left. eexists _, _. split; [reflexivity|]. apply fill_stat_ok.
      - destruct Re as (-> & _ & RP' & aq & GP' & Pg). rewrite GP in GP'. inversion GP'; subst aq. rewrite Pg. rewrite RP in RP'. inversion RP'; subst s. auto. }
    split; auto.
    + congruence.
    + intros j s ->. destruct Re as (_ & Hj & ri & p & c & O & Vi & Pa & P & D & Nm & Ea & Nl & Nl' & _).
      exists n, ri. split; auto. split; auto. split; auto. split; auto. split; auto. split; auto. split; auto.
      intros path AP. rewrite <- Nm. econstructor; eauto. rewrite Pa. eapply at_path_evolves; eauto; [apply M|apply I'].
    + intros _. split; intros; congruence.
    + intros ->. exact Re.
  - (* getattr *)
    unfold do_getattr. rewrite G. cbn [bind]. rewrite V, GP. cbn [bind negb]. eexists _, st. split; [reflexivity|]. apply stay; auto; try congruence; try discriminate.
    + intros _ path AP. exists a. split; [auto|]. eexists. split; [reflexivity|]. apply fill_stat_ok.
    + intros _. split; congruence.
  - (* open *)
    unfold do_open. rewrite G. cbn [bind]. rewrite V, GP. cbn [bind negb]. rewrite rdonly, direct_bit.
    destruct (ap_type a) eqn:TA.
    1,3,4: eexists _, st; (split; [reflexivity|]); apply stay; auto; try congruence; try discriminate; [intros _ path AP; exists a; split; [auto|]; cbv zeta; rewrite TA; auto|intros _; split; congruence].
    destruct (N.testbit flags 0 || N.testbit flags 1) eqn:RO.
    { eexists _, st. split; [reflexivity|]. apply stay; auto; try congruence; try discriminate.
      - intros _ path AP. exists a. split; [auto|]. cbv zeta. rewrite TA, RO. auto.
      - intros _; split; congruence. }
    destruct ((0 <? ap_size a) && ap_progress a) eqn:PG.
    { rewrite RP. cbn [bind]. eexists _, st. split; [reflexivity|]. apply stay; auto; try congruence; try discriminate.
      - intros _ path AP. exists a. split; [auto|]. cbv zeta. rewrite TA, RO, PG. auto.
      - intros _; split; congruence. }
    assert (An : forall k path, at_path st i path -> answers store fetch root path i (OOpen i flags) (ROpen k (N.testbit flags 14))).
    { intros k path AP. exists a. split; [auto|]. cbv zeta. rewrite TA, RO, PG. eauto. }
    destruct (istate_eqb (i_state r) SUpdated) eqn:SU.
    + destruct (set_state_ok store st root i r SInit I G V) as [I' Ev]; [discriminate|].
      eexists _, _. split; [reflexivity|]. split; auto; try congruence; try discriminate.
      * unfold set_inode. destruct (i =? root_ino); auto.
      * right. exists flags, (N.testbit flags 14). split; auto. split; auto. intros j s Hj Gj. rewrite get_set. destruct (N.eqb_spec j i); [contradiction|exact Gj].
      * intros _. split; congruence.
    + eexists _, st. split; [reflexivity|]. apply stay; auto; try congruence; try discriminate.
      intros S. rewrite S in SU. discriminate.
  - (* read *)
    unfold do_read. rewrite G. cbn [bind]. rewrite V, GP. cbn [bind negb].
    destruct (istate_eqb (i_state r) SUpdated) eqn:SU; [|destruct (read_ok && atype_eqb (ap_type a) TFile) eqn:RD].
    + eexists _, st. split; [reflexivity|]. apply stay; auto; try congruence; try discriminate; [|intros _; split; congruence].
      intros _ path AP. exists a. split; [auto|]. cbv zeta. auto.
    + eexists _, st. split; [reflexivity|]. apply stay; auto; try congruence; try discriminate.
      * intros _ path AP. exists a. split; [auto|]. cbv zeta. apply andb_true_iff in RD. destruct RD as [_ RD]. apply atype_eqb_iff in RD. auto.
      * intros S. rewrite S in SU. discriminate.
    + eexists _, st. split; [reflexivity|]. apply stay; auto; try congruence; try discriminate; [|intros _; split; congruence].
      intros _ path AP. exists a. split; [auto|]. cbv zeta. auto.
  - (* release *)
    unfold do_release. rewrite G. cbn [bind]. rewrite V, GP. cbn [bind negb].
    eexists _, st. split; [reflexivity|]. apply stay; auto; try congruence; try (intros _; split; congruence).
    + intros _ path AP. exists a. split; [auto|]. cbv zeta. destruct (ap_type a); reflexivity.
    + intros j s. destruct (ap_type a); discriminate.
    + destruct (ap_type a); discriminate.
  - (* opendir *)
    unfold do_opendir. rewrite G. cbn [bind]. rewrite V, GP. cbn [bind negb].
    destruct (atype_eqb (ap_type a) TDir) eqn:TD; cbn [negb].
    + apply atype_eqb_iff in TD. destruct (ap_progress a) eqn:PG.
      * rewrite RP. cbn [bind]. eexists _, st. split; [reflexivity|]. apply stay; auto; try congruence; try discriminate; try (intros _; split; congruence).
        intros _ path AP. exists a. split; [auto|]. cbv zeta. rewrite TD, PG. auto.
      * eexists _, st. split; [reflexivity|]. apply stay; auto; try congruence; try discriminate; try (intros _; split; congruence).
        intros _ path AP. exists a. split; [auto|]. cbv zeta. rewrite TD, PG. auto.
    + eexists _, st. split; [reflexivity|]. apply stay; auto; try congruence; try discriminate; try (intros _; split; congruence).
      intros _ path AP. exists a. split; [auto|]. cbv zeta. destruct (ap_type a); try discriminate; reflexivity.
  - (* readdir *)
    destruct (readdir_ok store fetch alloc F AL st root i r I Lv) as (rep & st' & E & I' & Ev & Nx & Re).
    pose proof (readdir_states _ _ _ _ E) as Sk. exists rep, st'. split; auto. split; auto; try congruence.
    + intros _ path AP. exists a. split; [auto|]. cbv zeta. destruct rep as [e| | | | | |l| |]; try contradiction.
      * destruct Re as [[X _]|(_ & a' & GP' & X)]; [congruence|]. rewrite GP in GP'. inversion GP'; subst a'. destruct X as [[-> X]|(-> & TD & X)].
        { destruct (ap_type a); congruence. }
        { rewrite TD. auto. }
      * destruct Re as (_ & a' & l' & GP' & TD & (e1 & e2 & El & X1 & X2) & cs & Pm & F2). rewrite GP in GP'. inversion GP'; subst a'. rewrite TD. left.
        exists e1, e2, l'. split; [congruence|]. split; auto. split; auto. exists cs. split; auto. eapply Forall2_impl; [|exact F2].
        intros e c [Y1 Y2]. split; auto. rewrite Y2. apply get_mode_of.
    + intros j s ->. contradiction.
    + intros _. split; congruence.
    + intros ->. exact Re.
  - (* releasedir *)
    unfold do_releasedir. rewrite G. cbn [bind]. rewrite V, GP. cbn [bind negb].
    eexists _, st. split; [reflexivity|]. apply stay; auto; try congruence; try (intros _; split; congruence).
    + intros _ path AP. exists a. split; [auto|]. cbv zeta. destruct (ap_type a); reflexivity.
    + intros j s. destruct (atype_eqb (ap_type a) TDir); discriminate.
    + destruct (atype_eqb (ap_type a) TDir); discriminate.
  - (* access *)
    unfold do_access. destruct ((uid =? 0) || (gid =? 0)) eqn:UG.
    + eexists _, st. split; [reflexivity|]. apply stay; auto; try congruence; try discriminate; try (intros _; split; congruence).
      intros _ path AP. exists a. split; [auto|]. cbv zeta. left. split; auto. apply orb_true_iff in UG. rewrite !N.eqb_eq in UG. tauto.
    + apply orb_false_iff in UG. rewrite !N.eqb_neq in UG. destruct UG as [U1 U2].
      rewrite G. cbn [bind]. rewrite V, GP. cbn [bind negb].
      destruct (N.land (access_bits uid gid (get_mode a)) mask =? mask) eqn:AB.
      * apply granted_iff in AB. eexists _, st. split; [reflexivity|]. apply stay; auto; try congruence; try discriminate; try (intros _; split; congruence).
        intros _ path AP. exists a. split; [auto|]. cbv zeta. auto.
      * eexists _, st. split; [reflexivity|]. apply stay; auto; try congruence; try discriminate; try (intros _; split; congruence).
        intros _ path AP. exists a. split; [auto|]. cbv zeta. right. split; auto. split; auto. split; auto. intros X. apply granted_iff in X. congruence.
Qed.
End Env.
End Store.
