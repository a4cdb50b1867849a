From Verif Require Import Base ListX ModelFastcdc SpecFastcdc ProofFastcdc ModelCdc SpecCdc ProofCdc.
Local Open Scope N_scope.

Arguments N.add : simpl never.
Arguments N.mul : simpl never.
Arguments N.sub : simpl never.
Arguments N.ltb : simpl never.
Arguments N.leb : simpl never.
Arguments N.eqb : simpl never.
Arguments N.pow : simpl never.
Arguments N.modulo : simpl never.

(** ** Reading ranges *)
Lemma blen_nil : blen [] = 0. Proof. reflexivity. Qed.
Lemma blen_pos (c : bytes) : c <> [] -> 0 < blen c.
Proof. destruct c; [congruence|]. unfold blen. cbn [length]. lia. Qed.

Definition slice (f : bytes) (o z : N) : bytes := firstn (N.to_nat z) (skipn (N.to_nat o) f).

Lemma slice_len f o z : o + z <= blen f -> blen (slice f o z) = z.
Proof. intros H. unfold slice, blen in *. rewrite firstn_length, skipn_length. lia. Qed.

Lemma firstn_add {A} (n m : nat) (l : list A) : firstn (n + m) l = firstn n l ++ firstn m (skipn n l).
Proof.
  revert l; induction n as [|n IH]; intros l; [reflexivity|].
  destruct l; cbn [Nat.add firstn skipn app]; [now rewrite firstn_nil|]. now rewrite IH.
Qed.

Lemma slice_split f o z1 z2 : slice f o (z1 + z2) = slice f o z1 ++ slice f (o + z1) z2.
Proof.
  unfold slice. rewrite !N2Nat.inj_add, firstn_add, skipn_skipn.
  now rewrite (Nat.add_comm (N.to_nat z1) (N.to_nat o)).
Qed.

Lemma slice_app_l f g o z : o + z <= blen f -> slice (f ++ g) o z = slice f o z.
Proof.
  intros H. unfold slice, blen in *. rewrite skipn_app, firstn_app.
  replace (N.to_nat z - length (skipn (N.to_nat o) f))%nat with 0%nat by (rewrite skipn_length; lia).
  now rewrite firstn_O, app_nil_r.
Qed.

Lemma slice_at pre c post : slice (pre ++ c ++ post) (blen pre) (blen c) = c.
Proof. unfold slice, blen. rewrite !Nat2N.id, skipn_app_exact, firstn_app_exact. reflexivity. Qed.

Lemma file_read_ok f o z : 0 < z -> o + z <= blen f -> blen f < 2 ^ 63 -> file_read f o z = Ok (slice f o z).
Proof.
  intros Hz H Hf. unfold file_read.
  destruct (N.leb_spec (2 ^ 63) o); [lia|]. destruct (N.eqb_spec z 0); [lia|].
  destruct (N.ltb_spec (blen f) (o + z)); [lia|]. reflexivity.
Qed.

(** ** Messages seen as lists of pieces *)
Definition entry := (N * N * N)%type.
Definition e_src (e : entry) := fst (fst e).
Definition e_off (e : entry) := snd (fst e).
Definition e_size (e : entry) := snd e.

Record piece (basis data : bytes) (e : entry) (d : bytes) : Prop := {
  pc_ne : d <> [];
  pc_size : e_size e = blen d;
  pc_case : (e_src e = SOURCE_BASIS_FILE /\ e_off e + e_size e <= blen basis /\ d = slice basis (e_off e) (e_size e))
         \/ (e_src e = SOURCE_DATA /\ e_off e + e_size e <= blen data /\ d = slice data (e_off e) (e_size e))
}.

Lemma piece_bytes basis data e d : blen basis < 2 ^ 63 -> blen data < 2 ^ 63 -> piece basis data e d ->
  chunk_bytes basis data (e_src e) (e_off e) (e_size e) = Ok d.
Proof.
  intros Hb Hd [Hn Hs Hc]. unfold chunk_bytes. pose proof (blen_pos d Hn).
  destruct Hc as [(E & L & D)|(E & L & D)].
  - rewrite E. change (SOURCE_BASIS_FILE =? SOURCE_BASIS_FILE) with true. cbv iota.
    rewrite file_read_ok; try lia. f_equal. now symmetry.
  - rewrite E. change (SOURCE_DATA =? SOURCE_BASIS_FILE) with false. cbv iota.
    unfold u64. rewrite N.mod_small by (change (2 ^ 63) with 9223372036854775808 in *; change (2 ^ 64) with 18446744073709551616; lia).
    destruct (N.ltb_spec (blen data) (e_off e + e_size e)); [lia|]. f_equal. symmetry. exact D.
Qed.

Lemma piece_grow_data basis data x e d : piece basis data e d -> piece basis (data ++ x) e d.
Proof.
  intros [Hn Hs Hc]. constructor; auto. destruct Hc as [Hc|(E & L & D)]; [auto|]. right.
  rewrite blen_app. repeat split; auto; [lia|]. now rewrite slice_app_l.
Qed.

Definition has_entries (q : request) (es : list entry) : Prop :=
  rq_sources q = map e_src es /\ rq_offsets q = map e_off es /\ rq_sizes q = map e_size es.

Definition msg_ok (mx : N) (basis : bytes) (q : request) (ds : list bytes) : Prop :=
  exists es, has_entries q es /\ Forall2 (piece basis (rq_data q)) es ds /\ es <> [] /\
    13 * N.of_nat (length es) + blen (rq_data q) <= 65536 + 13 + mx.

(** ** The receiver applies pieces *)
Definition step_pt (t : pt) (d : bytes) : pt :=
  if pt_first t then mk_pt (pt_out t ++ d) (is_executable d) false
  else mk_pt (pt_out t ++ d) (pt_exec t) false.

Lemma patch_commands_ok basis data es ds : blen basis < 2 ^ 63 -> blen data < 2 ^ 63 ->
  Forall2 (piece basis data) es ds -> forall t,
  patch_commands basis data (map e_src es) (map e_off es) (map e_size es) t = Ok (fold_left step_pt ds t).
Proof.
  intros Hb Hd F. induction F as [|e d es ds P F IH]; intros t; [reflexivity|].
  cbn [map patch_commands fold_left]. rewrite (piece_bytes basis data e d Hb Hd P). cbn [bind].
  destruct P as [Hn Hs _]. pose proof (blen_pos d Hn).
  destruct (N.ltb_spec 0 (e_size e)); [|lia]. rewrite andb_true_r.
  unfold step_pt at 2. destruct (pt_first t) eqn:Ef; cbn [pt_out pt_exec pt_first]; rewrite <- IH; [reflexivity|].
  rewrite Ef. reflexivity.
Qed.

Lemma patch_loop_ok mx basis reqs dss : mx <= 2 ^ 31 -> blen basis < 2 ^ 63 -> Forall2 (msg_ok mx basis) reqs dss -> forall t q rest,
  rq_sources q = [] -> rq_offsets q = [] -> rq_sizes q = [] ->
  patch_loop basis (reqs ++ q :: rest) t = Ok (fold_left step_pt (concat dss) t).
Proof.
  intros Hmx Hb F. induction F as [|r ds reqs dss P F IH]; intros t q rest E1 E2 E3.
  - cbn [app patch_loop]. rewrite E1, E2, E3. reflexivity.
  - cbn [app patch_loop concat]. destruct P as (es & (H1 & H2 & H3) & Fp & Hne & Hsz).
    rewrite H1, H2, H3, !map_length, Nat.eqb_refl. cbn [andb negb].
    destruct es as [|e es]; [congruence|].
    rewrite (patch_commands_ok basis (rq_data r) (e :: es) ds Hb); [|change (2 ^ 31) with 2147483648 in *; change (2 ^ 63) with 9223372036854775808; lia|exact Fp].
    cbn [map]. cbn [bind]. rewrite fold_left_app. now apply IH.
Qed.

Lemma fold_step_false ds : forall t, pt_first t = false ->
  fold_left step_pt ds t = mk_pt (pt_out t ++ concat ds) (pt_exec t) false.
Proof.
  induction ds as [|d ds IH]; intros t H; cbn [fold_left concat].
  - rewrite app_nil_r, <- H. destruct t; reflexivity.
  - unfold step_pt at 2. rewrite H. rewrite IH by reflexivity. cbn [pt_out pt_exec]. now rewrite app_assoc.
Qed.

Lemma fold_step ds : fold_left step_pt ds (mk_pt [] false true) =
  match ds with [] => mk_pt [] false true | d :: _ => mk_pt (concat ds) (is_executable d) false end.
Proof.
  destruct ds as [|d ds]; [reflexivity|]. cbn [fold_left]. unfold step_pt at 2. cbn [pt_first pt_out app].
  now rewrite fold_step_false.
Qed.

(** ** The sender *)
Section Diff.
Variable mx : N.                (* largest chunk *)
Variable hash : bytes -> N.
Variable basis : bytes.
Variable src : bytes.
Variable B : list bytes.       (* chunks of the basis *)
Variable C : list bytes.       (* chunks of the source *)
Hypothesis HB : concat B = basis.
Hypothesis HC : concat C = src.
Hypothesis Hbasis : blen basis < 2 ^ 63.
Hypothesis Hsrc : blen src < 2 ^ 63.
Hypothesis Hmx : mx <= 2 ^ 31.
Hypothesis HCne : Forall (fun c => c <> [] /\ blen c <= mx) C.
Hypothesis Hcol : no_collisions hash B C.

Definition done_ (idx : nat) : bytes := concat (firstn idx C).
Definition fresh (c : bytes) : bool := negb (known hash B c).

Record PI (p : ps) : Prop := {
  pi_idx : (ps_idx p <= length C)%nat;
  pi_ex : exists dss ds es,
    Forall2 (msg_ok mx basis) (ps_out p) dss /\
    has_entries (ps_req p) es /\ Forall2 (piece basis (rq_data (ps_req p))) es ds /\
    concat (concat dss ++ ds) = done_ (ps_idx p) /\
    ps_reqsz p = 13 * N.of_nat (length es) + blen (rq_data (ps_req p)) /\
    (forall es0 e, es = es0 ++ [e] -> e_src e = SOURCE_DATA -> e_off e + e_size e = blen (rq_data (ps_req p))) /\
    (es = [] -> rq_data (ps_req p) = []) /\
    (ps_idx p <> 0%nat -> exists d0 rest, concat dss ++ ds = d0 :: rest /\ (length (hd [] C) <= length d0)%nat);
  pi_off : ps_off p = blen (done_ (ps_idx p));
  pi_lim : ps_reqsz p <= 65536;
  pi_data : concat (map rq_data (ps_out p)) ++ rq_data (ps_req p) = concat (filter fresh (firstn (ps_idx p) C))
}.

Lemma done_S idx c : nth_error C idx = Some c -> done_ (S idx) = done_ idx ++ c.
Proof. intros H. unfold done_. rewrite (firstn_S_snoc C idx c H), concat_app. cbn. now rewrite app_nil_r. Qed.

Lemma done_split idx c : nth_error C idx = Some c -> exists post, src = done_ idx ++ c ++ post.
Proof.
  intros H. exists (concat (skipn (S idx) C)). rewrite <- HC. unfold done_.
  rewrite <- (firstn_skipn idx C) at 1. rewrite concat_app. f_equal.
  assert (E : skipn idx C = c :: skipn (S idx) C).
  { clear -H. revert idx H. induction C as [|x l IH]; intros [|i] H; try discriminate.
    - now inversion H.
    - cbn [skipn]. now apply IH. }
  rewrite E. reflexivity.
Qed.

Lemma done_bound idx : blen (done_ idx) <= blen src.
Proof.
  rewrite <- HC. unfold done_. rewrite <- (firstn_skipn idx C) at 2. rewrite concat_app, blen_app. lia.
Qed.

Lemma chunk_facts idx c : nth_error C idx = Some c ->
  c <> [] /\ blen c <= mx /\ 0 < blen c.
Proof.
  intros H. apply nth_error_In in H. rewrite Forall_forall in HCne. destruct (HCne c H).
  repeat split; auto. now apply blen_pos.
Qed.

Lemma filter_snoc idx c : nth_error C idx = Some c ->
  concat (filter fresh (firstn (S idx) C)) = concat (filter fresh (firstn idx C)) ++ (if fresh c then c else []).
Proof.
  intros H. rewrite (firstn_S_snoc C idx c H), filter_app, concat_app. f_equal.
  cbn [filter]. destruct (fresh c); cbn; now rewrite ?app_nil_r.
Qed.

Lemma last_snoc {A} (l : list A) x d : last (l ++ [x]) d = x.
Proof. apply last_last. Qed.

Lemma snoc_cases {A} (l : list A) : l = [] \/ exists l0 x, l = l0 ++ [x].
Proof. destruct l using rev_ind; [auto|right; eauto]. Qed.

(** Common end of both Add functions. *)
Lemma finish idx p c es ds dss :
  nth_error C idx = Some c -> ps_idx p = idx ->
  ps_off p = blen (done_ idx) ->
  Forall2 (msg_ok mx basis) (ps_out p) dss ->
  has_entries (ps_req p) es -> Forall2 (piece basis (rq_data (ps_req p))) es ds -> es <> [] ->
  concat (concat dss ++ ds) = done_ (S idx) ->
  ps_reqsz p = 13 * N.of_nat (length es) + blen (rq_data (ps_req p)) ->
  ps_reqsz p <= 65536 + 13 + mx ->
  (forall es0 e, es = es0 ++ [e] -> e_src e = SOURCE_DATA -> e_off e + e_size e = blen (rq_data (ps_req p))) ->
  (exists d0 rest, concat dss ++ ds = d0 :: rest /\ (length (hd [] C) <= length d0)%nat) ->
  concat (map rq_data (ps_out p)) ++ rq_data (ps_req p) = concat (filter fresh (firstn (S idx) C)) ->
  let p' := on_chunk_added p (blen c) in
  PI (mk_ps (ps_req p') (ps_reqsz p') (ps_off p') (S (ps_idx p')) (ps_out p')).
Proof.
  intros Hn Hi Ho Fo He Fp Hne Hcat Hsz Hlim Hlast Hfirst Hdata p'.
  assert (Hidx : (idx < length C)%nat) by (apply nth_error_Some; congruence).
  assert (Eoff : u64 (ps_off p + blen c) = blen (done_ (S idx))).
  { rewrite Ho, (done_S idx c Hn), blen_app. unfold u64. apply N.mod_small.
    pose proof (done_bound (S idx)) as Hb. rewrite (done_S idx c Hn), blen_app in Hb.
    change (2 ^ 63) with 9223372036854775808 in *. change (2 ^ 64) with 18446744073709551616. lia. }
  subst p'. unfold on_chunk_added.
  destruct (N.ltb_spec kPatchRequestSizeThreshold (ps_reqsz p)) as [L|L];
    constructor; cbn [ps_req ps_reqsz ps_off ps_idx ps_out rq_sources rq_offsets rq_sizes rq_data empty_request];
    rewrite ?Hi; auto; try lia.
  - exists (dss ++ [ds]), [], []. rewrite app_nil_r.
    replace (concat (dss ++ [ds])) with (concat dss ++ ds) by (rewrite concat_app; cbn; now rewrite app_nil_r).
    split; [|split; [|split; [|split; [|split; [|split; [|split]]]]]]; auto.
    + apply Forall2_app; [exact Fo|]. constructor; [|constructor]. exists es. repeat split; try apply He; auto. lia.
    + repeat split; reflexivity.
    + intros es0 e X. destruct es0; discriminate.
  - rewrite map_app, concat_app. cbn. rewrite !app_nil_r. exact Hdata.
  - exists dss, ds, es. split; [exact Fo|]. split; [exact He|]. split; [exact Fp|]. split; [exact Hcat|].
    split; [exact Hsz|]. split; [exact Hlast|]. split; [congruence|]. intros _. exact Hfirst.
Qed.

Lemma Forall2_snoc_inv {A D} (R : A -> D -> Prop) l x m : Forall2 R (l ++ [x]) m ->
  exists m0 y, m = m0 ++ [y] /\ Forall2 R l m0 /\ R x y.
Proof.
  intros F. apply Forall2_app_inv_l in F. destruct F as (m0 & m1 & F1 & F2 & ->).
  inversion F2; subst. inversion H3; subst. eauto 6.
Qed.

Lemma first_ok idx c dss (ds ds' : list bytes) :
  nth_error C idx = Some c ->
  concat (concat dss ++ ds) = done_ idx ->
  (idx <> 0%nat -> exists d0 rest, concat dss ++ ds = d0 :: rest /\ (length (hd [] C) <= length d0)%nat) ->
  Forall (fun d => d <> []) ds -> Forall (fun d => d <> []) (concat dss) ->
  (ds' = ds ++ [c] \/ exists ds0 d, ds = ds0 ++ [d] /\ ds' = ds0 ++ [d ++ c]) ->
  exists d0 rest, concat dss ++ ds' = d0 :: rest /\ (length (hd [] C) <= length d0)%nat.
Proof.
  intros Hn Hcat Hfirst F1 F2 Hds.
  destruct idx as [|idx].
  - cbn in Hcat. assert (concat dss ++ ds = []).
    { assert (F : Forall (fun d : bytes => d <> []) (concat dss ++ ds)) by (apply Forall_app; auto).
      destruct (concat dss ++ ds) as [|d l]; [reflexivity|]. inversion F; subst.
      cbn in Hcat. apply app_eq_nil in Hcat. tauto. }
    apply app_eq_nil in H. destruct H as (H1 & H2). rewrite H1, H2 in *.
    destruct Hds as [->|(ds0 & d & E & _)]; [|destruct ds0; discriminate].
    exists c, []. split; [reflexivity|]. destruct C; [discriminate|]. inversion Hn; subst. cbn. lia.
  - destruct (Hfirst ltac:(discriminate)) as (d0 & rest & E & L).
    destruct Hds as [->|(ds0 & d & -> & ->)].
    + rewrite app_assoc, E. exists d0, (rest ++ [c]). split; [reflexivity|exact L].
    + rewrite app_assoc in E |- *. destruct (concat dss ++ ds0) as [|x l].
      * cbn in E |- *. injection E as <- <-. exists (d ++ c), []. split; [reflexivity|]. rewrite app_length. lia.
      * cbn in E |- *. injection E as <- <-. exists x, (l ++ [d ++ c]). auto.
Qed.

Lemma pieces_ne data es ds : Forall2 (piece basis data) es ds -> Forall (fun d => d <> []) ds.
Proof. induction 1 as [|e d es ds P F IH]; constructor; auto. apply P. Qed.

Lemma msgs_ne reqs dss : Forall2 (msg_ok mx basis) reqs dss -> Forall (fun d => d <> []) (concat dss).
Proof.
  induction 1 as [|q ds reqs dss (es & _ & P & _) F IH]; cbn [concat]; [constructor|].
  apply Forall_app. split; [eapply pieces_ne; eauto|exact IH].
Qed.

Lemma grow_last_map es0 (e : entry) z : grow_last (map e_size (es0 ++ [e])) z = map e_size es0 ++ [u32 (e_size e + z)].
Proof.
  unfold grow_last. rewrite map_app. cbn [map]. rewrite removelast_last, last_snoc. reflexivity.
Qed.

Lemma concat_snoc (l : list bytes) c : concat (l ++ [c]) = concat l ++ c.
Proof. rewrite concat_app. cbn. now rewrite app_nil_r. Qed.

Lemma add_existing_PI p c off :
  PI p -> nth_error C (ps_idx p) = Some c ->
  off + blen c <= blen basis -> c = slice basis off (blen c) -> known hash B c = true ->
  let p' := add_existing p off (blen c) in
  PI (mk_ps (ps_req p') (ps_reqsz p') (ps_off p') (S (ps_idx p')) (ps_out p')).
Proof.
  intros [Hi (dss & ds & es & Fo & He & Fp & Hcat & Hsz & Hlast & Hnil & Hfirst) Ho Hl Hd] Hn Hoff Hc Hk.
  destruct (chunk_facts _ _ Hn) as (Cne & Cmax & Cpos).
  pose proof (pieces_ne _ _ _ Fp) as N1. pose proof (msgs_ne _ _ Fo) as N2.
  assert (Hfr : fresh c = false) by (unfold fresh; now rewrite Hk).
  unfold add_existing. destruct He as (H1 & H2 & H3). rewrite H1, H2, H3.
  destruct (snoc_cases es) as [->|(es0 & e & ->)].
  - cbn [map length Nat.eqb negb andb]. inversion Fp; subst ds.
    apply (finish (ps_idx p) _ c [(SOURCE_BASIS_FILE, off, blen c)] [c] dss);
      cbn [ps_req ps_reqsz ps_off ps_idx ps_out rq_sources rq_offsets rq_sizes rq_data]; auto.
    + repeat split; reflexivity.
    + constructor; [|constructor]. constructor; [exact Cne|reflexivity|]. left. repeat split; auto.
    + discriminate.
    + rewrite app_nil_r in Hcat. now rewrite concat_snoc, Hcat, <- done_S.
    + rewrite Hsz. cbn [length]. unfold kPatchMetadataSize. lia.
    + unfold kPatchMetadataSize. change (2 ^ 31) with 2147483648. lia.
    + intros es0 e E X. destruct es0; [inversion E; subst; discriminate X|destruct es0; discriminate].
    + eapply first_ok; eauto.
    + rewrite (filter_snoc _ c Hn), Hfr, app_nil_r. exact Hd.
  - rewrite !map_app. cbn [map]. rewrite !last_snoc.
    destruct (Forall2_snoc_inv _ _ _ _ Fp) as (ds0 & d & -> & Fp0 & Pe).
    match goal with |- context [if ?x then _ else _] => destruct x eqn:Econd end.
    + apply andb_prop in Econd. destruct Econd as (Econd & X4). apply andb_prop in Econd. destruct Econd as (Econd & X3).
      apply andb_prop in Econd. destruct Econd as (_ & X2).
      apply N.eqb_eq in X2. apply N.eqb_eq in X3. apply N.ltb_lt in X4.
      destruct Pe as [Pn Ps Pc]. destruct Pc as [(Q1 & Q2 & Q3)|(Q1 & _)]; [|rewrite Q1 in X2; discriminate].
      assert (Eu : u64 (e_off e + e_size e) = e_off e + e_size e).
      { unfold u64. apply N.mod_small. change (2 ^ 63) with 9223372036854775808 in *. change (2 ^ 64) with 18446744073709551616. lia. }
      rewrite Eu in X3.
      assert (Ez : u32 (e_size e + blen c) = e_size e + blen c).
      { unfold u32. apply N.mod_small. unfold kCombinedChunkSizeThreshold in X4. change (2 ^ 31) with 2147483648 in *. change (2 ^ 32) with 4294967296. lia. }
      pose proof (grow_last_map es0 e (blen c)) as Eg. rewrite map_app in Eg. cbn [map] in Eg. rewrite Eg, Ez. clear Eg.
      apply (finish (ps_idx p) _ c (es0 ++ [(e_src e, e_off e, e_size e + blen c)]) (ds0 ++ [d ++ c]) dss);
        cbn [ps_req ps_reqsz ps_off ps_idx ps_out rq_sources rq_offsets rq_sizes rq_data]; auto.
      * repeat split; rewrite map_app; reflexivity.
      * apply Forall2_app; [exact Fp0|]. constructor; [|constructor].
        constructor; cbn [e_src e_off e_size fst snd].
        -- destruct d; [congruence|discriminate].
        -- rewrite Ps, blen_app. reflexivity.
        -- left. split; [exact Q1|]. split; [lia|]. rewrite slice_split, X3. congruence.
      * destruct es0; discriminate.
      * rewrite (done_S _ _ Hn), <- Hcat, !app_assoc, !concat_snoc, app_assoc. reflexivity.
      * rewrite Hsz, !app_length. reflexivity.
      * change (2 ^ 31) with 2147483648. lia.
      * intros es1 e1 E X. apply app_inj_tail in E. destruct E as (_ & <-). cbn in X. rewrite Q1 in X. discriminate.
      * eapply (first_ok _ c dss (ds0 ++ [d])); eauto 6.
      * rewrite (filter_snoc _ c Hn), Hfr, app_nil_r. exact Hd.
    + apply (finish (ps_idx p) _ c ((es0 ++ [e]) ++ [(SOURCE_BASIS_FILE, off, blen c)]) ((ds0 ++ [d]) ++ [c]) dss);
        cbn [ps_req ps_reqsz ps_off ps_idx ps_out rq_sources rq_offsets rq_sizes rq_data]; auto.
      * repeat split; rewrite !map_app; reflexivity.
      * apply Forall2_app; [exact Fp|]. constructor; [|constructor].
        constructor; [exact Cne|reflexivity|]. left. repeat split; auto.
      * destruct (es0 ++ [e]); discriminate.
      * rewrite (done_S _ _ Hn), <- Hcat, app_assoc, concat_snoc. reflexivity.
      * rewrite Hsz. rewrite (app_length (es0 ++ [e])). cbn [length]. unfold kPatchMetadataSize. lia.
      * unfold kPatchMetadataSize. change (2 ^ 31) with 2147483648. lia.
      * intros es1 e1 E X. apply app_inj_tail in E. destruct E as (_ & <-). discriminate X.
      * eapply first_ok; eauto.
      * rewrite (filter_snoc _ c Hn), Hfr, app_nil_r. exact Hd.
Qed.

Lemma add_new_PI p c pos :
  PI p -> nth_error C (ps_idx p) = Some c -> known hash B c = false ->
  exists p', add_new src pos p (blen c) = Ok (pos, p') /\
  PI (mk_ps (ps_req p') (ps_reqsz p') (ps_off p') (S (ps_idx p')) (ps_out p')).
Proof.
  intros [Hi (dss & ds & es & Fo & He & Fp & Hcat & Hsz & Hlast & Hnil & Hfirst) Ho Hl Hd] Hn Hk.
  destruct (chunk_facts _ _ Hn) as (Cne & Cmax & Cpos).
  pose proof (pieces_ne _ _ _ Fp) as N1. pose proof (msgs_ne _ _ Fo) as N2.
  assert (Hfr : fresh c = true) by (unfold fresh; now rewrite Hk).
  assert (Hread : file_read src (ps_off p) (blen c) = Ok c).
  { destruct (done_split _ _ Hn) as (post & Es). rewrite Ho. rewrite file_read_ok; auto.
    - f_equal. rewrite Es at 1. apply slice_at.
    - rewrite Es, !blen_app. lia. }
  assert (Fp' : Forall2 (piece basis (rq_data (ps_req p) ++ c)) es ds)
    by (eapply Forall2_impl; [|exact Fp]; intros; now apply piece_grow_data).
  assert (Hdata' : forall o, o = blen (rq_data (ps_req p)) ->
     piece basis (rq_data (ps_req p) ++ c) (SOURCE_DATA, o, blen c) c).
  { intros o ->. constructor; [exact Cne|reflexivity|]. right. split; [reflexivity|].
    cbn [e_off e_size fst snd]. rewrite blen_app. split; [lia|].
    rewrite <- (app_nil_r (_ ++ c)), <- app_assoc. symmetry. apply slice_at. }
  unfold add_new. destruct He as (H1 & H2 & H3). rewrite H1, H2, H3.
  destruct (snoc_cases es) as [->|(es0 & e & ->)].
  - cbn [map length Nat.eqb negb andb]. cbv beta iota zeta. rewrite Hread. cbn [bind].
    eexists; split; [reflexivity|]. inversion Fp; subst ds.
    apply (finish (ps_idx p) _ c [(SOURCE_DATA, blen (rq_data (ps_req p)), blen c)] [c] dss);
      cbn [ps_req ps_reqsz ps_off ps_idx ps_out rq_sources rq_offsets rq_sizes rq_data]; auto.
    + repeat split; reflexivity.
    + discriminate.
    + rewrite app_nil_r in Hcat. now rewrite concat_snoc, Hcat, <- done_S.
    + rewrite Hsz, blen_app. cbn [length]. unfold kPatchMetadataSize. lia.
    + unfold kPatchMetadataSize. lia.
    + intros es0 e E X. destruct es0; [inversion E; subst; cbn [e_off e_size fst snd]; rewrite blen_app; lia|destruct es0; discriminate].
    + eapply first_ok; eauto.
    + rewrite (filter_snoc _ c Hn), Hfr, app_assoc. f_equal. exact Hd.
  - rewrite !map_app. cbn [map]. rewrite !last_snoc.
    destruct (Forall2_snoc_inv _ _ _ _ Fp) as (ds0 & d & -> & Fp0 & Pe).
    match goal with |- context [if ?x then _ else _] => destruct x eqn:Econd end; cbv beta iota zeta; rewrite Hread; cbn [bind];
      (eexists; split; [reflexivity|]).
    + apply andb_prop in Econd. destruct Econd as (_ & X2). apply N.eqb_eq in X2.
      pose proof (Hlast es0 e eq_refl X2) as Hend.
      destruct Pe as [Pn Ps Pc]. destruct Pc as [(Q1 & _)|(Q1 & Q2 & Q3)]; [rewrite Q1 in X2; discriminate|].
      assert (Ez : u32 (e_size e + blen c) = e_size e + blen c).
      { unfold u32. apply N.mod_small. change (2 ^ 31) with 2147483648 in *. change (2 ^ 32) with 4294967296. lia. }
      pose proof (grow_last_map es0 e (blen c)) as Eg. rewrite map_app in Eg. cbn [map] in Eg. rewrite Eg, Ez. clear Eg.
      apply (finish (ps_idx p) _ c (es0 ++ [(e_src e, e_off e, e_size e + blen c)]) (ds0 ++ [d ++ c]) dss);
        cbn [ps_req ps_reqsz ps_off ps_idx ps_out rq_sources rq_offsets rq_sizes rq_data]; auto.
      * repeat split; rewrite map_app; reflexivity.
      * apply Forall2_app; [eapply Forall2_impl; [|exact Fp0]; intros; now apply piece_grow_data|]. constructor; [|constructor].
        constructor; cbn [e_src e_off e_size fst snd].
        -- destruct d; [congruence|discriminate].
        -- rewrite Ps, blen_app. reflexivity.
        -- right. split; [exact Q1|]. rewrite blen_app. split; [lia|].
           rewrite slice_split, Hend, slice_app_l by lia. rewrite <- Q3. f_equal.
           rewrite <- (app_nil_r (_ ++ c)), <- app_assoc. symmetry. apply slice_at.
      * destruct es0; discriminate.
      * rewrite (done_S _ _ Hn), <- Hcat, !app_assoc, !concat_snoc, app_assoc. reflexivity.
      * rewrite Hsz, !app_length, blen_app. cbn [length]. lia.
      * lia.
      * intros es1 e1 E X. apply app_inj_tail in E. destruct E as (_ & <-). cbn [e_off e_size fst snd]. rewrite blen_app. lia.
      * eapply (first_ok _ c dss (ds0 ++ [d])); eauto 6.
      * rewrite (filter_snoc _ c Hn), Hfr, app_assoc. f_equal. exact Hd.
    + apply (finish (ps_idx p) _ c ((es0 ++ [e]) ++ [(SOURCE_DATA, blen (rq_data (ps_req p)), blen c)]) ((ds0 ++ [d]) ++ [c]) dss);
        cbn [ps_req ps_reqsz ps_off ps_idx ps_out rq_sources rq_offsets rq_sizes rq_data]; auto.
      * repeat split; rewrite !map_app; reflexivity.
      * apply Forall2_app; [exact Fp'|]. constructor; [|constructor]. now apply Hdata'.
      * destruct (es0 ++ [e]); discriminate.
      * rewrite (done_S _ _ Hn), <- Hcat, app_assoc, concat_snoc. reflexivity.
      * rewrite Hsz, blen_app. rewrite (app_length (es0 ++ [e])). cbn [length]. unfold kPatchMetadataSize. lia.
      * unfold kPatchMetadataSize. lia.
      * intros es1 e1 E X. apply app_inj_tail in E. destruct E as (_ & <-). cbn [e_off e_size fst snd]. rewrite blen_app. lia.
      * eapply first_ok; eauto.
      * rewrite (filter_snoc _ c Hn), Hfr, app_assoc. f_equal. exact Hd.
Qed.

(** ** Receiving signatures *)
Definition located (Bp : list bytes) (h o : N) : Prop :=
  exists pre c post, Bp = pre ++ c :: post /\ hash c = h /\ o = blen (concat pre).

Record RI (r : rx) : Prop := {
  ri_ex : exists Bp Br,
    B = Bp ++ Br /\ rx_off r = blen (concat Bp) /\
    (forall h o, lookup h (rx_map r) = Some o -> located Bp h o) /\
    (forall c, In c Bp -> lookup (hash c) (rx_map r) <> None) /\
    (if rx_all r then Br = [] else
      exists batches, rx_msgs r = batches ++ [empty_sigmsg] /\ describes hash batches Br)
}.

Lemma located_app Bp x h o : located Bp h o -> located (Bp ++ x) h o.
Proof. intros (pre & c & post & -> & H1 & H2). exists pre, c, (post ++ x). rewrite <- app_assoc. auto. Qed.

Lemma lookup_snoc h k o m : lookup h (m ++ [(k, o)]) =
  match lookup h m with Some x => Some x | None => if k =? h then Some o else None end.
Proof.
  induction m as [|(a, b) m IH]; cbn [app lookup]; [reflexivity|]. destruct (a =? h); [reflexivity|exact IH].
Qed.

Lemma insert_chunks_spec cs : forall m off Bp,
  (forall h o, lookup h m = Some o -> located Bp h o) ->
  (forall c, In c Bp -> lookup (hash c) m <> None) ->
  off = blen (concat Bp) -> (exists post, B = Bp ++ cs ++ post) ->
  exists m', insert_chunks m off (map hash cs) (map (fun c => N.of_nat (length c)) cs) = (m', blen (concat (Bp ++ cs))) /\
    (forall h o, lookup h m' = Some o -> located (Bp ++ cs) h o) /\
    (forall c, In c (Bp ++ cs) -> lookup (hash c) m' <> None).
Proof.
  induction cs as [|c cs IH]; intros m off Bp Hm Hc Hoff (post & HBp).
  - cbn. rewrite app_nil_r. exists m. rewrite Hoff. auto.
  - cbn [map insert_chunks].
    assert (E : u64 (off + N.of_nat (length c)) = blen (concat (Bp ++ [c]))).
    { rewrite concat_snoc, blen_app, <- Hoff. unfold u64. apply N.mod_small.
      assert (blen (concat (Bp ++ [c])) <= blen basis).
      { rewrite <- HB, HBp. change (Bp ++ (c :: cs) ++ post) with (Bp ++ [c] ++ (cs ++ post)).
        rewrite app_assoc, (concat_app (Bp ++ [c])), (blen_app (concat (Bp ++ [c]))). lia. }
      rewrite concat_snoc, blen_app, <- Hoff in H. fold (blen c).
      change (2 ^ 63) with 9223372036854775808 in *. change (2 ^ 64) with 18446744073709551616. lia. }
    rewrite E.
    destruct (IH (map_insert (hash c) off m) (blen (concat (Bp ++ [c]))) (Bp ++ [c])) as (m' & E' & H1 & H2).
    + intros h o Hl. unfold map_insert in Hl. destruct (lookup (hash c) m) eqn:El.
      * apply located_app. now apply Hm.
      * rewrite lookup_snoc in Hl. destruct (lookup h m) eqn:Eh.
        -- apply located_app. apply Hm. congruence.
        -- destruct (N.eqb_spec (hash c) h); [|discriminate]. injection Hl as <-.
           exists Bp, c, []. auto.
    + intros x Hx. unfold map_insert. apply in_app_or in Hx. destruct Hx as [Hx|[<-|[]]].
      * destruct (lookup (hash c) m) eqn:El; [now apply Hc|]. rewrite lookup_snoc.
        specialize (Hc x Hx). destruct (lookup (hash x) m); [discriminate|congruence].
      * destruct (lookup (hash c) m) eqn:El; [congruence|]. rewrite lookup_snoc, El, N.eqb_refl. discriminate.
    + reflexivity.
    + exists post. rewrite HBp, <- app_assoc. reflexivity.
    + exists m'. rewrite <- app_assoc in *. cbn [app] in *. auto.
Qed.

Variable available : nat -> bool.

Lemma batch_cut b batches Br : describes hash (b :: batches) Br ->
  sm_sizes b <> [] /\ length (sm_hashes b) = length (sm_sizes b) /\
  sm_sizes b = map (fun c => N.of_nat (length c)) (firstn (length (sm_sizes b)) Br) /\
  sm_hashes b = map hash (firstn (length (sm_sizes b)) Br) /\
  describes hash batches (skipn (length (sm_sizes b)) Br).
Proof.
  intros (D1 & D2 & D3). inversion D3 as [|x y (Hb1 & Hb2) Hb3]; subst.
  cbn [map concat] in D1, D2.
  split; [exact Hb1|]. split; [exact Hb2|]. split; [|split].
  - pose proof (f_equal (firstn (length (sm_sizes b))) D1) as X. rewrite firstn_app_exact, firstn_map in X. exact X.
  - pose proof (f_equal (firstn (length (sm_sizes b))) D2) as X. rewrite <- Hb2, firstn_app_exact, firstn_map, Hb2 in X. exact X.
  - split; [|split; [|exact Hb3]].
    + pose proof (f_equal (skipn (length (sm_sizes b))) D1) as X. rewrite skipn_app_exact, skipn_map in X. exact X.
    + pose proof (f_equal (skipn (length (sm_sizes b))) D2) as X. rewrite <- Hb2, skipn_app_exact, skipn_map, Hb2 in X. exact X.
Qed.

(** Processing one message that is there. *)
Lemma rx_take r tick m ms : RI r -> rx_all r = false -> rx_msgs r = m :: ms ->
  exists r', (if negb (length (sm_hashes m) =? length (sm_sizes m))%nat then Fail
          else match sm_sizes m with
          | [] => Ok (mk_rx (rx_map r) (rx_off r) true ms tick)
          | _ =>
              let '(mp, off) := insert_chunks (rx_map r) (rx_off r) (sm_hashes m) (sm_sizes m) in
              Ok (mk_rx mp off false ms tick)
          end) = Ok r' /\ RI r' /\ rx_msgs r' = ms.
Proof.
  intros [(Bp & Br & HBB & Hoff & Hm & Hc & Hrest)] Eall Emsg. rewrite Eall in Hrest.
  destruct Hrest as (batches & Em & D). rewrite Emsg in Em.
  destruct batches as [|b batches]; cbn [app] in Em; injection Em as -> ->.
  - cbn [empty_sigmsg sm_hashes sm_sizes length Nat.eqb negb].
    eexists; split; [reflexivity|]. split; [|reflexivity].
    destruct D as (D1 & _). cbn in D1. destruct Br; [|discriminate].
    constructor. exists Bp, []. cbn. auto.
  - destruct (batch_cut b batches Br D) as (Hb1 & Hb2 & Es & Eh & D').
    rewrite Hb2, Nat.eqb_refl. cbn [negb].
    destruct (insert_chunks_spec (firstn (length (sm_sizes b)) Br) (rx_map r) (rx_off r) Bp Hm Hc Hoff) as (m' & E' & H1 & H2).
    { exists (skipn (length (sm_sizes b)) Br). now rewrite firstn_skipn. }
    rewrite <- Es, <- Eh in E'.
    destruct (sm_sizes b) as [|z zs] eqn:Ez; [congruence|]. rewrite <- Ez in *. rewrite E'.
    eexists; split; [reflexivity|]. split; [|reflexivity].
    constructor. exists (Bp ++ firstn (length (sm_sizes b)) Br), (skipn (length (sm_sizes b)) Br).
    cbn [rx_map rx_off rx_all rx_msgs].
    rewrite <- app_assoc, firstn_skipn. repeat split; eauto; try apply D'.
Qed.

Lemma rx_receive_RI block r : RI r -> exists r', rx_receive available block r = Ok r' /\ RI r' /\
  (rx_all r = true -> r' = r) /\
  (block = true -> rx_all r = false -> S (length (rx_msgs r')) = length (rx_msgs r)).
Proof.
  intros HR. unfold rx_receive.
  destruct (rx_all r) eqn:Eall; [exists r; repeat split; auto; [apply HR|discriminate]|].
  assert (Emsg : exists m ms, rx_msgs r = m :: ms).
  { destruct HR as [(Bp & Br & _ & _ & _ & _ & Hrest)]. rewrite Eall in Hrest.
    destruct Hrest as (batches & Em & _). destruct batches; eexists; eexists; exact Em. }
  destruct Emsg as (m & ms & Emsg).
  destruct block; cbn [orb negb].
  - rewrite Emsg. destruct (rx_take r (rx_tick r) m ms HR Eall Emsg) as (r' & E & HR' & El).
    exists r'. split; [exact E|]. split; [exact HR'|]. split; [discriminate|]. intros _ _. now rewrite El.
  - destruct (available (rx_tick r)); cbn [negb].
    + cbn [rx_msgs rx_map rx_off rx_all rx_tick]. rewrite Emsg.
      destruct (rx_take r (S (rx_tick r)) m ms HR Eall Emsg) as (r' & E & HR' & El).
      exists r'. split; [exact E|]. split; [exact HR'|]. split; discriminate.
    + eexists; split; [reflexivity|]. split; [|split; discriminate].
      destruct HR as [X]. constructor. rewrite Eall in X. exact X.
Qed.

Lemma lookup_known r c off : RI r -> In c C -> lookup (hash c) (rx_map r) = Some off ->
  off + blen c <= blen basis /\ c = slice basis off (blen c) /\ known hash B c = true.
Proof.
  intros [(Bp & Br & HBB & _ & Hm & _)] Hin Hl.
  destruct (Hm _ _ Hl) as (pre & c' & post & Ep & Eh & ->).
  assert (EB : B = pre ++ c' :: (post ++ Br)) by (rewrite HBB, Ep, <- app_assoc; reflexivity).
  assert (c' = c). { apply Hcol; auto. rewrite EB. apply in_or_app. right. left. reflexivity. }
  subst c'.
  assert (Eb : basis = concat pre ++ c ++ concat (post ++ Br)) by (rewrite <- HB, EB, concat_app; reflexivity).
  split; [rewrite Eb, !blen_app; lia|]. split.
  - rewrite Eb. symmetry. apply slice_at.
  - unfold known. apply existsb_exists. exists c. split; [rewrite EB; apply in_or_app; right; left; reflexivity|apply N.eqb_refl].
Qed.

Lemma lookup_unknown r c : RI r -> rx_all r = true -> lookup (hash c) (rx_map r) = None -> known hash B c = false.
Proof.
  intros [(Bp & Br & HBB & _ & _ & Hc & Hr)] Hall Hl. rewrite Hall in Hr. subst Br. rewrite app_nil_r in HBB. subst Bp.
  unfold known. destruct (existsb _ B) eqn:E; [|reflexivity]. exfalso.
  apply existsb_exists in E. destruct E as (b & Hb & Eb). apply N.eqb_eq in Eb.
  specialize (Hc b Hb). rewrite Eb in Hc. congruence.
Qed.

Lemma chunk_size_ok c : In c C -> u32 (blen c) = blen c.
Proof.
  intros H. rewrite Forall_forall in HCne. destruct (HCne c H) as (_ & L). unfold u32. apply N.mod_small.
  change (2 ^ 31) with 2147483648 in *. change (2 ^ 32) with 4294967296. lia.
Qed.

Lemma try_add_PI P t r pos : C = P ++ t -> RI r -> forall fuel p,
  PI p -> (ps_idx p <= length P)%nat -> (length P - ps_idx p <= fuel)%nat ->
  exists p', try_add fuel src (map (client_chunk hash) P) r pos p = Ok (pos, p') /\ PI p' /\
    (ps_idx p <= ps_idx p' <= length P)%nat /\
    (rx_all r = true -> (ps_idx p < length P)%nat -> (ps_idx p < ps_idx p')%nat).
Proof.
  intros EC HR. induction fuel as [|f IH]; intros p HP Hi Hf.
  - assert (En : nth_error (map (client_chunk hash) P) (ps_idx p) = None)
      by (apply nth_error_None; rewrite map_length; lia).
    cbn [try_add]. rewrite En. exists p. split; [reflexivity|]. split; [exact HP|]. split; [lia|]. intros; lia.
  - cbn [try_add]. rewrite nth_error_map. destruct (nth_error P (ps_idx p)) as [c|] eqn:En; cbn [option_map].
    2:{ apply nth_error_None in En. exists p. split; [reflexivity|]. split; [exact HP|]. split; [lia|]. intros; lia. }
    assert (Hlt : (ps_idx p < length P)%nat) by (apply nth_error_Some; congruence).
    assert (EnC : nth_error C (ps_idx p) = Some c) by (rewrite EC, nth_error_app1; assumption).
    assert (Hin : In c C) by (eapply nth_error_In; exact EnC).
    unfold client_chunk. rewrite (chunk_size_ok c Hin).
    assert (Step : forall p1, ps_idx p1 = ps_idx p ->
       PI (mk_ps (ps_req p1) (ps_reqsz p1) (ps_off p1) (S (ps_idx p1)) (ps_out p1)) ->
       exists p', (if rx_all r then Ok (pos, mk_ps (ps_req p1) (ps_reqsz p1) (ps_off p1) (S (ps_idx p1)) (ps_out p1))
                   else try_add f src (map (client_chunk hash) P) r pos (mk_ps (ps_req p1) (ps_reqsz p1) (ps_off p1) (S (ps_idx p1)) (ps_out p1))) = Ok (pos, p') /\ PI p' /\
        (ps_idx p <= ps_idx p' <= length P)%nat /\
        (rx_all r = true -> (ps_idx p < length P)%nat -> (ps_idx p < ps_idx p')%nat)).
    { intros p1 E1 HP1. destruct (rx_all r) eqn:Ea.
      - eexists; split; [reflexivity|]. split; [exact HP1|]. cbn [ps_idx]. rewrite E1. split; [lia|]. intros; lia.
      - destruct (IH _ HP1) as (p' & E' & HP' & Hb & _); cbn [ps_idx] in *; rewrite ?E1; [lia|lia|].
        exists p'. rewrite E1 in Hb, E'. split; [exact E'|]. split; [exact HP'|]. split; [lia|]. discriminate. }
    assert (Eidx : forall q z, ps_idx (on_chunk_added q z) = ps_idx q).
    { intros q z. unfold on_chunk_added. destruct (_ <? _); reflexivity. }
    destruct (lookup (hash c) (rx_map r)) as [off|] eqn:El.
    + destruct (lookup_known r c off HR Hin El) as (L1 & L2 & L3).
      cbn [bind]. apply Step.
      * unfold add_existing. rewrite Eidx. match goal with |- context [if ?x then _ else _] => destruct x end; reflexivity.
      * now apply add_existing_PI.
    + destruct (rx_all r) eqn:Ea; [|exists p; split; [reflexivity|]; split; [exact HP|]; split; [lia|discriminate]].
      pose proof (lookup_unknown r c HR Ea El) as Hk.
      destruct (add_new_PI p c pos HP EnC Hk) as (p1 & E1 & HP1). rewrite E1. cbn [bind].
      apply Step; [|exact HP1].
      unfold add_new in E1. match type of E1 with context [if ?x then _ else _] => destruct x end;
      (destruct (file_read src (ps_off p) (blen c)); try discriminate; cbn [bind] in E1;
        injection E1 as <-; rewrite Eidx; reflexivity).
Qed.

(** The do-while loop of the read handler. *)
Lemma diff_loop_PI P t eof pos : C = P ++ t -> forall fuel c,
  cl_chunks c = map (client_chunk hash) P -> RI (cl_rx c) -> PI (cl_ps c) -> (ps_idx (cl_ps c) <= length P)%nat ->
  (length (rx_msgs (cl_rx c)) + (length P - ps_idx (cl_ps c)) < fuel)%nat ->
  exists c', diff_loop available fuel src eof pos c = Ok (pos, c') /\
    cl_buf c' = cl_buf c /\ cl_chunks c' = cl_chunks c /\ RI (cl_rx c') /\ PI (cl_ps c') /\
    (ps_idx (cl_ps c') <= length P)%nat /\
    (eof = true -> rx_all (cl_rx c') = true /\ ps_idx (cl_ps c') = length P).
Proof.
  intros EC. induction fuel as [|f IH]; intros c Ech HR HP Hi Hf; [lia|]. cbn [diff_loop].
  destruct (rx_receive_RI eof (cl_rx c) HR) as (r & Er & HR' & Hsame & Hdec). rewrite Er. cbn [bind].
  rewrite Ech. rewrite map_length.
  destruct (try_add_PI P t r pos EC HR' (length P) (cl_ps c) HP Hi) as (p & Ep & HP' & Hb & Hadv); [lia|].
  rewrite Ep. cbn [bind cl_chunks]. rewrite map_length.
  destruct eof; cbn [andb].
  - destruct (negb (rx_all r) || (ps_idx p <? length P)%nat) eqn:Econt.
    + destruct (IH (mk_cl (cl_buf c) (map (client_chunk hash) P) r p)) as (c' & E' & B1 & B2 & B3 & B4 & B5 & B6); auto.
      * cbn [cl_ps]. lia.
      * cbn [cl_rx cl_ps]. destruct (rx_all (cl_rx c)) eqn:Ea.
        -- specialize (Hsame eq_refl). subst r. rewrite Ea in Econt. cbn in Econt. apply Nat.ltb_lt in Econt.
           specialize (Hadv Ea ltac:(lia)). lia.
        -- specialize (Hdec eq_refl eq_refl). lia.
      * exists c'. cbn [cl_buf cl_chunks] in B1, B2. auto 10.
    + apply orb_false_iff in Econt. destruct Econt as (E1 & E2). apply negb_false_iff in E1. apply Nat.ltb_ge in E2.
      eexists; split; [reflexivity|]. cbn [cl_buf cl_chunks cl_rx cl_ps]. rewrite E1.
      split; [reflexivity|]. split; [reflexivity|]. split; [exact HR'|]. split; [exact HP'|]. split; [lia|]. split; [reflexivity|lia].
  - eexists; split; [reflexivity|]. cbn [cl_buf cl_chunks cl_rx cl_ps].
    split; [reflexivity|]. split; [reflexivity|]. split; [exact HR'|]. split; [exact HP'|]. split; [lia|discriminate].
Qed.

Lemma PI_init : PI (mk_ps empty_request 0 0 0%nat []).
Proof.
  constructor; cbn; try apply Nat.le_0_l; try apply N.le_0_l; try reflexivity.
  exists [], [], []. repeat split; try constructor; auto; try congruence.
  intros es0 e X. destruct es0; discriminate.
Qed.
End Diff.

Lemma first_piece (C rest : list bytes) d0 src k : concat C = src -> d0 ++ concat rest = src ->
  (length (hd [] C) <= length d0)%nat -> C <> [] ->
  (forall pre c post, C = pre ++ c :: post -> post <> [] -> (k <= length c)%nat) -> (4 <= k)%nat ->
  (4 <= length d0)%nat \/ d0 = src.
Proof.
  intros HC Hcat L Hne Hs Hk. destruct C as [|c0 [|c1 C1]]; [congruence| |].
  - right. cbn in HC, L. rewrite app_nil_r in HC. subst c0.
    pose proof (f_equal (@length _) Hcat) as E. rewrite app_length in E.
    destruct (concat rest); [now rewrite app_nil_r in Hcat|cbn [length] in E; lia].
  - left. specialize (Hs [] c0 (c1 :: C1) eq_refl ltac:(discriminate)). cbn in L. lia.
Qed.

(** ** Everything together *)
Section Main.
Variable hash : bytes -> N.
Variable w : nat.
Variable gear : byte -> N.
Variable cfg : config.
Variable iobuf : nat.
Hypothesis Hw : (1 <= w)%nat.
Hypothesis Hcfg : wf_config cfg.
Hypothesis Hio : (1 <= iobuf)%nat.
Hypothesis Hmax : N.of_nat (max_size cfg) <= 2 ^ 31.
Notation chunking := (ProofFastcdc.chunking w gear cfg).
Variables basis src : bytes.
Hypothesis Hbasis : blen basis < 2 ^ 63.
Hypothesis Hsrc : blen src < 2 ^ 63.
Variables B C : list bytes.
Hypothesis HB : chunking basis B.
Hypothesis HC : chunking src C.
Hypothesis Hcol : no_collisions hash B C.
Variable available : nat -> bool.
Variable batches : list sigmsg.
Hypothesis Hd : describes hash batches B.

Definition DI (pos : nat) (c : cl) : Prop :=
  exists P, CI w gear cfg src P (cl_buf c) pos /\ cl_chunks c = map (client_chunk hash) P /\
    RI hash B (cl_rx c) /\ PI (N.of_nat (max_size cfg)) hash basis B C (cl_ps c) /\ (ps_idx (cl_ps c) <= length P)%nat.

Lemma HBc : concat B = basis. Proof. exact (chunking_concat w gear cfg basis B HB). Qed.
Lemma HCc : concat C = src. Proof. exact (chunking_concat w gear cfg src C HC). Qed.
Lemma HCne : Forall (fun c => c <> [] /\ blen c <= N.of_nat (max_size cfg)) C.
Proof. apply Forall_forall. intros c Hin. destruct (chunk_u32 hash w gear cfg iobuf Hw Hcfg Hio Hmax src C c HC Hin); tauto. Qed.

Theorem diff_spec : exists p, create_diff hash w gear cfg iobuf available src (batches ++ [empty_sigmsg]) = Ok (ps_flush p) /\
  PI (N.of_nat (max_size cfg)) hash basis B C p /\ ps_idx p = length C.
Proof.
  unfold create_diff.
  destruct (stream_read_inv iobuf src (diff_handler hash w gear cfg available src) DI
     (fun c => PI (N.of_nat (max_size cfg)) hash basis B C (cl_ps c) /\ ps_idx (cl_ps c) = length C) Hio)
    with (fuel := S (length src)) (pos := 0%nat)
       (st := mk_cl [] [] (mk_rx [] 0 false (batches ++ [empty_sigmsg]) 0%nat) (mk_ps empty_request 0 0 0%nat []))
    as (c & E & HPc & Hidx).
  - intros pos c block Eb Hne (P & HCI & Ech & HR & HP & Hi).
    destruct (CI_step hash w gear cfg iobuf Hw Hcfg Hio Hmax src P (cl_buf c) pos block HCI Eb Hne) as (cs & buf' & Ep & HCI').
    unfold diff_handler. rewrite Ep. cbn [bind]. rewrite app_nil_r, Ech, <- map_app.
    destruct (CI_prefix w gear cfg Hw Hcfg _ _ _ _ C HCI' HC) as (t & EC).
    destruct (diff_loop_PI (N.of_nat (max_size cfg)) hash basis src B C HBc HCc Hbasis Hsrc Hmax HCne Hcol available (P ++ cs) t false (pos + length block) EC
       (S (length (rx_msgs (cl_rx c)) + length (map (client_chunk hash) (P ++ cs))))
       (mk_cl buf' (map (client_chunk hash) (P ++ cs)) (cl_rx c) (cl_ps c)))
      as (c' & E' & B1 & B2 & B3 & B4 & B5 & _); auto.
    { cbn [cl_ps]. rewrite app_length. lia. }
    { cbn [cl_ps cl_rx]. rewrite map_length. lia. }
    exists c'. split; [exact E'|]. exists (P ++ cs). rewrite B1, B2. auto.
  - intros c (P & HCI & Ech & HR & HP & Hi).
    destruct (CI_eof w gear cfg Hw Hcfg src P (cl_buf c) HCI) as (cs & Ep & Hch).
    unfold diff_handler. rewrite Ep. cbn [bind]. rewrite process_nil. cbn [bind]. rewrite app_nil_r, Ech, <- map_app.
    assert (EC : C = P ++ cs) by (eapply chunking_det; eauto).
    destruct (diff_loop_PI (N.of_nat (max_size cfg)) hash basis src B C HBc HCc Hbasis Hsrc Hmax HCne Hcol available (P ++ cs) [] true (length src) ltac:(now rewrite app_nil_r)
       (S (length (rx_msgs (cl_rx c)) + length (map (client_chunk hash) (P ++ cs))))
       (mk_cl [] (map (client_chunk hash) (P ++ cs)) (cl_rx c) (cl_ps c)))
      as (c' & E' & B1 & B2 & B3 & B4 & B5 & B6); auto.
    { cbn [cl_ps]. rewrite app_length. lia. }
    { cbn [cl_ps cl_rx]. rewrite map_length. lia. }
    exists c'. split; [exact E'|]. split; [exact B4|]. rewrite EC. now apply B6.
  - lia.
  - lia.
  - exists []. split; [eapply CI_init; eassumption|]. split; [reflexivity|]. split.
    + constructor. exists [], B. cbn. repeat split; try discriminate; try tauto.
      exists batches. split; [reflexivity|exact Hd].
    + split; [apply PI_init|]. cbn. lia.
  - rewrite E. cbn [bind snd]. eauto.
Qed.

Lemma is_executable_prefix d s : (exists r, s = d ++ r) -> (4 <= length d)%nat \/ d = s -> is_executable d = is_executable s.
Proof.
  intros (r & ->) [H|H]; [|congruence]. unfold is_executable, starts_with.
  rewrite app_length. destruct (Nat.ltb_spec (length d) 4); [lia|]. destruct (Nat.ltb_spec (length d + length r) 4); [lia|].
  destruct d as [|a [|b [|x [|y d]]]]; cbn [length] in *; try lia. reflexivity.
Qed.

Theorem patch_diff : exists reqs final,
  create_diff hash w gear cfg iobuf available src (batches ++ [empty_sigmsg]) = Ok (reqs ++ [final]) /\
  rq_sources final = [] /\ Forall (fun q => rq_sources q <> []) reqs /\
  Forall (fun q => 13 * N.of_nat (length (rq_sources q)) + blen (rq_data q) <= 65536 + 13 + N.of_nat (max_size cfg)) reqs /\
  concat (map rq_data reqs) = concat (filter (fun c => negb (known hash B c)) C) /\
  ((4 <= min_size cfg)%nat -> patch basis (reqs ++ [final]) = Ok (src, is_executable src)) /\
  exists ex, patch basis (reqs ++ [final]) = Ok (src, ex).
Proof.
  destruct diff_spec as (p & E & [Hi (dss & ds & es & Fo & He & Fp & Hcat & Hsz & Hlast & Hnil & Hfirst) Ho Hl Hdata] & Hidx).
  rewrite Hidx, firstn_all in Hdata. rewrite Hidx in Hcat, Hfirst. unfold done_ in Hcat. rewrite firstn_all, HCc in Hcat.
  assert (G : forall reqs dss' final, Forall2 (msg_ok (N.of_nat (max_size cfg)) basis) reqs dss' -> concat dss' = concat dss ++ ds ->
     rq_sources final = [] -> rq_offsets final = [] -> rq_sizes final = [] ->
     concat (map rq_data reqs) = concat (filter (fresh hash B) C) ->
     ps_flush p = reqs ++ [final] ->
     exists reqs final,
      create_diff hash w gear cfg iobuf available src (batches ++ [empty_sigmsg]) = Ok (reqs ++ [final]) /\
      rq_sources final = [] /\ Forall (fun q => rq_sources q <> []) reqs /\
      Forall (fun q => 13 * N.of_nat (length (rq_sources q)) + blen (rq_data q) <= 65536 + 13 + N.of_nat (max_size cfg)) reqs /\
      concat (map rq_data reqs) = concat (filter (fun c => negb (known hash B c)) C) /\
      ((4 <= min_size cfg)%nat -> patch basis (reqs ++ [final]) = Ok (src, is_executable src)) /\
      exists ex, patch basis (reqs ++ [final]) = Ok (src, ex)).
  { intros reqs dss' final F Ed E1 E2 E3 Edata Ef. exists reqs, final. rewrite <- Ef. split; [exact E|].
    split; [exact E1|].
    split. { clear -F. induction F as [|q d l l' (es & (H & _) & _ & Hne & _) F IH]; constructor; auto.
             rewrite H. destruct es; [congruence|discriminate]. }
    split. { clear -F. induction F as [|q d l l' (es & (H & _) & _ & _ & Hs) F IH]; constructor; auto.
             rewrite H, map_length. exact Hs. }
    split; [exact Edata|]. rewrite Ef. unfold patch.
    rewrite (patch_loop_ok (N.of_nat (max_size cfg)) basis reqs dss' Hmax Hbasis F _ final [] E1 E2 E3). cbn [bind].
    rewrite Ed, fold_step.
    destruct (concat dss ++ ds) as [|d0 rest] eqn:Eds.
    - cbn in Hcat. cbn. split; [|eexists; subst src; reflexivity]. intros _. rewrite <- Hcat. reflexivity.
    - cbn [pt_out pt_exec]. rewrite Hcat. split; [|eauto]. intros Hmin. do 2 f_equal.
      assert (Cne0 : C <> []). { intros X. pose proof HCc as Y. rewrite X in Y. cbn in Y. rewrite <- Y in Hcat.
        assert (F' : Forall (fun d : bytes => d <> []) (concat dss')) by (eapply msgs_ne; exact F).
        rewrite Ed in F'. inversion F' as [|? ? Fd0 ?]. cbn in Hcat. apply app_eq_nil in Hcat. tauto. }
      assert (Hlen0 : length C <> 0%nat) by (intros X; apply Cne0; now apply length_zero_iff_nil).
      destruct (Hfirst Hlen0) as (d1 & rest1 & X & L). injection X as <- <-.
      apply is_executable_prefix; [exists (concat rest); rewrite <- Hcat; reflexivity|].
      exact (first_piece C rest d0 src (min_size cfg) HCc Hcat L Cne0
               (proj2 (chunking_sizes w gear cfg Hw Hcfg src C HC)) Hmin). }
  destruct He as (H1 & H2 & H3).
  destruct (N.ltb_spec 0 (ps_reqsz p)) as [L|L].
  - apply (G (ps_out p ++ [ps_req p]) (dss ++ [ds]) empty_request); try reflexivity.
    + apply Forall2_app; [exact Fo|]. constructor; [|constructor].
      assert (Hne : es <> []) by (intros ->; rewrite (Hnil eq_refl) in Hsz; cbn in Hsz; lia).
      exists es. repeat split; auto. change (2 ^ 31) with 2147483648. lia.
    + rewrite concat_app. cbn. now rewrite app_nil_r.
    + rewrite map_app, concat_app. cbn. rewrite app_nil_r. exact Hdata.
    + unfold ps_flush. destruct (N.ltb_spec 0 (ps_reqsz p)); [|lia]. rewrite <- app_assoc. reflexivity.
  - assert (es = []) by (destruct es; [reflexivity|cbn [length] in Hsz; lia]). subst es.
    inversion Fp; subst ds. cbn in H1, H2, H3.
    apply (G (ps_out p) dss (ps_req p)); auto.
    + now rewrite app_nil_r.
    + rewrite (Hnil eq_refl), app_nil_r in Hdata. exact Hdata.
    + unfold ps_flush. destruct (N.ltb_spec 0 (ps_reqsz p)); [lia|]. reflexivity.
Qed.
End Main.
