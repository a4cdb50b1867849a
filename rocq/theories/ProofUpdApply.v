(** What ApplyOperations does for a scanned directory. *)
From Verif Require Import Base ListX Str ModelText ModelPath SpecPath ModelCdc ModelChunkMap ModelProvider ModelAsset SpecAsset
  ModelManifest SpecManifest ProofManifest ProofTree PropManifest ProofAtDir ModelUpdater SpecUpdater ProofUpdater ProofUpdEffect.
From Coq Require Import Permutation.
Local Open Scope N_scope.

Section Apply.
Context (store : cid -> option (list asset)) (now : N).
Notation bv := (bview store now).

Lemma beff_refl b ds : b_root b <> None -> btidy store now b -> beff store now b b ds (bv b).
Proof. intros R T. constructor; auto. Qed.
Lemma beff_trans b b1 b2 ds w1 w2 : beff store now b b1 ds w1 -> beff store now b1 b2 ds w2 -> beff store now b b2 ds w2.
Proof. intros [A B C D O] [E F G H O']. constructor; auto. Qed.

Lemma removelast_snoc {A} (l : list A) x : removelast (l ++ [x]) = l.
Proof. now rewrite removelast_last. Qed.

Definition is_del (q : path) (o : operation) : bool := match fst o with KDelete => is_prefix (split_unix (op_path o)) q | _ => false end.
Definition in_dir (D : path) (o : operation) : Prop := exists n, good_name n /\ op_path o = pstr (D ++ [n]).

Lemma deletes_eff D : Forall good_name D -> forall ops last s s', b_root (u_b s) <> None -> btidy store now (u_b s) -> Forall (in_dir D) ops ->
  (forall d q, last = Some d -> is_prefix (split_unix d) q = true -> bv (u_b s) q = None) ->
  apply_deletes store now ops last s = (None, s') ->
  beff store now (u_b s) (u_b s') D (fun q => if existsb (is_del q) ops then None else bv (u_b s) q) /\ u_q s' = u_q s /\ u_ids s' = u_ids s.
Proof.
  intros GD. induction ops as [|[k ai] ops IH]; intros last s s' R T F Hl E.
  { cbn in E. inversion E; subst. split; [now apply beff_refl|auto]. }
  inversion F as [|o l (n & Gn & Po) F']; subst. cbn [op_path snd] in Po. unfold op_path in Po. cbn [snd] in Po.
  assert (GP : Forall good_name (D ++ [n])) by (apply Forall_app; auto).
  assert (Skip : k <> KDelete -> apply_deletes store now ops last s = (None, s') ->
    beff store now (u_b s) (u_b s') D (fun q => if existsb (is_del q) ((k, ai) :: ops) then None else bv (u_b s) q) /\ u_q s' = u_q s /\ u_ids s' = u_ids s).
  { intros Nk E0. destruct (IH last s s' R T F' Hl E0) as ([A B C De Ow] & Q & I). split; [|auto]. constructor; auto.
    intros q. rewrite C. cbn [existsb]. unfold is_del at 2. cbn [fst]. destruct k; try reflexivity. congruence. }
  destruct k; cbn [apply_deletes] in E; try (apply Skip; [discriminate|exact E]). clear Skip.
  set (s1 := with_fc s (ORemove (ai_path ai))) in *. destruct (match last with Some d => inside d (ai_path ai) | None => false end) eqn:Ins.
  - destruct last as [d|]; [|discriminate]. apply inside_prefix in Ins.
    destruct (IH (Some d) s1 s' R T F' Hl E) as ([A B C De Ow] & Q & I). split; [|auto]. constructor; auto.
    intros q. rewrite C. cbn [existsb]. destruct (is_del q (KDelete, ai)) eqn:Dq; [|reflexivity]. cbn [orb]. destruct (existsb (is_del q) ops); [reflexivity|].
    apply (Hl d q eq_refl). eapply is_prefix_trans; [exact Ins|exact Dq].
  - destruct (delete_asset store now (ai_path ai) (u_b s1)) as [[e|] b] eqn:Ed; [discriminate|]. rewrite Po in Ed. apply delete_eff in Ed; auto.
    destruct Ed as (_ & Be). rewrite removelast_snoc in Be.
    destruct (IH (Some (ai_path ai)) (with_b s1 b) s' (be_root _ _ _ _ _ _ Be) (be_tidy _ _ _ _ _ _ Be) F') as (Be2 & Q & I); [|exact E|].
    + intros d q Ed Pq. inversion Ed; subst d. cbn [u_b with_b]. rewrite (be_view _ _ _ _ _ _ Be). rewrite Po, pstr_split in Pq by exact GP. unfold after_delete. now rewrite Pq.
    + split; [|auto]. destruct (beff_trans _ _ _ _ _ _ Be Be2) as [A B C De Ow]. constructor; auto.
      intros q. rewrite C. cbn [u_b with_b existsb]. rewrite (be_view _ _ _ _ _ _ Be). unfold is_del at 2. cbn [fst]. unfold op_path. cbn [snd]. rewrite Po, pstr_split by exact GP.
      unfold after_delete. cbn [u_b with_fc s1]. destruct (is_prefix (D ++ [n]) q), (existsb (is_del q) ops); reflexivity.
Qed.

(** * The second loop *)
Definition pkey (a : passet) : N * bytes := (pa_type a, join (pa_rel a) (pa_name a)).
Definition akey (ai : ainfo) : N * bytes := (type_num (ai_type ai), ai_path ai).
Definition news (ops : list operation) : list ainfo := flat_map (fun o => match fst o with KAdd | KUpdate => [snd o] | _ => [] end) ops.

Lemma queue_add_perm a q : Permutation (queue_add a q) (a :: q).
Proof.
  unfold queue_add. destruct (infinite (pa_deadline a)).
  - rewrite Permutation_app_comm. reflexivity.
  - induction q as [|x q IH]; [reflexivity|]. cbn. destruct (infinite _); [reflexivity|]. rewrite IH. constructor.
Qed.

(** The entry of one asset below [D ++ [n]] after the operation. *)
Definition added (ai : ainfo) (r : path) : option info := match r with [] => Some (set_fields true ai (blank (ai_type ai))) | _ => None end.

Record updated (D : path) (ops : list operation) (v w : path -> option info) : Prop := {
  up_out : forall q, (forall n r, q <> D ++ n :: r) -> w q = v q;
  up_none : forall n r, (good_name n -> forall ai, In ai (news ops) -> ai_path ai <> pstr (D ++ [n])) -> w (D ++ n :: r) = v (D ++ n :: r);
  up_add : forall n ai r, good_name n -> In (KAdd, ai) ops -> ai_path ai = pstr (D ++ [n]) -> w (D ++ n :: r) = added ai r;
  up_update : forall n ai r, good_name n -> In (KUpdate, ai) ops -> ai_path ai = pstr (D ++ [n]) ->
    w (D ++ n :: r) = after_create now v (D ++ [n]) (ai_type ai) (set_fields true ai) (D ++ n :: r) }.

Lemma set_fields_type rec ai i : i_type (set_fields rec ai i) = i_type i.
Proof. unfold set_fields. destruct (ai_type ai); reflexivity. Qed.

Lemma peq_refl (p : path) : path_eqb p p = true.
Proof. now apply path_eqb_eq. Qed.
Lemma peq_neq (p q : path) : p <> q -> path_eqb p q = false.
Proof. intros H. apply Bool.not_true_is_false. intros E. apply H. now apply path_eqb_eq. Qed.
Lemma pre_snoc (D : path) n m r : is_prefix (D ++ [n]) (D ++ m :: r) = name_eqb n m.
Proof. rewrite is_prefix_app. apply prefix_one. Qed.

Lemma updated_refl D v w : (forall q, w q = v q) -> updated D [] v w.
Proof. intros H. constructor; intros; auto; contradiction. Qed.

Lemma after_create_local v v1 D n ty f r : (forall s, v1 (D ++ n :: s) = v (D ++ n :: s)) ->
  after_create now v1 (D ++ [n]) ty f (D ++ n :: r) = after_create now v (D ++ [n]) ty f (D ++ n :: r).
Proof.
  intros H. unfold after_create, kept. rewrite pre_snoc, name_eqb_refl, !H. destruct (path_eqb (D ++ n :: r) (D ++ [n])); [reflexivity|].
  destruct (is_prefix (D ++ n :: r) (D ++ [n])); reflexivity.
Qed.

Lemma updated_cons D o ops v v1 w : ~ In (op_path o) (map op_path ops) -> updated D [o] v v1 -> updated D ops v1 w -> updated D (o :: ops) v w.
Proof.
  intros Ni [A1 A2 A3 A4] [B1 B2 B3 B4].
  assert (Other : forall n, good_name n -> (forall ai, In ai (news [o]) -> ai_path ai <> pstr (D ++ [n])) -> forall s, v1 (D ++ n :: s) = v (D ++ n :: s)) by (intros; auto).
  assert (Nn : forall n, op_path o = pstr (D ++ [n]) -> forall ai, In ai (news ops) -> ai_path ai <> pstr (D ++ [n])).
  { intros n E ai I X. apply Ni. rewrite E, <- X. apply in_flat_map in I. destruct I as (o' & Io & Ia). apply in_map_iff. exists o'. split; [|exact Io].
    unfold op_path. destruct (fst o'); cbn in Ia; try contradiction; destruct Ia as [->|[]]; reflexivity. }
  assert (On : forall n o', In o' ops -> op_path o' = pstr (D ++ [n]) -> forall ai, In ai (news [o]) -> ai_path ai <> pstr (D ++ [n])).
  { intros n o' I E ai Ia X. apply Ni. cbn in Ia. rewrite app_nil_r in Ia.
    assert (ai = snd o) by (destruct (fst o); cbn in Ia; try contradiction; destruct Ia as [->|[]]; reflexivity). subst ai. unfold op_path at 1. rewrite X, <- E. now apply in_map. }
  constructor.
  - intros q H. rewrite B1, A1; auto.
  - intros n r H. rewrite B2, A2; auto; intros G ai I; apply (H G); unfold news in *; cbn [flat_map] in *; rewrite ?app_nil_r in I; apply in_or_app; auto.
  - intros n ai r G [->|I] E; [rewrite B2; auto; apply (A3 n ai r G); [now left|exact E]|now apply B3].
  - intros n ai r G [->|I] E.
    + rewrite B2; auto. apply A4; auto. now left.
    + rewrite (B4 n ai r G I E). apply after_create_local. apply Other; auto. eapply On; [exact I|exact E].
Qed.

Lemma one_add D n ai v w : good_name n -> ai_path ai = pstr (D ++ [n]) -> Forall good_name D ->
  v (D ++ [n]) = None -> (forall r, v (D ++ n :: r) = None) ->
  (forall q, w q = if path_eqb q (D ++ [n]) then Some (set_fields true ai (blank (ai_type ai))) else v q) -> updated D [(KAdd, ai)] v w.
Proof.
  intros G P GD V Vb H. assert (Inj : forall m, good_name m -> pstr (D ++ [n]) = pstr (D ++ [m]) -> m = n).
  { intros m Gm E. apply pstr_inj in E; [|apply Forall_app; auto..]. apply app_inj_tail in E. symmetry. tauto. }
  constructor.
  - intros q Hq. rewrite H, peq_neq; [reflexivity|]. apply Hq.
  - intros m r Hm. rewrite H, peq_neq; [reflexivity|]. intros E. apply app_inv_head in E. inversion E; subst. apply (Hm G ai); [now left|exact P].
  - intros m ai0 r Gm [E|[]] Pm. inversion E; subst ai0. rewrite P in Pm. apply Inj in Pm; [subst m|exact Gm]. rewrite H. destruct r as [|x r].
    + now rewrite peq_refl.
    + rewrite peq_neq; [apply Vb|]. intros X. apply app_inv_head in X. discriminate.
  - intros m ai0 r Gm [E|[]]. discriminate.
Qed.

Lemma dir_above b p q : is_prefix q p = true -> is_dir (bv b p) = true -> is_dir (bv b q) = true.
Proof. intros P H. apply is_prefix_spec in P. destruct P as (s & ->). eapply view_above. exact H. Qed.

Lemma one_update D n ai b w : good_name n -> ai_path ai = pstr (D ++ [n]) -> Forall good_name D -> is_dir (bv b D) = true ->
  (forall q, w q = after_create now (bv b) (D ++ [n]) (ai_type ai) (set_fields true ai) q) -> updated D [(KUpdate, ai)] (bv b) w.
Proof.
  intros G P GD Dd H. assert (Inj : forall m, good_name m -> pstr (D ++ [n]) = pstr (D ++ [m]) -> m = n).
  { intros m Gm E. apply pstr_inj in E; [|apply Forall_app; auto..]. apply app_inj_tail in E. symmetry. tauto. }
  constructor.
  - intros q Hq. rewrite H. unfold after_create. rewrite peq_neq by apply Hq. destruct (is_prefix q (D ++ [n])) eqn:Pq.
    + apply prefix_snoc in Pq. destruct Pq as [Pq|Pq]; [|exfalso; exact (Hq n [] Pq)]. now rewrite (dir_above b D q Pq Dd).
    + destruct (is_prefix (D ++ [n]) q) eqn:Qp; [|reflexivity]. apply is_prefix_spec in Qp. destruct Qp as (s & ->). rewrite <- app_assoc in Hq. exfalso. exact (Hq n s eq_refl).
  - intros m r Hm. assert (Nm : n <> m) by (intros ->; apply (Hm G ai); [now left|exact P]). rewrite H. unfold after_create.
    rewrite pre_snoc, peq_neq by (intros E; apply app_inv_head in E; inversion E; congruence).
    replace (is_prefix (D ++ m :: r) (D ++ [n])) with false; [|symmetry; rewrite is_prefix_app; cbn; destruct (name_eqb m n) eqn:X; [apply name_eqb_eq in X; congruence|reflexivity]].
    destruct (name_eqb n m) eqn:X; [apply name_eqb_eq in X; congruence|reflexivity].
  - intros m ai0 r Gm [E|[]]. discriminate.
  - intros m ai0 r Gm [E|[]] Pm. inversion E; subst ai0. rewrite P in Pm. apply Inj in Pm; [subst m|exact Gm]. apply H.
Qed.

Definition listed_type (ai : ainfo) : Prop := ai_type ai = TFile \/ ai_type ai = TDir.

Lemma split_last P : Forall good_name P -> P <> [] -> split_unix (pstr P) <> [].
Proof. intros F N. now rewrite pstr_split. Qed.

Lemma updates_eff D rel name deadline : Forall good_name D -> join rel name = pstr D -> forall ops s s', b_root (u_b s) <> None -> btidy store now (u_b s) -> Forall (in_dir D) ops ->
  NoDup (map op_path ops) -> is_dir (bv (u_b s) D) = true -> (forall ai, In ai (news ops) -> listed_type ai) ->
  (forall ai, In (KAdd, ai) ops -> bv (u_b s) (split_unix (ai_path ai)) = None) ->
  apply_updates store now ops (Some (rel, name)) deadline true s = (None, s') ->
  beff store now (u_b s) (u_b s') D (bv (u_b s')) /\ updated D ops (bv (u_b s)) (bv (u_b s')) /\ u_ids s' = u_ids s /\
  Permutation (map pkey (u_q s')) (map pkey (u_q s) ++ map akey (news ops)).
Proof.
  intros GD J. induction ops as [|[k ai] ops IH]; intros s s' R T F Nd Dd Lt Na E.
  { cbn in E. inversion E; subst. split; [now apply beff_refl|]. split; [now apply updated_refl|]. split; [reflexivity|]. cbn. now rewrite app_nil_r. }
  inversion F as [|o l (n & Gn & Po) F']; subst. unfold op_path in Po. cbn [snd] in Po. cbn [map] in Nd. inversion Nd as [|x y Ni Nd']; subst.
  assert (GP : Forall good_name (D ++ [n])) by (apply Forall_app; auto).
  (* the rest after a step that leads to [s1] *)
  assert (Rest : forall b q, beff store now (u_b s) b D (bv b) -> updated D [(k, ai)] (bv (u_b s)) (bv b) ->
    Permutation (map pkey q) (map pkey (u_q s) ++ map akey (news [(k, ai)])) ->
    forall s1, u_b s1 = b -> u_q s1 = q -> u_ids s1 = u_ids s -> apply_updates store now ops (Some (rel, name)) deadline true s1 = (None, s') ->
    beff store now (u_b s) (u_b s') D (bv (u_b s')) /\ updated D ((k, ai) :: ops) (bv (u_b s)) (bv (u_b s')) /\ u_ids s' = u_ids s /\
    Permutation (map pkey (u_q s')) (map pkey (u_q s) ++ map akey (news ((k, ai) :: ops)))).
  { intros b q Be Up Pq s1 Eb Eq Ei E1. subst b q. destruct (IH s1 s') as (Be2 & Up2 & I2 & P2); auto.
    - exact (be_root _ _ _ _ _ _ Be).
    - exact (be_tidy _ _ _ _ _ _ Be).
    - rewrite (up_out _ _ _ _ Up); [exact Dd|]. intros m r X. apply (f_equal (@length _)) in X. rewrite app_length in X. cbn in X. lia.
    - intros ai0 I. apply Lt. unfold news in *. cbn [flat_map]. apply in_or_app. now right.
    - intros ai0 I. rewrite Forall_forall in F'. destruct (F' _ I) as (m & Gm & Pm). unfold op_path in Pm. cbn [snd] in Pm.
      specialize (Na ai0 (or_intror I)). assert (GM : Forall good_name (D ++ [m])) by (apply Forall_app; auto). rewrite Pm, pstr_split in * by exact GM.
      rewrite (up_none _ _ _ _ Up m []); auto. intros _ a Ia X. apply Ni. cbn in Ia. rewrite app_nil_r in Ia.
      assert (a = ai) by (destruct k; cbn in Ia; try contradiction; destruct Ia as [->|[]]; reflexivity). subst a. unfold op_path at 1. cbn [snd]. rewrite X, <- Pm.
      apply in_map_iff. exists (KAdd, ai0). auto.
    - split; [eapply beff_trans; eassumption|]. split; [eapply updated_cons; eassumption|]. split; [congruence|].
      rewrite P2, Pq. unfold news. cbn [flat_map]. rewrite !map_app, app_nil_r, <- app_assoc. reflexivity. }
  assert (Qk : forall rel' q0, listed_type ai -> join rel' n = ai_path ai -> Permutation (map pkey (queue_add (mkpasset (type_num (ai_type ai)) rel' n false deadline) q0)) (map pkey q0 ++ [akey ai])).
  { intros rel' q0 Lt0 Jr. rewrite queue_add_perm. cbn [map]. unfold pkey at 1. cbn [pa_type pa_rel pa_name]. rewrite Jr. apply Permutation_cons_append. }
  assert (Ip : forall b, listed_type ai -> in_progress_after store now true ai b = true) by (intros b [X|X]; unfold in_progress_after; rewrite X; reflexivity).
  destruct k; cbn [apply_updates] in E.
  - (* Add *)
    assert (Lt0 : listed_type ai) by (apply Lt; now left). pose proof (Na ai (or_introl eq_refl)) as V. rewrite Po, pstr_split in V by exact GP.
    rewrite Po, base_pstr in E by auto.
    destruct (append_asset store now (rel, name) n (ai_type ai) (set_fields true ai) (u_b s)) as [[e|] b] eqn:Ea; [discriminate|].
    apply append_eff with (D := D) in Ea; auto. rewrite Ip in E by exact Lt0. cbn [rel_file fst snd] in E. unfold rel_file in E. cbn [fst snd] in E. rewrite J in E.
    eapply (Rest b); [| | | | | |exact E]; try reflexivity.
    + constructor; [apply Ea|apply Ea|reflexivity|apply Ea|apply Ea].
    + apply one_add with (n := n); auto; [|apply (be_view _ _ _ _ _ _ Ea)]. intros r. destruct r as [|m r]; [exact V|].
      replace (D ++ n :: m :: r) with ((D ++ [n]) ++ m :: r) by (rewrite <- app_assoc; reflexivity). apply view_below; [|discriminate]. fold (bv (u_b s) (D ++ [n])). now rewrite V.
    + cbn [u_q with_b news flat_map fst snd app map]. apply Qk; [exact Lt0|]. rewrite Po. apply join_pstr; [exact GD|apply Gn].
  - (* Update *)
    assert (Lt0 : listed_type ai) by (apply Lt; now left).
    rewrite Po in E. destruct (get_or_create store now (pstr (D ++ [n])) (ai_type ai) true (set_fields true ai) (u_b s)) as [[e|c] b] eqn:Ec; [discriminate|].
    apply create_eff in Ec; auto using set_fields_type. destruct Ec as (Be & _). rewrite removelast_snoc in Be. rewrite Ip in E by exact Lt0.
    rewrite pstr_split, to_unix_pstr, dir_pstr in E by auto.
    replace (match D ++ [n] with [] => [] | _ :: _ => pstr D end) with (pstr D) in E by (destruct D; reflexivity).
    replace (last (D ++ [n]) []) with n in E by (symmetry; apply last_last).
    eapply (Rest b); [| | | | | |exact E]; try reflexivity.
    + constructor; [apply Be|apply Be|reflexivity|apply Be|apply Be].
    + apply one_update with (n := n); auto. apply Be.
    + cbn [u_q with_b news flat_map fst snd app map]. apply Qk; [exact Lt0|]. rewrite Po. apply join_pstr; [exact GD|apply Gn].
  - (* Delete *)
    eapply (Rest (u_b s) (u_q s)); [| | | | | |exact E]; try reflexivity.
    + now apply beff_refl.
    + constructor; intros; auto; cbn in *; intuition discriminate.
    + cbn. now rewrite app_nil_r.
  - (* Keep *)
    eapply (Rest (u_b s) (u_q s)); [| | | | | |exact E]; try reflexivity.
    + now apply beff_refl.
    + constructor; intros; auto; cbn in *; intuition discriminate.
    + cbn. now rewrite app_nil_r.
Qed.

(** * ApplyOperations for the differences of a directory *)
Definition changed (v : path -> option info) (D : path) (e : sentry) : bool :=
  match v (D ++ [se_name e]) with Some i => negb (same_asset i e) | None => true end.
Definition entry_after (v : path -> option info) (D : path) (e : sentry) (r : path) : option info :=
  let ai := src_info (pstr D) e in
  match v (D ++ [se_name e]) with
  | None => added ai r
  | Some i => if same_asset i e then v (D ++ se_name e :: r) else after_create now v (D ++ [se_name e]) (ai_type ai) (set_fields true ai) (D ++ se_name e :: r)
  end.

Theorem ops_eff D rel name deadline es ops s s' : Forall good_name D -> join rel name = pstr D -> b_root (u_b s) <> None -> btidy store now (u_b s) ->
  (forall p, bv (u_b s) p <> None -> Forall good_name p) -> is_dir (bv (u_b s) D) = true ->
  NoDup (map se_name es) -> (forall e, In e es -> good_name (se_name e)) -> differences (bv (u_b s)) D es ops ->
  apply_operations store now ops (Some (rel, name)) deadline true s = (None, s') ->
  beff store now (u_b s) (u_b s') D (bv (u_b s')) /\ u_ids s' = u_ids s /\
  (forall q, (forall n r, q <> D ++ n :: r) -> bv (u_b s') q = bv (u_b s) q) /\
  (forall n r, ~ In n (map se_name es) -> bv (u_b s') (D ++ n :: r) = None) /\
  (forall e r, In e es -> bv (u_b s') (D ++ se_name e :: r) = entry_after (bv (u_b s)) D e r) /\
  Permutation (map pkey (u_q s')) (map pkey (u_q s) ++ map (fun e => akey (src_info (pstr D) e)) (filter (changed (bv (u_b s)) D) es)).
Proof.
  intros GD J R T Gn Dd Ne Ge Df E. set (v := bv (u_b s)) in *. destruct Df as [Dn Da Du De Dk].
  assert (SP : forall e, In e es -> ai_path (src_info (pstr D) e) = pstr (D ++ [se_name e])).
  { intros e I. cbn. rewrite to_unix_pstr by exact GD. apply join_pstr; [exact GD|apply (Ge e I)]. }
  assert (Inj : forall n m, good_name n -> good_name m -> pstr (D ++ [n]) = pstr (D ++ [m]) -> n = m).
  { intros n m A B X. apply pstr_inj in X; [|apply Forall_app; auto..]. apply app_inj_tail in X. tauto. }
  assert (Gv : forall n i, v (D ++ [n]) = Some i -> good_name n).
  { intros n i X. assert (Y : Forall good_name (D ++ [n])) by (apply Gn; fold v; congruence). apply Forall_app in Y. destruct Y as (_ & Y). now inversion Y. }
  assert (Sp : forall n, good_name n -> split_unix (pstr (D ++ [n])) = D ++ [n]) by (intros n G; apply pstr_split, Forall_app; auto).
  assert (Ind : Forall (in_dir D) ops).
  { apply Forall_forall. intros [[] ai] I; unfold in_dir, op_path; cbn [snd].
    - apply Da in I. destruct I as (e & I & _ & ->). exists (se_name e). auto.
    - apply Du in I. destruct I as (e & i & I & _ & _ & ->). exists (se_name e). auto.
    - assert (X : In (KDelete, ai_path ai) (map (fun o => (fst o, ai_path (snd o))) ops)) by (apply in_map_iff; exists (KDelete, ai); auto).
      apply De in X. destruct X as (n & i & V & _ & ->). exists n. eauto.
    - assert (X : In (KKeep, ai_path ai, ai_size ai) (map (fun o => (fst o, ai_path (snd o), ai_size (snd o))) ops)) by (apply in_map_iff; exists (KKeep, ai); auto).
      apply Dk in X. destruct X as (e & i & I0 & _ & _ & -> & _). exists (se_name e). auto. }
  assert (Nw : forall ai, In ai (news ops) <-> exists e, In e es /\ changed v D e = true /\ ai = src_info (pstr D) e).
  { intros ai. unfold news. rewrite in_flat_map. split.
    - intros ([k a] & I & Ia). destruct k; cbn [fst snd] in Ia; try contradiction; destruct Ia as [->|[]].
      + apply Da in I. destruct I as (e & I & V & ->). exists e. unfold changed. rewrite V. auto.
      + apply Du in I. destruct I as (e & i & I & V & Sa & ->). exists e. unfold changed. rewrite V, Sa. auto.
    - intros (e & I & C & ->). unfold changed in C. destruct (v (D ++ [se_name e])) as [i|] eqn:V.
      + exists (KUpdate, src_info (pstr D) e). split; [|now left]. apply Du. exists e, i. destruct (same_asset i e); [discriminate|auto].
      + exists (KAdd, src_info (pstr D) e). split; [|now left]. apply Da. exists e. auto. }
  unfold apply_operations in E. destruct (apply_deletes store now ops None s) as [[e0|] s1] eqn:Ed; [discriminate|].
  destruct (deletes_eff D GD ops None s s1 R T Ind ltac:(discriminate) Ed) as (Be1 & Q1 & I1).
  assert (Del : forall n r, existsb (is_del (D ++ n :: r)) ops = true <-> exists i, v (D ++ [n]) = Some i /\ ~ In n (map se_name es)).
  { intros n r. rewrite existsb_exists. split.
    - intros ([k ai] & I & H). unfold is_del in H. cbn [fst] in H. destruct k; try discriminate. unfold op_path in H. cbn [snd] in H.
      assert (X : In (KDelete, ai_path ai) (map (fun o => (fst o, ai_path (snd o))) ops)) by (apply in_map_iff; exists (KDelete, ai); auto).
      apply De in X. destruct X as (m & i & V & Nm & Pm). rewrite Pm, Sp, pre_snoc in H by eauto. apply name_eqb_eq in H. subst m. eauto.
    - intros (i & V & N). assert (X : In (KDelete, pstr (D ++ [n])) (map (fun o => (fst o, ai_path (snd o))) ops)) by (apply De; eauto 6).
      apply in_map_iff in X. destruct X as ([k ai] & X & I). cbn in X. inversion X; subst k. exists (KDelete, ai). split; [exact I|]. unfold is_del, op_path. cbn [fst snd].
      rewrite H1, Sp, pre_snoc by eauto. apply name_eqb_refl. }
  assert (V1out : forall q, (forall n r, q <> D ++ n :: r) -> bv (u_b s1) q = v q).
  { intros q H. rewrite (be_view _ _ _ _ _ _ Be1). destruct (existsb (is_del q) ops) eqn:X; [|reflexivity]. exfalso. apply existsb_exists in X. destruct X as ([k ai] & I & X).
    unfold is_del in X. cbn [fst] in X. destruct k; try discriminate. rewrite Forall_forall in Ind. destruct (Ind _ I) as (m & Gm & Pm). rewrite Pm, Sp in X by exact Gm.
    apply is_prefix_spec in X. destruct X as (t & ->). rewrite <- app_assoc in H. exact (H m t eq_refl). }
  assert (V1in : forall e r, In e es -> bv (u_b s1) (D ++ se_name e :: r) = v (D ++ se_name e :: r)).
  { intros e r I. rewrite (be_view _ _ _ _ _ _ Be1). destruct (existsb (is_del (D ++ se_name e :: r)) ops) eqn:X; [|reflexivity]. exfalso. apply Del in X.
    destruct X as (i & _ & N). apply N. now apply in_map. }
  assert (V1del : forall n r, ~ In n (map se_name es) -> bv (u_b s1) (D ++ n :: r) = None).
  { intros n r N. rewrite (be_view _ _ _ _ _ _ Be1). destruct (v (D ++ [n])) as [i|] eqn:V.
    - assert (X : existsb (is_del (D ++ n :: r)) ops = true) by (apply Del; eauto). now rewrite X.
    - destruct (existsb _ ops); [reflexivity|]. destruct r as [|m r]; [exact V|].
      replace (D ++ n :: m :: r) with ((D ++ [n]) ++ m :: r) by (rewrite <- app_assoc; reflexivity). apply view_below; [|discriminate]. fold (bv (u_b s) (D ++ [n])). fold v. now rewrite V. }
  destruct (updates_eff D rel name deadline GD J ops s1 s' (be_root _ _ _ _ _ _ Be1) (be_tidy _ _ _ _ _ _ Be1) Ind) as (Be2 & Up & I2 & P2); auto.
  - rewrite V1out; [exact Dd|]. intros n r X. apply (f_equal (@length _)) in X. rewrite app_length in X. cbn in X. lia.
  - intros ai I. apply Nw in I. destruct I as (e & _ & _ & ->). unfold listed_type. cbn. destruct (se_dir e); auto.
  - intros ai I. apply Da in I. destruct I as (e & I & V & ->). rewrite SP, Sp by auto. rewrite (V1in e []) by exact I. exact V.
  - split; [eapply beff_trans; eassumption|]. split; [congruence|]. split; [|split; [|split]].
    + intros q H. rewrite (up_out _ _ _ _ Up) by exact H. now apply V1out.
    + intros n r N. rewrite (up_none _ _ _ _ Up); [now apply V1del|]. intros G ai I X. apply Nw in I. destruct I as (e & I & _ & ->). rewrite SP in X by exact I.
      apply Inj in X; auto. apply N. rewrite <- X. now apply in_map.
    + intros e r I. unfold entry_after. destruct (v (D ++ [se_name e])) as [i|] eqn:V.
      * destruct (same_asset i e) eqn:Sa.
        -- rewrite (up_none _ _ _ _ Up); [now apply V1in|]. intros G ai Ia X. apply Nw in Ia. destruct Ia as (e' & I' & C & ->). rewrite SP in X by exact I'. apply Inj in X; auto.
           assert (e' = e).
           { clear - Ne I I' X. induction es as [|y l IH]; [destruct I|]. cbn in Ne. inversion Ne as [|a b Ni Nd]; subst. destruct I as [->|I], I' as [->|I'].
             - reflexivity.
             - exfalso. apply Ni. rewrite <- X. now apply in_map.
             - exfalso. apply Ni. rewrite X. now apply in_map.
             - now apply IH. }
           subst e'. unfold changed in C. rewrite V, Sa in C. discriminate.
        -- rewrite (up_update _ _ _ _ Up _ (src_info (pstr D) e)); auto; [|apply Du; eauto 6]. apply after_create_local. intros t. now apply V1in.
      * rewrite (up_add _ _ _ _ Up _ (src_info (pstr D) e)); auto. apply Da. eauto.
    + rewrite P2, Q1. apply Permutation_app_head. rewrite <- (map_map (src_info (pstr D)) akey). apply Permutation_map. apply NoDup_Permutation.
      * assert (X : forall l, NoDup (map op_path l) -> NoDup (map ai_path (news l)) /\ forall p, In p (map ai_path (news l)) -> In p (map op_path l)).
        { clear. induction l as [|[k a] l IH]; intros N; [split; [constructor|easy]|]. cbn [map] in N. inversion N as [|x y Ni Nd]; subst. destruct (IH Nd) as (A & B).
          unfold news in *. destruct k; cbn [flat_map fst snd app map]; (split; [|intros p; cbn [In]; intuition auto]); try exact A; constructor; auto. }
        eapply NoDup_map_inv. apply X. exact Dn.
      * eapply NoDup_map_inv with (f := ai_path). rewrite map_map.
        assert (X : forall l, (forall e, In e l -> In e es) -> NoDup (map se_name l) -> NoDup (map (fun e => ai_path (src_info (pstr D) e)) l)).
        { induction l as [|e l IH]; intros Su N; [constructor|]. cbn [map] in N |- *. inversion N as [|x y Ni Nd]; subst. constructor; [|apply IH; [intros e0 I0; apply Su; now right|exact Nd]].
          intros I. apply in_map_iff in I. destruct I as (e' & X & I). apply Ni.
          change (ai_path (src_info (pstr D) e') = ai_path (src_info (pstr D) e)) in X. rewrite !SP in X by (apply Su; cbn; auto). apply Inj in X; [|apply Ge, Su; cbn; auto..]. rewrite <- X. now apply in_map. }
        apply X; [intros e I; now apply filter_In in I|]. clear - Ne. induction es as [|e l IH]; [constructor|]. cbn in *. inversion Ne as [|x y Ni Nd]; subst.
        destruct (changed v D e); [|now apply IH]. cbn. constructor; [|now apply IH]. intros I. apply Ni. apply in_map_iff in I. destruct I as (x & <- & I). apply filter_In in I. now apply in_map.
      * intros ai. rewrite Nw, in_map_iff. split.
        -- intros (e & I & C & ->). exists e. split; [reflexivity|]. apply filter_In. auto.
        -- intros (e & <- & I). apply filter_In in I. exists e. tauto.
Qed.
End Apply.
