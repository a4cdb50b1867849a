(** Update with operations that are not scans (recursive = false). *)
From Verif Require Import Base ListX Str ModelText ModelPath SpecPath ModelCdc ModelChunkMap ModelProvider ModelAsset SpecAsset ModelFileDiff SpecFileDiff
  ModelManifest SpecManifest ProofManifest ProofTree PropManifest ProofAtDir ModelUpdater SpecUpdater ProofUpdater ProofUpdEffect ProofUpdScan ProofUpdApply ProofUpdMachine ProofUpdRun
  SpecWatch ProofPath.
From Coq Require Import Permutation.
Local Open Scope N_scope.

Definition opath (o : operation) : path := split_unix (ai_path (snd o)).

Lemma names_split s P : names_path s P -> split_unix s = P.
Proof. intros (_ & G & E). unfold split_unix. rewrite E. rewrite <- (to_unix_pstr P G). now apply pstr_split. Qed.
Lemma names_inj s P Q : names_path s P -> names_path s Q -> P = Q.
Proof. intros A B. now rewrite <- (names_split s P A), <- (names_split s Q B). Qed.
Lemma names_goc store now s P ty fo f b : names_path s P -> get_or_create store now s ty fo f b = get_or_create store now (pstr P) ty fo f b.
Proof. intros H. unfold get_or_create. rewrite (names_split s P H). destruct H as (_ & G & _). now rewrite pstr_split. Qed.
Lemma names_del store now s P b : names_path s P -> delete_asset store now s b = delete_asset store now (pstr P) b.
Proof. intros H. unfold delete_asset. rewrite (names_split s P H). destruct H as (_ & G & _). now rewrite pstr_split. Qed.

(** * The in_progress field is read from the asset at the path *)
Section Read.
Context (store : cid -> option (list asset)).
Lemma read_node : forall P dir L a d, (forall p b, node store L dir p = Some b -> a_type b = TDir -> NoDup (map a_name (children store L b))) ->
  node store L dir P = Some d -> read_asset store P dir L = Some a -> a = d.
Proof.
  induction P as [|n P IH]; intros dir L a d Nd N E; cbn [read_asset] in E.
  { cbn in N. congruence. }
  rewrite node_cons in N. destruct (type_eqb (a_type dir) TDir) eqn:T; [|discriminate].
  assert (Td : a_type dir = TDir) by now apply type_eqb_eq.
  pose proof (Nd [] dir eq_refl Td) as Nc.
  assert (Sub : forall c, find (named n) (children store L dir) = Some c -> forall p b, node store L c p = Some b -> a_type b = TDir -> NoDup (map a_name (children store L b))).
  { intros c Fc p b Np. apply (Nd (n :: p)). rewrite node_cons, T, Fc. exact Np. }
  destruct (find_split n (a_dirs dir)) as [[[pre x] post]|] eqn:F.
  - apply find_split_some in F. destruct F as (F1 & F2 & _).
    assert (Fc : find (named n) (children store L dir) = Some x).
    { apply find_unique; auto. unfold children. rewrite F1. apply in_or_app. left. apply in_elt. }
    rewrite Fc in N. exact (IH x L a d (Sub x Fc) N E).
  - destruct (find_ind store n (a_ind dir) L) as [o L1] eqn:G. apply find_ind_spec in G. destruct G as (Lo & G).
    destruct o as [id pre x post| |]; try discriminate. destruct G as (I & _ & Li & Nm).
    assert (Fc : find (named n) (children store L dir) = Some x).
    { apply find_unique; auto. unfold children. apply in_or_app. right. apply in_flat_map. exists id. split; [exact I|]. rewrite Li. apply in_elt. }
    rewrite Fc in N. destruct Lo as (Lo & _).
    apply (IH x L1 a d); [|now rewrite (node_listed store L L1)|exact E].
    intros p b Np Tb. rewrite (children_listed store L L1) by exact Lo. rewrite (node_listed store L L1) in Np by exact Lo. exact (Sub x Fc p b Np Tb).
Qed.
Lemma progress_read now s P b i : names_path s P -> btidy store now b -> bview store now b P = Some i -> progress_of store now s b = true -> i_progress i = true.
Proof.
  intros H T V E. unfold progress_of in E. rewrite (names_split s P H) in E. destruct (read_asset store P (root_of now b) (b_lists b)) as [a|] eqn:R; [|discriminate].
  unfold bview, view in V. destruct (node store (b_lists b) (root_of now b) P) as [d|] eqn:N; [|discriminate]. inversion V; subst i.
  rewrite <- (read_node P (root_of now b) (b_lists b) a d); auto. apply (tidy_names _ _ _ (proj2 T)).
Qed.
End Read.

Section Incr.
Context (store : cid -> option (list asset)) (now : N).
Notation bv := (bview store now).
Definition owns_less (b b' : builder) : Prop := forall id p, owned store (b_lists b') (root_of now b') id p -> owned store (b_lists b) (root_of now b) id p.

(** * The deletions *)
Lemma deletes_flat : forall ops last s s', b_root (u_b s) <> None -> btidy store now (u_b s) -> (forall o, In o ops -> exists P, names_path (ai_path (snd o)) P) ->
  (forall d q, last = Some d -> is_prefix (split_unix d) q = true -> bv (u_b s) q = None) ->
  apply_deletes store now ops last s = (None, s') ->
  b_root (u_b s') <> None /\ btidy store now (u_b s') /\
  (forall q, bv (u_b s') q = if existsb (is_del q) ops then None else bv (u_b s) q) /\ u_q s' = u_q s /\ owns_less (u_b s) (u_b s').
Proof.
  induction ops as [|[k ai] ops IH]; intros last s s' R T F Hl E.
  { cbn in E. inversion E; subst. unfold owns_less. auto 8. }
  destruct (F _ (or_introl eq_refl)) as (P & HP). cbn [snd] in HP. assert (F' : forall o, In o ops -> exists P, names_path (ai_path (snd o)) P) by (intros o I; apply F; now right).
  assert (GP : Forall good_name P) by apply HP.
  assert (Skip : k <> KDelete -> apply_deletes store now ops last s = (None, s') ->
    b_root (u_b s') <> None /\ btidy store now (u_b s') /\ (forall q, bv (u_b s') q = if existsb (is_del q) ((k, ai) :: ops) then None else bv (u_b s) q) /\ u_q s' = u_q s /\ owns_less (u_b s) (u_b s')).
  { intros Nk E0. destruct (IH last s s' R T F' Hl E0) as (A & B & C & D). split; [exact A|]. split; [exact B|]. split; [|exact D].
    intros q. rewrite C. cbn [existsb]. unfold is_del at 2. cbn [fst]. destruct k; try reflexivity. congruence. }
  destruct k; cbn [apply_deletes] in E; try (apply Skip; [discriminate|exact E]). clear Skip.
  set (s1 := with_fc s (ORemove (ai_path ai))) in *. destruct (match last with Some d => inside d (ai_path ai) | None => false end) eqn:Ins.
  - destruct last as [d|]; [|discriminate]. apply inside_prefix in Ins.
    destruct (IH (Some d) s1 s' R T F' Hl E) as (A & B & C & D). split; [exact A|]. split; [exact B|]. split; [|exact D].
    intros q. rewrite C. cbn [existsb]. destruct (is_del q (KDelete, ai)) eqn:Dq; [|reflexivity]. cbn [orb]. destruct (existsb (is_del q) ops); [reflexivity|].
    apply (Hl d q eq_refl). eapply is_prefix_trans; [exact Ins|exact Dq].
  - destruct (delete_asset store now (ai_path ai) (u_b s1)) as [[e|] b] eqn:Ed; [discriminate|]. rewrite (names_del _ _ _ P) in Ed by exact HP. apply delete_eff in Ed; auto.
    destruct Ed as (_ & Be).
    destruct (IH (Some (ai_path ai)) (with_b s1 b) s' (be_root _ _ _ _ _ _ Be) (be_tidy _ _ _ _ _ _ Be) F') as (A & B & C & D); [|exact E|].
    + intros d q Ed Pq. inversion Ed; subst d. cbn [u_b with_b]. rewrite (be_view _ _ _ _ _ _ Be). rewrite (names_split _ P HP) in Pq. unfold after_delete. now rewrite Pq.
    + split; [exact A|]. split; [exact B|]. split; [|split; [apply D|intros id p O; apply (be_own _ _ _ _ _ _ Be); apply D; exact O]].
      intros q. rewrite C. cbn [u_b with_b existsb]. rewrite (be_view _ _ _ _ _ _ Be). unfold is_del at 2. cbn [fst]. unfold op_path. cbn [snd]. rewrite (names_split _ P HP).
      unfold after_delete. cbn [u_b with_fc s1]. destruct (is_prefix P q), (existsb (is_del q) ops); reflexivity.
Qed.

(** * Additions and updates *)
Context (src : path -> option snode) (Hsrc : source_tree src).

Lemma src_above q P : src P <> None -> is_prefix q P = true -> q <> P -> exists mt, src q = Some (SDir mt).
Proof.
  intros H X N. destruct (below_cons q P X ltac:(congruence)) as (n & r & ->). apply (src_up _ Hsrc q n). intros E. apply H.
  replace (q ++ n :: r) with ((q ++ [n]) ++ r) by (rewrite <- app_assoc; reflexivity). now apply src_none.
Qed.
Lemma src_below_file P q mt c : src P = Some (SFile mt c) -> is_prefix P q = true -> q <> P -> src q = None.
Proof. intros S X N. destruct (below_cons P q X N) as (n & r & ->). eapply src_file_leaf; eassumption. Qed.

Definition news_op (o : operation) : bool := match fst o with KAdd | KUpdate => true | _ => false end.
Definition file_op (o : operation) : bool := news_op o && type_eqb (ai_type (snd o)) TFile.
Definition okey (o : operation) : N * bytes := (1, pstr (opath o)).

(** The tree [w] after the operations [done] on the tree [vd]. *)
Record after_ops (done : list operation) (vd w : path -> option info) : Prop := {
  ao_op : forall o, In o done -> news_op o = true -> exists i, w (opath o) = Some i /\ i_type i = ai_type (snd o) /\ i_mtime i = ai_mtime (snd o) /\ i_progress i = type_eqb (ai_type (snd o)) TFile;
  ao_rest : forall q, (forall o, In o done -> news_op o = true -> opath o <> q) ->
    match src q with
    | Some (SDir _) => w q = vd q \/ (is_dir (vd q) = false /\ w q = Some (new_info now TDir))
    | Some (SFile _ _) => w q = vd q
    | None => w q = vd q \/ w q = None
    end;
  ao_file : forall q o, src q = None -> In o done -> file_op o = true -> is_prefix (opath o) q = true -> opath o <> q -> w q = None;
  ao_progress : forall q i, w q = Some i -> i_progress i = true -> exists o, In o done /\ file_op o = true /\ opath o = q;
  ao_frame : forall q, (forall o, In o done -> news_op o = true -> is_prefix (opath o) q = false /\ is_prefix q (opath o) = false) -> w q = vd q }.

Lemma set_fields_false ai i : (ai_type ai = TFile \/ ai_type ai = TDir) -> i_type i = ai_type ai -> (ai_type ai = TDir -> i_progress i = false) ->
  i_mtime (set_fields false ai i) = ai_mtime ai /\ i_progress (set_fields false ai i) = type_eqb (ai_type ai) TFile.
Proof. intros [E|E] T Pg; unfold set_fields; rewrite E in *; cbn; auto. Qed.

Lemma kept_self (v : path -> option info) P ty : ty <> TUnknown -> kept v P ty = true -> exists i, v P = Some i /\ i_type i = ty.
Proof.
  unfold kept. destruct (v P) as [i|]; [|discriminate]. intros N H. exists i. split; [reflexivity|]. apply orb_true_iff in H. destruct H as [H|H]; apply type_eqb_eq in H; congruence.
Qed.

Lemma ops_one done vd o b b' P : names_path (ai_path (snd o)) P -> says src P o -> news_op o = true ->
  (forall o', In o' done -> news_op o' = true -> exists P', names_path (ai_path (snd o')) P' /\ says src P' o') ->
  (forall o', In o' done -> opath o' <> P) -> (forall q i, vd q = Some i -> i_progress i = false) ->
  btidy store now b -> after_ops done vd (bv b) ->
  (forall q, bv b' q = after_create now (bv b) P (ai_type (snd o)) (set_fields false (snd o)) q) ->
  after_ops (done ++ [o]) vd (bv b').
Proof.
  intros HP Sy Nw Ds Fr Pv T [A R F G M] V. set (ai := snd o) in *.
  assert (EP : opath o = P) by (now apply names_split).
  assert (SP : src P <> None) by (unfold says, news_op in *; destruct (fst o), (src P) as [[]|]; try discriminate; contradiction).
  assert (Ty : (ai_type ai = TFile /\ exists mt c, src P = Some (SFile mt c)) \/ (ai_type ai = TDir /\ exists mt, src P = Some (SDir mt))).
  { unfold says, news_op in *. destruct (fst o), (src P) as [[mt|mt c]|]; try discriminate; try contradiction; destruct Sy as (Ta & _); [right|left|right|left]; split; eauto. }
  assert (Ty2 : ai_type ai = TFile \/ ai_type ai = TDir) by (destruct Ty as [(X & _)|(X & _)]; auto).
  assert (Nu : ai_type ai <> TUnknown) by (destruct Ty2 as [X|X]; rewrite X; discriminate).
  (* the tree above and below *)
  assert (Tree : forall q r, is_dir (bv b q) = false -> r <> [] -> bv b (q ++ r) = None) by (intros q r Dq Nr; unfold bview in *; now apply view_below).
  assert (Below : forall q, is_prefix P q = true -> q <> P -> kept (bv b) P (ai_type ai) = false -> ai_type ai = TDir -> bv b q = None).
  { intros q Pq N K Td. destruct (below_cons P q Pq N) as (n & r & ->). apply Tree; [|discriminate].
    destruct (bv b P) as [i|] eqn:E; [|reflexivity]. cbn. unfold kept in K. rewrite E in K. apply orb_false_iff in K. destruct K as (_ & K). now rewrite Td in K. }
  assert (BelowF : forall q, is_prefix P q = true -> q <> P -> ai_type ai = TFile -> (if kept (bv b) P (ai_type ai) then bv b q else None) = None).
  { intros q Pq N Tf. destruct (kept (bv b) P (ai_type ai)) eqn:K; [|reflexivity]. apply kept_self in K; [|exact Nu]. destruct K as (i & E & Ti).
    destruct (below_cons P q Pq N) as (n & r & ->). apply Tree; [|discriminate]. rewrite E. cbn. now rewrite Ti, Tf. }
  assert (AtP : exists i, bv b' P = Some (set_fields false ai i) /\ i_type i = ai_type ai /\ (ai_type ai = TDir -> i_progress i = false)).
  { rewrite V. unfold after_create. rewrite peq_refl. destruct (bv b P) as [i|] eqn:E.
    - destruct (kept (bv b) P (ai_type ai)) eqn:K.
      + destruct (kept_self _ _ _ Nu K) as (j & Ej & Tj). rewrite E in Ej. inversion Ej; subst j. exists i. split; [reflexivity|]. split; [exact Tj|].
        intros _. destruct (i_progress i) eqn:Pi; [|reflexivity]. destruct (G P i E Pi) as (o' & I' & _ & X). now apply Fr in I'.
      + exists (new_info now (ai_type ai)). auto.
    - exists (new_info now (ai_type ai)). auto. }
  assert (Other : forall q, q <> P -> bv b' q = if is_prefix q P then (if is_dir (bv b q) then bv b q else Some (new_info now TDir))
                    else if is_prefix P q then (if kept (bv b) P (ai_type ai) then bv b q else None) else bv b q).
  { intros q N. rewrite V. unfold after_create. now rewrite peq_neq. }
  constructor.
  - intros o' I N'. apply in_app_iff in I. destruct I as [I|[<-|[]]].
    + destruct (A o' I N') as (i & Vi & Ti & Mi & Pi). exists i. split; [|auto]. assert (N : opath o' <> P) by now apply Fr. rewrite Other by exact N.
      destruct (Ds o' I N') as (P' & HP' & Sy'). pose proof (names_split _ _ HP') as EP'. fold (opath o') in EP'. rewrite EP' in *.
      destruct (is_prefix P' P) eqn:X1.
      * assert (is_dir (bv b P') = true); [|now rewrite H]. rewrite Vi. cbn. rewrite Ti. destruct (src_above P' P SP X1 N) as (mt & S).
        unfold says, news_op in *. rewrite S in Sy'. destruct (fst o'); try discriminate; destruct Sy' as (Ty' & _); rewrite Ty'; reflexivity.
      * destruct (is_prefix P P') eqn:X2; [|exact Vi].
        destruct Ty as [(Tf & mt & c & S)|(Td & mt & S)].
        -- exfalso. pose proof (src_below_file P P' mt c S X2 N) as Sn. unfold says, news_op in *. rewrite Sn in Sy'. destruct (fst o'); try discriminate; contradiction.
        -- destruct (kept (bv b) P (ai_type ai)) eqn:K; [exact Vi|]. rewrite (Below P' X2 N eq_refl Td) in Vi. discriminate.
    + rewrite EP. destruct AtP as (i & Vi & Ti & Pi). exists (set_fields false ai i). split; [exact Vi|]. rewrite set_fields_type. split; [exact Ti|].
      apply set_fields_false; auto.
  - intros q Hq. assert (N : q <> P) by (intros ->; apply (Hq o); auto; apply in_or_app; right; now left).
    assert (Hq' : forall o', In o' done -> news_op o' = true -> opath o' <> q) by (intros o' I; apply Hq; apply in_or_app; auto).
    specialize (R q Hq'). rewrite Other by exact N. destruct (is_prefix q P) eqn:X1.
    + destruct (src_above q P SP X1 N) as (mt & S). rewrite S in *. destruct R as [R|(R1 & R2)].
      * rewrite R. destruct (is_dir (vd q)) eqn:Dq; [left; reflexivity|right; auto].
      * rewrite R2. cbn. right. auto.
    + destruct (is_prefix P q) eqn:X2; [|exact R]. destruct Ty as [(Tf & mt & c & S)|(Td & mt & S)].
      * rewrite (src_below_file P q mt c S X2 N) in *. right. now apply BelowF.
      * destruct (kept (bv b) P (ai_type ai)) eqn:K; [exact R|]. rewrite (Below q X2 N eq_refl Td) in R. exact R.
  - intros q o' Sq I Fo X No. apply in_app_iff in I. assert (N : q <> P) by congruence. rewrite Other by exact N.
    assert (X1 : is_prefix q P = false).
    { apply Bool.not_true_is_false. intros X1. destruct (src_above q P SP X1 N) as (mt & S). congruence. }
    rewrite X1. destruct I as [I|[<-|[]]].
    + rewrite (F q o' Sq I Fo X No). destruct (is_prefix P q), (kept (bv b) P (ai_type ai)); reflexivity.
    + rewrite EP in X, No. rewrite X. apply BelowF; auto. unfold file_op in Fo. apply andb_true_iff in Fo. destruct Fo as (_ & Fo). now apply type_eqb_eq in Fo.
  - intros q i Vq Pq. destruct (list_eq_dec (list_eq_dec N.eq_dec) q P) as [->|N].
    + destruct AtP as (j & Vj & Tj & Pj). rewrite Vj in Vq. inversion Vq; subst i. destruct (set_fields_false ai j Ty2 Tj Pj) as (_ & X). rewrite X in Pq.
      exists o. split; [apply in_or_app; right; now left|]. split; [|exact EP]. unfold file_op. rewrite Nw. exact Pq.
    + assert (Q : bv b q = Some i).
      { rewrite Other in Vq by exact N. destruct (is_prefix q P).
        - destruct (is_dir (bv b q)); [exact Vq|]. inversion Vq; subst i. discriminate.
        - destruct (is_prefix P q); [|exact Vq]. destruct (kept (bv b) P (ai_type ai)); [exact Vq|discriminate]. }
      destruct (G q i Q Pq) as (o' & I & X). exists o'. split; [apply in_or_app; auto|exact X].
  - intros q Hq. assert (Hq' : forall o', In o' done -> news_op o' = true -> is_prefix (opath o') q = false /\ is_prefix q (opath o') = false) by (intros o' I; apply Hq; apply in_or_app; auto).
    destruct (Hq o) as (X1 & X2); auto; [apply in_or_app; right; now left|]. rewrite EP in X1, X2.
    assert (N : q <> P) by (intros ->; rewrite prefix_refl in X1; discriminate). rewrite Other by exact N. rewrite X1, X2. auto.
Qed.

Lemma after_app done x vd w : news_op x = false -> after_ops done vd w -> after_ops (done ++ [x]) vd w.
Proof.
  intros Nx [A R F G M]. assert (I : forall o, In o (done ++ [x]) -> news_op o = true -> In o done).
  { intros o I N. apply in_app_iff in I. destruct I as [I|[<-|[]]]; [exact I|congruence]. }
  assert (Fn : forall o, file_op o = true -> news_op o = true) by (intros o H; unfold file_op in H; apply andb_true_iff in H; apply H).
  constructor; eauto.
  - intros q Hq. apply R. intros o Io. apply Hq. apply in_or_app. auto.
  - intros q i V P. destruct (G q i V P) as (o & Io & X). exists o. split; [apply in_or_app; auto|exact X].
  - intros q Hq. apply M. intros o Io. apply Hq. apply in_or_app. auto.
Qed.

Lemma updates_flat : forall ops done s s' vd, b_root (u_b s) <> None -> btidy store now (u_b s) ->
  (forall o, In o (done ++ ops) -> exists P, names_path (ai_path (snd o)) P /\ says src P o) ->
  NoDup (map opath (done ++ ops)) -> (forall q i, vd q = Some i -> i_progress i = false) ->
  after_ops done vd (bv (u_b s)) -> Permutation (map pkey (u_q s)) (map okey (filter file_op done)) ->
  apply_updates store now ops None None false s = (None, s') ->
  b_root (u_b s') <> None /\ btidy store now (u_b s') /\ after_ops (done ++ ops) vd (bv (u_b s')) /\ Permutation (map pkey (u_q s')) (map okey (filter file_op (done ++ ops))) /\ owns_less (u_b s) (u_b s').
Proof.
  induction ops as [|o ops IH]; intros done s s' vd R T Ds Nd Pv J Q E.
  { cbn in E. inversion E; subst. rewrite app_nil_r. unfold owns_less. auto 8. }
  assert (Assoc : done ++ o :: ops = (done ++ [o]) ++ ops) by (rewrite <- app_assoc; reflexivity).
  destruct (Ds o) as (P & HP & Sy); [apply in_elt|].
  destruct o as [k ai]. cbn [snd] in HP. pose proof (names_split _ _ HP) as EP.
  assert (Fr : forall o', In o' done -> opath o' <> P).
  { intros o' I X. rewrite map_app in Nd. cbn [map] in Nd. apply NoDup_remove_2 in Nd. apply Nd. apply in_or_app. left. unfold opath at 1. cbn [snd]. rewrite EP, <- X. apply in_map. exact I. }
  assert (Skip : news_op (k, ai) = false -> apply_updates store now ops None None false s = (None, s') ->
    b_root (u_b s') <> None /\ btidy store now (u_b s') /\ after_ops (done ++ (k, ai) :: ops) vd (bv (u_b s')) /\ Permutation (map pkey (u_q s')) (map okey (filter file_op (done ++ (k, ai) :: ops))) /\ owns_less (u_b s) (u_b s')).
  { intros Nw E'. rewrite Assoc in *. apply (IH (done ++ [(k, ai)]) s s' vd); auto; [now apply after_app|].
    rewrite filter_app. cbn [filter]. unfold file_op at 2. rewrite Nw. cbn [andb]. now rewrite app_nil_r. }
  assert (New : news_op (k, ai) = true -> apply_updates store now ((k, ai) :: ops) None None false s = (None, s') ->
    b_root (u_b s') <> None /\ btidy store now (u_b s') /\ after_ops (done ++ (k, ai) :: ops) vd (bv (u_b s')) /\ Permutation (map pkey (u_q s')) (map okey (filter file_op (done ++ (k, ai) :: ops))) /\ owns_less (u_b s) (u_b s')).
  { intros Nw E'.
    assert (Ex : exists c b, get_or_create store now (pstr P) (ai_type ai) true (set_fields false ai) (u_b s) = (inr c, b) /\
      apply_updates store now ops None None false (if in_progress_after store now false ai b
         then enqueue (with_b s b) (mkpasset (type_num (ai_type ai)) (match split_unix (ai_path ai) with [] => [] | _ => dirname (to_unix (ai_path ai)) end) (last (split_unix (ai_path ai)) []) false None)
         else with_b s b) = (None, s')).
    { destruct k; try discriminate; cbn [apply_updates] in E'; rewrite (names_goc store now _ P) in E' by exact HP;
        destruct (get_or_create store now (pstr P) (ai_type ai) true (set_fields false ai) (u_b s)) as [[e|c] b] eqn:Ec; try discriminate; eauto. }
    clear E'. destruct Ex as (c & b & Ec & E'). destruct HP as (NP & GP & UP). assert (HP : names_path (ai_path ai) P) by (split; auto).
    apply create_eff in Ec; auto using set_fields_type. destruct Ec as (Be & _).
    pose proof (be_root _ _ _ _ _ _ Be) as R1. pose proof (be_tidy _ _ _ _ _ _ Be) as T1.
    assert (J1 : after_ops (done ++ [(k, ai)]) vd (bv b)).
    { apply (ops_one done vd (k, ai) (u_b s) b P); auto; [|exact (be_view _ _ _ _ _ _ Be)]. intros o' I' _. apply Ds. apply in_or_app. auto. }
    assert (Ip : in_progress_after store now false ai b = file_op (k, ai)).
    { unfold file_op. rewrite Nw. cbn [snd andb]. unfold in_progress_after. destruct (ao_op _ _ _ J1 (k, ai)) as (i & Vi & Ti & _ & Pi); [apply in_or_app; right; now left|exact Nw|].
      cbn [snd] in *. destruct (ai_type ai) eqn:Ta; try reflexivity; (destruct (progress_of store now (ai_path ai) b) eqn:X; [|reflexivity]);
        unfold opath in Vi; cbn [snd] in Vi; rewrite EP in Vi; apply (progress_read store now _ P b i) in X; auto; cbn in Pi; congruence. }
    rewrite Ip in E'. rewrite Assoc in *.
    assert (Qn : Permutation (map pkey (u_q (if file_op (k, ai) then enqueue (with_b s b) (mkpasset (type_num (ai_type ai)) (match split_unix (ai_path ai) with [] => [] | _ => dirname (to_unix (ai_path ai)) end) (last (split_unix (ai_path ai)) []) false None) else with_b s b)))
        (map okey (filter file_op (done ++ [(k, ai)])))).
    { rewrite filter_app, map_app. cbn [filter]. destruct (file_op (k, ai)) eqn:Fo; cbn [u_q enqueue with_b map]; [|rewrite app_nil_r; exact Q].
      rewrite queue_add_perm. cbn [map]. rewrite Q. rewrite Permutation_cons_append. apply Permutation_app_head. apply Permutation_refl'. f_equal.
      unfold pkey, okey. cbn [pa_type pa_rel pa_name]. unfold file_op in Fo. apply andb_true_iff in Fo. destruct Fo as (_ & Tf). cbn [snd] in Tf. apply type_eqb_eq in Tf. rewrite Tf. cbn [type_num].
      f_equal. unfold opath. cbn [snd]. rewrite EP, UP. destruct (snoc_case P) as [->|(D & n & ->)]; [easy|].
      apply Forall_app in GP. destruct GP as (GD & Gn). inversion Gn as [|x y Gx _]; subst. rewrite dir_pstr by assumption. rewrite last_last.
      transitivity (join (pstr D) n); [f_equal; destruct D; reflexivity|]. apply join_pstr; [exact GD|apply Gx]. }
    assert (X : b_root (u_b s') <> None /\ btidy store now (u_b s') /\ after_ops ((done ++ [(k, ai)]) ++ ops) vd (bv (u_b s')) /\
      Permutation (map pkey (u_q s')) (map okey (filter file_op ((done ++ [(k, ai)]) ++ ops))) /\ owns_less b (u_b s')).
    { destruct (file_op (k, ai)); (eapply (IH (done ++ [(k, ai)])) in E'; [exact E'| | | | |exact Pv| |exact Qn]); auto. }
    destruct X as (X1 & X2 & X3 & X4 & X5). repeat (split; [assumption|]). intros id p O. apply (be_own _ _ _ _ _ _ Be). apply X5. exact O. }
  destruct k; [apply New; [reflexivity|exact E]|apply New; [reflexivity|exact E]|apply Skip; [reflexivity|exact E]|].
  unfold says in Sy. cbn [fst] in Sy. destruct (src P) as [[]|]; contradiction.
Qed.
End Incr.
