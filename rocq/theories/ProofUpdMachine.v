(** Invariant of Update. *)
From Verif Require Import Base ListX Str ModelText ModelPath SpecPath ModelCdc ModelChunkMap ModelProvider ModelAsset SpecAsset ModelFileDiff SpecFileDiff
  ModelManifest SpecManifest ProofManifest ProofTree PropManifest ProofAtDir ModelUpdater SpecUpdater ProofUpdater ProofUpdEffect ProofUpdScan ProofUpdApply.
From Coq Require Import Permutation.
Local Open Scope N_scope.

Lemma NoDup_app_intro {A} (a b : list A) : NoDup a -> NoDup b -> (forall x, In x a -> In x b -> False) -> NoDup (a ++ b).
Proof.
  induction a as [|x a IH]; intros Na Nb H; [exact Nb|]. inversion Na; subst. cbn. constructor.
  - rewrite in_app_iff. intros [I|I]; [contradiction|]. apply (H x); [now left|exact I].
  - apply IH; auto. intros y I. apply H. now right.
Qed.

(** * Paths *)
Lemma prefix_refl (p : path) : is_prefix p p = true.
Proof. apply is_prefix_spec. exists []. now rewrite app_nil_r. Qed.
Lemma prefix_antisym (p q : path) : is_prefix p q = true -> is_prefix q p = true -> p = q.
Proof. intros A B. apply path_eqb_eq. unfold path_eqb. now rewrite A, B. Qed.
Lemma prefix_total (p q r : path) : is_prefix p r = true -> is_prefix q r = true -> is_prefix p q = true \/ is_prefix q p = true.
Proof.
  revert q r. induction p as [|a p IH]; intros q r A B; [now left|]. destruct q as [|b q]; [now right|]. destruct r as [|c r]; [discriminate|]. cbn in *.
  apply andb_true_iff in A. apply andb_true_iff in B. destruct A as (A & A'), B as (B & B'). apply name_eqb_eq in A. apply name_eqb_eq in B. subst. rewrite name_eqb_refl. cbn. eapply IH; eassumption.
Qed.
Lemma below_cons (D q : path) : is_prefix D q = true -> q <> D -> exists n r, q = D ++ n :: r.
Proof. intros P N. apply is_prefix_spec in P. destruct P as ([|n r] & ->); [rewrite app_nil_r in N; easy|eauto]. Qed.
Lemma prefix_below (D : path) n r : is_prefix D (D ++ n :: r) = true.
Proof. apply is_prefix_spec. eauto. Qed.
Lemma below_neq (D : path) n r : D ++ n :: r <> D.
Proof. intros E. apply (f_equal (@length _)) in E. rewrite app_length in E. cbn in E. lia. Qed.
Lemma not_above (D : path) n r : is_prefix (D ++ n :: r) D = false.
Proof. apply Bool.not_true_is_false. intros H. apply (below_neq D n r). apply prefix_antisym; [exact H|apply prefix_below]. Qed.
Lemma removelast_prefix (p q : path) : p <> [] -> is_prefix q (removelast p) = true -> is_prefix q p = true /\ q <> p.
Proof.
  intros N H. destruct (exists_last N) as (l & x & ->). rewrite removelast_last in H. split.
  - eapply is_prefix_trans; [exact H|apply prefix_below].
  - intros ->. rewrite not_above in H. discriminate.
Qed.

Section Machine.
Context (store : cid -> option (list asset)) (clists : cid -> option (list cref)) (truth : cid -> option bytes) (sort : list ainfo -> list ainfo) (Hsort : sorts ai_path sort).
Context (src : path -> option snode) (Hsrc : source_tree src).
Notation entry_matches := (entry_matches truth clists).
Notation bv := (bview store 0).
Notation clean := (fun b p => clean_at store b 0 p).

Lemma src_none p r : src p = None -> src (p ++ r) = None.
Proof.
  intros H. induction r as [|n r IH] using rev_ind; [now rewrite app_nil_r|]. destruct (src (p ++ r ++ [n])) as [s|] eqn:E; [|reflexivity].
  rewrite app_assoc in E. destruct (src_up _ Hsrc (p ++ r) n) as (mt & X); congruence.
Qed.
Lemma src_file_leaf p mt c n r : src p = Some (SFile mt c) -> src (p ++ n :: r) = None.
Proof.
  intros H. replace (p ++ n :: r) with ((p ++ [n]) ++ r) by (rewrite <- app_assoc; reflexivity). apply src_none.
  destruct (src (p ++ [n])) as [s|] eqn:E; [|reflexivity]. destruct (src_up _ Hsrc p n) as (mt' & X); congruence.
Qed.

(** * Which time is used for a missing root does not matter once there is one *)
Lemma root_now b now : b_root b <> None -> root_of now b = root_of 0 b.
Proof. unfold root_of. destruct (b_root b); [reflexivity|easy]. Qed.
Lemma bv_now b now p : b_root b <> None -> bview store now b p = bv b p.
Proof. intros R. unfold bview. now rewrite (root_now b now R). Qed.
Lemma tidy_now b now : b_root b <> None -> btidy store now b <-> btidy store 0 b.
Proof. intros R. unfold btidy. now rewrite (root_now b now R). Qed.
Lemma clean_now b now p : b_root b <> None -> clean_at store b now p <-> clean b p.
Proof. intros R. unfold clean_at. now rewrite (root_now b now R). Qed.

(** Trusted entry of the old manifest. *)
Definition trusted (o : option info) (s : option snode) : Prop :=
  forall i mt c, o = Some i -> s = Some (SFile mt c) -> i_type i = TFile -> i_mtime i = mt -> fp_size (i_file i) = blen c -> entry_matches o s.

(** The entry of something that is pending. *)
Definition pending_ok (o : option info) (s : option snode) (k : N) : Prop :=
  exists i, o = Some i /\ i_progress i = true /\
    ((k = 1 /\ exists mt c, s = Some (SFile mt c) /\ i_type i = TFile /\ i_mtime i = mt) \/
     (k = 2 /\ exists mt, s = Some (SDir mt) /\ i_type i = TDir /\ i_mtime i = mt)).

(** The lists that the directory [q] and its files refer to are in [kp]. *)
Definition kept_at (b : builder) (kp : cid -> Prop) (q : path) : Prop :=
  (forall id, owned store (b_lists b) (root_of 0 b) id q -> store id <> None -> kp id) /\
  (forall n i x, bv b (q ++ [n]) = Some i -> i_type i = TFile -> all_read clists i -> In x (map snd (fp_ind (i_file i))) -> kp x).
Definition or_in (kp : cid -> Prop) (ids : list cid) (x : cid) : Prop := kp x \/ In x ids.
Lemma kept_mono b b' (kp kp' : cid -> Prop) q : (forall id, owned store (b_lists b') (root_of 0 b') id q -> owned store (b_lists b) (root_of 0 b) id q) ->
  (forall n, bv b' (q ++ [n]) = bv b (q ++ [n])) -> (forall x, kp x -> kp' x) -> kept_at b kp q -> kept_at b' kp' q.
Proof. intros O V K (A & B). split; [intros id X S; apply K, A; auto|]. intros n i x Vi. rewrite V in Vi. intros. apply K. eapply B; eassumption. Qed.
Lemma own_now b now id p : b_root b <> None -> owned store (b_lists b) (root_of now b) id p <-> owned store (b_lists b) (root_of 0 b) id p.
Proof. intros R. now rewrite (root_now b now R). Qed.

Definition scan : Type := list operation * list cid.
Record core (b : builder) (kp : cid -> Prop) (ps : list (N * path)) (sc : path -> scan -> Prop) : Prop := {
  c_root : b_root b <> None;
  c_tidy : btidy store 0 b;
  c_names : forall p, bv b p <> None -> Forall good_name p;
  c_good : forall k P, In (k, P) ps -> Forall good_name P;
  c_nodup : NoDup (map snd ps);
  c_top : forall D k P, In (2, D) ps -> In (k, P) ps -> is_prefix D P = true -> P = D;
  c_type : forall k P, In (k, P) ps -> pending_ok (bv b P) (src P) k;
  c_all : forall q, (exists D, In (2, D) ps /\ is_prefix D q = true /\ q <> D) \/ In q (map snd ps) \/ entry_matches (bv b q) (src q);
  c_honest : forall D q, In (2, D) ps -> is_prefix D q = true -> q <> D -> trusted (bv b q) (src q);
  c_clean : forall D q, In (2, D) ps -> is_prefix D q = true -> (q <> D \/ forall ops, ~ sc D ops) -> clean b q;
  c_scan : forall D ops, sc D ops -> In (2, D) ps /\ kept_at b (or_in kp (snd ops)) D /\ exists es, lists_dir src D es /\ differences (bv b) D es (fst ops);
  c_kept : forall q, (exists D, In (2, D) ps /\ is_prefix D q = true) \/ kept_at b kp q }.

Lemma core_perm b kp ps ps' sc sc' : Permutation ps ps' -> (forall D ops, sc D ops <-> sc' D ops) -> core b kp ps sc -> core b kp ps' sc'.
Proof.
  intros P S [R T Nm G Nd Tp Ty Al Ho Cl Sc Ke]. pose proof (Permutation_sym P) as P'. assert (I : forall x, In x ps' <-> In x ps) by (intros x; split; apply Permutation_in; assumption).
  assert (Im : forall q, In q (map snd ps') <-> In q (map snd ps)) by (intros q; split; apply Permutation_in; apply Permutation_map; assumption).
  constructor; auto.
  - intros k Q H. apply I in H. eauto.
  - eapply Permutation_NoDup; [apply Permutation_map; exact P|exact Nd].
  - intros D k Q A B. apply I in A. apply I in B. eauto.
  - intros k Q H. apply I in H. eauto.
  - intros q. destruct (Al q) as [(D & A & B)|[A|A]]; [left; exists D; rewrite I; auto|right; left; now apply Im|auto].
  - intros D q A. apply I in A. eauto.
  - intros D q A Pr H. apply I in A. apply (Cl D q A Pr). destruct H as [H|H]; [now left|right; intros ops X; apply (H ops); now apply S].
  - intros D ops H. apply S in H. destruct (Sc D ops H) as (A & B). split; [now apply I|exact B].
  - intros q. destruct (Ke q) as [(D & A & B)|A]; [left; exists D; rewrite I; auto|now right].
Qed.

Lemma core_kp b (kp kp' : cid -> Prop) ps sc : (forall x, kp x -> kp' x) -> core b kp ps sc -> core b kp' ps sc.
Proof.
  intros K [R T Nm G Nd Tp Ty Al Ho Cl Sc Ke]. constructor; auto.
  - intros D ops H. destruct (Sc D ops H) as (A & B & C). split; [exact A|]. split; [|exact C]. apply (kept_mono b b _ (or_in kp' (snd ops)) D (fun _ X => X) (fun _ => eq_refl)) in B; [exact B|].
    intros x [X|X]; [left; auto|now right].
  - intros q. destruct (Ke q) as [A|A]; [now left|right]. exact (kept_mono b b _ kp' q (fun _ X => X) (fun _ => eq_refl) K A).
Qed.

Lemma differences_ext v v' D es ops : (forall n, v' (D ++ [n]) = v (D ++ [n])) -> differences v D es ops -> differences v' D es ops.
Proof.
  intros H [A B C Dl E]. constructor; auto.
  - intros ai. rewrite B. split; intros (e & X); exists e; rewrite H in *; exact X.
  - intros ai. rewrite C. split; intros (e & i & X); exists e, i; rewrite H in *; exact X.
  - intros s. rewrite Dl. split; intros (n & i & X); exists n, i; rewrite H in *; exact X.
  - intros s z. rewrite E. split; intros (e & i & X); exists e, i; rewrite H in *; exact X.
Qed.

(** A step that changes no contents. *)
Lemma core_same b b' kp ps sc sc' : core b kp ps sc -> (forall id q, owned store (b_lists b') (root_of 0 b') id q -> owned store (b_lists b) (root_of 0 b) id q) -> b_root b' <> None -> btidy store 0 b' -> (forall q, bv b' q = bv b q) ->
  (forall D q, In (2, D) ps -> is_prefix D q = true -> (q <> D \/ forall ops, ~ sc' D ops) -> clean b' q) ->
  (forall D ops, sc' D ops -> In (2, D) ps /\ kept_at b (or_in kp (snd ops)) D /\ exists es, lists_dir src D es /\ differences (bv b) D es (fst ops)) -> core b' kp ps sc'.
Proof.
  intros [R T Nm G Nd Tp Ty Al Ho Cl Sc Ke] Ow R' T' V C' S'. constructor; auto.
  - intros p. rewrite V. auto.
  - intros k P I. rewrite V. auto.
  - intros q. rewrite V. auto.
  - intros D q I P N. rewrite V. eauto.
  - intros D ops H. destruct (S' D ops H) as (A & Kd & es & L & Df). split; [exact A|]. split; [apply (kept_mono b b' _ (or_in kp (snd ops)) D (fun id => Ow id D) (fun n => V (D ++ [n])) (fun x Z => Z) Kd)|]. exists es. split; [exact L|]. eapply differences_ext; [|exact Df]. auto.
  - intros q. destruct (Ke q) as [A|A]; [now left|right]. apply (kept_mono b b' _ kp q (fun id => Ow id q) (fun n => V (q ++ [n])) (fun x Z => Z) A).
Qed.

(** * Flush *)
Definition flush_good (flushes : builder -> builder -> list cid -> Prop) : Prop :=
  forall b b' ids, flushes b b' ids -> b_root b <> None -> btidy store 0 b ->
    b_root b' <> None /\ btidy store 0 b' /\ same_tree truth clists (bview store 0 b) (bview store 0 b') /\ (forall p, clean_at store b' 0 p) /\
    (forall p id, owned store (b_lists b') (root_of 0 b') id p -> owned store (b_lists b) (root_of 0 b) id p \/ In id ids) /\
    (forall p j, bview store 0 b' p = Some j ->
       (exists i, bview store 0 b p = Some i /\ fp_ind (i_file j) = fp_ind (i_file i)) \/ incl (map snd (fp_ind (i_file j))) ids).

Lemma matches_same o o' s : same_entry truth clists o o' -> entry_matches o s -> entry_matches o' s.
Proof.
  unfold same_entry, SpecUpdater.entry_matches, same_info. destruct s as [[mt|mt c]|], o as [i|], o' as [j|]; try tauto.
  - intros (A & B & C & D & E & F & G) (X & Y & Z). rewrite A, B, E. auto.
  - intros (A & B & C & D & E & F & G) (X & Y & Z & W & U). rewrite A, B, E, C. repeat (split; [assumption|]). split; [now apply G|exact U].
Qed.
Lemma core_flush b b' kp ids ps sc : core b kp ps sc -> (forall D ops, ~ sc D ops) -> b_root b' <> None -> btidy store 0 b' -> same_tree truth clists (bv b) (bv b') ->
  (forall p, clean b' p) -> (forall p id, owned store (b_lists b') (root_of 0 b') id p -> owned store (b_lists b) (root_of 0 b) id p \/ In id ids) ->
  (forall p j, bv b' p = Some j -> (exists i, bv b p = Some i /\ fp_ind (i_file j) = fp_ind (i_file i)) \/ incl (map snd (fp_ind (i_file j))) ids) ->
  core b' (or_in kp ids) ps sc.
Proof.
  intros [R T Nm G Nd Tp Ty Al Ho Cl Sc Ke] Ns R' T' Sm C' Fo Fv.
  assert (Nn : forall q, bv b' q <> None -> bv b q <> None) by (intros q H E; specialize (Sm q); rewrite E in Sm; destruct (bv b' q); [exact Sm|easy]).
  constructor; auto.
  - intros k P I. destruct (Ty k P I) as (i & E & Pg & H). specialize (Sm P). rewrite E in Sm. destruct (bv b' P) as [j|] eqn:Ej; [|destruct Sm].
    destruct Sm as (A & B & _ & _ & Pj & _). exists j. split; [reflexivity|]. split; [congruence|]. destruct H as [(-> & mt & c & S & X & Y)|(-> & mt & S & X & Y)]; [left|right]; (split; [reflexivity|]).
    + exists mt, c. rewrite A, B. auto.
    + exists mt. rewrite A, B. auto.
  - intros q. destruct (Al q) as [H|[H|H]]; auto. right. right. eapply matches_same; [apply Sm|exact H].
  - intros D q I P N j mt c E S X Y Z. specialize (Ho D q I P N). specialize (Sm q). rewrite E in Sm. destruct (bv b q) as [i|] eqn:Ei; [|destruct Sm].
    rewrite E. eapply matches_same; [exact Sm|]. destruct Sm as (A & B & _ & _ & _ & F & _). apply (Ho i mt c); auto; congruence.
  - intros D ops H. exfalso. eapply Ns; exact H.
  - intros q. destruct (Ke q) as [H|(K1 & K2)]; [now left|right]. split.
    + intros id O S. destruct (Fo q id O) as [X|X]; [left; auto|now right].
    + intros n j x V Tj Ar Ix. destruct (Fv _ j V) as [(i & Vi & E)|X]; [left|right; now apply X].
      assert (Sq := Sm (q ++ [n])). rewrite Vi, V in Sq. destruct Sq as (A & _). apply (K2 n i x); auto; [congruence| |now rewrite <- E].
      intros y Iy. apply Ar. now rewrite E.
Qed.

(** GetOrCreateAsset, also for the root directory. *)
Lemma create_root now ty force f b c b' : (forall i, i_type (f i) = i_type i) -> get_or_create store now [] ty force f b = (inr c, b') ->
  forall p, clean_at store b now p -> clean_at store b' now p.
Proof.
  intros Hf E p C. unfold get_or_create, create_parts in E. cbn in E. destruct (type_eqb ty TDir || type_eqb ty TUnknown); inversion E; subst. unfold clean_at in *. cbn [b_lists root_of b_root].
  intros d id N T I. destruct p as [|n p].
  - cbn in N. inversion N; subst d. apply (C (root_of now b) id); [reflexivity| |exact I]. unfold a_type in *. cbn in T. now rewrite Hf in T.
  - rewrite node_info in N by apply Hf. eapply C; eassumption.
Qed.
Lemma create_clean now P ty force f b c b' : Forall good_name P -> btidy store now b -> (forall i, i_type (f i) = i_type i) ->
  get_or_create store now (pstr P) ty force f b = (inr c, b') ->
  forall q, (is_prefix q P = true -> q = P) -> clean_at store b now q -> clean_at store b' now q.
Proof.
  intros G T Hf E q Hq C. destruct P as [|n P]; [exact (create_root now ty force f b c b' Hf E q C)|]. set (P0 := n :: P) in *.
  destruct (create_eff store now P0 ty force f b c b' G T Hf E) as (Be & _). apply (be_clean _ _ _ _ _ _ Be q); [|exact C].
  apply Bool.not_true_is_false. intros X. apply removelast_prefix in X; [|discriminate]. destruct X as (A & B). auto.
Qed.

Lemma kept_view v P ty i : v P = Some i -> i_type i = ty -> kept v P ty = true.
Proof. intros E <-. unfold kept. rewrite E, type_eqb_refl. apply orb_true_r. Qed.

(** An existing asset is found, its fields are changed. *)
Lemma create_existing now P ty force f b c b' i : Forall good_name P -> b_root b <> None -> btidy store 0 b -> (forall i, i_type (f i) = i_type i) ->
  bv b P = Some i -> i_type i = ty -> get_or_create store now (pstr P) ty force f b = (inr c, b') ->
  b_root b' <> None /\ btidy store 0 b' /\ (forall q, bv b' q = if path_eqb q P then Some (f i) else bv b q) /\
  (forall q, (is_prefix q P = true -> q = P) -> clean b q -> clean b' q) /\
  (forall id q, owned store (b_lists b') (root_of 0 b') id q -> owned store (b_lists b) (root_of 0 b) id q).
Proof.
  intros G R T Hf V Ti E. assert (T' : btidy store now b) by now apply tidy_now.
  destruct (create_eff store now P ty force f b c b' G T' Hf E) as (Be & _). pose proof (be_root _ _ _ _ _ _ Be) as R'.
  split; [exact R'|]. split; [apply (tidy_now b' now R'), Be|]. split; [|split].
  - intros q. rewrite <- (bv_now b' now q R'), (be_view _ _ _ _ _ _ Be). unfold after_create.
    assert (V' : bview store now b P = Some i) by (now rewrite bv_now). rewrite (kept_view _ _ _ _ V' Ti), V'.
    destruct (path_eqb q P) eqn:Eq; [reflexivity|]. rewrite (bv_now b now q R). destruct (is_prefix q P) eqn:Pq.
    + apply is_prefix_spec in Pq. destruct Pq as (s & ->). destruct s as [|x s]; [rewrite app_nil_r in Eq; unfold path_eqb in Eq; rewrite prefix_refl in Eq; discriminate|].
      assert (X : is_dir (bv b q) = true); [|now rewrite X].
      destruct (is_dir (bv b q)) eqn:Dq; [reflexivity|]. exfalso. unfold bview in V, Dq. rewrite (view_below store _ _ q (x :: s) Dq) in V; discriminate.
    + destruct (is_prefix P q); reflexivity.
  - intros q Hq C. apply (clean_now b' now q R'). eapply create_clean; try eassumption. now apply clean_now.
  - intros id q O. apply (own_now b now id q R). apply (be_own _ _ _ _ _ _ Be). now apply own_now.
Qed.

(** * Steps *)
Lemma core_open b kp now D c b' ps sc : core b kp ps sc -> In (2, D) ps -> get_or_create store now (pstr D) TDir true (fun i => i) b = (inr c, b') -> core b' kp ps sc.
Proof.
  intros H I E. pose proof H as [R T Nm G Nd Tp Ty Al Ho Cl Sc Ke]. destruct (Ty _ _ I) as (i & V & Pg & [(X & _)|(_ & mt & S & Ti & _)]); [discriminate|].
  destruct (create_existing now D TDir true (fun i => i) b c b' i) as (R' & T' & V' & C' & O'); eauto.
  apply (core_same b b' kp ps sc sc); auto.
  - intros q. rewrite V'. destruct (path_eqb q D) eqn:Eq; [|reflexivity]. apply path_eqb_eq in Eq. congruence.
  - intros D' q I' P N. apply C'; [|eauto]. intros Pq. assert (X : is_prefix D' D = true) by (eapply is_prefix_trans; eassumption).
    rewrite (Tp D' 2 D I' I X) in *. now apply prefix_antisym.
Qed.

Lemma core_scanned now a D es s ops ids s' kp ps (sc : path -> scan -> Prop) : core (u_b s) kp ps sc -> In (2, D) ps -> (forall o, ~ sc D o) -> join (pa_rel a) (pa_name a) = pstr D ->
  lists_dir src D es -> scan_dir store clists sort now a (Some es) s = (Some (ops, ids), s') ->
  core (u_b s') kp ps (fun D' o => sc D' o \/ D' = D /\ o = (ops, ids)) /\ u_q s' = u_q s /\ u_ids s' = u_ids s.
Proof.
  intros H I Ns J L E. pose proof H as [R T Nm G Nd Tp Ty Al Ho Cl Sc Ke]. destruct L as (Ln & Li & Lo).
  assert (Ge : forall e, In e es -> good_name (se_name e)).
  { intros e Ie. destruct (Li e Ie) as (x & Sx & _). assert (X : Forall good_name (D ++ [se_name e])) by (apply (src_names _ Hsrc); congruence). apply Forall_app in X. destruct X as (_ & X). now inversion X. }
  assert (Bn : forall p, bview store now (u_b s) p = bv (u_b s) p) by (intros; now apply bv_now).
  apply (scan_eff store clists sort Hsort now D) in E; auto.
  - destruct E as (Df & _ & Be & Ef & Eq & Ei & Ko & Kf). split; [|auto]. pose proof (be_root _ _ _ _ _ _ Be) as R'.
    apply (core_same (u_b s) (u_b s') kp ps sc); auto.
    + intros id q O. apply (own_now _ now id q R). apply (be_own _ _ _ _ _ _ Be). now apply own_now.
    + apply (tidy_now _ now R'), Be.
    + intros q. rewrite <- (bv_now _ now q R'), (be_view _ _ _ _ _ _ Be). apply Bn.
    + intros D' q I' P N. apply (clean_now _ now q R'). apply (be_clean _ _ _ _ _ _ Be).
      * apply Bool.not_true_is_false. intros Pq. assert (X : is_prefix D' D = true) by (eapply is_prefix_trans; eassumption). pose proof (Tp D' 2 D I' I X). subst D'.
        pose proof (prefix_antisym _ _ Pq P). subst q. destruct N as [N|N]; [easy|]. apply (N (ops, ids)). now right.
      * apply clean_now; [exact R|]. apply (Cl D' q I' P). destruct N as [N|N]; [now left|right]. intros o X. apply (N o). now left.
    + intros D' o [X|(-> & ->)]; [now apply Sc|]. split; [exact I|]. split.
      { split; [intros id O S; right; apply Ko; [now apply own_now|exact S]|]. intros n i x Vi Ti Ar Ix. right. apply (Kf n i x); auto. now rewrite Bn. }
      exists es. split; [repeat split; auto|]. eapply differences_ext; [|exact Df]. intros n. symmetry. apply Bn.
  - eauto.
  - now apply tidy_now.
  - apply clean_now; [exact R|]. apply (Cl D D I (prefix_refl D)). now right.
  - intros p. rewrite Bn. auto.
Qed.

(** The chunks of a file arrive. *)
Lemma core_file now a P ck s ok s' kp ps1 ps2 sc : core (u_b s) kp (ps1 ++ (1, P) :: ps2) sc -> join (pa_rel a) (pa_name a) = pstr P ->
  (forall mt c k, src P = Some (SFile mt c) -> ck = Some k -> describes truth clists (mkfp (ck_size k) (ck_refs k) []) c /\ ck_exec k = is_executable c) ->
  handle_file store now a ck s = (ok, s') -> ok = true -> core (u_b s') kp (ps1 ++ ps2) sc /\ u_q s' = u_q s /\ u_ids s' = u_ids s.
Proof.
  intros H J Rd E ->. pose proof H as [R T Nm G Nd Tp Ty Al Ho Cl Sc Ke]. set (ps := ps1 ++ (1, P) :: ps2) in *.
  assert (I : In (1, P) ps) by (apply in_elt). destruct (Ty _ _ I) as (i & V & Pg & [(_ & mt & c & S & Ti & Tm)|(X & _)]); [|discriminate].
  unfold handle_file in E. rewrite J in E.
  match type of E with context [get_or_create _ _ _ _ _ ?ff _] => set (f := ff) in E end.
  destruct (get_or_create store now (pstr P) TFile false f (u_b s)) as [[e|cr] b] eqn:Ec; [discriminate|]. destruct ck as [k|]; [|discriminate].
  inversion E; subst s'. cbn [u_b u_q u_ids with_fc with_b]. split; [|split; reflexivity]. clear E.
  destruct (create_existing now P TFile false f (u_b s) cr b i) as (R' & T' & V' & C' & O'); eauto.
  assert (Km : forall kp' q, kept_at (u_b s) kp' q -> kept_at b kp' q).
  { intros kp' q (K1 & K2). split; [auto|]. intros n j x Vj Tj Ar Ix. rewrite V' in Vj. destruct (path_eqb (q ++ [n]) P); [|eapply K2; eassumption]. inversion Vj; subst j. destruct Ix. }
  destruct (Rd mt c k S eq_refl) as (De & Ex).
  assert (Sub : forall x, In x (ps1 ++ ps2) -> In x ps) by (intros x; unfold ps; rewrite !in_app_iff; cbn; tauto).
  assert (Np : ~ In P (map snd (ps1 ++ ps2))) by (unfold ps in Nd; rewrite map_app in Nd; cbn [map snd] in Nd; apply NoDup_remove_2 in Nd; now rewrite map_app).
  assert (Nb : forall D, In (2, D) (ps1 ++ ps2) -> is_prefix D P = false).
  { intros D ID. apply Bool.not_true_is_false. intros X. pose proof (Tp D 1 P (Sub _ ID) I X). subst D. apply Np. apply in_map_iff. exists (2, P). auto. }
  assert (Vo : forall q, q <> P -> bv b q = bv (u_b s) q) by (intros q N; rewrite V', peq_neq by exact N; reflexivity).
  assert (InM : forall q, In q (map snd ps) -> q <> P -> In q (map snd (ps1 ++ ps2))).
  { intros q Iq N. unfold ps in Iq. rewrite map_app in *. cbn [map snd] in Iq. rewrite in_app_iff in *. cbn [In] in Iq. intuition congruence. }
  constructor; auto.
  - intros p Hp. destruct (list_eq_dec (list_eq_dec N.eq_dec) p P) as [->|N]; [eauto|]. rewrite Vo in Hp by exact N. auto.
  - intros k0 Q IQ. eapply G. apply Sub. exact IQ.
  - unfold ps in Nd. rewrite map_app in *. cbn [map] in Nd. now apply NoDup_remove_1 in Nd.
  - intros D k0 Q A B. apply Tp with (k := k0); auto.
  - intros k0 Q IQ. rewrite Vo; [auto|]. intros ->. apply Np. apply in_map_iff. exists (k0, P). auto.
  - intros q. destruct (list_eq_dec (list_eq_dec N.eq_dec) q P) as [->|N].
    + right. right. rewrite V', peq_refl, S. unfold f. cbn. rewrite Ti, Ex. auto 6.
    + rewrite Vo by exact N. destruct (Al q) as [(D & A & B)|[A|A]]; [left|right; left; auto|auto].
      exists D. split; [|exact B]. unfold ps in A. rewrite in_app_iff in *. cbn [In] in A. destruct A as [A|[A|A]]; [auto|discriminate|auto].
  - intros D q ID Pq N. rewrite Vo; [eauto|]. intros ->. rewrite (Nb D ID) in Pq. discriminate.
  - intros D q ID Pq N. apply C'; [|eauto]. intros X. exfalso. assert (Y : is_prefix D P = true) by (eapply is_prefix_trans; eassumption). rewrite (Nb D ID) in Y. discriminate.
  - intros D ops X. destruct (Sc D ops X) as (ID & Kd & es & L & Df). assert (ID' : In (2, D) (ps1 ++ ps2)).
    { unfold ps in ID. rewrite in_app_iff in *. cbn [In] in ID. destruct ID as [A|[A|A]]; [auto|discriminate|auto]. }
    split; [exact ID'|]. split; [now apply Km|]. exists es. split; [exact L|]. eapply differences_ext; [|exact Df]. intros n. apply Vo. intros Y.
    pose proof (Nb D ID') as Z. rewrite <- Y, prefix_below in Z. discriminate.
  - intros q. destruct (Ke q) as [(D & A & B)|A]; [left|right; now apply Km]. exists D. split; [|exact B].
    unfold ps in A. rewrite in_app_iff in *. cbn [In] in A. destruct A as [A|[A|A]]; [auto|discriminate|auto].
Qed.

Definition child_of (D : path) (e : sentry) : N * path := (if se_dir e then 2 else 1, D ++ [se_name e]).

(** The result of a scan is applied. *)
Lemma core_dir now a D es ops ids late s ok s' kp ps1 ps2 (sc sc' : path -> scan -> Prop) : core (u_b s) kp (ps1 ++ (2, D) :: ps2) sc -> kept_at (u_b s) (or_in kp ids) D -> join (pa_rel a) (pa_name a) = pstr D ->
  lists_dir src D es -> differences (bv (u_b s)) D es ops -> (forall D' o, sc' D' o -> sc D' o /\ D' <> D) -> (forall D' o, sc D' o -> D' <> D -> sc' D' o) ->
  handle_dir store now a (Some (ops, ids)) late s = (ok, s') -> ok = true ->
  let kids := filter (changed (bv (u_b s)) D) es in
  core (u_b s') (or_in kp ids) ((ps1 ++ ps2) ++ map (child_of D) kids) sc' /\ u_ids s' = u_ids s ++ ids /\
  Permutation (map pkey (u_q s')) (map pkey (u_q s) ++ map (fun x => (fst x, pstr (snd x))) (map (child_of D) kids)).
Proof.
  intros H KD J L Df0 Sub' Sup' E -> kids. pose proof H as [R T Nm G Nd Tp Ty Al Ho Cl Sc Ke]. set (ps := ps1 ++ (2, D) :: ps2) in *.
  assert (I : In (2, D) ps) by (apply in_elt). destruct (Ty _ _ I) as (i & V & Pg & [(X & _)|(_ & mt & S & Ti & Tm)]); [discriminate|]. pose proof (G _ _ I) as GD.
  destruct L as (Ln & Li & Lo).
  assert (Gc : forall e, In e es -> Forall good_name (D ++ [se_name e])).
  { intros e Ie. destruct (Li e Ie) as (x & Sx & _). apply (src_names _ Hsrc). congruence. }
  assert (Ge : forall e, In e es -> good_name (se_name e)).
  { intros e Ie. pose proof (Gc e Ie) as X. apply Forall_app in X. destruct X as (_ & X). now inversion X. }
  assert (Bn : forall p, bview store now (u_b s) p = bv (u_b s) p) by (intros; now apply bv_now).
  assert (Df : differences (bview store now (u_b s)) D es ops) by (eapply differences_ext; [|exact Df0]; intros; apply Bn).
  (* the operations *)
  unfold handle_dir in E. set (deadline := if late then None else pa_deadline a) in E.
  destruct (apply_operations store now ops (Some (pa_rel a, pa_name a)) deadline true s) as [[e0|] s1] eqn:Ea; [discriminate|].
  apply (ops_eff store now D _ _ _ es) in Ea; auto; [|now apply tidy_now|intros p; rewrite Bn; auto|rewrite Bn, V; cbn; now rewrite Ti].
  destruct Ea as (Be & Ui & Vout & Vdel & Vin & Pq). pose proof (be_root _ _ _ _ _ _ Be) as R1. pose proof (be_tidy _ _ _ _ _ _ Be) as T1.
  rewrite J, pstr_split in E by exact GD.
  match type of E with (let (_, _) := ?z in _) = _ => destruct z as [[[u|e1] root] L1] eqn:Ec end; [|discriminate]. inversion E; subst s'. clear E. cbn [u_b u_q u_ids].
  apply set_info_eff in Ec; [|exact T1|reflexivity]. destruct Ec as (Bc & _). set (b' := mkb (Some root) L1) in *.
  pose proof (be_root _ _ _ _ _ _ Bc) as R2. pose proof (be_tidy _ _ _ _ _ _ Bc) as T2.
  assert (Ow : forall id q, owned store (b_lists b') (root_of 0 b') id q -> owned store (b_lists (u_b s)) (root_of 0 (u_b s)) id q).
  { intros id q O. apply (own_now _ now id q R). apply (be_own _ _ _ _ _ _ Be). apply (be_own _ _ _ _ _ _ Bc). now apply own_now. }
  (* the contents *)
  assert (Wout : forall q, is_prefix D q = false -> bv b' q = bv (u_b s) q).
  { intros q P. rewrite <- (bv_now _ now q R2), (be_view _ _ _ _ _ _ Bc), peq_neq by (intros ->; rewrite prefix_refl in P; discriminate).
    rewrite Vout; [apply Bn|]. intros n r ->. rewrite prefix_below in P. discriminate. }
  assert (Win : forall n r, bv b' (D ++ n :: r) = bview store now (u_b s1) (D ++ n :: r)).
  { intros n r. rewrite <- (bv_now _ now _ R2), (be_view _ _ _ _ _ _ Bc), peq_neq by apply below_neq. reflexivity. }
  assert (WD : bv b' D = Some (clear_progress i)).
  { rewrite <- (bv_now _ now _ R2), (be_view _ _ _ _ _ _ Bc), peq_refl. rewrite Vout by (intros n r X; symmetry in X; revert X; apply below_neq). rewrite Bn, V. reflexivity. }
  assert (Wdel : forall n r, ~ In n (map se_name es) -> bv b' (D ++ n :: r) = None) by (intros n r N; rewrite Win; now apply Vdel).
  assert (Wae : forall e r, In e es -> bv b' (D ++ se_name e :: r) = entry_after now (bview store now (u_b s)) D e r) by (intros e r Ie; rewrite Win; now apply Vin).
  assert (Below : forall n r, bview store now (u_b s) (D ++ [n]) = None -> bview store now (u_b s) (D ++ n :: r) = None).
  { intros n [|m r] X; [exact X|]. replace (D ++ n :: m :: r) with ((D ++ [n]) ++ m :: r) by (rewrite <- app_assoc; reflexivity).
    apply view_below; [|discriminate]. fold (bview store now (u_b s) (D ++ [n])). now rewrite X. }
  assert (BelowF : forall n m r j, bview store now (u_b s) (D ++ [n]) = Some j -> i_type j <> TDir -> bview store now (u_b s) (D ++ n :: m :: r) = None).
  { intros n m r j X Y. replace (D ++ n :: m :: r) with ((D ++ [n]) ++ m :: r) by (rewrite <- app_assoc; reflexivity).
    apply view_below; [|discriminate]. fold (bview store now (u_b s) (D ++ [n])). rewrite X. cbn. destruct (i_type j); try reflexivity. congruence. }
  (* strictly below an entry everything is as before or gone *)
  assert (Wdeep : forall e m r, In e es -> bv b' (D ++ se_name e :: m :: r) = bv (u_b s) (D ++ se_name e :: m :: r) \/ bv b' (D ++ se_name e :: m :: r) = None).
  { intros e m r Ie. rewrite Wae by exact Ie. unfold entry_after. destruct (bview store now (u_b s) (D ++ [se_name e])) as [j|] eqn:Ej; [|right; reflexivity].
    destruct (same_asset j e); [left; apply Bn|]. unfold after_create. rewrite peq_neq by (intros X; apply app_inv_head in X; discriminate).
    replace (is_prefix (D ++ se_name e :: m :: r) (D ++ [se_name e])) with false by (rewrite is_prefix_app; cbn; now rewrite name_eqb_refl).
    rewrite pre_snoc, name_eqb_refl. destruct (kept _ _ _); [left; apply Bn|now right]. }
  assert (Wfile : forall e m r, In e es -> se_dir e = false -> bv b' (D ++ se_name e :: m :: r) = None).
  { intros e m r Ie Fe. rewrite Wae by exact Ie. unfold entry_after. destruct (bview store now (u_b s) (D ++ [se_name e])) as [j|] eqn:Ej; [|reflexivity].
    destruct (same_asset j e) eqn:Sa.
    - eapply BelowF; [exact Ej|]. unfold same_asset in Sa. rewrite Fe in Sa. destruct (i_type j); cbn in Sa; discriminate.
    - unfold after_create. rewrite peq_neq by (intros X; apply app_inv_head in X; discriminate).
      replace (is_prefix (D ++ se_name e :: m :: r) (D ++ [se_name e])) with false by (rewrite is_prefix_app; cbn; now rewrite name_eqb_refl).
      rewrite pre_snoc, name_eqb_refl. unfold kept. rewrite Ej. cbn. rewrite Fe. cbn. destruct (type_eqb (i_type j) TFile) eqn:Tj; [|reflexivity].
      apply type_eqb_eq in Tj. eapply BelowF; [exact Ej|congruence]. }
  assert (Wnew : forall e, In e kids -> exists j, bv b' (D ++ [se_name e]) = Some j /\ i_progress j = true /\ i_type j = (if se_dir e then TDir else TFile) /\ i_mtime j = se_mtime e).
  { intros e Ik. unfold kids in Ik. apply filter_In in Ik. destruct Ik as (Ie & Ch). unfold changed in Ch. rewrite Wae by exact Ie. unfold entry_after. rewrite Bn.
    set (f := set_fields true (src_info (pstr D) e)). assert (Ff : forall j, i_type (f j) = i_type j /\ i_mtime (f j) = se_mtime e /\ i_progress (f j) = true).
    { intros j. unfold f, set_fields. cbn. destruct (se_dir e); repeat split. }
    destruct (bv (u_b s) (D ++ [se_name e])) as [j|] eqn:Ej.
    - destruct (same_asset j e); [discriminate|]. unfold after_create. rewrite peq_refl, Bn, Ej. fold f.
      match goal with |- exists _, Some (f ?x) = _ /\ _ => exists (f x); destruct (Ff x) as (A & B & C) end. split; [reflexivity|]. split; [exact C|]. split; [|exact B]. rewrite A.
      unfold kept. rewrite Bn, Ej. cbn [src_info ai_type]. destruct (type_eqb (if se_dir e then TDir else TFile) TUnknown) eqn:Tu; [destruct (se_dir e); discriminate|].
      cbn [orb]. destruct (type_eqb (i_type j) (if se_dir e then TDir else TFile)) eqn:Tj; [now apply type_eqb_eq in Tj|reflexivity].
    - eexists. split; [reflexivity|]. split; [apply (Ff (blank _))|]. split; [apply (Ff (blank _))|apply (Ff (blank _))]. }
  assert (In2 : forall x, In x (ps1 ++ ps2) -> In x ps) by (intros x; unfold ps; rewrite !in_app_iff; cbn; tauto).
  assert (Np : ~ In D (map snd (ps1 ++ ps2))) by (unfold ps in Nd; rewrite map_app in Nd; cbn [map snd] in Nd; apply NoDup_remove_2 in Nd; now rewrite map_app).
  assert (Na : forall k Q, In (k, Q) (ps1 ++ ps2) -> is_prefix D Q = false).
  { intros k Q IQ. apply Bool.not_true_is_false. intros X. pose proof (Tp D k Q I (In2 _ IQ) X). subst Q. apply Np. apply in_map_iff. exists (k, D). auto. }
  assert (Nb : forall D', In (2, D') (ps1 ++ ps2) -> is_prefix D' D = false).
  { intros D' ID. apply Bool.not_true_is_false. intros X. pose proof (Tp D' 2 D (In2 _ ID) I X). subst D'. apply Np. apply in_map_iff. exists (2, D). auto. }
  assert (Nc : forall D' q, In (2, D') (ps1 ++ ps2) -> is_prefix D' q = true -> is_prefix D q = false).
  { intros D' q ID P. apply Bool.not_true_is_false. intros X. destruct (prefix_total D D' q X P) as [Y|Y]; [rewrite (Na _ _ ID) in Y|rewrite (Nb _ ID) in Y]; discriminate. }
  assert (Split : forall x, In x ps -> x <> (2, D) -> In x (ps1 ++ ps2)).
  { intros x Ix N. unfold ps in Ix. rewrite in_app_iff in *. cbn [In] in Ix. destruct Ix as [X|[X|X]]; auto. congruence. }
  assert (Kid : forall k Q, In (k, Q) (map (child_of D) kids) -> exists e, In e kids /\ In e es /\ k = (if se_dir e then 2 else 1) /\ Q = D ++ [se_name e]).
  { intros k Q X. apply in_map_iff in X. destruct X as (e & X & Ik). exists e. unfold child_of in X. inversion X. split; [exact Ik|]. unfold kids in Ik. apply filter_In in Ik. tauto. }
  assert (Wfp : forall e j, In e es -> bv b' (D ++ [se_name e]) = Some j -> i_type j = TFile -> bv (u_b s) (D ++ [se_name e]) = Some j \/ fp_ind (i_file j) = []).
  { intros e j Ie Vj Tj. rewrite Wae in Vj by exact Ie. unfold entry_after in Vj. rewrite Bn in Vj. destruct (bv (u_b s) (D ++ [se_name e])) as [j0|] eqn:Ej.
    - destruct (same_asset j0 e); [left; congruence|]. unfold after_create in Vj. rewrite peq_refl, Bn, Ej in Vj. inversion Vj; subst j. right. revert Tj.
      unfold set_fields. cbn [src_info ai_type]. destruct (se_dir e); [|reflexivity]. cbn. unfold kept. rewrite Bn, Ej. cbn. destruct (type_eqb (i_type j0) TDir) eqn:Tj0; [|discriminate]. apply type_eqb_eq in Tj0. congruence.
    - right. cbn in Vj. inversion Vj; subst j. unfold set_fields. cbn. destruct (se_dir e); reflexivity. }
  split; [|split; [now rewrite Ui|]].
  { constructor.
    - exact R2.
    - apply (tidy_now _ now R2), T2.
    - intros p Hp. destruct (is_prefix D p) eqn:P; [|rewrite Wout in Hp by exact P; auto].
      destruct (list_eq_dec (list_eq_dec N.eq_dec) p D) as [->|N]; [exact GD|]. destruct (below_cons D p P N) as (n & r & ->).
      destruct (in_dec (list_eq_dec N.eq_dec) n (map se_name es)) as [In'|Nin]; [|rewrite Wdel in Hp by exact Nin; easy].
      apply in_map_iff in In'. destruct In' as (e & <- & Ie). destruct r as [|m r]; [now apply Gc|]. destruct (Wdeep e m r Ie) as [X|X]; rewrite X in Hp; [auto|easy].
    - intros k P X. apply in_app_or in X. destruct X as [X|X]; [eauto|]. apply Kid in X. destruct X as (e & _ & Ie & _ & ->). now apply Gc.
    - rewrite map_app. apply NoDup_app_intro.
      + unfold ps in Nd. rewrite map_app in *. cbn [map] in Nd. now apply NoDup_remove_1 in Nd.
      + rewrite map_map. cbn [child_of snd]. assert (X : forall l, NoDup (map se_name l) -> NoDup (map (fun e => D ++ [se_name e]) (filter (changed (bv (u_b s)) D) l))).
        { clear. induction l as [|e l IH]; intros N; [constructor|]. cbn [map] in N. inversion N as [|x y Ni Nd']; subst. cbn [filter]. destruct (changed _ D e); [|now apply IH]. cbn [map]. constructor; [|now apply IH].
          intros I. apply Ni. apply in_map_iff in I. destruct I as (e' & E & I). apply app_inv_head in E. assert (E' : se_name e' = se_name e) by congruence. rewrite <- E'. apply in_map. now apply filter_In in I. }
        apply X. exact Ln.
      + intros q A B. apply in_map_iff in A. destruct A as ([k Q] & <- & A). apply in_map_iff in B. destruct B as ([k' Q'] & X & B). cbn in X. subst Q'.
        apply Kid in B. destruct B as (e & _ & _ & _ & EQ). pose proof (Na k Q A) as Y. cbn [snd] in EQ. rewrite EQ, prefix_below in Y. discriminate.
    - intros D' k P A B Pr. apply in_app_or in A. apply in_app_or in B. destruct A as [A|A], B as [B|B].
      + apply Tp with (k := k); auto.
      + apply Kid in B. destruct B as (e & _ & Ie & _ & ->). exfalso. apply prefix_snoc in Pr. destruct Pr as [Pr|Pr]; [rewrite (Nb D' A) in Pr; discriminate|].
        pose proof (Na _ _ A) as X. rewrite Pr, prefix_below in X. discriminate.
      + apply Kid in A. destruct A as (e & _ & Ie & _ & ->). exfalso. pose proof (Na _ _ B) as X. assert (Y : is_prefix D P = true) by (eapply is_prefix_trans; [apply prefix_below|exact Pr]). congruence.
      + apply Kid in A. apply Kid in B. destruct A as (e & _ & _ & _ & ->), B as (e' & _ & _ & _ & ->). rewrite pre_snoc in Pr. apply name_eqb_eq in Pr. now rewrite Pr.
    - intros k P X. apply in_app_or in X. destruct X as [X|X]; [rewrite Wout by (eapply Na; exact X); auto|].
      apply Kid in X. destruct X as (e & Ik & Ie & -> & ->). destruct (Wnew e Ik) as (j & Vj & Pj & Tj & Mj). destruct (Li e Ie) as (sn & Sn & Se). exists j. split; [exact Vj|]. split; [exact Pj|].
      unfold entry_is in Se. destruct sn as [mt'|mt' c]; destruct Se as (Sd & Sm); rewrite Sd in *.
      + right. split; [reflexivity|]. exists mt'. rewrite Sn, Mj. auto.
      + left. split; [reflexivity|]. exists mt', c. destruct Sm as (Sm & _). rewrite Sn, Mj. auto.
    - intros q. destruct (is_prefix D q) eqn:P.
      + destruct (list_eq_dec (list_eq_dec N.eq_dec) q D) as [->|N].
        * right. right. rewrite WD, S. cbn. auto.
        * destruct (below_cons D q P N) as (n & r & ->). destruct (in_dec (list_eq_dec N.eq_dec) n (map se_name es)) as [In'|Nin].
          -- apply in_map_iff in In'. destruct In' as (e & <- & Ie). destruct (Li e Ie) as (sn & Sn & Se). destruct (changed (bv (u_b s)) D e) eqn:Ch.
             ++ assert (Ik : In e kids) by (apply filter_In; auto). destruct r as [|m r].
                ** right. left. rewrite map_app. apply in_or_app. right. apply in_map_iff. exists (child_of D e). split; [reflexivity|]. now apply in_map.
                ** destruct (se_dir e) eqn:De.
                   --- left. exists (D ++ [se_name e]). split; [apply in_or_app; right; apply in_map_iff; exists e; unfold child_of; rewrite De; auto|].
                       split; [rewrite pre_snoc; apply name_eqb_refl|]. intros X. apply app_inv_head in X. discriminate.
                   --- right. right. rewrite Wfile by auto. unfold entry_is in Se. destruct sn as [mt'|mt' c]; [destruct Se; congruence|].
                       replace (D ++ se_name e :: m :: r) with ((D ++ [se_name e]) ++ m :: r) by (rewrite <- app_assoc; reflexivity). now rewrite (src_file_leaf _ _ _ _ _ Sn).
             ++ right. right. unfold changed in Ch. destruct (bv (u_b s) (D ++ [se_name e])) as [j|] eqn:Ej; [|discriminate]. apply negb_false_iff in Ch.
                pose proof Ch as Sa. unfold same_asset in Sa. destruct (se_dir e) eqn:De; [discriminate|]. unfold entry_is in Se. destruct sn as [mt'|mt' c]; [destruct Se; congruence|]. destruct Se as (_ & Sm & Sz).
                destruct r as [|m r].
                ** rewrite Wae by exact Ie. unfold entry_after. rewrite Bn, Ej, Ch. rewrite <- Ej. apply andb_true_iff in Sa. destruct Sa as (Sa & Sz'). apply andb_true_iff in Sa. destruct Sa as (St & Sm').
                   apply type_eqb_eq in St. apply N.eqb_eq in Sm'. apply N.eqb_eq in Sz'.
                   apply (Ho D (D ++ [se_name e]) I (prefix_below _ _ _) (below_neq _ _ _) j mt' c); auto; congruence.
                ** rewrite Wfile by auto. replace (D ++ se_name e :: m :: r) with ((D ++ [se_name e]) ++ m :: r) by (rewrite <- app_assoc; reflexivity). now rewrite (src_file_leaf _ _ _ _ _ Sn).
          -- right. right. rewrite Wdel by exact Nin. assert (X : src (D ++ n :: r) = None); [|now rewrite X].
             replace (D ++ n :: r) with ((D ++ [n]) ++ r) by (rewrite <- app_assoc; reflexivity). apply src_none. destruct (src (D ++ [n])) eqn:X; [|reflexivity]. exfalso. apply Nin, Lo. congruence.
      + rewrite Wout by exact P. destruct (Al q) as [(D' & A & B & C)|[A|A]]; auto.
        * left. exists D'. split; [|auto]. apply in_or_app. left. apply Split; [exact A|]. intros X. inversion X; subst D'. congruence.
        * right. left. rewrite map_app. apply in_or_app. left. apply in_map_iff in A. destruct A as ([k Q] & <- & A). apply in_map_iff. exists (k, Q). split; [reflexivity|]. apply Split; [exact A|].
          intros X. inversion X; subst. cbn [snd] in P. rewrite prefix_refl in P. discriminate.
    - intros D' q A Pr N. apply in_app_or in A. destruct A as [A|A].
      + rewrite Wout by (eapply Nc; eassumption). eauto.
      + apply Kid in A. destruct A as (e & Ik & Ie & _ & ->). destruct (below_cons _ q Pr N) as (m & r & ->). rewrite <- app_assoc. cbn [app].
        destruct (Wdeep e m r Ie) as [X|X]; rewrite X.
        * apply (Ho D _ I (prefix_below _ _ _) (below_neq _ _ _)).
        * intros i0 mt0 c0 Y. discriminate.
    - intros D' q A Pr N. apply (clean_now _ now q R2). apply in_app_or in A.
      assert (X : is_prefix q D = false /\ clean_at store (u_b s) now q).
      { destruct A as [A|A].
        - assert (X : is_prefix q D = false) by (apply Bool.not_true_is_false; intros X; pose proof (is_prefix_trans _ _ _ Pr X) as Y; rewrite (Nb D' A) in Y; discriminate).
          split; [exact X|]. apply clean_now; [exact R|]. apply (Cl D' q (In2 _ A) Pr). destruct N as [N|N]; [now left|right]. intros o Y. apply (N o). apply Sup'; [exact Y|].
          intros ->. pose proof (Na _ _ A) as Z. rewrite prefix_refl in Z. discriminate.
        - apply Kid in A. destruct A as (e & _ & _ & _ & ->). apply is_prefix_spec in Pr. destruct Pr as (r & ->). rewrite <- app_assoc. cbn [app]. split; [apply not_above|].
          apply clean_now; [exact R|]. apply (Cl D _ I (prefix_below _ _ _)). left. apply below_neq. }
      destruct X as (X1 & X2). apply (be_clean _ _ _ _ _ _ Bc q X1). now apply (be_clean _ _ _ _ _ _ Be q X1).
    - intros D' o X. destruct (Sub' D' o X) as (Y & Nq). destruct (Sc D' o Y) as (ID & Kd & es' & L' & Df'). assert (ID' : In (2, D') (ps1 ++ ps2)) by (apply Split; [exact ID|congruence]).
      split; [apply in_or_app; now left|]. split.
      { eapply kept_mono; [| | |exact Kd]; [auto| |intros x [Z|Z]; [left; now left|now right]]. intros n. apply Wout. apply (Nc D' _ ID'). apply prefix_below. }
      exists es'. split; [exact L'|]. eapply differences_ext; [|exact Df']. intros n. apply Wout. apply (Nc D' _ ID'). apply prefix_below.
    - intros q. destruct (is_prefix D q) eqn:P.
      + destruct (list_eq_dec (list_eq_dec N.eq_dec) q D) as [->|N].
        * right. destruct KD as (K1 & K2). split; [auto|]. intros n j x Vj Tj Ar Ix. destruct (in_dec (list_eq_dec N.eq_dec) n (map se_name es)) as [In'|Nin]; [|rewrite Wdel in Vj by exact Nin; discriminate].
          apply in_map_iff in In'. destruct In' as (e & <- & Ie). destruct (Wfp e j Ie Vj Tj) as [X|X]; [eapply K2; eassumption|]. rewrite X in Ix. destruct Ix.
        * destruct (below_cons D q P N) as (n & r & ->).
          assert (Empty : (bv b' (D ++ n :: r) = None \/ is_dir (bv b' (D ++ n :: r)) = false) -> kept_at b' (or_in kp ids) (D ++ n :: r)).
          { intros Em. assert (Nd' : is_dir (bv b' (D ++ n :: r)) = false) by (destruct Em as [X|X]; [now rewrite X|exact X]). split.
            - intros id (d0 & N0 & T0 & _) _. exfalso. unfold bview, view in Nd'. rewrite N0 in Nd'. cbn in Nd'. unfold a_type in T0. rewrite T0 in Nd'. discriminate.
            - intros m j x Vj. exfalso. unfold bview in Vj, Nd'. rewrite (view_below store _ _ _ [m] Nd') in Vj; discriminate. }
          destruct (in_dec (list_eq_dec N.eq_dec) n (map se_name es)) as [In'|Nin]; [|right; apply Empty; left; now apply Wdel].
          apply in_map_iff in In'. destruct In' as (e & <- & Ie). destruct (se_dir e) eqn:De.
          -- left. exists (D ++ [se_name e]). split.
             ++ apply in_or_app. right. apply in_map_iff. exists e. unfold child_of. rewrite De. split; [reflexivity|]. apply filter_In. split; [exact Ie|].
                unfold changed. destruct (bv (u_b s) (D ++ [se_name e])) as [j|]; [|reflexivity]. unfold same_asset. now rewrite De.
             ++ rewrite pre_snoc. apply name_eqb_refl.
          -- right. apply Empty. destruct r as [|m r]; [right|left; now apply Wfile].
             destruct (changed (bv (u_b s)) D e) eqn:Ch.
             ++ destruct (Wnew e) as (j & Vj & _ & Tj & _); [now apply filter_In|]. rewrite Vj. cbn. now rewrite Tj, De.
             ++ unfold changed in Ch. destruct (bv (u_b s) (D ++ [se_name e])) as [j|] eqn:Ej; [|discriminate]. apply negb_false_iff in Ch.
                rewrite Wae by exact Ie. unfold entry_after. rewrite Bn, Ej, Ch. cbn. unfold same_asset in Ch. rewrite De in Ch. destruct (i_type j); try discriminate; reflexivity.
      + destruct (Ke q) as [(D' & A & B)|A].
        * left. exists D'. split; [|exact B]. apply in_or_app. left. apply Split; [exact A|]. intros X. inversion X; subst D'. congruence.
        * right. destruct (is_prefix q D) eqn:Pqd.
          -- destruct A as (K1 & K2). split; [intros id O S0; left; auto|]. intros n j x Vj Tj Ar Ix. left. destruct (is_prefix D (q ++ [n])) eqn:Pn; [|rewrite Wout in Vj by exact Pn; eapply K2; eassumption].
             apply prefix_snoc in Pn. destruct Pn as [Pn|Pn]; [congruence|]. rewrite <- Pn, WD in Vj. inversion Vj; subst j. cbn in Tj. congruence.
          -- eapply kept_mono; [| | |exact A]; [auto| |intros x Z; now left]. intros n. apply Wout. apply Bool.not_true_is_false. intros Pn. apply prefix_snoc in Pn. destruct Pn as [Pn|Pn]; [congruence|].
             rewrite Pn in Pqd. rewrite prefix_below in Pqd. discriminate. }
  rewrite Pq. apply Permutation_app_head. rewrite map_map. unfold kids.
  assert (Fe : forall l, (forall e, In e l -> In e es) -> map (fun e => akey (src_info (pstr D) e)) (filter (changed (bview store now (u_b s)) D) l) = map (fun e => (fst (child_of D e), pstr (snd (child_of D e)))) (filter (changed (bv (u_b s)) D) l)).
  { induction l as [|e l IH]; intros Su; [reflexivity|]. cbn [filter]. replace (changed (bview store now (u_b s)) D e) with (changed (bv (u_b s)) D e) by (unfold changed; now rewrite Bn).
    destruct (changed (bv (u_b s)) D e); [|apply IH; intros; apply Su; now right].
    cbn [map]. f_equal; [|apply IH; intros; apply Su; now right]. unfold akey, child_of, src_info. cbn [ai_type ai_path fst snd].
    rewrite to_unix_pstr, join_pstr; [|exact GD|apply (Ge e), Su; now left|exact GD]. destruct (se_dir e); reflexivity. }
  rewrite Fe by auto. reflexivity.
Qed.
End Machine.
