(** Proofs about ModelUpdater: paths, comparison, scanning. *)
From Verif Require Import Base ListX Str ModelText ModelPath SpecPath ProofPath PropPath ModelCdc ModelChunkMap ModelProvider ModelAsset SpecAsset
  ModelFileDiff SpecFileDiff ProofFileDiff ModelManifest SpecManifest ProofManifest ProofTree PropManifest ModelUpdater SpecUpdater.
Local Open Scope N_scope.

(** * Strings *)
Lemma pstr_cons n r : r <> [] -> pstr (n :: r) = n ++ 47 :: pstr r.
Proof. destruct r; [easy|reflexivity]. Qed.

Lemma pstr_split p : Forall good_name p -> split_unix (pstr p) = p.
Proof.
  induction 1 as [|n r (N & A & B) F IH]; [reflexivity|]. destruct r as [|m r]; [now apply C28_path_single|].
  rewrite pstr_cons by discriminate. rewrite C28_path_separators by auto. rewrite IH, C28_path_single by assumption. reflexivity.
Qed.
Lemma pstr_inj p q : Forall good_name p -> Forall good_name q -> pstr p = pstr q -> p = q.
Proof. intros A B E. now rewrite <- (pstr_split p A), <- (pstr_split q B), E. Qed.

Lemma no92 p : Forall good_name p -> ~ In 92 (pstr p).
Proof.
  induction 1 as [|n r (N & A & B) F IH]; [auto|]. destruct r as [|m r]; [exact B|]. rewrite pstr_cons by discriminate.
  rewrite in_app_iff. cbn [In]. intuition discriminate.
Qed.
Lemma to_unix_id s : ~ In 92 s -> to_unix s = s.
Proof. induction s as [|c s IH]; intros H; [reflexivity|]. cbn in *. destruct (N.eqb_spec c 92); [subst; tauto|]. f_equal. apply IH. tauto. Qed.
Lemma to_unix_pstr p : Forall good_name p -> to_unix (pstr p) = pstr p.
Proof. intros. now apply to_unix_id, no92. Qed.

Lemma good_no_seps n : good_name n -> no_seps n.
Proof. intros (_ & A & B). apply Forall_forall. intros x I [->| ->]; [now apply A|now apply B]. Qed.
Lemma good_trailing p : Forall good_name p -> no_trailing_sep (pstr p).
Proof.
  induction 1 as [|n r G F IH]; [apply no_trailing_nil|]. destruct r as [|m r].
  - cbn. intros l b E S. pose proof (good_no_seps n G) as H. rewrite E in H. apply Forall_app in H. destruct H as (_ & H). inversion H; tauto.
  - rewrite pstr_cons by discriminate. intros l b E S. destruct (snoc_case (pstr (m :: r))) as [Z|(l' & x & Z)].
    + rewrite Z in *. pose proof (Forall_inv F) as (Nm & _). destruct m; [easy|]. destruct r; discriminate Z.
    + apply (IH l' x Z). rewrite Z in E. replace (n ++ 47 :: l' ++ [x]) with ((n ++ 47 :: l') ++ [x]) in E by (rewrite <- app_assoc; reflexivity).
      apply app_inj_tail in E. destruct E as (_ & ->). exact S.
Qed.
Lemma pstr_nonempty p : Forall good_name p -> p <> [] -> pstr p <> [].
Proof. intros F N E. apply N. rewrite <- (pstr_split p F), E. reflexivity. Qed.

Lemma pstr_snoc p n : p <> [] -> pstr (p ++ [n]) = pstr p ++ 47 :: n.
Proof.
  induction p as [|m r IH]; [easy|]. intros _. destruct r as [|k r]; [reflexivity|]. rewrite (pstr_cons m (k :: r)) by discriminate.
  cbn [app]. rewrite pstr_cons by discriminate. change (k :: r ++ [n]) with ((k :: r) ++ [n]). rewrite IH by discriminate. now rewrite <- app_assoc.
Qed.
Lemma join_pstr p n : Forall good_name p -> n <> [] -> join (pstr p) n = pstr (p ++ [n]).
Proof.
  intros F Nn. unfold join. destruct n as [|c n]; [easy|]. destruct p as [|m r]; [reflexivity|]. rewrite pstr_snoc by discriminate.
  destruct (snoc_case (pstr (m :: r))) as [Z|(l & x & Z)]; [now apply pstr_nonempty in Z|]. rewrite Z. unfold needs_sep. rewrite last_char_snoc.
  destruct (is_sep_spec x) as [S|S]; [exfalso; exact (good_trailing _ F _ _ Z S)|]. cbn [negb]. rewrite <- !app_assoc. reflexivity.
Qed.
Lemma base_pstr p n : Forall good_name p -> good_name n -> basename (pstr (p ++ [n])) = n.
Proof. intros F G. rewrite <- join_pstr by (apply F || apply G). apply C19_join_split; [apply G|now apply good_no_seps|now apply good_trailing]. Qed.
Lemma dir_pstr p n : Forall good_name p -> good_name n -> dirname (pstr (p ++ [n])) = pstr p.
Proof. intros F G. rewrite <- join_pstr by (apply F || apply G). apply C19_join_split; [apply G|now apply good_no_seps|now apply good_trailing]. Qed.

Lemma inside_split d s : inside d s = true -> exists r, s = d ++ 47 :: r.
Proof.
  revert s. induction d as [|x d IH]; intros [|c s]; cbn; try discriminate.
  - destruct (N.eqb_spec c 47) as [->|]; [eauto|discriminate].
  - destruct (N.eqb_spec x c) as [->|]; [|discriminate]. cbn. intros H. apply IH in H. destruct H as (r & ->). eauto.
Qed.
Lemma inside_prefix d s : inside d s = true -> is_prefix (split_unix d) (split_unix s) = true.
Proof. intros H. apply inside_split in H. destruct H as (r & ->). rewrite C28_path_separators by auto. apply is_prefix_spec. eauto. Qed.

(** * CompareAssets *)
Definition slts : list ainfo -> Prop := StronglySorted (fun a b => slt (ai_path a) (ai_path b)).
Notation pathsof l := (map ai_path l).

Lemma above_not_in s l : Forall (fun b => slt s (ai_path b)) l -> ~ In s (pathsof l).
Proof. intros F I. apply in_map_iff in I. destruct I as (b & <- & I). rewrite Forall_forall in F. now apply (slt_irrefl (ai_path b)), F. Qed.
Lemma slts_NoDup l : slts l -> NoDup (pathsof l).
Proof. induction 1 as [|a l S IH F]; constructor; auto. now apply above_not_in. Qed.

Definition op_path (o : operation) : bytes := ai_path (snd o).
Definition compare_post (src man : list ainfo) (ops : list operation) : Prop :=
  NoDup (map op_path ops) /\
  (forall o, In o ops -> In (op_path o) (pathsof src) \/ In (op_path o) (pathsof man)) /\
  (forall ai, In (KAdd, ai) ops <-> In ai src /\ ~ In (ai_path ai) (pathsof man)) /\
  (forall ai, In (KDelete, ai) ops <-> In ai man /\ ~ In (ai_path ai) (pathsof src)) /\
  (forall ai, In (KUpdate, ai) ops <-> exists m, In ai src /\ In m man /\ ai_path m = ai_path ai /\ unchanged ai m = false) /\
  (forall ai, In (KKeep, ai) ops <-> exists s, In s src /\ In ai man /\ ai_path s = ai_path ai /\ unchanged s ai = true).

Lemma compare_cons_src s src man : compare_assets (s :: src) man =
  match man with
  | [] => (KAdd, s) :: compare_assets src []
  | m :: man' =>
      match scmp (ai_path s) (ai_path m) with
      | Lt => (KAdd, s) :: compare_assets src man
      | Gt => (KDelete, m) :: compare_assets (s :: src) man'
      | Eq => (if unchanged s m then (KKeep, m) else (KUpdate, s)) :: compare_assets src man'
      end
  end.
Proof. destruct man; reflexivity. Qed.

Lemma post_add s src man ops : slts (s :: src) -> Forall (fun m => slt (ai_path s) (ai_path m)) man ->
  compare_post src man ops -> compare_post (s :: src) man ((KAdd, s) :: ops).
Proof.
  intros S M (N & P & A & D & U & K). inversion S as [|? ? S' F]; subst. pose proof (above_not_in _ _ F) as Ns. pose proof (above_not_in _ _ M) as Nm.
  split; [|split; [|split; [|split; [|split]]]].
  - cbn. constructor; [|exact N]. intros I. apply in_map_iff in I. destruct I as (o & E & I). destruct (P o I) as [Q|Q]; rewrite E in Q; contradiction.
  - intros o [<-|I]; [left; now left|]. destruct (P o I); [left; now right|now right].
  - intros ai. cbn [In]. rewrite A. split.
    + intros [E|(I & J)]; [inversion E; subst; auto|auto].
    + intros ([<-|I] & J); auto.
  - intros ai. cbn [In map]. rewrite D. split.
    + intros [E|(I & J)]; [discriminate|]. split; [exact I|]. intros [E|E]; [|contradiction]. apply Nm. rewrite E. now apply in_map.
    + intros (I & J). right. tauto.
  - intros ai. cbn [In]. rewrite U. split.
    + intros [E|(m & I & J & X)]; [discriminate|]. exists m. tauto.
    + intros (m & [<-|I] & J & E & X); [exfalso; apply Nm; rewrite <- E; now apply in_map|right; exists m; tauto].
  - intros ai. cbn [In]. rewrite K. split.
    + intros [E|(s' & I & X)]; [discriminate|]. exists s'. tauto.
    + intros (s' & [<-|I] & J & E & X); [exfalso; apply Nm; rewrite E; now apply in_map|right; exists s'; tauto].
Qed.
Lemma post_delete m src man ops : slts (m :: man) -> Forall (fun s => slt (ai_path m) (ai_path s)) src ->
  compare_post src man ops -> compare_post src (m :: man) ((KDelete, m) :: ops).
Proof.
  intros S M (N & P & A & D & U & K). inversion S as [|? ? S' F]; subst. pose proof (above_not_in _ _ F) as Ns. pose proof (above_not_in _ _ M) as Nm.
  split; [|split; [|split; [|split; [|split]]]].
  - cbn. constructor; [|exact N]. intros I. apply in_map_iff in I. destruct I as (o & E & I). destruct (P o I) as [Q|Q]; rewrite E in Q; contradiction.
  - intros o [<-|I]; [right; now left|]. destruct (P o I); [now left|right; now right].
  - intros ai. cbn [In map]. rewrite A. split.
    + intros [E|(I & J)]; [discriminate|]. split; [exact I|]. intros [E|E]; [|contradiction]. apply Nm. rewrite E. now apply in_map.
    + intros (I & J). right. tauto.
  - intros ai. cbn [In]. rewrite D. split.
    + intros [E|(I & J)]; [inversion E; subst; auto|auto].
    + intros ([<-|I] & J); auto.
  - intros ai. cbn [In]. rewrite U. split.
    + intros [E|(x & I & J & X)]; [discriminate|]. exists x. tauto.
    + intros (x & I & [<-|J] & E & X); [exfalso; apply Nm; rewrite E; now apply in_map|right; exists x; tauto].
  - intros ai. cbn [In]. rewrite K. split.
    + intros [E|(s' & I & X)]; [discriminate|]. exists s'. tauto.
    + intros (s' & I & [<-|J] & E & X); [exfalso; apply Nm; rewrite <- E; now apply in_map|right; exists s'; tauto].
Qed.
Lemma post_both s m src man ops : slts (s :: src) -> slts (m :: man) -> ai_path s = ai_path m ->
  compare_post src man ops -> compare_post (s :: src) (m :: man) ((if unchanged s m then (KKeep, m) else (KUpdate, s)) :: ops).
Proof.
  intros S M E (N & P & A & D & U & K). inversion S as [|? ? S' F]; subst. inversion M as [|? ? M' G]; subst.
  pose proof (above_not_in _ _ F) as Ns. pose proof (above_not_in _ _ G) as Nm.
  assert (Nms : ~ In (ai_path m) (pathsof src)) by (rewrite <- E; exact Ns). assert (Nsm : ~ In (ai_path s) (pathsof man)) by (rewrite E; exact Nm).
  set (o0 := if unchanged s m then (KKeep, m) else (KUpdate, s)).
  assert (Po : op_path o0 = ai_path s) by (unfold o0, op_path; destruct (unchanged s m); cbn [snd]; congruence).
  split; [|split; [|split; [|split; [|split]]]].
  - cbn [map]. rewrite Po. constructor; [|exact N]. intros I. apply in_map_iff in I. destruct I as (o & Eo & I). destruct (P o I) as [Q|Q]; rewrite Eo in Q; contradiction.
  - intros o [<-|I]; [left; left; symmetry; exact Po|]. destruct (P o I); [left; now right|right; now right].
  - intros ai. cbn [In map]. rewrite A. split.
    + intros [X|(I & J)]; [unfold o0 in X; destruct (unchanged s m); discriminate|]. split; [now right|]. intros [X|X]; [|contradiction]. apply Nms. rewrite X. now apply in_map.
    + intros ([<-|I] & J); [exfalso; apply J; left; congruence|]. right. tauto.
  - intros ai. cbn [In map]. rewrite D. split.
    + intros [X|(I & J)]; [unfold o0 in X; destruct (unchanged s m); discriminate|]. split; [now right|]. intros [X|X]; [|contradiction]. apply Nsm. rewrite X. now apply in_map.
    + intros ([<-|I] & J); [exfalso; apply J; left; congruence|]. right. tauto.
  - intros ai. cbn [In]. rewrite U. split.
    + intros [X|(x & I & J & X)]; [|exists x; tauto]. unfold o0 in X. destruct (unchanged s m) eqn:Un; [discriminate|]. inversion X; subst. exists m. auto.
    + intros (x & [<-|I] & [<-|J] & Ex & X).
      * left. unfold o0. now rewrite X.
      * exfalso. apply Nsm. rewrite <- Ex. now apply in_map.
      * exfalso. apply Nms. rewrite Ex. now apply in_map.
      * right. exists x. tauto.
  - intros ai. cbn [In]. rewrite K. split.
    + intros [X|(x & I & J & X)]; [|exists x; tauto]. unfold o0 in X. destruct (unchanged s m) eqn:Un; [|discriminate]. inversion X; subst. exists s. auto.
    + intros (x & [<-|I] & [<-|J] & Ex & X).
      * left. unfold o0. now rewrite X.
      * exfalso. apply Nsm. rewrite Ex. now apply in_map.
      * exfalso. apply Nms. rewrite <- Ex. now apply in_map.
      * right. exists x. tauto.
Qed.

Lemma compare_spec src : slts src -> forall man, slts man -> compare_post src man (compare_assets src man).
Proof.
  assert (Nil : compare_post [] [] []).
  { repeat split; cbn; try tauto; try constructor; try (intros (x & H)); tauto. }
  induction 1 as [|s src S IH F].
  - intros man M. cbn [compare_assets]. induction M as [|m man M IHm G]; [exact Nil|]. cbn [map]. apply post_delete; [now constructor|constructor|exact IHm].
  - intros man M. induction M as [|m man M IHm G]; rewrite compare_cons_src.
    + apply post_add; [now constructor|constructor|]. apply IH. constructor.
    + destruct (scmp (ai_path s) (ai_path m)) eqn:C.
      * apply scmp_eq in C. apply post_both; auto; now constructor.
      * apply post_add; [now constructor| |apply IH; now constructor]. constructor; [exact C|]. eapply Forall_impl; [|exact G]. cbn. intros b Hb. eapply slt_trans; eassumption.
      * apply scmp_gt in C. apply post_delete; [now constructor| |exact IHm]. constructor; [exact C|]. eapply Forall_impl; [|exact F]. cbn. intros b Hb. eapply slt_trans; eassumption.
Qed.
