(** Proofs for C15, C16, C17: a whole sync. *)
From Verif Require Import Base ListX Str ModelFastcdc SpecFastcdc ModelCdc SpecCdc PropCdc ModelFileDiff SpecFileDiff ProofFileDiff PropFileDiff ModelSync SpecSync ProofSync ProofSyncSafe ProofSyncDiff ProofSyncRun ProofSyncOk ProofSyncProgress.
Local Open Scope N_scope.

Lemma key_inj {A B} (key : A -> B) l : NoDup (map key l) -> forall a b, In a l -> In b l -> key a = key b -> a = b.
Proof.
  induction l as [|z l IH]; intros ND a b Ia Ib E; [easy|]. cbn in ND. inversion ND; subst. destruct Ia as [->|Ia], Ib as [->|Ib]; auto.
  - elim H1. rewrite E. now apply in_map.
  - elim H1. rewrite <- E. now apply in_map.
Qed.

Lemma sorted_before {A} (R : A -> A -> Prop) a x b y : StronglySorted R (a ++ x :: b) -> In y a -> R y x.
Proof.
  induction a as [|z a IH]; cbn; [easy|]. intros S. inversion S as [|z' l' S' F]; subst. intros [->|I]; [|auto]. rewrite Forall_forall in F. apply F. apply in_or_app. right. now left.
Qed.
Lemma sorted_map {A B} (f : A -> B) (R : B -> B -> Prop) l : StronglySorted (fun a b => R (f a) (f b)) l -> StronglySorted R (map f l).
Proof. induction 1 as [|a l S IH F]; cbn; constructor; auto. rewrite Forall_forall in *. intros b Ib. apply in_map_iff in Ib. destruct Ib as (x & <- & Ix). auto. Qed.

Section All.
Variable mode0 : N.
Variable copy_fs : option fs.
Variable filter_match : bytes -> bool.
Variable dir_stat : Z * N.
Variable sort_f : list finfo -> list finfo.
Variable sort_d : list dinfo -> list dinfo.
Variable opts : sopts.
Variable client_files : list finfo.
Variable client_dirs : list dinfo.
Variable content : N -> bytes.
Variable blocks : bytes -> list bytes.
Variable hash : bytes -> N.
Variable w : nat.
Variable gear : byte -> N.
Variable cfg : config.
Variable iobuf : nat.
Variable completed available : N -> nat -> bool.
Notation vis := (visible filter_match opts).
Notation mdiff := (make_diff copy_fs filter_match dir_stat sort_f sort_d opts client_files client_dirs).
Notation dur := (during mode0 copy_fs filter_match dir_stat sort_f sort_d opts client_files client_dirs content blocks hash w gear cfg iobuf completed available).
Notation syn := (synced mode0 copy_fs filter_match dir_stat sort_f sort_d opts client_files client_dirs content blocks hash w gear cfg iobuf completed available).
Notation prun := (phase_runs mode0 (the_copy copy_fs)).
Notation changed := (changed_task content blocks hash w gear cfg iobuf completed available).
Notation missing := (missing_task content blocks).

Variable s : fs.
Hypothesis NDs : NoDup (map fst s).
Hypothesis NDc : forall c, copy_fs = Some c -> NoDup (map fst c).
Hypothesis Sf : sorts fi_path sort_f.
Hypothesis Sd : sorts di_path sort_d.
Hypothesis PT : proper_tree client_files client_dirs.
Hypothesis NT : no_temp_clash client_files client_dirs.

Let NDcf : NoDup (map fi_path client_files) := proj1 PT.
Let Nullb : Forall (fun f => fi_base f = nullptr) client_files := proj1 (proj2 PT).
Let FD : forall p, In p (map fi_path client_files) -> ~ In p (map di_path client_dirs) := proj1 (proj2 (proj2 PT)).
Let FB : forall p q, In p (map fi_path client_files) -> client_path client_files client_dirs q -> ~ below p q := proj2 (proj2 (proj2 PT)).
Notation d := (mdiff s).

Lemma missing_path p : In p (map fi_path (missing_files d)) -> In p (map fi_path client_files).
Proof.
  intros I. apply in_map_iff in I. destruct I as (m & <- & I). destruct (missing_from copy_fs filter_match dir_stat sort_f sort_d opts client_files client_dirs s NDs NDc Sf NDcf m I) as (f & If & (<- & _)). now apply in_map.
Qed.
Lemma changed_path p : In p (map ci_path (changed_files d)) -> In p (map fi_path client_files).
Proof.
  intros I. apply in_map_iff in I. destruct I as (m & <- & I). destruct (changed_from copy_fs filter_match dir_stat sort_f sort_d opts client_files client_dirs s NDs NDc Sf NDcf Nullb m I) as (f & If & (<- & _) & _). now apply in_map.
Qed.
Lemma mdir_path p : In p (map di_path (missing_dirs d)) -> In p (map di_path client_dirs).
Proof.
  intros I. apply in_map_iff in I. destruct I as (m & <- & I). now destruct (missing_dir_from copy_fs filter_match dir_stat sort_f sort_d opts client_files client_dirs s NDs NDc Sd m I) as (H & _).
Qed.

(** ** Frames *)
Definition extr (q : bytes) : Prop := In q (map fi_path (extraneous_files d)) \/ In q (map di_path (extraneous_dirs d)).

Lemma delete_phase ps s1 : so_dry_run opts = false -> prun ([delete_task sort_d opts d], s) (ps, s1) ->
  (forall q, get s1 q = get s q \/ (extr q /\ get s1 q = None)) /\ (all_ended ps -> forall q, extr q -> get s1 q = None).
Proof.
  intros Dr R. unfold delete_task in R. rewrite Dr in R. set (L := map fi_path (extraneous_files d) ++ map di_path (rev (sort_d (extraneous_dirs d)))) in R.
  assert (EL : forall q, In q L <-> extr q).
  { intros q. unfold L, extr. rewrite in_app_iff. destruct (Sd (extraneous_dirs d)) as (P & _).
    assert (X : In q (map di_path (rev (sort_d (extraneous_dirs d)))) <-> In q (map di_path (extraneous_dirs d))).
    { rewrite !in_map_iff. split; intros (x & Ex & Ix); exists x; (split; [exact Ex|]); [apply in_rev in Ix; eapply Permutation_in; [symmetry; exact P|exact Ix]|apply -> in_rev; eapply Permutation_in; [exact P|exact Ix]]. }
    rewrite X. tauto. }
  destruct (single_safe mode0 (the_copy copy_fs) (fun s1 => forall q, get s1 q = get s q \/ (In q L /\ get s1 q = None)) (fun s => forall q, In q L -> get s q = None) True _ s ps s1 R) as (A & B).
  - intros a b Ia Ab q. rewrite (Ab q I). apply Ia.
  - intros a b Qa Ab q Iq. rewrite (Ab q I). auto.
  - apply removes_safe; auto.
  - split.
    + intros q. destruct (A q) as [H|(H & H2)]; [now left|right]. split; [now apply EL|exact H2].
    + intros En q Eq. apply B; [exact En|now apply EL].
Qed.

Lemma extr_spec q : extr q -> get s q <> None /\ vis q = true /\
  ((exists g, get s q = Some (NFile g)) -> ~ In q (map fi_path client_files)) /\ (get s q = Some NDir -> ~ In q (map di_path client_dirs)).
Proof.
  intros [H|H].
  - apply extraneous_file in H; auto. destruct H as ((g & G) & V & N). rewrite G. repeat split; auto; discriminate.
  - apply extraneous_dir in H; auto. destruct H as (G & V & N). rewrite G. repeat split; auto; [discriminate|intros (g & X); discriminate].
Qed.

Lemma mk_phase s1 ps s2 : prun ([mkdirs_task (missing_dirs d)], s1) (ps, s2) ->
  (forall q, ~ In q (map di_path (missing_dirs d)) -> get s2 q = get s1 q \/ ((exists x, In x (map di_path client_dirs) /\ below q x) /\ get s1 q = None /\ get s2 q = Some NDir)) /\
  (all_ended ps -> forall q, In q (map di_path (missing_dirs d)) -> get s2 q = Some NDir).
Proof.
  intros R. split.
  - intros q Nq. destruct (phase_frame mode0 (the_copy copy_fs) _ _ _ _ R (Forall_cons _ (mkdirs_task_within (missing_dirs d)) (Forall_nil _))) as (_ & H). cbn [fst snd] in H.
    destruct (H q Nq) as [E|((x & Ix & E) & E1 & E2)]; [now left|]. destruct E as [->|E]; [elim Nq; now apply in_map|]. right. split; [|auto]. exists (di_path x). split; [apply mdir_path; now apply in_map|exact E].
  - intros En q Iq. apply in_map_iff in Iq. destruct Iq as (x & <- & Ix).
    destruct (single_safe mode0 (the_copy copy_fs) (fun _ => True) (fun s => forall x, In x (missing_dirs d) -> get s (di_path x) = Some NDir) True _ s1 ps s2 R) as (_ & B); auto.
    + intros a b Qa Ab y Iy. rewrite (Ab _ I). auto.
    + apply mkdirs_task_safe with (done := []); [now apply missing_dirs_once|reflexivity|easy].
Qed.

Lemma missing_phase s2 ps s3 : prun (map missing (missing_files d), s2) (ps, s3) ->
  forall q, ~ In q (map fi_path (missing_files d)) -> get s3 q = get s2 q \/ ((exists x, In x (map fi_path client_files) /\ below q x) /\ get s2 q = None /\ get s3 q = Some NDir).
Proof.
  intros R q Nq.
  destruct (phase_frame mode0 (the_copy copy_fs) (fun q => In q (map fi_path (missing_files d))) (fun q => exists x, In x (map fi_path (missing_files d)) /\ below q x) _ _ R) as (_ & H).
  - cbn [fst]. apply Forall_forall. intros t It. apply in_map_iff in It. destruct It as (m & <- & Im). eapply within_weaken; [| |apply missing_within].
    + intros x <-. now apply in_map.
    + intros x Bx. exists (fi_path m). split; [now apply in_map|exact Bx].
  - cbn [fst snd] in H. destruct (H q Nq) as [E|((x & Ix & E) & E1)]; [now left|]. right. split; [|exact E1]. exists x. split; [now apply missing_path|exact E].
Qed.

Definition temps (q : bytes) : Prop := exists c, In c (changed_files d) /\ ci_base c <> copy_ptr /\ q = ci_path c ++ temp_suffix.
Lemma temps_is_temp q : temps q -> is_temp client_files q.
Proof.
  intros (c & Ic & _ & ->). destruct (changed_from copy_fs filter_match dir_stat sort_f sort_d opts client_files client_dirs s NDs NDc Sf NDcf Nullb c Ic) as (f & If & (<- & _) & _). exists f. auto.
Qed.
Lemma client_not_temp q : client_path client_files client_dirs q -> ~ is_temp client_files q.
Proof. intros C T. now destruct (NT q q T C). Qed.

Lemma changed_phase s3 ps s4 : prun (map changed (changed_files d), s3) (ps, s4) ->
  forall q, ~ In q (map ci_path (changed_files d)) -> ~ temps q -> get s4 q = get s3 q.
Proof.
  intros R q Nq Nt.
  destruct (phase_frame mode0 (the_copy copy_fs) (fun q => In q (map ci_path (changed_files d)) \/ temps q) (fun _ => False) _ _ R) as (_ & H).
  - cbn [fst]. apply Forall_forall. intros t It. apply in_map_iff in It. destruct It as (m & <- & Im). eapply within_weaken; [| |apply changed_within]; [|auto].
    intros x [->|(Nb & ->)]; [left; now apply in_map|right; exists m; auto].
  - cbn [fst snd] in H. destruct (H q) as [E|([] & _)]; [intros [X|X]; auto|exact E].
Qed.

(** ** The phases one after the other *)
Lemma stages s' : so_dry_run opts = false -> dur s s' -> exists s1 s2 s3 ps1 ps2 ps3 ps4,
  (if so_delete opts then prun ([delete_task sort_d opts d], s) (ps1, s1) else s1 = s) /\
  prun ([mkdirs_task (missing_dirs d)], s1) (ps2, s2) /\ prun (map missing (missing_files d), s2) (ps3, s3) /\ prun (map changed (changed_files d), s3) (ps4, s').
Proof.
  intros Dr (rest & R). apply runs_trace in R. unfold phases in R. cbv zeta in R. rewrite Dr in R.
  assert (T : forall s1, trace mode0 copy_fs [[mkdirs_task (missing_dirs d)]; map missing (missing_files d); map changed (changed_files d)] s1 s' ->
    exists s2 s3 ps2 ps3 ps4, prun ([mkdirs_task (missing_dirs d)], s1) (ps2, s2) /\ prun (map missing (missing_files d), s2) (ps3, s3) /\ prun (map changed (changed_files d), s3) (ps4, s')).
  { intros s1 (ps2 & s2 & R2 & [->|(_ & ps3 & s3 & R3 & [->|(_ & ps4 & s4 & R4 & H)])]).
    - exists s2, s2, ps2, (map missing (missing_files d)), (map changed (changed_files d)). split; [exact R2|]. split; constructor.
    - exists s2, s3, ps2, ps3, (map changed (changed_files d)). split; [exact R2|]. split; [exact R3|constructor].
    - exists s2, s3, ps2, ps3, ps4. split; [exact R2|]. split; [exact R3|]. destruct H as [->|(_ & ->)]; exact R4. }
  destruct (so_delete opts).
  - destruct R as (ps1 & s1 & R1 & [->|(_ & R)]).
    + exists s1, s1, s1, ps1, [mkdirs_task (missing_dirs d)], (map missing (missing_files d)), (map changed (changed_files d)). split; [exact R1|]. split; [constructor|]. split; constructor.
    + destruct (T s1 R) as (s2 & s3 & ps2 & ps3 & ps4 & A). exists s1, s2, s3, ps1, ps2, ps3, ps4. auto.
  - destruct (T s R) as (s2 & s3 & ps2 & ps3 & ps4 & A). exists s, s2, s3, [], ps2, ps3, ps4. auto.
Qed.
Lemma stages_done s' : so_dry_run opts = false -> syn s s' -> exists s1 s2 s3 ps1 ps2 ps3 ps4,
  (if so_delete opts then prun ([delete_task sort_d opts d], s) (ps1, s1) /\ all_ended ps1 else s1 = s) /\
  (prun ([mkdirs_task (missing_dirs d)], s1) (ps2, s2) /\ all_ended ps2) /\ (prun (map missing (missing_files d), s2) (ps3, s3) /\ all_ended ps3) /\ (prun (map changed (changed_files d), s3) (ps4, s') /\ all_ended ps4).
Proof.
  intros Dr R. apply runs_ended in R. unfold phases in R. cbv zeta in R. rewrite Dr in R.
  assert (T : forall s1, ended mode0 copy_fs [[mkdirs_task (missing_dirs d)]; map missing (missing_files d); map changed (changed_files d)] s1 s' ->
    exists s2 s3 ps2 ps3 ps4, (prun ([mkdirs_task (missing_dirs d)], s1) (ps2, s2) /\ all_ended ps2) /\ (prun (map missing (missing_files d), s2) (ps3, s3) /\ all_ended ps3) /\ (prun (map changed (changed_files d), s3) (ps4, s') /\ all_ended ps4)).
  { intros s1 (ps2 & s2 & R2 & E2 & ps3 & s3 & R3 & E3 & ps4 & s4 & R4 & E4 & ->). exists s2, s3, ps2, ps3, ps4. auto. }
  destruct (so_delete opts).
  - destruct R as (ps1 & s1 & R1 & E1 & R). destruct (T s1 R) as (s2 & s3 & ps2 & ps3 & ps4 & A). exists s1, s2, s3, ps1, ps2, ps3, ps4. auto.
  - destruct (T s R) as (s2 & s3 & ps2 & ps3 & ps4 & A). exists s, s2, s3, [], ps2, ps3, ps4. auto.
Qed.

(** ** C15 *)
Lemma dry_run_unchanged s' : so_dry_run opts = true -> dur s s' -> s' = s.
Proof.
  intros Dr (rest & R). apply runs_trace in R. unfold phases in R. cbv zeta in R. rewrite Dr, app_nil_r in R. destruct (so_delete opts); [|exact R].
  destruct R as (ps1 & s1 & R1 & H). unfold delete_task in R1. rewrite Dr in R1. cbn [do_all] in R1.
  assert (E1 : s1 = s).
  { clear -R1. remember ([QEnd], s) as x eqn:Ex. remember (ps1, s1) as z eqn:Ez. destruct R1 as [x|now l1 p p' l2 a b z St]; [congruence|]. inversion Ex; subst. destruct l1 as [|u [|v l1]]; cbn in H0; inversion H0; subst; discriminate. }
  destruct H as [->|(_ & H)]; [exact E1|]. cbn in H. congruence.
Qed.

Lemma nothing_else s' q : dur s s' -> ~ client_path client_files client_dirs q -> ~ is_temp client_files q ->
  (so_delete opts = true -> get s q <> None -> vis q = false) ->
  get s' q = get s q \/ (get s q = None /\ get s' q = Some NDir /\ exists p, client_path client_files client_dirs p /\ below q p).
Proof.
  intros R Nc Nt Hd. destruct (so_dry_run opts) eqn:Dr; [left; now rewrite (dry_run_unchanged s' Dr R)|].
  destruct (stages s' Dr R) as (s1 & s2 & s3 & ps1 & ps2 & ps3 & ps4 & R1 & R2 & R3 & R4).
  assert (E1 : get s1 q = get s q).
  { destruct (so_delete opts) eqn:De; [|now rewrite R1]. destruct (delete_phase ps1 s1 Dr R1) as (A & _). destruct (A q) as [E|(E & _)]; [exact E|]. apply extr_spec in E. destruct E as (E1 & E2 & _). rewrite (Hd eq_refl E1) in E2. discriminate. }
  destruct (mk_phase s1 ps2 s2 R2) as (A2 & _). pose proof (missing_phase s2 ps3 s3 R3) as A3. pose proof (changed_phase s3 ps4 s' R4) as A4.
  rewrite (A4 q); [|intros X; apply Nc; left; now apply changed_path|intros X; apply Nt; now apply temps_is_temp].
  destruct (A2 q) as [E2|((x & Ix & Bx) & E2 & E2')]; [intros X; apply Nc; right; now apply mdir_path| |];
  (destruct (A3 q) as [E3|((y & Iy & By) & E3 & E3')]; [intros X; apply Nc; left; now apply missing_path| |]).
  - left. congruence.
  - right. rewrite <- E1, <- E2. split; [exact E3|]. split; [exact E3'|]. exists y. split; [now left|exact By].
  - right. rewrite <- E1. split; [exact E2|]. split; [congruence|]. exists x. split; [now right|exact Bx].
  - congruence.
Qed.

Lemma extraneous_gone s' q : syn s s' -> so_dry_run opts = false -> so_delete opts = true -> get s q <> None -> vis q = true -> ~ client_path client_files client_dirs q -> ~ is_temp client_files q ->
  (forall p, client_path client_files client_dirs p -> ~ below q p) -> get s' q = None.
Proof.
  intros R Dr De Gq V Nc Nt Nb. destruct (stages_done s' Dr R) as (s1 & s2 & s3 & ps1 & ps2 & ps3 & ps4 & R1 & (R2 & _) & (R3 & _) & (R4 & _)). rewrite De in R1. destruct R1 as (R1 & En1).
  destruct (delete_phase ps1 s1 Dr R1) as (_ & A). assert (Ex : extr q).
  { destruct (get s q) as [[|g]|] eqn:G; [right|left|now elim Gq].
    - apply extraneous_dir; auto. repeat split; auto. intros X. apply Nc. now right.
    - apply extraneous_file; auto. repeat split; eauto. intros X. apply Nc. now left. }
  pose proof (A En1 q Ex) as E1.
  destruct (mk_phase s1 ps2 s2 R2) as (A2 & _). pose proof (missing_phase s2 ps3 s3 R3) as A3. pose proof (changed_phase s3 ps4 s' R4) as A4.
  rewrite (A4 q); [|intros X; apply Nc; left; now apply changed_path|intros X; apply Nt; now apply temps_is_temp].
  destruct (A2 q) as [E2|((x & Ix & Bx) & _)]; [intros X; apply Nc; right; now apply mdir_path| |elim (Nb x); [now right|exact Bx]].
  destruct (A3 q) as [E3|((y & Iy & By) & _)]; [intros X; apply Nc; left; now apply missing_path| |elim (Nb y); [now left|exact By]]. congruence.
Qed.

(** ** What a client file goes through before the changed files are patched *)
Lemma untouched_before f s1 s2 s3 ps1 ps2 ps3 g : so_dry_run opts = false -> In f client_files -> get s (fi_path f) = Some (NFile g) -> ~ In (fi_path f) (map fi_path (missing_files d)) ->
  (if so_delete opts then prun ([delete_task sort_d opts d], s) (ps1, s1) else s1 = s) ->
  prun ([mkdirs_task (missing_dirs d)], s1) (ps2, s2) -> prun (map missing (missing_files d), s2) (ps3, s3) -> get s3 (fi_path f) = Some (NFile g).
Proof.
  intros Dr If G Nm R1 R2 R3. assert (Ip : In (fi_path f) (map fi_path client_files)) by (now apply in_map).
  assert (E1 : get s1 (fi_path f) = Some (NFile g)).
  { destruct (so_delete opts); [|now rewrite R1]. destruct (delete_phase ps1 s1 Dr R1) as (A & _). destruct (A (fi_path f)) as [E|(E & _)]; [now rewrite E|]. apply extr_spec in E. destruct E as (_ & _ & E & _). elim E; eauto. }
  destruct (mk_phase s1 ps2 s2 R2) as (A2 & _). destruct (A2 (fi_path f)) as [E2|(_ & E2 & _)]; [intros X; apply mdir_path in X; now apply (FD _ Ip)| |congruence].
  destruct (missing_phase s2 ps3 s3 R3 (fi_path f) Nm) as [E3|(_ & E3 & _)]; congruence.
Qed.
Lemma still_no_file f s1 s2 s3 ps1 ps2 ps3 : so_dry_run opts = false -> In f client_files -> get s (fi_path f) = Some NDir -> ~ In (fi_path f) (map fi_path (missing_files d)) ->
  (if so_delete opts then prun ([delete_task sort_d opts d], s) (ps1, s1) else s1 = s) ->
  prun ([mkdirs_task (missing_dirs d)], s1) (ps2, s2) -> prun (map missing (missing_files d), s2) (ps3, s3) -> forall g, get s3 (fi_path f) <> Some (NFile g).
Proof.
  intros Dr If G Nm R1 R2 R3 g. assert (Ip : In (fi_path f) (map fi_path client_files)) by (now apply in_map).
  assert (E1 : get s1 (fi_path f) = Some NDir \/ get s1 (fi_path f) = None).
  { destruct (so_delete opts); [|rewrite R1; now left]. destruct (delete_phase ps1 s1 Dr R1) as (A & _). destruct (A (fi_path f)) as [E|(_ & E)]; [left; now rewrite E|now right]. }
  destruct (mk_phase s1 ps2 s2 R2) as (A2 & _). destruct (A2 (fi_path f)) as [E2|(_ & _ & E2)]; [intros X; apply mdir_path in X; now apply (FD _ Ip)| |];
  (destruct (missing_phase s2 ps3 s3 R3 (fi_path f) Nm) as [E3|(_ & _ & E3)]); destruct E1; congruence.
Qed.

(** ** One task among the others *)
Lemma split_map {A B} (h : A -> B) (l : list A) x : In x l -> exists l1 l2, l = l1 ++ x :: l2 /\ map h l = map h l1 ++ h x :: map h l2.
Proof. intros I. apply in_split in I. destruct I as (l1 & l2 & ->). exists l1, l2. split; [reflexivity|]. rewrite (map_app h). reflexivity. Qed.

Lemma temp_inj p q : p ++ temp_suffix = q ++ temp_suffix -> p = q.
Proof. apply app_inv_tail. Qed.

Lemma nodup_app_l {A} (a b : list A) : NoDup (a ++ b) -> NoDup a.
Proof. induction a as [|x a IH]; intros H; [constructor|]. cbn in H. inversion H; subst. constructor; [|auto]. intros X. apply H2. apply in_or_app. now left. Qed.
Lemma nodup_app_r {A} (a b : list A) : NoDup (a ++ b) -> NoDup b.
Proof. induction a as [|x a IH]; intros H; [exact H|]. cbn in H. inversion H; subst. auto. Qed.

Lemma changed_task_alone c s3 ps s4 (F : bytes -> Prop) (I Q : fs -> Prop) : In c (changed_files d) -> prun (map changed (changed_files d), s3) (ps, s4) ->
  (forall q, F q -> q = ci_path c \/ q = ci_path c ++ temp_suffix) ->
  (forall a b, I a -> agree F a b -> I b) -> (forall a b, Q a -> agree F a b -> Q b) ->
  safe mode0 (the_copy copy_fs) (agree F) I Q True (changed c) s3 -> I s4 /\ (all_ended ps -> Q s4).
Proof.
  intros Ic R HF RI RQ S. destruct (split_map changed _ c Ic) as (l1 & l2 & El & Em). rewrite Em in R.
  pose proof (sent_once copy_fs filter_match dir_stat sort_f sort_d opts client_files client_dirs s NDs NDc Sf) as ND. apply nodup_app_r in ND. rewrite El in ND. rewrite (map_app ci_path) in ND. cbn [map] in ND. apply NoDup_remove_2 in ND.
  assert (Oth : forall c', In c' (l1 ++ l2) -> In c' (changed_files d) /\ ci_path c' <> ci_path c).
  { intros c' I'. split; [rewrite El; apply in_app_or in I'; apply in_or_app; cbn; tauto|]. intros E. apply ND. rewrite <- E, <- (map_app ci_path). now apply in_map. }
  eapply (phase_safe mode0 (the_copy copy_fs) (fun q => exists c', In c' (l1 ++ l2) /\ (q = ci_path c' \/ q = ci_path c' ++ temp_suffix)) (fun _ => False) F I Q True) with (l1 := map changed l1) (l2 := map changed l2); eauto.
  - intros q Fq. split; [|exact (fun x => x)]. intros (c' & I' & H). destruct (Oth c' I') as (I2 & Ne).
    assert (C1 : In (ci_path c) (map fi_path client_files)) by (apply changed_path; now apply in_map). assert (C2 : In (ci_path c') (map fi_path client_files)) by (apply changed_path; now apply in_map).
    assert (X : forall u v, In u (map fi_path client_files) -> In v (map fi_path client_files) -> u <> v ++ temp_suffix).
    { intros u v Iu Iv E. apply (client_not_temp u); [now left|]. apply in_map_iff in Iv. destruct Iv as (f & <- & Ifv). exists f. auto. }
    destruct (HF q Fq) as [->| ->], H as [E|E].
    + now apply Ne.
    + exact (X _ _ C1 C2 E).
    + symmetry in E. exact (X _ _ C2 C1 E).
    + apply temp_inj in E. now apply Ne.
  - rewrite <- (map_app changed). apply Forall_forall. intros t It. apply in_map_iff in It. destruct It as (c' & <- & I'). eapply within_weaken; [| |apply changed_within]; [|auto].
    intros q [->|(_ & ->)]; exists c'; auto.
Qed.

Lemma changed_alone c s3 ps s4 F (I Q : fs -> Prop) : In c (changed_files d) -> prun (map changed (changed_files d), s3) (ps, s4) ->
  safe mode0 (the_copy copy_fs) (agree F) I Q True (changed c) s3 -> (forall q, F q -> q = ci_path c \/ q = ci_path c ++ temp_suffix) ->
  (forall a b, I a -> agree F a b -> I b) -> (forall a b, Q a -> agree F a b -> Q b) -> I s4 /\ (all_ended ps -> Q s4).
Proof. intros. eapply changed_task_alone; eassumption. Qed.

Lemma missing_task_alone m s2 ps s3 (Q : fs -> Prop) : In m (missing_files d) -> prun (map missing (missing_files d), s2) (ps, s3) ->
  (forall a b, Q a -> agree (eq (fi_path m)) a b -> Q b) ->
  safe mode0 (the_copy copy_fs) (agree (eq (fi_path m))) (fun _ => True) Q True (missing m) s2 -> all_ended ps -> Q s3.
Proof.
  intros Im R RQ S. destruct (split_map missing _ m Im) as (l1 & l2 & El & Em). rewrite Em in R.
  pose proof (sent_once copy_fs filter_match dir_stat sort_f sort_d opts client_files client_dirs s NDs NDc Sf) as ND. apply nodup_app_l in ND. rewrite El in ND. rewrite (map_app fi_path) in ND. cbn [map] in ND. apply NoDup_remove_2 in ND.
  assert (Oth : forall c', In c' (l1 ++ l2) -> In c' (missing_files d) /\ fi_path c' <> fi_path m).
  { intros c' I'. split; [rewrite El; apply in_app_or in I'; apply in_or_app; cbn; tauto|]. intros E. apply ND. rewrite <- E, <- (map_app fi_path). now apply in_map. }
  eapply (phase_safe mode0 (the_copy copy_fs) (fun q => exists c', In c' (l1 ++ l2) /\ q = fi_path c') (fun q => exists c', In c' (l1 ++ l2) /\ below q (fi_path c')) (eq (fi_path m)) (fun _ => True) Q True) with (l1 := map missing l1) (l2 := map missing l2); eauto.
  - intros q <-. split.
    + intros (c' & I' & E). destruct (Oth c' I'). congruence.
    + intros (c' & I' & B). destruct (Oth c' I') as (I2 & _). apply (FB (fi_path m) (fi_path c')); [apply missing_path; now apply in_map|left; apply missing_path; now apply in_map|exact B].
  - rewrite <- (map_app missing). apply Forall_forall. intros t It. apply in_map_iff in It. destruct It as (c' & <- & I'). eapply within_weaken; [| |apply missing_within].
    + intros q <-. exists c'. auto.
    + intros q B. exists c'. auto.
Qed.

Hypothesis Hb : blocks_ok blocks.
Hypothesis PO : params_ok w cfg iobuf.
Hypothesis M4 : (4 <= min_size cfg)%nat.
Let Hcat : forall c, concat (blocks c) = c := fun c => proj1 (Hb c).

Lemma exchange_delta basis src : exchange_ok hash w gear cfg basis src -> delta_works hash w gear cfg iobuf completed available basis src.
Proof.
  intros (Lb & Ls & bcs & scs & Cb & Cs & Nc) i.
  destruct (C41_executable_flag hash w gear cfg iobuf PO M4 basis src bcs scs (completed i) (available i) Lb Ls Cb Cs Nc) as (sigs & reqs & ex & E1 & E2 & E3 & E4).
  exists reqs, ex. unfold exchange. rewrite E1. cbn. split; [exact E2|]. split; [exact E3|]. now intros H; apply E4.
Qed.

(** ** C16 *)
Lemma old_or_new_during s' f old : dur s s' -> In f client_files -> get s (fi_path f) = Some (NFile old) -> noticed filter_match opts (fi_path f) -> so_whole_file opts = false ->
  exchange_ok hash w gear cfg (f_data old) (content (fi_index f)) -> old_or_new old (fi_path f) (content (fi_index f)) s'.
Proof.
  intros R If G Nf Nw Ex. destruct (so_dry_run opts) eqn:Dr; [left; now rewrite (dry_run_unchanged s' Dr R)|].
  assert (Nm : ~ In (fi_path f) (map fi_path (missing_files d))).
  { apply (present_not_missing copy_fs filter_match dir_stat sort_f sort_d opts client_files client_dirs s NDs NDc Sf f old If G); [|exact Nw]. destruct Nf as [V|(A & B)]; [left; now apply listed_visible|right; now rewrite A, B]. }
  destruct (stages s' Dr R) as (s1 & s2 & s3 & ps1 & ps2 & ps3 & ps4 & R1 & R2 & R3 & R4).
  pose proof (untouched_before f s1 s2 s3 ps1 ps2 ps3 old Dr If G Nm R1 R2 R3) as G3.
  destruct (in_dec (list_eq_dec N.eq_dec) (fi_path f) (map ci_path (changed_files d))) as [Ic|Nc].
  - apply in_map_iff in Ic. destruct Ic as (c & Ec & Ic).
    destruct (changed_from copy_fs filter_match dir_stat sort_f sort_d opts client_files client_dirs s NDs NDc Sf NDcf Nullb c Ic) as (f' & If' & (Ep & Emt & Ei) & Hn & Hc).
    assert (f' = f).
    { rewrite Ec in Ep. exact (key_inj fi_path client_files NDcf f' f If' If Ep). }
    subst f'. rewrite <- Ec in G, G3. rewrite <- Ec, Ei. rewrite Ei in Ex.
    assert (Nb : ci_base c <> copy_ptr) by (intros Eb; destruct (Hc Eb) as (H & _); exact (H old G)).
    pose proof (changed_safe mode0 (the_copy copy_fs) content blocks Hcat hash w gear cfg iobuf completed available c old s3 Nb G3 (exchange_delta _ _ Ex)) as S. cbv zeta in S.
    assert (RI : forall a b, old_or_new old (ci_path c) (content (ci_index c)) a -> agree (fun q => q = ci_path c \/ q = ci_path c ++ temp_suffix) a b -> old_or_new old (ci_path c) (content (ci_index c)) b).
    { intros a b H A. unfold old_or_new, holds in *. rewrite (A (ci_path c)), (A (ci_path c ++ temp_suffix)); auto. }
    destruct (changed_alone c s3 ps4 s' _ _ _ Ic R4 S) as (HH & _); auto.
    intros a b (H1 & H2) A. unfold holds_x in *. rewrite (A (ci_path c)), (A (ci_path c ++ temp_suffix)); auto.
  - left. rewrite (changed_phase s3 ps4 s' R4 (fi_path f) Nc); [exact G3|]. intros T. apply temps_is_temp in T. revert T. apply client_not_temp. left. now apply in_map.
Qed.

(** ** C17 *)
Hypothesis Quick : so_checksum opts = false -> forall f g, In f client_files -> get s (fi_path f) = Some (NFile g) ->
  f_mtime g = fi_mtime f -> N.of_nat (length (f_data g)) = fi_size f -> f_data g = content (fi_index f).
Hypothesis NoDir : so_relative opts = true -> so_recursive opts = false -> so_checksum opts = false -> forall f, In f client_files -> get s (fi_path f) <> Some NDir.
Hypothesis Exch : forall f g, In f client_files -> get s (fi_path f) = Some (NFile g) \/ get (the_copy copy_fs) (fi_path f) = Some (NFile g) ->
  exchange_ok hash w gear cfg (f_data g) (content (fi_index f)).

Lemma delivered s' f : syn s s' -> so_dry_run opts = false -> In f client_files -> (so_existing opts = false \/ (exists g, get s (fi_path f) = Some (NFile g)) /\ noticed filter_match opts (fi_path f)) ->
  holds_at s' (fi_path f) (content (fi_index f)) (fi_mtime f) /\
  (so_checksum opts = true \/ ~ (exists g, get s (fi_path f) = Some (NFile g) /\ f_mtime g = fi_mtime f /\ N.of_nat (length (f_data g)) = fi_size f) -> holds_x s' (fi_path f) (content (fi_index f)) (fi_mtime f)).
Proof.
  intros R Dr If He. destruct (stages_done s' Dr R) as (s1 & s2 & s3 & ps1 & ps2 & ps3 & ps4 & R1 & (R2 & En2) & (R3 & En3) & (R4 & En4)).
  assert (R1' : if so_delete opts then prun ([delete_task sort_d opts d], s) (ps1, s1) else s1 = s) by (destruct (so_delete opts); tauto). clear R1.
  assert (XA : forall p data m a, holds_x a p data m -> holds_at a p data m) by (intros p data m a (g & G & D1 & D2 & _); exists g; auto).
  assert (Ip : In (fi_path f) (map fi_path client_files)) by (now apply in_map).
  assert (Ntm : ~ temps (fi_path f)) by (intros T; apply temps_is_temp in T; revert T; apply client_not_temp; now left).
  pose proof (sent_once copy_fs filter_match dir_stat sort_f sort_d opts client_files client_dirs s NDs NDc Sf) as ND.
  destruct (client_file_cases copy_fs filter_match dir_stat sort_f sort_d opts client_files client_dirs s NDs NDc Sf NDcf f If) as [(m & Im & (Ep & Em & Ei))|[(c & Ic & (Ep & Em & Ei))|[(Ek & Ns & Hs)|(Ee & Ns)]]].
  - assert (H3 : holds_x s3 (fi_path m) (content (fi_index m)) (fi_mtime m)).
    { apply (missing_task_alone m s2 ps3 s3 (fun a => holds_x a (fi_path m) (content (fi_index m)) (fi_mtime m)) Im R3); [|apply missing_safe; [exact Hcat|intros b bs; apply (proj2 (Hb _))]|exact En3].
      intros a b H A. unfold holds_x in *. now rewrite (A (fi_path m) eq_refl). }
    assert (E4 : get s' (fi_path f) = get s3 (fi_path f)).
    { apply (changed_phase s3 ps4 s' R4); [|exact Ntm]. intros X. rewrite Ep in X. apply in_split in X. destruct X as (l1 & l2 & El). rewrite El in ND.
      rewrite app_assoc in ND. apply NoDup_remove_2 in ND. apply ND. apply in_or_app. left. apply in_or_app. left. now apply in_map. }
    rewrite <- Ep, <- Em, <- Ei in H3. assert (Hx : holds_x s' (fi_path f) (content (fi_index f)) (fi_mtime f)) by (unfold holds_x in *; now rewrite E4). split; [now apply XA|auto].
  - destruct (changed_from copy_fs filter_match dir_stat sort_f sort_d opts client_files client_dirs s NDs NDc Sf NDcf Nullb c Ic) as (f' & If' & (Ep' & _) & Hn & Hc).
    assert (Nm : ~ In (fi_path f) (map fi_path (missing_files d))).
    { intros X. rewrite Ep in X. apply in_split in X. destruct X as (l1 & l2 & El). rewrite El in ND. rewrite <- app_assoc in ND. cbn in ND. apply NoDup_remove_2 in ND. apply ND. apply in_or_app. right. apply in_or_app. right. now apply in_map. }
    assert (Hx : holds_x s' (ci_path c) (content (ci_index c)) (ci_mtime c)).
    { destruct (N.eq_dec (ci_base c) copy_ptr) as [Eb|Nb].
      - assert (RQ : forall (Q : fs -> Prop), (forall a b, Q a -> get b (ci_path c) = get a (ci_path c) -> Q b) -> forall a b, Q a -> agree (eq (ci_path c)) a b -> Q b) by (intros Q HQ a b Qa A; apply (HQ a b Qa); now apply A).
        destruct (get (the_copy copy_fs) (ci_path c)) as [[|g]|] eqn:Gc.
        + exfalso. apply (changed_task_alone c s3 ps4 s' (eq (ci_path c)) (fun _ => True) (fun _ => False) Ic R4); auto. apply changed_copy_nofile_safe; [exact Eb|]. intros old. rewrite Gc. discriminate.
        + apply (changed_task_alone c s3 ps4 s' (eq (ci_path c)) (fun _ => True) (fun a => holds_x a (ci_path c) (content (ci_index c)) (ci_mtime c)) Ic R4); auto.
          * apply RQ. intros a b H E. unfold holds_x in *. now rewrite E.
          * apply (changed_copy_safe mode0 (the_copy copy_fs) content blocks Hcat hash w gear cfg iobuf completed available c g s3 Eb Gc). apply exchange_delta. rewrite <- Ei. apply (Exch f g If). right. now rewrite Ep.
        + exfalso. apply (changed_task_alone c s3 ps4 s' (eq (ci_path c)) (fun _ => True) (fun _ => False) Ic R4); auto. apply changed_copy_nofile_safe; [exact Eb|]. intros old. rewrite Gc. discriminate.
      - destruct (Hn Nb) as [(g & G)|(G & Dd)]; rewrite <- Ep in G.
        + pose proof (untouched_before f s1 s2 s3 ps1 ps2 ps3 g Dr If G Nm R1' R2 R3) as G3. rewrite Ep in G3.
          assert (Dl : delta_works hash w gear cfg iobuf completed available (f_data g) (content (ci_index c))) by (apply exchange_delta; rewrite <- Ei; apply (Exch f g If); now left).
          pose proof (changed_safe mode0 (the_copy copy_fs) content blocks Hcat hash w gear cfg iobuf completed available c g s3 Nb G3 Dl) as S. cbv zeta in S.
          destruct (changed_alone c s3 ps4 s' _ _ _ Ic R4 S) as (_ & H); auto.
          * intros a b H A. unfold old_or_new, holds in *. rewrite (A (ci_path c)), (A (ci_path c ++ temp_suffix)); auto.
          * intros a b (H1 & H2) A. unfold holds_x in *. rewrite (A (ci_path c)), (A (ci_path c ++ temp_suffix)); auto.
          * now destruct (H En4).
        + exfalso. pose proof (still_no_file f s1 s2 s3 ps1 ps2 ps3 Dr If G Nm R1' R2 R3) as G3. rewrite Ep in G3.
          apply (changed_task_alone c s3 ps4 s' (eq (ci_path c)) (fun _ => True) (fun _ => False) Ic R4); auto. now apply changed_nofile_safe. }
    rewrite <- Ep, <- Em, <- Ei in Hx. split; [now apply XA|auto].
  - destruct Hs as [(g & G & Gm & Gz)|(G & Dd)].
    + assert (Nm : ~ In (fi_path f) (map fi_path (missing_files d))) by (intros X; apply Ns; apply in_or_app; now left).
      pose proof (untouched_before f s1 s2 s3 ps1 ps2 ps3 g Dr If G Nm R1' R2 R3) as G3.
      assert (E4 : get s' (fi_path f) = get s3 (fi_path f)) by (apply (changed_phase s3 ps4 s' R4); [intros X; apply Ns; apply in_or_app; now right|exact Ntm]).
      split; [exists g; rewrite E4; split; [exact G3|]; split; [now apply Quick|exact Gm]|]. intros [X|X]; [congruence|]. elim X. eauto.
    + apply andb_true_iff in Dd. destruct Dd as (D1 & D2). apply negb_true_iff in D2. now elim (NoDir D1 D2 Ek f If).
  - destruct He as [He|((g & G) & Nt)]; [congruence|]. elim Ns. apply (side_present copy_fs filter_match dir_stat opts s NDs NDc (fi_path f) g G). destruct Nt as [V|(A & B)]; [left; now apply listed_visible|right; now rewrite A, B].
Qed.

Lemma dirs_delivered s' x : syn s s' -> so_dry_run opts = false -> so_existing opts = false -> In x client_dirs -> get s' (di_path x) = Some NDir.
Proof.
  intros R Dr Ne Ix. destruct (stages_done s' Dr R) as (s1 & s2 & s3 & ps1 & ps2 & ps3 & ps4 & R1 & (R2 & En2) & (R3 & En3) & (R4 & En4)).
  assert (Id : In (di_path x) (map di_path client_dirs)) by (now apply in_map).
  assert (Nf : ~ In (di_path x) (map fi_path client_files)) by (intros X; now apply (FD _ X)).
  assert (Ntm : ~ temps (di_path x)) by (intros T; apply temps_is_temp in T; revert T; apply client_not_temp; now right).
  assert (E2 : get s2 (di_path x) = Some NDir).
  { destruct (mk_phase s1 ps2 s2 R2) as (A2 & B2). destruct (in_dec (list_eq_dec N.eq_dec) (di_path x) (map di_path (missing_dirs d))) as [I|N]; [now apply B2|].
    destruct (client_dir_cases copy_fs filter_match dir_stat sort_f sort_d opts client_files client_dirs s NDs NDc Sd x Ix Ne) as [I|(G & V)]; [now elim N|].
    assert (E1 : get s1 (di_path x) = Some NDir).
    { destruct (so_delete opts); [|now rewrite R1]. destruct R1 as (R1 & _). destruct (delete_phase ps1 s1 Dr R1) as (A & _). destruct (A (di_path x)) as [E|(E & _)]; [now rewrite E|]. apply extr_spec in E. destruct E as (_ & _ & _ & E). now elim (E G). }
    destruct (A2 (di_path x) N) as [E|(_ & E & _)]; congruence. }
  destruct (missing_phase s2 ps3 s3 R3 (di_path x)) as [E3|(_ & E3 & _)]; [intros X; apply Nf; now apply missing_path| |congruence].
  rewrite (changed_phase s3 ps4 s' R4 (di_path x)); [congruence| |exact Ntm]. intros X. apply Nf. now apply changed_path.
Qed.

Lemma no_temp_left s' f : syn s s' -> so_dry_run opts = false -> In f client_files -> get s (fi_path f ++ temp_suffix) = None \/ (so_delete opts = true /\ vis (fi_path f ++ temp_suffix) = true) ->
  get s' (fi_path f ++ temp_suffix) = None.
Proof.
  intros R Dr If H. destruct (stages_done s' Dr R) as (s1 & s2 & s3 & ps1 & ps2 & ps3 & ps4 & R1 & (R2 & En2) & (R3 & En3) & (R4 & En4)).
  set (t := fi_path f ++ temp_suffix) in *. assert (T : is_temp client_files t) by (exists f; auto).
  assert (Nc : ~ client_path client_files client_dirs t) by (intros C; exact (client_not_temp t C T)).
  assert (Nb : forall q, client_path client_files client_dirs q -> ~ below t q) by (intros q C; now destruct (NT t q T C)).
  assert (R1' : if so_delete opts then prun ([delete_task sort_d opts d], s) (ps1, s1) else s1 = s) by (destruct (so_delete opts); tauto).
  assert (E1 : get s1 t = None).
  { destruct (so_delete opts) eqn:De.
    - destruct R1 as (R1 & En1). destruct (delete_phase ps1 s1 Dr R1) as (A & B). destruct (get s t) as [n|] eqn:G.
      + apply (B En1). destruct H as [H|(_ & V)]; [congruence|]. destruct n as [|g]; [right|left].
        * apply extraneous_dir; auto. repeat split; auto. intros X. apply Nc. now right.
        * apply extraneous_file; auto. repeat split; eauto. intros X. apply Nc. now left.
      + destruct (A t) as [E|(_ & E)]; congruence.
    - subst s1. destruct H as [H|(H & _)]; [exact H|congruence]. }
  assert (E2 : get s2 t = None).
  { destruct (mk_phase s1 ps2 s2 R2) as (A2 & _). destruct (A2 t) as [E|((x & Ix & Bx) & _)]; [intros X; apply Nc; right; now apply mdir_path|congruence|elim (Nb x); [now right|exact Bx]]. }
  assert (E3 : get s3 t = None).
  { destruct (missing_phase s2 ps3 s3 R3 t) as [E|((x & Ix & Bx) & _)]; [intros X; apply Nc; left; now apply missing_path|congruence|elim (Nb x); [now left|exact Bx]]. }
  destruct (in_dec (list_eq_dec N.eq_dec) (fi_path f) (map ci_path (changed_files d))) as [Ic|Nch].
  - apply in_map_iff in Ic. destruct Ic as (c & Ec & Ic). destruct (N.eq_dec (ci_base c) copy_ptr) as [Eb|Nbc].
    + rewrite (changed_phase s3 ps4 s' R4 t); [exact E3|intros X; apply Nc; left; now apply changed_path|].
      intros (c' & Ic' & Nb' & Et). apply temp_inj in Et. apply Nb'. replace c' with c; [exact Eb|].
      pose proof (nodup_app_r _ _ (sent_once copy_fs filter_match dir_stat sort_f sort_d opts client_files client_dirs s NDs NDc Sf)) as ND. rewrite Et in Ec. exact (key_inj ci_path (changed_files d) ND c c' Ic Ic' Ec).
    + destruct (changed_from copy_fs filter_match dir_stat sort_f sort_d opts client_files client_dirs s NDs NDc Sf NDcf Nullb c Ic) as (f' & If' & (Ep' & _ & Ei) & Hn & Hc).
      assert (f' = f).
      { rewrite Ec in Ep'. exact (key_inj fi_path client_files NDcf f' f If' If Ep'). }
      subst f'.
      assert (Nm : ~ In (fi_path f) (map fi_path (missing_files d))).
      { pose proof (sent_once copy_fs filter_match dir_stat sort_f sort_d opts client_files client_dirs s NDs NDc Sf) as ND. intros X. rewrite <- Ec in X. apply in_split in X. destruct X as (l1 & l2 & El). rewrite El in ND. rewrite <- app_assoc in ND. cbn in ND. apply NoDup_remove_2 in ND. apply ND. apply in_or_app. right. apply in_or_app. right. now apply in_map. }
      destruct (Hn Nbc) as [(g & G)|(G & Dd)]; rewrite Ec in G.
      * pose proof (untouched_before f s1 s2 s3 ps1 ps2 ps3 g Dr If G Nm R1' R2 R3) as G3. rewrite <- Ec in G3.
        assert (Dl : delta_works hash w gear cfg iobuf completed available (f_data g) (content (ci_index c))) by (apply exchange_delta; rewrite <- Ei; apply (Exch f g If); now left).
        pose proof (changed_safe mode0 (the_copy copy_fs) content blocks Hcat hash w gear cfg iobuf completed available c g s3 Nbc G3 Dl) as S. cbv zeta in S.
        destruct (changed_alone c s3 ps4 s' _ _ _ Ic R4 S) as (_ & HH); auto.
        -- intros a b K A. unfold old_or_new, holds in *. rewrite (A (ci_path c)), (A (ci_path c ++ temp_suffix)); auto.
        -- intros a b (K1 & K2) A. unfold holds_x in *. rewrite (A (ci_path c)), (A (ci_path c ++ temp_suffix)); auto.
        -- destruct (HH En4) as (_ & K). unfold t. now rewrite <- Ec.
      * exfalso. pose proof (still_no_file f s1 s2 s3 ps1 ps2 ps3 Dr If G Nm R1' R2 R3) as G3. rewrite <- Ec in G3.
        apply (changed_task_alone c s3 ps4 s' (eq (ci_path c)) (fun _ => True) (fun _ => False) Ic R4); auto. now apply changed_nofile_safe.
  - rewrite (changed_phase s3 ps4 s' R4 t); [exact E3|intros X; apply Nc; left; now apply changed_path|].
    intros (c' & Ic' & Nb' & Et). apply temp_inj in Et. apply Nch. rewrite Et. now apply in_map.
Qed.

(** ** Without conflicts a sync cannot fail *)
Section Succeeds.
Hypothesis Tr : tree_at s.
Hypothesis NC : no_conflicts filter_match opts client_files client_dirs copy_fs s.
Notation gone := (goes filter_match opts).
Notation sure0 := (sure mode0 copy_fs).

Lemma goes_extr q n : gone q -> get s q = Some n -> match n with NFile _ => ~ In q (map fi_path client_files) | NDir => ~ In q (map di_path client_dirs) end -> extr q.
Proof.
  intros (_ & L) G H. apply listed_visible in L. destruct n as [|g].
  - right. apply extraneous_dir; auto.
  - left. apply extraneous_file; eauto.
Qed.

Lemma delete_sure : so_dry_run opts = false -> so_delete opts = true -> sure0 (agree (fun _ => True)) (delete_task sort_d opts d) s.
Proof.
  intros Dr De. unfold delete_task. rewrite Dr. set (L := map fi_path (extraneous_files d) ++ map di_path (rev (sort_d (extraneous_dirs d)))).
  destruct (Sd (extraneous_dirs d)) as (P & Srt).
  assert (ID : forall q, In q (map di_path (rev (sort_d (extraneous_dirs d)))) <-> In q (map di_path (extraneous_dirs d))).
  { intros q. rewrite !in_map_iff. split; intros (x & Ex & Ix); exists x; (split; [exact Ex|]); [apply in_rev in Ix; eapply Permutation_in; [symmetry; exact P|exact Ix]|apply -> in_rev; eapply Permutation_in; [exact P|exact Ix]]. }
  apply (removes_sure mode0 copy_fs s Tr L []).
  - intros p Ip. apply in_app_or in Ip. assert (E : extr p) by (destruct Ip as [H|H]; [now left|right; now apply ID]). now apply extr_spec in E.
  - intros m1 p m2 E Gp r Gr B. cbn [app].
    destruct (split_app _ _ _ _ _ E) as [Ia|(Ib & k & ->)].
    + apply extraneous_file in Ia; auto. destruct Ia as ((g & G) & _). congruence.
    + unfold L in E. rewrite <- app_assoc in E. apply app_inv_head in E. apply ID in Ib. apply extraneous_dir in Ib; auto. destruct Ib as (_ & V & Nd).
      destruct (get s r) as [n|] eqn:Gr'; [|congruence]. assert (Gop : gone p) by (split; [exact De|now apply listed_visible]).
      destruct (nc_delete _ _ _ _ _ _ NC p r n Gop Gp Nd Gr' B) as (Lr & Nr).
      assert (Er : extr r) by (apply (goes_extr r n); [split; assumption|exact Gr'|exact Nr]).
      apply in_or_app. destruct Er as [Er|Er]; [now left|right]. apply ID in Er. rewrite E in Er. apply in_app_or in Er. destruct Er as [Er|[Er|Er]]; [exact Er|subst; now elim (below_irrefl r)|].
      exfalso. assert (Lt : slt p r) by (destruct B as (x & ->); apply slt_extend).
      apply sorted_map in Srt. apply (f_equal (@rev _)) in E. rewrite map_rev, rev_involutive, rev_app_distr in E. cbn [rev] in E. rewrite <- app_assoc in E. cbn [app] in E.
      rewrite E in Srt. apply (sorted_before _ _ _ _ r) in Srt; [|now apply -> in_rev]. exact (slt_irrefl _ (sle_lt_trans _ _ _ Srt Lt)).
  - intros q. now left.
  - easy.
Qed.

(** After the deletions. *)
Definition deleted (s1 : fs) : Prop :=
  (forall q, get s1 q = get s q \/ (extr q /\ get s1 q = None)) /\ (so_delete opts = true -> forall q, extr q -> get s1 q = None) /\ tree_at s1.
Lemma deleted_file s1 q g : deleted s1 -> get s1 q = Some (NFile g) -> get s q = Some (NFile g).
Proof. intros (A & _) G. destruct (A q) as [E|(_ & E)]; congruence. Qed.
Lemma deleted_dir s1 q : deleted s1 -> get s1 q = Some NDir -> get s q = Some NDir.
Proof. intros (A & _) G. destruct (A q) as [E|(_ & E)]; congruence. Qed.
Lemma deleted_goes s1 q n : deleted s1 -> gone q -> get s q = Some n -> match n with NFile _ => ~ In q (map fi_path client_files) | NDir => ~ In q (map di_path client_dirs) end -> get s1 q = None.
Proof. intros (_ & A & _) Gq G H. apply A; [exact (proj1 Gq)|]. eapply goes_extr; eassumption. Qed.

Lemma mkdirs_sure s1 : deleted s1 -> sure0 (agree (fun _ => True)) (mkdirs_task (missing_dirs d)) s1.
Proof.
  intros De. pose proof De as (A & B & T1). apply mkdirs_task_sure; [now apply missing_dirs_sorted|exact T1| |].
  - intros x Ix G r Br. pose proof (deleted_dir _ _ De G) as Gs.
    destruct (missing_dir_from copy_fs filter_match dir_stat sort_f sort_d opts client_files client_dirs s NDs NDc Sd x Ix) as (Ic & Ne & Nv).
    destruct (nc_dirs _ _ _ _ _ _ NC Ne (di_path x) Ic Gs) as [L|H]; [elim Nv; split; [exact Gs|now apply listed_visible]|].
    destruct (A r) as [E|(_ & E)]; [rewrite E; auto|exact E].
  - intros x q g Ix Bq Gq. pose proof (deleted_file _ _ _ De Gq) as Gs.
    destruct (missing_dir_from copy_fs filter_match dir_stat sort_f sort_d opts client_files client_dirs s NDs NDc Sd x Ix) as (Ic & Ne & _).
    assert (Cp : client_path client_files client_dirs (di_path x)) by (now right).
    destruct (nc_above _ _ _ _ _ _ NC q (di_path x) g Cp Bq Gs) as [(_ & Iq)|Go].
    + apply in_map_iff in Iq. destruct Iq as (y & Ey & Iy).
      destruct (client_dir_cases copy_fs filter_match dir_stat sort_f sort_d opts client_files client_dirs s NDs NDc Sd y Iy Ne) as [H|(H & _)]; [now rewrite Ey in H|rewrite Ey in H; congruence].
    + rewrite (deleted_goes s1 q _ De Go Gs) in Gq; [discriminate|]. cbn. intros If. now apply (FB q (di_path x) If Cp).
Qed.

(** After the directories have been made. *)
Definition made (s1 s2 : fs) : Prop :=
  (forall q, ~ In q (map di_path (missing_dirs d)) -> get s2 q = get s1 q \/ ((exists x, In x (map di_path client_dirs) /\ below q x) /\ get s1 q = None /\ get s2 q = Some NDir)) /\
  (forall q, In q (map di_path (missing_dirs d)) -> get s2 q = Some NDir).
Lemma made_no_file_above s1 s2 p q g : deleted s1 -> made s1 s2 -> client_path client_files client_dirs p -> below q p -> get s2 q <> Some (NFile g).
Proof.
  intros De (M1 & M2) Cp Bq G. destruct (in_dec (list_eq_dec N.eq_dec) q (map di_path (missing_dirs d))) as [Iq|Nq]; [rewrite (M2 q Iq) in G; discriminate|].
  destruct (M1 q Nq) as [E|(_ & _ & E)]; [|congruence]. rewrite E in G. pose proof (deleted_file _ _ _ De G) as Gs.
  destruct (nc_above _ _ _ _ _ _ NC q p g Cp Bq Gs) as [(Ne & Iq)|Go].
  - apply in_map_iff in Iq. destruct Iq as (y & Ey & Iy).
    destruct (client_dir_cases copy_fs filter_match dir_stat sort_f sort_d opts client_files client_dirs s NDs NDc Sd y Iy Ne) as [H|(H & _)]; rewrite Ey in H; [now elim Nq|congruence].
  - rewrite (deleted_goes s1 q _ De Go Gs) in G; [discriminate|]. cbn. intros If. now apply (FB q p If Cp).
Qed.
Lemma made_file_not_dir s1 s2 f : deleted s1 -> made s1 s2 -> In f client_files -> get s2 (fi_path f) <> Some NDir.
Proof.
  intros De (M1 & M2) If G. assert (Ip : In (fi_path f) (map fi_path client_files)) by (now apply in_map).
  destruct (M1 (fi_path f)) as [E|((x & Ix & Bx) & _)].
  - intros I. apply mdir_path in I. now apply (FD (fi_path f)).
  - rewrite E in G. pose proof (deleted_dir _ _ De G) as Gs. destruct (nc_files _ _ _ _ _ _ NC f If Gs) as (Go & _). rewrite (deleted_goes s1 _ _ De Go Gs) in G; [discriminate|]. cbn. now apply FD.
  - apply (FB (fi_path f) x Ip); [now right|exact Bx].
Qed.
Lemma made_temp_not_dir s1 s2 p : deleted s1 -> made s1 s2 -> is_temp client_files p -> get s2 p <> Some NDir.
Proof.
  intros De (M1 & M2) Tp G. assert (Nd : ~ In p (map di_path client_dirs)).
  { intros I. apply (client_not_temp p); [now right|exact Tp]. }
  destruct (M1 p) as [E|((x & Ix & Bx) & _)].
  - intros I. apply Nd. now apply mdir_path.
  - rewrite E in G. pose proof (deleted_dir _ _ De G) as Gs. pose proof (nc_temps _ _ _ _ _ _ NC p Tp Gs) as Go. rewrite (deleted_goes s1 _ _ De Go Gs) in G; [discriminate|]. exact Nd.
  - destruct (NT p x Tp) as (_ & H); [now right|]. now apply H.
Qed.

Lemma Forall2_map_self {A B} (P : A -> B -> Prop) (f : A -> B) l : (forall x, In x l -> P x (f x)) -> Forall2 P l (map f l).
Proof. induction l as [|x l IH]; intros H; cbn; constructor; [apply H; now left|apply IH; intros y I; apply H; now right]. Qed.

Lemma missing_tasks_ok s1 s2 : deleted s1 -> made s1 s2 ->
  Forall2 (task_ok mode0 copy_fs finfo fi_path (fun f => eq (fi_path f)) (fun q => exists f, In f (missing_files d) /\ below q (fi_path f)) (missing_files d) s2) (missing_files d) (map missing (missing_files d)).
Proof.
  intros De Ma. apply Forall2_map_self. intros m Im. assert (Ip : In (fi_path m) (map fi_path client_files)) by (apply missing_path; now apply in_map).
  assert (Cm : client_path client_files client_dirs (fi_path m)) by (now left). split.
  - eapply within_weaken; [| |apply missing_within]; [auto|]. intros q B. exists m. auto.
  - apply missing_sure.
    + intros (y & Iy & Ny & E). congruence.
    + intros (y & Iy & B). apply (FB (fi_path m) (fi_path y) Ip); [left; apply missing_path; now apply in_map|exact B].
    + intros q B (y & Iy & Ny & <-). apply (FB (fi_path y) (fi_path m)); [apply missing_path; now apply in_map|exact Cm|exact B].
    + apply in_map_iff in Ip. destruct Ip as (f & Ef & If). rewrite <- Ef. eapply made_file_not_dir; eassumption.
    + intros q g B. eapply made_no_file_above; eassumption.
Qed.

(** After the missing files have been received. *)
Lemma changed_tasks_ok s1 s2 s3 ps1 ps2 ps3 : so_dry_run opts = false -> deleted s1 -> made s1 s2 -> tree_at s3 ->
  (if so_delete opts then prun ([delete_task sort_d opts d], s) (ps1, s1) else s1 = s) ->
  prun ([mkdirs_task (missing_dirs d)], s1) (ps2, s2) -> prun (map missing (missing_files d), s2) (ps3, s3) ->
  Forall2 (task_ok mode0 copy_fs cinfo ci_path (fun c q => q = ci_path c \/ (ci_base c <> copy_ptr /\ q = ci_path c ++ temp_suffix)) (fun _ => False) (changed_files d) s3) (changed_files d) (map changed (changed_files d)).
Proof.
  intros Dr De Ma T3 R1 R2 R3. pose proof (missing_phase s2 ps3 s3 R3) as A3.
  apply Forall2_map_self. intros c Ic. split; [apply changed_within|].
  destruct (changed_from copy_fs filter_match dir_stat sort_f sort_d opts client_files client_dirs s NDs NDc Sf NDcf Nullb c Ic) as (f & If & (Ep & Em & Ei) & Hn & Hc).
  assert (Ip : In (ci_path c) (map fi_path client_files)) by (rewrite <- Ep; now apply in_map).
  assert (Cp : client_path client_files client_dirs (ci_path c)) by (now left).
  assert (Tc : is_temp client_files (ci_path c ++ temp_suffix)) by (exists f; rewrite Ep; auto).
  pose proof (sent_once copy_fs filter_match dir_stat sort_f sort_d opts client_files client_dirs s NDs NDc Sf) as ND.
  assert (Nm : ~ In (ci_path c) (map fi_path (missing_files d))).
  { intros I. apply in_split in I. destruct I as (l1 & l2 & E). rewrite E, <- app_assoc in ND. cbn in ND. apply NoDup_remove_2 in ND. apply ND. rewrite app_assoc. apply in_or_app. right. now apply in_map. }
  apply (sure_weaken mode0 copy_fs (agree (fun q => q = ci_path c \/ q = ci_path c ++ temp_suffix \/ below q (ci_path c)))).
  { intros a b r q Fq. destruct (r q) as [E|([] & _)]; [|exact E]. intros (c' & Ic' & Nk & Wq).
    assert (Ip' : In (ci_path c') (map fi_path client_files)) by (apply changed_path; now apply in_map).
    assert (Tc' : is_temp client_files (ci_path c' ++ temp_suffix)).
    { apply in_map_iff in Ip'. destruct Ip' as (f' & Ef' & If'). exists f'. rewrite Ef'. auto. }
    assert (Cp' : client_path client_files client_dirs (ci_path c')) by (now left).
    destruct Wq as [->|(_ & ->)]; destruct Fq as [E|[E|B]].
    - congruence.
    - destruct (NT _ _ Tc Cp') as (H & _). now apply H.
    - exact (FB _ _ Ip' Cp B).
    - destruct (NT _ _ Tc' Cp) as (H & _). apply H. now symmetry.
    - apply app_inv_tail in E. congruence.
    - destruct (NT _ _ Tc' Cp) as (_ & H). now apply H. }
  assert (Nd3 : get s3 (ci_path c) <> Some NDir).
  { destruct (A3 (ci_path c) Nm) as [E|((x & Ix & Bx) & _)]; [rewrite E, <- Ep; eapply made_file_not_dir; eassumption|]. now elim (FB (ci_path c) x Ip (or_introl Ix)). }
  destruct (N.eq_dec (ci_base c) copy_ptr) as [Eb|Nb].
  - destruct (Hc Eb) as (Nf & t & n & Et & Gt). rewrite <- Ep in Nf, Gt. destruct (nc_copy _ _ _ _ _ _ NC t f n Et If Nf Gt) as (Nn & An). destruct n as [|old]; [now elim Nn|].
    assert (Gt' : get (the_copy copy_fs) (ci_path c) = Some (NFile old)) by (unfold the_copy; rewrite Et, <- Ep; exact Gt).
    apply (changed_copy_sure mode0 copy_fs content blocks hash w gear cfg iobuf completed available c old s3 Eb Gt').
    + apply exchange_delta. rewrite <- Ei. apply (Exch f old If). right. now rewrite Ep.
    + intros q Bq.
      assert (N3 : get s2 q = Some NDir -> get s3 q = Some NDir).
      { intros G. destruct (A3 q) as [E|(_ & _ & E)]; [|congruence|exact E]. intros I. apply missing_path in I. exact (FB q _ I Cp Bq). }
      assert (N2 : get s1 q = Some NDir -> get s2 q = Some NDir).
      { intros G. destruct Ma as (M1 & M2). destruct (in_dec (list_eq_dec N.eq_dec) q (map di_path (missing_dirs d))) as [I|NI]; [auto|]. destruct (M1 q NI) as [E|(_ & E & _)]; congruence. }
      assert (N1 : get s q = Some NDir -> ~ extr q -> get s3 q = Some NDir).
      { intros G Nx. apply N3, N2. destruct De as (A & _). destruct (A q) as [E|(E & _)]; [congruence|now elim Nx]. }
      rewrite <- Ep in Bq. destruct (An q Bq) as [(Iq & He)|(Gq & Ng)].
      * assert (Dq : In q (map di_path (missing_dirs d)) \/ get s q = Some NDir).
        { destruct He as [He|He]; [|now right]. apply in_map_iff in Iq. destruct Iq as (y & <- & Iy).
          destruct (client_dir_cases copy_fs filter_match dir_stat sort_f sort_d opts client_files client_dirs s NDs NDc Sd y Iy He) as [H|(H & _)]; auto. }
        destruct Dq as [Dq|Dq]; [apply N3; now apply (proj2 Ma)|]. apply (N1 Dq). intros X. apply extr_spec in X. destruct X as (_ & _ & _ & X). now apply (X Dq).
      * destruct (so_delete opts) eqn:E.
        -- apply (N1 Gq). intros X. apply extr_spec in X. destruct X as (_ & V & _). apply Ng. split; [exact E|now apply listed_visible].
        -- apply N3, N2. now rewrite R1.
    + exact Nd3.
  - assert (Go : exists old, get s (ci_path c) = Some (NFile old)).
    { destruct (Hn Nb) as [H|(G & Db)]; [exact H|]. rewrite <- Ep in G. destruct (nc_files _ _ _ _ _ _ NC f If G) as (_ & H). elim H. apply andb_true_iff in Db. destruct Db as (D1 & D2). split; [exact D1|]. now apply negb_true_iff in D2. }
    destruct Go as (old & Go).
    assert (G3 : get s3 (ci_path c) = Some (NFile old)).
    { rewrite <- Ep. eapply untouched_before; [exact Dr|exact If|now rewrite Ep|now rewrite Ep|exact R1|exact R2|exact R3]. }
    apply (changed_sure mode0 copy_fs content blocks hash w gear cfg iobuf completed available c old s3 Nb G3).
    + apply exchange_delta. rewrite <- Ei. apply (Exch f old If). left. now rewrite Ep.
    + intros a B. apply (T3 a (ci_path c)); [congruence|exact B].
    + destruct (A3 (ci_path c ++ temp_suffix)) as [E|((x & Ix & Bx) & _)].
      * intros I. apply missing_path in I. apply (client_not_temp (ci_path c ++ temp_suffix)); [now left|exact Tc].
      * rewrite E. eapply made_temp_not_dir; eassumption.
      * destruct (NT _ x Tc) as (_ & H); [now left|]. now elim H.
Qed.

Lemma good_single p rest a : sure0 (agree (fun _ => True)) p a ->
  (forall ps' s', prun ([p], a) (ps', s') -> all_ended ps' -> good mode0 copy_fs rest s') -> good mode0 copy_fs ([p] :: rest) a.
Proof.
  intros H En. exists (fun ps b => (exists q, ps = [q] /\ sure0 (agree (fun _ => True)) q b) /\ prun ([p], a) (ps, b)). split; [split; [eauto|constructor]|]. split; [|split].
  - intros now l1 q q' l2 b b' ((q0 & E & Sq) & R) St. assert (X : l1 = [] /\ l2 = [] /\ q0 = q).
    { destruct l1 as [|z [|z' l1]]; cbn in E; inversion E; subst; auto. }
    destruct X as (-> & -> & ->). cbn in *. split; [|eapply (phase_runs_snoc mode0 copy_fs now ([p], a) [] q q' []); eassumption]. exists q'. split; [reflexivity|]. eapply sure_step; [intros u; apply agree_refl|exact Sq|exact St].
  - intros ps b ((q & -> & Sq) & R). destruct (sure_more mode0 copy_fs _ q b (fun u => agree_refl _ u) Sq) as [->|(now & q' & b' & St)]; [left; repeat constructor|]. right. exists now, [], q, q', [], b'. auto.
  - intros ps b ((q & -> & Sq) & R) Ae. eapply En; eassumption.
Qed.

Lemma phase_tree_at l a ps b : prun (l, a) (ps, b) -> tree_at a -> tree_at b.
Proof.
  intros R. remember (l, a) as x eqn:Ex. remember (ps, b) as z eqn:Ez. revert l a Ex. induction R as [x|now l1 p p' l2 u v z E R IH]; intros l a Ex T.
  - rewrite Ex in Ez. inversion Ez; subst; exact T.
  - inversion Ex; subst. apply (IH eq_refl _ _ eq_refl). clear -E T. destruct p as [o k|c p k|c p k|p x y|p x y| |]; cbn in E; try discriminate.
    + destruct (exec_op now mode0 o a) as [s1| | |] eqn:X; inversion E; subst; auto. eapply exec_tree_at; eassumption.
    + destruct (get (tree (the_copy copy_fs) c a) p) as [[|f]|]; inversion E; now subst.
    + destruct (get (tree (the_copy copy_fs) c a) p) as [[|f]|]; inversion E; now subst.
    + inversion E; now subst.
    + inversion E; now subst.
Qed.

Lemma good_rest s1 ps1 : so_dry_run opts = false -> deleted s1 -> (if so_delete opts then prun ([delete_task sort_d opts d], s) (ps1, s1) else s1 = s) ->
  good mode0 copy_fs [[mkdirs_task (missing_dirs d)]; map missing (missing_files d); map changed (changed_files d)] s1.
Proof.
  intros Dr De R1. apply good_single; [now apply mkdirs_sure|]. intros ps2 s2 R2 En2. destruct (mk_phase s1 ps2 s2 R2) as (M1 & M2). assert (Ma : made s1 s2) by (split; auto).
  pose proof (phase_tree_at _ _ _ _ R2 (proj2 (proj2 De))) as T2.
  pose proof (sent_once copy_fs filter_match dir_stat sort_f sort_d opts client_files client_dirs s NDs NDc Sf) as ND.
  eapply good_phase; [|exact (missing_tasks_ok s1 s2 De Ma)|].
  - clear -ND. induction (map fi_path (missing_files d)) as [|x l IH]; [constructor|]. cbn in ND. inversion ND; subst. constructor; [|auto]. intros I. apply H1. apply in_or_app. now left.
  - intros ps3 s3 R3 En3. pose proof (phase_tree_at _ _ _ _ R3 T2) as T3. eapply good_phase; [|exact (changed_tasks_ok s1 s2 s3 ps1 ps2 ps3 Dr De Ma T3 R1 R2 R3)|].
    + clear -ND. induction (map fi_path (missing_files d)) as [|x l IH]; [exact ND|]. cbn in ND. inversion ND; subst. auto.
    + intros ps4 s4 _ _. exact I.
Qed.

Theorem sync_good : good mode0 copy_fs (phases copy_fs filter_match dir_stat sort_f sort_d opts client_files client_dirs content blocks hash w gear cfg iobuf completed available s) s.
Proof.
  unfold phases. cbv zeta. destruct (so_dry_run opts) eqn:Dr.
  - rewrite app_nil_r. destruct (so_delete opts); [|exact I]. unfold delete_task. rewrite Dr. apply good_single; [split; exact I|]. intros ps' s' _ _. exact I.
  - destruct (so_delete opts) eqn:De; cbn [app].
    + apply good_single; [now apply delete_sure|]. intros ps1 s1 R1 En1. destruct (delete_phase ps1 s1 Dr R1) as (A & B).
      apply (good_rest s1 ps1 Dr); [|now rewrite De]. split; [exact A|]. split; [intros _; auto|]. eapply phase_tree_at; [exact R1|exact Tr].
    + apply (good_rest s [] Dr); [|now rewrite De]. split; [intros q; now left|]. split; [congruence|exact Tr].
Qed.
End Succeeds.
End All.
