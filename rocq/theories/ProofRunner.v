(** Facts for C52: changes of the source and their notifications. *)
From Verif Require Import Base ListX Str ModelText ModelPath SpecPath ModelCdc ModelChunkMap ModelProvider ModelAsset SpecAsset
  ModelManifest SpecManifest ProofManifest ModelUpdater SpecUpdater ProofUpdater PropUpdater SpecWatch ModelWatch ProofIncr SpecMerge PropMerge SpecRunner PropIncr ModelRunner.
From Coq Require Import Permutation.
Local Open Scope N_scope.

(** * Names *)
Lemma to_unix_app a b : to_unix (a ++ b) = to_unix a ++ to_unix b.
Proof. unfold to_unix. apply map_app. Qed.
Lemma to_unix_wstr q : Forall good_name q -> to_unix (wstr q) = pstr q.
Proof.
  induction q as [|n q IH]; intros G; [reflexivity|]. inversion G as [|? ? Gn Gq]; subst.
  assert (U : to_unix n = n). { change n with (pstr [n]) at 1. rewrite to_unix_pstr; [reflexivity|]. constructor; [exact Gn|constructor]. }
  destruct q as [|m q]; [exact U|]. change (wstr (n :: m :: q)) with (n ++ 92 :: wstr (m :: q)). change (pstr (n :: m :: q)) with (n ++ 47 :: pstr (m :: q)).
  rewrite to_unix_app, U. change (to_unix (92 :: wstr (m :: q))) with (47 :: to_unix (wstr (m :: q))). rewrite IH by exact Gq. reflexivity.
Qed.
Lemma wstr_names q : q <> [] -> Forall good_name q -> names_path (wstr q) q.
Proof. intros N G. split; [exact N|]. split; [exact G|]. now apply to_unix_wstr. Qed.
Lemma wstr_inj p q : Forall good_name p -> Forall good_name q -> wstr p = wstr q -> p = q.
Proof. intros A B E. apply pstr_inj; auto. rewrite <- (to_unix_wstr p A), <- (to_unix_wstr q B). now rewrite E. Qed.

(** * Changes *)
Lemma upd_same src P x : upd src P x P = x.
Proof. unfold upd. destruct (list_eq_dec (list_eq_dec N.eq_dec) P P); [reflexivity|contradiction]. Qed.
Lemma upd_other src P x q : q <> P -> upd src P x q = src q.
Proof. intros N. unfold upd. destruct (list_eq_dec (list_eq_dec N.eq_dec) q P); [contradiction|reflexivity]. Qed.
Lemma apply_app src a b : apply_changes src (a ++ b) = apply_changes (apply_changes src a) b.
Proof. unfold apply_changes. now rewrite fold_left_app. Qed.
Lemma apply_snoc src l c : apply_changes src (l ++ [c]) = upd (apply_changes src l) (c_path c) (c_new c).
Proof. now rewrite apply_app. Qed.
Lemma apply_other src l q : ~ In q (map c_path l) -> apply_changes src l q = src q.
Proof.
  induction l as [|c l IH] using rev_ind; intros N; [reflexivity|]. rewrite apply_snoc. rewrite map_app, in_app_iff in N. cbn in N.
  rewrite upd_other by (intros E; apply N; right; left; now symmetry). apply IH. tauto.
Qed.
Lemma valid_nil src : valid src [].
Proof. intros a c b E. destruct a; discriminate. Qed.
Lemma valid_app src a b : valid src (a ++ b) -> valid src a /\ valid (apply_changes src a) b.
Proof.
  intros V. split.
  - intros x c y E. apply (V x c (y ++ b)). rewrite E, <- app_assoc. reflexivity.
  - intros x c y E. rewrite <- apply_app. apply (V (a ++ x) c y). rewrite E, app_assoc. reflexivity.
Qed.
Lemma valid_snoc src l c : valid src l -> happens (apply_changes src l) c -> valid src (l ++ [c]).
Proof.
  intros V H x d y E. destruct y as [|z y _] using rev_ind.
  - apply app_inj_tail in E. destruct E as (<- & <-). exact H.
  - rewrite app_comm_cons, app_assoc in E. apply app_inj_tail in E. destruct E as (E & _). exact (V x d y E).
Qed.
Lemma valid_last src l c : valid src (l ++ [c]) -> valid src l /\ happens (apply_changes src l) c.
Proof. intros V. split; [now apply valid_app in V|]. exact (V l c [] eq_refl). Qed.
Lemma valid_tree src l : source_tree src -> valid src l -> source_tree (apply_changes src l).
Proof. intros S V. destruct l as [|c l _] using rev_ind; [exact S|]. apply valid_last in V. destruct V as (_ & _ & _ & T & _). now rewrite apply_snoc. Qed.
Lemma valid_paths src l q : valid src l -> In q (map c_path l) -> q <> [] /\ Forall good_name q.
Proof.
  intros V I. apply in_map_iff in I. destruct I as (c & <- & I). apply in_split in I. destruct I as (x & y & ->). destruct (V x c y eq_refl) as (A & _ & _ & B & _). auto.
Qed.

(** * The story of a path *)
Definition st (o : option snode) : option fstat :=
  match o with None => None | Some (SDir mt) => Some (true, 0, mt) | Some (SFile mt c) => Some (false, blen c, mt) end.
Definition rep (o : option snode) (s : option fstat) : Prop :=
  match o, s with
  | None, None => True
  | Some (SDir mt), Some (d, _, t) => d = true /\ t = mt
  | Some (SFile mt c), Some (d, z, t) => d = false /\ t = mt /\ z = blen c
  | _, _ => False
  end.
Lemma st_rep o : rep o (st o).
Proof. destruct o as [[]|]; cbn; auto. Qed.
Lemma st_none o : st o = None <-> o = None.
Proof. destruct o as [[]|]; cbn; split; congruence. Qed.
Lemma rep_none o s : rep o s -> (s = None <-> o = None).
Proof. destruct o as [[]|], s as [[[]]|]; cbn; split; intros; congruence || contradiction. Qed.
Lemma note_rep n s : note_is n s -> rep (Some s) (Some (n_stat n)).
Proof. unfold note_is, n_stat. destruct s; cbn; tauto. Qed.
Lemma valid_story src l q : valid src l -> Forall good_name q ->
  exists s', story (wstr q) (st (src q)) (map c_note l) s' /\ rep (apply_changes src l q) s'.
Proof.
  intros V G. induction l as [|c l IH] using rev_ind; [exists (st (src q)); split; [constructor|apply st_rep]|].
  apply valid_last in V. destruct V as (V & Np & Nm & _ & Gp & H). destruct (IH V) as (s' & S & R). rewrite map_app. cbn [map]. rewrite apply_snoc.
  destruct (list_eq_dec (list_eq_dec N.eq_dec) q (c_path c)) as [->|Nq].
  - rewrite upd_same. destruct (apply_changes src l (c_path c)) as [s|] eqn:E; destruct (c_new c) as [x|] eqn:En.
    + destruct H as (A & _ & Ni). exists (Some (n_stat (c_note c))). split; [|now apply note_rep]. destruct s' as [y|]; [|destruct s; destruct R]. eapply story_modified; eassumption.
    + exists None. split; [|exact I]. destruct s' as [y|]; [|destruct s; destruct R]. eapply story_removed; eassumption.
    + destruct H as (A & Ni). exists (Some (n_stat (c_note c))). split; [|now apply note_rep]. destruct s' as [y|]; [destruct R|]. apply story_created; assumption.
    + destruct H.
  - rewrite upd_other by exact Nq. exists s'. split; [|exact R]. apply story_other; [exact S|]. rewrite Nm. intros E. apply Nq. symmetry. apply wstr_inj; auto.
Qed.
Lemma changed_mentions src l q : valid src l -> In q (map c_path l) -> mentions (wstr q) (map c_note l).
Proof.
  intros V I. apply in_map_iff in I. destruct I as (c & <- & I). exists (c_note c). split; [now apply in_map|].
  apply in_split in I. destruct I as (x & y & ->). destruct (V x c y eq_refl) as (_ & A & _). exact A.
Qed.
Lemma mentions_changed src l k : valid src l -> mentions k (map c_note l) -> exists q, In q (map c_path l) /\ k = wstr q.
Proof.
  intros V (n & I & E). apply in_map_iff in I. destruct I as (c & <- & I). exists (c_path c). split; [now apply in_map|]. subst k.
  apply in_split in I. destruct I as (x & y & ->). destruct (V x c y eq_refl) as (_ & A & _). exact A.
Qed.

(** * The map *)
Lemma process_keys ns k : In k (map fst (process [] ns)) -> mentions k ns.
Proof.
  induction ns as [|n ns IH] using rev_ind; [intros []|]. rewrite process_snoc. intros I.
  assert (X : In k (map fst (process [] ns)) \/ k = n_name n).
  { unfold merge in I. assert (As : forall i, In k (map fst (fm_assign (n_name n) i (process [] ns))) -> In k (map fst (process [] ns)) \/ k = n_name n).
    { intros i J. unfold fm_assign in J. cbn in J. destruct J as [<-|J]; [now right|]. apply erase_in in J. now left. }
    destruct (n_action n); try (now apply As in I); (destruct (match fm_find _ _ with Some i => _ | None => _ end); [apply erase_in in I; now left|now apply As in I]). }
  destruct X as [X| ->].
  - destruct (IH X) as (y & J & E). exists y. rewrite in_app_iff. auto.
  - exists n. rewrite in_app_iff. split; [right; now left|reflexivity].
Qed.
Lemma find_in m k i : NoDup (map fst m) -> In (k, i) m -> fm_find k m = Some i.
Proof.
  induction m as [|[x j] m IH]; intros N I; [destruct I|]. inversion N as [|? ? A B]; subst. cbn [fm_find]. destruct I as [I|I].
  - inversion I; subst. now rewrite name_eqb_refl.
  - destruct (name_eqb x k) eqn:E; [|now apply IH]. apply name_eqb_eq in E. subst x. elim A. apply in_map_iff. exists (k, i). auto.
Qed.
Lemma find_some_in m k i : fm_find k m = Some i -> In (k, i) m.
Proof.
  induction m as [|[x j] m IH]; cbn [fm_find]; [discriminate|]. destruct (name_eqb x k) eqn:E; [|intros H; right; auto]. apply name_eqb_eq in E. intros H. inversion H; subst. now left.
Qed.

(** * What is picked up *)
Lemma picked_true src l ops : source_tree src -> valid src l -> Permutation ops (get_file_operations (process [] (map c_note l))) ->
  true_of (apply_changes src l) ops.
Proof.
  intros S V P. pose proof (C51_no_duplicates (map c_note l)) as Nd. set (m := process [] (map c_note l)) in *.
  assert (K : forall k i, In (k, i) m -> exists q, In q (map c_path l) /\ k = wstr q /\ q <> [] /\ Forall good_name q).
  { intros k i I. destruct (mentions_changed src l k V) as (q & Iq & E); [apply process_keys, in_map_iff; exists (k, i); auto|]. exists q. destruct (valid_paths src l q V Iq). auto. }
  constructor.
  - rewrite P. unfold get_file_operations. rewrite map_map. cbn [file_operation snd ai_path fst].
    assert (Ev : Forall (fun k => exists q, k = wstr q /\ Forall good_name q) (map fst m)).
    { apply Forall_forall. intros k I. apply in_map_iff in I. destruct I as ([x i] & <- & I). destruct (K x i I) as (q & _ & E & _ & G). eauto. }
    rewrite <- (map_map fst to_unix). clear - Nd Ev. induction (map fst m) as [|k ks IH]; [constructor|]. inversion Nd as [|? ? A B]; subst. inversion Ev as [|? ? C D]; subst. cbn. constructor; [|now apply IH].
    intros I. apply in_map_iff in I. destruct I as (j & E & I). rewrite Forall_forall in D. destruct (D j I) as (p & -> & Gp), C as (q & -> & Gq).
    rewrite !to_unix_wstr in E by assumption. apply pstr_inj in E; auto. subst p. contradiction.
  - intros o I. eapply Permutation_in in I; [|exact P]. apply in_map_iff in I. destruct I as ([k i] & <- & I). destruct (K k i I) as (q & Iq & -> & Nq & Gq). exists q. split; [now apply wstr_names|].
    destruct (valid_story src l q V Gq) as (s' & Sy & R). pose proof (C51_reported_is_true _ _ _ _ Sy) as T. fold m in T. rewrite (find_in m _ i Nd I) in T. unfold says. cbn [file_operation fst snd ai_type ai_mtime].
    destruct (fi_action i).
    + destruct T as (-> & _). destruct (apply_changes src l q) as [[mt|mt c]|]; cbn in R; [destruct R as (-> & R)|destruct R as (-> & R & _)|destruct R]; auto.
    + destruct T as (-> & _). destruct (apply_changes src l q) as [[mt|mt c]|]; cbn in R; [destruct R as (-> & R)|destruct R as (-> & R & _)|destruct R]; auto.
    + subst s'. destruct (apply_changes src l q) as [[]|]; [destruct R..|exact Logic.I].
Qed.
(** A changed path is told, unless there was and is nothing. *)
Lemma picked_told src l ops q : source_tree src -> valid src l -> Permutation ops (get_file_operations (process [] (map c_note l))) ->
  In q (map c_path l) -> src q = None \/ (removals (wstr q) (map c_note l) <= 1)%nat ->
  (src q = None /\ apply_changes src l q = None) \/ told (apply_changes src l) ops q.
Proof.
  intros S V P I G. destruct (valid_paths src l q V I) as (Nq & Gq). destruct (valid_story src l q V Gq) as (s' & Sy & R).
  pose proof (changed_mentions src l q V I) as M. pose proof (C51_reported_is_true _ _ _ _ Sy) as T. pose proof (C51_nothing_missed _ _ _ _ Sy M) as C.
  rewrite (st_none (src q)) in C. specialize (C G). set (m := process [] (map c_note l)) in *.
  destruct (fm_find (wstr q) m) as [i|] eqn:F.
  - right. apply find_some_in in F. assert (Io : In (file_operation (wstr q, i)) ops) by (eapply Permutation_in; [symmetry; exact P|]; now apply in_map).
    pose proof (wstr_names q Nq Gq) as Nm. destruct (fi_action i) eqn:Ea.
    + left. exists (file_operation (wstr q, i)). split; [exact Io|]. unfold file_operation. cbn [fst snd ai_path]. rewrite Ea. auto.
    + left. exists (file_operation (wstr q, i)). split; [exact Io|]. unfold file_operation. cbn [fst snd ai_path]. rewrite Ea. auto.
    + right. subst s'. split; [destruct (apply_changes src l q) as [[]|]; [destruct R..|reflexivity]|]. exists (file_operation (wstr q, i)), q. split; [exact Io|]. unfold file_operation. cbn [fst snd ai_path]. rewrite Ea.
      split; [exact Nm|]. split; [apply is_prefix_spec; exists []; now rewrite app_nil_r|now left].
  - left. destruct C as (C & _). destruct (C eq_refl) as (C1 & ->). split; [exact C1|]. now apply (rep_none _ None R).
Qed.
