(** C51: merging change notifications (common/file_watcher_win.cc). *)
From Verif Require Import Base ListX Str ModelText ModelManifest ModelUpdater ModelWatch SpecMerge ProofManifest.
Local Open Scope N_scope.

(** * The map *)
Lemma find_erase k j m : fm_find k (fm_erase j m) = if name_eqb j k then None else fm_find k m.
Proof.
  induction m as [|[x i] m IH]; cbn [fm_erase filter fm_find fst]; [now destruct (name_eqb j k)|].
  fold (fm_erase j m). destruct (name_eqb x j) eqn:E1; cbn [negb fm_find].
  - apply name_eqb_eq in E1. subst x. rewrite IH. destruct (name_eqb j k) eqn:E; reflexivity.
  - destruct (name_eqb x k) eqn:E2; [|exact IH]. apply name_eqb_eq in E2. subst x.
    destruct (name_eqb j k) eqn:E; [|reflexivity]. apply name_eqb_eq in E. subst. now rewrite name_eqb_refl in E1.
Qed.
Lemma find_assign k j i m : fm_find k (fm_assign j i m) = if name_eqb j k then Some i else fm_find k m.
Proof. unfold fm_assign. cbn [fm_find]. destruct (name_eqb j k) eqn:E; [reflexivity|]. rewrite find_erase. now rewrite E. Qed.
Lemma erase_in j m x : In x (map fst (fm_erase j m)) -> In x (map fst m) /\ x <> j.
Proof.
  intros I. apply in_map_iff in I. destruct I as (e & <- & I). apply filter_In in I. destruct I as (I & H). split; [now apply in_map|].
  intros E. rewrite E, name_eqb_refl in H. discriminate.
Qed.
Lemma erase_nodup j m : NoDup (map fst m) -> NoDup (map fst (fm_erase j m)).
Proof.
  induction m as [|[x i] m IH]; intros N; [constructor|]. inversion N as [|? ? A B]; subst. cbn [fm_erase filter fst]. destruct (name_eqb x j); cbn [negb]; [now apply IH|].
  cbn. constructor; [|now apply IH]. intros I. apply A. now apply (erase_in j) in I.
Qed.
Lemma process_snoc ns n : process [] (ns ++ [n]) = merge (process [] ns) n.
Proof. unfold process. now rewrite fold_left_app. Qed.
Lemma merge_other k m n : n_name n <> k -> fm_find k (merge m n) = fm_find k m.
Proof.
  intros N. apply name_eqb_neq in N. unfold merge. destruct (n_action n); try (rewrite find_assign, N; reflexivity);
    (destruct (match fm_find (n_name n) m with Some i => _ | None => _ end); [rewrite find_erase|rewrite find_assign]; now rewrite N).
Qed.

(** Every name is reported once. *)
Theorem C51_no_duplicates : forall ns, NoDup (map fst (process [] ns)).
Proof.
  intros ns. induction ns as [|n ns IH] using rev_ind; [constructor|]. rewrite process_snoc. unfold merge.
  assert (A : forall i, NoDup (map fst (fm_assign (n_name n) i (process [] ns)))).
  { intros i. unfold fm_assign. cbn. constructor; [|now apply erase_nodup]. intros I. apply erase_in in I. now destruct I. }
  destruct (n_action n); auto; destruct (match fm_find _ _ with Some i => _ | None => _ end); auto using erase_nodup.
Qed.

(** What is reported about a name is true, for every sequence of notifications in any
    number of buffers: an added or modified entry has the size, time and kind of what
    is there, and there is nothing at a deleted one.  A modified entry has been there
    all the time.  If nothing is reported, nothing has happened to the name, or there
    is nothing (any more). *)
Definition stat_of (i : finfo) : fstat := (fi_dir i, fi_size i, fi_mtime i).
Lemma removals_app k a b : removals k (a ++ b) = (removals k a + removals k b)%nat.
Proof. unfold removals. now rewrite filter_app, app_length. Qed.
Lemma merge_self m n : fm_find (n_name n) (merge m n) =
  let was_added := match fm_find (n_name n) m with Some i => match fi_action i with FAdded => true | _ => false end | None => false end in
  match n_action n with
  | NRemoved | NOldName => if was_added then None else Some (mkfi FDeleted (n_dir n) (n_size n) (n_mtime n))
  | NAdded | NNewName => Some (mkfi FAdded (n_dir n) (n_size n) (n_mtime n))
  | NModified => Some (mkfi (if was_added then FAdded else FModified) (n_dir n) (n_size n) (n_mtime n))
  end.
Proof.
  cbv zeta. unfold merge. destruct (n_action n); try (rewrite find_assign, name_eqb_refl; reflexivity);
    (destruct (match fm_find (n_name n) m with Some i => _ | None => _ end); [rewrite find_erase|rewrite find_assign]; now rewrite name_eqb_refl).
Qed.
Lemma removals_one k n : removals k [n] = if removal k n then 1%nat else 0%nat.
Proof. unfold removals. cbn. destruct (removal k n); reflexivity. Qed.
Lemma removal_yes k n : n_name n = k -> n_action n = NRemoved \/ n_action n = NOldName -> removal k n = true.
Proof. intros E [A|A]; unfold removal; rewrite A; (destruct (list_eq_dec N.eq_dec (n_name n) k); [reflexivity|contradiction]). Qed.
Lemma removal_no k n : n_name n <> k \/ n_action n = NAdded \/ n_action n = NNewName \/ n_action n = NModified -> removal k n = false.
Proof. unfold removal. intros [E|[E|[E|E]]]; [destruct (list_eq_dec N.eq_dec (n_name n) k); [contradiction|reflexivity]|rewrite E; apply andb_false_r..]. Qed.

Theorem C51_reported_is_true : forall k s ns s', story k s ns s' ->
  match fm_find k (process [] ns) with
  | Some i => match fi_action i with
              | FDeleted => s' = None
              | FAdded => s' = Some (stat_of i) /\ (s = None \/ (1 <= removals k ns)%nat)
              | FModified => s' = Some (stat_of i) /\ s <> None /\ removals k ns = 0%nat
              end
  | None => s' = s /\ ~ mentions k ns \/ s' = None /\ mentions k ns
  end.
Proof.
  intros k s ns s' H. induction H as [|ns s' n H IH Nn|ns n H IH E A|ns x n H IH E A|ns x n H IH E A].
  - cbn. left. split; [reflexivity|]. intros (n & [] & _).
  - rewrite process_snoc, merge_other by exact Nn. rewrite removals_app, removals_one, removal_no by auto. rewrite Nat.add_0_r.
    assert (M : mentions k (ns ++ [n]) <-> mentions k ns).
    { split; intros (y & I & Ey); [|exists y; rewrite in_app_iff; auto]. apply in_app_iff in I. destruct I as [I|[<-|[]]]; [exists y; auto|contradiction]. }
    destruct (fm_find k (process [] ns)); [exact IH|tauto].
  - rewrite process_snoc, <- E, merge_self. cbv zeta. rewrite E. rewrite removals_app, removals_one, removal_no by tauto. rewrite Nat.add_0_r.
    assert (R : Some (n_stat n) = Some (n_stat n) /\ (s = None \/ (1 <= removals k ns)%nat)).
    { split; [reflexivity|]. destruct s as [x|]; [right|now left]. clear - H. remember None as o eqn:Eo. revert Eo.
      induction H as [|ns s' n H IH Nn|ns n H IH E A|ns y n H IH E A|ns y n H IH E A]; intros Eo; try discriminate.
      - rewrite removals_app. specialize (IH Eo). lia.
      - rewrite removals_app, removals_one, removal_yes by auto. lia. }
    destruct A as [A|A]; rewrite A; exact R.
  - rewrite process_snoc, <- E, merge_self. cbv zeta. rewrite A, E. rewrite removals_app, removals_one, removal_no by tauto. rewrite Nat.add_0_r.
    destruct (fm_find k (process [] ns)) as [i|].
    + destruct (fi_action i); cbn [fi_action]; [split; [reflexivity|apply IH]|split; [reflexivity|apply IH]|discriminate].
    + destruct IH as [(<- & Nm)|(IH & _)]; [|discriminate]. cbn. split; [reflexivity|]. split; [discriminate|].
      destruct (removals k ns) eqn:R; [reflexivity|]. exfalso. unfold removals in R. destruct (filter (removal k) ns) as [|y l] eqn:F; [discriminate|].
      assert (I : In y (filter (removal k) ns)) by (rewrite F; now left). apply filter_In in I. destruct I as (I & Ry). apply Nm. exists y. split; [exact I|].
      unfold removal in Ry. destruct (list_eq_dec N.eq_dec (n_name y) k); [assumption|discriminate].
  - rewrite process_snoc, <- E, merge_self. cbv zeta. rewrite E.
    assert (X : forall w : bool, match (if w then None else Some (mkfi FDeleted (n_dir n) (n_size n) (n_mtime n))) with
      | Some i => match fi_action i with FDeleted => @None fstat = None | FAdded => None = Some (stat_of i) /\ (s = None \/ (1 <= removals k (ns ++ [n]))%nat) | FModified => None = Some (stat_of i) /\ s <> None /\ removals k (ns ++ [n]) = 0%nat end
      | None => None = s /\ ~ mentions k (ns ++ [n]) \/ @None fstat = None /\ mentions k (ns ++ [n]) end).
    { intros [|]; [|reflexivity]. right. split; [reflexivity|]. exists n. split; [apply in_or_app; right; now left|exact E]. }
    destruct A as [A|A]; rewrite A; apply X.
Qed.

(** Nothing is missed, if no name is removed, created and removed again between two
    times at which the changes are picked up: what was there and is mentioned is
    reported, and so is what is there now.  Temporary files are not. *)
Theorem C51_nothing_missed : forall k s ns s', story k s ns s' -> mentions k ns ->
  s = None \/ (removals k ns <= 1)%nat ->
  (fm_find k (process [] ns) = None <-> s = None /\ s' = None).
Proof.
  intros k s ns s' H. 
  assert (A : s = None \/ (removals k ns <= 1)%nat -> match fm_find k (process [] ns) with
    | Some i => match fi_action i with FDeleted => s <> None /\ (1 <= removals k ns)%nat | _ => True end
    | None => mentions k ns -> s = None end).
  { induction H as [|ns s' n H IH Nn|ns n H IH E A|ns x n H IH E A|ns x n H IH E A]; intros G.
    - cbn. intros (n & [] & _).
    - rewrite removals_app, removals_one, removal_no in * by auto. rewrite Nat.add_0_r in *. rewrite process_snoc, merge_other by exact Nn. specialize (IH G).
      destruct (fm_find k (process [] ns)); [exact IH|]. intros (y & I & Ey). apply IH. apply in_app_iff in I. destruct I as [I|[<-|[]]]; [exists y; auto|contradiction].
    - rewrite process_snoc, <- E, merge_self. cbv zeta. destruct A as [A|A]; rewrite A; exact I.
    - rewrite process_snoc, <- E, merge_self. cbv zeta. rewrite A. cbn. now destruct (match fm_find (n_name n) (process [] ns) with Some _ => _ | None => _ end).
    - pose proof (C51_reported_is_true k s ns _ H) as T. rewrite process_snoc, <- E, merge_self. cbv zeta. rewrite E. rewrite removals_app, removals_one, (removal_yes k n E A) in *.
      assert (X : match (if match fm_find k (process [] ns) with Some i => match fi_action i with FAdded => true | _ => false end | None => false end then None else Some (mkfi FDeleted (n_dir n) (n_size n) (n_mtime n))) with
        | Some i => match fi_action i with FDeleted => s <> None /\ (1 <= removals k ns + 1)%nat | _ => True end | None => mentions k (ns ++ [n]) -> s = None end).
      { destruct (fm_find k (process [] ns)) as [i|].
        - destruct (fi_action i).
          + intros _. destruct T as (_ & [T|T]); [exact T|]. destruct G as [G|G]; [exact G|lia].
          + cbn. split; [apply T|lia].
          + discriminate.
        - destruct T as [(T & _)|(T & _)]; [|discriminate]. cbn. split; [congruence|lia]. }
      destruct A as [A|A]; rewrite A; exact X. }
  intros M G. specialize (A G). pose proof (C51_reported_is_true k s ns s' H) as T. split.
  - intros F. rewrite F in *. split; [now apply A|]. destruct T as [(_ & T)|(T & _)]; [contradiction|exact T].
  - intros (-> & ->). destruct (fm_find k (process [] ns)) as [i|]; [|reflexivity]. exfalso. destruct (fi_action i); [destruct T; discriminate|destruct T; discriminate|destruct A; congruence].
Qed.

(** Without the proviso a deletion is lost: a file that was there is removed, created
    and removed again before the changes are picked up (e.g. saved via a temporary name
    and then deleted). *)
Theorem C51_lost_deletion_refuted : exists ns,
  story [102] (Some (false, 2, 7)) ns None /\ mentions [102] ns /\ process [] ns = [] /\ get_file_operations (process [] ns) = [].
Proof.
  exists (([] ++ [mkn [102] NRemoved false 2 7]) ++ [mkn [102] NAdded false 3 8] ++ [mkn [102] NRemoved false 3 8]). split; [|split; [exists (mkn [102] NRemoved false 2 7); cbn; auto|split; reflexivity]].
  rewrite app_assoc. eapply story_removed; [|reflexivity|now left]. eapply story_created; [|reflexivity|now left]. eapply story_removed; [|reflexivity|now left]. constructor.
Qed.

(** A story of one file among others: modified, removed and created again. *)
Example C51_example : exists ns, story [102] (Some (false, 2, 7)) ns (Some (false, 5, 9)) /\ mentions [102] ns /\ (removals [102%N] ns <= 1)%nat /\
  process [] ns = [([102], mkfi FAdded false 5 9)].
Proof.
  exists ((((([] ++ [mkn [102] NModified false 3 8]) ++ [mkn [116] NAdded false 0 8]) ++ [mkn [102] NOldName false 3 8]) ++ [mkn [116] NOldName false 0 8]) ++ [mkn [102] NNewName false 5 9]).
  split; [|split; [exists (mkn [102] NModified false 3 8); cbn; auto|split; [cbn; lia|reflexivity]]].
  apply (story_created [102] _ _ (mkn [102] NNewName false 5 9)); [|reflexivity|now right]. apply story_other; [|discriminate]. eapply story_removed; [|reflexivity|now right].
  apply story_other; [|discriminate]. apply (story_modified [102] _ _ (false, 2, 7) (mkn [102] NModified false 3 8)); [constructor|reflexivity|reflexivity].
Qed.
