(** C12, C13: the file diff and its adjustment to the flags. *)
From Verif Require Import Base ListX Str ModelFileDiff SpecFileDiff ProofFileDiff.
Local Open Scope N_scope.

Section C12.
Variable stat : ptr -> bytes -> option (Z * N).
Variable base_dir : ptr.
Variable copy_dest : option ptr.
Variable double_check : bool.
Variable sort_f : list finfo -> list finfo.
Variable sort_d : list dinfo -> list dinfo.
Notation gen := (generate stat base_dir copy_dest double_check sort_f sort_d).
Notation server_side := (server_side stat base_dir copy_dest double_check).

Lemma counterpart_server_side ss c s : NoDup (map fi_path ss) ->
  counterpart stat base_dir copy_dest double_check ss c = Some s <-> server_side ss (fi_path c) s.
Proof.
  intros ND. unfold counterpart. split.
  - destruct (lookup fi_path (fi_path c) ss) as [t|] eqn:L.
    + intros E. inversion E; subst. apply lookup_Some in L. destruct L. now apply ss_listed.
    + apply lookup_None in L. unfold check_missing, find_file. destruct double_check eqn:D; [|discriminate].
      destruct (stat base_dir (fi_path c)) as [(m, z)|] eqn:S1.
      * intros E. inversion E; subst. now apply ss_base.
      * destruct copy_dest as [cd|] eqn:C; [|discriminate].
        destruct (stat cd (fi_path c)) as [(m, z)|] eqn:S2; [|discriminate]. intros E. inversion E; subst. eapply ss_copy; eauto.
  - intros H. destruct H as [s I E|m z D NI S1|cd m z D NI S1 C S2].
    + rewrite (lookup_unique fi_path _ _ s); auto.
    + apply lookup_None in NI. rewrite NI. unfold check_missing, find_file. now rewrite D, S1.
    + apply lookup_None in NI. rewrite NI. unfold check_missing, find_file. rewrite D, S1, C, S2. reflexivity.
Qed.

Lemma files_match_spec c s : files_match copy_dest c s = true <-> up_to_date copy_dest c s.
Proof.
  unfold files_match, up_to_date, in_copy_dest. rewrite !andb_true_iff, N.eqb_eq, Z.eqb_eq, negb_true_iff.
  destruct copy_dest as [p|]; [rewrite N.eqb_neq|]; intuition congruence.
Qed.

Lemma in_copy_dest_spec p : in_copy_dest copy_dest p = true <-> copy_dest = Some p.
Proof. unfold in_copy_dest. destruct copy_dest; [rewrite N.eqb_eq|]; intuition congruence. Qed.

Lemma partition_perm (f : finfo -> option finfo) (m : finfo -> finfo -> bool) l :
  Permutation (map fi_path l)
    (map fi_path (filter (fun c => match f c with None => true | Some _ => false end) l) ++
     map ci_path (flat_map (fun c => match f c with None => [] | Some s => if m c s then [] else [changed_of s c] end) l) ++
     map fi_path (filter (fun c => match f c with None => false | Some s => m c s end) l)).
Proof.
  induction l as [|c l IH]; cbn; [constructor|]. destruct (f c) as [s|]; [destruct (m c s)|]; cbn.
  - rewrite app_assoc. apply Permutation_cons_app. rewrite <- app_assoc. exact IH.
  - apply Permutation_cons_app. exact IH.
  - now constructor.
Qed.

Theorem C12_files_classified : sorts fi_path sort_f ->
  forall client_files server_files client_dirs server_dirs,
  NoDup (map fi_path server_files) ->
  let d := gen client_files server_files client_dirs server_dirs in
  exists reps, one_per_path fi_path client_files reps /\
    (* every client path is in exactly one list, once *)
    Permutation (map fi_path reps)
      (map fi_path (missing_files d) ++ map ci_path (changed_files d) ++ map fi_path (matching_files d)) /\
    (forall f, In f (missing_files d) <-> In f reps /\ ~ exists s, server_side server_files (fi_path f) s) /\
    (forall f, In f (matching_files d) <->
       In f reps /\ exists s, server_side server_files (fi_path f) s /\ up_to_date copy_dest f s) /\
    (forall c, In c (changed_files d) <->
       exists f s, In f reps /\ server_side server_files (fi_path f) s /\ ~ up_to_date copy_dest f s /\
         c = mk_cinfo (fi_path f) (fi_mtime f) (fi_size f) (fi_size s) (fi_index f) (fi_base s)).
Proof.
  intros Hs cf sf cd sd ND d.
  destruct (Hs cf) as (Pc & Sc). destruct (Hs sf) as (Ps & Ss).
  destruct (unique_spec fi_path (sort_f cf) Sc) as (Uc & Oc).
  assert (NDs : NoDup (map fi_path (sort_f sf))).
  { eapply Permutation_NoDup; [|exact ND]. now apply Permutation_map. }
  pose proof (sorted_NoDup_lt fi_path _ Ss NDs) as Us.
  pose proof (merge_files_spec stat base_dir copy_dest double_check _ Uc _
     (merge_dirs copy_dest (unique di_eqb (sort_d cd)) (sort_d sd) empty_diff) Us) as (A1 & A2 & A3 & _).
  assert (D0 : forall cs ss, missing_files (merge_dirs copy_dest cs ss empty_diff) = [] /\
     matching_files (merge_dirs copy_dest cs ss empty_diff) = [] /\ changed_files (merge_dirs copy_dest cs ss empty_diff) = []).
  { assert (G : forall cs ss d0, missing_files (merge_dirs copy_dest cs ss d0) = missing_files d0 /\
       matching_files (merge_dirs copy_dest cs ss d0) = matching_files d0 /\ changed_files (merge_dirs copy_dest cs ss d0) = changed_files d0).
    { induction cs as [|c cs IHc].
      - induction ss as [|s ss IHs]; intros d0; [cbn; auto|].
        change (merge_dirs copy_dest [] (s :: ss) d0) with (add_extraneous_dir s (merge_dirs copy_dest [] ss d0)). apply IHs.
      - induction ss as [|s ss IHs]; intros d0; [apply IHc|]. cbn [merge_dirs].
        destruct (scmp (di_path c) (di_path s)); [destruct (in_copy_dest copy_dest (di_base s)); apply IHc|apply IHc|apply IHs]. }
    intros. apply G. }
  destruct (D0 (unique di_eqb (sort_d cd)) (sort_d sd)) as (Z1 & Z2 & Z3).
  rewrite Z1, Z2, Z3, !app_nil_r in *. clear D0 Z1 Z2 Z3.
  assert (E1 : missing_files d = filter (is_missing stat base_dir copy_dest double_check (sort_f sf)) (unique fi_eqb (sort_f cf))) by exact A1.
  assert (E2 : matching_files d = filter (is_matching stat base_dir copy_dest double_check (sort_f sf)) (unique fi_eqb (sort_f cf))) by exact A2.
  assert (E3 : changed_files d = flat_map (changed_list stat base_dir copy_dest double_check (sort_f sf)) (unique fi_eqb (sort_f cf))) by exact A3.
  assert (SS : forall p s, server_side (sort_f sf) p s <-> server_side sf p s).
  { assert (I : forall x, In x (sort_f sf) <-> In x sf) by (intros; split; apply Permutation_in; [symmetry|]; exact Ps).
    assert (Im : forall p, In p (map fi_path (sort_f sf)) <-> In p (map fi_path sf)).
    { intros p. split; apply Permutation_in; apply Permutation_map; [symmetry|]; exact Ps. }
    intros p s. split; intros H; destruct H; try (apply ss_listed; [apply I|]; assumption);
      try (apply ss_base; auto; rewrite Im in *; auto; fail); try (eapply ss_copy; eauto; rewrite Im in *; auto; fail). }
  assert (CP : forall c s, counterpart stat base_dir copy_dest double_check (sort_f sf) c = Some s <-> server_side sf (fi_path c) s).
  { intros. rewrite counterpart_server_side by assumption. apply SS. }
  exists (unique fi_eqb (sort_f cf)).
  split; [eapply one_per_path_perm; [exact Pc|exact Oc]|].
  split; [rewrite E1, E2, E3; apply partition_perm|].
  split; [|split].
  - intros f. rewrite E1, filter_In. unfold is_missing.
    destruct (counterpart _ _ _ _ _ f) as [s|] eqn:C.
    + split; [intros (_ & X); discriminate|]. intros (_ & N). exfalso. apply N. exists s. now apply CP.
    + split; [|tauto]. intros (I & _). split; [exact I|]. intros (s & H). apply CP in H. congruence.
  - intros f. rewrite E2, filter_In. unfold is_matching.
    destruct (counterpart _ _ _ _ _ f) as [s|] eqn:C.
    + rewrite files_match_spec. split.
      * intros (I & M). split; [exact I|]. exists s. split; [now apply CP|exact M].
      * intros (I & s' & H & M). split; [exact I|]. apply CP in H. congruence.
    + split; [intros (_ & X); discriminate|]. intros (_ & s & H & _). apply CP in H. congruence.
  - intros c. rewrite E3, in_flat_map. split.
    + intros (f & I & H). unfold changed_list in H. destruct (counterpart _ _ _ _ _ f) as [s|] eqn:C; [|destruct H].
      destruct (files_match copy_dest f s) eqn:M; [destruct H|]. destruct H as [<-|[]].
      exists f, s. split; [exact I|]. split; [now apply CP|]. split; [|reflexivity].
      rewrite <- files_match_spec, M. discriminate.
    + intros (f & s & I & H & N & ->). exists f. split; [exact I|]. apply CP in H. unfold changed_list. rewrite H.
      rewrite <- files_match_spec in N. destruct (files_match copy_dest f s); [congruence|]. left. reflexivity.
Qed.

Theorem C12_extraneous_files : sorts fi_path sort_f ->
  forall client_files server_files client_dirs server_dirs,
  NoDup (map fi_path server_files) ->
  let d := gen client_files server_files client_dirs server_dirs in
  NoDup (map fi_path (extraneous_files d)) /\
  forall s, In s (extraneous_files d) <->
    In s server_files /\ ~ In (fi_path s) (map fi_path client_files) /\ copy_dest <> Some (fi_base s).
Proof.
  intros Hs cf sf cd sd ND d.
  destruct (Hs cf) as (Pc & Sc). destruct (Hs sf) as (Ps & Ss).
  destruct (unique_spec fi_path (sort_f cf) Sc) as (Uc & (O1 & O2 & O3)).
  assert (NDs : NoDup (map fi_path (sort_f sf))).
  { eapply Permutation_NoDup; [|exact ND]. now apply Permutation_map. }
  pose proof (sorted_NoDup_lt fi_path _ Ss NDs) as Us.
  pose proof (merge_files_spec stat base_dir copy_dest double_check _ Uc _
     (merge_dirs copy_dest (unique di_eqb (sort_d cd)) (sort_d sd) empty_diff) Us) as (_ & _ & _ & A4 & _).
  assert (Z : extraneous_files (merge_dirs copy_dest (unique di_eqb (sort_d cd)) (sort_d sd) empty_diff) = []).
  { assert (G : forall cs ss d0, extraneous_files (merge_dirs copy_dest cs ss d0) = extraneous_files d0).
    { induction cs as [|c cs IHc].
      - induction ss as [|s ss IHs]; intros d0; [cbn; auto|].
        change (merge_dirs copy_dest [] (s :: ss) d0) with (add_extraneous_dir s (merge_dirs copy_dest [] ss d0)). apply IHs.
      - induction ss as [|s ss IHs]; intros d0; [apply IHc|]. cbn [merge_dirs].
        destruct (scmp (di_path c) (di_path s)); [destruct (in_copy_dest copy_dest (di_base s)); apply IHc|apply IHc|apply IHs]. }
    rewrite G. reflexivity. }
  rewrite Z, app_nil_r in A4.
  assert (E : extraneous_files d = filter (fun f => negb (in_copy_dest copy_dest (fi_base f)))
     (filter (is_extra (unique fi_eqb (sort_f cf))) (sort_f sf))).
  { unfold d, generate. cbn [extraneous_files]. change fi_eqb with (keqb fi_path) in *. rewrite A4. reflexivity. }
  assert (NF : forall {A} (g : A -> bytes) (p : A -> bool) l, NoDup (map g l) -> NoDup (map g (filter p l))).
  { intros A g p l. induction l as [|a l IH]; cbn; auto. intros H. inversion H; subst. destruct (p a); cbn; auto.
    constructor; auto. intros I. apply H2. apply in_map_iff in I. destruct I as (b & <- & I). apply filter_In in I. now apply in_map. }
  split; [rewrite E; now apply NF, NF|].
  intros s. rewrite E, !filter_In. unfold is_extra.
  assert (Il : In s (sort_f sf) <-> In s sf) by (split; apply Permutation_in; [symmetry|]; exact Ps).
  assert (Ic : In (fi_path s) (map fi_path (unique fi_eqb (sort_f cf))) <-> In (fi_path s) (map fi_path cf)).
  { rewrite !in_map_iff. split.
    - intros (x & Ex & Ix). exists x. split; [exact Ex|]. eapply Permutation_in; [symmetry; exact Pc|]. apply O2. exact Ix.
    - intros (x & Ex & Ix). destruct (O3 x) as (y & Iy & Ey). { eapply Permutation_in; [exact Pc|exact Ix]. }
      exists y. split; [congruence|exact Iy]. }
  rewrite Il, negb_true_iff, <- Ic.
  destruct (lookup fi_path (fi_path s) (unique fi_eqb (sort_f cf))) as [x|] eqn:L.
  - split; [intros ((_ & X) & _); discriminate|]. intros (_ & N & _). exfalso. apply N.
    apply lookup_Some in L. destruct L as (Ix & <-). now apply in_map.
  - apply lookup_None in L. rewrite <- in_copy_dest_spec. destruct (in_copy_dest copy_dest (fi_base s)); intuition congruence.
Qed.

Lemma merge_files_dirs : forall cs ss d0, missing_dirs (merge_files stat base_dir copy_dest double_check cs ss d0) = missing_dirs d0 /\
     matching_dirs (merge_files stat base_dir copy_dest double_check cs ss d0) = matching_dirs d0 /\
     extraneous_dirs (merge_files stat base_dir copy_dest double_check cs ss d0) = extraneous_dirs d0.
Proof.
  assert (OM : forall c d0, missing_dirs (on_missing stat base_dir copy_dest double_check c d0) = missing_dirs d0 /\
      matching_dirs (on_missing stat base_dir copy_dest double_check c d0) = matching_dirs d0 /\
      extraneous_dirs (on_missing stat base_dir copy_dest double_check c d0) = extraneous_dirs d0).
    { intros c d0. unfold on_missing. destruct (check_missing _ _ _ _ c) as [s|]; [destruct (files_match copy_dest c s)|]; cbn; auto. }
    induction cs as [|c cs IHc].
    - induction ss as [|s ss IHs]; intros d0; [cbn; auto|].
      change (merge_files stat base_dir copy_dest double_check [] (s :: ss) d0) with
        (add_extraneous s (merge_files stat base_dir copy_dest double_check [] ss d0)). apply IHs.
    - induction ss as [|s ss IHs]; intros d0; cbn [merge_files].
      + destruct (OM c (merge_files stat base_dir copy_dest double_check cs [] d0)) as (B1 & B2 & B3).
        rewrite B1, B2, B3. apply IHc.
      + destruct (scmp (fi_path c) (fi_path s)); [destruct (files_match copy_dest c s); apply IHc| |apply IHs].
        destruct (OM c (merge_files stat base_dir copy_dest double_check cs (s :: ss) d0)) as (B1 & B2 & B3).
        rewrite B1, B2, B3. apply IHc.
Qed.

(** Directories: a client directory is missing iff the server's list has no
    directory of that path in the destination; extraneous as for files. *)
Theorem C12_dirs_classified : sorts di_path sort_d ->
  forall client_files server_files client_dirs server_dirs,
  NoDup (map di_path server_dirs) ->
  let d := gen client_files server_files client_dirs server_dirs in
  let present p := exists s, In s server_dirs /\ di_path s = p /\ copy_dest <> Some (di_base s) in
  exists reps, one_per_path di_path client_dirs reps /\
    (forall f, In f (missing_dirs d) <-> In f reps /\ ~ present (di_path f)) /\
    (forall f, In f (matching_dirs d) <-> In f reps /\ present (di_path f)) /\
    NoDup (map di_path (missing_dirs d)) /\ NoDup (map di_path (extraneous_dirs d)) /\
    (forall s, In s (extraneous_dirs d) <->
       In s server_dirs /\ ~ In (di_path s) (map di_path client_dirs) /\ copy_dest <> Some (di_base s)).
Proof.
  intros Hs cf sf cd sd ND d present.
  destruct (Hs cd) as (Pc & Sc). destruct (Hs sd) as (Ps & Ss).
  destruct (unique_spec di_path (sort_d cd) Sc) as (Uc & (O1 & O2 & O3)).
  assert (NDs : NoDup (map di_path (sort_d sd))).
  { eapply Permutation_NoDup; [|exact ND]. now apply Permutation_map. }
  pose proof (sorted_NoDup_lt di_path _ Ss NDs) as Us.
  pose proof (merge_dirs_spec copy_dest _ Uc _ empty_diff Us) as (A1 & A2 & A3 & _).
  cbn [missing_dirs matching_dirs extraneous_dirs empty_diff] in A1, A2, A3. rewrite app_nil_r in A1, A2, A3.
  destruct (merge_files_dirs (unique fi_eqb (sort_f cf)) (sort_f sf) (merge_dirs copy_dest (unique di_eqb (sort_d cd)) (sort_d sd) empty_diff)) as (G1 & G2 & G3).
  change (keqb di_path) with di_eqb in *.
  assert (E1 : missing_dirs d = filter (dmissing copy_dest (sort_d sd)) (unique di_eqb (sort_d cd))) by (unfold d, generate; cbn [missing_dirs]; congruence).
  assert (E2 : matching_dirs d = filter (fun c => negb (dmissing copy_dest (sort_d sd) c)) (unique di_eqb (sort_d cd))) by (unfold d, generate; cbn [matching_dirs]; congruence).
  assert (E3 : extraneous_dirs d = filter (fun f => negb (in_copy_dest copy_dest (di_base f))) (filter (dextra (unique di_eqb (sort_d cd))) (sort_d sd))) by (unfold d, generate; cbn [extraneous_dirs]; congruence).
  clear A1 A2 A3 G1 G2 G3.
  assert (Il : forall s, In s (sort_d sd) <-> In s sd) by (intros s; split; apply Permutation_in; [symmetry|]; exact Ps).
  assert (PR : forall f, dmissing copy_dest (sort_d sd) f = false <-> present (di_path f)).
  { intros f. unfold dmissing, present. destruct (lookup di_path (di_path f) (sort_d sd)) as [s|] eqn:L.
    - apply lookup_Some in L as L'. destruct L' as (Is & Es). rewrite Il in Is.
      split.
      + intros E. exists s. split; [exact Is|]. split; [exact Es|]. rewrite <- in_copy_dest_spec, E. discriminate.
      + intros (s' & Is' & Es' & N). rewrite <- Il in Is'. rewrite (lookup_unique di_path _ _ s' NDs Is' Es') in L. inversion L; subst.
        rewrite <- in_copy_dest_spec in N. destruct (in_copy_dest copy_dest (di_base s)); congruence.
    - split; [discriminate|]. intros (s' & Is' & Es' & _). apply lookup_None in L. exfalso. apply L. rewrite <- Es'. apply in_map. now apply Il. }
  assert (NF : forall {A} (g : A -> bytes) (p : A -> bool) l, NoDup (map g l) -> NoDup (map g (filter p l))).
  { intros A g p l. induction l as [|a l IH]; cbn; auto. intros H. inversion H; subst. destruct (p a); cbn; auto.
    constructor; auto. intros I. apply H2. apply in_map_iff in I. destruct I as (b & <- & I). apply filter_In in I. now apply in_map. }
  exists (unique di_eqb (sort_d cd)).
  split; [eapply one_per_path_perm; [exact Pc|repeat split; assumption]|].
  split; [|split; [|split; [|split]]].
  - intros f. rewrite E1, filter_In, <- PR. destruct (dmissing copy_dest (sort_d sd) f); intuition congruence.
  - intros f. rewrite E2, filter_In, <- PR. destruct (dmissing copy_dest (sort_d sd) f); cbn; intuition congruence.
  - rewrite E1. now apply NF.
  - rewrite E3. now apply NF, NF.
  - intros s. rewrite E3, !filter_In. unfold dextra.
    assert (Ic : In (di_path s) (map di_path (unique di_eqb (sort_d cd))) <-> In (di_path s) (map di_path cd)).
    { rewrite !in_map_iff. split.
      - intros (x & Ex & Ix). exists x. split; [exact Ex|]. eapply Permutation_in; [symmetry; exact Pc|]. apply O2. exact Ix.
      - intros (x & Ex & Ix). destruct (O3 x) as (y & Iy & Ey). { eapply Permutation_in; [exact Pc|exact Ix]. }
        exists y. split; [congruence|exact Iy]. }
    rewrite Il, negb_true_iff, <- Ic.
    destruct (lookup di_path (di_path s) (unique di_eqb (sort_d cd))) as [x|] eqn:L.
    + split; [intros ((_ & X) & _); discriminate|]. intros (_ & N & _). exfalso. apply N.
      apply lookup_Some in L. destruct L as (Ix & <-). now apply in_map.
    + apply lookup_None in L. rewrite <- in_copy_dest_spec. destruct (in_copy_dest copy_dest (di_base s)); intuition congruence.
Qed.

(** The missing directories are listed parents first. *)
Theorem C12_missing_dirs_in_order : sorts di_path sort_d ->
  forall client_files server_files client_dirs server_dirs, NoDup (map di_path server_dirs) ->
  StronglySorted (fun a b => slt (di_path a) (di_path b)) (missing_dirs (gen client_files server_files client_dirs server_dirs)).
Proof.
  intros Hs cf sf cd sd ND. destruct (Hs cd) as (Pc & Sc). destruct (Hs sd) as (Ps & Ss).
  destruct (unique_spec di_path (sort_d cd) Sc) as (Uc & _).
  assert (NDs : NoDup (map di_path (sort_d sd))) by (eapply Permutation_NoDup; [|exact ND]; now apply Permutation_map).
  pose proof (merge_dirs_spec copy_dest _ Uc _ empty_diff (sorted_NoDup_lt di_path _ Ss NDs)) as (A1 & _).
  cbn [missing_dirs empty_diff] in A1. rewrite app_nil_r in A1.
  destruct (merge_files_dirs (unique fi_eqb (sort_f cf)) (sort_f sf) (merge_dirs copy_dest (unique di_eqb (sort_d cd)) (sort_d sd) empty_diff)) as (G1 & _).
  change (keqb di_path) with di_eqb in *. unfold generate. cbn [missing_dirs]. rewrite G1, A1. clear -Uc.
  induction Uc as [|a l S IH F]; cbn; [constructor|]. destruct (dmissing _ _ a); [|exact IH]. constructor; [exact IH|].
  rewrite Forall_forall in *. intros b Ib. apply filter_In in Ib. now apply F.
Qed.
End C12.

(** The server's list handed to the diff has one entry per path, and where the
    destination and the copy-dest directory both have the path, it is the entry
    found first, i.e. the destination's. *)
Theorem C12_server_list_unique_first : forall files dirs,
  (NoDup (map fi_path (fst (release_files files dirs))) /\
   (forall f, In f files -> In (fi_path f) (map fi_path (fst (release_files files dirs)))) /\
   (forall f, In f (fst (release_files files dirs)) ->
      exists before after, files = before ++ f :: after /\ ~ In (fi_path f) (map fi_path before))) /\
  (NoDup (map di_path (snd (release_files files dirs))) /\
   (forall f, In f dirs -> In (di_path f) (map di_path (snd (release_files files dirs)))) /\
   (forall f, In f (snd (release_files files dirs)) ->
      exists before after, dirs = before ++ f :: after /\ ~ In (di_path f) (map di_path before))).
Proof.
  assert (G : forall A (key : A -> bytes) (l : list A),
    let r := unique (keqb key) (stable_sort key l) in
    NoDup (map key r) /\ (forall f, In f l -> In (key f) (map key r)) /\
    (forall f, In f r -> exists before after, l = before ++ f :: after /\ ~ In (key f) (map key before))).
  { intros A key l r. pose proof (stable_sort_sorted key l) as S. destruct (unique_spec key _ S) as (U & O1 & O2 & O3).
    split; [exact O1|]. split.
    - intros f I. destruct (O3 f) as (y & Iy & Ey); [eapply Permutation_in; [apply stable_sort_perm|exact I]|].
      rewrite <- Ey. now apply in_map.
    - intros f I. destruct (unique_first key _ S f I) as (r' & E). rewrite stable_sort_filter in E.
      clear - E. revert r' E. induction l as [|a l IH]; cbn; [discriminate|]. intros r' E.
      destruct (seqb_spec (key f) (key a)) as [K|K].
      + inversion E; subst. exists [], l. split; [reflexivity|]. cbn. tauto.
      + destruct (IH r' E) as (b & c & -> & N). exists (a :: b), c. split; [reflexivity|]. cbn. intros [X|X]; [congruence|contradiction]. }
  intros files dirs. split; apply G.
Qed.

(** *** Non-vacuity: one file of each kind, a duplicate client entry, a file
    present only in the copy-dest directory, stable sort as the sort. *)
Definition a_ : bytes := [97]. Definition b_ : bytes := [98]. Definition c_ : bytes := [99].
Definition d_ : bytes := [100]. Definition e_ : bytes := [101]. Definition z_ : bytes := [122].
Definition ex_client := [mk_finfo c_ 5 10 0 0; mk_finfo a_ 5 10 1 0; mk_finfo b_ 5 10 2 0; mk_finfo b_ 5 10 3 0; mk_finfo d_ 5 10 4 0; mk_finfo e_ 5 10 5 0].
Definition ex_server := [mk_finfo z_ 1 1 kInvalidIndex 7; mk_finfo b_ 5 10 kInvalidIndex 7; mk_finfo a_ 5 11 kInvalidIndex 7; mk_finfo d_ 5 10 kInvalidIndex 9].
Definition ex_stat (dir : ptr) (p : bytes) : option (Z * N) := if (dir =? 7) && seqb p e_ then Some (5%Z, 10) else None.
Example C12_example :
  sorts fi_path (stable_sort fi_path) /\ sorts di_path (stable_sort di_path) /\ NoDup (map fi_path ex_server) /\
  let d := generate ex_stat 7 (Some 9) true (stable_sort fi_path) (stable_sort di_path) ex_client ex_server [] [] in
  missing_files d = [mk_finfo c_ 5 10 0 0] /\
  matching_files d = [mk_finfo b_ 5 10 2 0; mk_finfo e_ 5 10 5 0] /\
  changed_files d = [mk_cinfo a_ 5 10 11 1 7; mk_cinfo d_ 5 10 10 4 9] /\
  extraneous_files d = [mk_finfo z_ 1 1 kInvalidIndex 7].
Proof.
  split; [apply stable_sort_sorts|]. split; [apply stable_sort_sorts|].
  split; [vm_compute; repeat constructor; cbn; intuition congruence|]. vm_compute. repeat split.
Qed.

(** *** C13 *)
Definition paths_of (d : diff) : list bytes :=
  map fi_path (missing_files d) ++ map ci_path (changed_files d) ++ map fi_path (matching_files d).

(** Which files are transferred whole, as deltas, or not at all; nothing else
    moves. *)
Theorem C13_flags : forall existing checksum whole_file d,
  let d' := snd (adjust_to_flags existing checksum whole_file d) in
  let kept := if existing then [] else missing_files d in
  let deltas := changed_files d ++ (if checksum then map (fun f =>
        mk_cinfo (fi_path f) (fi_mtime f) (fi_size f) (fi_size f) (fi_index f) (fi_base f)) (matching_files d) else []) in
  missing_files d' = kept ++ (if whole_file then map (fun c =>
        mk_finfo (ci_path c) (ci_mtime c) (ci_size c) (ci_index c) nullptr) deltas else []) /\
  changed_files d' = (if whole_file then [] else deltas) /\
  matching_files d' = (if checksum then [] else matching_files d) /\
  missing_dirs d' = (if existing then [] else missing_dirs d) /\
  extraneous_files d' = extraneous_files d /\ extraneous_dirs d' = extraneous_dirs d /\ matching_dirs d' = matching_dirs d.
Proof.
  intros existing checksum whole_file d. destruct existing, checksum, whole_file; cbn; rewrite ?app_nil_r; repeat split.
Qed.

Theorem C13_no_path_lost_or_invented : forall existing checksum whole_file d,
  Permutation (paths_of (snd (adjust_to_flags existing checksum whole_file d)))
    ((if existing then [] else map fi_path (missing_files d)) ++ map ci_path (changed_files d) ++ map fi_path (matching_files d)).
Proof.
  intros existing checksum whole_file d. unfold paths_of.
  destruct existing, checksum, whole_file; cbn; rewrite ?map_app, ?map_map, ?app_nil_r; cbn; rewrite ?map_app, ?map_map; cbn;
  rewrite ?app_nil_r, <- ?app_assoc; reflexivity.
Qed.

(** The totals describe what will actually be sent. *)
Definition sum {A} (f : A -> N) (l : list A) : N := fold_right (fun x t => f x + t) 0 l.

Lemma total_sum {A} (f : A -> N) l : total f l = sum f l mod 2 ^ 64.
Proof.
  unfold total, sum, u64_add.
  assert (G : forall t, fold_left (fun t x => (t + f x) mod 2 ^ 64) l t mod 2 ^ 64 = (t + fold_right (fun x t => f x + t) 0 l) mod 2 ^ 64).
  { induction l as [|x l IH]; intros t; cbn [fold_left fold_right]; [now rewrite N.add_0_r|].
    rewrite IH, N.add_mod_idemp_l by (cbv; discriminate). f_equal. lia. }
  destruct l as [|x l]; [reflexivity|].
  specialize (G 0). rewrite N.add_0_l in G. rewrite <- G. symmetry. apply N.mod_small.
  cut (forall y l t, fold_left (fun t x => (t + f x) mod 2 ^ 64) (y :: l) t < 2 ^ 64); [intros H; apply H|].
  clear. intros y l. revert y. induction l as [|z l IH]; intros y t; cbn [fold_left].
  - apply N.mod_lt. cbv; discriminate.
  - apply (IH z).
Qed.

Theorem C13_totals : forall existing checksum whole_file d,
  let '(s, d') := adjust_to_flags existing checksum whole_file d in
  (sum fi_size (missing_files d') < 2 ^ 64 -> total_missing_bytes s = sum fi_size (missing_files d')) /\
  (sum ci_size (changed_files d') < 2 ^ 64 -> total_changed_client_bytes s = sum ci_size (changed_files d')) /\
  (sum ci_server_size (changed_files d') < 2 ^ 64 -> total_changed_server_bytes s = sum ci_server_size (changed_files d')) /\
  (N.of_nat (length (missing_files d)) < 2 ^ 32 -> num_missing_files s = N.of_nat (length (missing_files d))) /\
  (N.of_nat (length (changed_files d)) < 2 ^ 32 -> num_changed_files s = N.of_nat (length (changed_files d))) /\
  (N.of_nat (length (matching_files d)) < 2 ^ 32 -> num_matching_files s = N.of_nat (length (matching_files d))) /\
  (N.of_nat (length (extraneous_files d)) < 2 ^ 32 -> num_extraneous_files s = N.of_nat (length (extraneous_files d))) /\
  (N.of_nat (length (missing_dirs d)) < 2 ^ 32 -> num_missing_dirs s = N.of_nat (length (missing_dirs d))) /\
  (N.of_nat (length (matching_dirs d)) < 2 ^ 32 -> num_matching_dirs s = N.of_nat (length (matching_dirs d))) /\
  (N.of_nat (length (extraneous_dirs d)) < 2 ^ 32 -> num_extraneous_dirs s = N.of_nat (length (extraneous_dirs d))).
Proof.
  intros existing checksum whole_file d. unfold adjust_to_flags.
  cbn [total_missing_bytes total_changed_client_bytes total_changed_server_bytes num_missing_files num_changed_files
       num_matching_files num_extraneous_files num_missing_dirs num_matching_dirs num_extraneous_dirs].
  unfold count, u32. split; [intros; rewrite total_sum; now apply N.mod_small|].
  split; [intros; rewrite total_sum; now apply N.mod_small|]. split; [intros; rewrite total_sum; now apply N.mod_small|].
  repeat split; intros; now apply N.mod_small.
Qed.

Example C13_example :
  let d := mk_diff [mk_finfo a_ 1 3 0 0] [] [mk_cinfo b_ 1 5 6 1 7] [mk_finfo c_ 1 8 2 0] [] [] [] in
  let '(s, d') := adjust_to_flags true true true d in
  map fi_path (missing_files d') = [b_; c_] /\ changed_files d' = [] /\ total_missing_bytes s = 13 /\ num_missing_files s = 1.
Proof. vm_compute. repeat split. Qed.

Print Assumptions C12_files_classified.
Print Assumptions C12_extraneous_files.
Print Assumptions C12_dirs_classified.
Print Assumptions C12_missing_dirs_in_order.
Print Assumptions C12_server_list_unique_first.
Print Assumptions C13_flags.
Print Assumptions C13_no_path_lost_or_invented.
Print Assumptions C13_totals.
