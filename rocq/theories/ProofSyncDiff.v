(** Proofs for C15, C16, C17: what the diff of a destination with the client's files says. *)
From Verif Require Import Base ListX Str ModelFastcdc SpecFastcdc ModelCdc SpecCdc ModelFileDiff SpecFileDiff ProofFileDiff PropFileDiff ModelSync SpecSync ProofSync ProofSyncSafe.
Local Open Scope N_scope.

Section Diff.
Variable copy_fs : option fs.
Variable filter_match : bytes -> bool.
Variable dir_stat : Z * N.
Variable sort_f : list finfo -> list finfo.
Variable sort_d : list dinfo -> list dinfo.
Variable opts : sopts.
Variable client_files : list finfo.
Variable client_dirs : list dinfo.
Notation vis := (visible filter_match opts).
Notation files_in := (scan_files filter_match opts).
Notation dirs_in := (scan_dirs filter_match opts).
Notation lists := (server_lists copy_fs filter_match opts).
Notation mdiff := (make_diff copy_fs filter_match dir_stat sort_f sort_d opts client_files client_dirs).

Lemma scan_files_in s b x : In x (files_in s b) <-> exists p f, In (p, NFile f) s /\ vis p = true /\ x = mk_finfo p (f_mtime f) (N.of_nat (length (f_data f))) kInvalidIndex b.
Proof.
  unfold scan_files. rewrite in_flat_map. split.
  - intros ((p, n) & I1 & I2). cbn [fst snd] in I2. destruct n as [|f]; [easy|]. destruct (vis p) eqn:V; [|easy]. destruct I2 as [<-|[]]. eauto 6.
  - intros (p & f & I1 & V & ->). exists (p, NFile f). split; [exact I1|]. cbn [fst snd]. rewrite V. now left.
Qed.
Lemma scan_dirs_in s b x : In x (dirs_in s b) <-> exists p, In (p, NDir) s /\ vis p = true /\ x = mk_dinfo p kInvalidIndex b.
Proof.
  unfold scan_dirs. rewrite in_flat_map. split.
  - intros ((p, n) & I1 & I2). cbn [fst snd] in I2. destruct n as [|f]; [|easy]. destruct (vis p) eqn:V; [|easy]. destruct I2 as [<-|[]]. eauto 6.
  - intros (p & I1 & V & ->). exists (p, NDir). split; [exact I1|]. cbn [fst snd]. rewrite V. now left.
Qed.

Variable s : fs.
Hypothesis NDs : NoDup (map fst s).
Hypothesis NDc : forall c, copy_fs = Some c -> NoDup (map fst c).
Hypothesis Sf : sorts fi_path sort_f.
Hypothesis Sd : sorts di_path sort_d.
Hypothesis NDcf : NoDup (map fi_path client_files).
Hypothesis Nullb : Forall (fun f => fi_base f = nullptr) client_files.

Definition dest_file (p : bytes) (x : finfo) : Prop :=
  exists f, get s p = Some (NFile f) /\ vis p = true /\ x = mk_finfo p (f_mtime f) (N.of_nat (length (f_data f))) kInvalidIndex dest_ptr.
Definition copy_file (p : bytes) (x : finfo) : Prop :=
  exists c f, copy_fs = Some c /\ get c p = Some (NFile f) /\ vis p = true /\ (forall g, get s p <> Some (NFile g)) /\
    x = mk_finfo p (f_mtime f) (N.of_nat (length (f_data f))) kInvalidIndex copy_ptr.
Definition dest_dir (p : bytes) (x : dinfo) : Prop := get s p = Some NDir /\ vis p = true /\ x = mk_dinfo p kInvalidIndex dest_ptr.
Definition copy_dir (p : bytes) (x : dinfo) : Prop := exists c, copy_fs = Some c /\ get c p = Some NDir /\ vis p = true /\ get s p <> Some NDir /\ x = mk_dinfo p kInvalidIndex copy_ptr.

Lemma split_app {A} (a b : list A) : forall l1 x l2, a ++ b = l1 ++ x :: l2 -> In x a \/ (In x b /\ exists k, l1 = a ++ k).
Proof.
  induction a as [|y a IH]; intros l1 x l2 E0; cbn in E0.
  - right. subst b. split; [apply in_or_app; right; now left|exists l1; reflexivity].
  - destruct l1 as [|z l1]; cbn in E0; inversion E0; subst; [left; now left|]. destruct (IH l1 x l2 H1) as [I|(I & k & ->)]; [left; now right|right]. split; [exact I|]. exists k. reflexivity.
Qed.

Lemma lists_files : NoDup (map fi_path (fst (lists s))) /\ forall x, In x (fst (lists s)) <-> dest_file (fi_path x) x \/ copy_file (fi_path x) x.
Proof.
  assert (D : forall x, In x (files_in s dest_ptr) <-> dest_file (fi_path x) x).
  { intros x. rewrite scan_files_in. unfold dest_file. split.
    - intros (p & f & I1 & V & ->). cbn. exists f. split; [now apply in_get|]. auto.
    - intros (f & G & V & Ex). exists (fi_path x), f. split; [now apply get_in|]. auto. }
  destruct copy_fs as [c|] eqn:Ec; unfold server_lists; rewrite Ec || idtac.
  - set (all := files_in s dest_ptr ++ files_in c copy_ptr). destruct (C12_server_list_unique_first all (dirs_in s dest_ptr ++ dirs_in c copy_ptr)) as ((N1 & N2 & N3) & _). split; [exact N1|].
    assert (Cp : forall x, In x (files_in c copy_ptr) <-> exists f, get c (fi_path x) = Some (NFile f) /\ vis (fi_path x) = true /\ x = mk_finfo (fi_path x) (f_mtime f) (N.of_nat (length (f_data f))) kInvalidIndex copy_ptr).
    { intros x. rewrite scan_files_in. split.
      - intros (p & f & I1 & V & ->). cbn. exists f. split; [apply in_get; auto|]. auto.
      - intros (f & G & V & Ex). exists (fi_path x), f. split; [now apply get_in|]. auto. }
    assert (Dst : forall x, In x (fst (release_files all (dirs_in s dest_ptr ++ dirs_in c copy_ptr))) -> dest_file (fi_path x) x \/ copy_file (fi_path x) x).
    { intros x Ix. destruct (N3 x Ix) as (l1 & l2 & E & Nx). unfold all in E. apply split_app in E. destruct E as [E|(E & k & ->)]; [left; now apply D|right].
      apply Cp in E. destruct E as (f & G & V & Ex). exists c, f. split; [exact Ec|]. split; [exact G|]. split; [exact V|]. split; [|exact Ex].
      intros g Gs. apply Nx. rewrite (map_app fi_path). apply in_or_app. left. apply in_map_iff.
      exists (mk_finfo (fi_path x) (f_mtime g) (N.of_nat (length (f_data g))) kInvalidIndex dest_ptr). split; [reflexivity|]. apply D. cbn. exists g. auto. }
    intros x. split; [apply Dst|]. intros H.
    assert (Ia : In x all). { unfold all. apply in_or_app. destruct H as [H|H]; [left; now apply D|right]. destruct H as (c' & f & Ec' & G & V & _ & Ex). rewrite Ec in Ec'. inversion Ec'; subst c'. apply Cp. eauto. }
    apply N2 in Ia. apply in_map_iff in Ia. destruct Ia as (y & Ey & Iy). replace x with y; [exact Iy|].
    destruct (Dst y Iy) as [(f & G & V & Eqy)|(c' & f & Ec' & G & V & Ns & Eqy)], H as [(f' & G' & V' & Eqx)|(c'' & f' & Ec'' & G' & V' & Ns' & Eqx)]; rewrite Ey in *.
    + congruence.
    + elim (Ns' f G).
    + elim (Ns f' G').
    + congruence.
  - destruct (C12_server_list_unique_first (files_in s dest_ptr) (dirs_in s dest_ptr)) as ((N1 & N2 & N3) & _). split; [exact N1|].
    assert (Dst : forall x, In x (fst (release_files (files_in s dest_ptr) (dirs_in s dest_ptr))) -> dest_file (fi_path x) x).
    { intros x Ix. destruct (N3 x Ix) as (l1 & l2 & E & _). apply D. rewrite E. apply in_or_app. right. now left. }
    intros x. split; [left; now apply Dst|]. intros [H|(c' & f & Ec' & _)]; [|congruence].
    pose proof (proj2 (D x) H) as Ia. apply N2 in Ia. apply in_map_iff in Ia. destruct Ia as (y & Ey & Iy). replace x with y; [exact Iy|].
    destruct (Dst y Iy) as (f & G & V & Eqy), H as (f' & G' & V' & Eqx). rewrite Ey in *. congruence.
Qed.

Lemma lists_dirs : NoDup (map di_path (snd (lists s))) /\ forall x, In x (snd (lists s)) <-> dest_dir (di_path x) x \/ copy_dir (di_path x) x.
Proof.
  assert (D : forall x, In x (dirs_in s dest_ptr) <-> dest_dir (di_path x) x).
  { intros x. rewrite scan_dirs_in. unfold dest_dir. split.
    - intros (p & I1 & V & ->). cbn. split; [now apply in_get|]. auto.
    - intros (G & V & Ex). exists (di_path x). split; [now apply get_in|]. auto. }
  destruct copy_fs as [c|] eqn:Ec; unfold server_lists.
  - set (all := dirs_in s dest_ptr ++ dirs_in c copy_ptr). destruct (C12_server_list_unique_first (files_in s dest_ptr ++ files_in c copy_ptr) all) as (_ & (N1 & N2 & N3)). split; [exact N1|].
    assert (Cp : forall x, In x (dirs_in c copy_ptr) <-> get c (di_path x) = Some NDir /\ vis (di_path x) = true /\ x = mk_dinfo (di_path x) kInvalidIndex copy_ptr).
    { intros x. rewrite scan_dirs_in. split.
      - intros (p & I1 & V & ->). cbn. split; [apply in_get; auto|]. auto.
      - intros (G & V & Ex). exists (di_path x). split; [now apply get_in|]. auto. }
    assert (Dst : forall x, In x (snd (release_files (files_in s dest_ptr ++ files_in c copy_ptr) all)) -> dest_dir (di_path x) x \/ copy_dir (di_path x) x).
    { intros x Ix. destruct (N3 x Ix) as (l1 & l2 & E & Nx). unfold all in E. apply split_app in E. destruct E as [E|(E & k & ->)]; [left; now apply D|right].
      apply Cp in E. destruct E as (G & V & Ex). exists c. split; [exact Ec|]. split; [exact G|]. split; [exact V|]. split; [|exact Ex].
      intros Gs. apply Nx. rewrite (map_app di_path). apply in_or_app. left. apply in_map_iff.
      exists (mk_dinfo (di_path x) kInvalidIndex dest_ptr). split; [reflexivity|]. apply D. cbn. split; auto. }
    intros x. split; [apply Dst|]. intros H.
    assert (Ia : In x all). { unfold all. apply in_or_app. destruct H as [H|H]; [left; now apply D|right]. destruct H as (c' & Ec' & G & V & _ & Ex). rewrite Ec in Ec'. inversion Ec'; subst c'. apply Cp. auto. }
    apply N2 in Ia. apply in_map_iff in Ia. destruct Ia as (y & Ey & Iy). replace x with y; [exact Iy|].
    destruct (Dst y Iy) as [(G & V & Eqy)|(c' & Ec' & G & V & Ns & Eqy)], H as [(G' & V' & Eqx)|(c'' & Ec'' & G' & V' & Ns' & Eqx)]; rewrite Ey in *; try contradiction; congruence.
  - destruct (C12_server_list_unique_first (files_in s dest_ptr) (dirs_in s dest_ptr)) as (_ & (N1 & N2 & N3)). split; [exact N1|].
    assert (Dst : forall x, In x (snd (release_files (files_in s dest_ptr) (dirs_in s dest_ptr))) -> dest_dir (di_path x) x).
    { intros x Ix. destruct (N3 x Ix) as (l1 & l2 & E & _). apply D. rewrite E. apply in_or_app. right. now left. }
    intros x. split; [left; now apply Dst|]. intros [H|(c' & Ec' & _)]; [|congruence].
    pose proof (proj2 (D x) H) as Ia. apply N2 in Ia. apply in_map_iff in Ia. destruct Ia as (y & Ey & Iy). replace x with y; [exact Iy|].
    destruct (Dst y Iy) as (G & V & Eqy), H as (G' & V' & Eqx). rewrite Ey in *. congruence.
Qed.

Notation double := (so_relative opts && negb (so_recursive opts)).
Definition cdest : option ptr := match copy_fs with Some _ => Some copy_ptr | None => None end.
Definition stat0 (b : ptr) (p : bytes) : option (Z * N) := if b =? copy_ptr then stat_in dir_stat (the_copy copy_fs) p else stat_in dir_stat s p.
Definition d0 : diff := generate stat0 dest_ptr cdest double sort_f sort_d client_files (fst (lists s)) client_dirs (snd (lists s)).
Lemma mdiff_eq : mdiff s = snd (adjust_to_flags (so_existing opts) (so_checksum opts) (so_whole_file opts) d0).
Proof. unfold make_diff, d0. destruct (lists s) as (a, b) eqn:El. cbn [fst snd]. reflexivity. Qed.

(** The file on the server that a client file is compared with. *)
Definition side (p : bytes) (x : finfo) : Prop := server_side stat0 dest_ptr cdest double (fst (lists s)) p x.
Definition same (f : finfo) (p : bytes) (m : Z) (i : N) : Prop := fi_path f = p /\ fi_mtime f = m /\ fi_index f = i.

Lemma side_dest p x : side p x -> fi_base x <> copy_ptr ->
  (exists g, get s p = Some (NFile g) /\ fi_mtime x = f_mtime g /\ fi_size x = N.of_nat (length (f_data g))) \/ (get s p = Some NDir /\ double = true).
Proof.
  destruct lists_files as (ND & L). intros [y I <-|m z Dc NI St|c m z Dc NI St C St2] Nb.
  - apply L in I. destruct I as [(g & G & V & Ex)|(c & g & C & G & V & Ns & Ex)]; [left; exists g; rewrite Ex; auto|]. rewrite Ex in Nb. now elim Nb.
  - unfold stat0 in St. change (dest_ptr =? copy_ptr) with false in St. unfold stat_in in St. destruct (get s p) as [[|g]|] eqn:G; [right; auto|left; exists g; inversion St; subst; auto|discriminate].
  - unfold cdest in C. destruct copy_fs; inversion C; subst. now elim Nb.
Qed.
Lemma side_copy p x : side p x -> fi_base x = copy_ptr -> (forall g, get s p <> Some (NFile g)) /\ exists c n, copy_fs = Some c /\ get c p = Some n.
Proof.
  destruct lists_files as (ND & L). intros [y I <-|m z Dc NI St|c m z Dc NI St C St2] Nb.
  - apply L in I. destruct I as [(g & G & V & Ex)|(c & g & C & G & V & Ns & Ex)]; [rewrite Ex in Nb; cbn in Nb; discriminate Nb|]. split; [exact Ns|]. eauto.
  - cbn in Nb. discriminate Nb.
  - unfold stat0 in St. change (dest_ptr =? copy_ptr) with false in St. unfold stat_in in St. destruct (get s p) as [[|g]|] eqn:G; try discriminate. split; [discriminate|].
    unfold cdest in C. destruct copy_fs as [c'|] eqn:Ec; inversion C; subst. unfold stat0 in St2. change (copy_ptr =? copy_ptr) with true in St2. unfold the_copy, stat_in in St2. rewrite Ec in St2. destruct (get c' p) as [n|] eqn:Gc; [|discriminate]. exists c', n. auto.
Qed.
Lemma side_present p f : get s p = Some (NFile f) -> vis p = true \/ double = true -> exists x, side p x.
Proof.
  destruct lists_files as (ND & L). intros G H.
  destruct (in_dec (list_eq_dec N.eq_dec) p (map fi_path (fst (lists s)))) as [I|NI].
  - apply in_map_iff in I. destruct I as (x & Ex & Ix). exists x. now apply ss_listed.
  - destruct H as [V|D].
    + elim NI. apply in_map_iff. exists (mk_finfo p (f_mtime f) (N.of_nat (length (f_data f))) kInvalidIndex dest_ptr). split; [reflexivity|]. apply L. left. cbn. exists f. auto.
    + exists (mk_finfo p (f_mtime f) (N.of_nat (length (f_data f))) kInvalidIndex dest_ptr). apply ss_base; auto. unfold stat0. change (dest_ptr =? copy_ptr) with false. unfold stat_in. now rewrite G.
Qed.

Lemma reps_in reps f : one_per_path fi_path client_files reps -> (In f reps <-> In f client_files).
Proof.
  intros (O1 & O2 & O3). split; [apply O2|]. intros I. destruct (O3 f I) as (y & Iy & Ey). replace f with y; [exact Iy|].
  pose proof (O2 y Iy) as I'. revert I I' Ey. clear -NDcf. revert y f. induction client_files as [|z l IH]; cbn; [easy|]. inversion NDcf; subst.
  intros y f [<-|I] [<-|I'] E; auto.
  - elim H1. rewrite E || rewrite <- E. now apply in_map.
  - elim H1. rewrite E || rewrite <- E. now apply in_map.
Qed.

(** F1: what is sent as missing. *)
Lemma missing_from m : In m (missing_files (mdiff s)) -> exists f, In f client_files /\ same f (fi_path m) (fi_mtime m) (fi_index m).
Proof.
  rewrite mdiff_eq. destruct (C13_flags (so_existing opts) (so_checksum opts) (so_whole_file opts) d0) as (-> & _).
  destruct lists_files as (ND & _). destruct (C12_files_classified stat0 dest_ptr cdest double sort_f sort_d Sf client_files (fst (lists s)) client_dirs (snd (lists s)) ND) as (reps & O & _ & Cm & Cmt & Cc).
  fold d0 in Cm, Cmt, Cc. intros I. apply in_app_or in I. destruct I as [I|I].
  - destruct (so_existing opts); [easy|]. apply Cm in I. destruct I as (I & _). exists m. split; [now apply (reps_in reps)|]. repeat split.
  - destruct (so_whole_file opts); [|easy]. apply in_map_iff in I. destruct I as (c & <- & I). cbn. apply in_app_or in I. destruct I as [I|I].
    + apply Cc in I. destruct I as (f & x & If & _ & _ & ->). exists f. split; [now apply (reps_in reps)|]. repeat split.
    + destruct (so_checksum opts); [|easy]. apply in_map_iff in I. destruct I as (f & <- & I). apply Cmt in I. exists f. split; [now apply (reps_in reps)|]. repeat split.
Qed.

(** F2: what is sent as a delta. *)
Lemma changed_from c : In c (changed_files (mdiff s)) -> exists f, In f client_files /\ same f (ci_path c) (ci_mtime c) (ci_index c) /\
  (ci_base c <> copy_ptr -> (exists g, get s (ci_path c) = Some (NFile g)) \/ (get s (ci_path c) = Some NDir /\ double = true)) /\
  (ci_base c = copy_ptr -> (forall g, get s (ci_path c) <> Some (NFile g)) /\ exists t n, copy_fs = Some t /\ get t (ci_path c) = Some n).
Proof.
  rewrite mdiff_eq. destruct (C13_flags (so_existing opts) (so_checksum opts) (so_whole_file opts) d0) as (_ & -> & _).
  destruct lists_files as (ND & _). destruct (C12_files_classified stat0 dest_ptr cdest double sort_f sort_d Sf client_files (fst (lists s)) client_dirs (snd (lists s)) ND) as (reps & O & _ & Cm & Cmt & Cc).
  fold d0 in Cm, Cmt, Cc. destruct (so_whole_file opts); [easy|]. intros I. apply in_app_or in I. destruct I as [I|I].
  - apply Cc in I. destruct I as (f & x & If & Sx & _ & ->). exists f. split; [now apply (reps_in reps)|]. split; [repeat split|]. cbn. split.
    + intros Nb. destruct (side_dest _ _ Sx Nb) as [(g & G & _)|H]; [left; eauto|now right].
    + intros Eb. exact (side_copy _ _ Sx Eb).
  - destruct (so_checksum opts); [|easy]. apply in_map_iff in I. destruct I as (f & <- & I). apply Cmt in I. destruct I as (If & x & Sx & (_ & _ & Nx)). exists f. apply (reps_in reps) in If; [|exact O]. split; [exact If|]. split; [repeat split|]. cbn. split.
    + intros _. assert (Nb : fi_base x <> copy_ptr).
      { intros Eb. destruct (side_copy _ _ Sx Eb) as (_ & t & n & Et & _). apply Nx. unfold cdest. rewrite Et, Eb. reflexivity. }
      destruct (side_dest _ _ Sx Nb) as [(g & G & _)|H]; [left; eauto|now right].
    + intros Eb. rewrite Forall_forall in Nullb. rewrite (Nullb f If) in Eb. discriminate.
Qed.

(** F3: nothing is sent twice. *)
Lemma sent_once : NoDup (map fi_path (missing_files (mdiff s)) ++ map ci_path (changed_files (mdiff s))).
Proof.
  rewrite mdiff_eq. destruct lists_files as (ND & _).
  destruct (C12_files_classified stat0 dest_ptr cdest double sort_f sort_d Sf client_files (fst (lists s)) client_dirs (snd (lists s)) ND) as (reps & O & P & _). fold d0 in P.
  pose proof (C13_no_path_lost_or_invented (so_existing opts) (so_checksum opts) (so_whole_file opts) d0) as P2. unfold paths_of in P2.
  destruct O as (O1 & _). pose proof (Permutation_NoDup P O1) as N1.
  assert (N2 : NoDup ((if so_existing opts then [] else map fi_path (missing_files d0)) ++ map ci_path (changed_files d0) ++ map fi_path (matching_files d0))).
  { destruct (so_existing opts); [|exact N1]. revert N1. generalize (map fi_path (missing_files d0)). induction l as [|x l IH]; cbn; [auto|]. intros H. inversion H; subst. auto. }
  pose proof (Permutation_NoDup (Permutation_sym P2) N2) as N3. rewrite app_assoc in N3.
  revert N3. generalize (map fi_path (missing_files (snd (adjust_to_flags (so_existing opts) (so_checksum opts) (so_whole_file opts) d0))) ++ map ci_path (changed_files (snd (adjust_to_flags (so_existing opts) (so_checksum opts) (so_whole_file opts) d0)))).
  intros l. clear. generalize (map fi_path (matching_files (snd (adjust_to_flags (so_existing opts) (so_checksum opts) (so_whole_file opts) d0)))). intros k. induction l as [|x l IH]; intros H; [constructor|].
  cbn in H. inversion H; subst. constructor; [|auto]. intros I. apply H2. apply in_or_app. now left.
Qed.

(** F4: what happens to a client file. *)
Lemma client_file_cases f : In f client_files ->
  (exists m, In m (missing_files (mdiff s)) /\ same f (fi_path m) (fi_mtime m) (fi_index m)) \/
  (exists c, In c (changed_files (mdiff s)) /\ same f (ci_path c) (ci_mtime c) (ci_index c)) \/
  (so_checksum opts = false /\ ~ In (fi_path f) (map fi_path (missing_files (mdiff s)) ++ map ci_path (changed_files (mdiff s))) /\
     ((exists g, get s (fi_path f) = Some (NFile g) /\ f_mtime g = fi_mtime f /\ N.of_nat (length (f_data g)) = fi_size f) \/ (get s (fi_path f) = Some NDir /\ double = true))) \/
  (so_existing opts = true /\ ~ exists x, side (fi_path f) x).
Proof.
  intros If. destruct lists_files as (ND & _). destruct (C12_files_classified stat0 dest_ptr cdest double sort_f sort_d Sf client_files (fst (lists s)) client_dirs (snd (lists s)) ND) as (reps & O & P & Cm & Cmt & Cc).
  fold d0 in P, Cm, Cmt, Cc. rewrite mdiff_eq. destruct (C13_flags (so_existing opts) (so_checksum opts) (so_whole_file opts) d0) as (Em & Ec & _).
  pose proof (C13_no_path_lost_or_invented (so_existing opts) (so_checksum opts) (so_whole_file opts) d0) as P2. unfold paths_of in P2.
  set (d1 := snd (adjust_to_flags _ _ _ d0)) in *. pose proof (proj2 (reps_in reps f O) If) as Ir.
  assert (Ip : In (fi_path f) (map fi_path (missing_files d0) ++ map ci_path (changed_files d0) ++ map fi_path (matching_files d0))) by (eapply Permutation_in; [exact P|now apply in_map]).
  assert (Uniq : forall g, In g reps -> fi_path g = fi_path f -> g = f).
  { intros g Ig Eg. destruct O as (O1 & _). clear -O1 Ig Ir Eg. induction reps as [|z l IH]; [easy|]. cbn in O1. inversion O1; subst. destruct Ig as [->|Ig], Ir as [->|Ir]; auto.
    - elim H1. rewrite Eg. now apply in_map.
    - elim H1. rewrite <- Eg. now apply in_map. }
  apply in_app_or in Ip. destruct Ip as [Ip|Ip]; [|apply in_app_or in Ip; destruct Ip as [Ip|Ip]]; apply in_map_iff in Ip; destruct Ip as (g & Eg & Ig).
  - pose proof Ig as Ig2. apply Cm in Ig2. destruct Ig2 as (Ig2 & Ns). pose proof (Uniq g Ig2 Eg). subst g. destruct (so_existing opts) eqn:Ex.
    + right. right. right. auto.
    + left. exists f. split; [rewrite Em; apply in_or_app; now left|repeat split].
  - pose proof Ig as Ig2. apply Cc in Ig2. destruct Ig2 as (g' & x & Ig' & Sx & _ & ->). cbn in Eg. pose proof (Uniq g' Ig' Eg). subst g'. destruct (so_whole_file opts) eqn:Ew.
    + left. exists (mk_finfo (fi_path f) (fi_mtime f) (fi_size f) (fi_index f) nullptr). split; [|repeat split]. rewrite Em. apply in_or_app. right. apply in_map_iff. eexists. split; [|apply in_or_app; left; exact Ig]. reflexivity.
    + right. left. eexists. split; [rewrite Ec; apply in_or_app; left; exact Ig|repeat split].
  - pose proof Ig as Ig2. apply Cmt in Ig2. destruct Ig2 as (Ig2 & x & Sx & (Z1 & Z2 & Nx)). pose proof (Uniq g Ig2 Eg). subst g. destruct (so_checksum opts) eqn:Ek.
    + assert (Id : In (mk_cinfo (fi_path f) (fi_mtime f) (fi_size f) (fi_size f) (fi_index f) (fi_base f)) (changed_files d0 ++ map (fun f => mk_cinfo (fi_path f) (fi_mtime f) (fi_size f) (fi_size f) (fi_index f) (fi_base f)) (matching_files d0))).
      { apply in_or_app. right. apply in_map_iff. exists f. auto. }
      destruct (so_whole_file opts) eqn:Ew.
      * left. exists (mk_finfo (fi_path f) (fi_mtime f) (fi_size f) (fi_index f) nullptr). split; [|repeat split]. rewrite Em. apply in_or_app. right. apply in_map_iff. eexists. split; [|exact Id]. reflexivity.
      * right. left. eexists. split; [rewrite Ec; exact Id|repeat split].
    + right. right. left. split; [reflexivity|]. split.
      * assert (N2 : NoDup ((if so_existing opts then [] else map fi_path (missing_files d0)) ++ map ci_path (changed_files d0) ++ map fi_path (matching_files d0))).
        { destruct O as (O1 & _). pose proof (Permutation_NoDup P O1) as N1. destruct (so_existing opts); [|exact N1]. revert N1. generalize (map fi_path (missing_files d0)). induction l as [|z l IH]; cbn; [auto|]. intros H. inversion H; subst. auto. }
        pose proof (Permutation_NoDup (Permutation_sym P2) N2) as N3.
        assert (Emt : matching_files d1 = matching_files d0) by (unfold d1; destruct (C13_flags (so_existing opts) false (so_whole_file opts) d0) as (_ & _ & -> & _); reflexivity).
        rewrite app_assoc in N3. rewrite Emt in N3. intros I. apply in_split in I. destruct I as (l1 & l2 & E). rewrite E in N3. rewrite <- app_assoc in N3. cbn in N3. apply NoDup_remove_2 in N3. apply N3.
        apply in_or_app. right. apply in_or_app. right. now apply in_map.
      * assert (Nb : fi_base x <> copy_ptr).
        { intros Eb. destruct (side_copy _ _ Sx Eb) as (_ & t & n & Et & _). apply Nx. unfold cdest. rewrite Et, Eb. reflexivity. }
        destruct (side_dest _ _ Sx Nb) as [(g & G & Em1 & Es1)|H]; [left|now right]. exists g. split; [exact G|]. split; congruence.
Qed.

(** F5: a file that is there is not sent as a whole. *)
Lemma present_not_missing f g : In f client_files -> get s (fi_path f) = Some (NFile g) -> vis (fi_path f) = true \/ double = true -> so_whole_file opts = false ->
  ~ In (fi_path f) (map fi_path (missing_files (mdiff s))).
Proof.
  intros If G V Nw I. rewrite mdiff_eq in I. destruct (C13_flags (so_existing opts) (so_checksum opts) (so_whole_file opts) d0) as (Em & _). rewrite Em, Nw, app_nil_r in I. clear Em.
  destruct lists_files as (ND & _). destruct (C12_files_classified stat0 dest_ptr cdest double sort_f sort_d Sf client_files (fst (lists s)) client_dirs (snd (lists s)) ND) as (reps & O & P & Cm & _). fold d0 in Cm.
  destruct (so_existing opts); [easy|]. apply in_map_iff in I. destruct I as (m & E & I). apply Cm in I. destruct I as (_ & N). apply N. rewrite E. exact (side_present _ _ G V).
Qed.

(** F6, F7: what is extraneous. *)
Lemma extraneous_file q : In q (map fi_path (extraneous_files (mdiff s))) <-> (exists g, get s q = Some (NFile g)) /\ vis q = true /\ ~ In q (map fi_path client_files).
Proof.
  rewrite mdiff_eq. destruct (C13_flags (so_existing opts) (so_checksum opts) (so_whole_file opts) d0) as (_ & _ & _ & _ & -> & _).
  destruct lists_files as (ND & L). destruct (C12_extraneous_files stat0 dest_ptr cdest double sort_f sort_d Sf client_files (fst (lists s)) client_dirs (snd (lists s)) ND) as (_ & H). fold d0 in H.
  rewrite in_map_iff. split.
  - intros (x & <- & I). apply H in I. destruct I as (I & Nc & Nb). apply L in I. destruct I as [(g & G & V & Ex)|(c & g & C & G & V & Ns & Ex)]; [eauto|]. elim Nb. unfold cdest. rewrite C, Ex. reflexivity.
  - intros ((g & G) & V & Nc). exists (mk_finfo q (f_mtime g) (N.of_nat (length (f_data g))) kInvalidIndex dest_ptr). split; [reflexivity|]. apply H. split; [apply L; left; cbn; exists g; auto|]. split; [exact Nc|].
    unfold cdest. destruct copy_fs; discriminate.
Qed.
Lemma extraneous_dir q : In q (map di_path (extraneous_dirs (mdiff s))) <-> get s q = Some NDir /\ vis q = true /\ ~ In q (map di_path client_dirs).
Proof.
  rewrite mdiff_eq. destruct (C13_flags (so_existing opts) (so_checksum opts) (so_whole_file opts) d0) as (_ & _ & _ & _ & _ & -> & _).
  destruct lists_dirs as (ND & L). destruct (C12_dirs_classified stat0 dest_ptr cdest double sort_f sort_d Sd client_files (fst (lists s)) client_dirs (snd (lists s)) ND) as (reps & _ & _ & _ & _ & _ & H). fold d0 in H.
  rewrite in_map_iff. split.
  - intros (x & <- & I). apply H in I. destruct I as (I & Nc & Nb). apply L in I. destruct I as [(G & V & Ex)|(c & C & G & V & Ns & Ex)]; [eauto|]. elim Nb. unfold cdest. rewrite C, Ex. reflexivity.
  - intros (G & V & Nc). exists (mk_dinfo q kInvalidIndex dest_ptr). split; [reflexivity|]. apply H. split; [apply L; left; cbn; repeat split; auto|]. split; [exact Nc|].
    unfold cdest. destruct copy_fs; discriminate.
Qed.
Lemma extraneous_dirs_once : NoDup (map di_path (extraneous_dirs (mdiff s))).
Proof.
  rewrite mdiff_eq. destruct (C13_flags (so_existing opts) (so_checksum opts) (so_whole_file opts) d0) as (_ & _ & _ & _ & _ & -> & _).
  destruct lists_dirs as (ND & L). destruct (C12_dirs_classified stat0 dest_ptr cdest double sort_f sort_d Sd client_files (fst (lists s)) client_dirs (snd (lists s)) ND) as (reps & _ & _ & _ & _ & H & _). exact H.
Qed.

(** F8: directories. *)
Lemma missing_dir_from x : In x (missing_dirs (mdiff s)) -> In (di_path x) (map di_path client_dirs) /\ so_existing opts = false /\ ~ (get s (di_path x) = Some NDir /\ vis (di_path x) = true).
Proof.
  rewrite mdiff_eq. destruct (C13_flags (so_existing opts) (so_checksum opts) (so_whole_file opts) d0) as (_ & _ & _ & -> & _).
  destruct lists_dirs as (ND & L). destruct (C12_dirs_classified stat0 dest_ptr cdest double sort_f sort_d Sd client_files (fst (lists s)) client_dirs (snd (lists s)) ND) as (reps & O & Hm & _). fold d0 in Hm.
  destruct (so_existing opts); [easy|]. intros I. apply Hm in I. destruct I as (I & N). destruct O as (_ & O2 & _). split; [apply in_map; auto|]. split; [reflexivity|].
  intros (G & V). apply N. exists (mk_dinfo (di_path x) kInvalidIndex dest_ptr). split; [apply L; left; cbn; repeat split; auto|]. split; [reflexivity|]. unfold cdest. destruct copy_fs; discriminate.
Qed.
Lemma missing_dirs_once : NoDup (map di_path (missing_dirs (mdiff s))).
Proof.
  rewrite mdiff_eq. destruct (C13_flags (so_existing opts) (so_checksum opts) (so_whole_file opts) d0) as (_ & _ & _ & -> & _).
  destruct lists_dirs as (ND & L). destruct (C12_dirs_classified stat0 dest_ptr cdest double sort_f sort_d Sd client_files (fst (lists s)) client_dirs (snd (lists s)) ND) as (reps & O & _ & _ & H & _). fold d0 in H.
  destruct (so_existing opts); [constructor|exact H].
Qed.
Lemma missing_dirs_sorted : StronglySorted (fun a b => slt (di_path a) (di_path b)) (missing_dirs (mdiff s)).
Proof.
  rewrite mdiff_eq. destruct (C13_flags (so_existing opts) (so_checksum opts) (so_whole_file opts) d0) as (_ & _ & _ & -> & _).
  destruct (so_existing opts); [constructor|]. destruct lists_dirs as (ND & L). now apply C12_missing_dirs_in_order.
Qed.
Lemma client_dir_cases x : In x client_dirs -> so_existing opts = false ->
  In (di_path x) (map di_path (missing_dirs (mdiff s))) \/ (get s (di_path x) = Some NDir /\ vis (di_path x) = true).
Proof.
  rewrite mdiff_eq. destruct (C13_flags (so_existing opts) (so_checksum opts) (so_whole_file opts) d0) as (_ & _ & _ & -> & _). intros I Ne. rewrite Ne.
  destruct lists_dirs as (ND & L). destruct (C12_dirs_classified stat0 dest_ptr cdest double sort_f sort_d Sd client_files (fst (lists s)) client_dirs (snd (lists s)) ND) as (reps & O & Hm & Hk & _). fold d0 in Hm, Hk.
  destruct O as (_ & _ & O3). destruct (O3 x I) as (y & Iy & Ey).
  assert (Dec : (exists z, In z (snd (lists s)) /\ di_path z = di_path y /\ cdest <> Some (di_base z)) \/ ~ (exists z, In z (snd (lists s)) /\ di_path z = di_path y /\ cdest <> Some (di_base z))).
  { clear -s. generalize (snd (lists s)). induction l as [|z l IH]; [right; intros (z & [] & _)|].
    destruct IH as [(u & Iu & H)|N]; [left; exists u; split; [now right|exact H]|].
    destruct (list_eq_dec N.eq_dec (di_path z) (di_path y)) as [E|E].
    - destruct cdest as [b|] eqn:C; [destruct (N.eq_dec b (di_base z)) as [Eb|Eb]|].
      + right. intros (u & [<-|Iu] & H & K); [apply K; now rewrite Eb|apply N; eauto].
      + left. exists z. split; [now left|]. split; [exact E|congruence].
      + left. exists z. split; [now left|]. split; [exact E|discriminate].
    - right. intros (u & [<-|Iu] & H & K); [auto|apply N; eauto]. }
  destruct Dec as [D|D].
  - right. destruct D as (z & Iz & Ez & Nz). apply L in Iz. rewrite <- Ey, <- Ez. destruct Iz as [(G & V & _)|(c & C & G & V & Ns & Ex)]; [auto|]. elim Nz. unfold cdest. rewrite C, Ex. reflexivity.
  - left. rewrite <- Ey. apply in_map. apply Hm. auto.
Qed.
End Diff.
