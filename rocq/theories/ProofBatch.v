(** Proofs for C14. *)
From Verif Require Import Base ListX Str ModelPath SpecPath ProofPath ModelFileDiff ModelBatch SpecBatch.
Local Open Scope N_scope.

(** ** Small facts *)
Lemma dir_prefix_needs d : dir_prefix d -> needs_sep d = false.
Proof.
  intros [->|(d' & c & -> & S)]; [reflexivity|]. unfold needs_sep. rewrite last_char_snoc.
  destruct (is_sep_spec c); [reflexivity|contradiction].
Qed.
Lemma dir_prefix_fix d : dir_prefix d -> dir_prefix (fix_seps d).
Proof.
  intros [->|(d' & c & -> & S)]; [now left|]. right. exists (fix_seps d'), slash.
  split; [|now left]. unfold fix_seps. rewrite map_app. cbn. destruct S as [->| ->]; reflexivity.
Qed.
Lemma join_prefix d n : dir_prefix d -> join d n = d ++ n.
Proof. intros D. destruct n; cbn [join]; [now rewrite app_nil_r|]. now rewrite (dir_prefix_needs _ D). Qed.
Lemma client_join_prefix sep d n : dir_prefix d -> client_join sep d n = d ++ n.
Proof. intros D. destruct n; cbn [client_join]; [now rewrite app_nil_r|]. now rewrite (dir_prefix_needs _ D). Qed.
Lemma dir_prefix_app a b : dir_prefix a -> dir_prefix b -> dir_prefix (a ++ b).
Proof.
  intros A [->|(d' & c & -> & S)]; [now rewrite app_nil_r|]. right. exists (a ++ d'), c. now rewrite app_assoc.
Qed.

(** ** What a message contains *)
Definition msg_files (q : addfiles) : list (bytes * Z * N) :=
  map (fun f => (fix_seps (aq_dir q) ++ fst (fst f), snd (fst f), snd f)) (aq_files q).
Definition msg_dirs (q : addfiles) : list bytes := map (fun d => fix_seps (aq_dir q) ++ d) (aq_dirs q).

Definition file_of (x : bytes * found) : bytes * Z * N := (fix_seps (rel_dir x) ++ fd_name (snd x), fd_mtime (snd x), fd_size (snd x)).
Definition dir_of (x : bytes * found) : bytes := fix_seps (rel_dir x) ++ fd_name (snd x).
Definition cfile_of (x : bytes * found) : cfile :=
  mk_cfile (fd_dir (snd x) ++ fd_name (snd x)) (fd_size (snd x)) (u32 (blen (fst x))).
Definition cdir_of (x : bytes * found) : cdir := mk_cdir (fd_dir (snd x) ++ fd_name (snd x)) (u32 (blen (fst x))).

Record Inv (included : bytes -> bool) (done : list (bytes * found)) (s : ffs) : Prop := mk_Inv {
  I_files : flat_map msg_files (ff_out s ++ [ff_req s]) = map file_of (kept_files included done);
  I_dirs : flat_map msg_dirs (ff_out s ++ [ff_req s]) = map dir_of (kept_dirs included done);
  I_cfiles : ff_files s = map cfile_of (kept_files included done);
  I_cdirs : ff_dirs s = map cdir_of (kept_dirs included done);
  I_ne : Forall (fun q => ~ empty_request q) (ff_out s);
  I_dp : Forall (fun q => dir_prefix (aq_dir q)) (ff_out s ++ [ff_req s]);
  I_size : ff_size s = request_size (ff_req s)
}.

Lemma send_Inv included done s : Inv included done s -> Inv included done (ffs_send s).
Proof.
  intros [A B C D E F G]. unfold ffs_send.
  destruct (aq_files (ff_req s)) as [|f fs] eqn:Ef; [destruct (aq_dirs (ff_req s)) as [|d ds] eqn:Ed|]; [constructor; assumption| |];
  (constructor; cbn [ff_out ff_req ff_files ff_dirs ff_size aq_dir];
    [ rewrite flat_map_app, A; unfold msg_files; cbn; now rewrite !app_nil_r
    | rewrite flat_map_app, B; unfold msg_dirs; cbn; now rewrite !app_nil_r
    | assumption | assumption
    | apply Forall_app; split; [assumption|constructor; [|constructor]]; intros (Q1 & Q2); congruence
    | apply Forall_app in F; destruct F as (F1 & F2); apply Forall_app; split; [apply Forall_app; split; assumption|];
      constructor; [cbn; now inversion F2|constructor]
    | unfold request_size; cbn; lia ]).
Qed.
Lemma send_empty s : empty_request (ff_req (ffs_send s)) /\ ff_base (ffs_send s) = ff_base s.
Proof.
  unfold ffs_send, empty_request.
  destruct (aq_files (ff_req s)) as [|f fs] eqn:Ef; [destruct (aq_dirs (ff_req s)) as [|d ds] eqn:Ed|]; cbn; auto.
Qed.

Lemma setdir_Inv included done s rd : Inv included done s -> empty_request (ff_req s) -> dir_prefix rd ->
  Inv included done (mk_ffs (ff_base s) (ff_files s) (ff_dirs s)
          (mk_addfiles rd (aq_files (ff_req s)) (aq_dirs (ff_req s))) (blen rd) (ff_out s)).
Proof.
  intros [A B C D E F G] (E1 & E2) R. constructor; cbn [ff_out ff_req ff_files ff_dirs ff_size].
  - rewrite flat_map_app in A |- *. rewrite <- A. unfold msg_files. cbn. now rewrite E1.
  - rewrite flat_map_app in B |- *. rewrite <- B. unfold msg_dirs. cbn. now rewrite E2.
  - assumption.
  - assumption.
  - assumption.
  - apply Forall_app in F. apply Forall_app. split; [apply F|]. constructor; [assumption|constructor].
  - unfold request_size. cbn. rewrite E1, E2. cbn. lia.
Qed.

Lemma kept_files_snoc inc l x : kept_files inc (l ++ [x]) =
  kept_files inc l ++ (if inc (rel_path x) && negb (fd_isdir (snd x)) then [x] else []).
Proof. unfold kept_files. rewrite filter_app. reflexivity. Qed.
Lemma kept_dirs_snoc inc l x : kept_dirs inc (l ++ [x]) =
  kept_dirs inc l ++ (if inc (rel_path x) && fd_isdir (snd x) then [x] else []).
Proof. unfold kept_dirs. rewrite filter_app. reflexivity. Qed.

Lemma sum_app l1 l2 : fold_right N.add 0 (l1 ++ l2) = fold_right N.add 0 l1 + fold_right N.add 0 l2.
Proof. induction l1; cbn; [reflexivity|]. rewrite IHl1. lia. Qed.

Lemma handle_found_Inv sep included threshold done s f :
  Inv included done s -> proper (ff_base s) f ->
  exists s', handle_found sep included threshold s f = Ok s' /\
    Inv included (done ++ [(ff_base s, f)]) s' /\ ff_base s' = ff_base s.
Proof.
  intros I (Pb & (rel & Ed & Pr) & Nn & Sn). unfold handle_found, substr.
  rewrite Ed, app_length. destruct (Nat.leb_spec (length (ff_base s)) (length (ff_base s) + length rel)); [|lia].
  cbn [bind]. rewrite skipn_app_exact. rewrite client_join_prefix by assumption.
  assert (Rd : rel_dir (ff_base s, f) = rel).
  { unfold rel_dir. cbn [fst snd]. rewrite Ed. apply skipn_app_exact. }
  assert (Rp : rel_path (ff_base s, f) = rel ++ fd_name f) by (unfold rel_path; now rewrite Rd).
  destruct (included (rel ++ fd_name f)) eqn:Inc; cbn [negb].
  2:{ exists s. split; [reflexivity|]. split; [|reflexivity]. destruct I as [A B C D E F G].
      constructor; rewrite ?kept_files_snoc, ?kept_dirs_snoc, ?Rp, ?Inc; cbn [andb]; rewrite ?app_nil_r; assumption. }
  set (s1 := if seqb (aq_dir (ff_req s)) rel then s else _).
  assert (H1 : Inv included done s1 /\ aq_dir (ff_req s1) = rel /\ ff_base s1 = ff_base s).
  { unfold s1. destruct (seqb_spec (aq_dir (ff_req s)) rel) as [Q|Q]; [auto|].
    split; [|split; [reflexivity|apply send_empty]]. apply setdir_Inv; [now apply send_Inv|apply send_empty|assumption]. }
  destruct H1 as (I1 & D1 & B1). clearbody s1. clear I.
  set (s2 := if fd_isdir f then _ else _).
  assert (H2 : Inv included (done ++ [(ff_base s, f)]) s2 /\ ff_base s2 = ff_base s).
  { destruct I1 as [A B C D E F G].
    rewrite flat_map_app in A, B. cbn [flat_map] in A, B. rewrite app_nil_r in A, B.
    unfold s2. destruct (fd_isdir f) eqn:Di; (split; [|assumption]);
    constructor; cbn [ff_out ff_req ff_files ff_dirs ff_size];
      rewrite ?kept_files_snoc, ?kept_dirs_snoc, ?Rp, ?Inc; cbn [snd]; rewrite ?Di; cbn [andb negb]; rewrite ?app_nil_r.
    - rewrite flat_map_app. cbn [flat_map]. rewrite app_nil_r. rewrite <- A. reflexivity.
    - rewrite map_app, flat_map_app. cbn [flat_map]. rewrite app_nil_r. rewrite <- B, <- app_assoc. f_equal.
      unfold msg_dirs. cbn [aq_dir aq_dirs]. rewrite map_app. f_equal. cbn [map]. unfold dir_of. rewrite Rd, D1. reflexivity.
    - assumption.
    - rewrite map_app, <- D. cbn. unfold cdir_of. cbn [fst snd]. rewrite B1, client_join_prefix; [now rewrite Ed|now apply dir_prefix_app].
    - assumption.
    - apply Forall_app in F. apply Forall_app. split; [apply F|]. constructor; [|constructor]. cbn. destruct F as (_ & F). now inversion F.
    - rewrite G. unfold request_size. cbn [aq_dir aq_files aq_dirs]. rewrite map_app, sum_app. cbn. lia.
    - rewrite map_app, flat_map_app. cbn [flat_map]. rewrite app_nil_r. rewrite <- A, <- app_assoc. f_equal.
      unfold msg_files. cbn [aq_dir aq_files]. rewrite map_app. f_equal. cbn [map]. unfold file_of. cbn [snd fst]. rewrite Rd, D1. reflexivity.
    - rewrite flat_map_app. cbn [flat_map]. rewrite app_nil_r. rewrite <- B. reflexivity.
    - rewrite map_app, <- C. cbn. unfold cfile_of. cbn [fst snd]. rewrite B1, client_join_prefix; [now rewrite Ed|now apply dir_prefix_app].
    - assumption.
    - assumption.
    - apply Forall_app in F. apply Forall_app. split; [apply F|]. constructor; [|constructor]. cbn. destruct F as (_ & F). now inversion F.
    - rewrite G. unfold request_size. cbn [aq_dir aq_files aq_dirs]. rewrite map_app, sum_app. cbn. lia. }
  destruct H2 as (I2 & B2). clearbody s2.
  eexists. split; [reflexivity|]. destruct (threshold <=? ff_size s2); [|auto].
  split; [now apply send_Inv|]. rewrite <- B2. apply send_empty.
Qed.

Lemma handle_all_Inv sep included threshold fs : forall done s,
  Inv included done s -> Forall (proper (ff_base s)) fs ->
  exists s', handle_all sep included threshold s fs = Ok s' /\
    Inv included (done ++ map (fun f => (ff_base s, f)) fs) s'.
Proof.
  induction fs as [|f fs IH]; intros done s I P.
  - exists s. cbn. rewrite app_nil_r. auto.
  - inversion P; subst. destruct (handle_found_Inv sep included threshold done s f I H1) as (s1 & E1 & I1 & B1).
    destruct (IH (done ++ [(ff_base s, f)]) s1 I1) as (s2 & E2 & I2). { now rewrite B1. }
    exists s2. cbn [handle_all]. rewrite E1. cbn [bind]. split; [exact E2|]. cbn [map]. rewrite B1 in I2.
    rewrite <- app_assoc in I2. exact I2.
Qed.

Lemma find_sources_Inv sep included threshold srcs : forall done s,
  Inv included done s -> Forall (fun src => Forall (proper (fst src)) (snd src)) srcs ->
  exists s', find_sources sep included threshold s srcs = Ok s' /\ Inv included (done ++ entries srcs) s'.
Proof.
  induction srcs as [|x srcs IH]; intros done s I P.
  - exists s. cbn. rewrite app_nil_r. auto.
  - inversion P; subst. cbn [find_sources]. unfold find_and_send.
    destruct (handle_all_Inv sep included threshold (snd x) done
      (mk_ffs (fst x) (ff_files s) (ff_dirs s) (ff_req s) (ff_size s) (ff_out s))) as (s1 & E1 & I1).
    { destruct I. constructor; assumption. }
    { exact H1. }
    rewrite E1. cbn [bind]. destruct (IH _ s1 I1 H2) as (s2 & E2 & I2).
    exists s2. split; [exact E2|]. cbn [ff_base] in I2. rewrite <- app_assoc in I2. exact I2.
Qed.

Lemma init_Inv included : Inv included [] ffs_init.
Proof.
  constructor; cbn; auto. constructor; [now left|constructor].
Qed.

(** ** The server's end *)
Definition f_key (f : finfo) : bytes * Z * N := (fi_path f, fi_mtime f, fi_size f).

Definition indexed_f (l : list finfo) : Prop :=
  forall i f, nth_error l i = Some f -> fi_index f = u32 (N.of_nat i) /\ fi_base f = nullptr.
Definition indexed_d (l : list dinfo) : Prop :=
  forall i f, nth_error l i = Some f -> di_index f = u32 (N.of_nat i) /\ di_base f = nullptr.

Lemma add_files_spec dir fs : dir_prefix dir -> forall acc, indexed_f acc ->
  map f_key (add_files dir fs acc) = map f_key acc ++ map (fun f => (dir ++ fst (fst f), snd (fst f), snd f)) fs /\
  indexed_f (add_files dir fs acc).
Proof.
  intros D. induction fs as [|((n & t) & z) fs IH]; intros acc H; cbn [add_files fold_left].
  - cbn. rewrite app_nil_r. auto.
  - destruct (IH (acc ++ [mk_finfo (join dir n) t z (u32 (N.of_nat (length acc))) nullptr])) as (A & B).
    { intros i f E. destruct (Nat.lt_ge_cases i (length acc)).
      - rewrite nth_error_app1 in E by assumption. now apply H.
      - rewrite nth_error_app2 in E by assumption. destruct (i - length acc)%nat as [|k] eqn:Ei; cbn in E.
        + inversion E; subst. cbn. replace i with (length acc) by lia. auto.
        + destruct k; discriminate. }
    unfold add_files in A, B. rewrite A. split; [|exact B].
    rewrite map_app, <- app_assoc. cbn. unfold f_key at 2. cbn. now rewrite join_prefix.
Qed.
Lemma add_dirs_spec dir fs : dir_prefix dir -> forall acc, indexed_d acc ->
  map di_path (add_dirs dir fs acc) = map di_path acc ++ map (fun f => dir ++ f) fs /\
  indexed_d (add_dirs dir fs acc).
Proof.
  intros D. induction fs as [|n fs IH]; intros acc H; cbn [add_dirs fold_left].
  - cbn. rewrite app_nil_r. auto.
  - destruct (IH (acc ++ [mk_dinfo (join dir n) (u32 (N.of_nat (length acc))) nullptr])) as (A & B).
    { intros i f E. destruct (Nat.lt_ge_cases i (length acc)).
      - rewrite nth_error_app1 in E by assumption. now apply H.
      - rewrite nth_error_app2 in E by assumption. destruct (i - length acc)%nat as [|k] eqn:Ei; cbn in E.
        + inversion E; subst. cbn. replace i with (length acc) by lia. auto.
        + destruct k; discriminate. }
    unfold add_dirs in A, B. rewrite A. split; [|exact B].
    rewrite map_app, <- app_assoc. cbn. now rewrite join_prefix.
Qed.

Lemma receive_spec eof later msgs : empty_request eof -> forall fs ds,
  Forall (fun q => ~ empty_request q) msgs -> Forall (fun q => dir_prefix (aq_dir q)) msgs ->
  indexed_f fs -> indexed_d ds ->
  exists fs' ds', handle_send_all_files (msgs ++ eof :: later) fs ds = Ok (fs', ds', later) /\
    map f_key fs' = map f_key fs ++ flat_map msg_files msgs /\
    map di_path ds' = map di_path ds ++ flat_map msg_dirs msgs /\
    indexed_f fs' /\ indexed_d ds'.
Proof.
  intros (E1 & E2). induction msgs as [|q msgs IH]; intros fs ds N D If Id.
  - exists fs, ds. cbn. rewrite E1, E2, !app_nil_r. auto.
  - inversion N; subst. inversion D; subst. cbn [app handle_send_all_files].
    destruct (add_files_spec (fix_seps (aq_dir q)) (aq_files q) (dir_prefix_fix _ H3) fs If) as (A1 & A2).
    destruct (add_dirs_spec (fix_seps (aq_dir q)) (aq_dirs q) (dir_prefix_fix _ H3) ds Id) as (B1 & B2).
    destruct (IH _ _ H2 H4 A2 B2) as (fs' & ds' & E & F1 & F2 & F3 & F4).
    exists fs', ds'. split.
    + destruct (aq_files q) eqn:Q1; [destruct (aq_dirs q) eqn:Q2|]; [exfalso; now apply H1|exact E|exact E].
    + rewrite F1, A1, F2, B1. cbn [flat_map]. rewrite <- !app_assoc. auto.
Qed.

(** ** Deletion list *)
From Verif Require Import PropPath.

Lemma basename_nonempty p : p <> [] -> no_trailing_sep p -> basename p <> [].
Proof.
  intros Np Tp. destruct (parts_exist p) as (d & s & b & t & P). destruct (parts_names p d s b t P) as (B & _).
  rewrite B. destruct P as (E & Nd & As & Nb & At & B0 & S0). intros ->. destruct (B0 eq_refl) as (-> & ->). cbn in E. subst t.
  destruct (snoc_case p) as [->|(p' & x & ->)]; [congruence|]. apply Forall_app in At. destruct At as (_ & At). inversion At; subst.
  exact (Tp _ _ eq_refl H1).
Qed.

Lemma del_path p : clean_path p -> del_dir p ++ basename p = p.
Proof.
  intros (N & D & T & F). pose proof (C19_names_rejoin p N D T F) as J. pose proof (basename_nonempty p N T) as B.
  unfold del_dir. transitivity (join (dirname p) (basename p)); [|exact J]. destruct (basename p) as [|y b] eqn:Eb; [congruence|]. cbn [join].
  destruct (dirname p) as [|x d] eqn:Ed; [reflexivity|]. f_equal. unfold ensure_ends_with_sep, ends_with_sep, needs_sep.
  destruct (last_char (x :: d)) as [c|] eqn:L; [destruct (is_sep c); reflexivity|].
  unfold last_char in L. destruct (rev (x :: d)) eqn:R; [|discriminate]. apply (f_equal (@rev _)) in R. rewrite rev_involutive in R. discriminate.
Qed.

Definition msg_del (r : addDeleted) : list (bytes * bool) :=
  map (fun f => (ad_dir r ++ f, false)) (ad_files r) ++ map (fun d => (ad_dir r ++ d, true)) (ad_dirs r).

Record DInv (done : list (bytes * bool)) (s : fds) : Prop := mk_DInv {
  D_all : flat_map msg_del (fs_out s ++ [fs_resp s]) = done;
  D_ne : Forall (fun q => ~ empty_response q) (fs_out s)
}.

Lemma fds_send_DInv done s : DInv done s -> DInv done (fds_send s) /\ empty_response (fs_resp (fds_send s)).
Proof.
  intros [A B]. unfold fds_send, empty_response.
  destruct (ad_files (fs_resp s)) eqn:E1; [destruct (ad_dirs (fs_resp s)) eqn:E2|].
  - split; [constructor; assumption|]. auto.
  - split; [|cbn; auto]. constructor; cbn [fs_out fs_resp].
    + rewrite flat_map_app, A. cbn. now rewrite app_nil_r.
    + apply Forall_app. split; [assumption|]. constructor; [|constructor]. intros (Q1 & Q2). congruence.
  - split; [|cbn; auto]. constructor; cbn [fs_out fs_resp].
    + rewrite flat_map_app, A. cbn. now rewrite app_nil_r.
    + apply Forall_app. split; [assumption|]. constructor; [|constructor]. intros (Q1 & Q2). congruence.
Qed.

Lemma report_DInv threshold done s p isdir : DInv done s ->
  (isdir = false -> Forall (fun d => snd d = false) done) -> clean_path p ->
  DInv (done ++ [(p, isdir)]) (report_deleted threshold s p isdir).
Proof.
  intros I F C. unfold report_deleted.
  set (s1 := if seqb _ _ then s else _).
  assert (H1 : DInv done s1 /\ ad_dir (fs_resp s1) = del_dir p).
  { unfold s1. destruct (seqb_spec (ad_dir (fs_resp s)) (del_dir p)) as [Q|Q]; [auto|]. split; [|reflexivity].
    destruct (fds_send_DInv _ _ I) as ([A B] & (E1 & E2)). constructor; cbn [fs_out fs_resp]; [|assumption].
    rewrite flat_map_app in A |- *. rewrite <- A. cbn. unfold msg_del. cbn. now rewrite E1, E2. }
  destruct H1 as (I1 & Q). clearbody s1. clear I. destruct I1 as [A B].
  rewrite flat_map_app in A. cbn [flat_map] in A. rewrite app_nil_r in A.
  set (s2 := mk_fds _ _ _).
  assert (H2 : DInv (done ++ [(p, isdir)]) s2).
  { constructor; [|exact B]. unfold s2. cbn [fs_out fs_resp]. rewrite flat_map_app. cbn [flat_map]. rewrite app_nil_r. rewrite <- A, <- app_assoc. f_equal.
    destruct isdir; unfold msg_del; cbn [ad_dir ad_files ad_dirs]; rewrite map_app; cbn [map]; rewrite Q, (del_path p C).
    - now rewrite <- app_assoc.
    - assert (N : ad_dirs (fs_resp s1) = []).
      { specialize (F eq_refl). rewrite <- A in F. apply Forall_app in F. destruct F as (_ & F). unfold msg_del in F.
        apply Forall_app in F. destruct F as (_ & F). destruct (ad_dirs (fs_resp s1)); [reflexivity|]. inversion F. discriminate. }
      rewrite N. cbn [map]. now rewrite !app_nil_r. }
  destruct (threshold <=? fs_size s2); [apply fds_send_DInv; assumption|assumption].
Qed.

Lemma report_all_DInv threshold ds : forall done s, DInv done s -> Forall (fun d => clean_path (fst d)) ds ->
  (forall l1 p l2, ds = l1 ++ (p, false) :: l2 -> Forall (fun d => snd d = false) (done ++ l1)) ->
  DInv (done ++ ds) (report_all threshold ds s).
Proof.
  induction ds as [|(p & i) ds IH]; intros done s I C O; cbn.
  - now rewrite app_nil_r.
  - inversion C; subst. unfold report_all in *. cbn. replace (done ++ (p, i) :: ds) with ((done ++ [(p, i)]) ++ ds) by (rewrite <- app_assoc; reflexivity).
    apply IH; [apply report_DInv; auto|assumption|].
    + intros ->. specialize (O [] p ds eq_refl). now rewrite app_nil_r in O.
    + intros l1 q l2 ->. rewrite <- app_assoc. cbn. apply (O ((p, i) :: l1) q l2). reflexivity.
Qed.

Lemma receive_deleted_spec eof later msgs : empty_response eof -> Forall (fun q => ~ empty_response q) msgs ->
  receive_deleted (msgs ++ eof :: later) = Ok (flat_map msg_del msgs, later).
Proof.
  intros (E1 & E2). induction msgs as [|q msgs IH]; intros N; cbn [app receive_deleted flat_map].
  - rewrite E1, E2. reflexivity.
  - inversion N; subst. rewrite (IH H2). cbn [bind fst snd]. unfold msg_del. rewrite <- app_assoc.
    destruct (ad_files q) eqn:Q1; [destruct (ad_dirs q) eqn:Q2|]; [exfalso; now apply H1|reflexivity|reflexivity].
Qed.

(** ** Indices *)
Lemma send_indices_spec b idx : (1 <= b)%nat -> forall cur, (length cur < b)%nat ->
  exists ms, send_indices b cur idx = ms ++ [[]] /\ concat ms = cur ++ idx /\
    Forall (fun m => m <> [] /\ (length m <= b)%nat) ms.
Proof.
  intros B. induction idx as [|i idx IH]; intros cur L; cbn [send_indices].
  - destruct cur as [|c cur].
    + exists []. cbn. auto.
    + exists [c :: cur]. split; [reflexivity|]. split; [reflexivity|]. constructor; [|constructor]. split; [discriminate|lia].
  - assert (La : length (cur ++ [i]) = S (length cur)) by (rewrite app_length; cbn; lia).
    destruct (Nat.leb_spec b (length (cur ++ [i]))).
    + destruct (IH [] B) as (ms & E & C & F). exists ((cur ++ [i]) :: ms). rewrite E. split; [reflexivity|].
      split; [cbn; rewrite C, <- app_assoc; reflexivity|]. constructor; [|assumption]. split; [destruct cur; discriminate|lia].
    + destruct (IH (cur ++ [i])) as (ms & E & C & F); [lia|]. exists ms. rewrite E, C, <- app_assoc. auto.
Qed.

Lemma receive_indices_spec n later ms : Forall (fun m => m <> []) ms -> forall acc,
  receive_indices n (ms ++ [] :: later) acc =
  if existsb (fun i => N.of_nat n <=? i) (acc ++ concat ms) then Fail else Ok (acc ++ concat ms, later).
Proof.
  induction ms as [|m ms IH]; intros F acc; cbn [app receive_indices concat].
  - now rewrite app_nil_r.
  - inversion F; subst. destruct m as [|x m]; [congruence|]. rewrite IH by assumption. now rewrite <- app_assoc.
Qed.

(** ** Batch sizes *)
Record BInv (t M : N) (s : ffs) : Prop := mk_BInv {
  B_size : ff_size s = request_size (ff_req s);
  B_cur : ff_size s < t \/ empty_request (ff_req s);
  B_dir : blen (aq_dir (ff_req s)) <= M;
  B_out : Forall (fun q => request_size q <= t + M) (ff_out s) }.

Lemma request_size_empty q : empty_request q -> request_size q = blen (aq_dir q).
Proof. intros (A & B). unfold request_size. rewrite A, B. cbn. lia. Qed.

Lemma ffs_send_cases s : (ffs_send s = s /\ empty_request (ff_req s)) \/
  (ffs_send s = mk_ffs (ff_base s) (ff_files s) (ff_dirs s)
              (mk_addfiles (aq_dir (ff_req s)) [] []) (blen (aq_dir (ff_req s))) (ff_out s ++ [ff_req s])).
Proof.
  unfold ffs_send, empty_request.
  destruct (aq_files (ff_req s)) as [|f fs] eqn:Ef; [destruct (aq_dirs (ff_req s)) as [|d ds] eqn:Ed|]; auto.
Qed.

Lemma send_BInv t M s : ff_size s = request_size (ff_req s) -> ff_size s <= t + M -> blen (aq_dir (ff_req s)) <= M ->
  Forall (fun q => request_size q <= t + M) (ff_out s) -> BInv t M (ffs_send s).
Proof.
  intros A B C D. destruct (ffs_send_cases s) as [(-> & E)| ->]; constructor; cbn [ff_size ff_req ff_out aq_dir]; auto.
  - now rewrite request_size_empty by (split; reflexivity).
  - right. split; reflexivity.
  - apply Forall_app. split; [assumption|]. constructor; [congruence|constructor].
Qed.

Lemma handle_found_BInv sep included t M s f s' : BInv t M s ->
  (included (rel_path (ff_base s, f)) = true -> blen (rel_dir (ff_base s, f)) + blen (fd_name f) + 16 <= M) ->
  proper (ff_base s) f ->
  handle_found sep included t s f = Ok s' -> BInv t M s'.
Proof.
  intros I Hm (Pb & (rel & Ed & Pr) & Nn & Sn). unfold handle_found, substr.
  assert (Rd : rel_dir (ff_base s, f) = rel).
  { unfold rel_dir. cbn [fst snd]. rewrite Ed. apply skipn_app_exact. }
  unfold rel_path in Hm. rewrite Rd in Hm. cbn [snd] in Hm.
  rewrite Ed, app_length. destruct (Nat.leb_spec (length (ff_base s)) (length (ff_base s) + length rel)); [|lia].
  cbn [bind]. rewrite skipn_app_exact. rewrite client_join_prefix by assumption.
  destruct (included (rel ++ fd_name f)); cbn [negb]; intros E; [|inversion E; now subst].
  specialize (Hm eq_refl).
  set (s1 := if seqb (aq_dir (ff_req s)) rel then s else _) in E.
  assert (H1 : BInv t M s1 /\ aq_dir (ff_req s1) = rel).
  { unfold s1. destruct (seqb_spec (aq_dir (ff_req s)) rel) as [Q|Q]; [auto|]. split; [|reflexivity].
    assert (I0 : BInv t M (ffs_send s)).
    { destruct I as [A B C D]. apply send_BInv; auto. destruct B as [B|B]; [lia|]. rewrite A, request_size_empty; [lia|assumption]. }
    destruct I0 as [A B C D]. pose proof (send_empty s) as (Em & _). constructor; cbn [ff_size ff_req ff_out aq_dir]; auto.
    - rewrite request_size_empty; [reflexivity|exact Em].
    - lia. }
  destruct H1 as ([A B C D] & Q). clearbody s1.
  assert (S1 : ff_size s1 + (blen (fd_name f) + 8 + 8) <= t + M).
  { destruct B as [B|B]; [lia|]. rewrite A, request_size_empty by assumption. rewrite Q. lia. }
  set (s2 := if fd_isdir f then _ else _) in E.
  assert (H2 : ff_size s2 = request_size (ff_req s2) /\ ff_size s2 <= t + M /\ aq_dir (ff_req s2) = rel /\ ff_out s2 = ff_out s1).
  { unfold s2. destruct (fd_isdir f); cbn [ff_size ff_req ff_out aq_dir]; (split; [|split; [|split; auto]]).
    - rewrite A. unfold request_size. cbn [aq_dir aq_files aq_dirs]. rewrite map_app, sum_app. cbn. lia.
    - lia.
    - rewrite A. unfold request_size. cbn [aq_dir aq_files aq_dirs]. rewrite map_app, sum_app. cbn. lia.
    - lia. }
  destruct H2 as (A2 & B2 & C2 & D2). clearbody s2. inversion E; subst s'. clear E.
  destruct (N.leb_spec t (ff_size s2)).
  - apply send_BInv; auto; [rewrite C2; lia|now rewrite D2].
  - constructor; auto; [rewrite C2; lia|now rewrite D2].
Qed.

Lemma handle_all_BInv sep included t M fs : forall s s', BInv t M s ->
  (forall f, In f fs -> included (rel_path (ff_base s, f)) = true -> blen (rel_dir (ff_base s, f)) + blen (fd_name f) + 16 <= M) ->
  Forall (proper (ff_base s)) fs ->
  handle_all sep included t s fs = Ok s' -> BInv t M s'.
Proof.
  induction fs as [|f fs IH]; intros s s' I Hm P E; cbn in E; [inversion E; now subst|].
  destruct (handle_found sep included t s f) as [s1| | |] eqn:E1; try discriminate. cbn [bind] in E. inversion P; subst.
  assert (B1 : ff_base s1 = ff_base s).
  { clear -E1. unfold handle_found in E1. destruct (substr _ _) as [rd| | |]; try discriminate. cbn [bind] in E1.
    destruct (negb _); [inversion E1; now subst|]. inversion E1; subst; clear E1.
    assert (B : forall s, ff_base (ffs_send s) = ff_base s) by (intros; apply send_empty).
    match goal with |- ff_base (if _ then ffs_send ?x else _) = _ => set (s2 := x) end.
    assert (ff_base s2 = ff_base s). { unfold s2. destruct (fd_isdir f); cbn [ff_base]; destruct (seqb _ _); cbn [ff_base]; rewrite ?B; reflexivity. }
    destruct (t <=? ff_size s2); rewrite ?B; assumption. }
  eapply IH; [eapply handle_found_BInv; eauto; apply Hm; now left| | |exact E].
  - rewrite B1. intros g G. apply Hm. now right.
  - now rewrite B1.
Qed.

Lemma find_sources_BInv sep included t M srcs : forall s s', BInv t M s ->
  (forall x, In x (entries srcs) -> included (rel_path x) = true -> blen (rel_dir x) + blen (fd_name (snd x)) + 16 <= M) ->
  Forall (fun src => Forall (proper (fst src)) (snd src)) srcs ->
  find_sources sep included t s srcs = Ok s' -> BInv t M s'.
Proof.
  induction srcs as [|x srcs IH]; intros s s' I Hm P E; cbn in E; [inversion E; now subst|].
  unfold find_and_send in E. destruct (handle_all _ _ _ _ _) as [s1| | |] eqn:E1; try discriminate. cbn [bind] in E. inversion P; subst.
  eapply IH; [|intros y Y; apply Hm; unfold entries; cbn; apply in_or_app; now right|assumption|exact E].
  eapply handle_all_BInv; [| | |exact E1].
  - destruct I. constructor; assumption.
  - cbn [ff_base]. intros f F. apply (Hm (fst x, f)). unfold entries. cbn. apply in_or_app. left. apply in_map_iff. eauto.
  - exact H1.
Qed.
