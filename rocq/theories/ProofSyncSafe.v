(** Proofs for C15, C16, C17: reasoning about one task while others run. *)
From Verif Require Import Base ListX Str ModelFastcdc SpecFastcdc ModelCdc SpecCdc ModelFileDiff ModelSync SpecSync ProofSync.
Local Open Scope N_scope.

Section Safe.
Variable mode0 : N.
Variable copy : fs.
(** What the other tasks may do between two steps of this one. *)
Variable R : fs -> fs -> Prop.
Hypothesis Rrefl : forall s, R s s.
Hypothesis Rtrans : forall a b c, R a b -> R b c -> R a c.
(** What holds all the time; what holds in the end; whether the task may fail. *)
Variable I Q : fs -> Prop.
Variable E : Prop.
Hypothesis RI : forall s s', I s -> R s s' -> I s'.
Hypothesis RQ : forall s s', Q s -> R s s' -> Q s'.

Fixpoint safe (p : prog) (s : fs) : Prop :=
  I s /\
  match p with
  | QDo o k => forall now s1, R s s1 -> match exec_op now mode0 o s1 with Ok s2 => safe k s2 | _ => E end
  | QRead c p k => forall s1, R s s1 -> match get (tree copy c s1) p with Some (NFile f) => safe (k (f_data f)) s1 | _ => E end
  | QStat c p k => forall s1, R s s1 -> match get (tree copy c s1) p with Some (NFile f) => safe (k (f_mode f)) s1 | Some NDir => safe (k 0) s1 | None => E end
  | QExists p yes no => forall s1, R s s1 -> match get s1 p with Some _ => safe yes s1 | None => safe no s1 end
  | QIsDir p yes no => forall s1, R s s1 -> if is_dir s1 p then safe yes s1 else safe no s1
  | QEnd => Q s
  | QErr => E
  end.

Lemma safe_I p s : safe p s -> I s.
Proof. destruct p; now intros (A & _). Qed.
Lemma safe_R p s s' : safe p s -> R s s' -> safe p s'.
Proof. intros H r. pose proof (RI _ _ (safe_I _ _ H) r) as HI. destruct p; destruct H as (_ & H); (split; [exact HI|]); [intros now s1 r1; apply H; eapply Rtrans; eassumption|intros s1 r1; apply H; eapply Rtrans; eassumption..|exact (RQ _ _ H r)|exact H]. Qed.
Lemma safe_step now p s p' s' : safe p s -> step_prog now mode0 copy p s = Some (p', s') -> safe p' s'.
Proof.
  intros H. pose proof (safe_I _ _ H) as HI. destruct p as [o k|c p k|c p k|p a b|p a b| |]; destruct H as (_ & H); cbn [step_prog]; try discriminate.
  - specialize (H now s (Rrefl s)). destruct (exec_op now mode0 o s); intros X; inversion X; subst; auto; split; auto.
  - specialize (H s (Rrefl s)). destruct (get (tree copy c s) p) as [[|f]|]; intros X; inversion X; subst; auto; split; auto.
  - specialize (H s (Rrefl s)). destruct (get (tree copy c s) p) as [[|f]|]; intros X; inversion X; subst; auto; split; auto.
  - specialize (H s (Rrefl s)). intros X; inversion X; subst. now destruct (get s' p).
  - specialize (H s (Rrefl s)). intros X; inversion X; subst. now destruct (is_dir s' p).
Qed.
End Safe.

(** The others leave the paths in [F] alone. *)
Definition agree (F : bytes -> Prop) (s s' : fs) : Prop := forall q, F q -> get s' q = get s q.
Lemma agree_refl F s : agree F s s.
Proof. now intros q _. Qed.
Lemma agree_trans F a b c : agree F a b -> agree F b c -> agree F a c.
Proof. intros H1 H2 q Fq. rewrite (H2 q Fq). auto. Qed.

Section Tasks.
Variable mode0 : N.
Variable copy : fs.
Variable F : bytes -> Prop.
Variable I Q : fs -> Prop.

(** One operation on a path of [F]. *)
Lemma safe_append p f b k s : F p -> get s p = Some (NFile f) -> I s ->
  (forall now s', get s' p = Some (NFile (mk_file (f_data f ++ b) now (f_mode f))) -> (forall q, F q -> q <> p -> get s' q = get s q) -> safe mode0 copy (agree F) I Q True k s') ->
  safe mode0 copy (agree F) I Q True (QDo (OAppend p b) k) s.
Proof.
  intros Fp G HI H. split; [exact HI|]. intros now s1 A. cbn [exec_op]. rewrite (A p Fp), G. apply H with (now := now); [apply get_put_same|].
  intros q Fq Nq. rewrite get_put_other by congruence. now apply A.
Qed.

(** Writing the blocks of a file. *)
Lemma safe_appends p k P : F p -> (forall s s', P s -> (forall q, F q -> q <> p -> get s' q = get s q) -> P s') -> (forall s, P s -> I s) ->
  forall bs f s, get s p = Some (NFile f) -> P s ->
  (forall s' f', get s' p = Some (NFile f') -> f_data f' = f_data f ++ concat bs -> P s' -> safe mode0 copy (agree F) I Q True k s') ->
  safe mode0 copy (agree F) I Q True (do_all (map (OAppend p) bs) k) s.
Proof.
  intros Fp HP PI. induction bs as [|b bs IH]; intros f s G Ps H; cbn [map do_all].
  - apply (H s f G); [now rewrite app_nil_r|exact Ps].
  - apply safe_append with (f := f); auto. intros now s' G' A. eapply IH; [exact G'|exact (HP s s' Ps A)|].
    intros s2 f2 G2 D2. apply (H s2 f2 G2). cbn in D2. now rewrite D2, <- app_assoc.
Qed.

Lemma safe_mkdirs (ds : list bytes) k : (forall d, In d ds -> ~ F d) ->
  forall s, I s -> (forall s', agree F s s' -> I s') ->
  (forall s', agree F s s' -> safe mode0 copy (agree F) I Q True k s') -> safe mode0 copy (agree F) I Q True (do_all (map OMkdir ds) k) s.
Proof.
  induction ds as [|d ds IH]; intros Nd s Is RI H; cbn [map do_all]; [apply H, agree_refl|].
  split; [exact Is|]. intros now s1 A. destruct (exec_op now mode0 (OMkdir d) s1) as [s2| | |] eqn:X; try exact Logic.I.
  assert (A2 : agree F s s2).
  { intros q Fq. destruct (exec_frame mode0 now _ _ _ q X) as [G|(G & _)]; [exact (fun K => K)|rewrite G; now apply A|]. cbn in G. subst. elim (Nd d (or_introl eq_refl) Fq). }
  apply IH; [intros d' I'; apply Nd; now right|now apply RI| |].
  - intros s' A'. apply RI. eapply agree_trans; eassumption.
  - intros s' A'. apply H. eapply agree_trans; eassumption.
Qed.
End Tasks.

(** The file has this time, these contents and can be executed if it looks like it. *)
Definition holds_x (s : fs) (p : bytes) (data : bytes) (mtime : Z) : Prop :=
  exists f, get s p = Some (NFile f) /\ f_data f = data /\ f_mtime f = mtime /\ (looks_executable data -> N.land (f_mode f) 73 = 73).

Section Files.
Variable mode0 : N.
Variable copy : fs.
Variable content : N -> bytes.
Variable blocks : bytes -> list bytes.
Hypothesis Hblocks : forall c, concat (blocks c) = c.

Lemma lor_land m : N.land (N.lor m 73) 73 = 73.
Proof. apply N.bits_inj. intros i. rewrite N.land_spec, N.lor_spec. destruct (N.testbit m i), (N.testbit 73 i); reflexivity. Qed.

Lemma is_executable_spec b : looks_executable b -> is_executable b = true.
Proof.
  intros (L & H). unfold is_executable. destruct (Nat.ltb_spec (length b) 4); [lia|].
  assert (P : forall p r : bytes, starts_with p (p ++ r) = true).
  { intros p r. unfold starts_with. rewrite firstn_app_exact. destruct (list_eq_dec N.eq_dec p p); congruence. }
  destruct H as [(r & ->)|[(r & ->)|(r & ->)]]; rewrite P, ?orb_true_r; reflexivity.
Qed.
Lemma is_executable_first b r : (4 <= length b)%nat -> is_executable (b ++ r) = is_executable b.
Proof.
  intros L. unfold is_executable. rewrite app_length. destruct (Nat.ltb_spec (length b + length r) 4), (Nat.ltb_spec (length b) 4); try lia.
  assert (P : forall p : bytes, (length p <= 4)%nat -> starts_with p (b ++ r) = starts_with p b).
  { intros p Lp. unfold starts_with. rewrite firstn_app. replace (length p - length b)%nat with 0%nat by lia. cbn [firstn]. now rewrite app_nil_r. }
  rewrite !P by (cbn; lia). reflexivity.
Qed.

(** A missing file. *)
Lemma missing_safe f s : (forall b bs, blocks (content (fi_index f)) = b :: bs -> (4 <= length b)%nat \/ bs = []) ->
  safe mode0 copy (agree (eq (fi_path f))) (fun _ => True) (fun s => holds_x s (fi_path f) (content (fi_index f)) (fi_mtime f)) True (missing_task content blocks f) s.
Proof.
  intros Hx. set (p := fi_path f). set (Fp := eq p). set (Q := fun s => holds_x s p (content (fi_index f)) (fi_mtime f)). unfold missing_task. fold p. cbv zeta.
  set (tail := QDo (OUtime p (fi_mtime f)) _).
  assert (T : forall s g, get s p = Some (NFile g) -> f_data g = content (fi_index f) -> safe mode0 copy (agree Fp) (fun _ => True) Q True tail s).
  { intros s0 g G D. split; [exact Logic.I|]. intros now s1 A. cbn [exec_op]. rewrite (A p eq_refl), G.
    set (s2 := put s1 p _). assert (G2 : get s2 p = Some (NFile (mk_file (f_data g) (fi_mtime f) (f_mode g)))) by apply get_put_same. clearbody s2.
    assert (Ex : looks_executable (content (fi_index f)) -> match blocks (content (fi_index f)) with b :: _ => is_executable b | [] => false end = true).
    { intros X. apply is_executable_spec in X. pose proof (Hblocks (content (fi_index f))) as B. destruct (blocks (content (fi_index f))) as [|b bs] eqn:Eb.
      - cbn in B. rewrite <- B in X. discriminate.
      - destruct (Hx b bs eq_refl) as [L| ->]; [cbn in B; rewrite <- B in X; rewrite is_executable_first in X by exact L; exact X|]. cbn in B. rewrite app_nil_r in B. now rewrite B. }
    destruct (match blocks (content (fi_index f)) with b :: _ => is_executable b | [] => false end).
    - split; [exact Logic.I|]. intros s3 A3. cbn [tree]. rewrite (A3 p eq_refl), G2. cbn [f_mode]. split; [exact Logic.I|]. intros now' s4 A4. cbn [exec_op]. rewrite (A4 p eq_refl), (A3 p eq_refl), G2.
      split; [exact Logic.I|]. unfold Q, holds_x. rewrite get_put_same. eexists. split; [reflexivity|]. cbn. split; [exact D|]. split; [reflexivity|]. intros _. apply lor_land.
    - split; [exact Logic.I|]. unfold Q, holds_x. rewrite G2. eexists. split; [reflexivity|]. cbn. split; [exact D|]. split; [reflexivity|]. intros X. apply Ex in X. discriminate. }
  assert (K : forall s, safe mode0 copy (agree Fp) (fun _ => True) Q True (do_all (map OMkdir (ancestors p)) (QDo (OOpen p) (do_all (map (OAppend p) (blocks (content (fi_index f)))) tail))) s).
  { intros s0. apply safe_mkdirs; [|exact Logic.I|auto|].
    - intros d Id Fd. unfold Fp in Fd. subst d. apply ancestors_spec in Id. exact (below_irrefl _ Id).
    - intros s1 _. split; [exact Logic.I|]. intros now s2 _. cbn [exec_op]. destruct (resolves s2 p); [|exact Logic.I].
      destruct (get s2 p) as [[|g]|]; [exact Logic.I| |]; (eapply (safe_appends mode0 copy Fp (fun _ => True) Q p tail (fun _ => True)); [reflexivity|auto|auto|apply get_put_same|exact Logic.I|]);
      intros s' f' G' D' _; (apply (T s' f' G')); cbn in D'; now rewrite D', Hblocks. }
  split; [exact Logic.I|]. intros s1 _. destruct (is_dir s1 p); [|apply K]. split; [exact Logic.I|]. intros now s2 _. destruct (exec_op now mode0 (ORemove p) s2) as [s3| | |]; try exact Logic.I. apply K.
Qed.

Section Changed.
Variable hash : bytes -> N.
Variable w : nat.
Variable gear : byte -> N.
Variable cfg : config.
Variable iobuf : nat.
Variable completed available : N -> nat -> bool.

(** The exchange for this basis works. *)
Definition delta_works (basis src : bytes) : Prop := forall i, exists reqs ex,
  exchange hash w gear cfg iobuf completed available i basis src = Ok reqs /\ patch basis reqs = Ok (src, ex) /\ (looks_executable src -> ex = true).

Notation changed := (changed_task content blocks hash w gear cfg iobuf completed available).

(** Old, complete new, or in between with the complete contents in the temporary file. *)
Definition old_or_new (old : file) (p data : bytes) (s : fs) : Prop :=
  get s p = Some (NFile old) \/ (get s p = None /\ holds s (p ++ temp_suffix) data) \/ holds s p data.

Lemma temp_neq p : p ++ temp_suffix <> p.
Proof. intros X. apply (f_equal (@length _)) in X. rewrite app_length in X. cbn in X. lia. Qed.

(** A changed file, patched in the destination. *)
Lemma changed_safe c old s : ci_base c <> copy_ptr -> get s (ci_path c) = Some (NFile old) -> delta_works (f_data old) (content (ci_index c)) ->
  let p := ci_path c in
  safe mode0 copy (agree (fun q => q = p \/ q = p ++ temp_suffix)) (old_or_new old p (content (ci_index c)))
    (fun s => holds_x s p (content (ci_index c)) (ci_mtime c) /\ get s (p ++ temp_suffix) = None) True (changed c) s.
Proof.
  intros Nc G Dw p. unfold changed_task. fold p. apply N.eqb_neq in Nc. rewrite Nc. cbv zeta. cbn [tree].
  set (t := p ++ temp_suffix). set (F := fun q => q = p \/ q = t). set (data := content (ci_index c)) in *. set (I := old_or_new old p data). set (Q := fun s => _ /\ _).
  assert (Nt : t <> p) by apply temp_neq. assert (Fp : F p) by (now left). assert (Ft : F t) by (now right).
  assert (I0 : forall s, get s p = Some (NFile old) -> I s) by (intros s0 H; now left).
  split; [now apply I0|]. intros s1 A1. cbn [tree]. rewrite (A1 p Fp). fold p in G. rewrite G. cbn iota beta.
  destruct (Dw (ci_index c)) as (reqs & ex & Ex & Px & Hx). rewrite Ex.
  assert (G1 : get s1 p = Some (NFile old)) by (now rewrite (A1 p Fp)).
  split; [now apply I0|]. intros now s2 A2. assert (G2 : get s2 p = Some (NFile old)) by (now rewrite (A2 p Fp)).
  assert (K : forall s f, get s p = Some (NFile old) -> get s t = Some (NFile f) -> f_data f = [] ->
     safe mode0 copy (agree F) I Q True (QRead false p (fun basis => match patch basis reqs with
          | Ok (data0, ex0) => do_all (map (OAppend t) (blocks data0)) (QStat false p (fun m => QDo (ORemove p) (QDo (ORename t p) (QDo (OChmod p (N.lor m (if ex0 then kExecutableBits else 0))) (QDo (OUtime p (ci_mtime c)) QEnd)))))
          | _ => QErr end)) s).
  { intros s3 g G3 T3 D3. split; [now apply I0|]. intros s4 A4. cbn [tree]. rewrite (A4 p Fp), G3, Px.
    eapply (safe_appends mode0 copy F I Q t _ (fun s => get s p = Some (NFile old))); [exact Ft| |exact I0|rewrite (A4 t Ft); exact T3|now rewrite (A4 p Fp)|].
    { intros x y Hp A. rewrite (A p Fp); [exact Hp|]. congruence. }
    intros s5 h T5 D5 G5. rewrite D3, Hblocks in D5. cbn in D5. clear s4 A4.
    split; [now apply I0|]. intros s6 A6. cbn [tree]. rewrite (A6 p Fp), G5. cbn iota beta.
    assert (G6 : get s6 p = Some (NFile old)) by (now rewrite (A6 p Fp)). assert (T6 : get s6 t = Some (NFile h)) by (now rewrite (A6 t Ft)).
    set (m := f_mode old). split; [now apply I0|]. intros now6 s7 A7. cbn [exec_op]. destruct (existsb (is_file s7) (ancestors p)); [exact Logic.I|]. rewrite (A7 p Fp), G6.
    set (s8 := del s7 p). assert (G8 : get s8 p = None) by apply get_del_same. assert (T8 : get s8 t = Some (NFile h)) by (unfold s8; rewrite get_del_other by congruence; now rewrite (A7 t Ft)). clearbody s8.
    split; [right; left; split; [exact G8|exists h; auto]|]. intros now8 s9 A9. cbn [exec_op]. rewrite (A9 t Ft), T8, (A9 p Fp), G8. destruct (resolves s9 p); [|exact Logic.I].
    set (s10 := put (del s9 t) p (NFile h)). assert (G10 : get s10 p = Some (NFile h)) by apply get_put_same.
    assert (T10 : get s10 t = None) by (unfold s10; rewrite get_put_other by congruence; apply get_del_same). clearbody s10.
    split; [right; right; exists h; auto|]. intros now10 s11 A11. cbn [exec_op]. rewrite (A11 p Fp), G10. set (s12 := put s11 p _).
    assert (G12 : get s12 p = Some (NFile (mk_file (f_data h) (f_mtime h) (N.lor m (if ex then kExecutableBits else 0))))) by apply get_put_same.
    assert (T12 : get s12 t = None) by (unfold s12; rewrite get_put_other by congruence; now rewrite (A11 t Ft)). clearbody s12.
    split; [right; right; eexists; split; [exact G12|exact D5]|]. intros now12 s13 A13. cbn [exec_op]. rewrite (A13 p Fp), G12. set (s14 := put s13 p _).
    assert (G14 : get s14 p = Some (NFile (mk_file (f_data h) (ci_mtime c) (N.lor m (if ex then kExecutableBits else 0))))) by apply get_put_same.
    assert (T14 : get s14 t = None) by (unfold s14; rewrite get_put_other by congruence; now rewrite (A13 t Ft)). clearbody s14.
    split; [right; right; eexists; split; [exact G14|exact D5]|]. split; [|exact T14].
    eexists. split; [exact G14|]. cbn. split; [exact D5|]. split; [reflexivity|]. intros X. rewrite (Hx X). apply lor_land. }
  cbn [exec_op]. destruct (resolves s2 t); [|exact Logic.I].
  destruct (get s2 t) as [[|g]|]; [exact Logic.I| |]; (eapply K; [rewrite get_put_other by congruence; exact G2|apply get_put_same|reflexivity]).
Qed.

(** A changed file whose basis lies in the copy-dest directory. *)
Lemma changed_copy_safe c old s : ci_base c = copy_ptr -> get copy (ci_path c) = Some (NFile old) -> delta_works (f_data old) (content (ci_index c)) ->
  let p := ci_path c in
  safe mode0 copy (agree (eq p)) (fun _ => True) (fun s => holds_x s p (content (ci_index c)) (ci_mtime c)) True (changed c) s.
Proof.
  intros Ec G Dw p. unfold changed_task. fold p. apply N.eqb_eq in Ec. rewrite Ec. cbv zeta.
  set (data := content (ci_index c)) in *. set (Q := fun s => holds_x s p data (ci_mtime c)). fold p in G.
  split; [exact I|]. intros s1 _. cbn [tree]. rewrite G. cbn iota beta. destruct (Dw (ci_index c)) as (reqs & ex & Ex & Px & Hx). rewrite Ex.
  split; [exact I|]. intros now s2 _. cbn [exec_op]. destruct (resolves s2 p); [|exact I].
  assert (K : forall s f, get s p = Some (NFile f) -> f_data f = [] ->
     safe mode0 copy (agree (eq p)) (fun _ => True) Q True (QRead true p (fun basis => match patch basis reqs with
          | Ok (data0, ex0) => do_all (map (OAppend p) (blocks data0)) (QStat true p (fun m => QDo (OChmod p (N.lor (N.lor m (if ex0 then kExecutableBits else 0)) MODE_IWUSR)) (QDo (OUtime p (ci_mtime c)) QEnd)))
          | _ => QErr end)) s).
  { intros s3 g G3 D3. split; [exact I|]. intros s4 A4. cbn [tree]. rewrite G. cbn iota beta. rewrite Px.
    eapply (safe_appends mode0 copy (eq p) (fun _ => True) Q p _ (fun _ => True)); [reflexivity|auto|auto|rewrite (A4 p eq_refl); exact G3|exact I|].
    intros s5 h G5 D5 _. rewrite D3, Hblocks in D5. cbn in D5.
    split; [exact I|]. intros s6 A6. cbn [tree]. rewrite G. cbn iota beta. assert (G6 : get s6 p = Some (NFile h)) by (now rewrite (A6 p eq_refl)).
    split; [exact I|]. intros now6 s7 A7. cbn [exec_op]. rewrite (A7 p eq_refl), G6. set (s8 := put s7 p _).
    split; [exact I|]. intros now8 s9 A9. cbn [exec_op]. rewrite (A9 p eq_refl). unfold s8 at 1. rewrite get_put_same.
    split; [exact I|]. eexists. split; [apply get_put_same|]. cbn. split; [exact D5|]. split; [reflexivity|]. intros X. rewrite (Hx X).
    apply N.bits_inj. intros i. unfold kExecutableBits. rewrite N.land_spec, !N.lor_spec. destruct (N.testbit 73 i); rewrite ?orb_true_r, ?andb_true_r, ?andb_false_r, ?orb_true_l; reflexivity. }
  destruct (get s2 p) as [[|g]|]; [exact I| |]; (eapply K; [apply get_put_same|reflexivity]).
Qed.

(** A changed file that is no file in the destination: the task fails. *)
Lemma changed_nofile_safe c s : ci_base c <> copy_ptr -> (forall old, get s (ci_path c) <> Some (NFile old)) ->
  safe mode0 copy (agree (eq (ci_path c))) (fun _ => True) (fun _ => False) True (changed c) s.
Proof.
  intros Nc G. unfold changed_task. apply N.eqb_neq in Nc. rewrite Nc. cbv zeta. split; [exact I|]. intros s1 A. cbn [tree]. rewrite (A _ eq_refl).
  destruct (get s (ci_path c)) as [[|f]|]; auto. now elim (G f).
Qed.
Lemma changed_copy_nofile_safe c s : ci_base c = copy_ptr -> (forall old, get copy (ci_path c) <> Some (NFile old)) ->
  safe mode0 copy (agree (eq (ci_path c))) (fun _ => True) (fun _ => False) True (changed c) s.
Proof.
  intros Ec G. unfold changed_task. apply N.eqb_eq in Ec. rewrite Ec. cbv zeta. split; [exact I|]. intros s1 A. cbn [tree].
  destruct (get copy (ci_path c)) as [[|f]|]; auto. now elim (G f).
Qed.
Lemma changed_within c : within (fun q => q = ci_path c \/ (ci_base c <> copy_ptr /\ q = ci_path c ++ temp_suffix)) (fun _ => False) (changed c).
Proof.
  unfold changed_task. cbv zeta. intros basis. destruct (exchange _ _ _ _ _ _ _ _ basis _) as [reqs| | |]; try exact I.
  set (W := fun q => _ \/ _). set (t := if ci_base c =? copy_ptr then ci_path c else ci_path c ++ temp_suffix).
  assert (Wp : W (ci_path c)) by (now left).
  assert (Wt : W t). { unfold t. destruct (N.eqb_spec (ci_base c) copy_ptr); [exact Wp|right; auto]. }
  cbn [within]. split; [intros q Eq; cbn in Eq; now subst|]. split; [intros q []|]. intros b2. destruct (patch b2 reqs) as [(data, ex)| | |]; try exact I.
  apply within_do_all.
  - intros o Io. apply in_map_iff in Io. destruct Io as (b & <- & _). split; [intros q Eq; cbn in Eq; now subst|intros q []].
  - intros m. unfold t. clear t Wt. destruct (N.eqb_spec (ci_base c) copy_ptr) as [Ec|Nc]; cbn [within].
    + split; [intros q Eq; cbn in Eq; now subst|]. split; [intros q []|]. split; [intros q Eq; cbn in Eq; now subst|]. split; [intros q []|exact I].
    + assert (Wt : W (ci_path c ++ temp_suffix)) by (right; auto). split; [intros q Eq; cbn in Eq; now subst|]. split; [intros q []|]. split; [intros q Eq; cbn in Eq; destruct Eq as [->| ->]; assumption|]. split; [intros q []|]. split; [intros q Eq; cbn in Eq; now subst|]. split; [intros q []|]. split; [intros q Eq; cbn in Eq; now subst|]. split; [intros q []|exact I].
Qed.
End Changed.
Lemma missing_within f : within (eq (fi_path f)) (fun q => below q (fi_path f)) (missing_task content blocks f).
Proof.
  unfold missing_task. cbv zeta. set (p := fi_path f).
  match goal with |- within _ _ (QIsDir _ (QDo _ ?k) _) => set (K := k) end.
  assert (Wk : within (eq p) (fun q => below q p) K).
  { unfold K. apply within_do_all.
    - intros o Io. apply in_map_iff in Io. destruct Io as (q & <- & Iq). split; [intros x []|]. intros x Ex. cbn in Ex. subst x. now apply ancestors_spec.
    - cbn [within]. split; [intros q Eq; cbn in Eq; now subst|]. split; [intros q []|]. apply within_do_all.
      + intros o Io. apply in_map_iff in Io. destruct Io as (b & <- & _). split; [intros q Eq; cbn in Eq; now subst|intros q []].
      + cbn [within]. split; [intros q Eq; cbn in Eq; now subst|]. split; [intros q []|]. destruct (match blocks (content (fi_index f)) with [] => _ | _ => _ end); [|exact I].
        cbn [within]. intros m. split; [intros q Eq; cbn in Eq; now subst|]. split; [intros q []|exact I]. }
  cbn [within]. split; [|exact Wk]. split; [intros q Eq; cbn in Eq; now subst|]. split; [intros q []|exact Wk].
Qed.
End Files.
