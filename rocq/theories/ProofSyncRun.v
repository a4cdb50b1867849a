(** Proofs for C15, C16, C17: the phases of a sync. *)
From Verif Require Import Base ListX Str ModelFastcdc SpecFastcdc ModelCdc SpecCdc PropCdc ModelFileDiff SpecFileDiff ProofFileDiff PropFileDiff ModelSync SpecSync ProofSync ProofSyncSafe ProofSyncDiff.
Local Open Scope N_scope.

Section Phase.
Variable mode0 : N.
Variable copy : fs.

Lemma phase_safe (W D F : bytes -> Prop) (I Q : fs -> Prop) (E : Prop) :
  (forall q, F q -> ~ W q /\ ~ D q) -> (forall s s', I s -> agree F s s' -> I s') -> (forall s s', Q s -> agree F s s' -> Q s') ->
  forall l1 p l2 s ps s', phase_runs mode0 copy (l1 ++ p :: l2, s) (ps, s') -> Forall (within W D) (l1 ++ l2) -> safe mode0 copy (agree F) I Q E p s ->
  I s' /\ (all_ended ps -> Q s').
Proof.
  intros Dis RI RQ l1 p l2 s ps s' R Fw S.
  destruct (phase_task mode0 copy W D F (safe mode0 copy (agree F) I Q E)) with (x := (l1 ++ p :: l2, s)) (z := (ps, s')) (l1 := l1) (p := p) (l2 := l2) as (m1 & p' & m2 & E1 & S'); auto.
  - intros x a b Sx A. eapply safe_R; try eassumption. intros u v z. apply agree_trans.
  - intros now x a x' a' Sx H. eapply safe_step; try eassumption. intros u. apply agree_refl.
  - cbn [fst snd] in *. split; [now apply safe_I in S'|]. intros En. rewrite E1 in En. unfold all_ended in En. rewrite Forall_app in En. destruct En as (_ & En). inversion En; subst. now destruct S'.
Qed.

Lemma single_safe (I Q : fs -> Prop) (E : Prop) p s ps s' : phase_runs mode0 copy ([p], s) (ps, s') ->
  (forall s s', I s -> agree (fun _ => True) s s' -> I s') -> (forall s s', Q s -> agree (fun _ => True) s s' -> Q s') ->
  safe mode0 copy (agree (fun _ => True)) I Q E p s -> I s' /\ (all_ended ps -> Q s').
Proof. intros R RI RQ S. eapply (phase_safe (fun _ => False) (fun _ => False) (fun _ => True) I Q E) with (l1 := []) (l2 := []); eauto. cbn. constructor. Qed.

(** Removing a list of paths. *)
Lemma removes_safe s0 L0 : forall L s, (forall q, In q L -> In q L0) ->
  (forall q, get s q = get s0 q \/ (In q L0 /\ get s q = None)) -> (forall q, In q L0 -> In q L \/ get s q = None) ->
  safe mode0 copy (agree (fun _ => True)) (fun s => forall q, get s q = get s0 q \/ (In q L0 /\ get s q = None)) (fun s => forall q, In q L0 -> get s q = None) True (do_all (map ORemove L) QEnd) s.
Proof.
  induction L as [|p L IH]; intros s Hl Hi Hd; cbn [map do_all].
  - split; [exact Hi|]. intros q Iq. destruct (Hd q Iq) as [[]|H]; exact H.
  - split; [exact Hi|]. intros now s1 A. destruct (exec_op now mode0 (ORemove p) s1) as [s2| | |] eqn:X; try exact Logic.I.
    assert (G : get s2 p = None).
    { cbn in X. destruct (existsb _ _); [discriminate|]. destruct (get s1 p) as [[|f]|] eqn:Gp; [destruct (has_children s1 p); [discriminate|]| |]; inversion X; subst; try apply get_del_same. exact Gp. }
    assert (O : forall q, q <> p -> get s2 q = get s q).
    { intros q Nq. destruct (exec_frame mode0 now _ _ _ q X) as [H|([] & _)]; [exact Nq|]. rewrite H. now apply A. }
    apply IH.
    + intros q Iq. apply Hl. now right.
    + intros q. destruct (list_eq_dec N.eq_dec q p) as [->|Nq]; [right; split; [apply Hl; now left|exact G]|]. rewrite (O q Nq). apply Hi.
    + intros q Iq. destruct (list_eq_dec N.eq_dec q p) as [->|Nq]; [now right|]. rewrite (O q Nq). destruct (Hd q Iq) as [[->|H]|H]; [now elim Nq|now left|now right].
Qed.

(** Making the missing directories. *)
Lemma mkdirs_all_safe (P : fs -> Prop) (Done : list bytes) k : forall os,
  (forall s, (forall q, In q Done -> get s q = Some NDir) -> safe mode0 copy (agree (fun _ => True)) (fun _ => True) P True k s) ->
  forall D0 s, (forall q, In q Done -> In q D0 \/ In q os) -> (forall q, In q D0 -> get s q = Some NDir) ->
  safe mode0 copy (agree (fun _ => True)) (fun _ => True) P True (do_all (map OMkdir os) k) s.
Proof.
  induction os as [|o os IH]; intros K D0 s Hd H0; cbn [map do_all].
  - apply K. intros q Iq. destruct (Hd q Iq) as [I|[]]. auto.
  - split; [exact Logic.I|]. intros now s1 A. destruct (exec_op now mode0 (OMkdir o) s1) as [s2| | |] eqn:X; try exact Logic.I.
    assert (G : get s2 o = Some NDir).
    { cbn in X. destruct (get s1 o) as [[|f]|] eqn:Go; [inversion X; subst; exact Go|discriminate|]. destruct (resolves s1 o); inversion X; subst. apply get_put_same. }
    apply (IH K (o :: D0)).
    + intros q Iq. destruct (Hd q Iq) as [I|[->|I]]; [left; now right|left; now left|now right].
    + intros q [<-|I]; [exact G|]. destruct (exec_frame mode0 now _ _ _ q X) as [H|(_ & H & _)]; [exact (fun z => z)| |].
      * rewrite H, (A q Logic.I). auto.
      * rewrite (A q Logic.I), (H0 q I) in H. discriminate.
Qed.
Lemma mkdirs_task_safe ds0 : forall ds done s, NoDup (map di_path (done ++ ds)) -> ds0 = done ++ ds -> (forall d, In d done -> get s (di_path d) = Some NDir) ->
  safe mode0 copy (agree (fun _ => True)) (fun _ => True) (fun s => forall d, In d ds0 -> get s (di_path d) = Some NDir) True (mkdirs_task ds) s.
Proof.
  induction ds as [|d ds IH]; intros done s ND E Hd.
  - rewrite app_nil_r in E. subst. split; [exact I|]. exact Hd.
  - cbn [mkdirs_task]. cbv zeta.
    assert (K : forall s, (forall q, In q (map di_path done) -> get s q = Some NDir) ->
      safe mode0 copy (agree (fun _ => True)) (fun _ => True) (fun s => forall d, In d ds0 -> get s (di_path d) = Some NDir) True (do_all (mkdirs (di_path d)) (mkdirs_task ds)) s).
    { intros s1 H1. unfold mkdirs. apply mkdirs_all_safe with (Done := di_path d :: map di_path done) (D0 := map di_path done); [|intros q [<-|Iq]; [right; apply in_or_app; right; now left|now left]|exact H1].
      intros s2 H2. apply (IH (done ++ [d])); [now rewrite <- app_assoc|now rewrite <- app_assoc|]. intros e Ie. apply H2. apply in_app_or in Ie. destruct Ie as [Ie|[->|[]]]; [right; now apply in_map|now left]. }
    assert (Nd : ~ In (di_path d) (map di_path done)).
    { rewrite (map_app di_path) in ND. cbn in ND. apply NoDup_remove_2 in ND. intros X. apply ND. apply in_or_app. now left. }
    split; [exact I|]. intros s1 A. assert (H1 : forall q, In q (map di_path done) -> get s1 q = Some NDir).
    { intros q Iq. rewrite (A q I). apply in_map_iff in Iq. destruct Iq as (e & <- & Ie). auto. }
    destruct (get s1 (di_path d)); [|now apply K]. split; [exact I|]. intros now s2 A2. destruct (exec_op now mode0 (ORemove (di_path d)) s2) as [s3| | |] eqn:X; try exact I.
    apply K. intros q Iq. destruct (exec_frame mode0 now _ _ _ q X) as [H|([] & _)]; [intros ->; auto|]. rewrite H, (A2 q I). auto.
Qed.
Lemma mkdirs_task_within ds : within (fun q => In q (map di_path ds)) (fun q => exists d, In d ds /\ (q = di_path d \/ below q (di_path d))) (mkdirs_task ds).
Proof.
  induction ds as [|d ds IH]; [exact I|]. cbn [mkdirs_task]. cbv zeta.
  assert (K : within (fun q => In q (map di_path (d :: ds))) (fun q => exists x, In x (d :: ds) /\ (q = di_path x \/ below q (di_path x))) (do_all (mkdirs (di_path d)) (mkdirs_task ds))).
  { apply within_do_all.
    - intros o Io. unfold mkdirs in Io. apply in_map_iff in Io. destruct Io as (q & <- & Iq). split; [intros x []|]. intros x Ex. cbn in Ex. subst x. exists d. split; [now left|].
      apply in_app_or in Iq. destruct Iq as [Iq|[<-|[]]]; [right; now apply ancestors_spec|now left].
    - eapply within_weaken; [| |exact IH]; [intros q Iq; now right|]. intros q (x & Ix & H). exists x. split; [now right|exact H]. }
  split; [|exact K]. split; [|split; [intros q []|exact K]]. intros q Eq. cbn in Eq. subst q. now left.
Qed.
End Phase.

(** ** The sequence of phases *)
Section Trace.
Variable mode0 : N.
Variable cfs : option fs.
Fixpoint trace (l : list (list prog)) (s s' : fs) : Prop :=
  match l with
  | [] => s' = s
  | ps :: rest => exists ps1 s1, phase_runs mode0 (the_copy cfs) (ps, s) (ps1, s1) /\ (s' = s1 \/ (all_ended ps1 /\ trace rest s1 s'))
  end.
Fixpoint ended (l : list (list prog)) (s s' : fs) : Prop :=
  match l with
  | [] => s' = s
  | ps :: rest => exists ps1 s1, phase_runs mode0 (the_copy cfs) (ps, s) (ps1, s1) /\ all_ended ps1 /\ ended rest s1 s'
  end.
Lemma runs_nil s z : sync_runs mode0 cfs ([], s) z -> z = ([], s).
Proof. intros R. remember ([], s) as x eqn:Ex. destruct R as [x|x y z S R]; [reflexivity|]. subst. inversion S. Qed.
Lemma runs_trace l : forall s rest s', sync_runs mode0 cfs (l, s) (rest, s') -> trace l s s'.
Proof.
  induction l as [|ps l IH]; intros s rest s' R; [apply runs_nil in R; cbn; congruence|].
  destruct (runs_phase mode0 cfs _ _ R ps l eq_refl) as (ps1 & s1 & P & H). cbn [fst snd] in *. exists ps1, s1. split; [exact P|]. destruct H as [H|(H & R')]; [left; congruence|right]. split; [exact H|]. eapply IH; exact R'.
Qed.
Lemma runs_ended l : forall s s', sync_runs mode0 cfs (l, s) ([], s') -> ended l s s'.
Proof.
  induction l as [|ps l IH]; intros s s' R; [apply runs_nil in R; cbn; congruence|].
  destruct (runs_phase mode0 cfs _ _ R ps l eq_refl) as (ps1 & s1 & P & H). cbn [fst snd] in *. exists ps1, s1. split; [exact P|]. destruct H as [H|(H & R')]; [discriminate|]. split; [exact H|]. eapply IH; exact R'.
Qed.
End Trace.
