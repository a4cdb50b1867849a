(** Proofs for C17: without conflicts no task of a sync can fail. *)
From Verif Require Import Base ListX Str ModelFastcdc SpecFastcdc ModelCdc SpecCdc PropCdc ModelFileDiff SpecFileDiff ProofFileDiff PropFileDiff ModelSync SpecSync ProofSync ProofSyncSafe ProofSyncDiff ProofSyncRun ProofSyncOk.
Local Open Scope N_scope.

(** What the other tasks of a phase may do: write the paths in [W], make the directories
    in [D]. *)
Definition rely (W D : bytes -> Prop) (s s' : fs) : Prop :=
  forall q, ~ W q -> get s' q = get s q \/ (D q /\ get s q = None /\ get s' q = Some NDir).
Lemma rely_refl W D s : rely W D s s.
Proof. intros q _. now left. Qed.
Lemma rely_trans W D a b c : rely W D a b -> rely W D b c -> rely W D a c.
Proof.
  intros A B q Nq. destruct (A q Nq) as [E|(Dq & E1 & E2)], (B q Nq) as [E'|(Dq' & E1' & E2')].
  - left. congruence.
  - right. repeat split; congruence.
  - right. repeat split; congruence.
  - congruence.
Qed.

Section Progress.
Variable mode0 : N.
Variable cfs : option fs.
Notation copy := (the_copy cfs).

(** A task that cannot fail. *)
Definition sure (R : fs -> fs -> Prop) (p : prog) (s : fs) : Prop := safe mode0 copy R (fun _ => True) (fun _ => True) False p s.
Lemma sure_R (R : fs -> fs -> Prop) p s s' : (forall a b c, R a b -> R b c -> R a c) -> sure R p s -> R s s' -> sure R p s'.
Proof. intros T H r. eapply safe_R; eauto. Qed.
Lemma sure_step (R : fs -> fs -> Prop) now p s p' s' : (forall a, R a a) -> sure R p s -> step_prog now mode0 copy p s = Some (p', s') -> sure R p' s'.
Proof. intros T H E. eapply safe_step; eauto. Qed.
Lemma sure_more (R : fs -> fs -> Prop) p s : (forall a, R a a) -> sure R p s -> p = QEnd \/ exists now p' s', step_prog now mode0 copy p s = Some (p', s').
Proof.
  intros T H. destruct p as [o k|c p k|c p k|p a b|p a b| |]; cbn [step_prog].
  - right. destruct (exec_op 0 mode0 o s) eqn:E; exists 0%Z; rewrite E; eauto.
  - right. exists 0%Z. destruct (get (tree copy c s) p) as [[|f]|]; eauto.
  - right. exists 0%Z. destruct (get (tree copy c s) p) as [[|f]|]; eauto.
  - right. exists 0%Z. eauto.
  - right. exists 0%Z. eauto.
  - now left.
  - destruct H as (_ & []).
Qed.

(** A phase whose tasks stay out of each other's way. *)
Section PhaseOk.
Variable A : Type.
Variable key : A -> bytes.
Variable W : A -> bytes -> Prop.
Variable D : bytes -> Prop.
Variable items : list A.
Hypothesis ND : NoDup (map key items).
Definition others (x : A) (q : bytes) : Prop := exists y, In y items /\ key y <> key x /\ W y q.
Definition task_ok (s : fs) (x : A) (p : prog) : Prop := within (W x) D p /\ sure (rely (others x) D) p s.

Lemma phase_ok_step now l1 p p' l2 s s' : Forall2 (task_ok s) items (l1 ++ p :: l2) -> step_prog now mode0 copy p s = Some (p', s') ->
  Forall2 (task_ok s') items (l1 ++ p' :: l2).
Proof.
  intros F E. apply Forall2_app_inv_r in F. destruct F as (i1 & i2 & F1 & F2 & Ei).
  inversion F2 as [|x p0 i3 l3 (Wp & Sp) F3]; subst. rewrite Ei in ND. rewrite (map_app key) in ND. cbn in ND. apply NoDup_remove_2 in ND.
  destruct (step_within mode0 copy now (W x) D p s p' s' Wp E) as (Wp' & Fr).
  assert (O : forall y, In y (i1 ++ i3) -> rely (others y) D s s').
  { intros y Iy q Nq. apply Fr. intros Wq. apply Nq. exists x. split; [rewrite Ei; apply in_or_app; right; now left|]. split; [|exact Wq].
    intros Ek. apply ND. rewrite Ek, <- (map_app key). now apply in_map. }
  assert (G : forall i l, (forall y, In y i -> In y (i1 ++ i3)) -> Forall2 (task_ok s) i l -> Forall2 (task_ok s') i l).
  { intros i l Hi Fi. induction Fi as [|y q i l (Wy & Sy) Fi IH]; constructor.
    - split; [exact Wy|]. eapply sure_R; [intros a b c; apply rely_trans|exact Sy|]. apply O. apply Hi. now left.
    - apply IH. intros z Iz. apply Hi. now right. }
  rewrite Ei. apply Forall2_app; [apply G; [intros y Iy; apply in_or_app; now left|exact F1]|]. constructor.
  - split; [exact Wp'|]. eapply sure_step; [intros a; apply rely_refl|exact Sp|exact E].
  - apply G; [intros y Iy; apply in_or_app; now right|exact F3].
Qed.
Lemma phase_ok_more i ps s : Forall2 (task_ok s) i ps -> all_ended ps \/ exists now l1 p p' l2 s', ps = l1 ++ p :: l2 /\ step_prog now mode0 copy p s = Some (p', s').
Proof.
  clear ND. intros F. unfold all_ended. induction F as [|x p is ps (Wp & Sp) F IH]; [left; constructor|].
  destruct (sure_more _ _ _ (fun a => rely_refl _ _ a) Sp) as [->|(now & p' & s' & E)].
  - destruct IH as [IH|(now & l1 & p & p' & l2 & s' & -> & E)]; [left; now constructor|right]. exists now, (QEnd :: l1), p, p', l2, s'. auto.
  - right. exists now, [], p, p', ps, s'. auto.
Qed.
End PhaseOk.

(** ** From phase to phase *)
Fixpoint good (l : list (list prog)) (s : fs) : Prop :=
  match l with
  | [] => True
  | ps :: rest => exists Inv : list prog -> fs -> Prop, Inv ps s /\
      (forall now l1 p p' l2 a a', Inv (l1 ++ p :: l2) a -> step_prog now mode0 copy p a = Some (p', a') -> Inv (l1 ++ p' :: l2) a') /\
      (forall ps a, Inv ps a -> all_ended ps \/ exists now l1 p p' l2 a', ps = l1 ++ p :: l2 /\ step_prog now mode0 copy p a = Some (p', a')) /\
      (forall ps a, Inv ps a -> all_ended ps -> good rest a)
  end.
Lemma good_step x y : sync_step mode0 cfs x y -> good (fst x) (snd x) -> good (fst y) (snd y).
Proof.
  intros [now l1 p p' l2 rest s s' E|ps rest s E]; cbn [fst snd good]; intros (Inv & I0 & St & Mo & En).
  - exists Inv. split; [eapply St; eassumption|auto].
  - eapply En; eassumption.
Qed.
Lemma good_runs x y : sync_runs mode0 cfs x y -> good (fst x) (snd x) -> good (fst y) (snd y).
Proof. induction 1 as [x|x y z S R IH]; auto. intros G. apply IH. eapply good_step; eassumption. Qed.
Lemma good_finish x : good (fst x) (snd x) -> exists s', sync_runs mode0 cfs x ([], s').
Proof.
  pose proof (sync_acc mode0 cfs x) as A. induction A as [(l, s) _ IH]. intros G. destruct l as [|ps rest]; [exists s; constructor|].
  assert (X : exists y, sync_step mode0 cfs (ps :: rest, s) y).
  { cbn in G. destruct G as (Inv & I0 & St & Mo & En). destruct (Mo ps s I0) as [E|(now & l1 & p & p' & l2 & a' & -> & E)]; [eexists; now apply sync_next|eexists; eapply sync_task; exact E]. }
  destruct X as (y & S). destruct (IH y S (good_step _ _ S G)) as (s' & R). exists s'. eapply runs_step; eassumption.
Qed.
Lemma phase_runs_snoc now x l1 p p' l2 s s' : phase_runs mode0 copy x (l1 ++ p :: l2, s) -> step_prog now mode0 copy p s = Some (p', s') -> phase_runs mode0 copy x (l1 ++ p' :: l2, s').
Proof.
  intros R E. remember (l1 ++ p :: l2, s) as z eqn:Ez. induction R as [x|now0 m1 q q' m2 a a' z E0 R IH]; [subst; eapply pr_step; [exact E|constructor]|]. eapply pr_step; [exact E0|auto].
Qed.
Lemma good_phase (A : Type) (key : A -> bytes) (W : A -> bytes -> Prop) (D : bytes -> Prop) items ps rest s :
  NoDup (map key items) -> Forall2 (task_ok A key W D items s) items ps ->
  (forall ps' s', phase_runs mode0 copy (ps, s) (ps', s') -> all_ended ps' -> good rest s') -> good (ps :: rest) s.
Proof.
  intros ND F En. exists (fun ps' s' => Forall2 (task_ok A key W D items s') items ps' /\ phase_runs mode0 copy (ps, s) (ps', s')).
  split; [split; [exact F|constructor]|]. split; [|split].
  - intros now l1 p p' l2 a a' (Fa & Ra) E. split; [eapply phase_ok_step; eassumption|eapply phase_runs_snoc; eassumption].
  - intros ps' a (Fa & _). eapply phase_ok_more; exact Fa.
  - intros ps' a (_ & Ra) E. eapply En; eassumption.
Qed.

(** ** Tasks that cannot fail *)
Lemma sure_weaken (R R' : fs -> fs -> Prop) : (forall a b, R' a b -> R a b) -> forall p s, sure R p s -> sure R' p s.
Proof.
  intros H. induction p as [o k IH|c p k IH|c p k IH|p a IHa b IHb|p a IHa b IHb| |]; intros s (_ & S); (split; [exact I|]); auto.
  - intros now s1 r. specialize (S now s1 (H _ _ r)). destruct (exec_op now mode0 o s1); try exact S. now apply IH.
  - intros s1 r. specialize (S s1 (H _ _ r)). destruct (get (tree copy c s1) p) as [[|f]|]; try exact S. now apply IH.
  - intros s1 r. specialize (S s1 (H _ _ r)). destruct (get (tree copy c s1) p) as [[|f]|]; try exact S; now apply IH.
  - intros s1 r. specialize (S s1 (H _ _ r)). destruct (get s1 p); [now apply IHa|now apply IHb].
  - intros s1 r. specialize (S s1 (H _ _ r)). destruct (is_dir s1 p); [now apply IHa|now apply IHb].
Qed.
Lemma sure_do (R : fs -> fs -> Prop) o k s : (forall now s1, R s s1 -> exists s2, exec_op now mode0 o s1 = Ok s2 /\ sure R k s2) -> sure R (QDo o k) s.
Proof. intros H. split; [exact I|]. intros now s1 r. destruct (H now s1 r) as (s2 & -> & S). exact S. Qed.
Lemma sure_appends (R : fs -> fs -> Prop) p k (P : fs -> Prop) : (forall s s', P s -> R s s' -> P s') ->
  (forall s, P s -> exists f, get s p = Some (NFile f)) -> (forall s f, P s -> P (put s p (NFile f))) -> (forall s, P s -> sure R k s) ->
  forall bs s, P s -> sure R (do_all (map (OAppend p) bs) k) s.
Proof.
  intros PR PF PP PK. induction bs as [|b bs IH]; intros s Ps; cbn [map do_all]; [auto|]. apply sure_do. intros now s1 r. pose proof (PR _ _ Ps r) as P1. destruct (PF s1 P1) as (f & G).
  cbn [exec_op]. rewrite G. eexists. split; [reflexivity|]. apply IH. now apply PP.
Qed.

Notation same_all := (agree (fun _ => True)).
Lemma no_file_above s p : (forall a g, below a p -> get s a <> Some (NFile g)) -> existsb (is_file s) (ancestors p) = false.
Proof.
  intros H. destruct (existsb (is_file s) (ancestors p)) eqn:E; [|reflexivity]. apply existsb_exists in E. destruct E as (a & Ia & Fa). apply ancestors_spec in Ia. unfold is_file in Fa. destruct (get s a) as [[|g]|] eqn:G; try discriminate. now elim (H a g Ia).
Qed.

(** Removing a list of paths, contents before directories. *)
Lemma removes_sure s0 : tree_at s0 -> forall L2 L1 s,
  (forall p, In p L2 -> get s0 p <> None) ->
  (forall m1 p m2, L2 = m1 ++ p :: m2 -> get s0 p = Some NDir -> forall r, get s0 r <> None -> below p r -> In r (L1 ++ m1)) ->
  (forall q, get s q = get s0 q \/ get s q = None) -> (forall q, In q L1 -> get s q = None) ->
  sure same_all (do_all (map ORemove L2) QEnd) s.
Proof.
  intros T. induction L2 as [|p L2 IH]; intros L1 s Hin Hord Hst Hrem; cbn [map do_all]; [split; exact I|].
  apply sure_do. intros now s1 r. assert (Hst1 : forall q, get s1 q = get s0 q \/ get s1 q = None) by (intros q; rewrite (r q I); apply Hst).
  assert (Hrem1 : forall q, In q L1 -> get s1 q = None) by (intros q Iq; rewrite (r q I); auto). clear s Hst Hrem r.
  cbn [exec_op]. rewrite no_file_above.
  2:{ intros a g B G. destruct (Hst1 a) as [E|E]; [|congruence]. rewrite (T a p (Hin p (or_introl eq_refl)) B) in E. congruence. }
  assert (K : forall s2, (forall q, q <> p -> get s2 q = get s1 q) -> get s2 p = None -> sure same_all (do_all (map ORemove L2) QEnd) s2).
  { intros s2 O G. apply (IH (L1 ++ [p])).
    - intros q Iq. apply Hin. now right.
    - intros m1 q m2 E Gq x Gx B. rewrite <- app_assoc. apply (Hord (p :: m1) q m2); auto. cbn. now rewrite E.
    - intros q. destruct (list_eq_dec N.eq_dec q p) as [->|Nq]; [now right|]. rewrite (O q Nq). apply Hst1.
    - intros q Iq. destruct (list_eq_dec N.eq_dec q p) as [->|Nq]; [exact G|]. rewrite (O q Nq). apply in_app_or in Iq. destruct Iq as [Iq|[->|[]]]; [auto|now elim Nq]. }
  assert (Kd : sure same_all (do_all (map ORemove L2) QEnd) (del s1 p)) by (apply K; [intros q Nq; apply get_del_other; congruence|apply get_del_same]).
  destruct (get s1 p) as [[|f]|] eqn:G; [|eauto|eauto].
  destruct (has_children s1 p) eqn:H; [|eauto]. apply has_children_spec in H. destruct H as (x & Gx & B).
  assert (Gp : get s0 p = Some NDir) by (destruct (Hst1 p) as [E|E]; congruence).
  assert (Gx0 : get s0 x <> None) by (destruct (Hst1 x) as [E|E]; congruence).
  pose proof (Hord [] p L2 eq_refl Gp x Gx0 B) as Ix. rewrite app_nil_r in Ix. now rewrite (Hrem1 x Ix) in Gx.
Qed.

(** Making directories one after the other, outermost first. *)
Lemma ancestors_prefix p l1 a l2 : ancestors p = l1 ++ a :: l2 -> forall b, below b a -> In b l1.
Proof.
  intros E b B. assert (Ia : In a (ancestors p)) by (rewrite E; apply in_or_app; right; now left). apply ancestors_spec in Ia.
  assert (Ib : In b (ancestors p)) by (apply ancestors_spec; eapply below_trans; eassumption).
  assert (S : forall q pre m1 x m2, above pre q = m1 ++ x :: m2 -> forall y, In y m2 -> (length x < length y)%nat).
  { clear. induction q as [|c q IH]; intros pre m1 x m2 E y Iy; cbn [above] in E; [destruct m1; discriminate|].
    destruct (c =? 47).
    - destruct m1 as [|z m1]; cbn in E; inversion E; subst; [|eauto]. apply above_in in Iy. destruct Iy as (u & r & -> & _). rewrite !app_length. cbn. lia.
    - eauto. }
  rewrite E in Ib. apply in_app_or in Ib. destruct Ib as [Ib|[Eb|Ib]]; [exact Ib|subst; now elim (below_irrefl b)|].
  pose proof (S p [] l1 a l2 E b Ib) as L. destruct B as (r & ->). rewrite app_length in L. cbn in L. lia.
Qed.
Lemma sure_mkdirs (R : fs -> fs -> Prop) k (Z : bytes -> Prop) (P : fs -> Prop) :
  (forall a b, R a b -> forall q, Z q -> get b q = get a q \/ (get a q = None /\ get b q = Some NDir)) ->
  (forall a b, P a -> R a b -> P b) -> (forall s q, P s -> Z q -> get s q = None -> P (put s q NDir)) ->
  forall ds done s, (forall q, In q (done ++ ds) -> Z q) ->
  (forall m1 a m2, ds = m1 ++ a :: m2 -> forall b, below b a -> In b (done ++ m1)) ->
  (forall q g, In q ds -> get s q <> Some (NFile g)) -> (forall q, In q done -> get s q = Some NDir) -> P s ->
  (forall s', P s' -> (forall q, In q (done ++ ds) -> get s' q = Some NDir) -> sure R k s') ->
  sure R (do_all (map OMkdir ds) k) s.
Proof.
  intros RZ PR PP. induction ds as [|o ds IH]; intros done s HZ Hord Hf Hd Ps K; cbn [map do_all].
  - apply K; [exact Ps|]. now rewrite app_nil_r.
  - apply sure_do. intros now s1 r.
    assert (Zo : Z o) by (apply HZ; apply in_or_app; right; now left).
    assert (F1 : forall q g, In q (o :: ds) -> get s1 q <> Some (NFile g)).
    { intros q g Iq. destruct (RZ s s1 r q) as [E|(_ & E)]; [apply HZ; apply in_or_app; now right|rewrite E; now apply Hf|congruence]. }
    assert (D1 : forall q, In q done -> get s1 q = Some NDir).
    { intros q Iq. destruct (RZ s s1 r q) as [E|(E & _)]; [apply HZ; apply in_or_app; now left|rewrite E; auto|rewrite (Hd q Iq) in E; discriminate]. }
    pose proof (PR _ _ Ps r) as P1.
    assert (Nx : forall s2, P s2 -> get s2 o = Some NDir -> (forall q, q <> o -> get s2 q = get s1 q) -> sure R (do_all (map OMkdir ds) k) s2).
    { intros s2 P2 G O. apply (IH (done ++ [o])); auto.
      - intros q Iq. apply HZ. now rewrite <- app_assoc in Iq.
      - intros m1 a m2 E b B. rewrite <- app_assoc. apply (Hord (o :: m1) a m2); [now rewrite E|exact B].
      - intros q g Iq. destruct (list_eq_dec N.eq_dec q o) as [->|Nq]; [congruence|]. rewrite (O q Nq). apply F1. now right.
      - intros q Iq. destruct (list_eq_dec N.eq_dec q o) as [->|Nq]; [exact G|]. rewrite (O q Nq). apply in_app_or in Iq. destruct Iq as [Iq|[->|[]]]; [auto|now elim Nq].
      - intros s' P' H'. apply K; [exact P'|]. intros q Iq. apply H'. now rewrite <- app_assoc. }
    cbn [exec_op]. destruct (get s1 o) as [[|g]|] eqn:G; [exists s1; split; [reflexivity|apply Nx; auto]|now elim (F1 o g (or_introl eq_refl))|].
    assert (Rs : resolves s1 o = true).
    { apply resolves_spec. intros a B. apply D1. pose proof (Hord [] o ds eq_refl a B) as H. now rewrite app_nil_r in H. }
    rewrite Rs. eexists. split; [reflexivity|]. apply Nx; [now apply PP|apply get_put_same|]. intros q Nq. apply get_put_other. congruence.
Qed.
Lemma mkdirs_order p m1 a m2 : ancestors p ++ [p] = m1 ++ a :: m2 -> forall b, below b a -> In b m1.
Proof.
  intros E b B. destruct (split_app _ _ _ _ _ E) as [Ia|([<-|[]] & k & ->)].
  - apply in_split in Ia as Ia'. assert (X : exists m3, ancestors p = m1 ++ a :: m3 \/ (m2 = [] /\ a = p)).
    { clear -E. revert m1 E. induction (ancestors p) as [|x l IH]; intros m1 E; cbn in E.
      - destruct m1 as [|y [|z m1]]; inversion E; subst. exists []. now right.
      - destruct m1 as [|y m1]; inversion E; subst; [exists l; now left|]. destruct (IH m1 H1) as (m3 & [->|H]); exists m3; [now left|now right]. }
    destruct X as (m3 & [E3|(_ & ->)]); [eapply ancestors_prefix; eassumption|]. apply ancestors_spec in Ia. now elim (below_irrefl p).
  - rewrite <- app_assoc in E. apply app_inv_head in E. destruct k as [|x k]; [|cbn in E; inversion E; destruct k; discriminate]. rewrite app_nil_r. now apply ancestors_spec.
Qed.

(** The missing directories. *)
Lemma mkdirs_task_sure : forall ds s, StronglySorted (fun a b => slt (di_path a) (di_path b)) ds -> tree_at s ->
  (forall x, In x ds -> get s (di_path x) = Some NDir -> forall r, below (di_path x) r -> get s r = None) ->
  (forall x q g, In x ds -> below q (di_path x) -> get s q = Some (NFile g) -> In q (map di_path ds)) ->
  sure same_all (mkdirs_task ds) s.
Proof.
  induction ds as [|d ds IH]; intros s Srt T C1 C2; [split; exact I|]. inversion Srt as [|d' ds' S1 Fl]; subst. rewrite Forall_forall in Fl.
  assert (Blt : forall a b : bytes, below a b -> slt a b) by (intros a b (r & ->); apply slt_extend).
  assert (Nf : forall q g, below q (di_path d) -> get s q <> Some (NFile g)).
  { intros q g B G. pose proof (C2 d q g (or_introl eq_refl) B G) as Iq. apply in_map_iff in Iq. destruct Iq as (x & Ex & [->|Ix]).
    - rewrite Ex in B. now elim (below_irrefl q).
    - pose proof (Fl x Ix) as L1. rewrite Ex in L1. apply Blt in B. exact (slt_irrefl _ (slt_trans _ _ _ B L1)). }
  cbn [mkdirs_task]. cbv zeta.
  assert (K : forall a, (forall q, q <> di_path d -> get a q = get s q) -> get a (di_path d) = None -> sure same_all (do_all (mkdirs (di_path d)) (mkdirs_task ds)) a).
  { intros a O Gd. unfold mkdirs.
    apply (sure_mkdirs same_all (mkdirs_task ds) (fun q => q = di_path d \/ below q (di_path d)) (fun s' => forall q, get s' q = get a q \/ ((q = di_path d \/ below q (di_path d)) /\ get s' q = Some NDir))) with (done := []).
    - intros u v r q _. left. now apply r.
    - intros u v Pu r q. rewrite (r q I). apply Pu.
    - intros u q Pu Zq Gq x. rewrite get_put. destruct (seqb_spec q x) as [<-|]; [right; auto|apply Pu].
    - cbn. intros q Iq. apply in_app_or in Iq. destruct Iq as [Iq|[<-|[]]]; [right; now apply ancestors_spec|now left].
    - cbn. apply mkdirs_order.
    - intros q g Iq. apply in_app_or in Iq. destruct Iq as [Iq|[<-|[]]]; [|congruence]. apply ancestors_spec in Iq. rewrite O; [now apply Nf|]. intros ->. now elim (below_irrefl (di_path d)).
    - easy.
    - intros q. now left.
    - intros s' P' H'. cbn in H'.
      assert (Gs : forall q, ~ (q = di_path d \/ below q (di_path d)) -> get s' q = get s q).
      { intros q Nq. destruct (P' q) as [E|(X & _)]; [|now elim Nq]. rewrite E. apply O. tauto. }
      assert (Gd' : forall q, q = di_path d \/ below q (di_path d) -> get s' q = Some NDir).
      { intros q Hq. apply H'. apply in_or_app. destruct Hq as [->|B]; [right; now left|left; now apply ancestors_spec]. }
      assert (Later : forall x, In x ds -> ~ (di_path x = di_path d \/ below (di_path x) (di_path d))).
      { intros x Ix H. pose proof (Fl x Ix) as L1. destruct H as [H|H]; [rewrite H in L1; exact (slt_irrefl _ L1)|]. apply Blt in H. exact (slt_irrefl _ (slt_trans _ _ _ H L1)). }
      apply IH; [exact S1| | |].
      + intros u q Gq B.
        assert (Dec : (u = di_path d \/ below u (di_path d)) \/ ~ (u = di_path d \/ below u (di_path d))).
        { destruct (list_eq_dec N.eq_dec u (di_path d)); [left; now left|]. destruct (in_dec (list_eq_dec N.eq_dec) u (ancestors (di_path d))) as [Iu|Nu]; [left; right; now apply ancestors_spec|right]. intros [X|X]; [congruence|]. apply Nu. now apply ancestors_spec. }
        destruct Dec as [Du|Nu]; [now apply Gd'|]. rewrite (Gs u Nu).
        destruct (P' q) as [E|([->|Bq] & _)].
        * destruct (list_eq_dec N.eq_dec q (di_path d)) as [->|Nq]; [elim Nu; now right|]. apply (T u q); [|exact B]. rewrite <- (O q Nq), <- E. exact Gq.
        * elim Nu. now right.
        * elim Nu. right. eapply below_trans; eassumption.
      + intros x Ix Gx r Br. rewrite (Gs _ (Later x Ix)) in Gx. pose proof (C1 x (or_intror Ix) Gx r Br) as Gr. rewrite Gs; [exact Gr|]. intros [->|Bd].
        * elim (Later x Ix). now right.
        * elim (Later x Ix). right. eapply below_trans; eassumption.
      + intros x q g Ix Bq Gq.
        assert (Nq : ~ (q = di_path d \/ below q (di_path d))) by (intros H; rewrite (Gd' q H) in Gq; discriminate).
        rewrite (Gs q Nq) in Gq. destruct (C2 x q g (or_intror Ix) Bq Gq) as [E|E]; [elim Nq; left; congruence|exact E]. }
  split; [exact I|]. intros s1 r. rewrite (r (di_path d) I). destruct (get s (di_path d)) as [n|] eqn:G.
  - apply sure_do. intros now s2 r2. assert (A2 : forall q, get s2 q = get s q) by (intros q; rewrite (r2 q I); apply (r q I)).
    cbn [exec_op]. rewrite no_file_above; [|intros u g B; rewrite A2; now apply Nf]. rewrite A2, G.
    assert (Kd : sure same_all (do_all (mkdirs (di_path d)) (mkdirs_task ds)) (del s2 (di_path d))).
    { apply K; [|apply get_del_same]. intros q Nq. rewrite get_del_other by congruence. apply A2. }
    destruct n as [|f]; [|eauto]. destruct (has_children s2 (di_path d)) eqn:H; [|eauto]. apply has_children_spec in H. destruct H as (x & Gx & B).
    rewrite A2 in Gx. now rewrite (C1 d (or_introl eq_refl) G x B) in Gx.
  - apply K; [intros q _; apply (r q I)|]. now rewrite (r _ I).
Qed.

(** A missing file. *)
Section Files.
Variable content : N -> bytes.
Variable blocks : bytes -> list bytes.
Lemma missing_sure O D f s : ~ O (fi_path f) -> ~ D (fi_path f) -> (forall q, below q (fi_path f) -> ~ O q) ->
  get s (fi_path f) <> Some NDir -> (forall q g, below q (fi_path f) -> get s q <> Some (NFile g)) ->
  sure (rely O D) (missing_task content blocks f) s.
Proof.
  intros Np Nd Na Gp Gf. set (p := fi_path f) in *. unfold missing_task. fold p. cbv zeta.
  assert (Rp : forall a b, rely O D a b -> get b p = get a p).
  { intros a b r. destruct (r p Np) as [E|(E & _)]; [exact E|now elim Nd]. }
  set (tail := QDo (OUtime p (fi_mtime f)) _).
  assert (T : forall s, (exists g, get s p = Some (NFile g)) -> sure (rely O D) tail s).
  { intros s0 (g & G). apply sure_do. intros now s1 r. cbn [exec_op]. rewrite (Rp _ _ r), G. eexists. split; [reflexivity|]. set (s2 := put s1 p _).
    assert (G2 : exists g, get s2 p = Some (NFile g)) by (eexists; apply get_put_same). clearbody s2. destruct G2 as (g2 & G2).
    destruct (match blocks (content (fi_index f)) with b :: _ => is_executable b | [] => false end); [|split; exact I].
    split; [exact I|]. intros s3 r3. cbn [tree]. rewrite (Rp _ _ r3), G2. apply sure_do. intros now4 s4 r4. cbn [exec_op]. rewrite (Rp _ _ r4), (Rp _ _ r3), G2. eexists. split; [reflexivity|split; exact I]. }
  assert (K : forall s, get s p <> Some NDir -> (forall q g, below q p -> get s q <> Some (NFile g)) ->
     sure (rely O D) (do_all (map OMkdir (ancestors p)) (QDo (OOpen p) (do_all (map (OAppend p) (blocks (content (fi_index f)))) tail))) s).
  { intros s0 G0 F0. apply (sure_mkdirs (rely O D) _ (fun q => below q p) (fun a => get a p <> Some NDir)) with (done := []).
    - intros a b r q B. destruct (r q (Na q B)) as [E|(_ & E)]; auto.
    - intros a b Ga r. now rewrite (Rp _ _ r).
    - intros a q Ga B Gq. rewrite get_put_other; [exact Ga|]. intros ->. now elim (below_irrefl p).
    - cbn. intros q Iq. now apply ancestors_spec.
    - cbn. intros m1 a m2 E b B. eapply ancestors_prefix; eassumption.
    - intros q g Iq. apply F0. now apply ancestors_spec.
    - easy.
    - exact G0.
    - intros s1 G1 H1. cbn in H1. apply sure_do. intros now s2 r2. cbn [exec_op].
      assert (Rs : resolves s2 p = true).
      { apply resolves_spec. intros a B. destruct (r2 a (Na a B)) as [E|(_ & _ & E)]; [rewrite E; apply H1; now apply ancestors_spec|exact E]. }
      rewrite Rs, (Rp _ _ r2).
      assert (A : forall s g, get s p = Some (NFile g) -> sure (rely O D) (do_all (map (OAppend p) (blocks (content (fi_index f)))) tail) s).
      { intros s3 g G3. apply (sure_appends (rely O D) p tail (fun a => exists g, get a p = Some (NFile g))); eauto.
        - intros a b (h & Ga) r. exists h. now rewrite (Rp _ _ r).
        - intros a h _. exists h. apply get_put_same. }
      destruct (get s1 p) as [[|g]|] eqn:G; [now elim G1| |]; (eexists; split; [reflexivity|]); eapply A; apply get_put_same. }
  split; [exact I|]. intros s1 r1. unfold is_dir. rewrite (Rp _ _ r1). destruct (get s p) as [[|g]|] eqn:G; [now elim Gp| |].
  - apply K; [rewrite (Rp _ _ r1), G; discriminate|]. intros q h B. destruct (r1 q (Na q B)) as [E|(_ & _ & E)]; [rewrite E; now apply Gf|congruence].
  - apply K; [rewrite (Rp _ _ r1), G; discriminate|]. intros q h B. destruct (r1 q (Na q B)) as [E|(_ & _ & E)]; [rewrite E; now apply Gf|congruence].
Qed.

Variable hash : bytes -> N.
Variable w : nat.
Variable gear : byte -> N.
Variable cfg : config.
Variable iobuf : nat.
Variable completed available : N -> nat -> bool.
Notation changed := (changed_task content blocks hash w gear cfg iobuf completed available).
Notation works := (delta_works hash w gear cfg iobuf completed available).

Lemma ancestors_temp p : forall a, below a (p ++ temp_suffix) <-> below a p.
Proof.
  intros a. split; [|intros (r & ->); exists (r ++ temp_suffix); now rewrite <- app_assoc].
  intros (r & E). revert a r E. induction p as [|c p IH]; intros a r E.
  - exfalso. cbn [app] in E. assert (X : In 47 temp_suffix) by (rewrite E; apply in_or_app; right; now left). cbn in X. repeat (destruct X as [X|X]; [discriminate X|]). exact X.
  - destruct a as [|x a]; cbn in E; inversion E; subst; [now exists p|]. destruct (IH a r H1) as (r' & ->). exists r'. reflexivity.
Qed.

Lemma changed_sure c old s : ci_base c <> copy_ptr -> get s (ci_path c) = Some (NFile old) -> works (f_data old) (content (ci_index c)) ->
  (forall a, below a (ci_path c) -> get s a = Some NDir) -> get s (ci_path c ++ temp_suffix) <> Some NDir ->
  sure (agree (fun q => q = ci_path c \/ q = ci_path c ++ temp_suffix \/ below q (ci_path c))) (changed c) s.
Proof.
  intros Nc G Dw Ga Gt. unfold changed_task. apply N.eqb_neq in Nc. rewrite Nc. cbv zeta. set (p := ci_path c) in *. set (t := p ++ temp_suffix) in *. set (data := content (ci_index c)) in *.
  set (F := fun q => q = p \/ q = t \/ below q p). assert (Fp : F p) by (now left). assert (Ft : F t) by (right; now left). assert (Fa : forall a, below a p -> F a) by (intros a B; right; now right).
  assert (Nt : t <> p) by (intros X; apply (f_equal (@length _)) in X; unfold t in X; rewrite app_length in X; cbn in X; lia). assert (Pa : forall a, below a p -> a <> p) by (intros a B ->; now elim (below_irrefl p)).
  assert (Ta : forall a, below a p -> a <> t). { intros a (r & E) ->. apply (f_equal (@length _)) in E. unfold t in E. rewrite !app_length in E. cbn in E. lia. }
  set (K := fun s : fs => forall a, below a p -> get s a = Some NDir).
  assert (KR : forall a b, K a -> agree F a b -> K b) by (intros a b Ka A q B; rewrite (A q (Fa q B)); auto).
  assert (Kp : forall a n, K a -> K (put a p n)) by (intros a n Ka q B; rewrite get_put_other; [auto|intros <-; now elim (Pa p B)]).
  assert (Kt : forall a n, K a -> K (put a t n)) by (intros a n Ka q B; rewrite get_put_other; [auto|intros <-; now elim (Ta t B)]).
  assert (Kdp : forall a, K a -> K (del a p)) by (intros a Ka q B; rewrite get_del_other; [auto|intros <-; now elim (Pa p B)]).
  assert (Kdt : forall a, K a -> K (del a t)) by (intros a Ka q B; rewrite get_del_other; [auto|intros <-; now elim (Ta t B)]).
  assert (Krp : forall a, K a -> resolves a p = true) by (intros a Ka; now apply resolves_spec).
  assert (Krt : forall a, K a -> resolves a t = true) by (intros a Ka; apply resolves_spec; intros q B; apply Ka; now apply ancestors_temp).
  split; [exact I|]. intros s1 r1. cbn [tree]. rewrite (r1 p Fp), G. cbn iota beta. destruct (Dw (ci_index c)) as (reqs & ex & Ex & Px & Hx). rewrite Ex.
  apply sure_do. intros now s2 r2. assert (A12 : agree F s s2) by (eapply agree_trans; eassumption). cbn [exec_op].
  assert (K2 : K s2) by (eapply KR; eassumption). rewrite (Krt _ K2). assert (G2 : get s2 p = Some (NFile old)) by (now rewrite (A12 p Fp)).
  assert (M : forall a h, K a -> get a p = Some (NFile old) -> get a t = Some (NFile h) ->
     sure (agree F) (QRead false p (fun basis => match patch basis reqs with
          | Ok (data0, ex0) => do_all (map (OAppend t) (blocks data0)) (QStat false p (fun m => QDo (ORemove p) (QDo (ORename t p) (QDo (OChmod p (N.lor m (if ex0 then kExecutableBits else 0))) (QDo (OUtime p (ci_mtime c)) QEnd)))))
          | _ => QErr end)) a).
  { intros a h Kka Gaa Tta. split; [exact I|]. intros b r. cbn [tree]. rewrite (r p Fp), Gaa, Px.
    apply (sure_appends (agree F) t _ (fun x => K x /\ get x p = Some (NFile old) /\ exists h, get x t = Some (NFile h))).
    - intros x y (Kx & Gx & h' & Tx) A. split; [eapply KR; eassumption|]. rewrite (A p Fp), (A t Ft). eauto.
    - intros x (_ & _ & H). exact H.
    - intros x g (Kx & Gx & _). split; [now apply Kt|]. split; [rewrite get_put_other by congruence; exact Gx|]. exists g. apply get_put_same.
    - intros x (Kx & Gx & h' & Tx). split; [exact I|]. intros y r3. cbn [tree]. rewrite (r3 p Fp), Gx. cbn iota beta. set (m := f_mode old).
      apply sure_do. intros now4 z r4. assert (Axz : agree F x z) by (eapply agree_trans; eassumption). assert (Kz : K z) by (eapply KR; eassumption).
      cbn [exec_op]. rewrite no_file_above; [|intros q g B; rewrite (Kz q B); discriminate]. rewrite (Axz p Fp), Gx. eexists. split; [reflexivity|].
      set (s8 := del z p). assert (G8 : get s8 p = None) by apply get_del_same. assert (T8 : get s8 t = Some (NFile h')) by (unfold s8; rewrite get_del_other by congruence; now rewrite (Axz t Ft)).
      assert (K8 : K s8) by (now apply Kdp). clearbody s8.
      apply sure_do. intros now9 s9 r9. cbn [exec_op]. rewrite (r9 t Ft), T8, (r9 p Fp), G8. assert (K9 : K s9) by (eapply KR; eassumption). rewrite (Krp _ K9). eexists. split; [reflexivity|].
      set (s10 := put (del s9 t) p (NFile h')). assert (G10 : get s10 p = Some (NFile h')) by apply get_put_same. clearbody s10.
      apply sure_do. intros now11 s11 r11. cbn [exec_op]. rewrite (r11 p Fp), G10. eexists. split; [reflexivity|]. set (s12 := put s11 p _). assert (G12 : exists g, get s12 p = Some (NFile g)) by (eexists; apply get_put_same). clearbody s12. destruct G12 as (g12 & G12).
      apply sure_do. intros now13 s13 r13. cbn [exec_op]. rewrite (r13 p Fp), G12. eexists. split; [reflexivity|]. split; exact I.
    - split; [eapply KR; eassumption|]. rewrite (r p Fp), (r t Ft). eauto. }
  destruct (get s2 t) as [[|g]|] eqn:T2; [elim Gt; now rewrite <- (A12 t Ft)| |];
  (eexists; split; [reflexivity|]; eapply M; [now apply Kt|rewrite get_put_other by congruence; exact G2|apply get_put_same]).
Qed.

Lemma changed_copy_sure c old s : ci_base c = copy_ptr -> get copy (ci_path c) = Some (NFile old) -> works (f_data old) (content (ci_index c)) ->
  (forall a, below a (ci_path c) -> get s a = Some NDir) -> get s (ci_path c) <> Some NDir ->
  sure (agree (fun q => q = ci_path c \/ q = ci_path c ++ temp_suffix \/ below q (ci_path c))) (changed c) s.
Proof.
  intros Nc G Dw Ga Gp. unfold changed_task. apply N.eqb_eq in Nc. rewrite Nc. cbv zeta. set (p := ci_path c) in *. set (data := content (ci_index c)) in *.
  set (F := fun q => q = p \/ _). assert (Fp : F p) by (now left). assert (Fa : forall a, below a p -> F a) by (intros a B; right; now right).
  split; [exact I|]. intros s1 r1. cbn [tree]. rewrite G. cbn iota beta. destruct (Dw (ci_index c)) as (reqs & ex & Ex & Px & Hx). rewrite Ex.
  apply sure_do. intros now s2 r2. assert (A12 : agree F s s2) by (eapply agree_trans; eassumption). cbn [exec_op].
  assert (R2 : resolves s2 p = true) by (apply resolves_spec; intros a B; rewrite (A12 a (Fa a B)); auto). rewrite R2.
  set (P := fun x : fs => exists h, get x p = Some (NFile h)).
  assert (PR : forall a b, P a -> agree F a b -> P b) by (intros a b (h & Ha) A; exists h; now rewrite (A p Fp)).
  assert (M : forall a, P a -> sure (agree F) (QRead true p (fun basis => match patch basis reqs with
          | Ok (data0, ex0) => do_all (map (OAppend p) (blocks data0)) (QStat true p (fun m => QDo (OChmod p (N.lor (N.lor m (if ex0 then kExecutableBits else 0)) MODE_IWUSR)) (QDo (OUtime p (ci_mtime c)) QEnd)))
          | _ => QErr end)) a).
  { intros a Pa. split; [exact I|]. intros b r. cbn [tree]. rewrite G, Px. apply (sure_appends (agree F) p _ P); auto.
    - intros x f _. exists f. apply get_put_same.
    - intros x Px'. split; [exact I|]. intros y r3. cbn [tree]. rewrite G. cbn iota beta. pose proof (PR _ _ Px' r3) as Py.
      apply sure_do. intros now4 z r4. destruct (PR _ _ Py r4) as (h & Gz). cbn [exec_op]. rewrite Gz. eexists. split; [reflexivity|]. set (s5 := put z p _). assert (P5 : P s5) by (eexists; apply get_put_same). clearbody s5.
      apply sure_do. intros now6 s6 r6. destruct (PR _ _ P5 r6) as (h6 & G6). cbn [exec_op]. rewrite G6. eexists. split; [reflexivity|]. split; exact I.
    - eapply PR; eassumption. }
  destruct (get s2 p) as [[|g]|] eqn:T2; [elim Gp; now rewrite <- (A12 p Fp)| |]; (eexists; split; [reflexivity|]; apply M; eexists; apply get_put_same).
Qed.
End Files.
End Progress.
