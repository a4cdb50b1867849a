(** Proofs for C15, C16, C17: file system, tasks, phases. *)
From Verif Require Import Base ListX Str ModelFastcdc ModelCdc ModelFileDiff ModelSync SpecSync.
Local Open Scope N_scope.

(** ** get, put, del *)
Lemma get_del s p q : get (del s p) q = if seqb p q then None else get s q.
Proof.
  induction s as [|[x n] s IH]; [cbn; now destruct (seqb p q)|]. unfold del in *. cbn [filter fst get].
  destruct (seqb_spec x p) as [->|Np]; cbn [negb get].
  - rewrite IH. destruct (seqb_spec p q); [reflexivity|]. reflexivity.
  - rewrite IH. destruct (seqb_spec x q) as [->|]; [|reflexivity]. destruct (seqb_spec p q); [congruence|reflexivity].
Qed.
Lemma get_put s p n q : get (put s p n) q = if seqb p q then Some n else get s q.
Proof. unfold put. cbn. destruct (seqb_spec p q) as [->|H]; [reflexivity|]. rewrite get_del. destruct (seqb_spec p q); [congruence|reflexivity]. Qed.
Lemma seqb_refl p : seqb p p = true.
Proof. destruct (seqb_spec p p); [reflexivity|congruence]. Qed.
Lemma seqb_neq p q : p <> q -> seqb p q = false.
Proof. intros. destruct (seqb_spec p q); [congruence|reflexivity]. Qed.
Lemma get_put_same s p n : get (put s p n) p = Some n.
Proof. now rewrite get_put, seqb_refl. Qed.
Lemma get_put_other s p n q : p <> q -> get (put s p n) q = get s q.
Proof. intros. now rewrite get_put, seqb_neq. Qed.
Lemma get_del_same s p : get (del s p) p = None.
Proof. now rewrite get_del, seqb_refl. Qed.
Lemma get_del_other s p q : p <> q -> get (del s p) q = get s q.
Proof. intros. now rewrite get_del, seqb_neq. Qed.
Lemma get_in s p n : get s p = Some n -> In (p, n) s.
Proof. induction s as [|[x m] s IH]; cbn; [discriminate|]. destruct (seqb_spec x p) as [->|]; intros E; [inversion E; now left|right; auto]. Qed.
Lemma in_get s p n : NoDup (map fst s) -> In (p, n) s -> get s p = Some n.
Proof.
  induction s as [|[x m] s IH]; cbn; [easy|]. intros ND [E|I]; [inversion E; subst; now rewrite seqb_refl|]. inversion ND; subst.
  destruct (seqb_spec x p) as [->|]; [|auto]. elim H1. apply in_map_iff. now exists (p, n).
Qed.
Lemma in_get_some s p n : In (p, n) s -> exists m, get s p = Some m.
Proof. induction s as [|[x m] s IH]; cbn; [easy|]. intros [E|I]; [inversion E; subst; rewrite seqb_refl; eauto|]. destruct (seqb x p); eauto. Qed.

(** ** ancestors *)
Lemma above_in : forall p pre a, In a (above pre p) <-> exists x r, a = pre ++ x /\ p = x ++ 47 :: r.
Proof.
  induction p as [|c p IH]; intros pre a; cbn [above].
  - split; [easy|]. intros (x & r & _ & E). destruct x; discriminate.
  - assert (X : In a (above (pre ++ [c]) p) <-> exists x r, a = pre ++ c :: x /\ p = x ++ 47 :: r).
    { rewrite IH. split; intros (x & r & E & F); exists x, r; (split; [|exact F]); rewrite E, <- ?app_assoc; reflexivity. }
    destruct (N.eqb_spec c 47) as [->|Nc].
    + cbn [In]. rewrite X. split.
      * intros [<-|(x & r & E & F)]; [exists [], p; split; [now rewrite app_nil_r|reflexivity]|]. exists (47 :: x), r. split; [exact E|]. cbn. now rewrite F.
      * intros (x & r & E & F). destruct x as [|y x]; [left; now rewrite E, app_nil_r|]. right. cbn in F. inversion F; subst. eauto.
    + rewrite X. split.
      * intros (x & r & E & F). exists (c :: x), r. split; [exact E|]. cbn. now rewrite F.
      * intros (x & r & E & F). destruct x as [|y x]; cbn in F; inversion F; subst; [easy|]. eauto.
Qed.
Lemma ancestors_spec p a : In a (ancestors p) <-> below a p.
Proof.
  unfold ancestors, below. rewrite above_in. split.
  - intros (x & r & -> & E). eauto.
  - intros (r & E). exists a, r. auto.
Qed.
Lemma below_irrefl p : ~ below p p.
Proof. intros (r & E). apply (f_equal (@length _)) in E. rewrite app_length in E. cbn in E. lia. Qed.
Lemma below_trans a b c : below a b -> below b c -> below a c.
Proof. intros (r & ->) (r' & ->). exists (r ++ 47 :: r'). now rewrite <- app_assoc. Qed.

Lemma listed_visible fm opts p : listed fm opts p <-> visible fm opts p = true.
Proof.
  unfold listed, visible. rewrite andb_true_iff, orb_true_iff.
  assert (X : ~ In 47 p <-> match ancestors p with [] => true | _ => false end = true).
  { split.
    - intros N. destruct (ancestors p) as [|a l] eqn:E; [reflexivity|]. elim N. assert (Ia : In a (ancestors p)) by (rewrite E; now left). apply ancestors_spec in Ia. destruct Ia as (r & ->). apply in_or_app. right. now left.
    - destruct (ancestors p) as [|a l] eqn:E; [|discriminate]. intros _ I. apply in_split in I. destruct I as (l1 & l2 & E2).
      assert (Ia : In l1 (ancestors p)) by (apply ancestors_spec; exists l2; exact E2). rewrite E in Ia. destruct Ia. }
  rewrite X. tauto.
Qed.

(** ** What an operation may change *)
Definition changes (o : op) (p : bytes) : Prop :=
  match o with
  | ORemove q | OOpen q | OAppend q _ | OChmod q _ | OUtime q _ => p = q
  | ORename q r => p = q \/ p = r
  | OMkdir _ => False
  end.
Definition makes (o : op) (p : bytes) : Prop := match o with OMkdir q => p = q | _ => False end.

Section Run.
Variable mode0 : N.
Variable copy : fs.

Lemma exec_frame now o s s' q : exec_op now mode0 o s = Ok s' -> ~ changes o q -> get s' q = get s q \/ (makes o q /\ get s q = None /\ get s' q = Some NDir).
Proof.
  intros E N. destruct o as [p|p|p|p b|p r|p m|p t]; cbn in E, N.
  - destruct (existsb _ _); [discriminate|]. destruct (get s p) as [[|f]|]; [destruct (has_children s p); [discriminate|]| |]; inversion E; subst; left; rewrite ?get_del_other; auto.
  - destruct (get s p) as [[|f]|] eqn:G; [inversion E; subst; now left|discriminate|]. destruct (resolves s p); [|discriminate]. inversion E; subst.
    rewrite get_put. destruct (seqb_spec p q) as [->|]; [right|left]; auto. cbn. auto.
  - destruct (resolves s p); [|discriminate]. destruct (get s p) as [[|f]|]; [discriminate| |]; inversion E; subst; left; rewrite get_put_other; auto.
  - destruct (get s p) as [[|f]|]; [discriminate| |discriminate]; inversion E; subst; left; rewrite get_put_other; auto.
  - assert (Np : p <> q) by (intros ->; apply N; now left). assert (Nr : r <> q) by (intros ->; apply N; now right).
    assert (X : forall f, (if resolves s r then Ok (put (del s p) r (NFile f)) else Fail) = Ok s' -> get s' q = get s q).
    { intros f H. destruct (resolves s r); [|discriminate]. inversion H; subst. now rewrite get_put_other, get_del_other. }
    destruct (get s p) as [[|f]|]; try discriminate. destruct (get s r) as [[|g]|]; try discriminate; left; eauto.
  - destruct (get s p) as [[|f]|]; try discriminate; inversion E; subst; left; rewrite get_put_other; auto.
  - destruct (get s p) as [[|f]|]; try discriminate; inversion E; subst; left; rewrite get_put_other; auto.
Qed.

(** A task changes paths in [W] only, and makes directories in [D] only. *)
Fixpoint within (W D : bytes -> Prop) (p : prog) : Prop :=
  match p with
  | QDo o k => (forall q, changes o q -> W q) /\ (forall q, makes o q -> D q) /\ within W D k
  | QRead _ _ k => forall b, within W D (k b)
  | QStat _ _ k => forall m, within W D (k m)
  | QExists _ a b => within W D a /\ within W D b
  | QIsDir _ a b => within W D a /\ within W D b
  | QEnd | QErr => True
  end.

Lemma within_do_all (W D : bytes -> Prop) os k : (forall o, In o os -> (forall q, changes o q -> W q) /\ (forall q, makes o q -> D q)) -> within W D k -> within W D (do_all os k).
Proof.
  induction os as [|o os IH]; intros H K; [exact K|]. cbn. destruct (H o (or_introl eq_refl)) as (A & B). split; [exact A|]. split; [exact B|]. apply IH; [|exact K]. intros o' I. apply H. now right.
Qed.
Lemma within_weaken (W D W' D' : bytes -> Prop) : (forall q, W q -> W' q) -> (forall q, D q -> D' q) -> forall p, within W D p -> within W' D' p.
Proof.
  intros HW HD. induction p as [o k IH|c p k IH|c p k IH|p a IHa b IHb|p a IHa b IHb| |]; cbn; auto.
  - intros (A & B & C). auto.
  - intros (A & B). auto.
  - intros (A & B). auto.
Qed.

Lemma step_within now (W D : bytes -> Prop) p s p' s' : within W D p -> step_prog now mode0 copy p s = Some (p', s') ->
  within W D p' /\ forall q, ~ W q -> get s' q = get s q \/ (D q /\ get s q = None /\ get s' q = Some NDir).
Proof.
  intros Wp E. destruct p as [o k|c p k|c p k|p a b|p a b| |]; cbn in Wp, E; try discriminate.
  - destruct Wp as (A & B & C). destruct (exec_op now mode0 o s) as [s1| | |] eqn:X; inversion E; subst; (split; [easy|]); auto.
    intros q Nq. destruct (exec_frame now o s s' q X) as [F|(F & G & H)]; auto.
  - destruct (get (tree copy c s) p) as [[|f]|]; inversion E; subst; split; cbn; auto.
  - destruct (get (tree copy c s) p) as [[|f]|]; inversion E; subst; split; cbn; auto.
  - inversion E; subst. destruct Wp. destruct (get s' p); auto.
  - inversion E; subst. destruct Wp. destruct (is_dir s' p); auto.
Qed.

(** ** The tasks of one phase *)
Inductive phase_runs : list prog * fs -> list prog * fs -> Prop :=
| pr_refl x : phase_runs x x
| pr_step now l1 p p' l2 s s' z : step_prog now mode0 copy p s = Some (p', s') -> phase_runs (l1 ++ p' :: l2, s') z -> phase_runs (l1 ++ p :: l2, s) z.

Lemma phase_frame (W D : bytes -> Prop) : forall x z, phase_runs x z -> Forall (within W D) (fst x) ->
  Forall (within W D) (fst z) /\ forall q, ~ W q -> get (snd z) q = get (snd x) q \/ (D q /\ get (snd x) q = None /\ get (snd z) q = Some NDir).
Proof.
  induction 1 as [x|now l1 p p' l2 s s' z E R IH]; intros F; [auto|]. cbn [fst snd] in *.
  apply Forall_app in F. destruct F as (F1 & F2). inversion F2; subst.
  destruct (step_within now W D p s p' s' H1 E) as (Wp' & Fr).
  destruct IH as (Fz & Frz); [apply Forall_app; auto|]. split; [exact Fz|]. intros q Nq.
  destruct (Fr q Nq) as [A|(A & B & C)], (Frz q Nq) as [A'|(A' & B' & C')].
  - left. congruence.
  - right. rewrite <- A. auto.
  - right. split; [exact A|]. split; [exact B|]. congruence.
  - congruence.
Qed.

(** One task among the others. *)
Lemma phase_task (W D F : bytes -> Prop) (Inv : prog -> fs -> Prop) :
  (forall p s s', Inv p s -> (forall q, F q -> get s' q = get s q) -> Inv p s') ->
  (forall now p s p' s', Inv p s -> step_prog now mode0 copy p s = Some (p', s') -> Inv p' s') ->
  (forall q, F q -> ~ W q /\ ~ D q) ->
  forall x z, phase_runs x z -> forall l1 p l2, fst x = l1 ++ p :: l2 -> Forall (within W D) (l1 ++ l2) -> Inv p (snd x) ->
  exists l1' p' l2', fst z = l1' ++ p' :: l2' /\ Inv p' (snd z).
Proof.
  intros Ext Own Dis. induction 1 as [x|now m1 r r' m2 s s' z E R IH]; intros l1 p l2 Ex Fw I; [eauto|]. cbn [fst snd] in *.
  assert (Case : (exists k, m1 = l1 ++ p :: k /\ l2 = k ++ r :: m2) \/ (m1 = l1 /\ r = p /\ m2 = l2) \/ (exists k, l1 = m1 ++ r :: k /\ m2 = k ++ p :: l2)).
  { clear -Ex. revert l1 Ex. induction m1 as [|a m1 IH]; intros [|b l1] Ex; cbn in Ex; inversion Ex; subst.
    - right. left. auto.
    - right. right. exists l1. auto.
    - left. exists m1. auto.
    - destruct (IH l1 H1) as [(k & -> & ->)|[(-> & -> & ->)|(k & -> & ->)]]; [left; exists k; auto|right; left; auto|right; right; exists k; auto]. }
  destruct Case as [(k & -> & ->)|[(-> & -> & ->)|(k & -> & ->)]].
  - apply Forall_app in Fw. destruct Fw as (Fa & Fb). apply Forall_app in Fb. destruct Fb as (Fb & Fc). inversion Fc; subst.
    destruct (step_within now W D r s r' s' H1 E) as (Wr & Fr).
    apply (IH l1 p (k ++ r' :: m2)); [now rewrite <- app_assoc|apply Forall_app; split; [exact Fa|apply Forall_app; auto]|].
    eapply Ext; [exact I|]. intros q Hq. destruct (Dis q Hq) as (A & B). destruct (Fr q A) as [G|(G & _)]; [exact G|easy].
  - apply (IH l1 r' l2); auto. eapply Own; eassumption.
  - apply Forall_app in Fw. destruct Fw as (Fa & Fc). apply Forall_app in Fa. destruct Fa as (Fa & Fb). inversion Fb; subst.
    destruct (step_within now W D r s r' s' H1 E) as (Wr & Fr).
    apply (IH (m1 ++ r' :: k) p l2); [now rewrite <- app_assoc|apply Forall_app; split; [apply Forall_app; auto|exact Fc]|].
    eapply Ext; [exact I|]. intros q Hq. destruct (Dis q Hq) as (A & B). destruct (Fr q A) as [G|(G & _)]; [exact G|easy].
Qed.

End Run.

(** ** From phase to phase *)
Lemma runs_phase mode0 cf x z : sync_runs mode0 cf x z -> forall ps rest, fst x = ps :: rest ->
  exists ps1 s1, phase_runs mode0 (the_copy cf) (ps, snd x) (ps1, s1) /\
    (z = (ps1 :: rest, s1) \/ (all_ended ps1 /\ sync_runs mode0 cf (rest, s1) z)).
Proof.
  induction 1 as [x|x y z S R IH]; intros ps rest E.
  - exists ps, (snd x). split; [constructor|]. left. destruct x; cbn in *; now subst.
  - destruct S as [now l1 p p' l2 rest' s s' H|ps' rest' s H]; cbn in E; inversion E; subst; cbn [fst snd] in *.
    + destruct (IH _ _ eq_refl) as (ps1 & s1 & P & Q). exists ps1, s1. split; [|exact Q]. eapply pr_step; eassumption.
    + exists ps, s. split; [constructor|]. right. auto.
Qed.
