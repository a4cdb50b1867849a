(** Proofs for C15, C17: the destination stays a tree; every sync ends; without
    conflicts it cannot fail. *)
From Verif Require Import Base ListX Str ModelFastcdc SpecFastcdc ModelCdc SpecCdc PropCdc ModelFileDiff SpecFileDiff ProofFileDiff PropFileDiff ModelSync SpecSync ProofSync ProofSyncSafe ProofSyncDiff ProofSyncRun.
Local Open Scope N_scope.

(** ** The destination stays a tree *)
Lemma get_Some_in s p n : get s p = Some n -> In (p, n) s.
Proof.
  induction s as [|(q, m) s IH]; cbn; [discriminate|]. destruct (seqb_spec q p) as [->|N]; [intros X; inversion X; now left|]. intros X. right. auto.
Qed.
Definition tree_at (s : fs) : Prop := forall p q, get s q <> None -> below p q -> get s p = Some NDir.
Lemma real_tree_at s : NoDup (map fst s) -> (real_tree s <-> tree_at s).
Proof.
  intros ND. split.
  - intros (_ & T) p q G B. destruct (get s q) as [n|] eqn:E; [|congruence]. eapply T; [apply get_Some_in; exact E|exact B].
  - intros T. split; [exact ND|]. intros p q n I B. apply (T p q); [|exact B]. rewrite (in_get s q n ND I). discriminate.
Qed.
Lemma in_del s p q n : In (q, n) (del s p) -> In (q, n) s /\ q <> p.
Proof. unfold del. rewrite filter_In. cbn. intros (I & E). split; [exact I|]. destruct (seqb_spec q p); [discriminate|assumption]. Qed.
Lemma del_nodup s p : NoDup (map fst s) -> NoDup (map fst (del s p)).
Proof.
  unfold del. induction s as [|(q, n) s IH]; cbn; [constructor|]. intros H. inversion H; subst. destruct (negb (seqb q p)); [|auto]. cbn. constructor; [|auto].
  intros I. apply H2. apply in_map_iff in I. destruct I as (x & <- & I). apply filter_In in I. now apply in_map.
Qed.
Lemma put_nodup s p n : NoDup (map fst s) -> NoDup (map fst (put s p n)).
Proof.
  intros ND. unfold put. cbn. constructor; [|now apply del_nodup]. intros I. apply in_map_iff in I. destruct I as ((q, m) & E & I). cbn in E. subst. now apply in_del in I.
Qed.
Lemma resolves_spec s p : resolves s p = true <-> forall a, below a p -> get s a = Some NDir.
Proof.
  unfold resolves. rewrite forallb_forall. split.
  - intros H a B. apply ancestors_spec in B. specialize (H a B). unfold is_dir in H. destruct (get s a) as [[|]|]; congruence.
  - intros H a I. apply ancestors_spec in I. unfold is_dir. now rewrite (H a I).
Qed.
Lemma has_children_spec s p : has_children s p = true <-> exists q, get s q <> None /\ below p q.
Proof.
  unfold has_children. rewrite existsb_exists. split.
  - intros ((q, n) & I & H). apply existsb_exists in H. destruct H as (a & Ia & E). destruct (seqb_spec p a) as [->|]; [|discriminate]. cbn in Ia. exists q. split; [|now apply ancestors_spec].
    destruct (in_get_some s q n I) as (m & ->). discriminate.
  - intros (q & G & B). destruct (get s q) as [n|] eqn:E; [|congruence]. exists (q, n). split; [now apply get_Some_in|]. cbn. apply existsb_exists. exists p. split; [now apply ancestors_spec|]. destruct (seqb_spec p p); congruence.
Qed.
Lemma exec_tree_at now mode0 o s s' : exec_op now mode0 o s = Ok s' -> tree_at s -> tree_at s'.
Proof.
  intros X R.
  assert (U : forall p f f', get s p = Some (NFile f) -> tree_at (put s p (NFile f'))).
  { intros p f f' G. intros a q Gq B. destruct (list_eq_dec N.eq_dec a p) as [->|Na].
    - assert (Nq : q <> p) by (intros ->; exact (below_irrefl _ B)). rewrite get_put_other in Gq by congruence. rewrite (R p q Gq B) in G. discriminate.
    - rewrite get_put_other by congruence. destruct (list_eq_dec N.eq_dec q p) as [->|Nq]; [apply (R a p); [congruence|exact B]|]. rewrite get_put_other in Gq by congruence. now apply (R a q). }
  assert (Dl : forall p, (get s p = Some NDir -> has_children s p = false) -> tree_at (del s p)).
  { intros p H. intros a q Gq B.
    assert (Nq : q <> p) by (intros ->; rewrite get_del_same in Gq; congruence). rewrite get_del_other in Gq by congruence. pose proof (R a q Gq B) as Ga.
    destruct (list_eq_dec N.eq_dec a p) as [->|Na]; [|now rewrite get_del_other by congruence]. specialize (H Ga). assert (T : has_children s p = true) by (apply has_children_spec; eauto). congruence. }
  assert (Nw : forall p n, get s p = None -> resolves s p = true -> tree_at (put s p n)).
  { intros p n G H. rewrite resolves_spec in H. intros a q Gq B.
    destruct (list_eq_dec N.eq_dec q p) as [->|Nq].
    - assert (Na : a <> p) by (intros ->; exact (below_irrefl _ B)). rewrite get_put_other by congruence. auto.
    - rewrite get_put_other in Gq by congruence. pose proof (R a q Gq B) as Ga. rewrite get_put_other; [exact Ga|]. intros ->. congruence. }
  destruct o as [p|p|p|p b|p r|p m|p t]; cbn in X.
  - destruct (existsb _ _); [discriminate|]. destruct (get s p) as [[|f]|] eqn:G; [destruct (has_children s p) eqn:H; [discriminate|]| |]; inversion X; subst; [now apply Dl|apply Dl; congruence|exact R].
  - destruct (get s p) as [[|f]|] eqn:G; [inversion X; subst; exact R|discriminate|]. destruct (resolves s p) eqn:H; inversion X; subst. auto.
  - destruct (resolves s p) eqn:H; [|discriminate]. destruct (get s p) as [[|f]|] eqn:G; inversion X; subst; eauto.
  - destruct (get s p) as [[|f]|] eqn:G; inversion X; subst; eauto.
  - destruct (get s p) as [[|f]|] eqn:G; try discriminate. assert (Y : (forall g, get s r = Some g -> g <> NDir) /\ resolves s r = true /\ s' = put (del s p) r (NFile f)).
    { destruct (get s r) as [[|g]|]; [discriminate| |]; destruct (resolves s r); inversion X; (split; [intros ? E; inversion E; discriminate|auto]). }
    clear X. destruct Y as (Nr & H & ->). rewrite resolves_spec in H.
    assert (Td : tree_at (del s p)) by (apply Dl; congruence).
    intros a q Gq B. destruct (list_eq_dec N.eq_dec q r) as [->|Nq].
    + assert (Na : a <> r) by (intros ->; exact (below_irrefl _ B)). rewrite get_put_other by congruence. rewrite get_del_other; [auto|]. intros ->. rewrite (H a B) in G. discriminate.
    + rewrite get_put_other in Gq by congruence. pose proof (Td a q Gq B) as Ga. rewrite get_put_other; [exact Ga|]. intros ->.
      destruct (list_eq_dec N.eq_dec a p) as [->|Nap]; [rewrite get_del_same in Ga; discriminate|]. rewrite get_del_other in Ga by congruence. now elim (Nr NDir Ga).
  - destruct (get s p) as [[|f]|] eqn:G; inversion X; subst; eauto.
  - destruct (get s p) as [[|f]|] eqn:G; inversion X; subst; eauto.
Qed.
Lemma exec_nodup now mode0 o s s' : exec_op now mode0 o s = Ok s' -> NoDup (map fst s) -> NoDup (map fst s').
Proof.
  intros X ND. destruct o as [p|p|p|p b|p r|p m|p t]; cbn in X.
  - destruct (existsb _ _); [discriminate|]. destruct (get s p) as [[|f]|]; [destruct (has_children s p); [discriminate|]| |]; inversion X; subst; auto using del_nodup.
  - destruct (get s p) as [[|f]|]; [inversion X; subst; auto|discriminate|]. destruct (resolves s p); inversion X; subst. now apply put_nodup.
  - destruct (resolves s p); [|discriminate]. destruct (get s p) as [[|f]|]; inversion X; subst; now apply put_nodup.
  - destruct (get s p) as [[|f]|]; inversion X; subst; now apply put_nodup.
  - destruct (get s p) as [[|f]|]; try discriminate. destruct (get s r) as [[|g]|]; [discriminate| |]; destruct (resolves s r); inversion X; subst; now apply put_nodup, del_nodup.
  - destruct (get s p) as [[|f]|]; inversion X; subst; now apply put_nodup.
  - destruct (get s p) as [[|f]|]; inversion X; subst; now apply put_nodup.
Qed.
Lemma exec_tree now mode0 o s s' : exec_op now mode0 o s = Ok s' -> real_tree s -> real_tree s'.
Proof.
  intros X R. pose proof (proj1 R) as ND. pose proof (exec_nodup _ _ _ _ _ X ND) as ND'. apply (real_tree_at s' ND'). eapply exec_tree_at; [exact X|]. now apply (real_tree_at s ND).
Qed.
Lemma step_prog_tree now mode0 copy p s p' s' : step_prog now mode0 copy p s = Some (p', s') -> real_tree s -> real_tree s'.
Proof.
  intros E R. destruct p as [o k|c p k|c p k|p a b|p a b| |]; cbn in E; try discriminate.
  - destruct (exec_op now mode0 o s) as [s1| | |] eqn:X; inversion E; subst; auto. eapply exec_tree; eassumption.
  - destruct (get (tree copy c s) p) as [[|f]|]; inversion E; now subst.
  - destruct (get (tree copy c s) p) as [[|f]|]; inversion E; now subst.
  - inversion E; now subst.
  - inversion E; now subst.
Qed.
Lemma runs_tree mode0 cfs x z : sync_runs mode0 cfs x z -> real_tree (snd x) -> real_tree (snd z).
Proof.
  induction 1 as [x|x y z S R IH]; intros T; [exact T|]. apply IH. destruct S as [now l1 p p' l2 rest s s' E|ps rest s E]; cbn [snd] in *; [|exact T]. eapply step_prog_tree; eassumption.
Qed.
Lemma phase_tree mode0 copy x z : phase_runs mode0 copy x z -> real_tree (snd x) -> real_tree (snd z).
Proof.
  induction 1 as [x|now l1 p p' l2 s s' z E R IH]; intros T; [exact T|]. apply IH. cbn [snd] in *. eapply step_prog_tree; eassumption.
Qed.

(** ** Every sync ends *)
Section Ends.
Variable mode0 : N.
Variable cfs : option fs.
Definition sub (p' p : prog) : Prop := exists now s s', step_prog now mode0 (the_copy cfs) p s = Some (p', s').
Lemma sub_acc p : Acc sub p.
Proof.
  assert (Ee : Acc sub QErr) by (constructor; intros p' (now & s & s' & H); discriminate).
  induction p as [o k IH|c p k IH|c p k IH|p a IHa b IHb|p a IHa b IHb| |]; constructor; intros p' (now & s & s' & H); cbn in H; try discriminate.
  - destruct (exec_op now mode0 o s); inversion H; subst; assumption.
  - destruct (get (tree (the_copy cfs) c s) p) as [[|f]|]; inversion H; subst; auto.
  - destruct (get (tree (the_copy cfs) c s) p) as [[|f]|]; inversion H; subst; auto.
  - inversion H; subst. now destruct (get s' p).
  - inversion H; subst. now destruct (is_dir s' p).
Qed.
Definition lsub (l' l : list prog) : Prop := exists l1 p p' l2, l = l1 ++ p :: l2 /\ l' = l1 ++ p' :: l2 /\ sub p' p.
Lemma lsub_acc l : Acc lsub l.
Proof.
  induction l as [|p l IH]; [constructor; intros l' (l1 & p & p' & l2 & E & _); destruct l1; discriminate|].
  pose proof (sub_acc p) as Ap. revert l IH. induction Ap as [p _ IHp]. intros l Al. induction Al as [l Hl IHl].
  constructor. intros l' (l1 & q & q' & l2 & E & -> & S). destruct l1 as [|x l1]; cbn in E; inversion E; subst; cbn.
  - apply IHp; [exact S|]. now constructor.
  - apply IHl. exists l1, q, q', l2. auto.
Qed.
Lemma sync_acc : forall x, Acc (fun y x => sync_step mode0 cfs x y) x.
Proof.
  intros (l, s). revert s. induction l as [|ps l IH]; intros s; [constructor; intros y S; inversion S|].
  revert s. pose proof (lsub_acc ps) as A. induction A as [ps _ IHps]. intros s. constructor. intros y S. inversion S; subst.
  - apply IHps. exists l1, p, p', l2. repeat split; auto. exists now, s, s'. assumption.
  - apply IH.
Qed.
End Ends.
