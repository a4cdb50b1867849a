(** Running a sync step by step, for concrete cases: always the first task that can take
    a step.  Every state reached this way is reached by [sync_runs]. *)
From Verif Require Import Base ListX Str ModelFastcdc ModelCdc ModelFileDiff ModelSync.
Local Open Scope N_scope.

Section Go.
Variable mode0 : N.
Variable cfs : option fs.

Fixpoint step_first (ps : list prog) (s : fs) : option (list prog * fs) :=
  match ps with
  | [] => None
  | p :: ps =>
      match step_prog 0 mode0 (the_copy cfs) p s with
      | Some (p', s') => Some (p' :: ps, s')
      | None => match step_first ps s with Some (ps', s') => Some (p :: ps', s') | None => None end
      end
  end.
Fixpoint is_ended (ps : list prog) : bool := match ps with [] => true | QEnd :: ps => is_ended ps | _ => false end.
Fixpoint go (n : nat) (x : sync_state) : sync_state :=
  match n, fst x with
  | S n, ps :: rest =>
      match step_first ps (snd x) with
      | Some (ps', s') => go n (ps' :: rest, s')
      | None => if is_ended ps then go n (rest, snd x) else x
      end
  | _, _ => x
  end.

Lemma step_first_sound ps s ps' s' : step_first ps s = Some (ps', s') ->
  exists l1 p p' l2, ps = l1 ++ p :: l2 /\ ps' = l1 ++ p' :: l2 /\ step_prog 0 mode0 (the_copy cfs) p s = Some (p', s').
Proof.
  revert ps'. induction ps as [|p ps IH]; intros ps' H; [discriminate|]. cbn in H. destruct (step_prog _ _ _ p s) as [(p', s1)|] eqn:E.
  - inversion H; subst. exists [], p, p', ps. auto.
  - destruct (step_first ps s) as [(ps1, s1)|] eqn:F; [|discriminate]. inversion H; subst. destruct (IH ps1 eq_refl) as (l1 & q & q' & l2 & -> & -> & X). exists (p :: l1), q, q', l2. auto.
Qed.
Lemma is_ended_spec ps : is_ended ps = true <-> all_ended ps.
Proof.
  unfold all_ended. induction ps as [|p ps IH]; cbn; [split; [constructor|reflexivity]|]. split.
  - destruct p; try discriminate. intros H. constructor; [reflexivity|now apply IH].
  - intros H. inversion H; subst. now apply IH.
Qed.
Lemma runs_trans a b c : sync_runs mode0 cfs a b -> sync_runs mode0 cfs b c -> sync_runs mode0 cfs a c.
Proof. induction 1 as [x|x y z S R IH]; intros H; [exact H|]. eapply runs_step; eauto. Qed.
Lemma go_sound n : forall x, sync_runs mode0 cfs x (go n x).
Proof.
  induction n as [|n IH]; intros (ps, s); [constructor|]. cbn. destruct ps as [|p rest]; [constructor|].
  destruct (step_first p s) as [(ps', s')|] eqn:E.
  - destruct (step_first_sound _ _ _ _ E) as (l1 & q & q' & l2 & -> & -> & X). eapply runs_step; [|apply IH]. eapply sync_task. exact X.
  - destruct (is_ended p) eqn:F; [|constructor]. eapply runs_step; [|apply IH]. apply sync_next. now apply is_ended_spec.
Qed.
End Go.

(** ** Deciding the hypotheses in concrete cases *)
From Verif Require Import ModelGear SpecFastcdc SpecCdc SpecSync PropCdc ProofSync.

Lemma seqb_iff a b : seqb a b = true <-> a = b.
Proof. destruct (seqb_spec a b); split; congruence. Qed.
Definition belowb (p q : bytes) : bool := existsb (seqb p) (ancestors q).
Lemma belowb_spec p q : belowb p q = true <-> below p q.
Proof.
  unfold belowb. rewrite existsb_exists, <- ancestors_spec. split.
  - intros (x & I & E). apply seqb_iff in E. now subst.
  - intros I. exists p. split; [exact I|]. now apply seqb_iff.
Qed.
Fixpoint nodupb (l : list bytes) : bool := match l with [] => true | x :: l => negb (existsb (seqb x) l) && nodupb l end.
Lemma nodupb_sound l : nodupb l = true -> NoDup l.
Proof.
  induction l as [|x l IH]; intros H; [constructor|]. cbn in H. apply andb_true_iff in H. destruct H as (A & B). constructor; [|auto].
  intros I. apply negb_true_iff in A. assert (X : existsb (seqb x) l = true) by (apply existsb_exists; exists x; split; [exact I|now apply seqb_iff]). congruence.
Qed.
Definition real_treeb (s : fs) : bool := nodupb (map fst s) && forallb (fun e => forallb (is_dir s) (ancestors (fst e))) s.
Lemma real_treeb_sound s : real_treeb s = true -> real_tree s.
Proof.
  unfold real_treeb. rewrite andb_true_iff. intros (A & B). split; [now apply nodupb_sound|]. intros p q n I Bl.
  rewrite forallb_forall in B. specialize (B _ I). cbn [fst] in B. rewrite forallb_forall in B. apply ancestors_spec in Bl. specialize (B p Bl). unfold is_dir in B. destruct (get s p) as [[|]|]; congruence.
Qed.
Definition client_paths (cf : list finfo) (cd : list dinfo) : list bytes := map fi_path cf ++ map di_path cd.
Definition proper_treeb (cf : list finfo) (cd : list dinfo) : bool :=
  nodupb (map fi_path cf) && forallb (fun f => fi_base f =? nullptr) cf && forallb (fun p => negb (existsb (seqb p) (map di_path cd))) (map fi_path cf) &&
  forallb (fun p => forallb (fun q => negb (belowb p q)) (client_paths cf cd)) (map fi_path cf).
Lemma proper_treeb_sound cf cd : proper_treeb cf cd = true -> proper_tree cf cd.
Proof.
  unfold proper_treeb. rewrite !andb_true_iff, !forallb_forall. intros (((A & B) & C) & D). split; [now apply nodupb_sound|]. split.
  - apply Forall_forall. intros f If. apply N.eqb_eq. auto.
  - split.
    + intros p Ip Iq. specialize (C p Ip). apply negb_true_iff in C. assert (X : existsb (seqb p) (map di_path cd) = true) by (apply existsb_exists; exists p; split; [exact Iq|now apply seqb_iff]). congruence.
    + intros p q Ip Iq Bl. specialize (D p Ip). rewrite forallb_forall in D. specialize (D q (in_or_app _ _ _ Iq)). apply negb_true_iff in D. apply belowb_spec in Bl. congruence.
Qed.
Definition no_temp_clashb (cf : list finfo) (cd : list dinfo) : bool :=
  forallb (fun f => forallb (fun q => negb (seqb q (fi_path f ++ temp_suffix)) && negb (belowb (fi_path f ++ temp_suffix) q)) (client_paths cf cd)) cf.
Lemma no_temp_clashb_sound cf cd : no_temp_clashb cf cd = true -> no_temp_clash cf cd.
Proof.
  unfold no_temp_clashb. rewrite forallb_forall. intros H p q (f & If & ->) C. specialize (H f If). rewrite forallb_forall in H. specialize (H q (in_or_app _ _ _ C)).
  apply andb_true_iff in H. destruct H as (A & B). apply negb_true_iff in A, B. split.
  - intros E. apply seqb_iff in E. congruence.
  - intros E. apply belowb_spec in E. congruence.
Qed.

Lemma ex_hash_app b x : ex_hash (b ++ [x]) = ex_hash b * 257 + x + 1.
Proof. unfold ex_hash. now rewrite fold_left_app. Qed.
Lemma ex_hash_inj a : forall b, Forall (fun x => x < 256) a -> Forall (fun x => x < 256) b -> ex_hash a = ex_hash b -> a = b.
Proof.
  induction a as [|x a IH] using rev_ind; intros b Fa Fb E; destruct b as [|y b _] using rev_ind; [reflexivity| | |].
  - rewrite ex_hash_app in E. change (ex_hash []) with 0 in E. lia.
  - rewrite ex_hash_app in E. change (ex_hash []) with 0 in E. lia.
  - rewrite !ex_hash_app in E. apply Forall_app in Fa, Fb. destruct Fa as (Fa & Fx), Fb as (Fb & Fy). inversion Fx; inversion Fy; subst.
    assert (ex_hash a = ex_hash b /\ x = y) as (E1 & ->) by lia. now rewrite (IH b Fa Fb E1).
Qed.
Lemma ex_exchange_ok basis src : forallb (fun x => x <? 256) (basis ++ src) = true -> N.of_nat (length basis) < 2 ^ 63 -> N.of_nat (length src) < 2 ^ 63 ->
  exchange_ok ex_hash 64 (lookup_gear gear64) ex_cfg basis src.
Proof.
  intros B Lb Ls. split; [exact Lb|]. split; [exact Ls|].
  assert (W : wf_config ex_cfg) by (split; cbn; lia).
  destruct (chunks_of_exists 64 (lookup_gear gear64) ex_cfg ltac:(lia) W basis) as (bcs & Cb). destruct (chunks_of_exists 64 (lookup_gear gear64) ex_cfg ltac:(lia) W src) as (scs & Cs).
  exists bcs, scs. split; [exact Cb|]. split; [exact Cs|]. intros c1 c2 I1 I2. rewrite forallb_app, andb_true_iff, !forallb_forall in B. destruct B as (B1 & B2).
  apply ex_hash_inj; apply Forall_forall; intros x Ix; apply N.ltb_lt.
  - apply B1. destruct Cb as (_ & <-). apply in_concat. eauto.
  - apply B2. destruct Cs as (_ & <-). apply in_concat. eauto.
Qed.
