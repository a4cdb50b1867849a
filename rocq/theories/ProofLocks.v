From Verif Require Import Base ListX Str ModelText ModelChunkMap ModelProvider ModelLocks.
Local Open Scope N_scope.

(** Locks are taken in increasing order, released before the end, and nothing is
    held while joining. *)
Fixpoint ordered (held : list N) (p : list action) : Prop :=
  match p with
  | [] => held = []
  | ALock m _ :: r => Forall (fun h => h < m) held /\ ordered (m :: held) r
  | AUnlock m :: r => exists a b, held = a ++ m :: b /\ ~ In m a /\ ordered (a ++ b) r
  | AJoin _ :: r => held = [] /\ ordered [] r
  end.

Lemma release_split m (h : list (N * bool)) a b : map fst h = a ++ m :: b -> ~ In m a -> map fst (release m h) = a ++ b.
Proof.
  revert a. induction h as [|[x w] h IH]; intros a E N; cbn [map fst] in E; [destruct a; discriminate|].
  cbn [release fst]. destruct a as [|y a]; cbn [app] in E; inversion E; subst.
  - now rewrite N.eqb_refl.
  - destruct (N.eqb_spec y m) as [->|Ne]; [exfalso; apply N; now left|]. cbn [map fst app]. f_equal. apply IH; auto. intros C. apply N. now right.
Qed.

Definition wf (ts : list thread) : Prop :=
  Forall (fun t => ordered (map fst (th_held t)) (th_prog t)) ts /\
  Forall (fun t => forall k, In (AJoin k) (th_prog t) -> k = 0%nat) ts /\
  (forall t, nth_error ts 0 = Some t -> forall k, ~ In (AJoin k) (th_prog t)) /\ ts <> [].

Lemma nth_split_ {A} (l : list A) i x : nth_error l i = Some x -> l = firstn i l ++ x :: skipn (S i) l.
Proof.
  revert l. induction i as [|i IH]; intros [|y l] E; cbn in E; try discriminate.
  - inversion E; reflexivity.
  - cbn [firstn skipn app]. f_equal. now apply IH.
Qed.

Lemma thread_step_shape strict ts i us : thread_step strict ts i = Some us ->
  exists t t' act, nth_error ts i = Some t /\ us = firstn i ts ++ t' :: skipn (S i) ts /\ th_prog t = act :: th_prog t' /\
    th_held t' = match act with ALock m w => (m, w) :: th_held t | AUnlock m => release m (th_held t) | AJoin _ => th_held t end.
Proof.
  unfold thread_step. destruct (nth_error ts i) as [t|] eqn:E; [|discriminate]. destruct (th_prog t) as [|act p] eqn:P; [discriminate|].
  intros H. destruct act as [m w|m|k].
  - match type of H with (if ?b then _ else _) = _ => destruct b; [|discriminate] end. inversion H; subst. eexists t, _, _. split; [reflexivity|]. split; [reflexivity|]. split; [exact P|]. reflexivity.
  - inversion H; subst. eexists t, _, _. split; [reflexivity|]. split; [reflexivity|]. split; [exact P|]. reflexivity.
  - destruct (nth_error ts k) as [u|]; [|discriminate]. destruct (finished u); [|discriminate]. inversion H; subst. eexists t, _, _.
    split; [reflexivity|]. split; [reflexivity|]. split; [exact P|]. reflexivity.
Qed.

Lemma Forall_upd {A} (P : A -> Prop) l i x y : nth_error l i = Some x -> Forall P l -> P y -> Forall P (firstn i l ++ y :: skipn (S i) l).
Proof.
  intros E F Py. rewrite (nth_split_ _ _ _ E) in F. apply Forall_app in F. destruct F as (F1 & F2). inversion F2; subst.
  apply Forall_app. split; auto.
Qed.
Lemma Forall_nth_ {A} (P : A -> Prop) l i x : nth_error l i = Some x -> Forall P l -> P x.
Proof. intros E F. rewrite Forall_forall in F. apply F. eapply nth_error_In; eauto. Qed.

Lemma step_wf strict ts i us : thread_step strict ts i = Some us -> wf ts -> wf us.
Proof.
  intros H (A & B & C & D). apply thread_step_shape in H. destruct H as (t & t' & act & E & -> & P & Hh).
  pose proof (Forall_nth_ _ _ _ _ E A) as At. pose proof (Forall_nth_ _ _ _ _ E B) as Bt. cbv beta in At, Bt. rewrite P in At, Bt.
  split; [|split; [|split]].
  - eapply Forall_upd; eauto. rewrite Hh. destruct act as [m w|m|k]; cbn [ordered] in At.
    + destruct At as (_ & At). exact At.
    + destruct At as (a & b & E1 & N & O). now rewrite (release_split _ _ _ _ E1 N).
    + destruct At as (E1 & O). now rewrite E1.
  - eapply Forall_upd; eauto. intros k Hk. apply Bt. now right.
  - intros q Eq k Hk. destruct i as [|i].
    + destruct ts as [|t0 ts]; [discriminate|]. cbn in E, Eq. inversion E; inversion Eq; subst. apply (C t eq_refl k). rewrite P. now right.
    + destruct ts as [|t0 ts]; [discriminate|]. cbn in Eq. inversion Eq; subst. exact (C q eq_refl k Hk).
  - destruct (firstn i ts); discriminate.
Qed.

Lemma reaches_wf ts us : reaches ts us -> wf ts -> wf us.
Proof. induction 1; auto. intros W. eapply step_wf; eauto. Qed.

(** Progress. *)
Definition waiting (t : thread) : option N := match th_prog t with ALock m _ :: _ => Some m | _ => None end.

Lemma max_waiting (ts : list thread) : (forall t, In t ts -> waiting t = None) \/
  exists t m, In t ts /\ waiting t = Some m /\ forall u k, In u ts -> waiting u = Some k -> k <= m.
Proof.
  induction ts as [|t ts IH]; [left; intros ? []|]. destruct (waiting t) as [m|] eqn:W.
  - right. destruct IH as [N|(u & k & Iu & Wu & M)].
    + exists t, m. split; [now left|]. split; auto. intros v q [<-|Iv] Wv; [rewrite W in Wv; inversion Wv; lia|]. rewrite N in Wv by auto. discriminate.
    + destruct (N.le_gt_cases m k).
      * exists u, k. split; [now right|]. split; auto. intros v q [<-|Iv] Wv; [rewrite W in Wv; inversion Wv; lia|eauto].
      * exists t, m. split; [now left|]. split; auto. intros v q [<-|Iv] Wv; [rewrite W in Wv; inversion Wv; lia|].
        specialize (M v q Iv Wv). lia.
  - destruct IH as [N|(u & k & Iu & Wu & M)].
    + left. intros u [<-|Iu]; auto.
    + right. exists u, k. split; [now right|]. split; auto. intros v q [<-|Iv] Wv; [congruence|eauto].
Qed.

Lemma holds_In t m : holds t m = true <-> In m (map fst (th_held t)).
Proof.
  unfold holds. rewrite existsb_exists, in_map_iff. split.
  - intros (h & I & E). apply N.eqb_eq in E. exists h. auto.
  - intros (h & E & I). exists h. split; auto. now apply N.eqb_eq.
Qed.

Lemma excl_holds t m : holds_exclusively t m = true -> holds t m = true.
Proof. unfold holds_exclusively, holds. rewrite !existsb_exists. intros (h & I & E). exists h. split; auto. apply andb_true_iff in E. tauto. Qed.

Lemma progress ts : wf ts -> (exists t, In t ts /\ finished t = false) -> exists i us, thread_step true ts i = Some us.
Proof.
  intros (A & B & C & D) (t0 & I0 & F0).
  assert (Unl : forall t m p, In t ts -> th_prog t = AUnlock m :: p -> exists i us, thread_step true ts i = Some us).
  { intros t m p It P. apply In_nth_error in It. destruct It as (i & Ei). exists i. unfold thread_step. rewrite Ei, P. eauto. }
  destruct (max_waiting ts) as [N|(t & m & It & W & Mx)].
  - assert (Fin : forall t, In t ts -> (exists m p, th_prog t = AUnlock m :: p) \/ finished t = true \/ exists k p, th_prog t = AJoin k :: p).
    { intros t It. specialize (N t It). unfold waiting, finished in *. destruct (th_prog t) as [|[m w|m|k] p]; eauto. discriminate. }
    destruct (Fin t0 I0) as [(m & p & P)|[F|(k & p & P)]]; [eauto|congruence|].
    rewrite Forall_forall in B. assert (k = 0%nat) as -> by (eapply (B t0 I0 k); rewrite P; now left).
    destruct ts as [|c ts]; [contradiction|]. specialize (C c eq_refl).
    destruct (Fin c (or_introl eq_refl)) as [(m & p' & P')|[F|(k & p' & P')]].
    + eapply Unl; [now left|exact P'].
    + apply In_nth_error in I0. destruct I0 as (i & Ei). exists i. unfold thread_step. rewrite Ei, P. cbn [nth_error]. rewrite F. eauto.
    + exfalso. apply (C k). rewrite P'. now left.
  - destruct (existsb (fun u => holds u m) ts) eqn:H.
    + apply existsb_exists in H. destruct H as (u & Iu & Hu). apply holds_In in Hu. rewrite Forall_forall in A. specialize (A u Iu). cbv beta in A.
      destruct (th_prog u) as [|[m' w|m'|k] p] eqn:P; cbn [ordered] in A.
      * rewrite A in Hu. contradiction.
      * destruct A as (Lt & _). rewrite Forall_forall in Lt. specialize (Lt m Hu).
        assert (m' <= m); [|lia]. apply (Mx u m' Iu). unfold waiting. now rewrite P.
      * eauto.
      * destruct A as (E & _). rewrite E in Hu. contradiction.
    + assert (NH : forall u, In u ts -> holds u m = false).
      { intros u Iu. apply not_true_is_false. intros Hu. rewrite (proj2 (existsb_exists _ _)) in H; [discriminate|]. eauto. }
      assert (F1 : forallb (fun u => negb (holds u m)) ts = true).
      { apply forallb_forall. intros u Iu. now rewrite NH. }
      destruct (existsb (fun u => waits_exclusively u m) ts) eqn:We.
      * apply existsb_exists in We. destruct We as (u & Iu & Wu). unfold waits_exclusively in Wu.
        destruct (th_prog u) as [|[m' []|m'|k] p] eqn:P; try discriminate. apply N.eqb_eq in Wu. subst m'.
        apply In_nth_error in Iu. destruct Iu as (i & Ei). exists i. unfold thread_step. rewrite Ei, P, F1. eauto.
      * unfold waiting in W. destruct (th_prog t) as [|[m' w|m'|k] p] eqn:P; try discriminate. inversion W; subst m'.
        apply In_nth_error in It. destruct It as (i & Ei). exists i. unfold thread_step. rewrite Ei, P. destruct w; [rewrite F1; eauto|].
        assert (F2 : forallb (fun u => negb (holds_exclusively u m)) ts = true).
        { apply forallb_forall. intros u Iu. apply negb_true_iff. apply not_true_is_false. intros C'. apply excl_holds in C'. rewrite NH in C' by auto. discriminate. }
        assert (F3 : forallb (fun u => negb (waits_exclusively u m)) ts = true).
        { apply forallb_forall. intros u Iu. apply negb_true_iff. apply not_true_is_false. intros C'.
          rewrite (proj2 (existsb_exists _ _)) in We; [discriminate|]. eauto. }
        rewrite F2, F3. cbn [negb orb andb]. eauto.
Qed.

Definition remaining (ts : list thread) : nat := fold_right (fun t n => (length (th_prog t) + n)%nat) 0%nat ts.

Lemma remaining_app a b : remaining (a ++ b) = (remaining a + remaining b)%nat.
Proof. unfold remaining. induction a as [|x a IH]; cbn [app fold_right]; lia. Qed.
Lemma remaining_cons a b : remaining (a :: b) = (length (th_prog a) + remaining b)%nat.
Proof. reflexivity. Qed.

Lemma step_remaining strict ts i us : thread_step strict ts i = Some us -> remaining ts = S (remaining us).
Proof.
  intros H. apply thread_step_shape in H. destruct H as (t & t' & act & E & -> & P & _).
  rewrite (nth_split_ _ _ _ E) at 1. rewrite !remaining_app, !remaining_cons, P. cbn [length]. lia.
Qed.

(** A strict step is also a step under the weaker policy. *)
Lemma strict_step ts i us : thread_step true ts i = Some us -> thread_step false ts i = Some us.
Proof.
  unfold thread_step. destruct (nth_error ts i) as [t|]; [|auto]. destruct (th_prog t) as [|[m w|m|k] p]; auto.
  destruct w; auto. cbn [negb orb]. destruct (forallb (fun u => negb (holds_exclusively u m)) ts); cbn [andb]; [|discriminate].
  destruct (forallb _ ts); [auto|discriminate].
Qed.

(** Mutual exclusion. *)
Definition exclusive (ts : list thread) : Prop := forall i j t u m, nth_error ts i = Some t -> nth_error ts j = Some u -> i <> j ->
  holds_exclusively t m = true -> holds u m = false.

Lemma nth_upd {A} (l : list A) i x y j : nth_error l i = Some x ->
  nth_error (firstn i l ++ y :: skipn (S i) l) j = if Nat.eq_dec j i then Some y else nth_error l j.
Proof.
  revert l j. induction i as [|i IH]; intros [|z l] j E; cbn in E; try discriminate.
  - inversion E; subst. destruct j; cbn; reflexivity.
  - destruct j as [|j]; [reflexivity|]. cbn [firstn skipn app nth_error]. rewrite IH by auto.
    destruct (Nat.eq_dec j i), (Nat.eq_dec (S j) (S i)); auto; lia.
Qed.

Lemma release_In m h x : In x (release m h) -> In x h.
Proof. induction h as [|y h IH]; cbn [release]; [auto|]. destruct (fst y =? m); [now right|]. intros [->|H]; [now left|right; auto]. Qed.

Lemma step_exclusive ts i us : thread_step false ts i = Some us -> exclusive ts -> exclusive us.
Proof.
  intros H X. pose proof H as H0. apply thread_step_shape in H0. destruct H0 as (t & t' & act & E & -> & P & Hh).
  intros a b ta tb m Ea Eb Nab Hx. rewrite (nth_upd _ _ _ _ a E) in Ea. rewrite (nth_upd _ _ _ _ b E) in Eb.
  assert (Sub : forall m, (forall w, act <> ALock m w) -> (holds t' m = true -> holds t m = true) /\ (holds_exclusively t' m = true -> holds_exclusively t m = true)).
  { intros m0 Na. unfold holds, holds_exclusively. rewrite Hh. rewrite !existsb_exists. destruct act as [m1 w|m1|k].
    - split; (intros (h & [<-|I] & Eh); [cbn [fst snd] in Eh; try (apply andb_true_iff in Eh; destruct Eh as (Eh & _)); apply N.eqb_eq in Eh; subst; exfalso; eapply Na; reflexivity|eauto]).
    - split; intros (h & I & Eh); apply release_In in I; eauto.
    - split; auto. }
  assert (Acq : forall w, act = ALock m w -> (w = true -> forall u, In u ts -> holds u m = false) /\ (forall u, In u ts -> holds_exclusively u m = false)).
  { intros w ->. unfold thread_step in H. rewrite E, P in H. split.
    - intros ->. intros u Iu. destruct (forallb (fun u => negb (holds u m)) ts) eqn:F; [|discriminate]. rewrite forallb_forall in F. apply negb_true_iff. auto.
    - intros u Iu. apply not_true_is_false. intros Hu. destruct w.
      + destruct (forallb (fun u => negb (holds u m)) ts) eqn:F; [|discriminate]. rewrite forallb_forall in F. specialize (F u Iu).
        apply excl_holds in Hu. rewrite Hu in F. discriminate.
      + destruct (forallb (fun u => negb (holds_exclusively u m)) ts) eqn:F; [|discriminate]. rewrite forallb_forall in F. specialize (F u Iu). rewrite Hu in F. discriminate. }
  assert (Dec : (exists w, act = ALock m w) \/ forall w, act <> ALock m w).
  { destruct act as [m1 w|m1|k]; [|right; discriminate..]. destruct (N.eq_dec m1 m) as [->|Ne]; [eauto|]. right. intros w' [= ? ?]. auto. }
  destruct (Nat.eq_dec a i) as [->|Na]; destruct (Nat.eq_dec b i) as [->|Nb]; try congruence.
  - inversion Ea; subst ta. destruct Dec as [(w & ->)|Dn].
    + destruct (Acq w eq_refl) as (A1 & A2). pose proof (nth_error_In _ _ Eb) as Ib. destruct w; [auto|].
      exfalso. unfold holds_exclusively in Hx. rewrite Hh in Hx. cbn [existsb fst snd] in Hx. rewrite andb_false_r in Hx. cbn [orb] in Hx.
      change (holds_exclusively t m = true) in Hx. rewrite A2 in Hx; [discriminate|]. eapply nth_error_In; eauto.
    + apply (X i b t tb m); auto. now apply Sub.
  - inversion Eb; subst tb. destruct Dec as [(w & ->)|Dn].
    + destruct (Acq w eq_refl) as (A1 & A2). rewrite A2 in Hx; [discriminate|]. eapply nth_error_In; eauto.
    + apply not_true_is_false. intros Ht. apply Sub in Ht; auto. rewrite (X a i ta t m) in Ht; auto. discriminate.
  - apply (X a b ta tb m); auto.
Qed.

(** The threads of a data provider are well-formed. *)
Lemma ordered_app p q : ordered [] p -> ordered [] q -> ordered [] (p ++ q).
Proof.
  intros H Q. assert (G : forall p held, ordered held p -> ordered held (p ++ q)); [|now apply G].
  clear - Q. induction p as [|[m w|m|k] p IH]; intros held H; cbn [app ordered] in *.
  - now subst.
  - destruct H as (? & ?). auto.
  - destruct H as (a & b & ? & ? & ?). exists a, b. auto.
  - destruct H as (? & ?). auto.
Qed.

Lemma ordered_one m w : ordered [] [ALock m w; AUnlock m].
Proof. cbn. split; [constructor|]. exists [], []. cbn. auto. Qed.

(** Taking an increasing list of mutexes on top of smaller ones, doing
    something, and releasing them. *)
Lemma ordered_unlocks l : forall held mid, NoDup l -> (forall x, In x held -> ~ In x l) -> ordered held mid ->
  ordered (rev l ++ held) (map AUnlock l ++ mid).
Proof.
  induction l as [|x l IH]; intros held mid N Dj O; cbn [map app rev]; [exact O|].
  cbn [ordered]. apply NoDup_cons_iff in N. destruct N as (N1 & N2). exists (rev l), held. split; [now rewrite <- app_assoc|]. split.
  - rewrite <- in_rev. exact N1.
  - apply IH; auto. intros y Hy C. apply (Dj y Hy). now right.
Qed.

Lemma ordered_locks l : forall held rest, StronglySorted N.lt l -> (forall x y, In x held -> In y l -> x < y) -> ordered (rev l ++ held) rest ->
  ordered held (map (fun m => ALock m true) l ++ rest).
Proof.
  induction l as [|x l IH]; intros held rest S Lt O; cbn [map app rev] in *; [exact O|].
  inversion S as [|? ? S1 F1]; subst. cbn [ordered]. split; [apply Forall_forall; intros h Hh; apply Lt; auto; now left|].
  apply IH; auto.
  - intros a b [<-|Ha] Hb; [rewrite Forall_forall in F1; auto|]. apply Lt; auto. now right.
  - rewrite <- app_assoc in O. exact O.
Qed.

Lemma sorted_NoDup l : StronglySorted N.lt l -> NoDup l.
Proof. induction 1 as [|x l S IH F]; constructor; auto. intros C. rewrite Forall_forall in F. apply F in C. lia. Qed.

Lemma ins_id_sorted x l : StronglySorted sle l -> StronglySorted sle (ins_id x l).
Proof.
  assert (P : forall x l, Permutation (x :: l) (ins_id x l)).
  { clear. intros x l. induction l as [|y l IH]; cbn [ins_id]; [reflexivity|]. destruct (sltb x y); [reflexivity|]. rewrite perm_swap. now constructor. }
  induction 1 as [|y l S IH F]; cbn [ins_id]; [repeat constructor|]. destruct (sltb_spec x y) as [L|L].
  - constructor; [now constructor|]. constructor; [rewrite sle_alt; auto|]. eapply Forall_impl; [|exact F]. intros z Hz. eapply sle_trans; [|exact Hz]. rewrite sle_alt. auto.
  - constructor; auto. eapply Permutation_Forall; [apply P|]. constructor; auto. destruct (sle_total y x); auto. contradiction.
Qed.
Lemma sort_ids_sorted l : StronglySorted sle (sort_ids l).
Proof. induction l; cbn [sort_ids fold_right]; [constructor|]. now apply ins_id_sorted. Qed.
Lemma sort_ids_In l x : In x (sort_ids l) <-> In x l.
Proof.
  induction l as [|y l IH]; [reflexivity|]. cbn [sort_ids fold_right].
  assert (Q : forall l, In x (ins_id y l) <-> y = x \/ In x l).
  { clear. induction l as [|z l IH]; cbn [ins_id In]; [reflexivity|]. destruct (sltb y z); cbn [In]; [tauto|]. rewrite IH. tauto. }
  rewrite Q. fold (sort_ids l). rewrite IH. reflexivity.
Qed.

Lemma sle_mutex a b : sle a b -> mutex_of a <= mutex_of b.
Proof.
  rewrite sle_alt. intros [H| ->]; [|lia]. destruct a as [|x a], b as [|y b]; cbn [mutex_of]; try lia.
  - discriminate H.
  - unfold slt in H. cbn [scmp] in H. destruct (N.compare_spec x y); try discriminate; lia.
Qed.

Lemma lock_loop_sorted : forall ids locked, StronglySorted sle ids -> (forall m id, In m locked -> In id ids -> m <= mutex_of id) ->
  StronglySorted N.lt (lock_loop ids locked) /\ (forall m, In m (lock_loop ids locked) -> ~ In m locked /\ exists id, In id ids /\ mutex_of id = m) /\
  (forall id, In id ids -> In (mutex_of id) locked \/ In (mutex_of id) (lock_loop ids locked)).
Proof.
  induction ids as [|id ids IH]; intros locked S Lk; cbn [lock_loop].
  - split; [constructor|]. split; [intros ? []|intros ? []].
  - inversion S as [|? ? S1 F1]; subst. rewrite Forall_forall in F1. destruct (existsb (N.eqb (mutex_of id)) locked) eqn:E.
    + apply existsb_exists in E. destruct E as (m0 & Im & Em). apply N.eqb_eq in Em. subst m0.
      destruct (IH locked S1) as (A & B & C). { intros; apply Lk; auto; now right. } split; auto. split.
      * intros m Hm. destruct (B m Hm) as (B1 & q & B2 & B3). split; auto. exists q. split; auto. now right.
      * intros q [<-|Iq]; auto.
    + assert (NE : ~ In (mutex_of id) locked).
      { intros C. rewrite (proj2 (existsb_exists _ _)) in E; [discriminate|]. exists (mutex_of id). split; auto. apply N.eqb_refl. }
      destruct (IH (mutex_of id :: locked) S1) as (A & B & C).
      { intros m q [<-|Hm] Hq; [apply sle_mutex; auto|apply Lk; auto; now right]. }
      split; [|split].
      * constructor; auto. apply Forall_forall. intros m Hm. destruct (B m Hm) as (B1 & q & B2 & B3).
        assert (mutex_of id <= m) by (subst m; apply sle_mutex; auto). assert (mutex_of id <> m) by (intros C'; apply B1; now left). lia.
      * intros m [<-|Hm]; [split; auto; exists id; split; [now left|auto]|]. destruct (B m Hm) as (B1 & q & B2 & B3).
        split; [intros C'; apply B1; now right|]. exists q. split; auto. now right.
      * intros q [<-|Iq]; [right; now left|]. destruct (C q Iq) as [[C'|C']|C']; [right; left; auto|auto|right; now right].
Qed.

Lemma write_lock_all_spec ids : StronglySorted N.lt (write_lock_all ids) /\ forall m, In m (write_lock_all ids) <-> exists id, In id ids /\ mutex_of id = m.
Proof.
  unfold write_lock_all. destruct (lock_loop_sorted (sort_ids ids) []) as (A & B & C); [apply sort_ids_sorted|intros ? ? []|].
  split; auto. intros m. split.
  - intros H. destruct (B m H) as (_ & id & I & E). exists id. split; auto. now apply sort_ids_In.
  - intros (id & I & <-). destruct (C id) as [[]|H]; auto. now apply sort_ids_In.
Qed.

Lemma map_content_sorted l : StronglySorted N.lt l -> StronglySorted N.lt (map m_content l).
Proof.
  induction 1 as [|x l S IH F]; cbn [map]; constructor; auto. apply Forall_forall. intros y Hy. apply in_map_iff in Hy. destruct Hy as (z & <- & Hz).
  rewrite Forall_forall in F. specialize (F z Hz). unfold m_content. lia.
Qed.

Lemma lock_all_sorted : StronglySorted N.lt lock_all_mutexes /\ forall x, In x lock_all_mutexes -> x < 256.
Proof.
  unfold lock_all_mutexes. split.
  - assert (H : forall n k, StronglySorted N.lt (map N.of_nat (seq k n))).
    { induction n as [|n IH]; intros k; cbn [seq map]; constructor; auto. apply Forall_forall. intros y Hy. apply in_map_iff in Hy.
      destruct Hy as (z & <- & Hz). apply List.in_seq in Hz. lia. }
    apply H.
  - intros x Hx. apply in_map_iff in Hx. destruct Hx as (z & <- & Hz). apply List.in_seq in Hz. lia.
Qed.

Lemma request_ordered q : ordered [] (request_actions q).
Proof.
  destruct q as [id wr hit|probed missing| |]; cbn [request_actions].
  - apply ordered_app; [destruct wr; [apply ordered_one|reflexivity]|]. destruct (wr && hit); [reflexivity|apply ordered_one].
  - apply ordered_app.
    + induction probed as [|id probed IH]; cbn [flat_map]; [reflexivity|]. apply ordered_app; [apply ordered_one|exact IH].
    + destruct missing as [|x missing]; [reflexivity|]. destruct (write_lock_all_spec (x :: missing)) as (S & _).
      set (l := write_lock_all (x :: missing)) in *. clearbody l. apply map_content_sorted in S.
      rewrite <- (map_map m_content (fun m => ALock m true)), <- (map_map m_content AUnlock).
      apply ordered_locks; auto; [intros ? ? []|]. rewrite <- (app_nil_r (map AUnlock _)). apply ordered_unlocks; [now apply sorted_NoDup|intros ? []|reflexivity].
  - cbn. split; [constructor|]. exists [], []. cbn. auto.
  - apply (ordered_app [_; _] [_; _]); apply ordered_one.
Qed.

Lemma client_ordered qs : ordered [] (client qs).
Proof. induction qs as [|q qs IH]; cbn [client flat_map]; [reflexivity|]. apply ordered_app; [apply request_ordered|exact IH]. Qed.

Lemma iteration_ordered b rest : ordered [m_shutdown] rest -> ordered [m_shutdown] (cleanup_iteration b ++ rest).
Proof.
  intros R. unfold cleanup_iteration. cbn [app ordered]. exists [], []. split; [reflexivity|]. split; [auto|]. cbn [app]. split; [constructor|].
  destruct b; [|exact R]. destruct lock_all_sorted as (S & Lt). set (l := lock_all_mutexes) in *. clearbody l.
  rewrite <- !app_assoc. pose proof (map_content_sorted _ S) as S'.
  rewrite <- (map_map m_content (fun m => ALock m true)), <- (map_map m_content AUnlock).
  assert (Rng : forall y, In y (map m_content l) -> m_shutdown < y /\ y < m_cleaned).
  { intros y Hy. apply in_map_iff in Hy. destruct Hy as (z & <- & Hz). specialize (Lt z Hz). unfold m_content, m_shutdown, m_cleaned. lia. }
  apply ordered_locks; auto.
  - intros x y [<-|[]] Hy. now apply Rng.
  - cbn [app ordered]. split.
    + apply Forall_forall. intros x Hx. apply in_app_or in Hx. destruct Hx as [Hx|[<-|[]]]; [apply in_rev in Hx; now apply Rng|reflexivity].
    + exists [], (rev (map m_content l) ++ [m_shutdown]). split; [reflexivity|]. split; [auto|]. cbn [app].
      apply ordered_unlocks; auto; [now apply sorted_NoDup|]. intros x [<-|[]] C. apply Rng in C. lia.
Qed.

Lemma cleaner_ordered its : ordered [] (cleaner its).
Proof.
  unfold cleaner. cbn [app ordered]. split; [constructor|].
  induction its as [|b its IH]; cbn [flat_map app].
  - cbn [ordered]. exists [], []. cbn. auto.
  - rewrite <- app_assoc. now apply iteration_ordered.
Qed.

Lemma map_lock_join {A} (f : A -> action) l k : (forall x k, f x <> AJoin k) -> ~ In (AJoin k) (map f l).
Proof. intros H C. apply in_map_iff in C. destruct C as (x & E & _). eapply H; eauto. Qed.

Lemma request_joins q k : In (AJoin k) (request_actions q) -> k = 0%nat.
Proof.
  destruct q as [id wr hit|probed missing| |]; cbn [request_actions].
  - intros H. apply in_app_or in H. destruct H as [H|H].
    + destruct wr; cbn in H; intuition discriminate.
    + destruct (wr && hit); cbn in H; intuition discriminate.
  - intros H. apply in_app_or in H. destruct H as [H|H].
    + apply in_flat_map in H. destruct H as (x & _ & H). cbn in H. intuition discriminate.
    + destruct missing; [contradiction|]. apply in_app_or in H. destruct H as [H|H]; exfalso; revert H; apply map_lock_join; discriminate.
  - cbn. intros [H|[H|[H|[]]]]; try discriminate. now inversion H.
  - cbn. intuition discriminate.
Qed.

Lemma cleaner_joins its k : ~ In (AJoin k) (cleaner its).
Proof.
  intros H. unfold cleaner in H. apply in_app_or in H. destruct H as [H|H]; [cbn in H; intuition discriminate|].
  apply in_app_or in H. destruct H as [H|H]; [|cbn in H; intuition discriminate].
  apply in_flat_map in H. destruct H as (b & _ & H). unfold cleanup_iteration in H. apply in_app_or in H.
  destruct H as [H|H]; [cbn in H; intuition discriminate|]. destruct b; [|contradiction].
  apply in_app_or in H. destruct H as [H|H]; [revert H; apply map_lock_join; discriminate|].
  apply in_app_or in H. destruct H as [H|H]; [cbn in H; intuition discriminate|]. revert H. apply map_lock_join. discriminate.
Qed.

Lemma provider_wf its clients : wf (provider_threads its clients).
Proof.
  unfold provider_threads. split; [|split; [|split]].
  - constructor; [apply cleaner_ordered|]. apply Forall_forall. intros t Ht. apply in_map_iff in Ht. destruct Ht as (qs & <- & _). apply client_ordered.
  - constructor; [intros k Hk; exfalso; eapply cleaner_joins; eauto|]. apply Forall_forall. intros t Ht. apply in_map_iff in Ht. destruct Ht as (qs & <- & _).
    cbn [th_prog]. intros k Hk. unfold client in Hk. apply in_flat_map in Hk. destruct Hk as (q & _ & Hq). eapply request_joins; eauto.
  - intros t E. inversion E; subst. apply cleaner_joins.
  - discriminate.
Qed.

Lemma provider_exclusive its clients : exclusive (provider_threads its clients).
Proof.
  intros i j t u m Ei Ej _ H. exfalso. apply nth_error_In in Ei. destruct Ei as [<-|Ei]; [discriminate H|].
  apply in_map_iff in Ei. destruct Ei as (qs & <- & _). discriminate H.
Qed.

Lemma reaches_exclusive ts us : reaches ts us -> exclusive ts -> exclusive us.
Proof. induction 1; auto. intros X. eapply step_exclusive; eauto. Qed.
