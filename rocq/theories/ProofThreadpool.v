From Verif Require Import Base ListX ModelThreadpool SpecThreadpool.
Local Open Scope Z_scope.

Lemma queued_app a b : queued (a ++ b) = queued a ++ queued b.
Proof. induction a as [|[] a IH]; cbn; now rewrite ?IH. Qed.
Lemma started_app a b : started (a ++ b) = started a ++ started b.
Proof. induction a as [|[] a IH]; cbn; now rewrite ?IH. Qed.
Lemma ended_app a b : ended (a ++ b) = ended a ++ ended b.
Proof. induction a as [|[] a IH]; cbn; now rewrite ?IH. Qed.
Lemma finished_app a b : finished (a ++ b) = finished a ++ finished b.
Proof. induction a as [|[] a IH]; cbn; now rewrite ?IH. Qed.
Lemma completed_app a b : completed (a ++ b) = completed a ++ completed b.
Proof. induction a as [|[] a IH]; cbn; now rewrite ?IH. Qed.
Lemma retrieved_app a b : retrieved (a ++ b) = retrieved a ++ retrieved b.
Proof. induction a as [|[] a IH]; cbn; rewrite ?IH, <- ?app_assoc; reflexivity. Qed.
Lemma got_app a b : got (a ++ b) = got a ++ got b.
Proof. induction a as [|[] a IH]; cbn; now rewrite ?IH. Qed.

(** Tasks a worker holds, those still in ThreadRun, pending decrements, work left. *)
Definition holds (w : wstate) : list task := match w with WRun t | WPush t => [t] | _ => [] end.
Definition runs (w : wstate) : list task := match w with WRun t => [t] | _ => [] end.
Definition pend (w : wstate) : Z := match w with WRun _ | WPush _ | WLoop true => 1 | _ => 0 end.
Definition weight (w : wstate) : nat :=
  match w with WRun _ => 4 | WPush _ => 3 | WLoop _ => 2 | WAwait => 1 | WExit => 0 end.
Definition pends (l : list wstate) : Z := fold_right (fun w z => pend w + z) 0 l.
Definition weights (l : list wstate) : nat := fold_right (fun w z => (weight w + z)%nat) 0%nat l.

Lemma pends_app a b : pends (a ++ b) = pends a + pends b.
Proof. induction a; cbn; [reflexivity|]. unfold pends in *. lia. Qed.
Lemma weights_app a b : weights (a ++ b) = (weights a + weights b)%nat.
Proof. induction a; cbn; [reflexivity|]. unfold weights in *. lia. Qed.

Lemma split_nth {A} (l : list A) i x : nth_error l i = Some x -> l = firstn i l ++ x :: skipn (S i) l.
Proof.
  revert i; induction l as [|a l IH]; intros [|i] H; cbn in *; try discriminate.
  - now inversion H.
  - f_equal. now apply IH.
Qed.

Record Inv (p : pool) (tr : list event) : Prop := {
  I_queue : queued tr = started tr ++ tp_queue p;
  I_run : Permutation (started tr) (ended tr ++ flat_map runs (tp_workers p));
  I_fin : Permutation (started tr) (finished tr ++ flat_map holds (tp_workers p));
  I_one : length (tp_workers p) = 1%nat -> started tr = finished tr ++ flat_map holds (tp_workers p);
  I_out : tp_outstanding p = Z.of_nat (length (tp_queue p)) + pends (tp_workers p);
  I_comp : completed tr = retrieved tr ++ tp_completed p }.

Lemma init_Inv n : Inv (pool_init n) [].
Proof.
  assert (R : forall f : wstate -> list task, f (WLoop false) = [] -> flat_map f (repeat (WLoop false) n) = []).
  { intros f Hf. induction n; cbn; [reflexivity|]. now rewrite Hf, IHn. }
  assert (P : pends (repeat (WLoop false) n) = 0). { clear R. induction n; cbn; [reflexivity|]. exact IHn. }
  split; cbn [pool_init tp_queue tp_workers tp_outstanding tp_completed]; cbn [queued started ended finished completed retrieved app];
    rewrite ?R by reflexivity; auto.
Qed.

Lemma split_nth' {A} (l : list A) i x : nth_error l i = Some x ->
  exists W1 W2, l = W1 ++ x :: W2 /\ forall w, firstn i l ++ w :: skipn (S i) l = W1 ++ w :: W2.
Proof. intros H. apply split_nth in H. eauto. Qed.

Ltac evs := rewrite ?queued_app, ?started_app, ?ended_app, ?finished_app, ?completed_app, ?retrieved_app in *;
            cbn [queued started ended finished completed retrieved app] in *; rewrite ?app_nil_r in *.
Ltac one_worker H L R := rewrite app_length in H; cbn [length] in H;
  assert (L = []) as -> by (apply length_zero_iff_nil; lia); assert (R = []) as -> by (apply length_zero_iff_nil; lia).

Lemma perm_mid {A} (x : A) (a b c : list A) : Permutation (a ++ b ++ c) (a ++ b ++ c) -> Permutation ((a ++ b ++ c) ++ [x]) (a ++ b ++ x :: c).
Proof. intros _. rewrite <- !app_assoc. apply Permutation_app_head, Permutation_app_head. rewrite <- Permutation_cons_append. reflexivity. Qed.

Lemma take_Inv p tr i w :
  nth_error (tp_workers p) i = Some w -> holds w = [] -> runs w = [] ->
  Inv (mkpool (tp_queue p) (tp_outstanding p + pend w) (tp_shutdown p) (tp_joining p) (tp_completed p) (tp_callback p) (tp_workers p)) tr ->
  Inv (fst (take p i)) (tr ++ snd (take p i)).
Proof.
  intros Hn Hh Hr [A B C D E F]. cbn in A, B, C, D, E, F. unfold take.
  destruct (split_nth' _ _ _ Hn) as (W1 & W2 & Hw & HS). clear Hn. rewrite Hw in B, C, D, E.
  assert (Pw : forall w', pends (W1 ++ w' :: W2) = pends W1 + pend w' + pends W2).
  { intros. rewrite pends_app. cbn [pends fold_right]. change (fold_right _ 0 W2) with (pends W2). lia. }
  assert (FM : forall f : wstate -> list task, flat_map f (W1 ++ w :: W2) = flat_map f W1 ++ f w ++ flat_map f W2) by (intros; rewrite flat_map_app; reflexivity).
  rewrite Pw in E. rewrite !FM, ?Hh, ?Hr in *. cbn [app] in *.
  assert (L' : forall w', length (W1 ++ w' :: W2) = length (W1 ++ w :: W2)) by (intros; rewrite !app_length; reflexivity).
  destruct (tp_shutdown p) eqn:Sd; [|destruct (tp_queue p) as [|t q] eqn:Q];
    cbn [fst snd]; unfold set_worker; cbn [tp_workers tp_queue tp_outstanding tp_completed];
    (split; cbn [tp_workers tp_queue tp_outstanding tp_completed]; rewrite ?HS;
     rewrite ?flat_map_app; cbn [flat_map holds runs app]; rewrite ?Pw; cbn [pend length]; evs; auto).
  all: try (rewrite L'; auto); try (rewrite ?Q; cbn [length] in *; lia).
  { rewrite Q, app_nil_r. exact A. }
  - rewrite A, <- app_assoc. reflexivity.
  - rewrite (Permutation_app_tail [t] B). apply perm_mid; auto.
  - rewrite (Permutation_app_tail [t] C). apply perm_mid; auto.
  - intros H. rewrite (D H). clear - H. one_worker H W1 W2. cbn. now rewrite app_nil_r, <- ?app_assoc.
Qed.

Lemma step_Inv p tr a p' e : Inv p tr -> pool_step p a = Some (p', e) -> Inv p' (tr ++ e).
Proof.
  intros I. pose proof I as [A B C D E F]. destruct a as [t| | | |n tmo| |b| | |i]; cbn [pool_step].
  - intros [= <- <-]. split; cbn [tp_workers tp_queue tp_outstanding tp_completed]; evs; auto.
    + rewrite A, app_assoc. reflexivity.
    + rewrite app_length. cbn [length]. lia.
  - destruct (tp_completed p) as [|t c] eqn:Q; intros [= <- <-]; split; cbn [tp_workers tp_queue tp_outstanding tp_completed]; evs; auto.
    + rewrite Q. cbn. now rewrite F, app_nil_r.
    + rewrite <- app_assoc. exact F.
  - destruct (tp_completed p) as [|t c] eqn:Q; intros [= <- <-]; split; cbn [tp_workers tp_queue tp_outstanding tp_completed]; evs; auto.
    rewrite <- app_assoc. exact F.
  - destruct (tp_outstanding p =? 0); intros [= <- <-]. split; evs; auto.
  - cbn zeta. destruct (_ || tmo); intros [= <- <-]. split; evs; auto.
  - intros [= <- <-]. split; evs; auto.
  - intros [= <- <-]. split; cbn [tp_workers tp_queue tp_outstanding tp_completed]; evs; auto.
  - intros [= <- <-]. split; cbn [tp_workers tp_queue tp_outstanding tp_completed]; evs; auto.
  - destruct (_ && _); intros [= <- <-]. split; cbn [tp_workers tp_queue tp_outstanding tp_completed]; evs; auto.
  - unfold worker_step. destruct (nth_error (tp_workers p) i) as [w|] eqn:Hn; [|discriminate].
    destruct w as [fin| |t|t|].
    + intros [= H]. match type of H with take ?q _ = _ => set (p0 := q) in *; pose proof (take_Inv p0 tr i (WLoop fin)) as T end.
      rewrite H in T. cbn [fst snd] in T. apply T; auto. unfold p0. cbn.
      split; cbn [tp_workers tp_queue tp_outstanding tp_completed]; auto. destruct fin; cbn; lia.
    + destruct (_ || _); [|discriminate]. intros [= H]. pose proof (take_Inv p tr i WAwait Hn eq_refl eq_refl) as T.
      rewrite H in T. cbn [fst snd] in T. apply T; auto.
      split; cbn [tp_workers tp_queue tp_outstanding tp_completed]; auto. cbn. lia.
    + intros [= <- <-]. destruct (split_nth' _ _ _ Hn) as (W1 & W2 & Hw & HS). clear Hn. rewrite Hw in B, C, D, E. unfold set_worker.
      split; cbn [tp_workers tp_queue tp_outstanding tp_completed]; rewrite ?HS; evs; auto.
      * rewrite B, flat_map_app. cbn [flat_map runs app]. rewrite flat_map_app. cbn [flat_map runs app].
        rewrite <- (app_assoc (ended tr)). apply Permutation_app_head. cbn. symmetry. apply Permutation_middle.
      * rewrite C, !flat_map_app. reflexivity.
      * intros H. rewrite D; [now rewrite !flat_map_app|]. rewrite app_length in *; exact H.
      * rewrite E, !pends_app. reflexivity.
    + assert (G : forall e' : list event, queued e' = [] -> started e' = [] -> ended e' = [] -> finished e' = [t] -> forall c cb, completed (tr ++ e') = retrieved (tr ++ e') ++ c ->
          Inv (set_worker (mkpool (tp_queue p) (tp_outstanding p) (tp_shutdown p) (tp_joining p) c cb (tp_workers p)) i (WLoop true)) (tr ++ e')).
      { intros e' e1 e2 e3 e4 c cb Hc. destruct (split_nth' _ _ _ Hn) as (W1 & W2 & Hw & HS). clear Hn. rewrite Hw in B, C, D, E. unfold set_worker. cbn [tp_workers].
        split; cbn [tp_workers tp_queue tp_outstanding tp_completed]; rewrite ?HS; auto; evs;
          rewrite ?e1, ?e2, ?e3, ?e4, ?app_nil_r; auto.
        - rewrite B, !flat_map_app. reflexivity.
        - rewrite C, !flat_map_app. cbn [flat_map holds app]. rewrite <- (app_assoc (finished tr)). apply Permutation_app_head.
          cbn. symmetry. apply Permutation_middle.
        - intros H. rewrite D by (rewrite app_length in *; exact H). clear - H. one_worker H W1 W2. cbn. now rewrite app_nil_r.
        - rewrite E, !pends_app. reflexivity. }
      destruct (tp_callback p); intros [= <- <-].
      * replace p with (mkpool (tp_queue p) (tp_outstanding p) (tp_shutdown p) (tp_joining p) (tp_completed p) (tp_callback p) (tp_workers p)) by (destruct p; reflexivity).
        apply G; auto. evs. auto.
      * apply G; auto. evs. now rewrite F, app_assoc.
    + discriminate.
Qed.

Lemma run_Inv l : forall p tr p' e, Inv p tr -> pool_run p l = Some (p', e) -> Inv p' (tr ++ e).
Proof.
  induction l as [|a l IH]; intros p tr p' e I; cbn [pool_run].
  - intros [= <- <-]. now rewrite app_nil_r.
  - destruct (pool_step p a) as [[p1 e1]|] eqn:E1; [|discriminate].
    destruct (pool_run p1 l) as [[p2 e2]|] eqn:E2; [|discriminate]. intros [= <- <-].
    rewrite app_assoc. eapply IH; [|exact E2]. eapply step_Inv; eauto.
Qed.

Lemma reach_Inv n l p tr : pool_run (pool_init n) l = Some (p, tr) -> Inv p tr.
Proof. intros H. exact (run_Inv l _ [] _ _ (init_Inv n) H). Qed.

Lemma run_app l1 : forall l2 p, pool_run p (l1 ++ l2) =
  match pool_run p l1 with
  | Some (p1, e1) => match pool_run p1 l2 with Some (p2, e2) => Some (p2, e1 ++ e2) | None => None end
  | None => None end.
Proof.
  induction l1 as [|a l1 IH]; intros l2 p; cbn [pool_run app].
  - destruct (pool_run p l2) as [[? ?]|]; reflexivity.
  - destruct (pool_step p a) as [[p1 e1]|]; [|reflexivity]. rewrite IH.
    destruct (pool_run p1 l1) as [[p2 e2]|]; [|reflexivity].
    destruct (pool_run p2 l2) as [[p3 e3]|]; [|reflexivity]. now rewrite app_assoc.
Qed.

Lemma pends_nonneg l : 0 <= pends l.
Proof. induction l as [|w l IH]; [cbn; lia|]. cbn [pends fold_right]. change (fold_right _ 0 l) with (pends l). destruct w as [[]| | | |]; cbn [pend]; lia. Qed.

Lemma pends_zero l : pends l = 0 -> flat_map holds l = [] /\ flat_map runs l = [].
Proof.
  induction l as [|w l IH]; cbn [pends fold_right flat_map]; [auto|].
  change (fold_right _ 0 l) with (pends l). pose proof (pends_nonneg l).
  intros H0. assert (pends l = 0) by (destruct w as [[]| | | |]; cbn [pend] in H0; lia).
  destruct (IH H1) as (-> & ->). destruct w as [[]| | | |]; cbn [pend] in H0; cbn [holds runs app]; auto; lia.
Qed.

(** Progress. *)
Definition work (p : pool) : nat := 4 * length (tp_queue p) + weights (tp_workers p).

Lemma take_work p i w : nth_error (tp_workers p) i = Some w -> holds w = [] -> w <> WExit ->
  (tp_shutdown p = true \/ tp_queue p <> [] \/ exists b, w = WLoop b) ->
  (work (fst (take p i)) < work p)%nat.
Proof.
  intros Hn Hh He Hc. unfold take, work. destruct (split_nth' _ _ _ Hn) as (W1 & W2 & Hw & HS).
  assert (Pw : forall w', weights (W1 ++ w' :: W2) = (weights W1 + weight w' + weights W2)%nat).
  { intros. rewrite weights_app. cbn [weights fold_right]. change (fold_right _ 0%nat W2) with (weights W2). lia. }
  assert (Ew : weights (tp_workers p) = (weights W1 + weight w + weights W2)%nat) by (rewrite Hw; apply Pw). rewrite Ew.
  assert (1 <= weight w)%nat by (destruct w; cbn in *; try congruence; lia).
  destruct (tp_shutdown p) eqn:Sd; [|destruct (tp_queue p) as [|t q] eqn:Q];
    cbn [fst snd]; unfold set_worker; cbn [tp_workers tp_queue]; rewrite ?HS; rewrite ?Pw; cbn [weight length].
  - lia.
  - destruct Hc as [?|[?|(b & ->)]]; [congruence|congruence|]. rewrite Q. cbn. lia.
  - lia.
Qed.

Lemma worker_work p i p' e : worker_step p i = Some (p', e) -> (work p' < work p)%nat.
Proof.
  unfold worker_step. destruct (nth_error (tp_workers p) i) as [w|] eqn:Hn; [|discriminate].
  destruct w as [fin| |t|t|].
  - intros [= H]. match type of H with take ?q _ = _ => pose proof (take_work q i (WLoop fin) Hn eq_refl) as T end.
    rewrite H in T. cbn [fst] in T. assert (X : WLoop fin <> WExit) by congruence. specialize (T X (or_intror (or_intror (ex_intro _ fin eq_refl)))). exact T.
  - destruct (_ || _) eqn:G; [|discriminate]. intros [= H]. pose proof (take_work p i WAwait Hn eq_refl) as T.
    rewrite H in T. apply T; [congruence|]. apply orb_true_iff in G. destruct G as [G|G]; [auto|right; left; intros Q; rewrite Q in G; discriminate].
  - intros [= <- <-]. destruct (split_nth' _ _ _ Hn) as (W1 & W2 & Hw & HS). unfold work, set_worker. cbn [tp_workers tp_queue]. rewrite ?HS. rewrite Hw, !weights_app. cbn. lia.
  - destruct (tp_callback p); intros [= <- <-]; destruct (split_nth' _ _ _ Hn) as (W1 & W2 & Hw & HS); unfold work, set_worker; cbn [tp_workers tp_queue]; rewrite ?HS; rewrite Hw; rewrite !weights_app; cbn; lia.
  - discriminate.
Qed.

Lemma worker_run_length l : forall p p' e, Forall is_worker l -> pool_run p l = Some (p', e) -> (length l + work p' <= work p)%nat.
Proof.
  induction l as [|a l IH]; intros p p' e Hw; cbn [pool_run].
  - intros [= <- <-]. cbn. lia.
  - inversion Hw as [|? ? Ha Hl]; subst. destruct a; try contradiction. cbn [pool_step].
    destruct (worker_step p i) as [[p1 e1]|] eqn:E1; [|discriminate].
    destruct (pool_run p1 l) as [[p2 e2]|] eqn:E2; [|discriminate]. intros [= <- <-].
    apply worker_work in E1. specialize (IH _ _ _ Hl E2). cbn [length]. lia.
Qed.

Lemma set_worker_keep p i w : (i < length (tp_workers p))%nat -> length (tp_workers (set_worker p i w)) = length (tp_workers p).
Proof. intros H. unfold set_worker. cbn [tp_workers]. rewrite app_length, firstn_length. cbn [length]. rewrite skipn_length. lia. Qed.

Lemma step_keep p a p' e : pool_step p a = Some (p', e) ->
  length (tp_workers p') = length (tp_workers p) /\
  (tp_shutdown p' = tp_shutdown p \/ a = AShutdown /\ tp_shutdown p' = true).
Proof.
  destruct a as [t| | | |n tmo| |b| | |i]; cbn [pool_step].
  - intros [= <- <-]; auto.
  - destruct (tp_completed p); intros [= <- <-]; auto.
  - destruct (tp_completed p); intros [= <- <-]; auto.
  - destruct (tp_outstanding p =? 0); intros [= <- <-]; auto.
  - cbn zeta. destruct (_ || tmo); intros [= <- <-]; auto.
  - intros [= <- <-]; auto.
  - intros [= <- <-]; auto.
  - intros [= <- <-]; auto.
  - destruct (_ && _); intros [= <- <-]; auto.
  - unfold worker_step. destruct (nth_error (tp_workers p) i) as [w|] eqn:Hn; [|discriminate].
    assert (Li : (i < length (tp_workers p))%nat) by (apply nth_error_Some; congruence).
    assert (T : forall q, tp_workers q = tp_workers p -> tp_shutdown q = tp_shutdown p ->
        length (tp_workers (fst (take q i))) = length (tp_workers p) /\ tp_shutdown (fst (take q i)) = tp_shutdown p).
    { intros q Hq Hs. unfold take. destruct (tp_shutdown q) eqn:Sq; [|destruct (tp_queue q)]; cbn [fst];
        (split; [rewrite set_worker_keep; cbn [tp_workers]; rewrite ?Hq; auto|cbn; congruence]). }
    destruct w as [fin| |t|t|]; [| | | |discriminate].
    + intros [= H]. match type of H with take ?q _ = _ => specialize (T q eq_refl eq_refl) end. rewrite H in T. cbn in T. tauto.
    + destruct (_ || _); [|discriminate]. intros [= H]. specialize (T p eq_refl eq_refl). rewrite H in T. cbn in T. tauto.
    + intros [= <- <-]. rewrite set_worker_keep; auto.
    + destruct (tp_callback p); intros [= <- <-]; rewrite set_worker_keep; auto.
Qed.

Lemma run_keep l : forall p p' e, pool_run p l = Some (p', e) -> length (tp_workers p') = length (tp_workers p) /\
  (tp_shutdown p = true -> tp_shutdown p' = true) /\ (~ In AShutdown l -> tp_shutdown p' = tp_shutdown p).
Proof.
  induction l as [|a l IH]; intros p p' e; cbn [pool_run].
  - intros [= <- <-]. auto.
  - destruct (pool_step p a) as [[p1 e1]|] eqn:E1; [|discriminate].
    destruct (pool_run p1 l) as [[p2 e2]|] eqn:E2; [|discriminate]. intros [= <- <-].
    destruct (IH _ _ _ E2) as (A & B & C). destruct (step_keep _ _ _ _ E1) as (D & E).
    split; [congruence|]. split.
    + intros H. apply B. destruct E as [E|(? & E)]; congruence.
    + intros H. cbn in H. rewrite C by tauto. destruct E as [E|(-> & _)]; [exact E|]. exfalso. apply H. now left.
Qed.

(** A worker leaves its loop only after shutdown. *)
Definition exit_inv (p : pool) : Prop := In WExit (tp_workers p) -> tp_shutdown p = true.

Lemma In_set p i w x : In x (tp_workers (set_worker p i w)) -> x = w \/ In x (tp_workers p).
Proof.
  unfold set_worker. cbn [tp_workers]. rewrite in_app_iff. cbn. intros [H|[H|H]]; auto; right.
  - rewrite <- (firstn_skipn i (tp_workers p)). apply in_or_app. now left.
  - rewrite <- (firstn_skipn (S i) (tp_workers p)). apply in_or_app. now right.
Qed.

Lemma step_exit p a p' e : exit_inv p -> pool_step p a = Some (p', e) -> exit_inv p'.
Proof.
  unfold exit_inv. intros I. destruct a as [t| | | |n tmo| |b| | |i]; cbn [pool_step].
  - intros [= <- <-]; auto.
  - destruct (tp_completed p); intros [= <- <-]; auto.
  - destruct (tp_completed p); intros [= <- <-]; auto.
  - destruct (tp_outstanding p =? 0); intros [= <- <-]; auto.
  - cbn zeta. destruct (_ || tmo); intros [= <- <-]; auto.
  - intros [= <- <-]; auto.
  - intros [= <- <-]; auto.
  - intros [= <- <-]; auto.
  - destruct (_ && _); intros [= <- <-]; auto.
  - unfold worker_step. destruct (nth_error (tp_workers p) i) as [w|] eqn:Hn; [|discriminate].
    assert (T : forall q, tp_workers q = tp_workers p -> tp_shutdown q = tp_shutdown p ->
        In WExit (tp_workers (fst (take q i))) -> tp_shutdown (fst (take q i)) = true).
    { intros q Hq Hs. unfold take. destruct (tp_shutdown q) eqn:Sq; [|destruct (tp_queue q)]; cbn [fst]; intros H;
        apply In_set in H; destruct H as [H|H]; try discriminate; cbn in *; rewrite ?Hq in H; auto; specialize (I H); congruence. }
    destruct w as [fin| |t|t|]; [| | | |discriminate].
    + intros [= H]. match type of H with take ?q _ = _ => specialize (T q eq_refl eq_refl) end. rewrite H in T. exact T.
    + destruct (_ || _); [|discriminate]. intros [= H]. specialize (T p eq_refl eq_refl). rewrite H in T. exact T.
    + intros [= <- <-] H. apply In_set in H. destruct H as [H|H]; [discriminate|auto].
    + destruct (tp_callback p); intros [= <- <-] H; apply In_set in H; destruct H as [H|H]; try discriminate; auto.
Qed.

Lemma run_exit l : forall p p' e, exit_inv p -> pool_run p l = Some (p', e) -> exit_inv p'.
Proof.
  induction l as [|a l IH]; intros p p' e I; cbn [pool_run].
  - intros [= <- <-]. auto.
  - destruct (pool_step p a) as [[p1 e1]|] eqn:E1; [|discriminate].
    destruct (pool_run p1 l) as [[p2 e2]|] eqn:E2; [|discriminate]. intros [= <- <-].
    eapply IH; [|exact E2]. eapply step_exit; eauto.
Qed.

Lemma init_exit n : exit_inv (pool_init n).
Proof. intros H. cbn in H. apply repeat_spec in H. discriminate. Qed.

(** When no worker can move. *)
Lemma stuck_idle p : (forall i, worker_step p i = None) -> (0 < length (tp_workers p))%nat -> exit_inv p -> tp_shutdown p = false ->
  tp_queue p = [] /\ pends (tp_workers p) = 0.
Proof.
  intros H L X Sd.
  assert (W : forall i w, nth_error (tp_workers p) i = Some w -> w = WAwait /\ tp_queue p = []).
  { intros i w Hn. specialize (H i). unfold worker_step in H. rewrite Hn in H. destruct w as [| | | |]; try discriminate; auto.
    - rewrite Sd in H. cbn in H. destruct (tp_queue p); auto; discriminate.
    - destruct (tp_callback p); discriminate.
    - apply nth_error_In in Hn. apply X in Hn. congruence. }
  assert (P : forall l, (forall i w, nth_error l i = Some w -> w = WAwait) -> pends l = 0).
  { induction l as [|w l IH]; intros Hl; [reflexivity|]. cbn. change (fold_right _ 0 l) with (pends l).
    rewrite IH; [rewrite (Hl 0%nat w eq_refl); reflexivity|]. intros i w' Hi. apply (Hl (S i)). exact Hi. }
  split; [|apply P; intros i w Hi; destruct (W i w Hi); auto].
  destruct (tp_workers p) as [|w ws] eqn:E; [cbn in L; lia|]. destruct (W 0%nat w); auto.
Qed.

Lemma stuck_exited p : (forall i, worker_step p i = None) -> tp_shutdown p = true -> forallb exited (tp_workers p) = true.
Proof.
  intros H Sd. apply forallb_forall. intros w I. apply In_nth_error in I. destruct I as (i & Hn).
  specialize (H i). unfold worker_step in H. rewrite Hn in H. destruct w; try discriminate; auto.
  - rewrite Sd in H. discriminate.
  - destruct (tp_callback p); discriminate.
Qed.

(** After shutdown no task is taken from the queue. *)
Lemma step_shutdown p a p' e : tp_shutdown p = true -> pool_step p a = Some (p', e) ->
  started e = [] /\ exists q, tp_queue p' = tp_queue p ++ q.
Proof.
  intros Sd. destruct a as [t| | | |n tmo| |b| | |i]; cbn [pool_step].
  - intros [= <- <-]; cbn; eauto.
  - destruct (tp_completed p); intros [= <- <-]; split; auto; exists []; now rewrite app_nil_r.
  - destruct (tp_completed p); intros [= <- <-]; split; auto; exists []; now rewrite app_nil_r.
  - destruct (tp_outstanding p =? 0); intros [= <- <-]; split; auto; exists []; now rewrite app_nil_r.
  - cbn zeta. destruct (_ || tmo); intros [= <- <-]; split; auto; exists []; now rewrite app_nil_r.
  - intros [= <- <-]; split; auto; exists []; now rewrite app_nil_r.
  - intros [= <- <-]; split; auto; exists []; now rewrite app_nil_r.
  - intros [= <- <-]; split; auto; exists []; now rewrite app_nil_r.
  - destruct (_ && _); intros [= <- <-]; split; auto; exists []; now rewrite app_nil_r.
  - unfold worker_step. destruct (nth_error (tp_workers p) i) as [w|] eqn:Hn; [|discriminate].
    destruct w as [fin| |t|t|]; [| | | |discriminate].
    + unfold take; cbn [tp_shutdown]; rewrite Sd. intros [= <- <-]; split; auto; exists []; now rewrite app_nil_r.
    + unfold take; rewrite Sd. intros [= <- <-]; split; auto; exists []; now rewrite app_nil_r.
    + intros [= <- <-]; split; auto; exists []; now rewrite app_nil_r.
    + destruct (tp_callback p); intros [= <- <-]; split; auto; exists []; now rewrite app_nil_r.
Qed.

Lemma run_shutdown l : forall p p' e, tp_shutdown p = true -> pool_run p l = Some (p', e) ->
  started e = [] /\ exists q, tp_queue p' = tp_queue p ++ q.
Proof.
  induction l as [|a l IH]; intros p p' e Sd; cbn [pool_run].
  - intros [= <- <-]. split; auto. exists []. now rewrite app_nil_r.
  - destruct (pool_step p a) as [[p1 e1]|] eqn:E1; [|discriminate].
    destruct (pool_run p1 l) as [[p2 e2]|] eqn:E2; [|discriminate]. intros [= <- <-].
    destruct (step_shutdown _ _ _ _ Sd E1) as (A & q1 & B). destruct (step_keep _ _ _ _ E1) as (_ & K).
    destruct (IH p1 p2 e2) as (C & q2 & D); auto. { destruct K as [K|(? & K)]; congruence. }
    rewrite started_app, A, C. split; auto. exists (q1 ++ q2). now rewrite D, B, app_assoc.
Qed.

(** *** Semaphore *)
Local Open Scope N_scope.

Lemma waits_app a b : (waits (a ++ b) = waits a + waits b)%nat.
Proof. induction a as [|[] a IH]; cbn; lia. Qed.
Lemma signals_app a b : (signals (a ++ b) = signals a + signals b)%nat.
Proof. induction a as [|[] a IH]; cbn; lia. Qed.

Lemma mem_In t l : mem_id t l = true <-> In t l.
Proof.
  unfold mem_id. rewrite existsb_exists. split.
  - intros (x & H & E). apply Nat.eqb_eq in E. now subst.
  - intros H. exists t. split; auto. apply Nat.eqb_refl.
Qed.

Lemma remove_len t l : NoDup l -> In t l -> (S (length (remove_id t l)) = length l)%nat.
Proof.
  intros N I. apply in_split in I. destruct I as (a & b & ->). apply NoDup_remove in N. destruct N as (_ & N).
  unfold remove_id. rewrite remove_app. cbn. destruct (Nat.eq_dec t t); [|congruence].
  rewrite !notin_remove; [rewrite !app_length; cbn; lia| |]; rewrite in_app_iff in N; tauto.
Qed.

Lemma remove_NoDup t l : NoDup l -> NoDup (remove_id t l).
Proof.
  intros N. unfold remove_id. induction N as [|x l H N IH]; cbn; [constructor|].
  destruct (Nat.eq_dec t x); auto. constructor; auto. intros C. apply in_remove in C. tauto.
Qed.

Record SInv (c0 : N) (s : sema) (tr : list sevent) : Prop := {
  S_count : sm_count s + N.of_nat (waits tr) = c0 + N.of_nat (signals tr);
  S_nodup : NoDup (sm_sleeping s ++ sm_woken s);
  S_lost : sm_sleeping s <> [] -> sm_count s <= N.of_nat (length (sm_woken s)) }.

Lemma NoDup_app_iff {A} (a b : list A) : NoDup (a ++ b) <-> NoDup a /\ NoDup b /\ (forall x, In x a -> ~ In x b).
Proof.
  induction a as [|x a IH]; cbn.
  - intuition constructor.
  - rewrite !NoDup_cons_iff, IH, in_app_iff. split.
    + intros (A1 & A2 & A3 & A4). intuition (subst; eauto).
    + intros ((A1 & A2) & A3 & A4). intuition eauto.
Qed.

Lemma sema_step_Inv c0 s tr a s' e : SInv c0 s tr -> c0 + N.of_nat (signals (tr ++ e)) < 2 ^ 32 ->
  sema_step s a = Some (s', e) -> SInv c0 s' (tr ++ e).
Proof.
  intros [A B C] L. change (2 ^ 32) with 4294967296 in *. rewrite NoDup_app_iff in B. destruct B as (B1 & B2 & B3).
  destruct a as [t|t|t|t]; cbn [sema_step].
  - destruct (mem_id t (sm_sleeping s)) eqn:M1; [discriminate|]. destruct (mem_id t (sm_woken s)) eqn:M2; [discriminate|]. cbn [orb].
    assert (N1 : ~ In t (sm_sleeping s)) by (rewrite <- mem_In; congruence).
    assert (N2 : ~ In t (sm_woken s)) by (rewrite <- mem_In; congruence).
    destruct (0 <? sm_count s) eqn:G; intros [= <- <-]; (split; cbn [sm_count sm_sleeping sm_woken]; [rewrite waits_app, signals_app; cbn; lia|apply NoDup_app_iff|]).
    + auto.
    + intros H. specialize (C H). lia.
    + repeat split; auto; [constructor; auto|]. intros x [->|I]; eauto.
    + lia.
  - destruct (mem_id t (sm_woken s)) eqn:M2; [|discriminate]. cbn [negb]. apply mem_In in M2.
    pose proof (remove_len t _ B2 M2) as RL.
    destruct (0 <? sm_count s) eqn:G; intros [= <- <-]; (split; cbn [sm_count sm_sleeping sm_woken]; [rewrite waits_app, signals_app; cbn; lia|apply NoDup_app_iff|]).
    + split; auto. split; [now apply remove_NoDup|]. intros x I J. apply in_remove in J. apply (B3 x); tauto.
    + intros H. specialize (C H). lia.
    + split; [constructor; auto; intros I; apply (B3 t); auto|]. split; [now apply remove_NoDup|].
      intros x [->|I] J; apply in_remove in J; [tauto|]. apply (B3 x); tauto.
    + lia.
  - destruct (mem_id t (sm_sleeping s)) eqn:M2; [|discriminate]. cbn [negb]. apply mem_In in M2.
    intros [= <- <-]; (split; cbn [sm_count sm_sleeping sm_woken]; [rewrite waits_app, signals_app; cbn; lia|apply NoDup_app_iff|]).
    + split; [now apply remove_NoDup|]. split; [constructor; auto; intros I; apply (B3 t); auto|].
      intros x I J. apply in_remove in I. destruct J as [->|J]; [tauto|]. apply (B3 x); tauto.
    + intros _. cbn [length]. assert (H : sm_sleeping s <> []) by (intros E; rewrite E in M2; destruct M2). specialize (C H). lia.
  - cbn zeta. destruct (sm_sleeping s) as [|x l] eqn:E.
    + intros [= <- <-]. rewrite signals_app in L. cbn in L. rewrite N.mod_small by lia.
      split; cbn [sm_count sm_sleeping sm_woken]; [rewrite waits_app, signals_app; cbn; lia|auto|congruence].
    + rewrite <- E in *. assert (Hne : sm_sleeping s <> []) by (rewrite E; congruence).
      destruct (mem_id t (sm_sleeping s)) eqn:M2; [|discriminate]. apply mem_In in M2.
      intros [= <- <-]. rewrite signals_app in L. cbn in L. rewrite N.mod_small by lia.
      split; cbn [sm_count sm_sleeping sm_woken]; [rewrite waits_app, signals_app; cbn; lia|apply NoDup_app_iff|].
      * split; [now apply remove_NoDup|]. split; [constructor; auto; intros I; apply (B3 t); auto|].
        intros y I J. apply in_remove in I. destruct J as [->|J]; [tauto|]. apply (B3 y); tauto.
      * intros _. cbn [length]. specialize (C Hne). lia.
Qed.

Lemma sema_run_Inv c0 l : forall s tr s' e, SInv c0 s tr -> c0 + N.of_nat (signals (tr ++ e)) < 2 ^ 32 ->
  sema_run s l = Some (s', e) -> SInv c0 s' (tr ++ e).
Proof.
  induction l as [|a l IH]; intros s tr s' e I; cbn [sema_run].
  - intros L [= <- <-]. now rewrite app_nil_r.
  - destruct (sema_step s a) as [[s1 e1]|] eqn:E1; [|discriminate].
    destruct (sema_run s1 l) as [[s2 e2]|] eqn:E2; [|discriminate]. intros L [= <- <-].
    rewrite app_assoc in *. eapply IH; [|exact L|exact E2]. eapply sema_step_Inv; eauto.
    rewrite signals_app in L. lia.
Qed.
