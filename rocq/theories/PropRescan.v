(** C75: removal and re-creation of the streamed directory, and overflowing notifications. *)
From Verif Require Import Base ModelRescan ProofRescan.
From Coq Require Import Lia.

Section Spec.
Context {P V : Type} (P_eq : forall p q : P, {p = q} + {p <> q}) (absent : V).
Notation world := (@world P V).
Notation step := (step P_eq absent).

(** The running update is asked to store something for a path. *)
Definition working_on (w : world) (q : P) : Prop :=
  match work w with Idle => False | All _ _ => True | Update ops _ => ops q <> None end.

(** The situations in which a change of a path is overlooked, and why. *)
Inductive reason := Gap | Short | Cancelled | NoRetry.
Inductive loses (w w' : world) (q : P) : label -> reason -> Prop :=
(** The path changes after the watcher has asked for a scan and the scan has begun, but
    before the watcher asks the system for notifications. *)
| L_gap : st w = Called -> replaced w = false -> dir_recreated w = false -> src w' q <> src w q ->
    loses w w' q User Gap
(** The missing directory came back, and is gone again before the watcher looks; a scan that
    was running has seen it, or may have. *)
| L_short : st w = Opening false -> exists_ w' = false -> dir_recreated w = false -> (man w q <> absent \/ working_on w q) ->
    loses w w' q User Short
(** A path the watcher noted as added is removed: the watcher drops its note, although
    the manifest has the path or an update is running that may have seen it. *)
| L_cancel r : dirty w q = Some AAdded -> os w = (q, Removed) :: r -> (man w q <> absent \/ working_on w q) ->
    loses w w' q Own Cancelled
(** An update fails although the directory is there: the manifest is empty now, and nothing
    but a change makes the program try again. *)
| L_failed : exists_ w = true -> man w' q = absent -> src w' q <> absent -> loses w w' q Failure NoRetry.

(** A run in which changes of a path are overlooked for the given reasons only. *)
Inductive losing (R : reason -> Prop) (q : P) : world -> world -> Prop :=
| losing_nil w : losing R q w w
| losing_snoc l w w1 w2 : losing R q w w1 -> step l w1 w2 -> (forall r, loses w1 w2 q l r -> R r) -> losing R q w w2.
End Spec.

Lemma losing_lost {P V} P_eq (V_eq : forall a b : V, {a = b} + {a <> b}) (absent : V) (q : P) w0 w : starts w0 ->
  losing P_eq absent (fun _ => False) q w0 w -> inv absent w /\ ~ lost w q.
Proof.
  intros H0 H. induction H as [w|l w w1 w2 R IH S1 N].
  - split; [now apply start_inv|]. destruct H0 as (_ & _ & _ & _ & _ & _ & _ & _ & _ & X). apply X.
  - destruct (IH H0) as (I & L). split; [eapply step_inv; eauto|]. intros X.
    destruct S1 as [w1 p v k He Hc|w1 src' e He Hx|w1 b Hs He|w1 Hs He|w1 Hs|w1 Hs|w1 Hs Hr|w1 Hs Ho|w1 Hs|w1 p k r Hs Ho|w1 Hd
      |w1 Hw Hf Hfc|w1 Hw Hf|w1 f t man' Hw Hm|w1 ops t man' Hw Hm1 Hm2|w1 t Hw|w1 ops t Hw Hne]; cbn [lost] in X; try contradiction.
    + destruct X as [X|(-> & X1 & X2 & X3)]; [contradiction|]. apply (N Gap). apply L_gap; auto.
      cbn [src]. rewrite upd_same. destruct k; cbn in Hc; intuition congruence.
    + destruct X as [X|(X1 & X2 & X3 & X4)]; [contradiction|]. apply (N Short). apply L_short; auto.
      destruct X4 as [X4|X4]; auto. right. unfold working_on. destruct (work w1); cbn in X4; tauto.
    + destruct X as [X|(-> & X2 & X3)]; [contradiction|]. apply (N Cancelled).
      assert (k = Removed /\ dirty w1 p = Some AAdded) as (-> & E) by (destruct k, (dirty w1 p) as [[| |]|]; cbn in X2; split; congruence).
      apply L_cancel with (r := r); auto.
      destruct X3 as [X3|X3]; auto. right. unfold working_on. destruct (work w1); cbn in X3; tauto.
    + tauto.
    + tauto.
    + destruct (exists_ w1) eqn:Ee; [|now apply X, (i_absent _ _ I)]. apply (N NoRetry). now apply L_failed.
    + destruct (exists_ w1) eqn:Ee; [|now apply X, (i_absent _ _ I)]. apply (N NoRetry). now apply L_failed.
Qed.

Section Claims.
Context {P V : Type} (P_eq : forall p q : P, {p = q} + {p <> q}) (V_eq : forall a b : V, {a = b} + {a <> b}) (absent : V).

(** When everything has come to rest, the manifest is right about every path of which no
    change was overlooked; also after the directory was removed, re-created, or
    notifications overflowed, any number of times. *)
Theorem C75_settled : forall q w0 w, starts w0 -> losing P_eq absent (fun _ => False) q w0 w -> at_rest w ->
  man w q = src w q.
Proof.
  intros q w0 w H0 H R. destruct (losing_lost P_eq V_eq absent q w0 w H0 H) as (I & L).
  destruct (at_rest_inv absent w I R q); tauto.
Qed.

(** If the directory is missing then, the manifest is empty. *)
Theorem C75_empty_when_missing : forall w0 w, starts w0 -> (forall q, losing P_eq absent (fun _ => False) q w0 w) -> at_rest w ->
  exists_ w = false -> forall q, man w q = absent.
Proof.
  intros w0 w H0 H R E q. rewrite (C75_settled q w0 w H0 (H q) R).
  destruct (losing_lost P_eq V_eq absent q w0 w H0 (H q)) as (I & _). now apply (i_absent _ _ I).
Qed.

(** An overflow or a re-creation of the directory makes up for everything overlooked before. *)
Theorem C75_heals : forall ls0 w0 ls w w', starts w0 -> run P_eq absent ls0 w0 w ->
  st w = Failed \/ st w = Opening true \/ st w = Opened \/ (st w = Opening false /\ exists_ w = true) ->
  run P_eq absent ls w w' -> ~ In User ls -> ~ In Failure ls -> at_rest w' ->
  forall q, man w' q = src w' q.
Proof.
  intros ls0 w0 ls w w' H0 R0 Hs R N1 N2 Rest q.
  assert (I : inv absent w) by (eapply run_inv; [exact V_eq|apply start_inv; exact H0|exact R0]).
  eapply heals; eauto; [unfold coming; tauto|]. destruct Hs as [E|[E|[E|(E & _)]]]; rewrite E; discriminate.
Qed.

(** In particular such a run exists. *)
Theorem C75_healing_run : forall ls0 w0 w, starts w0 -> run P_eq absent ls0 w0 w ->
  st w = Failed \/ st w = Opening true \/ st w = Opened \/ (st w = Opening false /\ exists_ w = true) ->
  exists ls w', run P_eq absent ls w w' /\ (forall l, In l ls -> l = Own) /\ at_rest w' /\ forall q, man w' q = src w' q.
Proof.
  intros ls0 w0 w H0 R0 Hs. assert (I : inv absent w) by (eapply run_inv; [exact V_eq|apply start_inv; exact H0|exact R0]).
  destruct (reach_rest P_eq V_eq absent _ w (Nat.le_refl _) I) as (ls & w' & R & L & Rest).
  exists ls, w'. split; [exact R|]. split; [exact L|]. split; [exact Rest|].
  eapply C75_heals; eauto; intros X; apply L in X; discriminate.
Qed.

(** A noted change is never forgotten: the runner is, or is about to be, woken. *)
Theorem C75_no_lost_wakeup : forall ls w0 w q, starts w0 -> run P_eq absent ls w0 w -> dirty w q <> None ->
  due w = true \/ files_changed w = true.
Proof.
  intros ls w0 w q H0 R. apply (i_wake absent). eapply run_inv; [exact V_eq|apply start_inv; exact H0|exact R].
Qed.

(** Whatever happened, the program comes to rest by itself, ... *)
Theorem C75_comes_to_rest : forall ls w0 w, starts w0 -> run P_eq absent ls w0 w ->
  exists ls' w', run P_eq absent ls' w w' /\ (forall l, In l ls' -> l = Own) /\ at_rest w'.
Proof.
  intros ls w0 w H0 R. eapply reach_rest; [exact V_eq|apply Nat.le_refl|].
  eapply run_inv; [exact V_eq|apply start_inv; exact H0|exact R].
Qed.

(** ... and within a number of steps given by the notifications outstanding, unless the
    user goes on: it never scans forever. *)
Theorem C75_settles : forall ls w w', run P_eq absent ls w w' -> ~ In User ls ->
  (length ls <= 40 * length (os w) + 27)%nat.
Proof.
  intros ls w w' R N. pose proof (run_measure P_eq V_eq absent ls w w' R N). pose proof (measure_bound V_eq absent w). lia.
Qed.

(** It is only at rest if there is nothing left to do. *)
Theorem C75_rest_is_quiet : forall w w' l, at_rest w -> step P_eq absent l w w' -> l = User.
Proof.
  intros w w' l (R & R1 & R2 & R3 & R4 & R5) H.
  destruct H; try reflexivity; exfalso; destruct R as [(A & B)|(A & B)]; try congruence.
Qed.
End Claims.

(** ** Concrete runs.  Two paths; a value is a number, 0 if the path is absent. *)
Definition w_start : world := mkw (P := bool) (V := nat) (fun q => if q then 7 else 0)%nat true false Reading [] (fun _ => None)
  false false false (All true (fun _ => false)) (fun _ => 0%nat) (fun _ => False).
Example start_ok : starts w_start.
Proof. repeat split; auto. exists (fun _ => false). auto. Qed.

Notation bstep := (step Bool.bool_dec 0%nat).
Notation blosing := (losing Bool.bool_dec 0%nat).
Ltac losing_start R q := pose proof (losing_nil Bool.bool_dec 0%nat R q w_start) as run.
Ltac refute := first [discriminate|congruence|reflexivity|lia|tauto|match goal with H : _ \/ _ |- _ => destruct H; refute end].
(** Appends a step; what is left to show, that the step loses nothing for another reason, is
    by going through the reasons. *)
Ltac then_ s :=
  match goal with
  | run : losing Bool.bool_dec 0%nat ?R ?q ?w0 ?w |- _ =>
    let S1 := fresh in
    pose proof s as S1; cbn in S1;
    let run' := fresh in
    pose proof (losing_snoc Bool.bool_dec 0%nat R q _ _ _ _ run S1) as run';
    let N := fresh in
    match type of run' with ?A -> _ => assert (N : A);
      [clear; let r := fresh in let H := fresh in intros r H; cbn in H; inversion H; subst; cbn in *; try refute|specialize (run' N); clear run N S1; rename run' into run] end
  end.
Ltac cur_ := match goal with run : losing _ _ _ _ _ ?w |- _ => exact w end.
Ltac there := match goal with run : losing _ _ _ _ _ ?w |- _ => exists w; split; [exact run|]; cbn; repeat split; auto; try discriminate end.
Definition f2 (a b : nat) (q : bool) : nat := if q then a else b.

(** A change, an overflow, a re-created directory: the new content is in the manifest. *)
Example C75_example : exists w, blosing (fun _ => False) true w_start w /\ at_rest w /\ man w true = 9%nat.
Proof.
  losing_start (fun _ : reason => False) true.
  then_ (S_scanned Bool.bool_dec 0%nat ltac:(cur_) true _ (f2 7 0) eq_refl (fun q _ => eq_refl)).
  then_ (S_change Bool.bool_dec 0%nat ltac:(cur_) true 8%nat Modified eq_refl ltac:(cbn; lia)).
  then_ (S_overflow Bool.bool_dec 0%nat ltac:(cur_) eq_refl ltac:(discriminate)).
  then_ (S_clear Bool.bool_dec 0%nat ltac:(cur_) eq_refl).
  then_ (S_replace Bool.bool_dec 0%nat ltac:(cur_) (f2 9 0) true ltac:(discriminate) (or_introl eq_refl)).
  then_ (S_open Bool.bool_dec 0%nat ltac:(cur_) _ eq_refl eq_refl).
  then_ (S_callback Bool.bool_dec 0%nat ltac:(cur_) eq_refl).
  then_ (S_scan Bool.bool_dec 0%nat ltac:(cur_) eq_refl eq_refl).
  then_ (S_read Bool.bool_dec 0%nat ltac:(cur_) eq_refl).
  then_ (S_scanned Bool.bool_dec 0%nat ltac:(cur_) false _ (f2 9 0) eq_refl (fun q _ => eq_refl)).
  there.
Qed.

(** ** Claimed and refuted: the manifest is always right when everything has come to rest. *)
(** The directory is re-created; a file written while the watcher is between calling back and
    asking for notifications, after the scan has passed it, is never streamed. *)
Theorem C75_refuted_gap : exists w, blosing (eq Gap) true w_start w /\ at_rest w /\ src w true = 10%nat /\ man w true = 9%nat.
Proof.
  losing_start (eq Gap) true.
  then_ (S_scanned Bool.bool_dec 0%nat ltac:(cur_) true _ (f2 7 0) eq_refl (fun q _ => eq_refl)).
  then_ (S_replace Bool.bool_dec 0%nat ltac:(cur_) (f2 9 0) true ltac:(discriminate) (or_introl eq_refl)).
  then_ (S_detect Bool.bool_dec 0%nat ltac:(cur_) eq_refl eq_refl).
  then_ (S_clear Bool.bool_dec 0%nat ltac:(cur_) eq_refl).
  then_ (S_open Bool.bool_dec 0%nat ltac:(cur_) _ eq_refl eq_refl).
  then_ (S_callback Bool.bool_dec 0%nat ltac:(cur_) eq_refl).
  then_ (S_scan Bool.bool_dec 0%nat ltac:(cur_) eq_refl eq_refl).
  then_ (S_scanned Bool.bool_dec 0%nat ltac:(cur_) false _ (f2 9 0) eq_refl (fun q _ => eq_refl)).
  then_ (S_change Bool.bool_dec 0%nat ltac:(cur_) true 10%nat Modified eq_refl ltac:(cbn; lia)).
  then_ (S_read Bool.bool_dec 0%nat ltac:(cur_) eq_refl).
  there.
Qed.

(** A temporary file that is there while the directory is scanned, and gone when the
    scan is over, stays in the manifest. *)
Theorem C75_refuted_temporary_file : exists w, blosing (eq Cancelled) false w_start w /\ at_rest w /\ src w false = 0%nat /\ man w false = 3%nat.
Proof.
  losing_start (eq Cancelled) false.
  then_ (S_change Bool.bool_dec 0%nat ltac:(cur_) false 3%nat Added eq_refl ltac:(cbn; lia)).
  then_ (S_merge Bool.bool_dec 0%nat ltac:(cur_) false Added [] eq_refl eq_refl).
  then_ (S_change Bool.bool_dec 0%nat ltac:(cur_) false 0%nat Removed eq_refl ltac:(cbn; lia)).
  then_ (S_merge Bool.bool_dec 0%nat ltac:(cur_) false Removed [] eq_refl eq_refl).
  then_ (S_files_changed Bool.bool_dec 0%nat ltac:(cur_) eq_refl).
  then_ (S_scanned Bool.bool_dec 0%nat ltac:(cur_) true _ (f2 7 3) eq_refl ltac:(intros [|]; cbn; [reflexivity|discriminate])).
  then_ (S_pick Bool.bool_dec 0%nat ltac:(cur_) eq_refl eq_refl eq_refl).
  then_ (S_updated Bool.bool_dec 0%nat ltac:(cur_) _ _ (f2 7 3) eq_refl ltac:(intros [|]; reflexivity) ltac:(intros [|]; cbn; congruence)).
  there.
Qed.

(** A directory that comes back for less than the watcher's interval stays in the manifest,
    if a scan saw it. *)
Theorem C75_refuted_short_visit : exists w, blosing (eq Short) true w_start w /\ at_rest w /\ exists_ w = false /\ src w true = 0%nat /\ man w true = 9%nat.
Proof.
  losing_start (eq Short) true.
  then_ (S_scanned Bool.bool_dec 0%nat ltac:(cur_) true _ (f2 7 0) eq_refl (fun q _ => eq_refl)).
  then_ (S_replace Bool.bool_dec 0%nat ltac:(cur_) (f2 0 0) false ltac:(intros _ [|]; reflexivity) (or_introl eq_refl)).
  then_ (S_detect Bool.bool_dec 0%nat ltac:(cur_) eq_refl eq_refl).
  then_ (S_clear Bool.bool_dec 0%nat ltac:(cur_) eq_refl).
  then_ (S_missing Bool.bool_dec 0%nat ltac:(cur_) eq_refl eq_refl).
  then_ (S_replace Bool.bool_dec 0%nat ltac:(cur_) (f2 9 0) true ltac:(discriminate) (or_intror eq_refl)).
  then_ (S_scan Bool.bool_dec 0%nat ltac:(cur_) eq_refl eq_refl).
  then_ (S_scanned Bool.bool_dec 0%nat ltac:(cur_) false _ (f2 9 0) eq_refl (fun q _ => eq_refl)).
  then_ (S_replace Bool.bool_dec 0%nat ltac:(cur_) (f2 0 0) false ltac:(intros _ [|]; reflexivity) (or_introl eq_refl)).
  there.
Qed.

(** A scan after an overflow fails once: the manifest is empty, and stays so. *)
Theorem C75_refuted_failed_scan : exists w, blosing (eq NoRetry) true w_start w /\ at_rest w /\ src w true = 8%nat /\ man w true = 0%nat.
Proof.
  losing_start (eq NoRetry) true.
  then_ (S_scanned Bool.bool_dec 0%nat ltac:(cur_) true _ (f2 7 0) eq_refl (fun q _ => eq_refl)).
  then_ (S_change Bool.bool_dec 0%nat ltac:(cur_) true 8%nat Modified eq_refl ltac:(cbn; lia)).
  then_ (S_overflow Bool.bool_dec 0%nat ltac:(cur_) eq_refl ltac:(discriminate)).
  then_ (S_clear Bool.bool_dec 0%nat ltac:(cur_) eq_refl).
  then_ (S_open Bool.bool_dec 0%nat ltac:(cur_) _ eq_refl eq_refl).
  then_ (S_callback Bool.bool_dec 0%nat ltac:(cur_) eq_refl).
  then_ (S_scan Bool.bool_dec 0%nat ltac:(cur_) eq_refl eq_refl).
  then_ (S_read Bool.bool_dec 0%nat ltac:(cur_) eq_refl).
  then_ (S_scan_failed Bool.bool_dec 0%nat ltac:(cur_) _ eq_refl).
  there.
Qed.

(** After the overlooked change of C75_refuted_gap, an overflow: the hypotheses of C75_heals
    and C75_healing_run, with a wrong manifest. *)
Lemma losing_run {P V} P_eq (absent : V) R (q : P) w w' : losing P_eq absent R q w w' -> exists ls, run P_eq absent ls w w'.
Proof. intros H. induction H as [w|l w w1 w2 H (ls & IH) S1 N]; [exists []; constructor|]. exists (ls ++ [l]). econstructor; eauto. Qed.
Example C75_heals_example : exists ls w, run Bool.bool_dec 0%nat ls w_start w /\ st w = Failed /\ man w true <> src w true.
Proof.
  losing_start (eq Gap) true.
  then_ (S_scanned Bool.bool_dec 0%nat ltac:(cur_) true _ (f2 7 0) eq_refl (fun q _ => eq_refl)).
  then_ (S_replace Bool.bool_dec 0%nat ltac:(cur_) (f2 9 0) true ltac:(discriminate) (or_introl eq_refl)).
  then_ (S_detect Bool.bool_dec 0%nat ltac:(cur_) eq_refl eq_refl).
  then_ (S_clear Bool.bool_dec 0%nat ltac:(cur_) eq_refl).
  then_ (S_open Bool.bool_dec 0%nat ltac:(cur_) _ eq_refl eq_refl).
  then_ (S_callback Bool.bool_dec 0%nat ltac:(cur_) eq_refl).
  then_ (S_scan Bool.bool_dec 0%nat ltac:(cur_) eq_refl eq_refl).
  then_ (S_scanned Bool.bool_dec 0%nat ltac:(cur_) false _ (f2 9 0) eq_refl (fun q _ => eq_refl)).
  then_ (S_change Bool.bool_dec 0%nat ltac:(cur_) true 10%nat Modified eq_refl ltac:(cbn; lia)).
  then_ (S_read Bool.bool_dec 0%nat ltac:(cur_) eq_refl).
  then_ (S_change Bool.bool_dec 0%nat ltac:(cur_) false 4%nat Added eq_refl ltac:(cbn; lia)).
  then_ (S_overflow Bool.bool_dec 0%nat ltac:(cur_) eq_refl ltac:(discriminate)).
  apply losing_run in run. destruct run as (ls & run).
  eexists ls, _. split; [exact run|]. split; [reflexivity|]. cbn. discriminate.
Qed.
