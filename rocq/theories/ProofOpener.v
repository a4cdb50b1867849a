(** Proofs for C60. *)
From Verif Require Import Base ListX SpecOpener ModelOpener.
From Coq Require Import Lia.

Lemma opens_snoc tr e : opens (tr ++ [e]) = opens tr ++ match e with EOpened n true => [n] | _ => [] end.
Proof. unfold opens. rewrite flat_map_app. cbn. now rewrite app_nil_r. Qed.
Lemma gets_snoc tr e : gets (tr ++ [e]) = gets tr ++ match e with EGet n => [n] | _ => [] end.
Proof. unfold gets. rewrite flat_map_app. cbn. now rewrite app_nil_r. Qed.
Lemma closes_snoc tr e : closes (tr ++ [e]) = closes tr ++ match e with EClosed n => [n] | _ => [] end.
Proof. unfold closes. rewrite flat_map_app. cbn. now rewrite app_nil_r. Qed.
Lemma waiting_snoc tr e : waiting (tr ++ [e]) = match e with ECall => true | EGet _ | ENull | EAbort => false | _ => waiting tr end.
Proof. unfold waiting. now rewrite fold_left_app. Qed.

(** ** The map *)
Lemma map_set_perm k v l : ~ In k (map fst l) -> Permutation (map_set k v l) ((k, v) :: l).
Proof.
  induction l as [|(k2, v2) l IH]; intros H; cbn [map_set]; [reflexivity|]. cbn in H. destruct (Nat.ltb_spec k2 k) as [L|L].
  - rewrite IH by tauto. apply perm_swap.
  - destruct (Nat.eqb_spec k2 k) as [E|E]; [exfalso; tauto|reflexivity].
Qed.
Lemma map_set_in k v l y : In y (map_set k v l) -> y = (k, v) \/ In y l.
Proof.
  induction l as [|(k2, v2) l IH]; cbn [map_set]; [cbn; intuition|]. destruct (k2 <? k)%nat; [cbn [In]; intuition|]. destruct (k2 =? k)%nat; cbn [In]; intuition.
Qed.
Lemma map_set_sorted k v l : StronglySorted (fun a b => fst a < fst b)%nat l -> StronglySorted (fun a b => fst a < fst b)%nat (map_set k v l).
Proof.
  induction l as [|(k2, v2) l IH]; intros S; cbn [map_set]; [constructor; constructor|]. inversion S as [|? ? S2 F]; subst. rewrite Forall_forall in F. destruct (Nat.ltb_spec k2 k) as [L|L].
  - constructor; [auto|]. apply Forall_forall. intros y Hy. apply map_set_in in Hy. destruct Hy as [-> |Hy]; [exact L|auto].
  - destruct (Nat.eqb_spec k2 k) as [-> |E].
    + constructor; [exact S2|]. apply Forall_forall. intros y Hy. exact (F y Hy).
    + constructor; [exact S|]. constructor; [cbn; lia|]. apply Forall_forall. intros y Hy. specialize (F y Hy). cbn in *. lia.
Qed.
Definition oks (l : list (nat * bool)) : list nat := map fst (filter snd l).
Lemma oks_app a b : oks (a ++ b) = oks a ++ oks b.
Proof. unfold oks. now rewrite filter_app, map_app. Qed.
Lemma oks_perm a b : Permutation a b -> Permutation (oks a) (oks b).
Proof.
  intros H. unfold oks. apply Permutation_map. induction H; cbn; auto; [destruct (snd x); auto|destruct (snd x), (snd y); auto; apply perm_swap|eapply perm_trans; eassumption].
Qed.

Section Opener.
Variables size threads : nat.
Notation step := (step size threads).
Notation run := (run size threads).


Lemma in_snoc {A} (x : A) l y : In x (l ++ [y]) <-> In x l \/ x = y.
Proof. rewrite in_app_iff. cbn. intuition. Qed.
Lemma perm_count (a b : list nat) : (forall x, count_occ Nat.eq_dec a x = count_occ Nat.eq_dec b x) <-> Permutation a b.
Proof. symmetry. apply Permutation_count_occ. Qed.
Ltac cnt := apply perm_count; let x := fresh "x" in intros x;
  repeat match goal with H : Permutation _ _ |- _ => pose proof (proj2 (perm_count _ _) H x); clear H end;
  repeat match goal with H : context [count_occ] |- _ => progress (rewrite ?count_occ_app in H; cbn [map fst count_occ] in H) end;
  rewrite ?count_occ_app; cbn [map fst count_occ];
  repeat match goal with |- context [Nat.eq_dec ?a ?b] => destruct (Nat.eq_dec a b) | H : context [Nat.eq_dec ?a ?b] |- _ => destruct (Nat.eq_dec a b) end; lia.

Definition all (tr : list event) (s : state) : list nat := gets tr ++ closes tr ++ s_queue s ++ s_run s ++ map fst (s_comp s) ++ map fst (s_map s).
Record inv (tr : list event) (s : state) : Prop := mkinv {
  v_all : Permutation (all tr s) (seq 0 (s_look s));
  v_gets : gets tr = seq 0 (s_curr s);
  v_opens : Permutation (opens tr) (gets tr ++ closes tr ++ oks (s_comp s) ++ oks (s_map s));
  v_sorted : StronglySorted (fun a b => fst a < fst b)%nat (s_map s) }.
Lemma NoDup_all tr s : inv tr s -> NoDup (all tr s).
Proof. intros V. exact (Permutation_NoDup (Permutation_sym (v_all _ _ V)) (seq_NoDup _ _)). Qed.
Lemma inv_init : inv [] init.
Proof. constructor; cbn; auto. constructor. Qed.
Lemma seq_snoc n : seq 0 (S n) = seq 0 n ++ [n].
Proof. rewrite seq_S. reflexivity. Qed.
Ltac st := cbn [s_phase s_look s_curr s_queue s_run s_comp s_map to] in *.
Ltac ev := rewrite ?gets_snoc, ?closes_snoc, ?opens_snoc, ?app_nil_r.
Lemma oks_cons k v l : oks ((k, v) :: l) = (if v then [k] else []) ++ oks l.
Proof. unfold oks. cbn. now destruct v. Qed.
Lemma inv_same tr s e s2 : inv tr s -> gets [e] = [] -> closes [e] = [] -> opens [e] = [] -> s_look s2 = s_look s -> s_curr s2 = s_curr s -> s_queue s2 = s_queue s -> s_run s2 = s_run s -> s_comp s2 = s_comp s -> s_map s2 = s_map s -> inv (tr ++ [e]) s2.
Proof.
  intros [A G O So] G0 C0 O0 E1 E2 E3 E4 E5 E6. assert (X : gets (tr ++ [e]) = gets tr /\ closes (tr ++ [e]) = closes tr /\ opens (tr ++ [e]) = opens tr).
  { unfold gets, closes, opens in *. rewrite !flat_map_app, G0, C0, O0, !app_nil_r. auto. }
  destruct X as (X1 & X2 & X3). constructor; unfold all in *; rewrite ?X1, ?X2, ?X3, ?E1, ?E2, ?E3, ?E4, ?E5, ?E6; auto.
Qed.
Lemma inv_queue tr s e s2 : inv tr s -> gets [e] = [] -> closes [e] = [] -> opens [e] = [] -> (s2 = queue_next size s \/ s2 = to PWait (queue_next size s)) -> inv (tr ++ [e]) s2.
Proof.
  intros V G0 C0 O0 Q. unfold queue_next in Q. destruct (Nat.leb_spec size (s_look s)) as [X|X].
  { eapply inv_same; eauto; destruct Q as [-> | ->]; reflexivity. }
  pose proof V as [A G O So].
  assert (X2 : inv tr (mks (s_phase s2) (S (s_look s)) (s_curr s) (s_queue s ++ [s_look s]) (s_run s) (s_comp s) (s_map s))).
  { constructor; unfold all in *; st; auto. rewrite seq_snoc. cnt. }
  eapply inv_same; [exact X2|..]; auto; destruct Q as [-> | ->]; reflexivity.
Qed.
Lemma inv_step tr s e s2 : inv tr s -> step s e s2 -> inv (tr ++ [e]) s2.
Proof.
  intros V S. pose proof V as [A G O So]. pose proof (NoDup_all _ _ V) as ND. unfold all in A, ND.
  destruct S as [s P Lk|s P Lk|s P Lk|s P Lk|s k v r P Rd Ec|s k r P Rd Em|s k r P Rd Em|s n q Eq Lt P|s r1 n r2 ok Er P|s P|s P Er|s k r P Ec|s k r P Ec Em|s k r P Em|s P Ec Em];
  try (eapply inv_same; eauto; reflexivity); try (eapply inv_queue; eauto; reflexivity).
  - assert (K : ~ In k (map fst (s_map s))).
    { intros K. rewrite Ec in ND. apply (NoDup_count_occ Nat.eq_dec) with (x := k) in ND. revert ND. rewrite !count_occ_app. cbn [map fst count_occ]. destruct (Nat.eq_dec k k) as [_|]; [|congruence]. apply (count_occ_In Nat.eq_dec) in K. lia. }
    pose proof (map_set_perm k v _ K) as MP. constructor; unfold all; ev; st; auto.
    + rewrite Ec in A. apply (Permutation_map fst) in MP. cbn [map fst] in MP. cnt.
    + apply oks_perm in MP. rewrite Ec in O. rewrite oks_cons in O, MP. cnt.
    + now apply map_set_sorted.
  - unfold ready in Rd. rewrite Em in Rd. apply Nat.eqb_eq in Rd. subst k. constructor; unfold all; ev; st.
    + rewrite Em in A. cnt.
    + now rewrite G, seq_snoc.
    + rewrite Em in O. rewrite oks_cons in O. cnt.
    + rewrite Em in So. now inversion So.
  - constructor; unfold all; ev; st; auto. rewrite Eq in A. cnt.
  - constructor; unfold all; ev; st; auto.
    + rewrite Er in A. rewrite map_app. cnt.
    + rewrite oks_app. destruct ok; cbn [oks filter snd map fst app]; rewrite ?app_nil_r; auto. change (oks [(n, true)]) with [n]. cnt.
  - constructor; unfold all; ev; st; auto.
    + rewrite Ec in A. cnt.
    + rewrite Ec in O. rewrite oks_cons in O. cnt.
  - constructor; unfold all; ev; st; auto.
    + rewrite Ec, Em in A. cnt.
    + rewrite Ec, Em in O. rewrite oks_cons in O. cnt.
    + rewrite Em in So. now inversion So.
Qed.
Lemma run_inv tr s : run init tr s -> inv tr s.
Proof.
  intros R. remember init as s0 eqn:E. induction R as [s0|s0 tr s2 e s3 R IH S]; subst; [apply inv_init|]. exact (inv_step _ _ _ _ (IH eq_refl) S).
Qed.

(** ** The phases *)
Record ph (tr : list event) (s : state) : Prop := mkph {
  p_look : match s_phase s with
    | PCtor => s_curr s = 0%nat /\ (s_look s <= Nat.min num_queued size)%nat
    | PIdle | PJoin | PDrop | PGone => s_look s = Nat.min size (s_curr s + num_queued)
    | PWait => s_look s = Nat.min size (s_curr s + S num_queued) /\ (s_curr s < size)%nat
    | PAborted => (s_look s <= Nat.min size (s_curr s + S num_queued))%nat end;
  p_closes : match s_phase s with PCtor | PIdle | PWait | PJoin => closes tr = [] | _ => True end;
  p_wait : waiting tr = true <-> s_phase s = PWait;
  p_done : In EDone tr -> s_phase s = PGone;
  p_gone : match s_phase s with PDrop => s_run s = [] | PGone => s_run s = [] /\ s_comp s = [] /\ s_map s = [] | _ => True end;
  p_fail : forall n, In (EOpened n false) tr <-> In (n, false) (s_comp s) \/ In (n, false) (s_map s) }.
Lemma ph_init : ph [] init.
Proof. constructor; cbn; auto; [split; [auto|apply Nat.le_0_l]|split; discriminate|tauto|tauto]. Qed.
Lemma queue_next_same s : s_phase (queue_next size s) = s_phase s /\ s_curr (queue_next size s) = s_curr s /\ s_run (queue_next size s) = s_run s /\ s_comp (queue_next size s) = s_comp s /\ s_map (queue_next size s) = s_map s /\ s_look (queue_next size s) = Nat.min (Nat.max size (s_look s)) (S (s_look s)).
Proof. unfold queue_next. destruct (Nat.leb_spec size (s_look s)); cbn; repeat split; lia. Qed.
Lemma ph_step tr s e s2 : inv tr s -> ph tr s -> step s e s2 -> ph (tr ++ [e]) s2.
Proof.
  intros V [L C W D Go F] S. pose proof (NoDup_all _ _ V) as ND. unfold all in ND.
  destruct S as [s P Lk|s P Lk|s P Lk|s P Lk|s k v r P Rd Ec|s k r P Rd Em|s k r P Rd Em|s n q Eq Lt P|s r1 n r2 ok Er P|s P|s P Er|s k r P Ec|s k r P Ec Em|s k r P Em|s P Ec Em].
  all: try rewrite P in *.
  all: try pose proof (queue_next_same s) as (Q1 & Q2 & Q3 & Q4 & Q5 & Q6).
  all: constructor; st; rewrite ?closes_snoc, ?waiting_snoc, ?app_nil_r, ?in_snoc; rewrite ?Q1, ?Q2, ?Q3, ?Q4, ?Q5, ?Q6, ?P; auto; try lia; try (split; congruence); try discriminate.
  all: try (intros [X|X]; [|discriminate X]; specialize (D X); congruence).
  all: try (intros m; rewrite in_snoc, F; intuition congruence).
  - split; [|discriminate]. intros X. apply W in X. discriminate.
  - intros m. rewrite in_snoc, F, Ec. assert (K : ~ In k (map fst (s_map s))).
    { intros K. rewrite Ec in ND. apply (NoDup_count_occ Nat.eq_dec) with (x := k) in ND. revert ND. rewrite !count_occ_app. cbn [map fst count_occ]. destruct (Nat.eq_dec k k) as [_|]; [|congruence]. apply (count_occ_In Nat.eq_dec) in K. lia. }
    pose proof (map_set_perm k v _ K) as MP. assert (I2 : In (m, false) (map_set k v (s_map s)) <-> In (m, false) ((k, v) :: s_map s)) by (split; apply Permutation_in; [exact MP|now apply Permutation_sym]).
    rewrite I2. cbn [In]. intuition discriminate.
  - intros m. rewrite in_snoc, F, Em. cbn [In]. intuition congruence.
  - destruct P as [P|[P|P]]; rewrite P; exact Logic.I.
  - destruct (s_phase s); auto; [destruct r1; rewrite Er in Go; discriminate|destruct Go as (Go & _); destruct r1; rewrite Er in Go; discriminate].
  - intros m. rewrite !in_snoc, F. intuition congruence.
  - split; [|discriminate]. intros X. apply W in X. discriminate.
  - split; [|discriminate]. intros X. apply W in X. discriminate.
  - intros m. rewrite in_snoc, F, Ec. cbn [In]. intuition congruence.
  - intros m. rewrite in_snoc, F, Ec, Em. cbn [In]. intuition congruence.
  - split; [|discriminate]. intros X. apply W in X. discriminate.
Qed.
Lemma run_ph tr s : run init tr s -> ph tr s.
Proof.
  intros R. remember init as s0 eqn:E. induction R as [s0|s0 tr s2 e s3 R IH S]; subst; [apply ph_init|]. exact (ph_step _ _ _ _ (run_inv _ _ R) (IH eq_refl) S).
Qed.
Lemma run_snoc_inv tr e s : run init (tr ++ [e]) s -> exists s2, run init tr s2 /\ step s2 e s.
Proof.
  intros R. remember (tr ++ [e]) as l eqn:El. destruct R as [s0|s0 tr2 s2 e2 s3 R S]; [now destruct tr|]. apply app_inj_tail in El. destruct El as (-> & ->). eauto.
Qed.
Lemma run_app_inv tr1 tr2 s : run init (tr1 ++ tr2) s -> exists s2, run init tr1 s2.
Proof.
  revert s. induction tr2 as [|e tr2 IH] using rev_ind; intros s R; [rewrite app_nil_r in R; eauto|]. rewrite app_assoc in R. apply run_snoc_inv in R. destruct R as (s2 & R & _). eauto.
Qed.
Lemma look_size tr s : run init tr s -> (s_look s <= size)%nat /\ (s_look s <= s_curr s + num_queued + (if waiting tr then 1 else 0)%nat \/ s_phase s = PAborted).
Proof.
  intros R. pose proof (run_ph _ _ R) as [L _ W _ _ _]. destruct (s_phase s) eqn:P; try (destruct (waiting tr); split; lia).
  - destruct (waiting tr); [lia|]. assert (false = true) by now apply W. discriminate.
  - split; [lia|now right].
Qed.
Lemma sizes tr s : inv tr s -> (length (gets tr) + length (closes tr) + length (s_queue s) + length (s_run s) + length (s_comp s) + length (s_map s) = s_look s)%nat.
Proof.
  intros V. pose proof (Permutation_length (v_all _ _ V)) as H. unfold all in H. rewrite !app_length, !map_length, seq_length in H. lia.
Qed.

(** ** A waiting call makes progress *)
Definition mu (s : state) : nat := (3 * length (s_queue s) + 2 * length (s_run s) + length (s_comp s))%nat.
Lemma ready_when s tr : inv tr s -> closes tr = [] -> s_queue s = [] -> s_run s = [] -> s_comp s = [] -> (s_curr s < s_look s)%nat -> ready s = true.
Proof.
  intros V C Q R Co L. pose proof V as [A G O So]. unfold all in A. rewrite C, Q, R, Co in A. cbn [app map] in A.
  assert (Hin : In (s_curr s) (map fst (s_map s))).
  { assert (X : In (s_curr s) (seq 0 (s_look s))) by (apply in_seq; lia). apply (Permutation_in _ (Permutation_sym A)) in X. apply in_app_iff in X. destruct X as [X|X]; [|exact X]. rewrite G in X. apply in_seq in X. lia. }
  pose proof (NoDup_all _ _ V) as ND. unfold all in ND. rewrite C, Q, R, Co in ND. cbn [app map] in ND.
  unfold ready. destruct (s_map s) as [|(k, v) r] eqn:E; [destruct Hin|]. apply Nat.eqb_eq.
  inversion So as [|? ? S2 F]; subst. destruct Hin as [Hk|Hin]; [exact Hk|]. exfalso. apply in_map_iff in Hin. destruct Hin as ((k2, v2) & Ek & Hin). cbn in Ek. subst k2. rewrite Forall_forall in F. specialize (F _ Hin). cbn in F.
  (* then k < curr, so k is in gets, and in the map *)
  apply (NoDup_count_occ Nat.eq_dec) with (x := k) in ND. rewrite count_occ_app in ND. cbn [map fst count_occ] in ND. destruct (Nat.eq_dec k k) as [_|]; [|congruence]. assert (X : In k (gets tr)) by (rewrite G; apply in_seq; lia). apply (count_occ_In Nat.eq_dec) in X. lia.
Qed.
Lemma wait_enabled tr s : (1 <= threads)%nat -> run init tr s -> waiting tr = true -> exists e s2, step s e s2.
Proof.
  intros T R W. pose proof (run_inv _ _ R) as V. pose proof (run_ph _ _ R) as H. pose proof (proj1 (p_wait _ _ H) W) as P. pose proof (p_look _ _ H) as L. pose proof (p_closes _ _ H) as C. rewrite P in L, C.
  destruct (ready s) eqn:Rd.
  { destruct (s_map s) as [|(k, v) r] eqn:E; [unfold ready in Rd; rewrite E in Rd; discriminate|]. destruct v; [eexists _, _; eapply O_get; eauto|eexists _, _; eapply O_get_fail; eauto]. }
  destruct (s_comp s) as [|(k, v) r] eqn:Ec; [|eexists _, _; eapply O_pop; eauto].
  destruct (s_run s) as [|n r] eqn:Er; [|eexists _, _; eapply (O_open _ _ s [] n r true); [exact Er|congruence]].
  destruct (s_queue s) as [|n q] eqn:Eq; [|eexists _, _; eapply O_take; [exact Eq|rewrite Er; cbn; lia|auto]].
  exfalso. assert (ready s = true); [|congruence]. apply (ready_when s tr); auto. pose proof num_queued. assert (X : (s_look s = Nat.min size (s_curr s + S num_queued))%nat) by tauto. rewrite X. destruct L as (_ & L). lia.
Qed.
Lemma wait_bound tr1 tr2 s : run init (tr1 ++ ECall :: tr2) s -> (forall e, In e tr2 -> match e with EGet _ | ENull | EAbort => False | _ => True end) -> s_phase s = PWait /\ (length tr2 + mu s <= 3 * S num_queued)%nat.
Proof.
  revert s. induction tr2 as [|e tr2 IH] using rev_ind; intros s R H.
  - pose proof (run_inv _ _ R) as V. pose proof (run_ph _ _ R) as Hp. assert (P : s_phase s = PWait) by (apply (p_wait _ _ Hp); rewrite waiting_snoc; reflexivity). split; [exact P|]. pose proof (p_look _ _ Hp) as L. rewrite P in L. pose proof (sizes _ _ V) as Z. rewrite (v_gets _ _ V), seq_length in Z. unfold mu. cbn [length]. lia.
  - change (ECall :: tr2 ++ [e]) with ((ECall :: tr2) ++ [e]) in R. rewrite app_assoc in R. apply run_snoc_inv in R. destruct R as (s1 & R & S). destruct (IH s1 R) as (P & B). { intros e2 H2. apply H. apply in_app_iff. now left. }
    specialize (H e ltac:(apply in_app_iff; right; now left)). rewrite app_length. cbn [length].
    remember s1 as s1' eqn:Es. destruct S as [s0 P0 Lk|s0 P0 Lk|s0 P0 Lk|s0 P0 Lk|s0 k v r P0 Rd Ec|s0 k r P0 Rd Em|s0 k r P0 Rd Em|s0 n q Eq Lt P0|s0 r1 n r2 ok Er P0|s0 P0|s0 P0 Er|s0 k r P0 Ec|s0 k r P0 Ec Em|s0 k r P0 Em|s0 P0 Ec Em]; try congruence; try contradiction; st; (split; [auto|]); unfold mu in *; st.
    + rewrite Ec in B. cbn [length] in B. lia.
    + rewrite Eq in B. cbn [length] in B. rewrite app_length. cbn [length]. lia.
    + rewrite Er in B. rewrite !app_length in *. cbn [length] in *. lia.
Qed.
Lemma failed_not_get tr s n : run init tr s -> In (EOpened n false) tr -> ~ In n (gets tr) /\ (n < size)%nat /\ (s_curr s <= n)%nat.
Proof.
  intros R F. pose proof (run_inv _ _ R) as V. apply (p_fail _ _ (run_ph _ _ R)) in F. pose proof (NoDup_all _ _ V) as ND. unfold all in ND.
  assert (X : In n (map fst (s_comp s) ++ map fst (s_map s))).
  { apply in_app_iff. destruct F as [F|F]; [left|right]; apply in_map_iff; exists (n, false); auto. }
  assert (X2 : ~ In n (gets tr)).
  { intros G. apply (NoDup_count_occ Nat.eq_dec) with (x := n) in ND. rewrite !count_occ_app in ND. apply (count_occ_In Nat.eq_dec) in G. apply (count_occ_In Nat.eq_dec) in X. rewrite count_occ_app in X. lia. }
  split; [exact X2|]. split.
  - assert (Y : In n (all tr s)) by (unfold all; rewrite !in_app_iff; apply in_app_iff in X; tauto). apply (Permutation_in _ (v_all _ _ V)) in Y. apply in_seq in Y. pose proof (proj1 (look_size _ _ R)). lia.
  - rewrite (v_gets _ _ V) in X2. destruct (Nat.le_gt_cases (s_curr s) n) as [H|H]; [exact H|]. exfalso. apply X2. apply in_seq. lia.
Qed.
Lemma null_at tr s : run init tr s -> In ENull tr -> (size <= s_curr s)%nat.
Proof.
  intros R. remember init as s0 eqn:E. induction R as [s0|s0 tr s2 e s3 R IH S]; subst; [intros []|]. intros H. apply in_snoc in H.
  destruct H as [H| <-]; [specialize (IH eq_refl H)|inversion S; subst; assumption].
  destruct S; try exact IH; cbn; try lia; destruct (queue_next_same s) as (_ & Q & _); rewrite Q; exact IH.
Qed.
Lemma abort_failed tr s : run init tr s -> In EAbort tr -> exists n, In (EOpened n false) tr.
Proof.
  intros R. remember init as s0 eqn:E. induction R as [s0|s0 tr s2 e s3 R IH S]; subst; [intros []|]. intros H. apply in_snoc in H.
  destruct H as [H|H]; [destruct (IH eq_refl H) as (n & Hn); exists n; apply in_snoc; now left|]. subst e.
  pose proof (p_fail _ _ (run_ph _ _ R)) as F. inversion S; subst; exists k; apply in_snoc; left; apply F.
  - right. match goal with H : s_map _ = _ |- _ => rewrite H end. now left.
  - match goal with H : s_comp _ = _ \/ _ |- _ => destruct H as [X|(X & X2)] end; [left; rewrite X|right; rewrite X2]; now left.
Qed.
Lemma done_all tr s : run init tr s -> In EDone tr -> Permutation (opens tr) (gets tr ++ closes tr) /\ s_comp s = [] /\ s_map s = [].
Proof.
  intros R D. pose proof (run_inv _ _ R) as V. pose proof (run_ph _ _ R) as H. pose proof (p_done _ _ H D) as P. pose proof (p_gone _ _ H) as Go. rewrite P in Go. destruct Go as (_ & Co & Ma). split; [|auto]. pose proof (v_opens _ _ V) as O. rewrite Co, Ma in O. cbn in O. now rewrite !app_nil_r in O.
Qed.
Lemma opens_nodup tr s : run init tr s -> NoDup (opens tr).
Proof.
  intros R. pose proof (run_inv _ _ R) as V. eapply Permutation_NoDup; [apply Permutation_sym, (v_opens _ _ V)|]. pose proof (NoDup_all _ _ V) as ND. apply (NoDup_count_occ Nat.eq_dec). intros x. pose proof (proj1 (NoDup_count_occ Nat.eq_dec _) ND x) as N1. unfold all in N1. rewrite !count_occ_app in *.
  assert (O : forall l, (count_occ Nat.eq_dec (oks l) x <= count_occ Nat.eq_dec (map fst l) x)%nat).
  { induction l as [|(k, v) l IH]; [auto|]. rewrite oks_cons. rewrite count_occ_app. cbn [map fst]. destruct v; cbn [count_occ]; destruct (Nat.eq_dec k x); lia. }
  pose proof (O (s_comp s)). pose proof (O (s_map s)). lia.
Qed.
Lemma opens_size tr s : run init tr s -> (length (opens tr) <= s_look s)%nat.
Proof.
  intros R. pose proof (run_inv _ _ R) as V. rewrite (Permutation_length (v_opens _ _ V)), !app_length. pose proof (sizes _ _ V). assert (O : forall l, (length (oks l) <= length l)%nat) by (intros l; unfold oks; rewrite map_length; induction l as [|x l IH]; cbn; [auto|destruct (snd x); cbn; lia]).
  pose proof (O (s_comp s)). pose proof (O (s_map s)). lia.
Qed.
End Opener.
