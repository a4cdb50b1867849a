(** Proofs for C75. *)
From Verif Require Import Base ModelRescan.
From Coq Require Import Lia.

Section Rescan.
Context {P V : Type} (P_eq : forall p q : P, {p = q} + {p <> q}) (V_eq : forall a b : V, {a = b} + {a <> b}) (absent : V).
Notation world := (@world P V).
Notation step := (step P_eq absent).

Definition coming (w : world) : Prop :=
  dir_recreated w = true \/ st w = Failed \/ st w = Opening true \/ st w = Opened \/
  (st w = Opening false /\ exists_ w = true) \/ (replaced w = true /\ (st w = Reading \/ st w = Called)).
Definition covered (w : world) (q : P) : Prop :=
  lost w q \/ (man w q = src w q /\ ~ may_spoil (work w) q) \/ coming w \/
  (st w = Reading /\ replaced w = false /\ (In q (map fst (os w)) \/ dirty w q <> None)) \/
  (match work w with Idle => False | All _ t => t q = false | Update ops t => ops q <> None /\ t q = false end).
Record inv (w : world) : Prop := {
  i_absent : exists_ w = false -> forall q, src w q = absent;
  i_last : st w = Reading -> replaced w = false -> forall q l1 k l2, os w = l1 ++ (q, k) :: l2 -> ~ In q (map fst l2) ->
    (k = Removed <-> src w q = absent);
  i_wake : forall q, dirty w q <> None -> due w = true \/ files_changed w = true;
  i_clean : st w <> Reading -> st w <> Failed -> forall q, dirty w q = None;
  i_os : st w <> Reading -> os w = [];
  i_cov : forall q, covered w q }.

Lemma upd_same {X} (f : P -> X) p x : upd P_eq f p x p = x.
Proof. unfold upd. destruct (P_eq p p); congruence. Qed.
Lemma upd_other {X} (f : P -> X) p q x : q <> p -> upd P_eq f p x q = f q.
Proof. unfold upd. destruct (P_eq q p); congruence. Qed.

Lemma start_inv w : starts w -> inv w.
Proof.
  intros (E1 & E2 & E3 & E4 & E5 & E6 & E7 & E8 & (t & E9 & Ht) & E10). split.
  - congruence.
  - intros _ _ q l1 k l2 X. rewrite E4 in X. destruct l1; discriminate.
  - intros q X. rewrite E5 in X. congruence.
  - congruence.
  - congruence.
  - intros q. right. right. right. right. rewrite E9. apply Ht.
Qed.

(** A step that changes none of the fields that matter for a path keeps it covered. *)
Lemma snoc_split {A} (l1 : list A) x l2 l y : l ++ [y] = l1 ++ x :: l2 ->
  (l2 = [] /\ l1 = l /\ x = y) \/ exists l2', l2 = l2' ++ [y] /\ l = l1 ++ x :: l2'.
Proof.
  destruct l2 as [|z l2] using rev_ind; intros E.
  - apply app_inj_tail in E. destruct E as [-> ->]. auto.
  - right. assert (E' : l ++ [y] = (l1 ++ x :: l2) ++ [z]) by (rewrite <- app_assoc; exact E).
    apply app_inj_tail in E'. destruct E' as [-> ->]. eauto.
Qed.

Lemma may_touch (j : @job P) p q : q <> p -> may_spoil (touch P_eq j p) q <-> may_spoil j q.
Proof. intros N. destruct j; cbn; rewrite ?upd_other by exact N; tauto. Qed.

Lemma spoil_dec (j : @job P) q : {may_spoil (touch_all j) q} + {~ may_spoil (touch_all j) q}.
Proof. destruct j as [|f t|ops t]; cbn; [auto|auto|]. destruct (ops q); [left; split; [discriminate|reflexivity]|right; intros [X _]; congruence]. Qed.

Lemma step_inv l w w' : inv w -> step l w w' -> inv w'.
Proof.
  intros [Ia Il Iw If Io Ic] H.
  destruct H as [w p v k He Hc|w src' e He Hx|w b Hs He|w Hs He|w Hs|w Hs|w Hs Hr|w Hs Ho|w Hs|w p k r Hs Ho|w Hd
    |w Hw Hf Hfc|w Hw Hf|w f t man' Hw Hm|w ops t man' Hw Hm1 Hm2|w t Hw|w ops t Hw Hne].
  - (* change *)
    split; cbn [src exists_ replaced st os dirty due files_changed dir_recreated work man lost].
    + discriminate.
    + intros Hs Hr q l1 k' l2. rewrite Hs, Hr. cbn [is_reading andb negb]. intros E N. apply snoc_split in E.
      destruct E as [(-> & -> & E)|(l2' & -> & E)].
      * injection E as -> ->. rewrite upd_same. destruct k; cbn in Hc; intuition congruence.
      * rewrite map_app, in_app_iff in N. cbn [map fst In] in N. rewrite upd_other by (intros X; apply N; auto).
        eapply Il; eauto.
    + exact Iw.
    + exact If.
    + intros X. rewrite (Io X). destruct (st w); try reflexivity. congruence.
    + intros q. unfold covered, coming. cbn [src exists_ replaced st os dirty due files_changed dir_recreated work man lost].
      destruct (P_eq q p) as [->|Nq].
      * destruct (st w) as [[|]| | | |] eqn:Hs; try (right; right; left; tauto).
        -- destruct (replaced w) eqn:Hr; [right; right; left; tauto|]. destruct (dir_recreated w) eqn:Hd; [right; right; left; tauto|].
           left. right. auto.
        -- destruct (replaced w) eqn:Hr; [right; right; left; tauto|]. right. right. right. left. split; [reflexivity|]. split; [reflexivity|].
           left. cbn [is_reading andb negb]. rewrite map_app. apply in_or_app. right. now left.
      * rewrite upd_other by exact Nq. destruct (Ic q) as [X|[(X1 & X2)|[X|[(X1 & X2 & X3)|X]]]].
        -- left. now left.
        -- right. left. split; [exact X1|]. now rewrite may_touch.
        -- right. right. left. unfold coming in X. rewrite He in X. exact X.
        -- right. right. right. left. split; [exact X1|]. split; [exact X2|]. rewrite X1, X2. cbn [is_reading andb negb].
           destruct X3 as [X3|X3]; [left|now right]. rewrite map_app. apply in_or_app. now left.
        -- right. right. right. right. destruct (work w); cbn [touch]; rewrite ?upd_other by exact Nq; tauto.
  - (* replace *)
    split; cbn [src exists_ replaced st os dirty due files_changed dir_recreated work man lost].
    + exact He.
    + discriminate.
    + exact Iw.
    + exact If.
    + exact Io.
    + intros q. unfold covered, coming. cbn [src exists_ replaced st os dirty due files_changed dir_recreated work man lost].
      destruct (st w) as [[|]| | | |] eqn:Hs; try (right; right; left; tauto).
      destruct e; [right; right; left; tauto|]. destruct (dir_recreated w) eqn:Hd; [right; right; left; tauto|].
      rewrite (He eq_refl).
      destruct (spoil_dec (work w) q) as [D|D]; [left; right; auto|].
      destruct (V_eq (man w q) absent) as [E|E]; [right; left; auto|left; right; auto].
  - (* open *)
    split; cbn [src exists_ replaced st os dirty due files_changed dir_recreated work man lost]; [discriminate|discriminate|exact Iw|intros _ _; apply If; rewrite Hs; discriminate|reflexivity|].
    intros q. right. right. left. unfold coming. cbn. auto.
  - (* missing *)
    split; cbn [src exists_ replaced st os dirty due files_changed dir_recreated work man lost]; [auto|discriminate|exact Iw|intros _ _; apply If; rewrite Hs; discriminate|intros _; apply Io; rewrite Hs; discriminate|].
    intros q. right. right. left. unfold coming. cbn. auto.
  - (* callback *)
    split; cbn [src exists_ replaced st os dirty due files_changed dir_recreated work man lost]; [auto|discriminate|exact Iw|intros _ _; apply If; rewrite Hs; discriminate|intros _; apply Io; rewrite Hs; discriminate|].
    intros q. right. right. left. unfold coming. cbn. auto.
  - (* read *)
    assert (Eo : os w = []) by (apply Io; rewrite Hs; discriminate).
    split; cbn [src exists_ replaced st os dirty due files_changed dir_recreated work man lost]; [auto| |exact Iw|congruence|congruence|].
    { intros _ _ q l1 k l2 X. rewrite Eo in X. destruct l1; discriminate. }
    intros q. unfold covered, coming. cbn [src exists_ replaced st os dirty due files_changed dir_recreated work man lost].
    destruct (Ic q) as [X|[X|[X|[(X1 & _)|X]]]]; auto; [|congruence].
    right. right. left. unfold coming in X. rewrite Hs in X.
    destruct X as [X|[X|[X|[X|[(X & _)|(X & _)]]]]]; try discriminate; auto. right. right. right. right. right. auto.
  - (* detect *)
    split; cbn [src exists_ replaced st os dirty due files_changed dir_recreated work man lost]; [auto|discriminate|exact Iw|congruence|reflexivity|].
    intros q. right. right. left. unfold coming. cbn. auto.
  - (* overflow *)
    split; cbn [src exists_ replaced st os dirty due files_changed dir_recreated work man lost]; [auto|discriminate|exact Iw|congruence|reflexivity|].
    intros q. right. right. left. unfold coming. cbn. auto.
  - (* clear *)
    split; cbn [src exists_ replaced st os dirty due files_changed dir_recreated work man lost]; [auto|discriminate|congruence|reflexivity|intros _; apply Io; rewrite Hs; discriminate|].
    intros q. right. right. left. unfold coming. cbn. auto.
  - (* merge *)
    split; cbn [src exists_ replaced st os dirty due files_changed dir_recreated work man lost]; [auto| |auto|congruence|congruence|].
    { intros _ Hr q l1 k' l2 X N. eapply (Il Hs Hr q ((p, k) :: l1)); [|exact N]. rewrite Ho, X. reflexivity. }
    intros q. unfold covered, coming. cbn [src exists_ replaced st os dirty due files_changed dir_recreated work man lost].
    destruct (replaced w) eqn:Hr; [right; right; left; tauto|].
    destruct (P_eq q p) as [->|Nq].
    + rewrite upd_same. destruct (in_dec P_eq p (map fst r)) as [I|I]; [right; right; right; left; auto|].
      destruct (merge (dirty w p) k) as [a|] eqn:Em; [right; right; right; left; split; [reflexivity|]; split; [reflexivity|]; right; discriminate|].
      destruct (spoil_dec (work w) p) as [D|D]; [left; right; auto|].
      destruct (V_eq (man w p) absent) as [E|E]; [|left; right; auto].
      right. left. split.
      * assert (Ek : k = Removed) by (destruct k, (dirty w p) as [[| |]|]; cbn in Em; congruence).
        rewrite E. symmetry. apply (Il Hs eq_refl p [] k r); auto.
      * intros X. apply D. destruct (work w); cbn in *; tauto.
    + rewrite upd_other by exact Nq. destruct (Ic q) as [X|[X|[X|[(X1 & X2 & X3)|X]]]]; auto.
      * right. right. left. unfold coming in X. rewrite Hs, Hr in X. exact X.
      * right. right. right. left. split; [reflexivity|]. split; [reflexivity|]. rewrite Ho in X3. cbn [map fst In] in X3.
        destruct X3 as [[X3|X3]|X3]; auto; congruence.
  - (* files changed *)
    split; cbn [src exists_ replaced st os dirty due files_changed dir_recreated work man lost]; [auto|auto|auto|auto|auto|].
    intros q. specialize (Ic q). exact Ic.
  - (* pick *)
    split; cbn [src exists_ replaced st os dirty due files_changed dir_recreated work man lost]; [auto|auto|congruence|auto|auto|].
    intros q. unfold covered, coming. cbn [src exists_ replaced st os dirty due files_changed dir_recreated work man lost may_spoil].
    specialize (Ic q). unfold covered, coming in Ic. rewrite Hw, Hf in Ic. cbn [may_spoil] in Ic.
    destruct Ic as [X|[(X1 & _)|[X|[(X1 & X2 & X3)|[]]]]].
    + auto.
    + destruct (dirty w q) as [a|] eqn:Ed.
      * (* told: the job may spoil it, unless it is up to date *)
        destruct (st w) as [[|]| | | |] eqn:Hs; try (right; right; left; tauto);
          try (exfalso; rewrite If in Ed; discriminate).
        -- destruct (replaced w) eqn:Hr; [right; right; left; tauto|].
           destruct (in_dec P_eq q (map fst (os w))) as [I|I]; [right; right; right; left; auto|].
           right. right. right. right. split; [discriminate|]. destruct (in_dec P_eq q (map fst (os w))); [contradiction|reflexivity].
      * right. left. split; [exact X1|]. intros (Y & _). congruence.
    + right. right. left. exact X.
    + destruct (in_dec P_eq q (map fst (os w))) as [I|I]; [right; right; right; left; auto|].
      destruct X3 as [X3|X3]; [contradiction|]. right. right. right. right. split; [exact X3|]. rewrite X1, X2. destruct (in_dec P_eq q (map fst (os w))); [contradiction|reflexivity].
  - (* scan *)
    split; cbn [src exists_ replaced st os dirty due files_changed dir_recreated work man lost]; [auto|auto|auto|auto|auto|].
    intros q. right. right. right. right. cbn. auto.
  - (* scanned *)
    split; cbn [src exists_ replaced st os dirty due files_changed dir_recreated work man lost]; [auto|auto|auto|auto|auto|].
    intros q. unfold covered, coming. cbn [src exists_ replaced st os dirty due files_changed dir_recreated work man lost may_spoil].
    specialize (Ic q). unfold covered, coming in Ic. rewrite Hw in Ic. cbn [may_spoil] in Ic.
    destruct (t q) eqn:Et; [|right; left; split; [apply Hm; exact Et|tauto]].
    destruct Ic as [X|[(_ & X)|[X|[X|X]]]]; [auto|congruence|auto|auto|discriminate].
  - (* updated *)
    split; cbn [src exists_ replaced st os dirty due files_changed dir_recreated work man lost]; [auto|auto|auto|auto|auto|].
    intros q. unfold covered, coming. cbn [src exists_ replaced st os dirty due files_changed dir_recreated work man lost may_spoil].
    specialize (Ic q). unfold covered, coming in Ic. rewrite Hw in Ic. cbn [may_spoil] in Ic.
    destruct (ops q) as [a|] eqn:Eo.
    + assert (Ne : ops q <> None) by congruence.
      destruct (t q) eqn:Et; [|right; left; split; [apply Hm2; assumption|tauto]].
      destruct Ic as [X|[(_ & X)|[X|[X|(_ & X)]]]]; [auto|exfalso; apply X; split; [discriminate|reflexivity]|auto|auto|discriminate].
    + destruct Ic as [X|[(X & _)|[X|[X|(X & _)]]]]; [auto| |auto|auto|congruence].
      right. left. rewrite (Hm1 q Eo). tauto.
  - (* scan failed *)
    split; cbn [src exists_ replaced st os dirty due files_changed dir_recreated work man lost]; [auto|auto|auto|auto|auto|].
    intros q. unfold covered. cbn [src exists_ replaced st os dirty due files_changed dir_recreated work man lost may_spoil].
    destruct (V_eq (src w q) absent) as [E|E]; [right; left; rewrite E; tauto|left; exact E].
  - (* update failed *)
    split; cbn [src exists_ replaced st os dirty due files_changed dir_recreated work man lost]; [auto|auto|auto|auto|auto|].
    intros q. unfold covered. cbn [src exists_ replaced st os dirty due files_changed dir_recreated work man lost may_spoil].
    destruct (V_eq (src w q) absent) as [E|E]; [right; left; rewrite E; tauto|left; exact E].
Qed.

Lemma run_inv ls w w' : inv w -> run P_eq absent ls w w' -> inv w'.
Proof. intros H0 H. induction H as [|ls l w w1 w2 R IH S1]; [exact H0|]. exact (step_inv _ _ _ (IH H0) S1). Qed.

Lemma at_rest_inv w : inv w -> at_rest w -> forall q, man w q = src w q \/ lost w q.
Proof.
  intros [Ia Il Iw If Io Ic] (R & R1 & R2 & R3 & R4 & R5) q.
  assert (D : dirty w q = None).
  { destruct (dirty w q) eqn:E; [|reflexivity]. destruct (Iw q); congruence. }
  destruct (Ic q) as [X|[(X & _)|[X|[(X1 & X2 & X3)|X]]]]; auto.
  - unfold coming in X. rewrite R4 in X. exfalso. destruct R as [(A & B)|(A & B)]; rewrite A, B in X;
      destruct X as [X|[X|[X|[X|[(X & Y)|(X & [Y|Y])]]]]]; congruence.
  - rewrite R1 in X3. destruct X3 as [[]|X3]. congruence.
  - rewrite R5 in X. contradiction.
Qed.

(** Progress and termination *)
Definition rank (w : world) : nat :=
  match st w with
  | Opening true => 8
  | Opening false => if exists_ w then 7 else 0
  | Opened => if replaced w then 15 else 6
  | Called => if replaced w then 11 else 1
  | Reading => if replaced w then 10 else 0
  | Failed => 9
  end%nat.
Definition measure (w : world) : nat :=
  (40 * length (os w) + rank w + (if due w then 5 else 0) + (if files_changed w then 3 else 0) +
  (if dir_recreated w then 3 else 0) + match work w with Idle => 0 | _ => 1 end)%nat.

Lemma step_measure l w w' : step l w w' -> l <> User -> (measure w' < measure w)%nat.
Proof.
  intros H. destruct H; intros Hl; try congruence; unfold measure, rank; cbn [src exists_ replaced st os dirty due files_changed dir_recreated work man lost];
    repeat match goal with E : _ = _ |- _ => rewrite E end; cbn [length]; try lia.
  - destruct b; lia.
  - destruct (replaced w); destruct (dir_recreated w); lia.
  - destruct (replaced w); lia.
  - destruct (os w); [congruence|]. cbn [length]. destruct (replaced w); lia.
Qed.

Lemma run_measure ls w w' : run P_eq absent ls w w' -> ~ In User ls -> (length ls + measure w' <= measure w)%nat.
Proof.
  intros H. induction H as [|ls l w w1 w2 H IH S1]; intros N; [cbn; lia|].
  assert (l <> User) by (intros ->; apply N; apply in_or_app; right; now left).
  assert (~ In User ls) by (intros X; apply N; apply in_or_app; now left).
  specialize (IH H1). apply step_measure in S1; [|exact H0]. rewrite app_length. cbn [length]. lia.
Qed.

Lemma measure_bound w : (measure w <= 40 * length (os w) + 27)%nat.
Proof. unfold measure, rank. destruct (st w) as [[|]| | | |], (exists_ w), (replaced w), (due w), (files_changed w), (dir_recreated w), (work w); lia. Qed.

Lemma progress w : inv w -> at_rest w \/ exists w', step Own w w'.
Proof.
  intros I.
  destruct (due w) eqn:Ed; [right; eexists; now apply S_files_changed|].
  destruct (work w) as [|f t|ops t] eqn:Ew.
  2: { right. eexists. eapply S_scanned with (man' := src w); eauto. }
  2: { right. eexists. eapply S_updated with (man' := fun q => match ops q with None => man w q | _ => src w q end); eauto.
    - intros q E. now rewrite E.
    - intros q E _. destruct (ops q); [reflexivity|congruence]. }
  destruct (dir_recreated w) eqn:Er; [right; eexists; now apply S_scan|].
  destruct (files_changed w) eqn:Ef; [right; eexists; now apply S_pick|].
  destruct (st w) as [[|]| | | |] eqn:Es.
  - right. destruct (exists_ w) eqn:Ee; eexists; [eapply S_open|eapply S_missing]; eauto.
  - destruct (exists_ w) eqn:Ee; [right; eexists; eapply S_open; eauto|]. left.
    assert (os w = []) by (apply (i_os _ I); rewrite Es; discriminate). repeat split; auto.
  - right. eexists. now apply S_callback.
  - right. eexists. now apply S_read.
  - destruct (replaced w) eqn:Er'; [right; eexists; now apply S_detect|].
    destruct (os w) as [|[p k] r] eqn:Eo; [left; repeat split; auto|right; eexists; eapply S_merge; eauto].
  - right. eexists. now apply S_clear.
Qed.

Lemma reach_rest n : forall w, (measure w <= n)%nat -> inv w ->
  exists ls w', run P_eq absent ls w w' /\ (forall l, In l ls -> l = Own) /\ at_rest w'.
Proof.
  induction n as [|n IH]; intros w Hn I; (destruct (progress w I) as [R|(w1 & S1)];
    [exists [], w; split; [constructor|]; split; [intros l []|exact R]|]);
    pose proof (step_measure _ _ _ S1 ltac:(discriminate)) as D; [lia|].
  destruct (IH w1 ltac:(lia) (step_inv _ _ _ I S1)) as (ls & w' & R & L & E).
  exists (Own :: ls), w'. split; [|split; [|exact E]].
  - clear -R S1. induction R as [w1|ls l w1 w2 w3 R IH S2]; [apply (run_snoc P_eq absent [] Own w w w1); [constructor|exact S1]|].
    change (Own :: ls ++ [l]) with ((Own :: ls) ++ [l]). eapply run_snoc; eauto.
  - intros l [<-|X]; auto.
Qed.

(** A scan makes up for what was lost before *)
Definition forget (w : world) (g : P -> Prop) : world :=
  mkw (src w) (exists_ w) (replaced w) (st w) (os w) (dirty w) (due w) (files_changed w) (dir_recreated w) (work w) (man w) g.

Lemma step_forget l w w' g : step l w w' -> l <> User -> l <> Failure -> os w = [] -> (exists_ w = false -> forall q, src w q = absent) ->
  (forall q, ~ g q) ->
  os w' = [] /\ exists g', step l (forget w g) (forget w' g') /\ forall q, ~ g' q.
Proof.
  intros H N1 N2 Eo Ia Hg.
  destruct H as [w p v k He Hc|w src' e He Hx|w b Hs He|w Hs He|w Hs|w Hs|w Hs Hr|w Hs Ho|w Hs|w p k r Hs Ho|w Hd
    |w Hw Hf Hfc|w Hw Hf|w f t man' Hw Hm|w ops t man' Hw Hm1 Hm2|w t Hw|w ops t Hw Hne]; try congruence;
    (split; [first [exact Eo|reflexivity|congruence]|]).
  - eexists. split; [exact (S_open P_eq absent (forget w g) b Hs He)|exact Hg].
  - eexists. split; [exact (S_missing P_eq absent (forget w g) Hs He)|exact Hg].
  - eexists. split; [exact (S_callback P_eq absent (forget w g) Hs)|exact Hg].
  - eexists. split; [exact (S_read P_eq absent (forget w g) Hs)|exact Hg].
  - eexists. split; [exact (S_detect P_eq absent (forget w g) Hs Hr)|exact Hg].
  - eexists. split; [exact (S_clear P_eq absent (forget w g) Hs)|exact Hg].
  - eexists. split; [exact (S_files_changed P_eq absent (forget w g) Hd)|exact Hg].
  - eexists. split; [exact (S_pick P_eq absent (forget w g) Hw Hf Hfc)|exact Hg].
  - eexists. split; [exact (S_scan P_eq absent (forget w g) Hw Hf)|exact Hg].
  - eexists. split; [exact (S_scanned P_eq absent (forget w g) f t man' Hw Hm)|]. intros q (X & _). exact (Hg q X).
  - eexists. split; [exact (S_updated P_eq absent (forget w g) ops t man' Hw Hm1 Hm2)|]. intros q (X & _). exact (Hg q X).
  - eexists. split; [exact (S_scan_failed P_eq absent (forget w g) t Hw)|]. intros q X. apply X. apply Ia. destruct (exists_ w); congruence.
  - eexists. split; [exact (S_update_failed P_eq absent (forget w g) ops t Hw Hne)|]. intros q X. apply X. apply Ia. destruct (exists_ w); congruence.
Qed.

Lemma inv_forget w g : inv w -> coming w -> inv (forget w g).
Proof. intros [Ia Il Iw If Io Ic] C. split; auto. intros q. right. right. left. exact C. Qed.

Lemma heals ls w w' : inv w -> coming w -> st w <> Reading -> run P_eq absent ls w w' -> ~ In User ls -> ~ In Failure ls ->
  at_rest w' -> forall q, man w' q = src w' q.
Proof.
  intros I C Hs R N1 N2 Rest q.
  assert (H : os w' = [] /\ exists g, (forall q, ~ g q) /\ inv (forget w' g)).
  { clear Rest q. pose proof (i_os _ I Hs) as Eo. clear Hs. induction R as [w|ls l w w1 w2 R IH S1].
    - split; [exact Eo|]. exists (fun _ => False). split; [tauto|]. now apply inv_forget.
    - destruct IH as (E & g & G1 & G2); auto.
      + intros X. apply N1. apply in_or_app. now left.
      + intros X. apply N2. apply in_or_app. now left.
      + assert (l <> User) by (intros ->; apply N1; apply in_or_app; right; now left).
        assert (l <> Failure) by (intros ->; apply N2; apply in_or_app; right; now left).
        destruct (step_forget l w1 w2 g S1) as (E' & g' & S' & G'); auto.
        { exact (i_absent _ G2). }
        split; [exact E'|]. exists g'. split; [exact G'|]. eapply step_inv; eauto. }
  destruct H as (_ & g & G1 & G2). destruct (at_rest_inv (forget w' g) G2 Rest q) as [X|X]; [exact X|]. destruct (G1 q X).
Qed.
End Rescan.
