(** C58: port reservation (common/port_manager_win.cc). *)
From Verif Require Import Base ListX SpecPort ModelPort ProofPort.
From Verif Require SpecText ModelText ProofText.
From Coq Require Import Lia.
Local Notation str := (list N).

(** The port ReservePort returns is in the range and was unused on both devices. No port
    that was available too and that nobody else marked or released during the call has been
    unmarked or marked for longer: unreserved ports come first, then the least recently
    reserved, ties go to the smaller number. *)
Theorem C58_reserved : forall first num tr s m p t s2, run first num init tr s -> step first num s (EReserved m p t) s2 ->
  exists tr1 l r tr2, calling m tr tr1 l r tr2 /\ (first <= p < first + num)%nat /\ In p l /\ In p r /\ t <> 0%N /\
    forall q x, (first <= q < first + num)%nat -> In q l -> In q r -> steady q x (tr1 ++ [EBegin m l r]) tr2 ->
      (stamp p tr < x)%N \/ (stamp p tr = x /\ (p <= q)%nat).
Proof.
  intros first num tr s m p t s2 R S. pose proof (inv_run _ _ _ _ R) as V. inversion S as [ | | | |s' m' l r now ts i rest Hc Hm Hl Hr| | | | | | ]; subst.
  pose proof (v_call _ _ _ _ V m) as C. rewrite Hc in C. destruct C as (Nz & t1 & t2 & C & (So & B & F)). assert (Li : (i < num)%nat) by (apply (B (s_mem s i) i); now left).
  exists t1, l, r, t2. split; [exact C|]. split; [lia|]. apply mem_nat_in in Hl, Hr. split; [exact Hl|]. split; [exact Hr|]. split; [exact Nz|].
  intros q x Q L2 R2 St. rewrite <- (v_mem _ _ _ _ V i Li). replace q with (first + (q - first))%nat in * by lia.
  destruct (F (q - first)%nat x ltac:(lia) L2 R2 St) as [E|H]; [inversion E; subst; right; split; [reflexivity|lia]|].
  inversion So as [|? ? _ Fa]; subst. rewrite Forall_forall in Fa. specialize (Fa _ H). unfold lex in Fa. cbn in Fa. lia.
Qed.
(** In particular an unreserved port is returned if one is available throughout. *)
Theorem C58_prefers_unreserved : forall first num tr s m p t s2 tr1 l r tr2 q, run first num init tr s -> step first num s (EReserved m p t) s2 ->
  calling m tr tr1 l r tr2 -> (first <= q < first + num)%nat -> In q l -> In q r -> steady q 0 (tr1 ++ [EBegin m l r]) tr2 -> stamp p tr = 0%N.
Proof.
  intros first num tr s m p t s2 tr1 l r tr2 q R S C Q L Ri St. destruct (C58_reserved _ _ _ _ _ _ _ _ R S) as (a & l' & r' & b & C2 & _ & _ & _ & _ & F).
  assert (E : tr1 = a /\ EBegin m l r = EBegin m l' r' /\ tr2 = b).
  { clear - C C2. destruct C as (E1 & B1), C2 as (E2 & B2). rewrite E1 in E2. clear E1. revert a E2. induction tr1 as [|y tr1 IH]; intros [|z a] E2; cbn in E2.
    - inversion E2; subst. auto.
    - inversion E2; subst. exfalso. assert (X : bound m (EBegin m l' r') = false) by (apply B1, in_app_iff; right; now left). cbn in X. now rewrite Nat.eqb_refl in X.
    - inversion E2; subst. exfalso. assert (X : bound m (EBegin m l r) = false) by (apply B2, in_app_iff; right; now left). cbn in X. now rewrite Nat.eqb_refl in X.
    - inversion E2; subst. destruct (IH _ H1) as (-> & E & ->). auto. }
  destruct E as (-> & E & ->). inversion E; subst. specialize (F q 0%N Q L Ri St). lia.
Qed.
(** ReservePort fails only if every port is in use on one of the devices or was marked or
    released by someone during the call. *)
Theorem C58_exhausted : forall first num tr s m s2, run first num init tr s -> step first num s (EExhausted m) s2 ->
  exists tr1 l r tr2, calling m tr tr1 l r tr2 /\
    forall q x, (first <= q < first + num)%nat -> In q l -> In q r -> ~ steady q x (tr1 ++ [EBegin m l r]) tr2.
Proof.
  intros first num tr s m s2 R S. pose proof (inv_run _ _ _ _ R) as V. inversion S as [ | | | | | | | |s' m' l r now Hc| | ]; subst.
  pose proof (v_call _ _ _ _ V m) as C. rewrite Hc in C. destruct C as (Nz & t1 & t2 & C & (So & B & F)).
  exists t1, l, r, t2. split; [exact C|]. intros q x Q L Ri St. replace q with (first + (q - first))%nat in * by lia. destruct (F (q - first)%nat x ltac:(lia) L Ri St).
Qed.
(** If every call that returned a port had some port to choose that was unreserved during
    the whole call, no port was ever given to two holders. *)
Theorem C58_distinct : forall first num tr s, run first num init tr s ->
  (forall tr0 m p t tr3, tr = tr0 ++ EReserved m p t :: tr3 ->
     exists tr1 l r tr2 q, calling m tr0 tr1 l r tr2 /\ (first <= q < first + num)%nat /\ In q l /\ In q r /\ steady q 0 (tr1 ++ [EBegin m l r]) tr2) ->
  (forall tr0 m p t tr3 m2, tr = tr0 ++ EReserved m p t :: tr3 -> holds m2 p tr0 = false) /\
  (forall m m2 p, holds m p tr = true -> holds m2 p tr = true -> m = m2).
Proof.
  intros first num tr s R Sp.
  assert (K : forall tr s, run first num init tr s -> (forall tr0 m p t tr3, tr = tr0 ++ EReserved m p t :: tr3 -> stamp p tr0 = 0%N) ->
    (forall m p, holds m p tr = true -> stamp p tr <> 0%N) /\ (forall m m2 p, holds m p tr = true -> holds m2 p tr = true -> m = m2)).
  { clear. intros tr s R. remember init as s0 eqn:E0. induction R as [s|s tr s2 e s3 R IH St]; intros F; [cbn; split; discriminate|]. subst s.
    destruct IH as (D & U); [reflexivity|intros; eapply (F _ _ _ _ (tr3 ++ [e])); subst; now rewrite <- app_assoc|]. pose proof (inv_run _ _ _ _ R) as V.
    pose proof (inv_step _ _ _ _ _ _ V St) as V3.
    assert (Nz : forall m p t, e = EReserved m p t -> t <> 0%N) by (intros m p t ->; apply (v_now _ _ _ _ V3 m p); apply in_app_iff; right; now left).
    assert (Nr : forall m p t, e = EReserved m p t -> forall m2, holds m2 p tr = false) by (intros m p t -> m2; destruct (holds m2 p tr) eqn:X; [|reflexivity]; exfalso; apply (D _ _ X); exact (F tr m p t [] eq_refl)).
    assert (No : forall m p t, e = EOccupied m p t \/ e = EUndo m p t -> t <> 0%N).
    { intros m p t [-> | ->]; inversion St; subst; match goal with Hc : s_call _ m = _ |- _ => pose proof (v_call _ _ _ _ V m) as C; rewrite Hc in C; exact (proj1 C) end. }
    assert (Hr : forall m p, e = EReleased m p -> holds m p tr = true) by (intros m p ->; inversion St; subst; rewrite <- (v_held _ _ _ _ V); assumption).
    split.
    - intros m p. rewrite holds_snoc, stamp_snoc. destruct e as [m0 l r|m0 p0 t|m0|m0 p0 t|m0 p0 t|m0 p0|m0|m0]; try apply D.
      + destruct (Nat.eqb_spec p0 p) as [-> |Ne]; [intros _; exact (Nz _ _ _ eq_refl)|rewrite andb_false_r; apply D].
      + destruct (Nat.eqb_spec p0 p) as [-> |Ne]; [intros _; exact (No _ _ _ (or_introl eq_refl))|apply D].
      + destruct (Nat.eqb_spec p0 p) as [-> |Ne]; [intros _; exact (No _ _ _ (or_intror eq_refl))|apply D].
      + destruct (Nat.eqb_spec p0 p) as [-> |Ne]; [|rewrite andb_false_r; apply D]. rewrite andb_true_r. destruct (Nat.eqb_spec m0 m) as [-> |Nm]; [discriminate|]. intros H. exfalso. apply Nm. exact (U _ _ _ (Hr _ _ eq_refl) H).
      + destruct (Nat.eqb m0 m); [discriminate|apply D].
    - intros m m2 p. rewrite !holds_snoc. destruct e as [m0 l r|m0 p0 t|m0|m0 p0 t|m0 p0 t|m0 p0|m0|m0]; try apply U.
      + destruct (Nat.eqb_spec p0 p) as [-> |Ne]; [|rewrite !andb_false_r; apply U]. rewrite !andb_true_r, !(Nr _ _ _ eq_refl). destruct (Nat.eqb_spec m0 m), (Nat.eqb_spec m0 m2); congruence.
      + destruct (Nat.eqb m0 m && Nat.eqb p0 p); [discriminate|]. destruct (Nat.eqb m0 m2 && Nat.eqb p0 p); [discriminate|]. apply U.
      + destruct (Nat.eqb m0 m); [discriminate|]. destruct (Nat.eqb m0 m2); [discriminate|]. apply U. }
  assert (Z : forall tr0 m p t tr3, tr = tr0 ++ EReserved m p t :: tr3 -> stamp p tr0 = 0%N).
  { intros tr0 m p t tr3 E. destruct (Sp _ _ _ _ _ E) as (tr1 & l & r & tr2 & q & C & Q & L & Ri & St). rewrite E in R. destruct (run_prefix _ _ _ _ _ _ R) as (s0 & R0 & R1). destruct (run_one _ _ _ _ _ _ R1) as (s1 & S1 & _).
    exact (C58_prefers_unreserved _ _ _ _ _ _ _ _ _ _ _ _ _ R0 S1 C Q L Ri St). }
  split; [|exact (proj2 (K tr s R Z))]. intros tr0 m p t tr3 m2 E. destruct (holds m2 p tr0) eqn:H; [|reflexivity]. exfalso. rewrite E in R. destruct (run_prefix _ _ _ _ _ _ R) as (s0 & R0 & _).
  assert (Z0 : forall a m p t b, tr0 = a ++ EReserved m p t :: b -> stamp p a = 0%N). { intros a m' p' t' b E2. apply (Z a m' p' t' (b ++ EReserved m p t :: tr3)). rewrite E, E2, <- app_assoc. reflexivity. }
  destruct (K tr0 s0 R0 Z0) as (D & _). apply (D _ _ H). exact (Z _ _ _ _ _ E).
Qed.
(** ReservePort never waits for another process: it can always go on, and returns after at
    most three steps per port. *)
Theorem C58_bounded : forall first num tr1 m l r tr2 s, run first num init (tr1 ++ EBegin m l r :: tr2) s -> (forall e, In e tr2 -> bound m e = false) ->
  (count (by_m m) tr2 <= 3 * num + 1)%nat /\ exists e s2, step first num s e s2 /\ by_m m e = true.
Proof.
  intros first num tr1 m l r tr2 s R B. pose proof (inv_run _ _ _ _ R) as V. destruct (run_prefix _ _ _ _ _ _ R) as (s0 & R0 & R1). destruct (run_one _ _ _ _ _ _ R1) as (s1 & S1 & R2).
  pose proof (mu_run _ _ _ _ _ _ R2 B) as M. inversion S1; subst. cbn [s_call] in M. rewrite upd_same in M. cbn [mu length] in M.
  assert (Ni : s_call s m <> Idle).
  { clear M V R. remember (mks (s_mem s0) (upd (s_call s0) m (Reading l r [])) (s_reserved s0)) as sx eqn:Ex. assert (X : s_call sx m <> Idle) by (subst; cbn [s_call]; rewrite upd_same; discriminate). clear Ex S1 R0 R1. induction R2 as [sx|sx tr sy e sz R IH St]; [exact X|].
    assert (Be : bound m e = false) by (apply B, in_app_iff; right; now left). assert (Y : s_call sy m <> Idle) by (apply IH; [intros e0 He; apply B, in_app_iff; now left|exact X]).
    clear IH. assert (U : forall m0 c, c <> Idle -> upd (s_call sy) m0 c m <> Idle) by (intros m0 c Hn; unfold upd; destruct (Nat.eqb m m0); [exact Hn|exact Y]).
    assert (U2 : forall m0, Nat.eqb m0 m = false -> upd (s_call sy) m0 Idle m <> Idle) by (intros m0 Hn; unfold upd; rewrite Nat.eqb_sym, Hn; exact Y).
    destruct St; cbn [s_call]; cbn [bound] in Be; try (apply U; discriminate); try (apply U2; exact Be). exact Y. }
  assert (L : match s_call s m with Reading _ _ acc => (length acc <= num)%nat | _ => True end) by (pose proof (v_call _ _ _ _ V m) as C; destruct (s_call s m) as [|l2 r2 acc| | ]; auto; destruct C as (? & ? & _ & C & _); exact C).
  split; [|exact (call_moves _ _ _ _ Ni L)]. assert (1 <= mu num (s_call s m))%nat by (destruct (s_call s m); cbn [mu]; [congruence|lia..]). lia.
Qed.

(** ** netstat *)
Lemma is_prefix_iff a b : is_prefix a b = true <-> exists v, b = a ++ v.
Proof.
  revert b. induction a as [|x a IH]; intros b; cbn; [split; [intros _; exists b; reflexivity|reflexivity]|].
  destruct b as [|y b]; [split; [discriminate|intros (v & E); discriminate]|]. rewrite andb_true_iff, IH. split.
  - intros (E & v & ->). apply N.eqb_eq in E. subst. exists v. reflexivity.
  - intros (v & E). inversion E; subst. split; [apply N.eqb_refl|exists v; reflexivity].
Qed.
Lemma contains_iff l t : contains l t = true <-> substr t l.
Proof.
  induction l as [|c l IH]; cbn [contains]; rewrite orb_true_iff, is_prefix_iff.
  - split; [intros [(v & E)|H]; [exists [], v; exact E|discriminate]|]. intros (u & v & E). left. symmetry in E. apply app_eq_nil in E. destruct E as (_ & E). exists v. auto.
  - rewrite IH. split.
    + intros [(v & E)|(u & v & ->)]; [exists [], v; exact E|exists (c :: u), v; reflexivity].
    + intros ([|x u] & v & E); [left; exists v; exact E|]. right. inversion E; subst. exists u, v. reflexivity.
Qed.
Definition ends (v : str) : Prop := v = [] \/ exists v2, v = 10%N :: v2.
Lemma split_parts out : exists f ps, ModelText.split_at 10%N out = f :: ps /\
  (forall l, l = f <-> ~ In 10%N l /\ exists v, out = l ++ v /\ ends v) /\
  (forall l, In l ps <-> ~ In 10%N l /\ exists u v, out = u ++ 10%N :: l ++ v /\ ends v).
Proof.
  induction out as [|c out (f & ps & E & F & P)]; cbn [ModelText.split_at].
  - exists [], []. split; [reflexivity|]. split; intros l; split.
    + intros ->. split; [intros []|]. exists []. split; [reflexivity|now left].
    + intros (_ & v & H & _). symmetry in H. apply app_eq_nil in H. tauto.
    + intros [].
    + intros (_ & u & v & H & _). destruct u; discriminate.
  - destruct (N.eqb_spec c 10) as [-> |Nc].
    + exists [], (ModelText.split_at 10%N out). split; [reflexivity|]. split; intros l; split.
      * intros ->. split; [intros []|]. exists (10%N :: out). split; [reflexivity|right; eauto].
      * intros (N1 & v & H & _). destruct l as [|x l]; [reflexivity|]. inversion H; subst. exfalso. apply N1. now left.
      * rewrite E. intros [<-|H].
        -- destruct (proj1 (F f) eq_refl) as (N1 & v & -> & V). split; [exact N1|]. exists [], v. split; [reflexivity|exact V].
        -- apply P in H. destruct H as (N1 & u & v & -> & V). split; [exact N1|]. exists (10%N :: u), v. split; [reflexivity|exact V].
      * intros (N1 & u & v & H & V). rewrite E. destruct u as [|x u]; inversion H; subst.
        -- left. symmetry. apply F. split; [exact N1|]. exists v. auto.
        -- right. apply P. split; [exact N1|]. exists u, v. auto.
    + rewrite E. exists (c :: f), ps. split; [reflexivity|]. split; intros l; split.
      * intros ->. destruct (proj1 (F f) eq_refl) as (N1 & v & -> & V). split; [intros [X|X]; [congruence|contradiction]|]. exists v. split; [reflexivity|exact V].
      * intros (N1 & v & H & V). destruct l as [|x l]; [destruct V as [-> |(v2 & ->)]; cbn in H; [discriminate|congruence]|]. inversion H; subst. f_equal. apply F. split; [intros X; apply N1; now right|]. exists v. auto.
      * intros H. apply P in H. destruct H as (N1 & u & v & -> & V). split; [exact N1|]. exists (c :: u), v. split; [reflexivity|exact V].
      * intros (N1 & u & v & H & V). apply P. split; [exact N1|]. destruct u as [|x u]; inversion H; subst; [congruence|]. exists u, v. auto.
Qed.
Lemma split_line out l : In l (ModelText.split_at 10%N out) <-> is_line l out.
Proof.
  destruct (split_parts out) as (f & ps & -> & F & P). cbn [In]. rewrite (P l). split.
  - intros [<-|(N1 & u & v & -> & V)].
    + destruct (proj1 (F f) eq_refl) as (N1 & v & -> & V). exists [], v. repeat split; auto.
    + exists (u ++ [10%N]), v. rewrite <- app_assoc. repeat split; auto. right. eauto.
  - intros (u & v & -> & N1 & U & V). destruct U as [-> |(u2 & ->)].
    + left. symmetry. apply F. split; [exact N1|]. exists v. auto.
    + right. split; [exact N1|]. exists u2, v. split; [rewrite <- app_assoc; reflexivity|exact V].
Qed.
Lemma numeral_dec p : numeral p (ModelText.print_dec (N.of_nat p)).
Proof.
  destruct (ProofText.print_dec_ok (N.of_nat p)) as (A & B & C). split; [exact A|]. split; [exact C|].
  assert (K : forall fuel n, (n < 2 ^ N.of_nat fuel)%N -> (0 < n)%N -> exists c r, ModelText.dec_digits fuel n = c :: r /\ c <> 48%N).
  { clear. induction fuel as [|fuel IH]; intros n L G; [cbn in L; lia|]. cbn [ModelText.dec_digits]. destruct (N.ltb_spec n 10) as [Lt|Ge]; [exists (48 + n)%N, []; split; [reflexivity|lia]|].
    destruct (IH (n / 10)%N) as (c & r & E & Nc); [apply N.div_lt_upper_bound; [lia|]; rewrite Nat2N.inj_succ, N.pow_succ_r' in L; lia|apply N.div_str_pos; lia|]. rewrite E. exists c, (r ++ [48 + n mod 10])%N. split; [reflexivity|exact Nc]. }
  destruct (N.eq_dec (N.of_nat p) 0) as [E|E].
  - left. rewrite E. reflexivity.
  - right. apply K; [|lia]. rewrite Nat2N.inj_add, N2Nat.id. eapply N.lt_le_trans; [apply N.size_gt|]. apply N.pow_le_mono_r; lia.
Qed.
Lemma value_inj s t : Forall (fun c => 48 <= c <= 57)%N s -> Forall (fun c => 48 <= c <= 57)%N t -> (s = [48%N] \/ exists c r, s = c :: r /\ c <> 48%N) -> (t = [48%N] \/ exists c r, t = c :: r /\ c <> 48%N) -> value s = value t -> s = t.
Proof.
  assert (Sn : forall a d, value (a ++ [d]) = (10 * value a + (d - 48))%N) by (intros a d; unfold value; rewrite fold_left_app; reflexivity).
  assert (Pos : forall a, Forall (fun c => 48 <= c <= 57)%N a -> (exists c r, a = c :: r /\ c <> 48%N) -> (0 < value a)%N).
  { intros a. induction a as [|d a IH] using rev_ind; intros Fa (c & r & E & Nc); [discriminate|]. rewrite Sn. apply Forall_app in Fa. destruct Fa as (Fa & Fd). inversion Fd; subst. destruct a as [|c2 a]; cbn in E; inversion E; subst; [cbn; lia|].
    assert (0 < value (c :: a))%N by (apply IH; [exact Fa|eauto]). lia. }
  revert t. induction s as [|d s IH] using rev_ind; intros t Fs Ft Hs Ht E; [destruct Hs as [H|(c & r & H & _)]; discriminate|].
  destruct t as [|d2 t _] using rev_ind; [destruct Ht as [H|(c & r & H & _)]; discriminate|].
  rewrite !Sn in E. apply Forall_app in Fs. apply Forall_app in Ft. destruct Fs as (Fs & Fd), Ft as (Ft & Fd2). inversion Fd; subst. inversion Fd2; subst.
  assert (Ev : value s = value t /\ d = d2) by lia. destruct Ev as (Ev & ->). f_equal.
  assert (Ns : forall a b, (a ++ [b] = [48%N] \/ exists c r, a ++ [b] = c :: r /\ c <> 48%N) -> a = [] \/ exists c r, a = c :: r /\ c <> 48%N).
  { intros [|x a] b [H|(c & r & H & Nc)]; auto; cbn in H; [destruct a; discriminate|]. inversion H; subst. right. eauto. }
  destruct (Ns _ _ Hs) as [-> |Hs2], (Ns _ _ Ht) as [-> |Ht2]; auto.
  - pose proof (Pos _ Ft Ht2). cbn in Ev. lia.
  - pose proof (Pos _ Fs Hs2). cbn in Ev. lia.
Qed.
Lemma numeral_unique p s : numeral p s -> s = ModelText.print_dec (N.of_nat p).
Proof.
  intros (A & B & C). destruct (numeral_dec p) as (A2 & B2 & C2). apply value_inj; try assumption. now rewrite B, B2.
Qed.
(** A port of the range counts as available exactly if every line of netstat's output that
    contains the device's address followed by a colon and the port's decimal numeral also
    contains TIME_WAIT; an error means that there is no such port. *)
Theorem C58_netstat : forall first num out a,
  (forall ps, find_available first num out a = Ok ps -> ps <> [] /\ NoDup ps /\
     forall p, In p ps <-> (first <= p < first + num)%nat /\ forall l n, is_line l out -> numeral p n -> substr (filter_ip a ++ [58%N] ++ n) l -> substr time_wait l) /\
  (find_available first num out a = Fail -> forall p, (first <= p < first + num)%nat ->
     exists l n, is_line l out /\ numeral p n /\ substr (filter_ip a ++ [58%N] ++ n) l /\ ~ substr time_wait l) /\
  (find_available first num out a = Fail \/ exists ps, find_available first num out a = Ok ps).
Proof.
  intros first num out a. unfold find_available. set (lines := filter (fun l => contains l (filter_ip a)) (ModelText.split_at 10%N out)).
  assert (Oc : forall p, occupied a lines p = true <-> exists l n, is_line l out /\ numeral p n /\ substr (filter_ip a ++ [58%N] ++ n) l /\ ~ substr time_wait l).
  { intros p. unfold occupied. rewrite existsb_exists. split.
    - intros (l & HI & H). apply filter_In in HI. destruct HI as (HI & _). apply andb_true_iff in H. destruct H as (H1 & H2). exists l, (ModelText.print_dec (N.of_nat p)). split; [now apply split_line|]. split; [apply numeral_dec|]. split; [now apply contains_iff|].
      intros X. apply contains_iff in X. change time_wait with t_wait in X. rewrite X in H2. discriminate.
    - intros (l & n & Hl & Hn & Hs & Ht). apply numeral_unique in Hn. subst n. exists l. split.
      + apply filter_In. split; [now apply split_line|]. apply contains_iff. destruct Hs as (u & v & ->). exists u, ([58%N] ++ ModelText.print_dec (N.of_nat p) ++ v). now rewrite <- !app_assoc.
      + apply andb_true_iff. split; [now apply contains_iff|]. destruct (contains l t_wait) eqn:X; [|reflexivity]. exfalso. apply Ht. now apply contains_iff. }
  assert (Ba : forall p, In p (filter (fun p => negb (occupied a lines p)) (seq first num)) <-> (first <= p < first + num)%nat /\ forall l n, is_line l out -> numeral p n -> substr (filter_ip a ++ [58%N] ++ n) l -> substr time_wait l).
  { intros p. rewrite filter_In, in_seq, negb_true_iff. split; intros (A & B); (split; [exact A|]).
    - intros l n Hl Hn Hs. destruct (contains l time_wait) eqn:X; [now apply contains_iff|]. exfalso. assert (Y : occupied a lines p = true) by (apply Oc; exists l, n; split; [exact Hl|]; split; [exact Hn|]; split; [exact Hs|]; intros Z; apply contains_iff in Z; congruence). congruence.
    - destruct (occupied a lines p) eqn:X; [|reflexivity]. apply Oc in X. destruct X as (l & n & Hl & Hn & Hs & Ht). exfalso. apply Ht. eauto. }
  assert (Nd : NoDup (filter (fun p => negb (occupied a lines p)) (seq first num))) by (apply NoDup_filter, seq_NoDup).
  destruct (filter (fun p => negb (occupied a lines p)) (seq first num)) as [|x l] eqn:E.
  - split; [discriminate|]. split; [|now left]. intros _ p R. apply Oc. destruct (occupied a lines p) eqn:X; [reflexivity|]. exfalso. assert (Y : In p (filter (fun p => negb (occupied a lines p)) (seq first num))) by (apply filter_In; split; [apply in_seq; exact R|now rewrite X]). rewrite E in Y. destruct Y.
  - split; [|split; [discriminate|right; eauto]]. intros ps Eq. inversion Eq; subst. split; [discriminate|]. split; [exact Nd|]. exact Ba.
Qed.

(** ** Examples and refutations *)
Inductive action : Type := ABegin (m : nat) (l r : list nat) | AGo (m : nat) (t : N) | ARelease (m p : nat).
(** One step of the model, computed. *)
Definition act (first num : nat) (a : action) (s : state) : option (event * state) :=
  match a with
  | ABegin m l r => match s_call s m, l, r with
      | Idle, _ :: _, _ :: _ => Some (EBegin m l r, mks (s_mem s) (upd (s_call s) m (Reading l r [])) (s_reserved s))
      | _, _, _ => None end
  | AGo m t => match s_call s m with
      | Idle => None
      | Reading l r acc =>
          if (length acc <? num)%nat then Some (EInt m, mks (s_mem s) (upd (s_call s) m (Reading l r (acc ++ [s_mem s (length acc)]))) (s_reserved s))
          else if (length acc =? num)%nat && negb (t =? 0)%N then Some (EInt m, mks (s_mem s) (upd (s_call s) m (Trying l r t (mm_fill 0 acc []))) (s_reserved s))
          else None
      | Trying l r now [] => Some (EExhausted m, mks (s_mem s) (upd (s_call s) m Idle) (s_reserved s))
      | Trying l r now ((ts, i) :: rest) =>
          if (s_mem s i =? ts)%N then
            if mem_nat (first + i) l && mem_nat (first + i) r
            then Some (EReserved m (first + i) now, mks (upd (s_mem s) i now) (upd (s_call s) m Idle) (upd (s_reserved s) m ((first + i) :: s_reserved s m)))
            else Some (EOccupied m (first + i) now, mks (upd (s_mem s) i now) (upd (s_call s) m (Undoing l r now ts i rest)) (s_reserved s))
          else Some (EInt m, mks (s_mem s) (upd (s_call s) m (Trying l r now rest)) (s_reserved s))
      | Undoing l r now ts i rest =>
          if (s_mem s i =? ts)%N then Some (EUndo m (first + i) now, mks (upd (s_mem s) i now) (upd (s_call s) m (Trying l r now rest)) (s_reserved s))
          else Some (EInt m, mks (s_mem s) (upd (s_call s) m (Trying l r now rest)) (s_reserved s))
      end
  | ARelease m p => match s_call s m with
      | Idle => if mem_nat p (s_reserved s m) then Some (EReleased m p, mks (upd (s_mem s) (p - first) 0%N) (s_call s) (upd (s_reserved s) m (filter (fun q => negb (Nat.eqb q p)) (s_reserved s m)))) else None
      | _ => None end
  end.
Lemma act_step first num a s e s2 : act first num a s = Some (e, s2) -> step first num s e s2.
Proof.
  unfold act. destruct a as [m l r|m t|m p]; destruct (s_call s m) as [|l1 r1 acc|l1 r1 now [|(ts, i) rest]|l1 r1 now ts i rest] eqn:E; try discriminate.
  - destruct l; [discriminate|]. destruct r; [discriminate|]. intros H. inversion H; subst. apply P_begin; [exact E|discriminate|discriminate].
  - destruct (Nat.ltb_spec (length acc) num) as [L|L]; [intros H; inversion H; subst; now apply P_read|]. destruct (Nat.eqb_spec (length acc) num) as [L2|L2]; [|discriminate]. cbn [andb]. destruct (N.eqb_spec t 0); [discriminate|]. intros H. inversion H; subst. now eapply P_scan with (now := t).
  - intros H. inversion H; subst. eapply P_exhausted. exact E.
  - destruct (N.eqb_spec (s_mem s i) ts) as [M|M].
    + destruct (mem_nat (first + i) l1 && mem_nat (first + i) r1) eqn:A; intros H; inversion H; subst.
      * apply andb_true_iff in A. destruct A as (A & B). eapply P_reserve; [exact E|reflexivity|exact A|exact B].
      * eapply P_occupied; [exact E|reflexivity|exact A].
    + intros H. inversion H; subst. eapply P_skip; [exact E|exact M].
  - destruct (N.eqb_spec (s_mem s i) ts) as [M|M]; intros H; inversion H; subst; [eapply P_undo; [exact E|reflexivity]|eapply P_undo_none; [exact E|exact M]].
  - destruct (mem_nat p (s_reserved s m)) eqn:A; [|discriminate]. intros H. inversion H; subst. now apply P_release.
Qed.
Fixpoint acts (first num : nat) (l : list action) (s : state) : option (list event * state) :=
  match l with
  | [] => Some ([], s)
  | a :: r => match act first num a s with
      | Some (e, s2) => match acts first num r s2 with Some (tr, s3) => Some (e :: tr, s3) | None => None end
      | None => None end
  end.
Lemma run_cons first num s e s2 tr s3 : step first num s e s2 -> run first num s2 tr s3 -> run first num s (e :: tr) s3.
Proof.
  intros A B. induction B as [|s2 tr s4 e2 s5 R IH St]; [exact (r_snoc first num s [] s e _ (r_nil _ _ _) A)|]. exact (r_snoc _ _ _ (e :: tr) _ _ _ (IH A) St).
Qed.
Lemma acts_run first num l : forall s tr s2, acts first num l s = Some (tr, s2) -> run first num s tr s2.
Proof.
  induction l as [|a l IH]; intros s tr s2 H; cbn [acts] in H; [inversion H; subst; constructor|]. destruct (act first num a s) as [(e, s1)|] eqn:E; [|discriminate].
  destruct (acts first num l s1) as [(tr1, s3)|] eqn:E2; [|discriminate]. inversion H; subst. exact (run_cons _ _ _ _ _ _ _ (act_step _ _ _ _ _ _ E) (IH _ _ _ E2)).
Qed.
Lemma computed first num l tr e : option_map fst (acts first num l init) = Some (tr ++ [e]) -> exists s s2, run first num init tr s /\ step first num s e s2.
Proof.
  destruct (acts first num l init) as [(t, s2)|] eqn:E; [|discriminate]. cbn. intros H. inversion H; subst. apply acts_run in E. destruct (run_snoc_inv _ _ _ _ _ _ E) as (s & R & S). eauto.
Qed.
Definition reserving (num m : nat) (l r : list nat) (t : N) (tries : nat) : list action := ABegin m l r :: repeat (AGo m t) (num + 1 + tries).
(** Ports 5 to 7; manager 0 gets 5, manager 1 gets 6, manager 0 releases 5, and manager 2 gets
    5 while 7 is in use. *)
Definition ex_tr : list event :=
  [EBegin 0 [5; 6; 7] [5; 6; 7]; EInt 0; EInt 0; EInt 0; EInt 0; EReserved 0 5 1;
   EBegin 1 [5; 6; 7] [5; 6; 7]; EInt 1; EInt 1; EInt 1; EInt 1; EReserved 1 6 2;
   EReleased 0 5; EBegin 2 [5; 6] [5; 6; 7]; EInt 2; EInt 2; EInt 2; EInt 2].
Example C58_example : exists s s2, run 5 3 init ex_tr s /\ step 5 3 s (EReserved 2 5 3) s2 /\
  steady 5 0 (firstn 14 ex_tr) (skipn 14 ex_tr) /\ holds 1 6 ex_tr = true /\ stamp 6 ex_tr = 2%N.
Proof.
  destruct (computed 5 3 (reserving 3 0 [5; 6; 7] [5; 6; 7] 1%N 1 ++ reserving 3 1 [5; 6; 7] [5; 6; 7] 2%N 1 ++ [ARelease 0 5] ++ reserving 3 2 [5; 6] [5; 6; 7] 3%N 1) ex_tr (EReserved 2 5 3) eq_refl) as (s & s2 & R & S).
  exists s, s2. split; [exact R|]. split; [exact S|]. split; [|split; reflexivity].
  intros a b E. cbn in E. repeat (destruct a as [|? a]; [reflexivity|cbn in E; inversion E; subst; clear E; match goal with H : _ = a ++ b |- _ => rename H into E end]).
Qed.

(** Not every mark is that of a holder: a port that was in use when it was tried keeps the
    mark, because the exchange meant to take it back has its arguments in the wrong order.
    Here port 6 is in use when manager 1 calls and unused later; nobody holds it, yet
    manager 2 gets port 5, which manager 0 still holds. *)
Definition ex_swapped : list event :=
  [EBegin 0 [5; 6; 7] [5; 6; 7]; EInt 0; EInt 0; EInt 0; EInt 0; EReserved 0 5 1;
   EBegin 1 [5; 7] [5; 6; 7]; EInt 1; EInt 1; EInt 1; EInt 1; EOccupied 1 6 2; EInt 1; EReserved 1 7 2;
   EBegin 2 [5; 6; 7] [5; 6; 7]; EInt 2; EInt 2; EInt 2; EInt 2].
Theorem C58_taken_back_refuted :
  ~ (forall first num tr s m p t s2 tr1 l r tr2 q, run first num init tr s -> step first num s (EReserved m p t) s2 -> calling m tr tr1 l r tr2 ->
       (first <= q < first + num)%nat -> In q l -> In q r -> (forall a b m2, tr2 = a ++ b -> holds m2 q (tr1 ++ EBegin m l r :: a) = false) ->
       forall m2, holds m2 p tr = false).
Proof.
  intros H.
  assert (X : exists s s2, run 5 3 init ex_swapped s /\ step 5 3 s (EReserved 2 5 3) s2).
  { exact (computed 5 3 (reserving 3 0 [5; 6; 7] [5; 6; 7] 1%N 1 ++ reserving 3 1 [5; 7] [5; 6; 7] 2%N 3 ++ reserving 3 2 [5; 6; 7] [5; 6; 7] 3%N 1) ex_swapped (EReserved 2 5 3) eq_refl). }
  destruct X as (s & s2 & R & S). pose proof (H 5 3 ex_swapped s 2 5 3%N s2 (firstn 14 ex_swapped) [5; 6; 7] [5; 6; 7] [EInt 2; EInt 2; EInt 2; EInt 2] 6 R S) as Q.
  assert (F : holds 0 5 ex_swapped = false); [|discriminate F]. apply Q.
  - split; [reflexivity|]. cbn. intros e [<-|[<-|[<-|[<-|[]]]]]; reflexivity.
  - lia.
  - cbn. auto.
  - cbn. auto.
  - intros a b m2 E. assert (Z : holds m2 6 (firstn 14 ex_swapped ++ EBegin 2 [5; 6; 7] [5; 6; 7] :: a) = fold_left (fun h e => match e with
    | EReserved m3 q _ => if Nat.eqb m3 m2 && Nat.eqb q 6 then true else h
    | EReleased m3 q => if Nat.eqb m3 m2 && Nat.eqb q 6 then false else h
    | ECrash m3 => if Nat.eqb m3 m2 then false else h
    | _ => h
    end) a false). { unfold holds. rewrite fold_left_app. cbn -[Nat.eqb]. rewrite !andb_false_r. reflexivity. }
    rewrite Z. cbn in E. repeat (destruct a as [|? a]; [reflexivity|cbn in E; inversion E; subst; clear E; match goal with H : _ = a ++ b |- _ => rename H into E end]).
Qed.
(** ReservePort does not fail when every port is held: it hands out a held port, even to the
    holder itself. *)
Definition ex_twice : list event := [EBegin 0 [5] [5]; EInt 0; EInt 0; EReserved 0 5 1; EBegin 0 [5] [5]; EInt 0; EInt 0].
Theorem C58_all_held_refuted : ~ (forall first num tr s m p t s2 m2, run first num init tr s -> step first num s (EReserved m p t) s2 -> holds m2 p tr = false).
Proof.
  intros H. assert (X : exists s s2, run 5 1 init ex_twice s /\ step 5 1 s (EReserved 0 5 2) s2).
  { exact (computed 5 1 (reserving 1 0 [5] [5] 1%N 1 ++ reserving 1 0 [5] [5] 2%N 1) ex_twice (EReserved 0 5 2) eq_refl). }
  destruct X as (s & s2 & R & S). pose proof (H 5 1 ex_twice s 0 5 2%N s2 0 R S) as Q. discriminate Q.
Qed.
(** On Windows a listener on all addresses ("TCP 0.0.0.0:44 LISTENING") does not make its
    port unavailable; and a listener on port 443 makes port 44 unavailable. *)
Definition ln_all : str := [84;67;80;32;48;46;48;46;48;46;48;58;52;52;32;76;73;83;84;69;78;73;78;71]%N.
Definition ln_443 : str := [84;67;80;32;49;50;55;46;48;46;48;46;49;58;52;52;51;32;76;73;83;84;69;78;73;78;71;10]%N.
Theorem C58_netstat_refuted : find_available 44 1 ln_all Windows = Ok [44%nat] /\ find_available 44 1 ln_443 Windows = Fail.
Proof. split; reflexivity. Qed.
(** The rule at work: port 45 has a connection in TIME_WAIT, port 46 a listener. *)
Example C58_netstat_example : find_available 44 3 ([48;46;48;46;48;46;48;58;52;53;32] ++ t_wait ++ [10;48;46;48;46;48;46;48;58;52;54;32;76;10])%N Linux = Ok [44%nat; 45%nat].
Proof. reflexivity. Qed.
