(** Proofs for C57. *)
From Verif Require Import Base ListX SpecDist ModelDist.
From Coq Require Import Lia.
Local Notation str := (list N).

(** ** Lists *)
Lemma subseq_refl {A} (l : list A) : subseq l l.
Proof. induction l; constructor; auto. Qed.
Lemma subseq_app {A} (a b c d : list A) : subseq a b -> subseq c d -> subseq (a ++ c) (b ++ d).
Proof.
  intros H. revert c d. induction H as [l|x l1 l2 H IH|x l1 l2 H IH]; intros c d H2; cbn; [|constructor; auto|constructor; auto].
  induction l as [|y l IH]; cbn; [exact H2|constructor; exact IH].
Qed.
Lemma subseq_snoc {A} (x : A) a b : subseq a b -> subseq (a ++ [x]) (b ++ [x]).
Proof. intros H. apply subseq_app; [exact H|apply subseq_refl]. Qed.
Lemma subseq_r {A} (a b c : list A) : subseq a b -> subseq a (b ++ c).
Proof. intros H. rewrite <- (app_nil_r a). apply subseq_app; [exact H|constructor]. Qed.
Lemma subseq_trans {A} (a b c : list A) : subseq a b -> subseq b c -> subseq a c.
Proof.
  intros H1 H2. revert a H1. induction H2 as [l|x l1 l2 H IH|x l1 l2 H IH]; intros a H1.
  - inversion H1; constructor.
  - inversion H1; subst; [constructor|constructor; auto|constructor; auto].
  - constructor. auto.
Qed.
Lemma subseq_In {A} (a b : list A) x : subseq a b -> In x a -> In x b.
Proof. induction 1; cbn; [intros []|intros [->|H2]; auto|auto]. Qed.
Lemma subseq_l {A} (a b c : list A) : subseq (a ++ b) c -> subseq a c.
Proof. apply subseq_trans. apply subseq_r. apply subseq_refl. Qed.
Lemma subseq_snoc_inv {A} (w l : list A) x : subseq w (l ++ [x]) -> subseq w l \/ exists w2, w = w2 ++ [x] /\ subseq w2 l.
Proof.
  revert w. induction l as [|y l IH]; intros w H; cbn in H.
  - inversion H; subst; [left; constructor|right|left]. + inversion H2; subst. exists []. split; [reflexivity|constructor]. + inversion H2; subst. constructor.
  - inversion H; subst; [left; constructor| |].
    + destruct (IH _ H2) as [H3|(w2 & -> & H3)]; [left; constructor; exact H3|]. right. exists (y :: w2). split; [reflexivity|constructor; exact H3].
    + destruct (IH _ H2) as [H3|(w2 & -> & H3)]; [left; constructor; exact H3|]. right. exists w2. split; [reflexivity|constructor; exact H3].
Qed.
Lemma last_snoc {A} (l : list A) x d : last (l ++ [x]) d = x.
Proof. apply last_last. Qed.
Lemma snoc_inv {A} (l : list A) : l = [] \/ exists l2 x, l = l2 ++ [x].
Proof. induction l using rev_ind; [auto|right; eauto]. Qed.
(** If the last element of [w] is not the last one of [l], the last one of [l] can be added. *)
Lemma subseq_add_last (w l : list N) d : subseq w l -> l <> [] -> last w d <> last l d -> subseq (w ++ [last l d]) l.
Proof.
  intros H N D. destruct (snoc_inv l) as [->|(l2 & x & ->)]; [contradiction|]. rewrite last_snoc in *. apply subseq_snoc.
  destruct (subseq_snoc_inv w l2 x H) as [H2|(w2 & -> & H2)]; [exact H2|]. rewrite last_snoc in D. contradiction.
Qed.
Lemma last_default {A} (l : list A) d d2 : l <> [] -> last l d = last l d2.
Proof. induction l as [|x l IH]; [contradiction|]. intros _. destruct l; [reflexivity|]. cbn in *. apply IH. discriminate. Qed.
Lemma no_repeat_snoc d w x : no_repeat d w -> last w d <> x -> no_repeat d (w ++ [x]).
Proof.
  revert d. induction w as [|y w IH]; intros d H Nx; [cbn in *; auto|]. cbn [no_repeat app] in *. destruct H as (A & B). split; [exact A|]. apply IH; [exact B|]. intros X. apply Nx. rewrite <- X.
  destruct w; [reflexivity|]. change (last (y :: n :: w) d) with (last (n :: w) d). apply last_default. discriminate.
Qed.
Lemma no_repeat_app d a b : no_repeat d (a ++ b) -> no_repeat d a.
Proof. revert d. induction a as [|x a IH]; intros d H; cbn in *; [auto|]. destruct H as (A & B). split; [exact A|apply IH; exact B]. Qed.
Lemma last_app_default {A} (a b : list A) d : last (a ++ b) d = last b (last a d).
Proof.
  revert b. induction b as [|x b _] using rev_ind; [rewrite app_nil_r; reflexivity|]. rewrite app_assoc, !last_snoc. reflexivity.
Qed.
Lemma subseq_last_unique (w l : list N) x : subseq w (l ++ [x]) -> ~ In x l -> In x w -> last w 0%N = x.
Proof.
  intros H N HI. destruct (subseq_snoc_inv _ _ _ H) as [H2|(w2 & -> & _)]; [|apply last_snoc]. exfalso. apply N. exact (subseq_In _ _ _ H2 HI).
Qed.

(** ** Traces *)
Lemma sets_app a b : sets (a ++ b) = sets a ++ sets b.
Proof. apply flat_map_app. Qed.
Lemma received_app c a b : received c (a ++ b) = received c a ++ received c b.
Proof. apply flat_map_app. Qed.
Lemma applied_app c a b : applied c (a ++ b) = applied c a ++ applied c b.
Proof. apply flat_map_app. Qed.
Lemma acks_app i a b : acks i (a ++ b) = acks i a ++ acks i b.
Proof. apply flat_map_app. Qed.
Definition acks_by (c : nat) (tr : list event) : list N :=
  flat_map (fun e => match e with EAck c2 _ x => if Nat.eqb c2 c then [x] else [] | _ => [] end) tr.
Lemma acks_by_app c a b : acks_by c (a ++ b) = acks_by c a ++ acks_by c b.
Proof. apply flat_map_app. Qed.
Definition owner (e : event) : option nat :=
  match e with
  | EConnect c _ | EReceive c _ | EApply c _ | EApplyFail c _ | EAck c _ _ | ERpcFail c | ELost c | EDisconnect c | EEnd c | EServer c | EClient c => Some c
  | _ => None
  end.
Lemma owner_received c e : owner e <> Some c -> received c [e] = [].
Proof. destruct e; cbn; auto. intros H. destruct (Nat.eqb_spec c0 c); [subst; contradiction|reflexivity]. Qed.
Lemma owner_applied c e : owner e <> Some c -> applied c [e] = [].
Proof. destruct e; cbn; auto. intros H. destruct (Nat.eqb_spec c0 c); [subst; contradiction|reflexivity]. Qed.
Lemma owner_acks_by c e : owner e <> Some c -> acks_by c [e] = [].
Proof. destruct e; cbn; auto. intros H. destruct (Nat.eqb_spec c0 c); [subst; contradiction|reflexivity]. Qed.
Lemma owner_failure c e : owner e <> Some c -> failure c e = false.
Proof. destruct e; cbn; auto; intros H; destruct (Nat.eqb_spec c0 c); auto; subst; contradiction. Qed.
Definition fails (c : nat) (tr : list event) : bool := existsb (failure c) tr.
Lemma fails_app c a b : fails c (a ++ b) = fails c a || fails c b.
Proof. apply existsb_app. Qed.

(** ** Lists of connections *)
Lemma nth_set_same c k l : (c < length l)%nat -> nth_error (set_nth c k l) c = Some k.
Proof.
  intros H. unfold set_nth. rewrite nth_error_app2; rewrite firstn_length_le by lia; [|lia]. now rewrite Nat.sub_diag.
Qed.
Lemma nth_set_other c c2 k l : c2 <> c -> (c < length l)%nat -> nth_error (set_nth c k l) c2 = nth_error l c2.
Proof.
  intros N H. unfold set_nth. assert (Lf : length (firstn c l) = c) by (apply firstn_length_le; lia). destruct (Nat.lt_ge_cases c2 c) as [L|G].
  - rewrite nth_error_app1 by lia. rewrite <- (firstn_skipn c l) at 2. rewrite nth_error_app1 by lia. reflexivity.
  - rewrite nth_error_app2 by lia. rewrite Lf. replace (c2 - c)%nat with (S (c2 - c - 1)) by lia. cbn [nth_error].
    rewrite <- (firstn_skipn (S c) l) at 2. rewrite nth_error_app2; rewrite firstn_length_le by lia; [|lia]. f_equal. lia.
Qed.
Lemma length_set c k l : (c < length l)%nat -> length (set_nth c k l) = length l.
Proof. intros H. unfold set_nth. rewrite app_length. cbn [length]. rewrite firstn_length_le, skipn_length by lia. lia. Qed.

(** ** The invariant *)
Definition written (k : conn) : list N := k_net k ++ (match k_handler k with HWrite => [k_local k] | _ => [] end).
Definition setting (k : conn) : list N := match k_client k with CSet x => [x] | _ => [] end.
Definition acking (k : conn) : list N := match k_client k with CAck x | CAckWait x => [x] | _ => [] end.
Definition waits (c : nat) (p : nat * bool * str * N) : bool := let '(c2, b, _, _) := p in (Nat.eqb c2 c && b)%bool.
Record cinv (tr : list event) (pend : list (nat * bool * str * N)) (c : nat) (k : conn) : Prop := mkcinv {
  ci_seq : exists tr1 tr2, tr = tr1 ++ EConnect c (k_inst k) :: tr2 /\ subseq (received c tr ++ written k) (current tr1 :: sets tr2);
  ci_rep : no_repeat 0 (received c tr ++ written k);
  ci_last : k_handler k <> HDone -> last (received c tr ++ written k) 0%N = k_local k;
  ci_app : subseq (applied c tr ++ setting k) (received c tr);
  ci_all : fails c tr = false -> applied c tr ++ setting k = received c tr;
  ci_acks : fails c tr = false -> acks_by c tr ++ acking k = applied c tr;
  ci_acking : forall x, In x (acking k) -> In (EApply c x) tr;
  ci_pend : filter (waits c) pend = match k_client k with CAckWait x => [(c, true, k_inst k, x)] | _ => [] end;
  ci_alive : k_alive k = false -> In (EDisconnect c) tr;
  ci_done : k_handler k = HDone <-> In (EEnd c) tr }.
Record inv (tr : list event) (s : st) : Prop := mkinv {
  v_id : s_id s = current tr;
  v_run : s_running s = true <-> ~ In EShutdown tr;
  v_conn : forall c k, nth_error (s_conns s) c = Some k -> cinv tr (s_pending s) c k;
  v_owner : forall e c, In e tr -> owner e = Some c -> (c < length (s_conns s))%nat;
  v_connect : forall c i, In (EConnect c i) tr -> exists k, nth_error (s_conns s) c = Some k /\ k_inst k = i;
  v_pend : forall c b i x, In (c, b, i, x) (s_pending s) -> In (EConnect c i) tr /\ In (EApply c x) tr;
  v_late : forall c i x, In (c, false, i, x) (s_pending s) -> fails c tr = true;
  v_acked : forall i, acked i (s_acked s) = match acks i tr with [] => None | l => Some (last l 0%N) end;
  v_acks : forall c i x, In (EAck c i x) tr -> In (EConnect c i) tr /\ In (EApply c x) tr;
  v_end : forall c, In (EEnd c) tr -> In EShutdown tr }.

Lemma inv_init : inv [] init.
Proof.
  constructor; cbn; auto; try tauto.
  - intros c k H. destruct c; discriminate.
Qed.

(** A step of somebody else. *)
Lemma cinv_frame tr pend c k e pend2 : cinv tr pend c k -> owner e <> Some c -> filter (waits c) pend2 = filter (waits c) pend -> cinv (tr ++ [e]) pend2 c k.
Proof.
  intros [A B C D E F G H I J] O P. pose proof (owner_received c e O) as Er. pose proof (owner_applied c e O) as Ea. pose proof (owner_acks_by c e O) as Ek. pose proof (owner_failure c e O) as Ef.
  constructor; rewrite ?received_app, ?applied_app, ?acks_by_app, ?fails_app, ?Er, ?Ea, ?Ek, ?app_nil_r; cbn [fails existsb]; try (rewrite Ef; cbn [orb]); rewrite ?orb_false_r; auto.
  - destruct A as (tr1 & tr2 & Et & S). exists tr1, (tr2 ++ [e]). split; [rewrite Et at 1; rewrite <- app_assoc; reflexivity|]. rewrite sets_app. change (current tr1 :: sets tr2 ++ sets [e]) with ((current tr1 :: sets tr2) ++ sets [e]). now apply subseq_r.
  - intros x Hx. apply in_or_app. left. auto.
  - congruence.
  - intros Hk. apply in_or_app. left. auto.
  - rewrite J, in_app_iff. cbn. split; [auto|]. intros [X|[X|[]]]; [exact X|]. subst. cbn in O. congruence.
Qed.
Lemma waits_app c a b : filter (waits c) (a ++ b) = filter (waits c) a ++ filter (waits c) b.
Proof. apply filter_app. Qed.
Lemma acked_same i l : forall i2 x, acked i ((i2, x) :: l) = if list_eq_dec N.eq_dec i2 i then Some x else acked i l.
Proof. intros i2 x. unfold acked. cbn [find fst snd]. destruct (list_eq_dec N.eq_dec i2 i); reflexivity. Qed.
Lemma event_dec (a b : event) : {a = b} + {a <> b}.
Proof. repeat decide equality. Qed.
(** A step of connection [c]. *)
Lemma inv_conn tr s e c k k2 ac2 pend2 : inv tr s -> owner e = Some c -> nth_error (s_conns s) c = Some k -> k_inst k2 = k_inst k ->
  (forall i, e <> EConnect c i) -> (e = EEnd c -> s_running s = false) -> cinv (tr ++ [e]) pend2 c k2 ->
  (forall c2, c2 <> c -> filter (waits c2) pend2 = filter (waits c2) (s_pending s)) ->
  (forall c3 b i x, In (c3, b, i, x) pend2 -> In (EConnect c3 i) (tr ++ [e]) /\ In (EApply c3 x) (tr ++ [e])) ->
  (forall c3 i x, In (c3, false, i, x) pend2 -> fails c3 (tr ++ [e]) = true) ->
  (forall i, acked i ac2 = match acks i (tr ++ [e]) with [] => None | l => Some (last l 0%N) end) ->
  (forall i x, e = EAck c i x -> In (EConnect c i) tr /\ In (EApply c x) tr) ->
  inv (tr ++ [e]) (mkst (s_id s) (s_running s) ac2 (set_nth c k2 (s_conns s)) pend2).
Proof.
  intros V O E Ki Nc Ne Ci Pf Pp Pl Ac Ak. assert (Lt : (c < length (s_conns s))%nat) by (apply nth_error_Some; congruence).
  assert (Ns : sets [e] = []) by (destruct e; try reflexivity; discriminate). assert (Nsh : e <> EShutdown) by (intros ->; discriminate).
  constructor; cbn [s_id s_running s_acked s_conns s_pending].
  - unfold current. rewrite sets_app, Ns, app_nil_r. apply V.
  - rewrite (v_run _ _ V), in_app_iff. cbn. split; [|tauto]. intros H [X|[X|[]]]; congruence || contradiction.
  - intros c2 k3 H. destruct (Nat.eq_dec c2 c) as [->|Nq].
    + rewrite nth_set_same in H by exact Lt. inversion H; subst. exact Ci.
    + rewrite nth_set_other in H by auto. apply (cinv_frame tr (s_pending s)); [exact (v_conn _ _ V _ _ H)|rewrite O; congruence|auto].
  - intros e2 c2 H H2. rewrite length_set by exact Lt. apply in_app_iff in H. destruct H as [H|[<-|[]]]; [exact (v_owner _ _ V _ _ H H2)|]. rewrite O in H2. inversion H2; subst. exact Lt.
  - intros c2 i H. apply in_app_iff in H. destruct H as [H|[H|[]]].
    + destruct (v_connect _ _ V _ _ H) as (k3 & E3 & I3). destruct (Nat.eq_dec c2 c) as [->|Nq].
      * exists k2. rewrite nth_set_same by exact Lt. split; [reflexivity|]. rewrite E3 in E. inversion E; subst. congruence.
      * exists k3. rewrite nth_set_other by auto. auto.
    + exfalso. rewrite H in O. cbn in O. inversion O; subst. exact (Nc i eq_refl).
  - exact Pp.
  - exact Pl.
  - exact Ac.
  - intros c2 i x H. rewrite !in_app_iff. apply in_app_iff in H. destruct H as [H|[H|[]]].
    + destruct (v_acks _ _ V _ _ _ H). auto.
    + assert (Ec : c2 = c) by (rewrite H in O; cbn in O; congruence). subst c2. destruct (Ak i x H). auto.
  - intros c2 H. rewrite in_app_iff. left. apply in_app_iff in H. destruct H as [H|[H|[]]].
    + exact (v_end _ _ V _ H).
    + assert (Ec : c2 = c) by (rewrite H in O; cbn in O; congruence). subst c2.
      destruct (in_dec event_dec EShutdown tr) as [X|X]; [exact X|]. apply (v_run _ _ V) in X. rewrite (Ne H) in X. discriminate.
Qed.
Lemma pend_snoc tr s e : inv tr s -> forall c b i x, In (c, b, i, x) (s_pending s) -> In (EConnect c i) (tr ++ [e]) /\ In (EApply c x) (tr ++ [e]).
Proof. intros V c b i x H. rewrite !in_app_iff. destruct (v_pend _ _ V _ _ _ _ H). auto. Qed.
Lemma late_snoc tr s e : inv tr s -> forall c i x, In (c, false, i, x) (s_pending s) -> fails c (tr ++ [e]) = true.
Proof. intros V c i x H. rewrite fails_app, (v_late _ _ V _ _ _ H). reflexivity. Qed.
Lemma acked_snoc tr s e : inv tr s -> (forall i, acks i [e] = []) -> forall i, acked i (s_acked s) = match acks i (tr ++ [e]) with [] => None | l => Some (last l 0%N) end.
Proof. intros V H i. rewrite acks_app, H, app_nil_r. apply V. Qed.
Lemma v_handled tr s i x e : inv tr s -> (forall j, acks j [e] = if list_eq_dec N.eq_dec i j then [x] else []) ->
  forall j, acked j ((i, x) :: s_acked s) = match acks j (tr ++ [e]) with [] => None | l => Some (last l 0%N) end.
Proof.
  intros V H j. rewrite acked_same, acks_app, H. destruct (list_eq_dec N.eq_dec i j) as [Eq|Nq].
  - destruct (acks j tr ++ [x]) as [|y l] eqn:Ea; [destruct (acks j tr); discriminate|]. rewrite <- Ea, last_snoc. reflexivity.
  - rewrite app_nil_r. apply V.
Qed.
(** The connection part when the trace's projections do not change. *)
Lemma cinv_local tr pend c k e k2 : cinv tr pend c k -> k_inst k2 = k_inst k -> k_client k2 = k_client k ->
  received c [e] = [] -> applied c [e] = [] -> acks_by c [e] = [] ->
  (exists tr1 tr2, tr = tr1 ++ EConnect c (k_inst k) :: tr2 /\ subseq (received c tr ++ written k2) (current tr1 :: sets tr2)) ->
  no_repeat 0 (received c tr ++ written k2) ->
  (k_handler k2 <> HDone -> last (received c tr ++ written k2) 0%N = k_local k2) ->
  (k_alive k2 = false -> k_alive k = false \/ e = EDisconnect c) ->
  (k_handler k2 = HDone <-> k_handler k = HDone \/ e = EEnd c) -> cinv (tr ++ [e]) pend c k2.
Proof.
  intros [A B C D E F G H I J] Ki Kc Er Ea Ek Sq Rp Ls Al Dn.
  assert (St : setting k2 = setting k) by (unfold setting; now rewrite Kc). assert (Ak : acking k2 = acking k) by (unfold acking; now rewrite Kc).
  constructor; rewrite ?received_app, ?applied_app, ?acks_by_app, ?fails_app, ?Er, ?Ea, ?Ek, ?app_nil_r, ?St, ?Ak, ?Ki, ?Kc; auto.
  - destruct Sq as (tr1 & tr2 & Et & S). exists tr1, (tr2 ++ [e]). split; [rewrite Et at 1; rewrite <- app_assoc; reflexivity|]. rewrite sets_app. change (current tr1 :: sets tr2 ++ sets [e]) with ((current tr1 :: sets tr2) ++ sets [e]). now apply subseq_r.
  - intros X. apply orb_false_iff in X. apply E. tauto.
  - intros X. apply orb_false_iff in X. apply F. tauto.
  - intros x X. apply in_or_app. left. auto.
  - intros X. apply in_or_app. destruct (Al X) as [Y|Y]; [left; auto|right; left; congruence].
  - rewrite Dn, J, in_app_iff. cbn. split; [intros [X|X]; [now left|right; left; congruence]|]. intros [X|[X|[]]]; [now left|right; congruence].
Qed.
(** Nothing changes for the sender but the client's state. *)
Lemma cinv_client tr pend c k e k2 pend2 : cinv tr pend c k -> k_inst k2 = k_inst k -> k_handler k2 = k_handler k -> k_local k2 = k_local k -> k_alive k2 = k_alive k ->
  received c (tr ++ [e]) ++ k_net k2 = received c tr ++ k_net k -> sets [e] = [] -> e <> EEnd c ->
  subseq (applied c (tr ++ [e]) ++ setting k2) (received c (tr ++ [e])) ->
  (fails c (tr ++ [e]) = false -> applied c (tr ++ [e]) ++ setting k2 = received c (tr ++ [e])) ->
  (fails c (tr ++ [e]) = false -> acks_by c (tr ++ [e]) ++ acking k2 = applied c (tr ++ [e])) ->
  (forall x, In x (acking k2) -> In x (acking k) \/ e = EApply c x) ->
  filter (waits c) pend2 = match k_client k2 with CAckWait x => [(c, true, k_inst k2, x)] | _ => [] end -> cinv (tr ++ [e]) pend2 c k2.
Proof.
  intros [A B C D E F G H I J] Ki Kh Kl Ka Rn Se Ne Sa Al Ac Ai Pe.
  assert (W : received c (tr ++ [e]) ++ written k2 = received c tr ++ written k). { unfold written. rewrite Kh, Kl, !app_assoc, Rn. reflexivity. }
  constructor; auto.
  - rewrite W, Ki. destruct A as (tr1 & tr2 & Et & S). exists tr1, (tr2 ++ [e]). split; [rewrite Et at 1; rewrite <- app_assoc; reflexivity|]. rewrite sets_app, Se, app_nil_r. exact S.
  - now rewrite W.
  - rewrite W, Kh, Kl. exact C.
  - intros x X. apply in_or_app. destruct (Ai x X) as [Y|Y]; [left; auto|right; left; exact Y].
  - rewrite Ka. intros X. apply in_or_app. left. auto.
  - rewrite Kh, J, in_app_iff. cbn. split; [auto|]. intros [X|[X|[]]]; [exact X|]. congruence.
Qed.

(** The connections do not change. *)
Lemma inv_same tr s e rn ac2 pend2 : inv tr s -> sets [e] = [] -> (forall c i, e <> EConnect c i) -> (forall c, e <> EEnd c) ->
  (rn = true <-> ~ In EShutdown (tr ++ [e])) -> (forall c k, nth_error (s_conns s) c = Some k -> cinv (tr ++ [e]) pend2 c k) ->
  (forall c, owner e = Some c -> (c < length (s_conns s))%nat) ->
  (forall c3 b i x, In (c3, b, i, x) pend2 -> In (EConnect c3 i) (tr ++ [e]) /\ In (EApply c3 x) (tr ++ [e])) ->
  (forall c3 i x, In (c3, false, i, x) pend2 -> fails c3 (tr ++ [e]) = true) ->
  (forall i, acked i ac2 = match acks i (tr ++ [e]) with [] => None | l => Some (last l 0%N) end) ->
  (forall c i x, e = EAck c i x -> In (EConnect c i) tr /\ In (EApply c x) tr) ->
  inv (tr ++ [e]) (mkst (s_id s) rn ac2 (s_conns s) pend2).
Proof.
  intros V Ns Nc Ne Rn Ci Ow Pp Pl Ac Ak. constructor; cbn [s_id s_running s_acked s_conns s_pending]; auto.
  - unfold current. rewrite sets_app, Ns, app_nil_r. apply V.
  - intros e2 c H O. apply in_app_iff in H. destruct H as [H|[<-|[]]]; [exact (v_owner _ _ V _ _ H O)|auto].
  - intros c i H. apply in_app_iff in H. destruct H as [H|[H|[]]]; [exact (v_connect _ _ V _ _ H)|]. exfalso. exact (Nc c i H).
  - intros c i x H. rewrite !in_app_iff. apply in_app_iff in H. destruct H as [H|[H|[]]]; [destruct (v_acks _ _ V _ _ _ H); auto|]. destruct (Ak _ _ _ H). auto.
  - intros c H. rewrite in_app_iff. apply in_app_iff in H. destruct H as [H|[H|[]]]; [left; exact (v_end _ _ V _ H)|]. exfalso. exact (Ne c H).
Qed.
Lemma inv_step tr s e s2 : inv tr s -> step s e s2 -> inv (tr ++ [e]) s2.
Proof.
  intros V S. destruct S as [s x|s i|s c k E Kh R Ne|s c k E Kh R|s c k E Kh|s c k E Kh R|s c k E Kh R|s c k x r E Ka Kc Kn|s c k x E Kc|s c k x E Kc|s c k x E Kc|s c k i x p1 p2 P E|s c i x p1 p2 P|s c k i x p1 p2 P E|s c i x p1 p2 P|s i A|s c k E|s].
  - (* set *)
    constructor; cbn [s_id s_running s_acked s_conns s_pending].
    + unfold current. rewrite sets_app. cbn. now rewrite last_snoc.
    + rewrite (v_run _ _ V), in_app_iff. cbn. intuition discriminate.
    + intros c k H. apply (cinv_frame tr (s_pending s)); [exact (v_conn _ _ V _ _ H)|discriminate|reflexivity].
    + intros e c H O. apply in_app_iff in H. destruct H as [H|[<-|[]]]; [exact (v_owner _ _ V _ _ H O)|discriminate].
    + intros c i H. apply in_app_iff in H. destruct H as [H|[H|[]]]; [exact (v_connect _ _ V _ _ H)|discriminate].
    + exact (pend_snoc _ _ _ V).
    + exact (late_snoc _ _ _ V).
    + apply (acked_snoc _ _ _ V). reflexivity.
    + intros c i y H. rewrite !in_app_iff. apply in_app_iff in H. destruct H as [H|[H|[]]]; [destruct (v_acks _ _ V _ _ _ H); auto|discriminate].
    + intros c H. rewrite in_app_iff. apply in_app_iff in H. destruct H as [H|[H|[]]]; [left; exact (v_end _ _ V _ H)|discriminate].
  - (* connect *)
    set (c := length (s_conns s)).
    assert (Fresh : forall e, In e tr -> owner e <> Some c) by (intros e H O; pose proof (v_owner _ _ V _ _ H O); unfold c in *; lia).
    assert (Rc : received c tr = []). { clear - Fresh. induction tr as [|e l IH]; [reflexivity|]. change (e :: l) with ([e] ++ l). rewrite received_app, (owner_received c e (Fresh e (or_introl eq_refl))), IH; [reflexivity|]. intros e2 H. apply Fresh. now right. }
    assert (Ac : applied c tr = []). { clear - Fresh. induction tr as [|e l IH]; [reflexivity|]. change (e :: l) with ([e] ++ l). rewrite applied_app, (owner_applied c e (Fresh e (or_introl eq_refl))), IH; [reflexivity|]. intros e2 H. apply Fresh. now right. }
    assert (Kc : acks_by c tr = []). { clear - Fresh. induction tr as [|e l IH]; [reflexivity|]. change (e :: l) with ([e] ++ l). rewrite acks_by_app, (owner_acks_by c e (Fresh e (or_introl eq_refl))), IH; [reflexivity|]. intros e2 H. apply Fresh. now right. }
    constructor; cbn [s_id s_running s_acked s_conns s_pending].
    + unfold current. rewrite sets_app, app_nil_r. apply V.
    + rewrite (v_run _ _ V), in_app_iff. cbn. intuition discriminate.
    + intros c2 k H. destruct (Nat.lt_ge_cases c2 c) as [L|G].
      * rewrite nth_error_app1 in H by exact L. apply (cinv_frame tr (s_pending s)); [exact (v_conn _ _ V _ _ H)|cbn; intros X; inversion X; unfold c in *; lia|reflexivity].
      * rewrite nth_error_app2 in H by exact G. assert (Eq : c2 = c) by (destruct (c2 - length (s_conns s))%nat as [|[|?]] eqn:X; try discriminate; unfold c in *; lia). subst c2.
        unfold c in H at 1. rewrite Nat.sub_diag in H. inversion H; subst k. clear H.
        constructor; cbn [k_inst k_handler k_local k_alive k_net k_client setting acking written]; rewrite ?received_app, ?applied_app, ?acks_by_app, ?Rc, ?Ac, ?Kc; cbn; auto.
        -- exists tr, []. split; [reflexivity|constructor].
        -- constructor.
        -- intros _ [].
        -- destruct (filter (waits c) (s_pending s)) as [|p l] eqn:F; [reflexivity|]. exfalso. assert (HI : In p (filter (waits c) (s_pending s))) by (rewrite F; now left). apply filter_In in HI. destruct p as (((c3 & b) & i3) & x3). destruct HI as (HI & W). cbn in W. apply andb_prop in W. destruct W as (W & _). apply Nat.eqb_eq in W. subst c3.
           destruct (v_pend _ _ V _ _ _ _ HI) as (X & _). exact (Fresh _ X eq_refl).
        -- discriminate.
        -- split; [discriminate|]. rewrite in_app_iff. intros [X|[X|[]]]; [exfalso; exact (Fresh _ X eq_refl)|discriminate].
    + intros e c2 H O. rewrite app_length. cbn. apply in_app_iff in H. destruct H as [H|[<-|[]]]; [pose proof (v_owner _ _ V _ _ H O); lia|]. cbn in O. inversion O. unfold c. lia.
    + intros c2 i2 H. apply in_app_iff in H. destruct H as [H|[H|[]]].
      * destruct (v_connect _ _ V _ _ H) as (k & E & I). exists k. split; [|exact I]. rewrite nth_error_app1; [exact E|]. apply nth_error_Some. congruence.
      * inversion H; subst. eexists. rewrite nth_error_app2 by lia. rewrite Nat.sub_diag. split; reflexivity.
    + exact (pend_snoc _ _ _ V).
    + exact (late_snoc _ _ _ V).
    + apply (acked_snoc _ _ _ V). reflexivity.
    + intros c2 i2 y H. rewrite !in_app_iff. apply in_app_iff in H. destruct H as [H|[H|[]]]; [destruct (v_acks _ _ V _ _ _ H); auto|discriminate].
    + intros c2 H. rewrite in_app_iff. apply in_app_iff in H. destruct H as [H|[H|[]]]; [left; exact (v_end _ _ V _ H)|discriminate].
  - (* update *)
    pose proof (v_conn _ _ V _ _ E) as Ci. pose proof Ci as [A B C _ _ _ _ _ _ _].
    assert (Wk : written k = k_net k) by (unfold written; rewrite Kh; apply app_nil_r). rewrite Wk in *. assert (La : last (received c tr ++ k_net k) 0%N = k_local k) by (apply C; congruence).
    apply (inv_conn tr s _ c k); auto; try discriminate; [|exact (pend_snoc _ _ _ V)|exact (late_snoc _ _ _ V)|apply (acked_snoc _ _ _ V); reflexivity].
    apply (cinv_local tr (s_pending s) c k); auto; cbn [k_inst k_handler k_local k_alive k_net k_client]; unfold written; cbn [k_handler k_net k_local]; auto.
    + destruct A as (tr1 & tr2 & Et & S). exists tr1, tr2. split; [exact Et|]. rewrite app_assoc.
      assert (Cu : s_id s = last (current tr1 :: sets tr2) 0%N). { rewrite (v_id _ _ V). unfold current at 1. rewrite Et, sets_app. cbn [sets flat_map app]. rewrite last_app_default. fold (sets tr2). fold (current tr1). destruct (sets tr2) as [|y l] eqn:Es; [reflexivity|]. change (last (current tr1 :: y :: l) 0%N) with (last (y :: l) 0%N). apply last_default. discriminate. }
      rewrite Cu. apply subseq_add_last; [exact S|discriminate|]. rewrite La, <- Cu. exact Ne.
    + rewrite app_assoc. apply no_repeat_snoc; [exact B|]. rewrite La. exact Ne.
    + intros _. rewrite app_assoc. apply last_snoc.
    + split; [discriminate|]. intros [X|X]; [congruence|discriminate].
  - (* stop *)
    pose proof (v_conn _ _ V _ _ E) as Ci. pose proof Ci as [A B C _ _ _ _ _ _ _].
    assert (Wk : written k = k_net k) by (unfold written; rewrite Kh; apply app_nil_r). rewrite Wk in *.
    apply (inv_conn tr s _ c k); auto; try discriminate; [|exact (pend_snoc _ _ _ V)|exact (late_snoc _ _ _ V)|apply (acked_snoc _ _ _ V); reflexivity].
    apply (cinv_local tr (s_pending s) c k); auto; cbn [k_inst k_handler k_local k_alive k_net k_client]; unfold written; cbn [k_handler k_net k_local]; rewrite ?app_nil_r; auto.
    + congruence.
    + split; auto.
  - (* write *)
    pose proof (v_conn _ _ V _ _ E) as Ci. pose proof Ci as [A B C _ _ _ _ _ _ _].
    assert (Wk : written k = k_net k ++ [k_local k]) by (unfold written; rewrite Kh; reflexivity). rewrite Wk in *.
    apply (inv_conn tr s _ c k); auto; try discriminate; [|exact (pend_snoc _ _ _ V)|exact (late_snoc _ _ _ V)|apply (acked_snoc _ _ _ V); reflexivity].
    apply (cinv_local tr (s_pending s) c k); auto; cbn [k_inst k_handler k_local k_alive k_net k_client]; unfold written; cbn [k_handler k_net k_local]; rewrite ?app_nil_r; auto.
    + intros _. apply C. congruence.
    + split; [discriminate|]. intros [X|X]; [congruence|discriminate].
  - (* check *)
    pose proof (v_conn _ _ V _ _ E) as Ci. pose proof Ci as [A B C _ _ _ _ _ _ _].
    assert (Wk : written k = k_net k) by (unfold written; rewrite Kh; apply app_nil_r). rewrite Wk in *.
    apply (inv_conn tr s _ c k); auto; try discriminate; [|exact (pend_snoc _ _ _ V)|exact (late_snoc _ _ _ V)|apply (acked_snoc _ _ _ V); reflexivity].
    apply (cinv_local tr (s_pending s) c k); auto; cbn [k_inst k_handler k_local k_alive k_net k_client]; unfold written; cbn [k_handler k_net k_local]; rewrite ?app_nil_r; auto.
    + intros _. apply C. congruence.
    + split; [discriminate|]. intros [X|X]; [congruence|discriminate].
  - (* check, stop *)
    pose proof (v_conn _ _ V _ _ E) as Ci. pose proof Ci as [A B C _ _ _ _ _ _ _].
    assert (Wk : written k = k_net k) by (unfold written; rewrite Kh; apply app_nil_r). rewrite Wk in *.
    apply (inv_conn tr s _ c k); auto; try discriminate; [|exact (pend_snoc _ _ _ V)|exact (late_snoc _ _ _ V)|apply (acked_snoc _ _ _ V); reflexivity].
    apply (cinv_local tr (s_pending s) c k); auto; cbn [k_inst k_handler k_local k_alive k_net k_client]; unfold written; cbn [k_handler k_net k_local]; rewrite ?app_nil_r; auto.
    split; auto.
  - (* read *)
    pose proof (v_conn _ _ V _ _ E) as Ci. pose proof Ci as [_ _ _ D F G H P _ _]. unfold setting, acking in *. rewrite Kc in *. rewrite app_nil_r in *.
    apply (inv_conn tr s _ c k); auto; try discriminate; [|exact (pend_snoc _ _ _ V)|exact (late_snoc _ _ _ V)|apply (acked_snoc _ _ _ V); reflexivity].
    apply (cinv_client tr (s_pending s) c k); auto; cbn [k_inst k_handler k_local k_alive k_net k_client]; rewrite ?received_app, ?applied_app, ?acks_by_app, ?fails_app; cbn [received applied acks_by flat_map app setting acking k_client]; rewrite ?Nat.eqb_refl, ?app_nil_r; auto.
    + rewrite Kn, <- app_assoc. reflexivity.
    + discriminate.
    + now apply subseq_snoc.
    + intros X. apply orb_false_iff in X. rewrite F by tauto. reflexivity.
    + intros X. apply orb_false_iff in X. apply G. tauto.
    + intros y [].
  - (* apply *)
    pose proof (v_conn _ _ V _ _ E) as Ci. pose proof Ci as [_ _ _ D F G H P _ _]. unfold setting, acking in *. rewrite Kc in *.
    apply (inv_conn tr s _ c k); auto; try discriminate; [|exact (pend_snoc _ _ _ V)|exact (late_snoc _ _ _ V)|apply (acked_snoc _ _ _ V); reflexivity].
    apply (cinv_client tr (s_pending s) c k); auto; cbn [k_inst k_handler k_local k_alive k_net k_client]; rewrite ?received_app, ?applied_app, ?acks_by_app, ?fails_app; cbn [received applied acks_by flat_map app setting acking k_client]; rewrite ?Nat.eqb_refl, ?app_nil_r; auto.
    + discriminate.
    + intros X. apply orb_false_iff in X. apply F. tauto.
    + intros X. apply orb_false_iff in X. rewrite app_nil_r in G. rewrite G by tauto. reflexivity.
    + intros y [<-|[]]. now right.
  - (* apply fails *)
    pose proof (v_conn _ _ V _ _ E) as Ci. pose proof Ci as [_ _ _ D F G H P _ _]. unfold setting, acking in *. rewrite Kc in *.
    apply (inv_conn tr s _ c k); auto; try discriminate; [|exact (pend_snoc _ _ _ V)|exact (late_snoc _ _ _ V)|apply (acked_snoc _ _ _ V); reflexivity].
    apply (cinv_client tr (s_pending s) c k); auto; cbn [k_inst k_handler k_local k_alive k_net k_client]; rewrite ?received_app, ?applied_app, ?acks_by_app, ?fails_app; cbn [received applied acks_by flat_map app setting acking k_client fails existsb failure]; rewrite ?Nat.eqb_refl, ?app_nil_r, ?orb_true_r; cbn [orb]; rewrite ?orb_true_r; try discriminate; auto.
    + exact (subseq_l _ _ _ D).
    + intros y [].
  - (* send *)
    pose proof (v_conn _ _ V _ _ E) as Ci. pose proof Ci as [_ _ _ D F G H P _ _]. unfold setting, acking in *. rewrite Kc in *.
    apply (inv_conn tr s _ c k); auto; try discriminate.
    + apply (cinv_client tr (s_pending s) c k); auto; cbn [k_inst k_handler k_local k_alive k_net k_client]; rewrite ?received_app, ?applied_app, ?acks_by_app, ?fails_app; cbn [received applied acks_by flat_map app setting acking k_client fails existsb failure]; rewrite ?Nat.eqb_refl, ?app_nil_r, ?orb_false_r in *; auto; try discriminate.
      * unfold acking. cbn. rewrite Kc. auto.
      * rewrite waits_app, P. cbn. rewrite Nat.eqb_refl. reflexivity.
    + intros c2 Nq. rewrite waits_app. cbn. destruct (Nat.eqb_spec c c2); [congruence|]. apply app_nil_r.
    + intros c2 b i y HI. apply in_app_iff in HI. destruct HI as [HI|[X|[]]]; [exact (pend_snoc _ _ _ V _ _ _ _ HI)|]. inversion X; subst. rewrite !in_app_iff. split; left; [|apply H; now left].
      destruct (ci_seq _ _ _ _ Ci) as (tr1 & tr2 & Et & _). rewrite Et at 1. apply in_app_iff. right. now left.
    + intros c2 i y HI. apply in_app_iff in HI. destruct HI as [HI|[X|[]]]; [exact (late_snoc _ _ _ V _ _ _ HI)|discriminate].
    + apply (acked_snoc _ _ _ V). reflexivity.
  - (* ack *)
    pose proof (v_conn _ _ V _ _ E) as Ci. pose proof Ci as [_ _ _ D F G H Pe _ _]. rewrite P, waits_app in Pe. cbn [filter waits] in Pe. rewrite Nat.eqb_refl in Pe. cbn [andb] in Pe.
    assert (Q : filter (waits c) p1 = [] /\ filter (waits c) p2 = [] /\ k_client k = CAckWait x /\ k_inst k = i).
    { destruct (k_client k) as [| | |y]; destruct (filter (waits c) p1) as [|q l]; cbn in Pe; inversion Pe; subst; auto. destruct l; discriminate. }
    destruct Q as (Q1 & Q2 & Kc & Ki). unfold setting, acking in *. rewrite Kc in *. rewrite app_nil_r in *.
    assert (Vp : In (EConnect c i) tr /\ In (EApply c x) tr) by (apply (v_pend _ _ V c true i x); rewrite P; apply in_app_iff; right; now left).
    apply (inv_conn tr s _ c k); auto; try discriminate.
    + apply (cinv_client tr (s_pending s) c k); auto; cbn [k_inst k_handler k_local k_alive k_net k_client]; rewrite ?received_app, ?applied_app, ?acks_by_app, ?fails_app; cbn [received applied acks_by flat_map app setting acking k_client fails existsb failure]; rewrite ?Nat.eqb_refl, ?app_nil_r, ?orb_false_r in *; auto; try discriminate.
      * intros y [].
      * rewrite waits_app, Q1, Q2. reflexivity.
    + intros c2 Nq. rewrite P, !waits_app. cbn [filter waits]. destruct (Nat.eqb_spec c c2); [congruence|]. reflexivity.
    + intros c2 b j y HI. apply (pend_snoc _ _ _ V c2 b). rewrite P. apply in_app_iff. apply in_app_iff in HI. destruct HI; [now left|right; now right].
    + intros c2 j y HI. apply (late_snoc _ _ _ V c2 j y). rewrite P. apply in_app_iff. apply in_app_iff in HI. destruct HI; [now left|right; now right].
    + apply (v_handled tr s i x _ V). intros j. cbn. destruct (list_eq_dec N.eq_dec i j); reflexivity.
    + intros j y X. inversion X; subst. exact Vp.
  - (* late ack *)
    assert (HIn : In (c, false, i, x) (s_pending s)) by (rewrite P; apply in_app_iff; right; now left).
    assert (Vp : In (EConnect c i) tr /\ In (EApply c x) tr) by exact (v_pend _ _ V c false i x HIn). pose proof (v_late _ _ V _ _ _ HIn) as Fl.
    assert (Fi : forall c2, filter (waits c2) (p1 ++ p2) = filter (waits c2) (s_pending s)) by (intros c2; rewrite P, !waits_app; cbn [filter waits]; rewrite andb_false_r; reflexivity).
    assert (Sub : forall p, In p (p1 ++ p2) -> In p (s_pending s)) by (intros p HI; rewrite P; apply in_app_iff; apply in_app_iff in HI; destruct HI; [now left|right; now right]).
    apply inv_same; auto; try discriminate.
    + rewrite (v_run _ _ V), in_app_iff. cbn. intuition discriminate.
    + intros c2 k H. pose proof (v_conn _ _ V _ _ H) as Ci. destruct (Nat.eq_dec c2 c) as [->|Nq]; [|apply (cinv_frame tr (s_pending s)); [exact Ci|cbn; congruence|apply Fi]].
      pose proof Ci as [_ _ _ D _ _ _ Pe _ _].
      apply (cinv_client tr (s_pending s) c k); auto; rewrite ?received_app, ?applied_app, ?acks_by_app, ?fails_app, ?Fl; cbn [received applied acks_by flat_map app orb]; rewrite ?app_nil_r; auto; try discriminate. rewrite Fi. exact Pe.
    + intros c2 X. inversion X; subst. exact (v_owner _ _ V _ _ (proj1 Vp) eq_refl).
    + intros c2 b j y HI. exact (pend_snoc _ _ _ V _ _ _ _ (Sub _ HI)).
    + intros c2 j y HI. exact (late_snoc _ _ _ V _ _ _ (Sub _ HI)).
    + apply (v_handled tr s i x _ V). intros j. cbn. destruct (list_eq_dec N.eq_dec i j); reflexivity.
    + intros c2 j y X. inversion X; subst. exact Vp.
  - (* the call fails *)
    pose proof (v_conn _ _ V _ _ E) as Ci. pose proof Ci as [_ _ _ D F G H Pe _ _]. rewrite P, waits_app in Pe. cbn [filter waits] in Pe. rewrite Nat.eqb_refl in Pe. cbn [andb] in Pe.
    assert (Q : filter (waits c) p1 = [] /\ filter (waits c) p2 = [] /\ k_client k = CAckWait x /\ k_inst k = i).
    { destruct (k_client k) as [| | |y]; destruct (filter (waits c) p1) as [|q l]; cbn in Pe; inversion Pe; subst; auto. destruct l; discriminate. }
    destruct Q as (Q1 & Q2 & Kc & Ki). unfold setting, acking in *. rewrite Kc in *. rewrite app_nil_r in *.
    assert (HIn : In (c, true, i, x) (s_pending s)) by (rewrite P; apply in_app_iff; right; now left).
    assert (Fc : fails c (tr ++ [ERpcFail c]) = true) by (rewrite fails_app; cbn; rewrite Nat.eqb_refl; apply orb_true_r).
    apply (inv_conn tr s _ c k); auto; try discriminate.
    + apply (cinv_client tr (s_pending s) c k); auto; rewrite ?Fc; cbn [k_inst k_handler k_local k_alive k_net k_client]; rewrite ?received_app, ?applied_app, ?acks_by_app; cbn [received applied acks_by flat_map app setting acking k_client]; rewrite ?app_nil_r; auto; try discriminate.
      * intros y [].
      * rewrite waits_app, Q1. cbn [filter waits]. rewrite andb_false_r. exact Q2.
    + intros c2 Nq. rewrite P, !waits_app. cbn [filter waits]. rewrite andb_false_r. destruct (Nat.eqb_spec c c2); [congruence|]. reflexivity.
    + intros c2 b j y HI. apply in_app_iff in HI. destruct HI as [HI|[HI|HI]].
      * apply (pend_snoc _ _ _ V c2 b). rewrite P. apply in_app_iff. now left.
      * inversion HI; subst. exact (pend_snoc _ _ _ V _ _ _ _ HIn).
      * apply (pend_snoc _ _ _ V c2 b). rewrite P. apply in_app_iff. right. now right.
    + intros c2 j y HI. apply in_app_iff in HI. destruct HI as [HI|[HI|HI]].
      * apply (late_snoc _ _ _ V c2 j y). rewrite P. apply in_app_iff. now left.
      * inversion HI; subst. exact Fc.
      * apply (late_snoc _ _ _ V c2 j y). rewrite P. apply in_app_iff. right. now right.
    + apply (acked_snoc _ _ _ V). reflexivity.
  - (* lost *)
    assert (HIn : In (c, false, i, x) (s_pending s)) by (rewrite P; apply in_app_iff; right; now left).
    assert (Vp : In (EConnect c i) tr /\ In (EApply c x) tr) by exact (v_pend _ _ V c false i x HIn). pose proof (v_late _ _ V _ _ _ HIn) as Fl.
    assert (Fi : forall c2, filter (waits c2) (p1 ++ p2) = filter (waits c2) (s_pending s)) by (intros c2; rewrite P, !waits_app; cbn [filter waits]; rewrite andb_false_r; reflexivity).
    assert (Sub : forall p, In p (p1 ++ p2) -> In p (s_pending s)) by (intros p HI; rewrite P; apply in_app_iff; apply in_app_iff in HI; destruct HI; [now left|right; now right]).
    apply inv_same; auto; try discriminate.
    + rewrite (v_run _ _ V), in_app_iff. cbn. intuition discriminate.
    + intros c2 k H. pose proof (v_conn _ _ V _ _ H) as Ci. destruct (Nat.eq_dec c2 c) as [->|Nq]; [|apply (cinv_frame tr (s_pending s)); [exact Ci|cbn; congruence|apply Fi]].
      pose proof Ci as [_ _ _ D _ _ _ Pe _ _].
      apply (cinv_client tr (s_pending s) c k); auto; rewrite ?received_app, ?applied_app, ?acks_by_app, ?fails_app, ?Fl; cbn [received applied acks_by flat_map app orb]; rewrite ?app_nil_r; auto; try discriminate. rewrite Fi. exact Pe.
    + intros c2 X. inversion X; subst. exact (v_owner _ _ V _ _ (proj1 Vp) eq_refl).
    + intros c2 b j y HI. exact (pend_snoc _ _ _ V _ _ _ _ (Sub _ HI)).
    + intros c2 j y HI. exact (late_snoc _ _ _ V _ _ _ (Sub _ HI)).
    + apply (acked_snoc _ _ _ V). reflexivity.
  - (* wait ok *)
    destruct s as [id rn ac cs pe]. apply (inv_same tr (mkst id rn ac cs pe)); auto; try discriminate.
    + rewrite (v_run _ _ V), in_app_iff. cbn. intuition discriminate.
    + intros c k H. apply (cinv_frame tr pe); [exact (v_conn _ _ V _ _ H)|discriminate|reflexivity].
    + exact (pend_snoc _ _ _ V).
    + exact (late_snoc _ _ _ V).
    + apply (acked_snoc _ _ _ V). reflexivity.
  - (* disconnect *)
    pose proof (v_conn _ _ V _ _ E) as Ci. pose proof Ci as [A B C _ _ _ _ _ _ _].
    apply (inv_conn tr s _ c k); auto; try discriminate; [|exact (pend_snoc _ _ _ V)|exact (late_snoc _ _ _ V)|apply (acked_snoc _ _ _ V); reflexivity].
    apply (cinv_local tr (s_pending s) c k); auto; cbn [k_inst k_handler k_local k_alive k_net k_client].
    split; [auto|]. intros [X|X]; [exact X|discriminate].
  - (* shutdown *)
    apply (inv_same tr s); auto; try discriminate.
    + rewrite in_app_iff. cbn. split; [discriminate|]. intros X. exfalso. apply X. right. now left.
    + intros c k H. apply (cinv_frame tr (s_pending s)); [exact (v_conn _ _ V _ _ H)|discriminate|reflexivity].
    + exact (pend_snoc _ _ _ V).
    + exact (late_snoc _ _ _ V).
    + apply (acked_snoc _ _ _ V). reflexivity.
Qed.
Lemma inv_run tr s : run init tr s -> inv tr s.
Proof. remember init as s0 eqn:E. induction 1 as [s|s tr s2 e s3 R IH St]; [subst; apply inv_init|]. exact (inv_step _ _ _ _ (IH E) St). Qed.

(** ** Consequences *)
Lemma connected tr s c i : inv tr s -> In (EConnect c i) tr -> exists k, nth_error (s_conns s) c = Some k /\ k_inst k = i /\ cinv tr (s_pending s) c k.
Proof. intros V H. destruct (v_connect _ _ V _ _ H) as (k & E & I). exists k. split; [exact E|]. split; [exact I|]. exact (v_conn _ _ V _ _ E). Qed.
Lemma owner_one tr s c i1 i2 : inv tr s -> In (EConnect c i1) tr -> In (EConnect c i2) tr -> i1 = i2.
Proof. intros V A B. destruct (v_connect _ _ V _ _ A) as (k & E & <-). destruct (v_connect _ _ V _ _ B) as (k2 & E2 & <-). rewrite E in E2. now inversion E2. Qed.
Lemma not_failed c tr : fails c tr = false <-> forall e, In e tr -> failure c e = false.
Proof.
  unfold fails. split.
  - intros H e HI. destruct (failure c e) eqn:F; [|reflexivity]. assert (X : existsb (failure c) tr = true) by (apply existsb_exists; eauto). congruence.
  - intros H. destruct (existsb (failure c) tr) eqn:F; [|reflexivity]. apply existsb_exists in F. destruct F as (e & HI & F). rewrite (H e HI) in F. discriminate.
Qed.
Definition quiet (c : nat) (s : st) : Prop := forall e s2, step s e s2 -> moves c e = false.
Lemma quiet_state tr s c k : inv tr s -> nth_error (s_conns s) c = Some k -> quiet c s -> ~ In (EDisconnect c) tr -> ~ In EShutdown tr ->
  k_client k = CRead /\ k_net k = [] /\ k_handler k = HWait /\ k_local k = s_id s.
Proof.
  intros V E Q Nd Ns. pose proof (v_conn _ _ V _ _ E) as Ci. assert (Al : k_alive k = true) by (destruct (k_alive k) eqn:A; [reflexivity|]; exfalso; exact (Nd (ci_alive _ _ _ _ Ci A))).
  assert (Rn : s_running s = true) by (apply (v_run _ _ V); exact Ns).
  assert (No : forall e s2, step s e s2 -> moves c e = true -> False) by (intros e s2 S M; rewrite (Q _ _ S) in M; discriminate).
  assert (Kc : k_client k = CRead).
  { destruct (k_client k) as [|x|x|x] eqn:Kc; [reflexivity| | |]; exfalso.
    - eapply No; [exact (D_apply s c k x E Kc)|apply Nat.eqb_refl].
    - eapply No; [exact (D_send s c k x E Kc)|apply Nat.eqb_refl].
    - pose proof (ci_pend _ _ _ _ Ci) as P. rewrite Kc in P. assert (HI : In (c, true, k_inst k, x) (s_pending s)) by (apply (proj1 (filter_In (waits c) _ _)); rewrite P; now left).
      destruct (in_split _ _ HI) as (p1 & p2 & Ep). eapply No; [exact (D_ack s c k (k_inst k) x p1 p2 Ep E)|apply Nat.eqb_refl]. }
  split; [exact Kc|]. split.
  - destruct (k_net k) as [|x r] eqn:Kn; [reflexivity|]. exfalso. eapply No; [exact (D_read s c k x r E Al Kc Kn)|apply Nat.eqb_refl].
  - destruct (k_handler k) eqn:Kh.
    + split; [reflexivity|]. destruct (N.eq_dec (k_local k) (s_id s)) as [X|X]; [exact X|]. exfalso. eapply No; [exact (D_update s c k E Kh Rn X)|apply Nat.eqb_refl].
    + exfalso. eapply No; [exact (D_write s c k E Kh)|apply Nat.eqb_refl].
    + exfalso. eapply No; [exact (D_check s c k E Kh Rn)|apply Nat.eqb_refl].
    + exfalso. apply Ns. apply (v_end _ _ V c). now apply (ci_done _ _ _ _ Ci).
Qed.
Lemma acks_acks_by i c tr : (forall c2 i2 x, In (EAck c2 i2 x) tr -> (i2 = i <-> c2 = c)) -> acks i tr = acks_by c tr.
Proof.
  induction tr as [|e tr IH]; intros H; [reflexivity|]. change (e :: tr) with ([e] ++ tr). rewrite acks_app, acks_by_app. f_equal; [|apply IH; intros; apply (H c2 i2 x); now right].
  destruct e; try reflexivity. cbn. pose proof (H c0 i0 x (or_introl eq_refl)) as X. destruct (list_eq_dec N.eq_dec i0 i), (Nat.eqb_spec c0 c); auto; exfalso; tauto.
Qed.

(** ** Measures *)
Definition from (c : nat) (p : nat * bool * str * N) : bool := let '(c2, _, _, _) := p in Nat.eqb c2 c.
Definition upd (s : st) (k : conn) : nat := if N.eq_dec (k_local k) (s_id s) then 0 else 7.
Definition hm (s : st) (k : conn) : nat := match k_handler k with HWait => upd s k | HWrite => 6 + upd s k | HCheck => 1 + upd s k | HDone => 0 end.
Definition cm (k : conn) : nat := match k_client k with CSet _ => 3 | CAck _ => 2 | _ => 0 end.
Definition mu (c : nat) (s : st) : nat :=
  match nth_error (s_conns s) c with Some k => 4 * length (k_net k) + hm s k + cm k | None => 0 end + length (filter (from c) (s_pending s)).
Lemma mu_set s c c2 k k2 pend2 ac2 : nth_error (s_conns s) c = Some k -> (c2 < length (s_conns s))%nat ->
  mu c2 (mkst (s_id s) (s_running s) ac2 (set_nth c k2 (s_conns s)) pend2) =
  (if Nat.eqb c2 c then 4 * length (k_net k2) + hm s k2 + cm k2 else match nth_error (s_conns s) c2 with Some k => 4 * length (k_net k) + hm s k + cm k | None => 0 end) + length (filter (from c2) pend2).
Proof.
  intros E L. assert (Lt : (c < length (s_conns s))%nat) by (apply nth_error_Some; congruence). unfold mu. cbn [s_conns s_pending]. destruct (Nat.eqb_spec c2 c) as [->|Nq].
  - rewrite nth_set_same by exact Lt. reflexivity.
  - rewrite nth_set_other by auto. reflexivity.
Qed.
Lemma mu_step s e s2 c : (c < length (s_conns s))%nat -> step s e s2 -> sets [e] = [] -> (c < length (s_conns s2))%nat /\ (mu c s2 + (if moves c e then 1 else 0) <= mu c s)%nat.
Proof.
  intros L S Ns.
  assert (Len : forall c2 k k2, nth_error (s_conns s) c2 = Some k -> (c < length (set_nth c2 k2 (s_conns s)))%nat) by (intros c2 k k2 E; rewrite length_set; [exact L|apply nth_error_Some; congruence]).
  destruct S as [s x|s i|s c2 k E Kh R Ne|s c2 k E Kh R|s c2 k E Kh|s c2 k E Kh R|s c2 k E Kh R|s c2 k x r E Ka Kc Kn|s c2 k x E Kc|s c2 k x E Kc|s c2 k x E Kc|s c2 k i x p1 p2 P E|s c2 i x p1 p2 P|s c2 k i x p1 p2 P E|s c2 i x p1 p2 P|s i A|s c2 k E|s].
  1:{ discriminate. }
  1:{ cbn [s_conns]. split; [rewrite app_length; lia|]. unfold mu. cbn [s_conns s_pending moves]. rewrite nth_error_app1 by exact L. unfold hm, upd. cbn [s_id]. lia. }
  all: try (split; [exact (Len _ _ _ E)|]; unfold with_conn; rewrite (mu_set s c2 c k) by auto; unfold mu; cbn [moves]; try rewrite (Nat.eqb_sym c2 c); destruct (Nat.eqb_spec c c2) as [->|Nq]; [rewrite E|lia]).
  - unfold hm, upd. cbn [k_handler k_local k_net]. rewrite Kh. destruct (N.eq_dec (s_id s) (s_id s)); [|contradiction]. destruct (N.eq_dec (k_local k) (s_id s)); [contradiction|]. unfold cm; cbn [k_client]. lia.
  - unfold hm, upd, cm. cbn [k_handler k_local k_net k_client]. lia.
  - unfold hm, upd, cm. cbn [k_handler k_local k_net k_client]. rewrite Kh, app_length. cbn [length]. lia.
  - unfold hm, upd, cm. cbn [k_handler k_local k_net k_client]. rewrite Kh. lia.
  - unfold hm, upd, cm. cbn [k_handler k_local k_net k_client]. lia.
  - unfold hm, upd, cm. cbn [k_handler k_local k_net k_client]. rewrite Kn, Kc. cbn [length]. lia.
  - unfold hm, upd, cm. cbn [k_handler k_local k_net k_client]. rewrite Kc. lia.
  - unfold hm, upd, cm. cbn [k_handler k_local k_net k_client]. rewrite Kc. lia.
  - split; [exact (Len _ _ _ E)|]. rewrite (mu_set s c2 c k) by auto. unfold mu. cbn [moves]. rewrite (Nat.eqb_sym c2 c). rewrite filter_app, app_length. cbn [filter from]. rewrite (Nat.eqb_sym c2 c). destruct (Nat.eqb_spec c c2) as [->|Nq]; [rewrite E|cbn [length]; lia].
    unfold hm, upd, cm. cbn [k_handler k_local k_net k_client length]. rewrite Kc. lia.
  - split; [exact (Len _ _ _ E)|]. rewrite (mu_set s c2 c k) by auto. unfold mu. cbn [moves]. rewrite P, !filter_app, !app_length. cbn [filter from]. rewrite (Nat.eqb_sym c2 c). destruct (Nat.eqb_spec c c2) as [->|Nq]; [rewrite E|lia].
    unfold hm, upd, cm. cbn [k_handler k_local k_net k_client length]. lia.
  - split; [exact L|]. unfold mu. cbn [moves s_conns s_pending]. rewrite P, !filter_app, !app_length. cbn [filter from]. unfold hm, upd. cbn [s_id]. destruct (Nat.eqb c2 c); cbn [length]; lia.
  - split; [exact (Len _ _ _ E)|]. rewrite (mu_set s c2 c k) by auto. unfold mu. cbn [moves]. rewrite P, !filter_app, !app_length. cbn [filter from]. rewrite (Nat.eqb_sym c2 c). destruct (Nat.eqb_spec c c2) as [->|Nq]; [rewrite E|lia].
    unfold hm, upd, cm. cbn [k_handler k_local k_net k_client length]. lia.
  - split; [exact L|]. unfold mu. cbn [moves s_conns s_pending]. rewrite P, !filter_app, !app_length. cbn [filter from]. unfold hm, upd. cbn [s_id]. destruct (Nat.eqb c2 c); cbn [length]; lia.
  - split; [exact L|]. cbn [moves]. lia.
  - unfold hm, upd, cm. cbn [k_handler k_local k_net k_client]. lia.
  - split; [exact L|]. unfold mu. cbn [moves s_conns s_pending]. unfold hm, upd. cbn [s_id]. lia.
Qed.
Lemma mu_run c s tr s2 : run s tr s2 -> (c < length (s_conns s))%nat -> sets tr = [] -> (c < length (s_conns s2))%nat /\ (mu c s2 + count (moves c) tr <= mu c s)%nat.
Proof.
  induction 1 as [s|s tr s2 e s3 R IH St]; intros L Ns; [split; [exact L|cbn; lia]|]. rewrite sets_app in Ns. apply app_eq_nil in Ns. destruct Ns as (N1 & N2).
  destruct (IH L N1) as (L2 & M). destruct (mu_step _ _ _ c L2 St N2) as (L3 & M3). split; [exact L3|]. unfold count in *. rewrite filter_app, app_length. cbn [filter]. destruct (moves c e); cbn [length] in *; lia.
Qed.
(** After Shutdown. *)
Definition sm (c : nat) (s : st) : nat := match nth_error (s_conns s) c with Some k => match k_handler k with HWrite => 1 | _ => 0 end | None => 0 end.
Lemma sm_set s c c2 k k2 pend2 ac2 : nth_error (s_conns s) c = Some k ->
  sm c2 (mkst (s_id s) (s_running s) ac2 (set_nth c k2 (s_conns s)) pend2) = if Nat.eqb c2 c then match k_handler k2 with HWrite => 1%nat | _ => 0%nat end else sm c2 s.
Proof.
  intros E. assert (Lt : (c < length (s_conns s))%nat) by (apply nth_error_Some; congruence). unfold sm. cbn [s_conns]. destruct (Nat.eqb_spec c2 c) as [->|Nq].
  - now rewrite nth_set_same by exact Lt.
  - now rewrite nth_set_other by auto.
Qed.
Lemma sm_step s e s2 c : s_running s = false -> step s e s2 -> s_running s2 = false /\ (sm c s2 + (if is_server c e then 1 else 0) <= sm c s)%nat.
Proof.
  intros Rn S. destruct S as [s x|s i|s c2 k E Kh R Ne|s c2 k E Kh R|s c2 k E Kh|s c2 k E Kh R|s c2 k E Kh R|s c2 k x r E Ka Kc Kn|s c2 k x E Kc|s c2 k x E Kc|s c2 k x E Kc|s c2 k i x p1 p2 P E|s c2 i x p1 p2 P|s c2 k i x p1 p2 P E|s c2 i x p1 p2 P|s i A|s c2 k E|s];
    try congruence; try (split; [exact Rn|]); cbn [is_server]; unfold with_conn; try (rewrite (sm_set s c2 c k) by auto); try (rewrite (Nat.eqb_sym c2 c)); try (destruct (Nat.eqb_spec c c2) as [->|Nq]; [|lia]); cbn [k_handler]; try (unfold sm; rewrite E; lia).
  - unfold sm. cbn. lia.
  - unfold sm. cbn [s_conns]. destruct (nth_error (s_conns s) c) as [k|] eqn:E; [rewrite nth_error_app1, E; [lia|apply nth_error_Some; congruence]|]. apply nth_error_None in E. rewrite nth_error_app2 by exact E. destruct (c - length (s_conns s))%nat as [|[|?]]; cbn; lia.
  - unfold sm. rewrite E, Kh. lia.
  - unfold sm. cbn. lia.
  - unfold sm. cbn. lia.
  - lia.
  - unfold sm. cbn. split; [reflexivity|lia].
Qed.
Lemma sm_run c s tr s2 : run s tr s2 -> s_running s = false -> s_running s2 = false /\ (sm c s2 + count (is_server c) tr <= sm c s)%nat.
Proof.
  induction 1 as [s|s tr s2 e s3 R IH St]; intros L; [split; [exact L|cbn; lia]|]. destruct (IH L) as (L2 & M). destruct (sm_step _ _ _ c L2 St) as (L3 & M3).
  split; [exact L3|]. unfold count in *. rewrite filter_app, app_length. cbn [filter]. destruct (is_server c e); cbn [length] in *; lia.
Qed.
Lemma run_cons s e s2 tr s3 : step s e s2 -> run s2 tr s3 -> run s (e :: tr) s3.
Proof.
  intros S R. induction R as [s2|s2 tr s4 e2 s5 R IH S2]; [exact (r_snoc s [] s e s2 (r_nil s) S)|]. exact (r_snoc s (e :: tr) s4 e2 s5 (IH S) S2).
Qed.
