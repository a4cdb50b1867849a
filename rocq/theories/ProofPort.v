(** Proofs for C58. *)
From Verif Require Import Base ListX SpecPort ModelPort.
From Coq Require Import Lia.
Local Notation str := (list N).

(** ** The multimap *)
Definition lex (a b : N * nat) : Prop := (fst a < fst b)%N \/ (fst a = fst b /\ (snd a <= snd b)%nat).
Lemma lex_trans a b c : lex a b -> lex b c -> lex a c.
Proof. unfold lex. lia. Qed.
Lemma mm_insert_in k v l y : In y (mm_insert k v l) <-> y = (k, v) \/ In y l.
Proof.
  induction l as [|(k2, v2) l IH]; cbn [mm_insert]; [cbn; intuition congruence|].
  destruct (k2 <=? k)%N; cbn [In]; [rewrite IH|]; cbn [In]; intuition congruence.
Qed.
Lemma mm_insert_sorted k v l : StronglySorted lex l -> (forall y, In y l -> (snd y < v)%nat) -> StronglySorted lex (mm_insert k v l).
Proof.
  induction l as [|(k2, v2) l IH]; intros S B; cbn [mm_insert]; [constructor; [constructor|constructor]|].
  inversion S as [|? ? S2 F]; subst. destruct (N.leb_spec k2 k) as [L|L].
  - constructor; [apply IH; [exact S2|intros y Hy; apply B; now right]|]. apply Forall_forall. intros y Hy. apply mm_insert_in in Hy. destruct Hy as [-> |Hy].
    + pose proof (B (k2, v2) (or_introl eq_refl)) as Q. cbn in Q. unfold lex. cbn. lia.
    + rewrite Forall_forall in F. auto.
  - constructor; [exact S|]. assert (X : lex (k, v) (k2, v2)) by (unfold lex; cbn; lia). constructor; [exact X|].
    apply Forall_forall. intros y Hy. rewrite Forall_forall in F. exact (lex_trans _ _ _ X (F _ Hy)).
Qed.
Lemma mm_fill_in acc : forall n l x i, In (x, i) (mm_fill n acc l) <-> In (x, i) l \/ ((n <= i)%nat /\ nth_error acc (i - n) = Some x).
Proof.
  induction acc as [|t acc IH]; intros n l x i; cbn [mm_fill].
  - split; [tauto|]. intros [H|(_ & H)]; [exact H|]. destruct (i - n)%nat; discriminate.
  - rewrite IH, mm_insert_in. split.
    + intros [[E|H]|(L & H)]; [|tauto|].
      * inversion E; subst. right. split; [lia|]. now rewrite Nat.sub_diag.
      * right. split; [lia|]. replace (i - n)%nat with (S (i - S n)) by lia. exact H.
    + intros [H|(L & H)]; [tauto|]. destruct (Nat.eq_dec i n) as [-> |Ne].
      * rewrite Nat.sub_diag in H. cbn in H. left. left. congruence.
      * right. split; [lia|]. replace (i - n)%nat with (S (i - S n)) in H by lia. exact H.
Qed.
Lemma mm_fill_sorted acc : forall n l, StronglySorted lex l -> (forall y, In y l -> (snd y < n)%nat) -> StronglySorted lex (mm_fill n acc l).
Proof.
  induction acc as [|t acc IH]; intros n l S B; cbn [mm_fill]; [exact S|]. apply IH; [apply mm_insert_sorted; assumption|].
  intros y Hy. apply mm_insert_in in Hy. destruct Hy as [-> |Hy]; [cbn; lia|]. specialize (B _ Hy). lia.
Qed.
Lemma mm_fill_length acc : forall n l, length (mm_fill n acc l) = (length acc + length l)%nat.
Proof.
  assert (I : forall k v l, length (mm_insert k v l) = S (length l)) by (intros k v l; induction l as [|(k2, v2) l IH]; cbn [mm_insert length]; [reflexivity|]; destruct (k2 <=? k)%N; cbn [length]; lia).
  induction acc as [|t acc IH]; intros n l; cbn [mm_fill length]; [reflexivity|]. rewrite IH, I. lia.
Qed.
Lemma mem_nat_in p l : mem_nat p l = true <-> In p l.
Proof.
  unfold mem_nat. rewrite existsb_exists. split; [intros (x & H & E); apply Nat.eqb_eq in E; now subst|]. intros H. exists p. split; [exact H|apply Nat.eqb_refl].
Qed.

(** ** Traces *)
Lemma stamp_snoc p tr e : stamp p (tr ++ [e]) =
  match e with
  | EReserved _ q n | EOccupied _ q n | EUndo _ q n => if Nat.eqb q p then n else stamp p tr
  | EReleased _ q => if Nat.eqb q p then 0%N else stamp p tr
  | _ => stamp p tr
  end.
Proof. unfold stamp. now rewrite fold_left_app. Qed.
Lemma holds_snoc m p tr e : holds m p (tr ++ [e]) =
  match e with
  | EReserved m2 q _ => if Nat.eqb m2 m && Nat.eqb q p then true else holds m p tr
  | EReleased m2 q => if Nat.eqb m2 m && Nat.eqb q p then false else holds m p tr
  | ECrash m2 => if Nat.eqb m2 m then false else holds m p tr
  | _ => holds m p tr
  end.
Proof. unfold holds. now rewrite fold_left_app. Qed.
Lemma steady_now q x t1 t2 : steady q x t1 t2 -> stamp q (t1 ++ t2) = x.
Proof. intros H. apply (H t2 []). now rewrite app_nil_r. Qed.
Lemma steady_snoc q x t1 t2 e : steady q x t1 (t2 ++ [e]) -> steady q x t1 t2.
Proof. intros H a b E. apply (H a (b ++ [e])). now rewrite app_assoc, <- E. Qed.
Lemma steady_nil q t1 : steady q (stamp q t1) t1 [].
Proof. intros a b E. symmetry in E. apply app_eq_nil in E. destruct E as (-> & _). now rewrite app_nil_r. Qed.
Lemma calling_snoc m tr t1 l r t2 e : calling m tr t1 l r t2 -> bound m e = false -> calling m (tr ++ [e]) t1 l r (t2 ++ [e]).
Proof.
  intros (E & B) H. split; [rewrite E, <- app_assoc; reflexivity|]. intros e2 He. apply in_app_iff in He. destruct He as [He|[<-|[]]]; auto.
Qed.
Lemma calling_base m tr t1 l r t2 : calling m tr t1 l r t2 -> (t1 ++ [EBegin m l r]) ++ t2 = tr.
Proof. intros (-> & _). now rewrite <- app_assoc. Qed.
Lemma upd_same {A} (f : nat -> A) k v : upd f k v k = v.
Proof. unfold upd. now rewrite Nat.eqb_refl. Qed.
Lemma upd_other {A} (f : nat -> A) k v j : j <> k -> upd f k v j = f j.
Proof. intros H. unfold upd. destruct (Nat.eqb_spec j k); congruence. Qed.

Section Port.
Variables first num : nat.
Notation step := (step first num).
Notation run := (run first num).

(** ** The invariant *)
Definition good (l r : list nat) (rest : list (N * nat)) (b t2 : list event) : Prop :=
  StronglySorted lex rest /\ (forall x i, In (x, i) rest -> (i < num)%nat) /\
  forall q x, (q < num)%nat -> In (first + q)%nat l -> In (first + q)%nat r -> steady (first + q) x b t2 -> In (x, q) rest.
Definition call_inv (m : nat) (c : call) (tr : list event) : Prop :=
  match c with
  | Idle => True
  | Reading l r acc => exists t1 t2, calling m tr t1 l r t2 /\ (length acc <= num)%nat /\
      forall q x, (q < length acc)%nat -> steady (first + q) x (t1 ++ [EBegin m l r]) t2 -> nth_error acc q = Some x
  | Trying l r now rest => now <> 0%N /\ exists t1 t2, calling m tr t1 l r t2 /\ good l r rest (t1 ++ [EBegin m l r]) t2
  | Undoing l r now ts i rest => now <> 0%N /\ (i < num)%nat /\ exists t1 t2, calling m tr t1 l r t2 /\ good l r rest (t1 ++ [EBegin m l r]) t2
  end.
Record inv (tr : list event) (s : state) : Prop := mkinv {
  v_mem : forall i, (i < num)%nat -> s_mem s i = stamp (first + i) tr;
  v_held : forall m p, mem_nat p (s_reserved s m) = holds m p tr;
  v_range : forall m p, holds m p tr = true -> (first <= p < first + num)%nat;
  v_now : forall m p t, In (EReserved m p t) tr -> t <> 0%N;
  v_call : forall m, call_inv m (s_call s m) tr }.

Lemma good_snoc l r rest b t2 e : good l r rest b t2 -> good l r rest b (t2 ++ [e]).
Proof. intros (S & B & F). split; [exact S|]. split; [exact B|]. intros q x Q L R H. apply (F q x Q L R). exact (steady_snoc _ _ _ _ _ H). Qed.
Lemma good_tail l r y rest b t2 e : good l r (y :: rest) b t2 ->
  (In (first + snd y)%nat l -> In (first + snd y)%nat r -> steady (first + snd y) (fst y) b (t2 ++ [e]) -> False) -> good l r rest b (t2 ++ [e]).
Proof.
  intros (S & B & F) N. inversion S as [|? ? S2 F2]; subst. split; [exact S2|]. split; [intros x i H; apply (B x i); now right|].
  intros q x Q L R H. destruct (F q x Q L R (steady_snoc _ _ _ _ _ H)) as [-> |X]; [|exact X]. cbn in N. now specialize (N L R H).
Qed.
Lemma call_inv_other m c tr e : call_inv m c tr -> bound m e = false -> call_inv m c (tr ++ [e]).
Proof.
  intros H B. destruct c as [|l r acc|l r now rest|l r now ts i rest]; cbn in *.
  - exact Logic.I.
  - destruct H as (t1 & t2 & C & L & F). exists t1, (t2 ++ [e]). split; [now apply calling_snoc|]. split; [exact L|]. intros q x Q S. apply (F q x Q). exact (steady_snoc _ _ _ _ _ S).
  - destruct H as (Nz & t1 & t2 & C & G). split; [exact Nz|]. exists t1, (t2 ++ [e]). split; [now apply calling_snoc|]. now apply good_snoc.
  - destruct H as (Nz & Li & t1 & t2 & C & G). split; [exact Nz|]. split; [exact Li|]. exists t1, (t2 ++ [e]). split; [now apply calling_snoc|]. now apply good_snoc.
Qed.
Lemma calls_upd m c s tr e : (forall m2, call_inv m2 (s_call s m2) tr) -> (forall m2, m2 <> m -> bound m2 e = false) -> call_inv m c (tr ++ [e]) ->
  forall m2, call_inv m2 (upd (s_call s) m c m2) (tr ++ [e]).
Proof.
  intros A B C m2. destruct (Nat.eq_dec m2 m) as [-> |Ne]; [now rewrite upd_same|]. rewrite upd_other by exact Ne. apply call_inv_other; auto.
Qed.
Lemma inv_init : inv [] init.
Proof. constructor; cbn; try reflexivity; try discriminate; try contradiction; auto. Qed.

(** Steps that change nothing but the call of [m]. *)
Lemma inv_local m c s tr e : inv tr s -> (forall m2, m2 <> m -> bound m2 e = false) ->
  (match e with EInt _ | EBegin _ _ _ | EExhausted _ => True | _ => False end) -> call_inv m c (tr ++ [e]) ->
  inv (tr ++ [e]) (mks (s_mem s) (upd (s_call s) m c) (s_reserved s)).
Proof.
  intros V B K C. constructor; cbn [s_mem s_call s_reserved].
  - intros i L. rewrite stamp_snoc, (v_mem _ _ V i L). destruct e; try contradiction K; reflexivity.
  - intros m2 p. rewrite holds_snoc, (v_held _ _ V). destruct e; try contradiction K; reflexivity.
  - intros m2 p. rewrite holds_snoc. intros H. apply (v_range _ _ V m2 p). destruct e; try contradiction K; exact H.
  - intros m2 p t H. apply in_app_iff in H. destruct H as [H|[->|[]]]; [exact (v_now _ _ V _ _ _ H)|contradiction K].
  - apply calls_upd; [exact (v_call _ _ V)|exact B|exact C].
Qed.
(** Steps that mark a port. *)
Lemma inv_mark m c s tr e i now : inv tr s -> (i < num)%nat -> (forall m2, m2 <> m -> bound m2 e = false) ->
  (e = EOccupied m (first + i) now \/ e = EUndo m (first + i) now) -> call_inv m c (tr ++ [e]) ->
  inv (tr ++ [e]) (mks (upd (s_mem s) i now) (upd (s_call s) m c) (s_reserved s)).
Proof.
  intros V Li B K C. constructor; cbn [s_mem s_call s_reserved].
  - intros j L. rewrite stamp_snoc. destruct (Nat.eq_dec j i) as [-> |Ne].
    + rewrite upd_same. destruct K as [-> | ->]; now rewrite Nat.eqb_refl.
    + rewrite upd_other, (v_mem _ _ V j L) by exact Ne. destruct K as [-> | ->]; (destruct (Nat.eqb_spec (first + i) (first + j)); [lia|reflexivity]).
  - intros m2 p. rewrite holds_snoc, (v_held _ _ V). destruct K as [-> | ->]; reflexivity.
  - intros m2 p. rewrite holds_snoc. intros H. apply (v_range _ _ V m2 p). destruct K as [-> | ->]; exact H.
  - intros m2 p t H. apply in_app_iff in H. destruct H as [H|[H|[]]]; [exact (v_now _ _ V _ _ _ H)|]. destruct K as [-> | ->]; discriminate.
  - apply calls_upd; [exact (v_call _ _ V)|exact B|exact C].
Qed.

Lemma inv_step tr s e s2 : inv tr s -> step s e s2 -> inv (tr ++ [e]) s2.
Proof.
  intros V S. destruct S as [s m l r Hc Hl Hr|s m l r acc Hc Hl|s m l r acc now Hc Hl Hn|s m l r now ts i rest Hc Hm|s m l r now ts i rest Hc Hm Hl Hr|s m l r now ts i rest Hc Hm Ha|s m l r now ts i rest Hc Hm|s m l r now ts i rest Hc Hm|s m l r now Hc|s m p Hc Hp|s m].
  - apply inv_local; [exact V| |exact Logic.I|]; [intros m2 Ne; cbn; now apply Nat.eqb_neq, Nat.neq_sym|].
    cbn. exists tr, []. split; [split; [reflexivity|intros e []]|]. split; [lia|]. intros q x Q. lia.
  - apply inv_local; [exact V|reflexivity|exact Logic.I|]. pose proof (v_call _ _ V m) as C. rewrite Hc in C. destruct C as (t1 & t2 & C & L & F).
    exists t1, (t2 ++ [EInt m]). split; [now apply calling_snoc|]. rewrite app_length. cbn [length]. split; [lia|]. intros q x Q St. destruct (Nat.eq_dec q (length acc)) as [-> |Ne].
    + rewrite nth_error_app2, Nat.sub_diag by lia. cbn. f_equal. apply steady_snoc, steady_now in St. rewrite (calling_base _ _ _ _ _ _ C) in St. rewrite <- St. apply (v_mem _ _ V). exact Hl.
    + rewrite nth_error_app1 by lia. apply F; [lia|]. exact (steady_snoc _ _ _ _ _ St).
  - apply inv_local; [exact V|reflexivity|exact Logic.I|]. pose proof (v_call _ _ V m) as C. rewrite Hc in C. destruct C as (t1 & t2 & C & L & F).
    split; [exact Hn|]. exists t1, (t2 ++ [EInt m]). split; [now apply calling_snoc|]. split; [|split].
    + apply mm_fill_sorted; [constructor|intros y []].
    + intros x i H. apply mm_fill_in in H. destruct H as [[]|(_ & H)]. rewrite Nat.sub_0_r in H. assert (X : nth_error acc i <> None) by congruence. apply nth_error_Some in X. lia.
    + intros q x Q _ _ St. apply mm_fill_in. right. split; [lia|]. rewrite Nat.sub_0_r. apply F; [lia|]. exact (steady_snoc _ _ _ _ _ St).
  - apply inv_local; [exact V|reflexivity|exact Logic.I|]. pose proof (v_call _ _ V m) as C. rewrite Hc in C. destruct C as (Nz & t1 & t2 & C & G).
    split; [exact Nz|]. exists t1, (t2 ++ [EInt m]). split; [now apply calling_snoc|]. apply (good_tail _ _ _ _ _ _ _ G). cbn [fst snd]. intros _ _ St. apply Hm.
    apply steady_snoc, steady_now in St. rewrite (calling_base _ _ _ _ _ _ C) in St. rewrite <- St. apply (v_mem _ _ V). apply (proj1 (proj2 G) ts i). now left.
  - pose proof (v_call _ _ V m) as C. rewrite Hc in C. destruct C as (Nz & t1 & t2 & C & G). assert (Li : (i < num)%nat) by (apply (proj1 (proj2 G) ts i); now left).
    constructor; cbn [s_mem s_call s_reserved].
    + intros j L. rewrite stamp_snoc. destruct (Nat.eq_dec j i) as [-> |Ne]; [now rewrite upd_same, Nat.eqb_refl|]. rewrite upd_other, (v_mem _ _ V j L) by exact Ne. destruct (Nat.eqb_spec (first + i) (first + j)); [lia|reflexivity].
    + intros m2 p. rewrite holds_snoc. destruct (Nat.eqb_spec m m2) as [<-|Ne]; cbn [andb].
      * rewrite upd_same. cbn [mem_nat existsb]. change (existsb (Nat.eqb p) (s_reserved s m)) with (mem_nat p (s_reserved s m)). rewrite (v_held _ _ V), (Nat.eqb_sym p). now destruct (Nat.eqb (first + i) p).
      * rewrite upd_other by congruence. apply (v_held _ _ V).
    + intros m2 p. rewrite holds_snoc. destruct (Nat.eqb m m2 && Nat.eqb (first + i) p) eqn:E; [|apply (v_range _ _ V)]. intros _. apply andb_true_iff in E. destruct E as (_ & E). apply Nat.eqb_eq in E. lia.
    + intros m2 p t H. apply in_app_iff in H. destruct H as [H|[H|[]]]; [exact (v_now _ _ V _ _ _ H)|]. congruence.
    + apply calls_upd; [exact (v_call _ _ V)|intros m2 Ne; cbn; now apply Nat.eqb_neq, Nat.neq_sym|exact Logic.I].
  - pose proof (v_call _ _ V m) as C. rewrite Hc in C. destruct C as (Nz & t1 & t2 & C & G). assert (Li : (i < num)%nat) by (apply (proj1 (proj2 G) ts i); now left).
    apply inv_mark; [exact V|exact Li|reflexivity|now left|]. split; [exact Nz|]. split; [exact Li|]. exists t1, (t2 ++ [EOccupied m (first + i) now]). split; [now apply calling_snoc|].
    apply (good_tail _ _ _ _ _ _ _ G). cbn [fst snd]. intros A B _. apply mem_nat_in in A, B. rewrite A, B in Ha. discriminate.
  - pose proof (v_call _ _ V m) as C. rewrite Hc in C. destruct C as (Nz & Li & t1 & t2 & C & G).
    apply inv_mark; [exact V|exact Li|reflexivity|now right|]. split; [exact Nz|]. exists t1, (t2 ++ [EUndo m (first + i) now]). split; [now apply calling_snoc|]. now apply good_snoc.
  - pose proof (v_call _ _ V m) as C. rewrite Hc in C. destruct C as (Nz & Li & t1 & t2 & C & G).
    apply inv_local; [exact V|reflexivity|exact Logic.I|]. split; [exact Nz|]. exists t1, (t2 ++ [EInt m]). split; [now apply calling_snoc|]. now apply good_snoc.
  - apply inv_local; [exact V| |exact Logic.I|exact Logic.I]. intros m2 Ne; cbn; now apply Nat.eqb_neq, Nat.neq_sym.
  - assert (Hh : holds m p tr = true) by (rewrite <- (v_held _ _ V); exact Hp). pose proof (v_range _ _ V _ _ Hh) as R.
    constructor; cbn [s_mem s_call s_reserved].
    + intros j L. rewrite stamp_snoc. destruct (Nat.eq_dec j (p - first)) as [-> |Ne]; [rewrite upd_same; destruct (Nat.eqb_spec p (first + (p - first))); [reflexivity|lia]|]. rewrite upd_other, (v_mem _ _ V j L) by exact Ne. destruct (Nat.eqb_spec p (first + j)); [lia|reflexivity].
    + intros m2 q. rewrite holds_snoc. destruct (Nat.eqb_spec m m2) as [<-|Ne]; cbn [andb].
      * rewrite upd_same. rewrite <- (v_held _ _ V). clear. unfold mem_nat. induction (s_reserved s m) as [|x l IH]; cbn; [now destruct (Nat.eqb p q)|].
        destruct (Nat.eqb_spec x p) as [-> |Nx]; cbn [negb]; [rewrite IH; destruct (Nat.eqb_spec p q) as [-> |]; [reflexivity|]; destruct (Nat.eqb_spec q p); [congruence|reflexivity]|]. cbn. rewrite IH.
        destruct (Nat.eqb_spec p q) as [-> |]; [|reflexivity]. destruct (Nat.eqb_spec q x); [congruence|reflexivity].
      * rewrite upd_other by congruence. apply (v_held _ _ V).
    + intros m2 q. rewrite holds_snoc. destruct (Nat.eqb m m2 && Nat.eqb p q); [discriminate|apply (v_range _ _ V)].
    + intros m2 q t H. apply in_app_iff in H. destruct H as [H|[H|[]]]; [exact (v_now _ _ V _ _ _ H)|discriminate].
    + intros m2. apply call_inv_other; [exact (v_call _ _ V m2)|reflexivity].
  - constructor; cbn [s_mem s_call s_reserved].
    + intros i L. rewrite stamp_snoc. exact (v_mem _ _ V i L).
    + intros m2 p. rewrite holds_snoc. destruct (Nat.eqb_spec m m2) as [<-|Ne]; [now rewrite upd_same|]. rewrite upd_other by congruence. apply (v_held _ _ V).
    + intros m2 p. rewrite holds_snoc. destruct (Nat.eqb m m2); [discriminate|apply (v_range _ _ V)].
    + intros m2 p t H. apply in_app_iff in H. destruct H as [H|[H|[]]]; [exact (v_now _ _ V _ _ _ H)|discriminate].
    + apply calls_upd; [exact (v_call _ _ V)|intros m2 Ne; cbn; now apply Nat.eqb_neq, Nat.neq_sym|exact Logic.I].
Qed.
Lemma inv_run tr s : run init tr s -> inv tr s.
Proof. intros R. remember init as s0 eqn:E. induction R as [s|s tr s2 e s3 R IH St]; subst; [exact inv_init|]. exact (inv_step _ _ _ _ (IH eq_refl) St). Qed.
Lemma run_snoc_inv tr e s s3 : run s (tr ++ [e]) s3 -> exists s2, run s tr s2 /\ step s2 e s3.
Proof.
  intros R. remember (tr ++ [e]) as t eqn:E. destruct R as [s|s t2 s2 e2 s3 R St]; [destruct tr; discriminate|]. apply app_inj_tail in E. destruct E as (-> & ->). eauto.
Qed.
Lemma run_prefix tr1 tr2 s s3 : run s (tr1 ++ tr2) s3 -> exists s2, run s tr1 s2 /\ run s2 tr2 s3.
Proof.
  revert s3. induction tr2 as [|e tr2 IH] using rev_ind; intros s3 R.
  - rewrite app_nil_r in R. exists s3. split; [exact R|constructor].
  - rewrite app_assoc in R. apply run_snoc_inv in R. destruct R as (s2 & R2 & St).
    destruct (IH _ R2) as (s4 & A & B). exists s4. split; [exact A|]. exact (r_snoc _ _ _ _ _ _ _ B St).
Qed.
Lemma run_nil_inv s s2 : run s [] s2 -> s2 = s.
Proof. intros R. remember [] as t eqn:E. destruct R as [|? tr ? ? ? ? ?]; [reflexivity|destruct tr; discriminate]. Qed.
Lemma run_one s e tr s3 : run s (e :: tr) s3 -> exists s2, step s e s2 /\ run s2 tr s3.
Proof.
  intros R. change (e :: tr) with ([e] ++ tr) in R. destruct (run_prefix _ _ _ _ R) as (s2 & A & B). exists s2. split; [|exact B].
  change [e] with ([] ++ [e]) in A. apply run_snoc_inv in A. destruct A as (s4 & A & St). apply run_nil_inv in A. now subst.
Qed.

(** ** Bounded calls *)
Definition mu (c : call) : nat :=
  match c with
  | Idle => 0
  | Reading _ _ acc => (num - length acc) + 2 * num + 2
  | Trying _ _ _ rest => 2 * length rest + 1
  | Undoing _ _ _ _ _ rest => 2 * length rest + 2
  end.
Lemma mu_step s e s2 m : step s e s2 -> (match e with EBegin m2 _ _ => m2 <> m | _ => True end) ->
  (mu (s_call s2 m) + (if by_m m e then 1 else 0) <= mu (s_call s m))%nat.
Proof.
  intros S B.
  assert (K : forall m0 c, (mu c + 1 <= mu (s_call s m0))%nat -> (mu (upd (s_call s) m0 c m) + (if Nat.eqb m0 m then 1 else 0) <= mu (s_call s m))%nat).
  { intros m0 c H. destruct (Nat.eqb_spec m0 m) as [-> |Ne]; [now rewrite upd_same|]. rewrite upd_other by congruence. lia. }
  destruct S as [s m0 l r Hc Hl Hr|s m0 l r acc Hc Hl|s m0 l r acc now Hc Hl Hn|s m0 l r now ts i rest Hc Hm|s m0 l r now ts i rest Hc Hm Hl Hr|s m0 l r now ts i rest Hc Hm Ha|s m0 l r now ts i rest Hc Hm|s m0 l r now ts i rest Hc Hm|s m0 l r now Hc|s m0 p Hc Hp|s m0]; cbn [s_call by_m];
    try (apply K; rewrite Hc; cbn [mu length]; rewrite ?app_length, ?mm_fill_length; cbn [length]; lia).
  - rewrite upd_other by congruence. lia.
  - lia.
  - unfold upd. destruct (Nat.eqb m m0); cbn [mu]; lia.
Qed.
Lemma mu_run s tr s2 m : run s tr s2 -> (forall e, In e tr -> bound m e = false) -> (count (by_m m) tr + mu (s_call s2 m) <= mu (s_call s m))%nat.
Proof.
  intros R. induction R as [s|s tr s2 e s3 R IH St]; intros B; [cbn; lia|].
  assert (B2 : forall e0, In e0 tr -> bound m e0 = false) by (intros e0 He; apply B, in_app_iff; now left). specialize (IH B2).
  assert (Be : bound m e = false) by (apply B, in_app_iff; right; now left).
  pose proof (mu_step _ _ _ m St) as M. unfold count in *. rewrite filter_app, app_length. cbn [filter length].
  assert (X : match e with EBegin m2 _ _ => m2 <> m | _ => True end) by (destruct e; auto; cbn in Be; apply Nat.eqb_neq in Be; exact Be). specialize (M X). destruct (by_m m e); cbn [length]; lia.
Qed.
Lemma call_moves s m : s_call s m <> Idle -> (match s_call s m with Reading _ _ acc => (length acc <= num)%nat | _ => True end) -> exists e s2, step s e s2 /\ by_m m e = true.
Proof.
  intros Ne L. destruct (s_call s m) as [|l r acc|l r now [|(ts, i) rest]|l r now ts i rest] eqn:E; [congruence| | | |].
  - destruct (Nat.lt_ge_cases (length acc) num) as [Lt|Ge]; do 2 eexists.
    + split; [exact (P_read first num s m l r acc E Lt)|cbn; apply Nat.eqb_refl].
    + assert (Eq : length acc = num) by lia. split; [eapply (P_scan first num s m l r acc 1%N E Eq); discriminate|cbn; apply Nat.eqb_refl].
  - do 2 eexists. split; [exact (P_exhausted _ _ s m l r now E)|cbn; apply Nat.eqb_refl].
  - destruct (N.eq_dec (s_mem s i) ts) as [Em|Em].
    + destruct (mem_nat (first + i) l && mem_nat (first + i) r) eqn:Ea.
      * apply andb_true_iff in Ea. destruct Ea as (A & B). do 2 eexists. split; [exact (P_reserve _ _ s m l r now ts i rest E Em A B)|cbn; apply Nat.eqb_refl].
      * do 2 eexists. split; [exact (P_occupied _ _ s m l r now ts i rest E Em Ea)|cbn; apply Nat.eqb_refl].
    + do 2 eexists. split; [exact (P_skip _ _ s m l r now ts i rest E Em)|cbn; apply Nat.eqb_refl].
  - destruct (N.eq_dec (s_mem s i) ts) as [Em|Em]; do 2 eexists; (split; [first [exact (P_undo _ _ s m l r now ts i rest E Em) | exact (P_undo_none _ _ s m l r now ts i rest E Em)]|cbn; apply Nat.eqb_refl]).
Qed.
End Port.
