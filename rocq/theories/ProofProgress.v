(** Proofs for C76. *)
From Verif Require Import Base Str ModelProgress SpecProgress.
Local Open Scope N_scope.

Lemma calls_app c l1 l2 t : calls c (l1 ++ l2) t =
  let (t1, o1) := calls c l1 t in let (t2, o2) := calls c l2 t1 in (t2, o1 ++ o2).
Proof.
  revert t. induction l1 as [|[n k] l1 IH]; intros t; cbn [calls app].
  - destruct (calls c l2 t). reflexivity.
  - destruct (do_call c n k t) as (t1, o). rewrite IH. destruct (calls c l1 t1) as (t2, o1). destruct (calls c l2 t2) as (t3, o2). reflexivity.
Qed.

Lemma update_quiet c now f t : quiet c = true -> update_output c now f t = (t, []).
Proof. intros Q. unfold update_output. now rewrite Q. Qed.

Lemma do_quiet c now k t : quiet c = true -> snd (do_call c now k t) = [].
Proof.
  intros Q. destruct t. destruct k; cbn [do_call]; rewrite ?(update_quiet _ _ _ _ Q); try reflexivity.
  cbn. unfold print_stats. now rewrite Q.
Qed.

Lemma calls_quiet c l : quiet c = true -> forall t, concat (snd (calls c l t)) = [].
Proof.
  intros Q. induction l as [|[n k] l IH]; intros t; cbn [calls]; [reflexivity|].
  pose proof (do_quiet c n k t Q) as E. destruct (do_call c n k t) as (t1, o). cbn in E. subst o.
  specialize (IH t1). destruct (calls c l t1). exact IH.
Qed.

(** What UpdateOutput does to the state *)
Lemma update_state c now f t : fst (update_output c now f t) = t \/ fst (update_output c now f t) = set_timer t now.
Proof.
  unfold update_output. repeat match goal with |- context [match ?x with _ => _ end] => destruct x end; cbn; auto.
Qed.

Lemma update_timer c now f t : print_timer t <= now -> print_timer t <= print_timer (fst (update_output c now f t)) <= now.
Proof. destruct (update_state c now f t) as [E|E]; rewrite E; cbn; lia. Qed.

Lemma update_limited c now f t p : In p (snd (update_output c now f t)) -> limited p ->
  print_timer (fst (update_output c now f t)) = now /\ (f = false -> print_timer t + delay c <= now).
Proof.
  unfold update_output.
  assert (D : 0 < delay c) by (unfold delay; destruct (tty c); lia).
  destruct (quiet c); [intros []|].
  destruct (t_mode t) eqn:Em;
  repeat match goal with |- context [if ?x then _ else _] => destruct x eqn:? end; cbn [fst snd In set_timer print_timer]; intros H L;
    repeat (destruct H as [H|H]); try contradiction; subst; try (cbn in L; contradiction); split; try reflexivity; intros ->; cbn [negb andb] in *; lia.
Qed.

Lemma do_timer c now k t : print_timer t <= now -> print_timer t <= print_timer (fst (do_call c now k t)) <= now.
Proof.
  intros H. destruct t. cbn in H. destruct k; cbn [do_call]; try (cbn; lia);
    try match goal with |- context [update_output ?c ?n ?f ?x] => pose proof (update_timer c n f x) as U; cbn in U; specialize (U H);
      destruct (update_output c n f x); cbn in *; exact U end.
Qed.

Lemma do_limited c now k t p : In p (snd (do_call c now k t)) -> limited p ->
  print_timer (fst (do_call c now k t)) = now /\ (k <> Finish -> print_timer t + delay c <= now).
Proof.
  destruct t. destruct k; cbn [do_call]; try (cbn; intros []);
    try match goal with |- context [update_output ?c ?n ?f ?x] => pose proof (update_limited c n f x p) as U; cbn in U;
      destruct (update_output c n f x); cbn in *; intros X L; destruct (U X L); split; [assumption|intros; auto; congruence] end.
  all: try (unfold print_stats; destruct (quiet c); cbn; intros H L; repeat (destruct H as [H|H]); try contradiction; subst; cbn in L; contradiction).
Qed.

Fixpoint nondecreasing (from : N) (l : list N) : Prop :=
  match l with [] => True | x :: r => from <= x /\ nondecreasing x r end.

Lemma nondec_app from l1 x l2 : nondecreasing from (l1 ++ x :: l2) -> nondecreasing from l1 /\ nondecreasing x l2 /\ from <= x.
Proof.
  revert from. induction l1 as [|y l1 IH]; cbn; intros from H; [split; [auto|]; split; [apply H|]; apply H|].
  destruct H as (H1 & H2). destruct (IH _ H2) as (A & B & C). split; [auto|]. split; [auto|]. lia.
Qed.

Lemma nondec_weak a b l : a <= b -> nondecreasing b l -> nondecreasing a l.
Proof. destruct l; cbn; [auto|]. intros H (H1 & H2). split; [lia|auto]. Qed.

Lemma calls_timer c l : forall t from, print_timer t <= from -> nondecreasing from (map fst l) ->
  print_timer t <= print_timer (fst (calls c l t)).
Proof.
  induction l as [|[n k] l IH]; intros t from H M; cbn [calls]; [cbn; lia|]. cbn in M. destruct M as (M1 & M2).
  pose proof (do_timer c n k t ltac:(lia)) as D. destruct (do_call c n k t) as (t1, o). cbn in D.
  specialize (IH t1 n ltac:(lia) M2). destruct (calls c l t1). cbn in *. lia.
Qed.
Lemma calls_timer_le c l x : forall t from, print_timer t <= from -> nondecreasing from (map fst l ++ [x]) ->
  print_timer (fst (calls c l t)) <= x.
Proof.
  induction l as [|[n k] l IH]; intros t from H M; cbn [calls]; [cbn in *; lia|]. cbn in M. destruct M as (M1 & M2).
  pose proof (do_timer c n k t ltac:(lia)) as D. destruct (do_call c n k t) as (t1, o). cbn in D.
  specialize (IH t1 n ltac:(lia) M2). destruct (calls c l t1). cbn in *. lia.
Qed.

Lemma calls_nth c : forall l i n k t, nth_error l i = Some (n, k) ->
  nth_error (snd (calls c l t)) i = Some (snd (do_call c n k (fst (calls c (firstn i l) t)))).
Proof.
  induction l as [|[n0 k0] l IH]; intros [|i] n k t H; try discriminate.
  - cbn in H. injection H as -> ->. cbn [firstn calls fst]. destruct (do_call c n k t) as (t1, o). destruct (calls c l t1). reflexivity.
  - cbn [nth_error] in H. cbn [firstn calls]. destruct (do_call c n0 k0 t) as (t1, o). specialize (IH i n k t1 H).
    destruct (calls c l t1) as (t2, o2). destruct (calls c (firstn i l) t1) as (t3, o3). exact IH.
Qed.

Lemma rate c l from t i j n1 k1 n2 k2 o1 o2 p q : print_timer t <= from -> nondecreasing from (map fst l) -> (i < j)%nat ->
  nth_error l i = Some (n1, k1) -> nth_error l j = Some (n2, k2) ->
  nth_error (snd (calls c l t)) i = Some o1 -> nth_error (snd (calls c l t)) j = Some o2 ->
  In p o1 -> limited p -> In q o2 -> limited q -> k2 <> Finish -> n1 + delay c <= n2.
Proof.
  intros H M Lt E1 E2 O1 O2 P1 P2 Q1 Q2 K.
  rewrite (calls_nth c l i n1 k1 t E1) in O1. rewrite (calls_nth c l j n2 k2 t E2) in O2.
  injection O1 as <-. injection O2 as <-.
  apply do_limited in P1; [|exact P2]. apply do_limited in Q1; [|exact Q2]. destruct P1 as (P1 & _). destruct Q1 as (_ & Q1). specialize (Q1 K).
  pose proof (firstn_skipn (Datatypes.S i) (firstn j l)) as F.
  rewrite firstn_firstn, Nat.min_l in F by lia.
  assert (F2 : firstn (Datatypes.S i) l = firstn i l ++ [(n1, k1)]).
  { clear -E1. revert i E1. induction l as [|x l IH]; intros [|i] E; try discriminate; [cbn in E; injection E as ->; reflexivity|].
    cbn [firstn app]. f_equal. apply IH. exact E. }
  rewrite F2, <- app_assoc in F. cbn [app] in F. remember (skipn (Datatypes.S i) (firstn j l)) as mid eqn:Em.
  rewrite <- F, calls_app in Q1. cbn [calls] in Q1.
  destruct (calls c (firstn i l) t) as (t1, x1). cbn [fst] in *.
  destruct (do_call c n1 k1 t1) as (t2, x2). cbn [fst] in P1. 
  assert (M2 : nondecreasing n1 (map fst mid)).
  { assert (X : exists r, l = firstn i l ++ (n1, k1) :: mid ++ r).
    { exists (skipn j l). rewrite <- (firstn_skipn j l) at 1. rewrite <- F at 1. rewrite <- app_assoc. reflexivity. }
    destruct X as (r & X). rewrite X, map_app in M. cbn [map fst] in M. apply nondec_app in M. destruct M as (_ & M & _).
    rewrite map_app in M. clear -M. revert M. generalize n1. induction (map fst mid) as [|x l' IH]; cbn; [auto|]. intros n (A & B). auto. }
  pose proof (calls_timer c mid t2 n1 ltac:(lia) M2) as T.
  destruct (calls c mid t2) as (t3, x3). cbn [fst] in *. lia.
Qed.

(** ** The lines of a file *)
Lemma copy_reports c rs : only_total c = false -> forall t, t_mode t = MCopy ->
  exists t' os, calls c (map (fun r => (fst r, CopyProgress (snd r))) rs) t = (t', os) /\ t_mode t' = MCopy /\ cur_path t' = cur_path t /\
    filter p_newline (concat os) = [].
Proof.
  intros V. induction rs as [|[n b] rs IH]; intros t M; cbn [map calls fst snd].
  - exists t, []. auto.
  - destruct t. cbn in M. subst. cbn [do_call].
    unfold update_output at 1. cbn [ModelProgress.t_mode]. rewrite V. cbn [andb negb].
    destruct (quiet c); [|match goal with |- context [n - ?x <? delay c] => destruct (n - x <? delay c) end].
    all: match goal with |- context [calls _ _ ?x] => destruct (IH x eq_refl) as (t' & os & E & M' & P' & F') end;
      rewrite E; exists t'; eexists; split; [reflexivity|]; split; [exact M'|]; split; [exact P'|]; cbn [concat app]; 
      rewrite ?filter_app; cbn [filter p_newline]; exact F'.
Qed.

Lemma sync_reports c rs : only_total c = false -> forall t, t_mode t = MSyncDiff \/ t_mode t = MSyncSig ->
  exists t' os, calls c (map (fun r => (fst r, SyncProgress (fst (snd r)) (snd (snd r)))) rs) t = (t', os) /\ (t_mode t' = MSyncDiff \/ t_mode t' = MSyncSig) /\
    cur_path t' = cur_path t /\ filter p_newline (concat os) = [].
Proof.
  intros V. induction rs as [|[n [a b]] rs IH]; intros t M; cbn [map calls fst snd].
  - exists t, []. auto.
  - destruct t. cbn in M. cbn [do_call].
    assert (M2 : let m' := (if 0 <? a then MSyncDiff else if 0 <? b then MSyncSig else t_mode) in m' = MSyncDiff \/ m' = MSyncSig)
      by (cbn; destruct (0 <? a), (0 <? b); auto).
    cbn in M2. remember (if 0 <? a then MSyncDiff else if 0 <? b then MSyncSig else t_mode) as m' eqn:Em. clear Em M.
    unfold update_output at 1. cbn [ModelProgress.t_mode]. rewrite V. cbn [andb negb].
    destruct M2; subst m'; (destruct (quiet c); [|match goal with |- context [n - ?x <? delay c] => destruct (n - x <? delay c) end]);
      (match goal with |- context [calls _ _ ?x] => destruct (IH x ltac:(cbn; auto)) as (t' & os & E & M' & P' & F') end;
       rewrite E; exists t'; eexists; split; [reflexivity|]; split; [exact M'|]; split; [exact P'|]; cbn [concat app];
       rewrite ?filter_app; cbn [filter p_newline]; exact F').
Qed.

Lemma finish_file c now t : only_total c = false -> quiet c = false -> t_mode t = MCopy \/ t_mode t = MSyncDiff \/ t_mode t = MSyncSig ->
  exists t' op a b, do_call c now Finish t = (t', [mkp (LFile op (cur_path t) 1 1 a b) true]) /\ t_mode t' = MIdle.
Proof.
  intros V Q M. destruct t. cbn in M. cbn [do_call]. unfold update_output. cbn [ModelProgress.t_mode]. rewrite V, Q. cbn [andb negb].
  destruct M as [->|[->| ->]]; cbn; eexists _, _, _, _; split; reflexivity.
Qed.

Lemma job_lines c j t : only_total c = false -> quiet c = false ->
  exists t' os op a b, calls c (job_calls j) t = (t', os) /\ filter p_newline (concat os) = [mkp (LFile op (job_path j) 1 1 a b) true].
Proof.
  intros V Q. destruct j as [t0 p sz rs t1|t0 p cs ss rs t1]; cbn [job_calls calls]; destruct t; cbn [do_call].
  - match goal with |- context [calls c (_ ++ _) ?x] => remember x as y eqn:Ey end.
    rewrite calls_app. destruct (copy_reports c rs V y ltac:(subst; reflexivity)) as (t' & os & E & M & P & F). rewrite E.
    cbn [calls]. destruct (finish_file c t1 t' V Q ltac:(auto)) as (t2 & op & a & b & E2 & M2). rewrite E2.
    eexists _, _, op, a, b. split; [reflexivity|]. cbn [concat app]. rewrite concat_app, filter_app, F. cbn. rewrite P, Ey. reflexivity.
  - match goal with |- context [calls c (_ ++ _) ?x] => remember x as y eqn:Ey end.
    rewrite calls_app. destruct (sync_reports c rs V y ltac:(subst; cbn; auto)) as (t' & os & E & M & P & F). rewrite E.
    cbn [calls]. destruct (finish_file c t1 t' V Q ltac:(tauto)) as (t2 & op & a & b & E2 & M2). rewrite E2.
    eexists _, _, op, a, b. split; [reflexivity|]. cbn [concat app]. rewrite concat_app, filter_app, F. cbn. rewrite P, Ey. reflexivity.
Qed.

Lemma jobs_lines c js : only_total c = false -> quiet c = false -> forall t,
  Forall2 (fun j p => exists op a b, p = mkp (LFile op (job_path j) 1 1 a b) true) js (permanent (snd (calls c (flat_map job_calls js) t))).
Proof.
  intros V Q. induction js as [|j js IH]; intros t; cbn [flat_map]; [constructor|].
  rewrite calls_app. destruct (job_lines c j t V Q) as (t' & os & op & a & b & E & F). rewrite E.
  specialize (IH t'). destruct (calls c (flat_map job_calls js) t') as (t2, o2). cbn [snd] in *.
  unfold permanent in *. rewrite concat_app, filter_app, F. cbn [app]. constructor; [eauto|exact IH].
Qed.

(** ** Totals *)
Definition not_stats (k : call) : Prop := match k with FileStats _ _ _ _ _ _ _ _ _ _ => False | _ => True end.
Definition sums (t : tracker) := (all_copied t, all_diffed t, all_sig t).
Definition goals (t : tracker) := (all_to_copy t, all_to_diff t, all_to_sig t).

Lemma update_sums c now f t : sums (fst (update_output c now f t)) = sums t /\ goals (fst (update_output c now f t)) = goals t /\
  t_mode (fst (update_output c now f t)) = t_mode t.
Proof. destruct (update_state c now f t) as [E|E]; rewrite E; auto. Qed.

Lemma total_of t t' : sums t = sums t' -> goals t = goals t' -> total_curr t = total_curr t' /\ total_all t = total_all t'.
Proof. unfold sums, goals, total_curr, total_all. intros A B. injection A as -> -> ->. injection B as -> -> ->. auto. Qed.

Lemma update_shown c now f t p x : In p (snd (update_output c now f t)) -> In x (shown_total p) -> x = progress (total_curr t) (total_all t).
Proof.
  unfold update_output. destruct (quiet c); [intros []|].
  destruct (t_mode t) eqn:Em;
  repeat match goal with |- context [if ?x then _ else _] => destruct x eqn:? end; cbn [fst snd In]; intros H L;
    repeat (destruct H as [H|H]); try contradiction; subst; cbn in L; repeat (destruct L as [L|L]); try contradiction; subst; reflexivity.
Qed.

Lemma do_shown c now k t : not_stats k ->
  total_all (fst (do_call c now k t)) = total_all t /\ total_curr t <= total_curr (fst (do_call c now k t)) /\
  forall p x, In p (snd (do_call c now k t)) -> In x (shown_total p) ->
    x = progress (total_curr (fst (do_call c now k t))) (total_all (fst (do_call c now k t))).
Proof.
  intros K. destruct t as [m ff df p sz cc ac tc cs as_ ts ss cd ad td fd tfd dd tdd pt].
  assert (G : forall b t', total_all t' = tc + td + ts / kSigFactor -> ac + ad + as_ / kSigFactor <= total_curr t' ->
     let r := update_output c now b t' in
     total_all (fst r) = tc + td + ts / kSigFactor /\ ac + ad + as_ / kSigFactor <= total_curr (fst r) /\
     forall p x, In p (snd r) -> In x (shown_total p) -> x = progress (total_curr (fst r)) (total_all (fst r))).
  { intros b t' A B r. destruct (update_sums c now b t') as (U1 & U2 & _). destruct (total_of _ _ U1 U2) as (U3 & U4). fold r in U3, U4.
    rewrite U3, U4. split; [exact A|]. split; [exact B|]. intros q x Hq Hx. eapply update_shown; eauto. }
  assert (Z : forall x, 0 < kSigFactor -> as_ / kSigFactor <= (as_ + x) / kSigFactor) by (intros x Hk; apply N.div_le_mono; lia).
  assert (Hk : 0 < kSigFactor) by reflexivity.
  destruct k; cbn [do_call not_stats] in *; try contradiction;
    try (cbn [fst snd]; split; [reflexivity|]; split; [apply N.le_refl|intros ? ? []]).
  1-3,4,5,6: apply G; [reflexivity|unfold total_curr; cbn; try specialize (Z server Hk); lia].
  assert (H1 := G true (mkt m ff df p sz cc ac tc cs as_ ts ss cd ad td fd tfd dd tdd pt) eq_refl (N.le_refl _)). cbv zeta in H1.
  destruct (update_output c now true (mkt m ff df p sz cc ac tc cs as_ ts ss cd ad td fd tfd dd tdd pt)) as (t', o). cbn [fst snd] in *. exact H1.
Qed.

Lemma progress_mono a a' b : a <= a' -> fst (progress a b) <= fst (progress a' b) /\ snd (progress a b) = snd (progress a' b) /\ fst (progress a b) <= snd (progress a b).
Proof. unfold progress. cbn. lia. Qed.

Lemma calls_shown c l : Forall (fun x => not_stats (snd x)) l -> forall t,
  let shown := flat_map shown_total (concat (snd (calls c l t))) in
  Forall (fun x => fst (progress (total_curr t) (total_all t)) <= fst x /\ snd x = N.max 1 (total_all t) /\ fst x <= snd x) shown /\
  ForallOrdPairs (fun x y => snd x = snd y /\ fst x <= fst y) shown.
Proof.
  intros H. induction H as [|[n k] l K _ IH]; intros t; cbn [calls]; [cbn; split; constructor|].
  cbn [snd] in K. pose proof (do_shown c n k t K) as (A & B & C). destruct (do_call c n k t) as (t1, o). cbn [fst snd] in *.
  specialize (IH t1). cbv zeta in IH. destruct (calls c l t1) as (t2, o2). cbn [snd concat] in *. rewrite flat_map_app.
  destruct IH as (I1 & I2). rewrite A in I1.
  assert (L1 : Forall (fun x => x = progress (total_curr t1) (total_all t)) (flat_map shown_total o)).
  { apply Forall_forall. intros x Hx. apply in_flat_map in Hx. destruct Hx as (p & Hp & Hx). rewrite <- A. eapply C; eauto. }
  clear C. split.
  - apply Forall_app. split.
    + eapply Forall_impl; [|exact L1]. intros x ->. pose proof (progress_mono _ _ (total_all t) B). unfold progress in *. cbn in *. lia.
    + eapply Forall_impl; [|exact I1]. intros x (X1 & X2 & X3). pose proof (progress_mono _ _ (total_all t) B). lia.
  - induction L1 as [|x r Hx Hr IHr]; cbn [app]; [exact I2|]. constructor; [|exact IHr]. apply Forall_app. split.
    + eapply Forall_impl; [|exact Hr]. intros y Hy. rewrite Hx, Hy. split; [reflexivity|lia].
    + eapply Forall_impl; [|exact I1]. intros y (Y1 & Y2 & Y3). rewrite Hx. split; [rewrite Y2; reflexivity|lia].
Qed.

Definition add3 (a b : N * N * N) : N * N * N := (fst (fst a) + fst (fst b), snd (fst a) + snd (fst b), snd a + snd b).

Lemma copy_sums c rs : forall t, t_mode t = MCopy -> let t' := fst (calls c (map (fun r => (fst r, CopyProgress (snd r))) rs) t) in
  t_mode t' = MCopy /\ sums t' = add3 (sums t) (sum (map snd rs), 0, 0) /\ goals t' = goals t.
Proof.
  induction rs as [|[n b] rs IH]; intros t M; cbn [map calls fst snd].
  - cbn. unfold add3, sums. cbn. rewrite !N.add_0_r. auto.
  - destruct t. cbn in M. subst. cbn [do_call].
    match goal with |- context [update_output c n false ?x] => pose proof (update_sums c n false x) as (U1 & U2 & U3); destruct (update_output c n false x) as (t1, o) end.
    cbn [fst] in *. specialize (IH t1 U3). cbv zeta in *. destruct (calls c _ t1) as (t2, o2). cbn [fst] in *.
    destruct IH as (I1 & I2 & I3). split; [exact I1|]. rewrite I2, I3, U1, U2. split; [|reflexivity].
    unfold add3, sums, sum. cbn [fst snd ModelProgress.all_copied ModelProgress.all_diffed ModelProgress.all_sig map fold_right]. apply f_equal2; [apply f_equal2|]; lia.
Qed.
Lemma sync_sums c rs : forall t, t_mode t = MSyncDiff \/ t_mode t = MSyncSig ->
  let t' := fst (calls c (map (fun r => (fst r, SyncProgress (fst (snd r)) (snd (snd r)))) rs) t) in
  (t_mode t' = MSyncDiff \/ t_mode t' = MSyncSig) /\ sums t' = add3 (sums t) (0, sum (map (fun r => fst (snd r)) rs), sum (map (fun r => snd (snd r)) rs)) /\ goals t' = goals t.
Proof.
  induction rs as [|[n [a b]] rs IH]; intros t M; cbn [map calls fst snd].
  - cbn. unfold add3, sums. cbn. rewrite !N.add_0_r. auto.
  - destruct t. cbn in M. cbn [do_call].
    match goal with |- context [update_output c n false ?x] => pose proof (update_sums c n false x) as (U1 & U2 & U3); destruct (update_output c n false x) as (t1, o) end.
    cbn [fst] in *. assert (M1 : ModelProgress.t_mode t1 = MSyncDiff \/ ModelProgress.t_mode t1 = MSyncSig) by (rewrite U3; cbn; destruct (0 <? a), (0 <? b); auto).
    specialize (IH t1 M1). cbv zeta in *. destruct (calls c _ t1) as (t2, o2). cbn [fst] in *.
    destruct IH as (I1 & I2 & I3). split; [exact I1|]. rewrite I2, I3, U1, U2. split; [|reflexivity].
    unfold add3, sums, sum. cbn [fst snd ModelProgress.all_copied ModelProgress.all_diffed ModelProgress.all_sig map fold_right]. apply f_equal2; [apply f_equal2|]; lia.
Qed.

Lemma job_sums c j t : adds_up j -> exists tm os t' o tf,
  calls c (job_calls j) t = (t', os ++ [o]) /\ do_call c tf Finish tm = (t', o) /\ (t_mode tm = MCopy \/ t_mode tm = MSyncDiff \/ t_mode tm = MSyncSig) /\
  sums tm = add3 (sums t) (copy_size j, client_size j, server_size_of j) /\ goals tm = goals t /\ sums t' = sums tm /\ goals t' = goals t.
Proof.
  intros A. destruct j as [t0 p sz rs t1|t0 p cs ss rs t1]; cbn [job_calls calls adds_up] in *; destruct t as [m ff df p0 sz0 cc ac tc cs0 as_ ts ss0 cd ad td fd tfd dd tdd pt]; cbn [do_call].
  - match goal with |- context [calls c (_ ++ _) ?x] => pose proof (copy_sums c rs x eq_refl) as (M & S1 & G1); remember x as y eqn:Ey end.
    rewrite calls_app. destruct (calls c _ y) as (tm, os). cbn [fst] in *. cbn [calls].
    destruct (do_call c t1 Finish tm) as (t', o) eqn:Ed. exists tm, ([] :: os), t', o, t1. split; [reflexivity|]. split; [exact Ed|].
    split; [auto|]. rewrite S1, G1, A. rewrite Ey. split; [reflexivity|]. split; [reflexivity|].
    assert (X : sums t' = sums tm /\ goals t' = goals tm).
    { destruct tm. cbn [do_call] in Ed. match type of Ed with context [update_output ?c ?n ?f ?x] => pose proof (update_sums c n f x) as (U1 & U2 & _); destruct (update_output c n f x) end.
      injection Ed as <- <-. cbn [fst] in *. split; [exact U1|exact U2]. }
    destruct X as (X1 & X2). rewrite X1, X2, S1, G1, A, Ey. auto.
  - destruct A as (A1 & A2).
    match goal with |- context [calls c (_ ++ _) ?x] => pose proof (sync_sums c rs x ltac:(cbn; auto)) as (M & S1 & G1); remember x as y eqn:Ey end.
    rewrite calls_app. destruct (calls c _ y) as (tm, os). cbn [fst] in *. cbn [calls].
    destruct (do_call c t1 Finish tm) as (t', o) eqn:Ed. exists tm, ([] :: os), t', o, t1. split; [reflexivity|]. split; [exact Ed|].
    split; [tauto|]. rewrite S1, G1, A1, A2. rewrite Ey. split; [reflexivity|]. split; [reflexivity|].
    assert (X : sums t' = sums tm /\ goals t' = goals tm).
    { destruct tm. cbn [do_call] in Ed. match type of Ed with context [update_output ?c ?n ?f ?x] => pose proof (update_sums c n f x) as (U1 & U2 & _); destruct (update_output c n f x) end.
      injection Ed as <- <-. cbn [fst] in *. split; [exact U1|exact U2]. }
    destruct X as (X1 & X2). rewrite X1, X2, S1, G1, A1, A2, Ey. auto.
Qed.

Definition job_sum (js : list job) : N * N * N := (sum (map copy_size js), sum (map client_size js), sum (map server_size_of js)).
Lemma jobs_sums c js : Forall adds_up js -> forall t,
  sums (fst (calls c (flat_map job_calls js) t)) = add3 (sums t) (job_sum js) /\ goals (fst (calls c (flat_map job_calls js) t)) = goals t.
Proof.
  intros H. induction H as [|j js A _ IH]; intros t; cbn [flat_map].
  - cbn. unfold add3, sums. cbn. rewrite !N.add_0_r. auto.
  - rewrite calls_app. destruct (job_sums c j t A) as (tm & os & t' & o & tf & E & _ & _ & S1 & _ & S2 & G2). rewrite E.
    destruct (IH t') as (I1 & I2). destruct (calls c _ t') as (t2, o2). cbn [fst] in *. rewrite I1, I2, S2, S1, G2. split; [|reflexivity].
    unfold add3, job_sum, sum. cbn [fst snd map fold_right]. apply f_equal2; [apply f_equal2|]; lia.
Qed.

Definition deletion (k : call) : Prop := match k with StartDelete | FileDeleted _ | DirDeleted _ | Finish => True | _ => False end.
Lemma deletion_sums c l : Forall (fun x => deletion (snd x)) l -> forall t, sums (fst (calls c l t)) = sums t /\ goals (fst (calls c l t)) = goals t.
Proof.
  intros H. induction H as [|[n k] l K _ IH]; intros t; cbn [calls]; [auto|].
  assert (X : sums (fst (do_call c n k t)) = sums t /\ goals (fst (do_call c n k t)) = goals t).
  { destruct t. cbn in K. destruct k; try contradiction; cbn [do_call]; auto;
      match goal with |- context [update_output ?c ?n ?f ?x] => pose proof (update_sums c n f x) as (U1 & U2 & _); destruct (update_output c n f x) end; cbn [fst] in *; auto. }
  destruct (do_call c n k t) as (t1, o). cbn [fst] in X. destruct X as (X1 & X2). destruct (IH t1) as (I1 & I2). destruct (calls c l t1). cbn [fst] in *.
  now rewrite I1, I2, X1, X2.
Qed.

Lemma finish_total c now t n : only_total c = true -> quiet c = false -> t_mode t = MCopy \/ t_mode t = MSyncDiff \/ t_mode t = MSyncSig ->
  total_curr t = n -> total_all t = n -> 0 < n -> snd (do_call c now Finish t) = [mkp (LTotal n n) true].
Proof.
  intros V Q M E1 E2 L. assert (X : update_output c now true t = (set_timer t now, [mkp (LTotal n n) true])).
  { unfold update_output. rewrite V, Q, E1, E2. unfold progress, is_one. cbn [fst snd].
    replace (N.max 1 n) with n by lia. replace (N.min n n) with n by lia. rewrite N.eqb_refl. cbn [andb negb].
    destruct M as [M|[M|M]]; rewrite M; reflexivity. }
  destruct t. cbn [do_call]. rewrite X. reflexivity.
Qed.

Lemma total_complete c pre js t n : quiet c = false -> only_total c = true -> js <> [] -> Forall adds_up js ->
  Forall (fun x => deletion (snd x)) pre -> sums t = (0, 0, 0) -> goals t = job_sum js ->
  n = fst (fst (job_sum js)) + snd (fst (job_sum js)) + snd (job_sum js) / 40 -> 0 < n ->
  exists os, snd (calls c (pre ++ flat_map job_calls js) t) = os ++ [[mkp (LTotal n n) true]].
Proof.
  intros Q V Ne A P S0 G0 En L.
  destruct (exists_last Ne) as (js' & j & ->). apply Forall_app in A. destruct A as (A1 & A2). inversion A2 as [|? ? Aj _]. subst.
  rewrite calls_app. destruct (deletion_sums c pre P t) as (D1 & D2). destruct (calls c pre t) as (t1, o1). cbn [fst] in *.
  rewrite flat_map_app. cbn [flat_map]. rewrite app_nil_r, calls_app.
  destruct (jobs_sums c js' A1 t1) as (J1 & J2). destruct (calls c (flat_map job_calls js') t1) as (t2, o2). cbn [fst] in *.
  destruct (job_sums c j t2 Aj) as (tm & os & t' & o & tf & E & Ef & M & S1 & G1 & _). rewrite E. cbn [snd].
  exists (o1 ++ o2 ++ os). rewrite <- !app_assoc. do 4 f_equal.
  assert (S2 : sums tm = job_sum (js' ++ [j])).
  { rewrite S1, J1, D1, S0. unfold add3, job_sum, sum. cbn [fst snd].
    rewrite !map_app. cbn [map]. assert (F : forall l x, fold_right N.add 0 (l ++ [x]) = fold_right N.add 0 l + x)
      by (intros l x; induction l; cbn [app fold_right]; lia).
    rewrite !F. apply f_equal2; [apply f_equal2|]; lia. }
  assert (G2 : goals tm = job_sum (js' ++ [j])) by (rewrite G1, J2, D2; exact G0).
  replace o with (snd (do_call c tf Finish tm)) by (rewrite Ef; reflexivity).
  apply finish_total; auto.
  - unfold total_curr. unfold sums in S2. rewrite <- S2. reflexivity.
  - unfold total_all. unfold goals in G2. rewrite <- G2. reflexivity.
Qed.

(** ** Deleted and found files *)
Definition del_calls (ds : list (N * (bool * bytes))) : list (N * call) :=
  map (fun d : N * (bool * bytes) => (fst d, if fst (snd d) then DirDeleted (snd (snd d)) else FileDeleted (snd (snd d)))) ds.
Lemma deleted_lines c ds : quiet c = false -> only_total c = false -> forall t, t_mode t = MDelete -> 0 < all_files_to_delete t + all_dirs_to_delete t ->
  t_mode (fst (calls c (del_calls ds) t)) = MDelete /\
  all_files_to_delete (fst (calls c (del_calls ds) t)) + all_dirs_to_delete (fst (calls c (del_calls ds) t)) = all_files_to_delete t + all_dirs_to_delete t /\
  concat (snd (calls c (del_calls ds) t)) =
  map (fun x => mkp (LDeletedPath (snd (snd (snd x))) (files_deleted t + dirs_deleted t + N.of_nat (fst x)) (all_files_to_delete t + all_dirs_to_delete t)) true)
    (combine (seq 1 (length ds)) ds).
Proof.
  intros Q V. induction ds as [|[n [b p]] ds IH]; intros t M L; [cbn; auto|].
  change (del_calls ((n, (b, p)) :: ds)) with ((n, if b then DirDeleted p else FileDeleted p) :: del_calls ds). cbn [calls length seq combine].
  destruct t as [m ff df p0 sz0 cc ac tc cs0 as_ ts ss0 cd ad td fd tfd dd tdd pt]. cbn in M, L. subst m.
  assert (Z : tfd + tdd =? 0 = false) by lia.
  assert (E : do_call c n (if b then DirDeleted p else FileDeleted p) (mkt MDelete ff df p0 sz0 cc ac tc cs0 as_ ts ss0 cd ad td fd tfd dd tdd pt) =
    let t1 := mkt MDelete ff df p sz0 cc ac tc cs0 as_ ts ss0 cd ad td (if b then fd else fd + 1) tfd (if b then dd + 1 else dd) tdd pt in
    (t1, [mkp (LDeletedPath p (fd + dd + 1) (tfd + tdd)) true])).
  { destruct b; cbn [do_call]; unfold update_output; rewrite Q; cbn [t_mode all_files_to_delete all_dirs_to_delete]; rewrite Z, V; cbn -[N.add]; do 4 f_equal; lia. }
  rewrite E. cbv beta iota zeta.
  match goal with |- context [calls c (del_calls ds) ?x] => destruct (IH x eq_refl L) as (I1 & I2 & I3); destruct (calls c (del_calls ds) x) as (t2, o2) end.
  cbn [fst snd] in *. split; [exact I1|]. split; [exact I2|]. cbn [concat app].
  cbn [files_deleted dirs_deleted all_files_to_delete all_dirs_to_delete] in *. cbn [map fst snd]. apply f_equal2; [do 2 f_equal; lia|].
  rewrite I3. rewrite <- (seq_shift (length ds) 1).
  clear. generalize (seq 1 (length ds)). induction ds as [|d ds IHd]; intros [|s l]; cbn [map combine]; try reflexivity.
  f_equal; [|apply IHd]. cbn [fst snd]. do 2 f_equal. destruct b; lia.
Qed.

Lemma found_count c fs : forall t, t_mode t = MSearch ->
  let t' := fst (calls c (map (fun f : N * bool => (fst f, if snd f then DirFound else FileFound)) fs) t) in
  t_mode t' = MSearch /\ files_found t' = files_found t + N.of_nat (length (filter (fun f => negb (snd f)) fs)) /\
  dirs_found t' = dirs_found t + N.of_nat (length (filter (fun f => snd f) fs)).
Proof.
  induction fs as [|[n b] fs IH]; intros t M; cbn [map calls fst snd]; [cbn; rewrite !N.add_0_r; auto|].
  destruct t. cbn in M. subst.
  destruct b; cbn [do_call];
    match goal with |- context [update_output ?c ?n ?f ?x] => pose proof (update_state c n f x) as U; destruct (update_output c n f x) as (t1, o) end;
    cbn [fst] in U; (assert (M1 : t_mode t1 = MSearch) by (destruct U as [-> | ->]; reflexivity));
    specialize (IH t1 M1); cbv zeta in *; destruct (calls c _ t1) as (t2, o2); cbn [fst] in *; destruct IH as (I1 & I2 & I3);
    (split; [exact I1|]); rewrite I2, I3; cbn [filter snd negb length];
    destruct U as [-> | ->]; cbn [set_timer ModelProgress.files_found ModelProgress.dirs_found]; split; lia.
Qed.

(** ** Formatting *)
Lemma len_shorten p n : 3 <= n -> len (shorten p n) <= n /\
  (shorten p n = p /\ len p <= n \/ n < len p /\ exists a b, p = a ++ b /\ shorten p n = [46; 46; 46] ++ b /\ len b + 3 = n).
Proof.
  intros H. unfold shorten. replace (3 <=? n) with true by lia. rewrite andb_true_r.
  destruct (n <? len p) eqn:E; [|split; [lia|left; split; [reflexivity|lia]]].
  assert (X : N.of_nat (length (skipn (N.to_nat (len p - n + 3)) p)) + 3 = n).
  { rewrite skipn_length. unfold len in *. unfold byte in *. lia. }
  split.
  - unfold len at 1. rewrite app_length. cbn [length]. unfold byte in *. lia.
  - right. split; [lia|]. exists (firstn (N.to_nat (len p - n + 3)) p), (skipn (N.to_nat (len p - n + 3)) p).
    split; [now rewrite firstn_skipn|]. split; [reflexivity|]. exact X.
Qed.

Lemma len_padd s n : len (padd_right s n) = N.max (len s) n.
Proof. unfold padd_right. unfold len at 1. rewrite app_length, repeat_length. unfold len. lia. Qed.

Lemma format_int_spec n : forall u size, let (v, k) := format_int n u size in
  u <= k <= u + N.of_nat n /\ v = size / 1024 ^ (k - u) /\ (k < u + N.of_nat n -> v <= 9999) /\ (u < k -> 9999 < size / 1024 ^ (k - u - 1)).
Proof.
  induction n as [|n IH]; intros u size; cbn [format_int].
  - split; [lia|]. replace (u - u) with 0 by lia. rewrite N.pow_0_r, N.div_1_r. split; [reflexivity|]. split; intros; lia.
  - destruct (9999 <? size) eqn:E.
    + specialize (IH (u + 1) (size / 1024)). destruct (format_int n (u + 1) (size / 1024)) as (v, k).
      destruct IH as (I1 & I2 & I3 & I4). split; [lia|].
      assert (P : forall d, size / 1024 / 1024 ^ d = size / 1024 ^ (d + 1)).
      { intros d. rewrite N.div_div by (try lia; apply N.pow_nonzero; lia). f_equal. rewrite N.add_1_r, N.pow_succ_r' by lia. reflexivity. }
      split; [rewrite I2, P; do 2 f_equal; lia|]. split; [intros X; apply I3; lia|]. intros X.
      destruct (N.eq_dec k (u + 1)) as [->|Nk].
      * replace (u + 1 - u - 1) with 0 by lia. rewrite N.pow_0_r, N.div_1_r. lia.
      * specialize (I4 ltac:(lia)). rewrite P in I4. replace (k - u - 1) with (k - (u + 1) - 1 + 1) by lia. exact I4.
    + split; [lia|]. replace (u - u) with 0 by lia. rewrite N.pow_0_r, N.div_1_r. split; [reflexivity|]. split; intros; lia.
Qed.

Lemma update_lasting c now f t p a b : In p (snd (update_output c now f t)) -> p_line p = LTotal a b -> p_newline p = true -> a = b.
Proof.
  unfold update_output. destruct (quiet c); [intros []|].
  destruct (t_mode t) eqn:Em;
  repeat match goal with |- context [if ?x then _ else _] => destruct x eqn:? end; cbn [fst snd In]; intros H L K;
    repeat (destruct H as [H|H]); try contradiction; subst; cbn [p_line p_newline] in *; try discriminate L;
    injection L as <- <-; apply andb_prop in K; destruct K as (_ & K); apply N.eqb_eq in K; exact K.
Qed.
Lemma do_lasting c now k t p a b : In p (snd (do_call c now k t)) -> p_line p = LTotal a b -> p_newline p = true -> a = b.
Proof.
  destruct t. destruct k; cbn [do_call]; try (cbn; intros []);
    try match goal with |- context [update_output ?c ?n ?f ?x] => pose proof (update_lasting c n f x p a b) as U;
      destruct (update_output c n f x); cbn in *; exact U end.
  all: try (unfold print_stats; destruct (quiet c); cbn; intros H L; repeat (destruct H as [H|H]); try contradiction; subst; cbn in L; discriminate).
  all: subst; discriminate.
Qed.
Lemma calls_lasting c l : forall t p a b, In p (concat (snd (calls c l t))) -> p_line p = LTotal a b -> p_newline p = true -> a = b.
Proof.
  induction l as [|[n k] l IH]; intros t p a b; cbn [calls]; [intros []|].
  pose proof (do_lasting c n k t p a b) as D. destruct (do_call c n k t) as (t1, o). specialize (IH t1 p a b).
  destruct (calls c l t1) as (t2, o2). cbn [snd concat] in *. intros H. apply in_app_or in H. destruct H; auto.
Qed.
